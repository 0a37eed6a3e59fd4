(** Model of the random vectors of the Monte Carlo helpers: nyx-core/src/mc/helpers.rs.

    A draw of the uniform distribution is a number of [[0, 1]]; a draw of [Normal::new(mean, sd)] is
    [mean + sd * z] for a number [z] (rand_distr).  [None] is a vector of NaNs. *)
From Coq Require Import Reals.
From Verif Require Import Base Vec3 Angles.
Local Open Scope R_scope.

(** helpers.rs:25-32 [unit_vector_from_seed], with [u] and [v] the two draws *)
Definition unit_vector_from_seed (u v : R) : v3 :=
  let theta := 2 * PI * u in
  let phi := acos (2 * v - 1) in
  V3 (cos theta * sin phi) (sin theta * sin phi) (cos phi).

(** errors.rs [NyxError::MonteCarlo], of helpers.rs:43-47 and 50-54 *)
Inductive mc_error := BadPercentage | NilDeltaV.

(** helpers.rs:37-67 [dv_pointing_error]; a nil pointing gives 0/0 *)
Definition dv_pointing_error (cur_pointing dv : v3) (error_prct3s z : R) : res mc_error (option v3) :=
  if Rlt_dec error_prct3s 0 then Err BadPercentage
  else if Rlt_dec error_prct3s 1 then
    let dv_mag := norm dv in
    if Rlt_dec dv_mag EPSILON then Err NilDeltaV
    else
      let dv_hat := vscale (/ dv_mag) dv in
      let cur_pointing_mag := norm cur_pointing in
      if Req_EM_T cur_pointing_mag 0 then Ok None
      else
        let cur_angle := acos (dot cur_pointing dv_hat / cur_pointing_mag) in
        let new_angle := cur_angle + error_prct3s / 3 * z in
        Ok (Some (vscale dv_mag (vscale (cos new_angle) dv_hat)))
  else Err BadPercentage.

(** helpers.rs:70-82 [dv_execution_error]; a nil vector gives 0/0 *)
Definition dv_execution_error (cur_pointing dv : v3) (pointing_3s mag_3s z z' : R) : res mc_error (option v3) :=
  bind (dv_pointing_error cur_pointing dv pointing_3s z) (fun o =>
  match o with
  | None => Ok None
  | Some dv =>
      let new_mag := norm dv + mag_3s / 3 * z' in
      if Req_EM_T (norm dv) 0 then Ok None else Ok (Some (vscale new_mag (vscale (/ norm dv) dv)))
  end).
