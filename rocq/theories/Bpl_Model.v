(** Model of the B-plane: nyx-core/src/cosmic/bplane.rs.  Reals in place of f64; dual numbers as in
    [Dual].  Not modelled: [Display].  The frame and the epoch of an orbit are only carried along and are
    left out, except for the gravitational parameter, [None] for a frame without it. *)
From Coq Require Import Reals.
From Verif Require Import Base Vec3 Angles Dual Util_Model.
Local Open Scope R_scope.

(** products of nalgebra on vectors of dual numbers *)
Definition d3_dot (a b : d3) : dual := dadd (dadd (dmul (ux a) (ux b)) (dmul (uy a) (uy b))) (dmul (uz a) (uz b)).
Definition d3_cross (a b : d3) : d3 :=
  D3 (dsub (dmul (uy a) (uz b)) (dmul (uz a) (uy b))) (dsub (dmul (uz a) (ux b)) (dmul (ux a) (uz b)))
     (dsub (dmul (ux a) (uy b)) (dmul (uy a) (ux b))).

(** * anise's [OrbitGrad], from its documentation: partials 1 to 3 are those in position, 4 to 6 those in
    velocity. *)
Definition grad_pos (r : v3) : d3 := D3 (dvar 0 (vx r)) (dvar 1 (vy r)) (dvar 2 (vz r)).
Definition grad_vel (v : v3) : d3 := D3 (dvar 3 (vx v)) (dvar 4 (vy v)) (dvar 5 (vz v)).
(** [hvec], [hmag], [evec], [ecc], [vmag_km_s] *)
Definition d_hvec (r v : d3) : d3 := d3_cross r v.
Definition d_hmag (r v : d3) : dual := dnorm (d_hvec r v).
Definition d_evec (mu : R) (r v : d3) : d3 :=
  let k := dsub (dpow (dnorm v) 2) (ddiv (dconst mu) (dnorm r)) in
  let w := d3_dot r v in
  d3_div (d3_sub (d3_mul r k) (d3_mul v w)) (dconst mu).
Definition d_ecc (mu : R) (r v : d3) : dual := dnorm (d_evec mu r v).
(** [semi_minor_axis_km] of a hyperbola *)
Definition d_semi_minor (mu : R) (r v : d3) : dual :=
  ddiv (dpow (d_hmag r v) 2) (dmul (dconst mu) (dsqrt (dsub (dpow (d_ecc mu r v) 2) (dconst 1)))).

(** * The B-plane *)

Inductive bpl_error := NoGravParam | NotHyperbolic | BPlaneInvariant | TooManyIterations
  | CorrectionIneffective (prev cur : R).

(** bplane.rs:39-54; [s_hat], [t_hat] and [r_hat] are the rows of the rotation matrix. *)
Record bplane := { b_t : dual; b_r : dual; ltof_s : dual; s_hat : v3; t_hat : v3; r_hat : v3 }.

(** bplane.rs:56-133.  A division by a zero norm ([s] along the third axis) gives NaN in the code; the
    theorems exclude it. *)
Definition from_dual (gm : option R) (r v : d3) : res bpl_error bplane :=
  match gm with
  | None => Err NoGravParam
  | Some mu =>
      let ecc := d_ecc mu r v in
      if Rlt_dec 1 (re ecc) then
        let one := dconst 1 in let zero := dconst 0 in
        let e_hat := d3_div (d_evec mu r v) ecc in
        let h_hat := d3_div (d_hvec r v) (d_hmag r v) in
        let n_hat := d3_cross h_hat e_hat in
        let fact := dsqrt (dsub one (dpow (ddiv one ecc) 2)) in
        let s := d3_add (d3_div e_hat ecc) (d3_mul n_hat fact) in
        let s_hat := d3_div s (dnorm s) in
        let sma := d_semi_minor mu r v in
        let b_vec := d3_mul (d3_sub (d3_mul e_hat fact) (d3_mul n_hat (ddiv one ecc))) sma in
        let t := d3_cross s_hat (D3 zero zero one) in
        let t_hat := d3_div t (dnorm t) in
        let r_hat := d3_cross s_hat t_hat in
        Ok {| b_t := d3_dot b_vec t_hat; b_r := d3_dot b_vec r_hat; ltof_s := ddiv (d3_dot b_vec s_hat) (dnorm v);
              s_hat := reals s_hat; t_hat := reals t_hat; r_hat := reals r_hat |}
      else Err NotHyperbolic
  end.
(** bplane.rs:135-139 *)
Definition bplane_new (gm : option R) (r v : v3) : res bpl_error bplane := from_dual gm (grad_pos r) (grad_vel v).

(** bplane.rs:146-159: rows BR, BT and LTOF, columns VX, VY and VZ. *)
Definition row_of (b : bplane) (i : nat) : dual := match i with 0%nat => b_r b | 1%nat => b_t b | _ => ltof_s b end.
Definition jacobian (b : bplane) (i j : nat) : R := du (row_of b i) (4 + j).
(** bplane.rs:161-184; the invariant is a component of the velocity, [None] for any other parameter. *)
Definition jacobian2 (b : bplane) (invariant : option nat) : res bpl_error (nat -> nat -> R) :=
  match invariant with
  | Some 0%nat => Ok (fun i j => jacobian b i (match j with 0%nat => 1%nat | _ => 2%nat end))
  | Some 1%nat => Ok (fun i j => jacobian b i (match j with 0%nat => 0%nat | _ => 2%nat end))
  | Some 2%nat => Ok (fun i j => jacobian b i (match j with 0%nat => 0%nat | _ => 1%nat end))
  | _ => Err BPlaneInvariant
  end.

(** bplane.rs:187-217 *)
Definition b_dot_t_km (b : bplane) : R := re (b_t b).
Definition b_dot_r_km (b : bplane) : R := re (b_r b).
Definition angle_deg (b : bplane) : R := between_pm_180 (atan2 (b_dot_r_km b) (b_dot_t_km b) * (180 / PI)).
Definition magnitude_km (b : bplane) : R := sqrt (b_dot_t_km b ^ 2 + b_dot_r_km b ^ 2).

(** * Targets: bplane.rs:233-305 *)
Record target := {
  t_bt : R; t_br : R; t_ltof : R; tol_bt : R; tol_br : R; tol_ltof : R
}.
(** bplane.rs:248-263, the time of flight in seconds *)
Definition from_targets (bt br ltof : R) : target :=
  {| t_bt := bt; t_br := br; t_ltof := ltof; tol_bt := 1 / 1000000; tol_br := 1 / 1000000; tol_ltof := 21600 |}.
(** bplane.rs:265-278 *)
Definition from_bt_br (bt br : R) : target :=
  {| t_bt := bt; t_br := br; t_ltof := 0; tol_bt := 1 / 1000000; tol_br := 1 / 1000000; tol_ltof := 8640000 |}.
(** bplane.rs:280-282 *)
Definition ltof_target_set (t : target) : bool := if Rlt_dec (1 / 10000000000) (Rabs (t_ltof t)) then true else false.

(** * The correction: bplane.rs:323-436 *)

(** [jac.transpose() * (jac * jac.transpose()).try_inverse().unwrap() * err]; the inverse of a two by two
    matrix fails on a zero determinant. *)
Definition row3 (m : nat -> nat -> R) (i : nat) : v3 := V3 (m i 0%nat) (m i 1%nat) (m i 2%nat).
Definition least_squares (m : nat -> nat -> R) (e0 e1 : R) : res bpl_error v3 :=
  let a := row3 m 0 in let b := row3 m 1 in
  let g00 := dot a a in let g01 := dot a b in let g11 := dot b b in
  let det := g00 * g11 - g01 * g01 in
  if Req_EM_T det 0 then Panic
  else let x := (g11 * e0 - g01 * e1) / det in
       let y := (g00 * e1 - g01 * e0) / det in
       Ok (vadd (vscale x a) (vscale y b)).

(** bplane.rs:339-383 and 386-435: [n] is the number of attempts left, of eleven at first; [prev] is the
    previous norm of the error, [None] for the infinity. *)
Fixpoint achieve (n : nat) (gm : option R) (r : v3) (tg : target) (total v : v3) (prev : option R)
    : res bpl_error (v3 * bplane) :=
  match n with
  | O => Err TooManyIterations
  | S n' =>
      bind (bplane_new gm r v) (fun bp =>
      let br_err := t_br tg - b_dot_r_km bp in
      let bt_err := t_bt tg - b_dot_t_km bp in
      let ltof_err := t_ltof tg - re (ltof_s bp) in
      let planar := ((if Rlt_dec (Rabs br_err) (tol_br tg) then true else false)
                     && (if Rlt_dec (Rabs bt_err) (tol_bt tg) then true else false))%bool in
      let on_time := if ltof_target_set tg then (if Rlt_dec (Rabs ltof_err) (tol_ltof tg) then true else false) else true in
      if (planar && on_time)%bool then Ok (total, bp)
      else
        let err := V3 br_err bt_err (if ltof_target_set tg then ltof_err else 0) in
        let worse := match prev with None => false | Some p => if Rle_dec p (norm err) then true else false end in
        if worse then Err (CorrectionIneffective (match prev with Some p => p | None => 0 end) (norm err))
        else
          bind (if ltof_target_set tg
                then Ok (V3 (dot (row3 (jacobian bp) 0) err) (dot (row3 (jacobian bp) 1) err) (dot (row3 (jacobian bp) 2) err))
                else least_squares (jacobian bp) br_err bt_err) (fun dv =>
          achieve n' gm r tg (vadd total dv) (vadd v dv) (Some (norm err))))
  end.
Definition try_achieve_b_plane (gm : option R) (r v : v3) (tg : target) : res bpl_error (v3 * bplane) :=
  achieve 11 gm r tg vzero v None.
