(** Model of nyx-core/src/utils.rs.  [f64] is [R] except where said.  Not modelled:
    [capitalize] and the wrappers [rss_orbit_errors] and [rss_orbit_vec_errors], which
    apply [rss_errors] to the position and to the velocity. *)
From Coq Require Import Reals ZArith List Bool Floats.SpecFloat.
From Verif Require Import Vec3 Angles.
Import ListNotations.
Local Open Scope R_scope.

(** utils.rs:38-40 [tilde_matrix]. *)
Definition tilde_matrix (v : v3) : m3 :=
  matrix3 0 (- vz v) (vy v) (vz v) 0 (- vx v) (- vy v) (vx v) 0.

(** utils.rs:76 [m[(i, j)].abs() > f64::EPSILON]. *)
Definition above (x : R) : bool := if Rlt_dec EPSILON (Rabs x) then true else false.

(** utils.rs:73-82 [is_diagonal]: the off-diagonal entries in the order of the loops. *)
Definition is_diagonal (m : m3) : bool :=
  forallb (fun x => negb (above x))
    [vy (row0 m); vz (row0 m); vx (row1 m); vz (row1 m); vx (row2 m); vy (row2 m)].

(** utils.rs:113-118 [are_eigenvalues_stable]: an eigenvalue is its real and imaginary
    parts. *)
Definition are_eigenvalues_stable (eigenvalues : list (R * R)) : bool :=
  forallb (fun ev => if Rle_dec (fst ev) 0 then true else false) eigenvalues.

(** utils.rs:130-136 [between_0_360]. *)
Definition between_0_360 (angle : R) : R :=
  let bounded := rem angle 360 in
  if Rlt_dec bounded 0 then bounded + 360 else bounded.

(** The same function on binary64 numbers smaller than 360 in magnitude, for which [%]
    returns its left operand unchanged. *)
Definition f64_360 : spec_float := S754_finite false (360 * 2 ^ 44) (-44).
Definition between_0_360_f64_small (angle : spec_float) : spec_float :=
  match SFcompare angle (S754_zero false) with
  | Some Lt => SFadd 53 1024 angle f64_360
  | _ => angle
  end.

(** utils.rs:153-162 [between_pm_x]. *)
Definition between_pm_x (angle x : R) : R :=
  let bounded := rem angle (2 * x) in
  let bounded := if Rlt_dec x bounded then bounded - 2 * x else bounded in
  if Rlt_dec bounded (- x) then bounded + 2 * x else bounded.

(** utils.rs:139-141 [between_pm_180]. *)
Definition between_pm_180 (angle : R) : R := between_pm_x angle 180.

(** utils.rs:165-171 [kronecker]. *)
Definition kronecker (a b : R) : R := if Rle_dec (Rabs (a - b)) EPSILON then 1 else 0.

(** utils.rs:197-200 [r1], 226-229 [r2], 255-258 [r3]. *)
Definition r1 (a : R) : m3 := matrix3 1 0 0 0 (cos a) (sin a) 0 (- sin a) (cos a).
Definition r2 (a : R) : m3 := matrix3 (cos a) 0 (- sin a) 0 1 0 (sin a) 0 (cos a).
Definition r3 (a : R) : m3 := matrix3 (cos a) (sin a) 0 (- sin a) (cos a) 0 0 0 1.

(** nalgebra's [normalize]: no check of a zero norm. *)
Definition vnormalize (v : v3) : v3 := vscale (/ norm v) v.

(** utils.rs:271-276 [rotv]. *)
Definition rotv (v axis : v3) (theta : R) : v3 :=
  let k_hat := vnormalize axis in
  vadd (vadd (vscale (cos theta) v) (vscale (sin theta) (cross k_hat v)))
    (vscale (dot k_hat v * (1 - cos theta)) k_hat).

(** utils.rs:313-320 [projv]. *)
Definition projv (a b : v3) : v3 :=
  let b_norm_squared := dot b b in
  if Rlt_dec (Rabs b_norm_squared) EPSILON then vzero
  else vscale (dot a b / b_norm_squared) b.

(** nalgebra's [amax]: largest magnitude of a component. *)
Definition amax (v : v3) : R := Rmax (Rabs (vx v)) (Rmax (Rabs (vy v)) (Rabs (vz v))).

(** utils.rs:288-301 [perpv]. *)
Definition perpv (a b : v3) : v3 :=
  let big_a := amax a in
  let big_b := amax b in
  if Rlt_dec big_a EPSILON then vzero
  else if Rlt_dec big_b EPSILON then a
  else
    let a_scl := vscale (/ big_a) a in
    let b_scl := vscale (/ big_b) b in
    vscale big_a (vsub a_scl (projv a_scl b_scl)).

(** utils.rs:332-342 [rss_errors]. *)
Definition rss_errors (prop_err cur_state : list R) : R :=
  sqrt (fold_left Rplus
          (map (fun xy => (fst xy - snd xy) ^ 2) (combine prop_err cur_state)) 0).

(** utils.rs:388-390 [normalize] and 403-405 [denormalize]. *)
Definition normalize (x min_x max_x : R) : R := 2 * (x - min_x) / (max_x - min_x) - 1.
Definition denormalize (xp min_x max_x : R) : R := (max_x - min_x) * (xp + 1) / 2 + min_x.

(** utils.rs:454-456 [mag_order], for a value that is not zero (the logarithm of zero is
    minus infinity, which the cast turns into [i32::MIN]). *)
Definition mag_order (value : R) : Z := Int_part (ln (Rabs value) / ln 10).

(** utils.rs:459-465 [unitize]. *)
Definition unitize (v : v3) : v3 :=
  if Rlt_dec (norm v) EPSILON then v else vscale (/ norm v) v.

(** utils.rs:469-478 [cartesian_to_spherical]. *)
Definition cartesian_to_spherical (v : v3) : R * R * R :=
  if Rlt_dec (norm v) EPSILON then (0, 0, 0)
  else (norm v, atan2 (vy v) (vx v), acos (vz v / norm v)).

(** utils.rs:483-493 [spherical_to_cartesian]. *)
Definition spherical_to_cartesian (rho theta phi : R) : v3 :=
  if Rlt_dec rho EPSILON then vzero
  else V3 (rho * sin phi * cos theta) (rho * sin phi * sin theta) (rho * cos phi).
