(** Vocabulary for the statements about gravity fields. *)
From Coq Require Import Reals List.
From Verif Require Import Base Vec3 Sc_Model Dyn_Model Orb_Model Orb_Spec Grav_Legendre Grav_Model.
Import ListNotations.
Local Open Scope R_scope.

(** Real and imaginary parts of (s + i t)^m. *)
Fixpoint cpow (s t : R) (m : nat) : R * R :=
  match m with
  | O => (1, 0)
  | S k => let '(a, b) := cpow s t k in (s * a - t * b, s * b + t * a)
  end.

(** Normalisation of the spherical harmonics. *)
Definition norm_factor (n m : nat) : R :=
  sqrt ((if (m =? 0)%nat then 1 else 2) * (2 * INR n + 1) * INR (fact (n - m)) / INR (fact (n + m))).

(** Potential of degree [n] and order [m] at the point [p]; the Legendre functions are
    cos^m(latitude) times the derivatives of the Legendre polynomials at sin(latitude). *)
Definition harmonic (C S : R) (eq_radius mu : R) (n m : nat) (p : v3) : R :=
  let r := norm p in
  let '(a, b) := cpow (vx p / r) (vy p / r) m in
  mu / r * (eq_radius / r) ^ n * norm_factor n m * dlegendre n m (vz p / r) * (C * a + S * b).

Definition potential (d : field_data) (eq_radius mu : R) (p : v3) : R :=
  rsum (map (fun n => rsum (map (fun m => harmonic (c_nm d n m) (s_nm d n m) eq_radius mu n m p)
                              (seq 0 (S (Nat.min n (order d))))))
            (seq 1 (degree d))).

(** The point [h] along a line. *)
Definition line (p w : v3) (h : R) : v3 := vadd p (vscale h w).

(** Point of spherical coordinates: radius, latitude, longitude. *)
Definition spherical (r lat lon : R) : v3 :=
  V3 (r * cos lat * cos lon) (r * cos lat * sin lon) (r * sin lat).

(** [to_field] is a change of frame whose rotation back to the frame of the orbit is [dcm]. *)
Definition changes_frame (to_field : orbit -> res dyn_error v3) (o : orbit) (p : v3) (dcm : matrix) : Prop :=
  to_field o = Ok p /\
  forall j h, (j < 3)%nat ->
    to_field (moved j h o) = Ok (line p (V3 (dcm j 0%nat) (dcm j 1%nat) (dcm j 2%nat)) h).
