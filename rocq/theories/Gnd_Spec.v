(** What a user relies on for a ground asset: geodetic coordinates, the topocentric axes, the angle
    between two directions and uniform motion. *)
From Coq Require Import Reals.
From Coquelicot Require Import Coquelicot.
From Verif Require Import Base Vec3.
Local Open Scope R_scope.

Definition rad (x : R) : R := x * (PI / 180).
(** The direction of a latitude and a longitude, in degrees, and the south and east axes there. *)
Definition up (lat lon : R) : v3 := V3 (cos (rad lat) * cos (rad lon)) (cos (rad lat) * sin (rad lon)) (sin (rad lat)).
Definition south (lat lon : R) : v3 := V3 (sin (rad lat) * cos (rad lon)) (sin (rad lat) * sin (rad lon)) (- cos (rad lat)).
Definition east (lon : R) : v3 := V3 (- sin (rad lon)) (cos (rad lon)) 0.

(** [p] has these geodetic coordinates on the ellipsoid of equatorial radius [a] and polar radius
    [b]: it is at height [h] along the outward normal of the ellipsoid at a point whose normal has
    this latitude and longitude. *)
Definition geodetic_point (a b lat lon h : R) (p : v3) : Prop :=
  exists s k, 0 < k /\
    vx s ^ 2 / a ^ 2 + vy s ^ 2 / a ^ 2 + vz s ^ 2 / b ^ 2 = 1 /\
    V3 (vx s / a ^ 2) (vy s / a ^ 2) (vz s / b ^ 2) = Vec3.vscale k (up lat lon) /\
    p = Vec3.vadd s (Vec3.vscale h (up lat lon)).

(** The geodetic coordinates and their rates, after a time [t] at constant rates. *)
Definition drift (q : nat -> R) (t : R) (i : nat) : R :=
  match i with 0%nat => q 0%nat + t * q 3%nat | 1%nat => q 1%nat + t * q 4%nat
             | 2%nat => q 2%nat + t * q 5%nat | _ => q i end.
(** [q] with [h] added to its component [j]. *)
Definition nudge (q : nat -> R) (j : nat) (h : R) (i : nat) : R := q i + (if (i =? j)%nat then h else 0).

(** [C] maps a geodetic state to position (0, 1, 2) and velocity (3, 4, 5) in the frame of the body:
    the position has the geodetic coordinates and the velocity is its time derivative. *)
Definition cartesian_map (a b : R) (C : (nat -> R) -> nat -> R) : Prop :=
  forall q, geodetic_point a b (q 0%nat) (q 1%nat) (q 2%nat) (V3 (C q 0%nat) (C q 1%nat) (C q 2%nat)) /\
    forall i, (i < 3)%nat -> is_derive (fun t => C (drift q t) i) 0 (C q (i + 3)%nat).
