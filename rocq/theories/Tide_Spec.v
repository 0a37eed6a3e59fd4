(** What a user relies on: the potential of the deformation, by Love numbers. *)
From Coq Require Import Reals List.
From Verif Require Import Base Vec3.
Import ListNotations.
Local Open Scope R_scope.

(** The Legendre polynomials of degrees 2 and 3. *)
Definition P2 (x : R) : R := (3 * x ^ 2 - 1) / 2.
Definition P3 (x : R) : R := (5 * x ^ 3 - 3 * x) / 2.

(** The cosine of the angle between two positions. *)
Definition cos_angle (p q : v3) : R := dot p q / (norm p * norm q).

(** The part of degree [n] of the potential at [p] of a body of gravitational parameter [gm] at [q]. *)
Definition raising (n : nat) (P : R -> R) (gm : R) (q p : v3) : R :=
  gm / norm q * (norm p / norm q) ^ n * P (cos_angle p q).

(** The deformed body, of radius [radius], adds to its potential the Love number times this one at its
    surface, decaying outside as a potential of degree [n] does. *)
Definition induced (n : nat) (P : R -> R) (k radius gm : R) (q p : v3) : R :=
  k * (radius / norm p) ^ (n + 1) * raising n P gm q (vscale (radius / norm p) p).

(** All the perturbers: position, gravitational parameter, and whether the degree 3 counts. *)
Definition tidal (k2 k3 radius : R) (bodies : list (v3 * R * bool)) (p : v3) : R :=
  fold_right (fun '(q, gm, d3) acc =>
    induced 2 P2 k2 radius gm q p + (if d3 : bool then induced 3 P3 k3 radius gm q p else 0) + acc) 0 bodies.
