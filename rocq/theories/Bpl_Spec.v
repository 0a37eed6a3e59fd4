(** What a user relies on: the B-plane of an encounter, from the conservation laws of the two body
    problem. *)
From Coq Require Import Reals.
From Verif Require Import Base Vec3.
Local Open Scope R_scope.

(** Far before the encounter, the spacecraft comes along the line through [b] in the direction [s], at
    the speed [w]: the energy, the angular momentum and the Laplace vector of this motion, whose position
    is then in the direction of [-s], are those of the orbit. *)
Definition incoming (mu : R) (r v s b : v3) : Prop :=
  dot s s = 1 /\ dot s b = 0 /\
  exists w, 0 < w /\ w * w = dot v v - 2 * mu / norm r /\
    cross b (vscale w s) = cross r v /\
    vsub (cross v (cross r v)) (vscale (mu / norm r) r) = vadd (cross (vscale w s) (cross r v)) (vscale mu s).

(** A right-handed orthonormal triple. *)
Definition right_handed (s t r : v3) : Prop :=
  dot s s = 1 /\ dot t t = 1 /\ dot r r = 1 /\ dot s t = 0 /\ dot s r = 0 /\ dot t r = 0 /\ cross s t = r.
