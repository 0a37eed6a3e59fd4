(** Vocabulary for the statements about solar radiation pressure and drag. *)
From Coq Require Import Reals ZArith List.
From Coquelicot Require Import Coquelicot.
From Verif Require Import Base Vec3 Sc_Model Dyn_Model.
Import ListNotations.
Local Open Scope R_scope.

(** The largest of the numbers of a list and of zero. *)
Definition is_worst (l : list R) (p : R) : Prop :=
  0 <= p /\ (p = 0 \/ In p l) /\ forall q, In q l -> q <= p.

(** At its epoch, the state [o] is seen from the frame [g] at the position [r]. *)
Definition seen_at (transform_to : orbit -> nat -> res dyn_error orbit) (o : orbit) (g : nat)
    (r : v3) : Prop :=
  exists v, transform_to o g = Ok (Orbit (epoch o) g r v).

(** The frames [f] and [g] have the same axes, and the origin of [g] is at [sun] in [f]. *)
Definition same_axes (transform_to : orbit -> nat -> res dyn_error orbit) (f g : nat)
    (sun : Z -> v3) : Prop :=
  forall o, frame o = f -> seen_at transform_to o g (vsub (radius_km o) (sun (epoch o))).

(** [q] turns vectors without changing lengths or angles. *)
Definition rotation (q : v3 -> v3) : Prop :=
  (forall a b, q (vadd a b) = vadd (q a) (q b)) /\ (forall k a, q (vscale k a) = vscale k (q a))
  /\ (forall a b, dot (q a) (q b) = dot a b) /\ forall a b, q (cross a b) = cross (q a) (q b).

(** The frame [g] turns at the rate [omega] with respect to the frame [f], with the same
    center; its axes are those of [f] turned by [q], and [q'] turns them back. *)
Definition turns (transform_to : orbit -> nat -> res dyn_error orbit) (f g : nat)
    (q q' : v3 -> v3) (omega : v3) : Prop :=
  (forall o, frame o = f ->
     transform_to o g = Ok (Orbit (epoch o) g (q (radius_km o))
       (q (vsub (velocity_km_s o) (cross omega (radius_km o)))))) /\
  (forall o, frame o = g ->
     transform_to o f = Ok (Orbit (epoch o) f (q' (radius_km o))
       (vadd (q' (velocity_km_s o)) (cross omega (q' (radius_km o)))))) /\
  rotation q /\ forall a, q' (q a) = a.

(** The velocity of a spacecraft with respect to air that turns at the rate [omega]. *)
Definition airspeed (omega : v3) (o : orbit) : v3 :=
  vsub (velocity_km_s o) (cross omega (radius_km o)).

(** The share of the points of a disk for which [f] holds. *)
Definition share {A} (disk : list A) (f : A -> bool) : R :=
  INR (length (filter f disk)) / INR (length disk).
