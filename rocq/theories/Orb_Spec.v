(** Vocabulary for the statements about orbital dynamics. *)
From Coq Require Import Reals ZArith List.
From Coquelicot Require Import Coquelicot.
From Verif Require Import Base Vec3 Sc_Model Dyn_Model Dual Orb_Model.
Import ListNotations.
Local Open Scope R_scope.

(** The same orbit with its position moved by [h] along axis [j] (0, 1 or 2). *)
Definition moved (j : nat) (h : R) (o : orbit) : orbit :=
  Orbit (epoch o) (frame o) (shift (S j) h (radius_km o)) (velocity_km_s o).

(** [g] is the matrix of partial derivatives, at the position of [o], of the acceleration
    that [f] computes, and [a] is its value. *)
Definition derivative_of (f : orbit -> res dyn_error v3) (o : orbit) (a : v3) (g : matrix) : Prop :=
  f o = Ok a /\
  forall j, (j < 3)%nat -> exists F, (forall h, f (moved j h o) = Ok (F h)) /\
    forall i, (i < 3)%nat -> is_derive (fun h => comp (F h) i) 0 (g i j).

Fixpoint vsum (l : list v3) : v3 := match l with [] => vzero | a :: l' => vadd a (vsum l') end.

(** Energy and angular momentum per unit of mass. *)
Definition energy (mu : R) (r v : v3) : R := dot v v / 2 - mu / norm r.

(** A curve and its derivative. *)
Definition derives (f : R -> v3) (t : R) (d : v3) : Prop :=
  is_derive (fun s => vx (f s)) t (vx d) /\ is_derive (fun s => vy (f s)) t (vy d)
  /\ is_derive (fun s => vz (f s)) t (vz d).

(** The bodies of a list that pull on a spacecraft: gravitational parameter and position in
    the frame of the orbit; the body at the center is left out. *)
Inductive attracted (mu_km3_s2 : nat -> res dyn_error R) (is_center : nat -> Z -> bool)
    (frame_info : nat -> Z -> res dyn_error nat) (position_of : nat -> nat -> Z -> res dyn_error v3)
    (o : orbit) : list Z -> list (R * v3) -> Prop :=
| attracted_nil : attracted mu_km3_s2 is_center frame_info position_of o [] []
| attracted_center : forall b l ps, is_center (frame o) b = true ->
    attracted mu_km3_s2 is_center frame_info position_of o l ps ->
    attracted mu_km3_s2 is_center frame_info position_of o (b :: l) ps
| attracted_pull : forall b l ps f p mu, is_center (frame o) b = false ->
    frame_info (frame o) b = Ok f -> position_of f (frame o) (epoch o) = Ok p ->
    mu_km3_s2 f = Ok mu ->
    attracted mu_km3_s2 is_center frame_info position_of o l ps ->
    attracted mu_km3_s2 is_center frame_info position_of o (b :: l) ((mu, p) :: ps).

(** Newton: the pull of a mass at [p] on [r], less its pull on the origin. *)
Definition tidal (r : v3) (b : R * v3) : v3 :=
  let '(mu, p) := b in
  vsub (vscale (mu / norm (vsub p r) ^ 3) (vsub p r)) (vscale (mu / norm p ^ 3) p).

(** Its potential. *)
Definition disturbing (r : v3) (b : R * v3) : R :=
  let '(mu, p) := b in mu / norm (vsub p r) - mu * dot r p / norm p ^ 3.

Fixpoint rsum (l : list R) : R := match l with [] => 0 | x :: l' => x + rsum l' end.

(** The gradient of the field of a mass [mu] at distance [p]. *)
Definition gravity_gradient (mu : R) (p : v3) (i j : nat) : R :=
  mu * (3 * comp p i * comp p j / norm p ^ 5 - (if (i =? j)%nat then 1 else 0) / norm p ^ 3).
