(** Specification of the local accuracy of one integration step on an arbitrary smooth
    ordinary differential equation. *)
From Coq Require Import Reals.
From Verif Require Import Base Prop_Model RK_Model RK_Spec.
Local Open Scope R_scope.

Section Spec.
Context {St V F E : Type} (e : env St V F E) (norm : V -> R).

Definition vsub (a b : V) : V := vadd e a (vscale e (-1) b).

(** A norm on the vectors. *)
Record normed : Prop := {
  norm_pos : forall a, 0 <= norm a;
  norm_triangle : forall a b, norm (vadd e a b) <= norm a + norm b;
  norm_scale : forall x a, norm (vscale e x a) = Rabs x * norm a
}.

Definition norms (l : list V) : R := fold_right (fun v r => norm v * r) 1 l.

(** [D l] is the derivative of order [length l] at [y0] divided by the factorial, applied to
    the vectors [l]: linear in each argument and bounded. *)
Record multilinear (D : list V -> V) : Prop := {
  ml_add : forall l a b l', D (l ++ vadd e a b :: l') = vadd e (D (l ++ a :: l')) (D (l ++ b :: l'));
  ml_scale : forall l x a l', D (l ++ vscale e x a :: l') = vscale e x (D (l ++ a :: l'));
  ml_bounded : forall n, exists C, 0 <= C /\
    forall l, length l = n -> norm (D l) <= C * norms l
}.

(** Near [y0], [f] has the Taylor expansion given by [D] with a remainder of order [p], and
    is Lipschitz: what [p] continuous derivatives give. *)
Record smooth (f : V -> V) (y0 : V) (D : list V -> V) (p : nat) : Prop := {
  sm_multilinear : multilinear D;
  sm_taylor : exists C rho, 0 < rho /\ forall d, norm d <= rho ->
    norm (vsub (f (vadd e y0 d)) (vsum e p (fun q => D (repeat d q)))) <= C * norm d ^ p;
  sm_lipschitz : exists K rho, 0 < rho /\ forall a b, norm a <= rho -> norm b <= rho ->
    norm (vsub (f (vadd e y0 a)) (f (vadd e y0 b))) <= K * norm (vsub a b)
}.

(** [y] has the derivative [d] at [t]. *)
Definition has_derivative (y : R -> V) (t : R) (d : V) : Prop :=
  forall eps, 0 < eps -> exists eta, 0 < eta /\ forall s, Rabs s <= eta ->
    norm (vsub (vsub (y (t + s)) (y t)) (vscale e s d)) <= eps * Rabs s.

(** [y] solves y' = f(y), y(0) = y0 around 0. *)
Definition solution (f : V -> V) (y0 : V) (y : R -> V) : Prop :=
  y 0 = y0 /\ exists T, 0 < T /\ forall t, Rabs t <= T -> has_derivative y t (f (y t)).
End Spec.

(** * Time-dependent right-hand sides *)
Section Timed.
Context {St V F E : Type} (e : env St V F E) (norm : V -> R).

(** The same environment with the time since the start of the step as first component of
    the vectors, so that a time-dependent equation becomes an autonomous one. *)
Definition timed : env St (R * V) F E :=
  {| epoch := epoch e; set_state := fun s t w => set_state e s t (snd w);
     to_vector := fun s => (0, to_vector e s); finally := finally e;
     eom := fun dt w s => bind (eom e (fst w) (snd w) s) (fun k => Ok (1, k));
     vadd := fun a b => (fst a + fst b, vadd e (snd a) (snd b));
     vscale := fun x a => (x * fst a, vscale e x (snd a));
     vzero := (0, vzero e); has_nan := fun w => has_nan e (snd w);
     estimate := fun a b c => estimate e (snd a) (snd b) (snd c);
     frame_of := frame_of e; frame_eqb := frame_eqb e; enter_frame := enter_frame e;
     leave_frame := leave_frame e; of_secs := of_secs e; nan_error := nan_error e;
     meth := meth e; opts := opts e |}.

Definition timed_norm (w : R * V) : R := Rabs (fst w) + norm (snd w).

(** f(t, v), jointly smooth around (0, y0), with derivatives [D]. *)
Definition smooth_in_time (f : R -> V -> V) (y0 : V) (D : list (R * V) -> R * V) (p : nat)
  : Prop :=
  smooth timed timed_norm (fun w => (1, f (fst w) (snd w))) (0, y0) D p.

(** y' = f(t, y), y(0) = y0 around 0. *)
Definition solution_in_time (f : R -> V -> V) (y0 : V) (y : R -> V) : Prop :=
  y 0 = y0 /\ exists T, 0 < T /\ forall t, Rabs t <= T -> has_derivative e norm y t (f t (y t)).
End Timed.
