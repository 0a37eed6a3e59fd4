(** Specification of the order of a Runge-Kutta method (Butcher's theory), independent of
    the way the integrator evaluates its table. *)
From Coq Require Import Reals.
From Verif Require Import Base Prop_Model RK_Model.
Local Open Scope R_scope.

(** The sum of [f i] for [i < n]. *)
Fixpoint sumR (n : nat) (f : nat -> R) : R :=
  match n with O => 0 | S n' => sumR n' f + f n' end.

(** Rooted trees. *)
Inductive tree := Node (children : list tree).

Fixpoint size (t : tree) : nat :=
  match t with Node l => S (fold_right (fun c n => (size c + n)%nat) 0%nat l) end.

(** The density of a tree: the product over all its nodes of the size of the subtree
    hanging there.  The exact solution of an ODE has the coefficient 1/density. *)
Fixpoint density (t : tree) : nat :=
  match t with
  | Node l => (size t * fold_right (fun c n => (density c * n)%nat) 1%nat l)%nat
  end.

(** Entry (i, j) of the strictly lower triangular matrix stored row by row. *)
Definition coeff_a (m : method) (i j : nat) : R :=
  nth (i * (i - 1) / 2 + j) (a_coeffs m) 0.
Definition coeff_b (m : method) (i : nat) : R := nth i (b_coeffs m) 0.
(** The weights of the embedded solution follow the weights. *)
Definition coeff_bstar (m : method) (i : nat) : R := nth (stages m + i) (b_coeffs m) 0.
Definition node_c (m : method) (i : nat) : R := sumR i (coeff_a m i).

(** The elementary weight of a tree at stage [i]. *)
Fixpoint stage_weight (m : method) (t : tree) (i : nat) : R :=
  match t with
  | Node l =>
      fold_right (fun c w => sumR i (fun j => coeff_a m i j * stage_weight m c j) * w) 1 l
  end.

Definition weight (m : method) (b : nat -> R) (t : tree) : R :=
  sumR (stages m) (fun i => b i * stage_weight m t i).

(** All conditions for order [p], each met within [eps] (0: exactly). *)
Definition order_within (m : method) (b : nat -> R) (p : nat) (eps : R) : Prop :=
  forall t, (size t <= p)%nat -> Rabs (weight m b t - 1 / INR (density t)) <= eps.

(** A table that can be read by the integrator without going out of bounds. *)
Definition well_formed (m : method) : Prop :=
  (1 <= stages m)%nat /\
  length (a_coeffs m) = (stages m * (stages m - 1) / 2)%nat /\
  length (b_coeffs m) = (2 * stages m)%nat.

(** The order the embedded solution has: one less than the method's, except for the
    fixed-step RK4, which repeats its weights. *)
Definition embedded_order (m : integrator) : nat :=
  match m with RungeKutta4 => 4 | _ => t_order (table_of m) - 1 end.

(** How exactly the table meets the order conditions: exactly, but for DormandPrince78,
    published as rational approximations. *)
Definition table_error (m : integrator) : R :=
  match m with DormandPrince78 => / 10 ^ 17 | _ => 0 end.

(** The vectors form a real vector space. *)
Record vector_space {St V F E} (e : env St V F E) : Prop := {
  v_comm : forall a b, vadd e a b = vadd e b a;
  v_assoc : forall a b c, vadd e a (vadd e b c) = vadd e (vadd e a b) c;
  v_zero : forall a, vadd e a (vzero e) = a;
  v_scale0 : forall a, vscale e 0 a = vzero e;
  v_scale1 : forall a, vscale e 1 a = a;
  v_scale_add : forall x y a, vscale e (x + y) a = vadd e (vscale e x a) (vscale e y a);
  v_scale_vadd : forall x a b, vscale e x (vadd e a b) = vadd e (vscale e x a) (vscale e x b);
  v_scale_mul : forall x y a, vscale e (x * y) a = vscale e x (vscale e y a)
}.

(** The sum of the vectors [g i] for [i < n]. *)
Fixpoint vsum {St V F E} (e : env St V F E) (n : nat) (g : nat -> V) : V :=
  match n with O => vzero e | S n' => vadd e (vsum e n' g) (g n') end.

(** The dynamics at state [s] are the right-hand side [f] (seconds since the start of the
    step, state vector) and never fail. *)
Definition dynamics {St V F E} (e : env St V F E) (s : St) (f : R -> V -> V) : Prop :=
  forall dt v, eom e dt v s = Ok (f dt v).

Definition linear {St V F E} (e : env St V F E) (L : V -> V) : Prop :=
  (forall a b, L (vadd e a b) = vadd e (L a) (L b)) /\
  (forall x a, L (vscale e x a) = vscale e x (L a)).

Fixpoint iterate {A} (n : nat) (f : A -> A) (x : A) : A :=
  match n with O => x | S n' => f (iterate n' f x) end.
