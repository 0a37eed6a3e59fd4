(** Vocabulary of the propagator theorems: what is assumed of the environment and what
    it means for recorded epochs to be ordered. *)
From Coq Require Import Reals.
From Verif Require Import Base Prop_Model.
Local Open Scope Z_scope.

(** Setting a state's epoch sets it; the post-step hook and the frame changes keep it. *)
Record keeps_epoch {St V F E} (e : env St V F E) : Prop := {
  epoch_set : forall s t v, epoch e (set_state e s t v) = t;
  epoch_finally : forall s s', finally e s = Ok s' -> epoch e s' = epoch e s;
  epoch_enter : forall s f s', enter_frame e s f = Ok s' -> epoch e s' = epoch e s;
  epoch_leave : forall s f s', leave_frame e s f = Ok s' -> epoch e s' = epoch e s
}.

(** Converting seconds to a duration never rounds away from zero past an exactly
    representable duration and loses at most [slop] nanoseconds (0 for exact arithmetic,
    1 for truncated binary64). *)
Record converts {St V F E} (e : env St V F E) (slop : Z) : Prop := {
  slop_pos : 0 <= slop;
  conv_hi : forall x m, 0 <= m -> (x <= to_secs m)%R -> of_secs e x <= m;
  conv_lo : forall x m, 0 <= m -> (to_secs m <= x)%R -> m - slop <= of_secs e x;
  conv_odd : forall x, of_secs e (- x) = - of_secs e x
}.

(** A step controller with a positive tolerance, step limits in order and above the
    conversion loss, and a non-negative error estimate. *)
Record sane_options {St V F E} (e : env St V F E) (slop : Z) : Prop := {
  tol_pos : (0 < tolerance (opts e))%R;
  min_pos : slop < min_step (opts e);
  max_min : min_step (opts e) <= max_step (opts e);
  est_pos : forall a b c, (0 <= estimate e a b c)%R;
  order_two : (2 <= order (meth e))%nat;
  attempts_pos : (1 <= attempts (opts e))%nat
}.

(** Epochs [l] strictly after [lo], strictly increasing, none after [hi]. *)
Fixpoint increasing_within (lo hi : Z) (l : list Z) : Prop :=
  match l with
  | [] => True
  | x :: l' => lo < x <= hi /\ increasing_within x hi l'
  end.

(** Epochs [l] strictly before [hi], strictly decreasing, none before [lo]. *)
Fixpoint decreasing_within (hi lo : Z) (l : list Z) : Prop :=
  match l with
  | [] => True
  | x :: l' => lo <= x < hi /\ decreasing_within x lo l'
  end.

(** [quiet cond c l c']: the condition, started in [c], does not fire on any state of [l]
    and ends in [c']. *)
Fixpoint quiet {St E C} (cond : C -> St -> C * res E bool) (c : C) (l : list St) (c' : C)
  : Prop :=
  match l with
  | [] => c' = c
  | x :: l' => exists c1, cond c x = (c1, Ok false) /\ quiet cond c1 l' c'
  end.

(** Consecutive successful steps from one instance to another, with the states reached. *)
Inductive steps {St V F E} (e : env St V F E) : inst -> list St -> inst -> Prop :=
| steps_nil : forall i, steps e i [] i
| steps_cons : forall i i1 l i',
    single_step e i = (i1, Ok tt) -> steps e i1 l i' -> steps e i (state i1 :: l) i'.

(** The instance moves forward: a fixed positive step of at least [lo], or an adaptive one
    with sane options for which every step covers at least [lo] nanoseconds. *)
Definition steps_forward {St V F E} (e : env St V F E) (lo : Z) (i : inst (St := St)) : Prop :=
  (fixed_step i = true /\ lo <= step_size i /\ 0 < step_size i) \/
  (fixed_step i = false /\ exists slop,
     converts e slop /\ sane_options e slop /\ slop < step_size i /\
     lo + slop <= step_size i /\ lo + slop <= min_step (opts e)).

(** The same for an instance about to be propagated backward (its step is still positive
    when [propagate] is called). *)
Definition steps_backward {St V F E} (e : env St V F E) (lo : Z) (i : inst (St := St)) : Prop :=
  (fixed_step i = true /\ lo <= step_size i /\ 0 < step_size i) \/
  (fixed_step i = false /\ exists slop,
     converts e slop /\ sane_options e slop /\
     2 * slop + 2 <= step_size i /\ 2 * slop + 2 <= min_step (opts e) /\
     lo + slop <= step_size i /\ lo + slop <= min_step (opts e)).

(** No function of the environment reports the artificial [NoFuel] outcome. *)
Record real_outcomes {St V F E C} (e : env St V F E) (cond : C -> St -> C * res E bool)
  : Prop := {
  real_finally : forall s, finally e s <> NoFuel;
  real_eom : forall h v s, eom e h v s <> NoFuel;
  real_enter : forall s f, enter_frame e s f <> NoFuel;
  real_leave : forall s f, leave_frame e s f <> NoFuel;
  real_cond : forall c s, snd (cond c s) <> NoFuel
}.
