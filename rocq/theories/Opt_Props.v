(** C97: the options of an integrator. *)
From Coq Require Import Reals Lra.
From Verif Require Import Base Prop_Model Prop_Spec Prop_Proofs Prop_Loop Prop_Examples Prop_Props Opt_Model.
Local Open Scope Z_scope.

(** ** Specification *)

(** Steps are positive, the initial one between the smallest and the greatest. *)
Definition ordered {F} (o : integrator_options F) : Prop := 0 < io_min o /\ io_min o <= io_init o <= io_max o.

(** What can be changed after the construction, and the changes that contradict no other option. *)
Inductive setting := Greatest (m : Z) | Smallest (m : Z) | Tolerance (t : R).
Definition apply_setting {F} (o : integrator_options F) (s : setting) : integrator_options F :=
  match s with Greatest m => set_max_step o m | Smallest m => set_min_step o m | Tolerance t => set_tolerance o t end.
Definition consistent {F} (o : integrator_options F) (s : setting) : Prop :=
  match s with Greatest m => io_min o <= m | Smallest m => 0 < m <= io_max o | Tolerance _ => True end.
Fixpoint all_consistent {F} (o : integrator_options F) (l : list setting) : Prop :=
  match l with [] => True | s :: l' => consistent o s /\ all_consistent (apply_setting o s) l' end.

(** ** Proofs *)

Theorem C97_built : forall F,
  ordered (default_options (F := F)) /\ (forall t, ordered (with_tolerance (F := F) t)) /\
  (forall min max t, ordered (with_adaptive_step (F := F) min max t) <-> 0 < min <= max) /\
  (forall step, ordered (with_fixed_step (F := F) step) <-> 0 < step) /\
  (forall m, ordered (with_max_step (F := F) m) <-> 1000000 <= m).
Proof.
  intros F. unfold ordered, with_tolerance, set_tolerance, default_options, milliseconds, seconds.
  split; [cbn [io_min io_init io_max]; lia|]. split; [intros t; cbn [io_min io_init io_max]; lia|].
  split; [intros min max t; cbn; lia|]. split; [intros step; cbn; lia|].
  intros m. unfold with_max_step. cbn [set_max_step io_min io_init io_max default_options].
  unfold milliseconds, seconds. destruct (Z.ltb_spec m (60 * 1000000000)); lia.
Qed.

(** The setters keep the steps in order when they contradict no other option, and then change nothing but
    their option and the initial step. *)
Theorem C97_setters : forall F (l : list setting) (o : integrator_options F), ordered o -> all_consistent o l ->
  ordered (fold_left apply_setting l o).
Proof.
  intros F. induction l as [|s l IH]; intros o H C; [exact H|]. destruct C as [C1 C2]. cbn [fold_left].
  apply IH; [|exact C2]. destruct H as [H1 H2]. unfold ordered. destruct s as [m|m|t]; cbn in C1 |- *.
  - destruct (Z.ltb_spec m (io_init o)); lia.
  - destruct (Z.ltb_spec (io_init o) m); lia.
  - lia.
Qed.
Theorem C97_setting : forall F (o : integrator_options F) s, ordered o -> consistent o s ->
  let o' := apply_setting o s in
  io_attempts o' = io_attempts o /\ io_fixed o' = io_fixed o /\ io_frame o' = io_frame o /\
  match s with
  | Greatest m => io_max o' = m /\ io_min o' = io_min o /\ io_tolerance o' = io_tolerance o /\
      io_init o' = Z.min (io_init o) m
  | Smallest m => io_min o' = m /\ io_max o' = io_max o /\ io_tolerance o' = io_tolerance o /\
      io_init o' = Z.max (io_init o) m
  | Tolerance t => io_tolerance o' = t /\ io_min o' = io_min o /\ io_max o' = io_max o /\ io_init o' = io_init o
  end.
Proof.
  intros F o s H C. destruct s as [m|m|t]; cbn; repeat (split; [reflexivity|]); try reflexivity.
  - destruct (Z.ltb_spec m (io_init o)); lia.
  - destruct (Z.ltb_spec (io_init o) m); lia.
Qed.

Section Steps.
Context {St V F E : Type} (e : env St V F E) (slop : Z) (o : integrator_options F).
Hypothesis Hc : converts e slop.
Hypothesis Ho : opts e = step_options o.
Hypothesis Hord : ordered o.
Hypothesis Hslop : slop < io_min o.
Hypothesis Htol : (0 < io_tolerance o)%R.
Hypothesis Hatt : (1 <= io_attempts o)%nat.
Hypothesis Hest : forall a b c, (0 <= estimate e a b c)%R.
Hypothesis Hrk : (2 <= order (meth e))%nat.

Lemma options_sane : sane_options e slop.
Proof. destruct Hord. split; rewrite ?Ho; cbn [tolerance min_step max_step attempts step_options]; auto. lia. Qed.

(** With adaptive steps in order, whatever the number of steps, no step tried is longer than the greatest
    or shorter than the smallest; the first one tried is the initial one. *)
Theorem C97_within : forall s l i', io_fixed o = false -> steps e (start o s) l i' ->
  fixed_step i' = false /\ io_min o <= step_size i' <= io_max o.
Proof.
  intros s l i' Hf Hs. destruct Hord as [H1 H2].
  assert (G : forall i l i', steps e i l i' -> fixed_step i = false -> io_min o <= step_size i <= io_max o ->
    fixed_step i' = false /\ io_min o <= step_size i' <= io_max o).
  { intros i l0 i0 S. induction S as [i|i i1 l1 i2 S1 S2 IH]; intros Fi Bi; [auto|].
    apply IH; unfold single_step in S1; destruct (derive e i) as [j [[t v]|x| |]] eqn:D; try congruence;
      destruct (finally e _) as [s'|x| |]; try congruence; assert (i1 = with_state j s') as -> by congruence;
      cbn [with_state fixed_step step_size];
      destruct (C04_forward_step _ _ _ _ e slop Hc options_sane i j t v Fi ltac:(lia) D)
        as (_ & K1 & K2 & h & errv & _ & _ & _ & _ & _ & _ & K3); [exact K1|].
    rewrite Ho in K3. cbn [min_step max_step step_options] in K3. lia. }
  apply (G _ _ _ Hs); [exact Hf|cbn; lia].
Qed.
Theorem C97_first_step : forall s i' t v, io_fixed o = false -> derive e (start o s) = (i', Ok (t, v)) ->
  0 < t <= io_init o.
Proof.
  intros s i' t v Hf D. destruct Hord as [H1 H2].
  destruct (C04_forward_step _ _ _ _ e slop Hc options_sane (start o s) i' t v Hf ltac:(cbn; lia) D) as (_ & _ & K & _).
  exact K.
Qed.
End Steps.

(** Whatever the options, the next adaptive step is never shorter than the smallest: a greatest step set
    below the smallest one is exceeded. *)
Theorem C97_smallest_wins : forall St V F E (e : env St V F E) i i' t v, 0 <= min_step (opts e) ->
  fixed_step i = false -> derive e i = (i', Ok (t, v)) -> min_step (opts e) <= Z.abs (step_size i').
Proof.
  intros St V F E e i i' t v Hm Hf. unfold derive.
  generalize (S (attempts (opts e))) as fuel.
  set (i0 := with_details _ _). assert (Hf0 : fixed_step i0 = false) by exact Hf. clearbody i0. clear Hf.
  generalize (to_secs (step_size i)) as h. generalize 1%nat as att. intros att h fuel. revert i0 Hf0 h att.
  induction fuel as [|fuel IH]; intros i0 Hf0 h att; cbn [derive_loop]; [congruence|].
  destruct (try_step e (state i0) (fixed_step i0) h) as [[next errv]|x| |]; try congruence. rewrite Hf0.
  destruct (accepts e _ h att).
  - destruct (has_nan e next); [congruence|]. intros D.
    match type of D with (?a, _) = _ => assert (i' = a) as -> by congruence end. cbn [step_size].
    unfold next_step. destruct (Z.ltb_spec (Z.abs (of_secs e (if Rlt_dec (estimate e errv next (to_vector e (state i0))) (tolerance (opts e)) then grow e h (estimate e errv next (to_vector e (state i0))) else h))) (min_step (opts e))).
    + destruct (_ <? 0); lia.
    + lia.
  - apply IH. exact Hf0.
Qed.

(** ** What the constructors choose *)

(** With a fixed step every step is that one, however many were made before. *)
Theorem C97_fixed : forall St V F E (e : env St V F E) h s l i i' t v,
  steps e (start (with_fixed_step (F := F) h) s) l i -> derive e i = (i', Ok (t, v)) -> t = h.
Proof.
  intros St V F E e h s l i i' t v Hs.
  assert (D : forall i i' t v, fixed_step i = true -> derive e i = (i', Ok (t, v)) ->
    t = step_size i /\ fixed_step i' = true /\ step_size i' = step_size i).
  { clear. intros i i' t v Hf. unfold derive. cbn [derive_loop].
    match goal with |- context [try_step e ?a ?b ?c] => destruct (try_step e a b c) as [[next errv]|x| |] end; try congruence.
    cbn [with_details fixed_step]. rewrite Hf. intros D.
    match type of D with (?a, Ok (?b, _)) = _ => assert (i' = a) as -> by congruence; assert (t = b) as -> by congruence end.
    cbn. auto. }
  assert (G : forall i l i', steps e i l i' -> fixed_step i = true -> fixed_step i' = true /\ step_size i' = step_size i).
  { clear - D. intros i l i' S. induction S as [i|i i1 l1 i2 S1 S2 IH]; intros Fi; [auto|].
    assert (fixed_step i1 = true /\ step_size i1 = step_size i) as [F1 E1].
    { unfold single_step in S1. destruct (derive e i) as [j [[t v]|x| |]] eqn:Dj; try congruence.
      destruct (finally e _) as [s'|x| |]; try congruence. assert (i1 = with_state j s') as -> by congruence.
      destruct (D _ _ _ _ Fi Dj) as (_ & A & B). split; assumption. }
    destruct (IH F1) as [A B]. split; congruence. }
  intros Dv. destruct (G _ _ _ Hs eq_refl) as [A B]. destruct (D _ _ _ _ A Dv) as [-> _]. exact B.
Qed.

(** The first step tried is the longest one of [with_adaptive_step], a minute by default: it is the one
    taken when its error is tolerated. *)
Theorem C97_tried_first : forall St V F E (e : env St V F E) (o : integrator_options F) first s next errv,
  (exists min tol, o = with_adaptive_step min first tol) \/
    (first = 60000000000 /\ (o = default_options \/ (exists tol, o = with_tolerance tol) \/
                             exists m, 60000000000 <= m /\ o = with_max_step m)) ->
  opts e = step_options o -> try_step e s false (to_secs first) = Ok (next, errv) ->
  (estimate e errv next (to_vector e s) <= io_tolerance o)%R -> has_nan e next = false ->
  snd (derive e (start o s)) = Ok (of_secs e (to_secs first), next).
Proof.
  intros St V F E e o first s next errv C Ho T Herr Hn.
  assert (I : io_init o = first /\ io_fixed o = false).
  { destruct C as [(min & tol & ->)|(-> & [->|[(tol & ->)|(m & Hm & ->)]])]; try (split; reflexivity).
    split; [|reflexivity]. cbn [with_max_step set_max_step default_options io_init]. unfold seconds.
    destruct (Z.ltb_spec m (60 * 1000000000)); lia. }
  destruct I as [I J]. unfold derive, start. cbn [derive_loop with_details state fixed_step step_size].
  rewrite I, J, T. unfold accepts. rewrite Ho. cbn [step_options tolerance].
  destruct (Rle_dec _ _) as [_|N]; [|contradiction]. cbn [orb]. rewrite Hn. reflexivity.
Qed.

(** A step is tried at most fifty times, and taken before the fiftieth only if its error is tolerated or
    the step is the smallest one. *)
Theorem C97_attempts : forall St V F E (e : env St V F E) (o : integrator_options F) i i' t v,
  o = default_options \/ (exists min max tol, o = with_adaptive_step min max tol) \/
    (exists tol, o = with_tolerance tol) \/ (exists m, o = with_max_step m) ->
  opts e = step_options o -> fixed_step i = false -> derive e i = (i', Ok (t, v)) ->
  (1 <= d_attempts (det i') <= 50)%nat /\
  ((d_error (det i') <= io_tolerance o)%R \/ (exists h, t = of_secs e h /\ (h <= to_secs (io_min o))%R) \/
   d_attempts (det i') = 50%nat).
Proof.
  intros St V F E e o i i' t v C Ho Hf.
  assert (A : io_attempts o = 50%nat)
    by (destruct C as [->|[(? & ? & ? & ->)|[(? & ->)|(? & ->)]]]; reflexivity).
  unfold derive. generalize (S (attempts (opts e))) as fuel.
  set (i0 := with_details _ _). assert (Hf0 : fixed_step i0 = false) by exact Hf. clearbody i0.
  generalize (to_secs (step_size i)) as h.
  assert (G : forall fuel i0 h att, fixed_step i0 = false -> (1 <= att <= 50)%nat ->
    derive_loop e fuel i0 h att = (i', Ok (t, v)) ->
    (1 <= d_attempts (det i') <= 50)%nat /\
    ((d_error (det i') <= io_tolerance o)%R \/ (exists h, t = of_secs e h /\ (h <= to_secs (io_min o))%R) \/
     d_attempts (det i') = 50%nat)).
  { clear i0 Hf0 Hf. induction fuel as [|fuel IH]; intros i0 h att Hf0 Ha; cbn [derive_loop]; [congruence|].
    destruct (try_step e (state i0) (fixed_step i0) h) as [[next errv]|x| |]; try congruence. rewrite Hf0.
    destruct (accepts e (estimate e errv next (to_vector e (state i0))) h att) eqn:Acc.
    - destruct (has_nan e next); [congruence|]. intros D.
      match type of D with (?a, Ok (?b, _)) = _ => assert (i' = a) as -> by congruence; assert (t = b) as -> by congruence end.
      cbn [det d_attempts d_error]. split; [exact Ha|].
      unfold accepts in Acc. rewrite Ho in Acc. cbn [step_options tolerance min_step attempts] in Acc. rewrite A in Acc.
      destruct (Rle_dec _ (io_tolerance o)) as [H|_]; [left; exact H|].
      destruct (Rle_dec h _) as [H|_]; [right; left; exists h; split; [reflexivity|exact H]|].
      cbn [orb] in Acc. apply Nat.leb_le in Acc. right. right. lia.
    - apply IH; [exact Hf0|]. unfold accepts in Acc. rewrite Ho in Acc. cbn [step_options attempts] in Acc. rewrite A in Acc.
      apply Bool.orb_false_iff in Acc. destruct Acc as [_ Acc]. apply Nat.leb_gt in Acc. lia. }
  intros h fuel. apply G; [exact Hf0|lia].
Qed.

(** ** Examples and refutations *)

(** The clock of [Prop_Examples] with the options of a propagator. *)
Definition clock_with (o : integrator_options unit) : env Z unit unit unit :=
  {| epoch := fun s => s; set_state := fun _ t _ => t; to_vector := fun _ => tt;
     finally := Ok; eom := fun _ _ _ => Ok tt; vadd := fun _ _ => tt;
     vscale := fun _ _ => tt; vzero := tt; has_nan := fun _ => false;
     estimate := fun _ _ _ => 0%R; frame_of := fun _ => tt; frame_eqb := fun _ _ => true;
     enter_frame := fun s _ => Ok s; leave_frame := fun s _ => Ok s;
     of_secs := trunc_secs; nan_error := tt; meth := euler; opts := step_options o |}.
Lemma clock_with_converts o : converts (clock_with o) 0.
Proof.
  split; cbn.
  - lia.
  - apply trunc_hi.
  - intros x m Hm Hx. pose proof (trunc_lo x m Hm Hx). lia.
  - apply trunc_odd.
Qed.
Lemma clock_with_steps o s : io_fixed o = false -> (0 <= io_tolerance o)%R ->
  exists i' t, derive (clock_with o) (start o s) = (i', Ok (t, tt)).
Proof.
  intros Hf Ht. unfold derive. cbn [derive_loop with_details start state fixed_step step_size]. rewrite Hf.
  unfold try_step.
  cbn [clock_with eom meth euler stages stage_loop bind combine_stages b_coeffs
      nth_error Nat.add to_vector vzero estimate opts has_nan].
  unfold accepts. cbn [clock_with opts step_options tolerance].
  destruct (Rle_dec 0 (io_tolerance o)) as [_|Hn]; [|contradiction]. cbn [orb]. do 2 eexists. reflexivity.
Qed.
Lemma default_tolerance : (0 < io_tolerance (default_options (F := unit)))%R.
Proof. cbn [io_tolerance default_options]. apply Rinv_0_lt_compat, pow_lt. lra. Qed.

(** The first step of the clock is tolerated, and so is a minute. *)
Example tried_first_case : snd (derive (clock_with default_options) (start (default_options (F := unit)) 5))
  = Ok (trunc_secs (to_secs 60000000000), tt).
Proof.
  apply (C97_tried_first _ _ _ _ (clock_with default_options) default_options 60000000000 5 tt tt);
    [right; split; [reflexivity|now left]|reflexivity|reflexivity|apply Rlt_le, default_tolerance|reflexivity].
Qed.

(** A clock with a fixed step of seven nanoseconds makes it. *)
Example fixed_case : steps (clock_with (with_fixed_step 7)) (start (with_fixed_step (F := unit) 7) 5) [] (start (with_fixed_step (F := unit) 7) 5) /\
  exists i', derive (clock_with (with_fixed_step 7)) (start (with_fixed_step (F := unit) 7) 5) = (i', Ok (7, tt)).
Proof. split; [constructor|]. eexists. reflexivity. Qed.

(** The theorems above apply to a propagator with a greatest step of ten minutes. *)
Example C97_case : ordered (with_max_step (F := unit) (600 * seconds)) /\
  converts (clock_with (with_max_step (600 * seconds))) 0 /\
  (0 < io_tolerance (with_max_step (F := unit) (600 * seconds)))%R /\
  exists i' t, derive (clock_with (with_max_step (600 * seconds))) (start (with_max_step (F := unit) (600 * seconds)) 5) = (i', Ok (t, tt)).
Proof.
  split; [apply C97_built; unfold seconds; lia|]. split; [apply clock_with_converts|].
  split; [exact default_tolerance|]. apply clock_with_steps; [reflexivity|]. apply Rlt_le, default_tolerance.
Qed.

(** A greatest step below a millisecond is not respected. *)
Theorem C97_greatest_refuted : exists (e : env Z unit unit unit) m s i', 0 < m /\ converts e 0 /\
  opts e = step_options (with_max_step m) /\ single_step e (start (with_max_step (F := unit) m) s) = (i', Ok tt) /\
  m < Z.abs (step_size i').
Proof.
  exists (clock_with (with_max_step 500000)), 500000, 5.
  destruct (clock_with_steps (with_max_step 500000) 5 eq_refl (Rlt_le _ _ default_tolerance)) as (i' & t & D).
  assert (B : 1000000 <= Z.abs (step_size i')).
  { assert (M : 0 <= min_step (opts (clock_with (with_max_step 500000)))) by (change (0 <= 1000000); lia).
    refine (C97_smallest_wins _ _ _ _ _ _ _ _ _ M _ D); reflexivity. }
  exists (with_state i' (state i' + t)).
  assert (S : single_step (clock_with (with_max_step 500000)) (start (with_max_step (F := unit) 500000) 5) = (with_state i' (state i' + t), Ok tt))
    by (unfold single_step; rewrite D; reflexivity).
  cbn [with_state step_size].
  split; [lia|]. split; [apply clock_with_converts|].
  split; [reflexivity|]. split; [exact S|lia].
Qed.
(** The initial step of [with_max_step] is not the one given when it is longer than a minute. *)
Theorem C97_initial_refuted : exists m, 0 < m /\ io_init (with_max_step (F := unit) m) <> m.
Proof. exists (120 * seconds). unfold seconds. split; [lia|]. cbn. lia. Qed.

Print Assumptions C97_built.
Print Assumptions C97_setters.
Print Assumptions C97_setting.
Print Assumptions C97_within.
Print Assumptions C97_first_step.
Print Assumptions C97_smallest_wins.
Print Assumptions C97_greatest_refuted.
Print Assumptions C97_initial_refuted.
Print Assumptions C97_fixed.
Print Assumptions C97_tried_first.
Print Assumptions C97_attempts.
