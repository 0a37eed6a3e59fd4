(** C54: propagation until the n-th crossing of an event. *)
From Coq Require Import Reals ZArith Lra Permutation.
From Verif Require Import Base RustStd Prop_Model Prop_Spec Prop_Loop Prop_Props Prop_Examples
  Traj_Model Traj_Spec Traj_Proofs Traj_Props Event_Model.
From Verif Require Prop_Inv.
Local Open Scope Z_scope.

(** ** Specification *)

(** A scalar crosses zero between two values of opposite signs; an angle (in degrees, within
    a turn) between a negative and a non-negative value less than half a turn away. *)
Definition sign_change (angle : bool) (p n : R) : Prop :=
  if angle then ((p < 0 <= n)%R \/ (n < 0 <= p)%R) /\ (- 180 < n - p < 180)%R
  else (p < 0 < n)%R \/ (n < 0 < p)%R.

(** [crossings P y l n]: [n] of the steps of the sequence y :: l satisfy [P]. *)
Inductive crossings (P : R -> R -> Prop) : R -> list R -> nat -> Prop :=
| crossings_nil : forall y, crossings P y [] 0
| crossings_yes : forall y z l n, P y z -> crossings P z l n -> crossings P y (z :: l) (S n)
| crossings_no : forall y z l n, ~ P y z -> crossings P z l n -> crossings P y (z :: l) n.

(** A root finder returns an epoch of its bracket at which the function is close to zero. *)
Definition finds_roots (near : R -> Prop) (brent : (Z -> res unit R) -> Z -> Z -> option Z) : Prop :=
  forall f a b t, brent f a b = Some t -> a <= b -> a <= t <= b /\ exists y, f t = Ok y /\ near y.

(** A root finder that begins with evaluating both ends of its bracket. *)
Definition evaluates_ends (brent : (Z -> res unit R) -> Z -> Z -> option Z) : Prop :=
  forall f a b t, brent f a b = Some t -> (exists y, f a = Ok y) /\ (exists y, f b = Ok y).

Lemma counts_spec angle p n : counts_as_crossing angle p n = true <-> sign_change angle p n.
Proof.
  unfold counts_as_crossing, sign_change. destruct angle.
  - destruct (Rlt_dec p 0), (Rlt_dec n 0), (Rlt_dec (Rabs (n - p)) 180) as [H|H]; cbn [Bool.eqb negb andb];
      (split; [try discriminate; intros _|intros [H1 H2]; try reflexivity; try lra]).
    + apply Rabs_def2 in H. split; lra.
    + exfalso. apply H. apply Rabs_def1; lra.
    + apply Rabs_def2 in H. split; lra.
    + exfalso. apply H. apply Rabs_def1; lra.
  - destruct (Rlt_dec (p * n) 0) as [H|H]; (split; [try discriminate; intros _|intros K; try reflexivity]).
    + destruct (Rtotal_order p 0) as [A|[A|A]]; [left|subst; lra|right];
        (destruct (Rtotal_order n 0) as [B|[B|B]]; [|subst; lra|]); try lra; exfalso; nra.
    + exfalso. apply H. destruct K as [[A B]|[A B]]; nra.
Qed.

Lemma counts_false angle p n : counts_as_crossing angle p n = false <-> ~ sign_change angle p n.
Proof.
  rewrite <- counts_spec. destruct (counts_as_crossing angle p n); split; congruence.
Qed.

Section Event.
Context {St V F E : Type} (e : env St V F E) (o : state_ops St F)
        (arrange : list St -> list St) (ev raw : St -> res E R) (angle : bool)
        (st_eqb : St -> St -> bool) (brent : (Z -> res unit R) -> Z -> Z -> option Z).
Notation watch := (enough_crossings ev angle).
Notation until := (until_nth_event e o arrange ev raw angle st_eqb brent).

(** [s] has the event value [y]. *)
Definition has_value (s : St) (y : R) : Prop := ev s = Ok y.

Lemma watch_ok trig c s c' b : watch trig c s = (c', Ok b) ->
  exists y, ev s = Ok y /\ snd c' = y /\ b = (trig <=? fst c')%nat /\
    (sign_change angle (snd c) y /\ fst c' = S (fst c) \/ ~ sign_change angle (snd c) y /\ fst c' = fst c).
Proof.
  unfold enough_crossings. destruct (ev s) as [y|x| |]; try discriminate. intros H.
  assert (Hc : c' = ((if counts_as_crossing angle (snd c) y then S (fst c) else fst c), y)) by congruence.
  assert (Hb : b = (trig <=? (if counts_as_crossing angle (snd c) y then S (fst c) else fst c))%nat) by congruence.
  exists y. subst c' b. cbn [fst snd]. split; [reflexivity|]. split; [reflexivity|]. split; [reflexivity|].
  destruct (counts_as_crossing angle (snd c) y) eqn:K; [left; apply counts_spec in K|right; apply counts_false in K]; auto.
Qed.

Lemma last_cons {A} (a : A) l y : last (a :: l) y = last l a.
Proof.
  destruct l as [|b l]; [reflexivity|]. change (last (a :: b :: l) y) with (last (b :: l) y).
  apply Prop_Inv.last_default. discriminate.
Qed.

Lemma crossings_snoc P ys : forall y n z, crossings P y ys n ->
  (P (last ys y) z -> crossings P y (ys ++ [z]) (S n)) /\
  (~ P (last ys y) z -> crossings P y (ys ++ [z]) n).
Proof.
  induction ys as [|a ys IH]; intros y n z H; inversion H; subst.
  - cbn. split; intros K; [apply crossings_yes|apply crossings_no]; auto; constructor.
  - rewrite last_cons. destruct (IH a _ z H5) as [I1 I2]. split; intros K; apply crossings_yes; auto.
  - rewrite last_cons. destruct (IH a _ z H5) as [I1 I2]. split; intros K; apply crossings_no; auto.
Qed.

Lemma quiet_counts trig l : forall n y c', quiet (watch trig) (n, y) l c' -> (n < trig)%nat ->
  exists ys k, Forall2 has_value l ys /\ crossings (sign_change angle) y ys k /\
    fst c' = (n + k)%nat /\ snd c' = last ys y /\ (fst c' < trig)%nat.
Proof.
  induction l as [|s l IH]; intros n y c' H Hn.
  - cbn in H. subst c'. exists [], 0%nat. split; [constructor|]. split; [constructor|]. cbn. auto.
  - destruct H as ([n1 y1] & H1 & H2). apply watch_ok in H1 as (z & Hz & Hs & Hb & Hk). cbn [fst snd] in *. subst z.
    assert (Hn1 : (n1 < trig)%nat) by (symmetry in Hb; apply Nat.leb_gt in Hb; exact Hb).
    destruct (IH _ _ _ H2 Hn1) as (ys & k & I1 & I2 & I3 & I4 & I5).
    pose proof (last_cons y1 ys y) as L.
    destruct Hk as [[Hk Hf]|[Hk Hf]].
    + exists (y1 :: ys), (S k). split; [constructor; assumption|]. split; [apply crossings_yes; assumption|].
      rewrite L. split; [lia|]. auto.
    + exists (y1 :: ys), k. split; [constructor; assumption|]. split; [apply crossings_no; assumption|].
      rewrite L. split; [lia|]. auto.
Qed.

Lemma gsteps_last bp stop i l i' : gsteps e bp stop i l i' ->
  (l = [] /\ i' = i) \/ exists pre, l = pre ++ [state i'].
Proof.
  induction 1 as [i|i i1 l i' H1 H2 H3 IH]; [now left|]. right.
  destruct IH as [[-> ->]|[pre ->]]; [now exists []|now exists (state i1 :: pre)].
Qed.

(** How a watched propagation ends. *)
Lemma watched {C} (cond : C -> St -> C * res E bool) fuel duration i c s :
  keeps_epoch e -> duration <> 0 ->
  let out := propagate e cond fuel duration i c in
  o_res out = Ok s ->
  (exists c1, quiet cond c (o_sent out) c1 /\ cond c1 s = (o_cond out, Ok true) /\
     (forall lo, 0 <= lo -> steps_forward e lo i -> 0 < duration ->
        Forall (fun x => epoch e x < epoch e s) (state i :: o_sent out)) /\
     (forall lo, 0 <= lo -> steps_backward e lo i -> duration < 0 ->
        Forall (fun x => epoch e s < epoch e x) (state i :: o_sent out))) \/
  (exists pre x, o_sent out = pre ++ [x] /\ epoch e x = epoch e (state i) + duration /\
     (s = x \/ integration_frame (opts e) <> None /\ exists f, leave_frame e x f = Ok s) /\
     (quiet cond c (o_sent out) (o_cond out) \/ quiet cond c pre (o_cond out))).
Proof.
  intros Hk Hd out Hs. subst out.
  destruct (propagate_cases e cond fuel duration i c) as [(Hz & _)|[(_ & _ & Hne)|(_ & orig & i0 & Hen & Heq)]].
  - contradiction.
  - exfalso. eapply Hne. exact Hs.
  - rewrite Heq in Hs |- *.
    destruct (loop_ending e cond (duration <? 0) (epoch e (state i) + duration) orig fuel i0 c [])
      as (l & i1 & c1 & Hg & Hq & Hend).
    cbn [app] in Hend.
    assert (Ho : orig = None \/ integration_frame (opts e) <> None).
    { inversion Hen; subst; [now left|right; congruence]. }
    assert (E0 : epoch e (state i0) = epoch e (state i)).
    { inversion Hen; subst; cbn [state].
      - eapply epoch_finally; eassumption.
      - rewrite (epoch_enter _ Hk _ _ _ H2). eapply epoch_finally; eassumption. }
    remember (prop_loop e cond (duration <? 0) (epoch e (state i) + duration) orig fuel i0 c []) as out eqn:Eo.
    clear Eo Heq.
    destruct Hend as [Ht He|i2 Ht Hn Hss|i2 c2 Ht Hss Hcd|oo Hse Hno].
    + right. destruct (gsteps_last _ _ _ _ _ Hg) as [[-> ->]|[pre ->]]; [lia|].
      exists pre, (state i1). rewrite rotate_back_sent. split; [reflexivity|]. split; [congruence|].
      destruct (rotate_back_ok e Hk _ _ _ _ _ Hs) as (_ & [[-> _]|(f & Hf & Hl)] & _).
      * split; [now left|]. left. unfold rotate_back. destruct orig as [f|]; [destruct (leave_frame e (state i1) f)|]; exact Hq.
      * split; [right; split; [destruct Ho; [congruence|assumption]|eauto]|].
        left. unfold rotate_back. destruct orig as [f'|]; [destruct (leave_frame e (state i1) f')|]; exact Hq.
    + right. exists l, (state i2). rewrite rotate_back_sent. split; [reflexivity|].
      split; [eapply final_epoch; eassumption|].
      destruct (rotate_back_ok e Hk _ _ _ _ _ Hs) as (_ & D & _). rewrite restored_state in D.
      assert (Q : o_cond (rotate_back e orig (restored (duration <? 0) i1 i2) c1 (l ++ [state i2])) = c1).
      { unfold rotate_back. destruct orig as [f'|]; [destruct (leave_frame e _ f')|]; reflexivity. }
      rewrite Q. split; [|now right].
      destruct D as [[-> _]|(f & Hf & Hl)]; [now left|]. right. split; [destruct Ho; [congruence|assumption]|eauto].
    + left. cbn [o_res o_sent o_cond] in Hs |- *. assert (s = state i2) as -> by congruence.
      exists c1. split; [exact Hq|]. split; [exact Hcd|]. split.
      * intros lo Hlo Hf Hp. assert (Hb : (duration <? 0) = false) by lia. rewrite Hb in *.
        destruct (entered_forward e _ _ _ _ _ Hp Hf Hen) as (Hf0 & _).
        destruct (gsteps_forward e Hk _ _ _ _ _ Hlo Hg Hf0 ltac:(lia)) as (_ & I2 & I3 & I4 & I5 & _).
        destruct (single_step_forward e Hk _ _ _ Hlo I2 Hss) as (Hbd & _).
        constructor; [lia|]. eapply Forall_impl; [|exact I5]. cbn. intros a Ha'. lia.
      * intros lo Hlo Hf Hp. assert (Hb : (duration <? 0) = true) by lia. rewrite Hb in *.
        destruct (entered_backward e _ _ _ _ _ Hp Hf Hen) as (Hf0 & _).
        destruct (gsteps_backward e Hk _ _ _ _ _ Hlo Hg Hf0 ltac:(lia)) as (_ & I2 & I3 & I4 & I5 & _).
        destruct (single_step_backward e Hk _ _ _ Hlo I2 Hss) as (Hbd & _).
        constructor; [lia|]. eapply Forall_impl; [|exact I5]. cbn. intros a Ha'. lia.
    + exfalso. eapply Hno. exact Hs.
Qed.

Hypothesis Hk : keeps_epoch e.
Hypothesis He : forall s, st_epoch o s = epoch e s.
Hypothesis Ha : forall l, Permutation l (arrange l).

Lemma forward_traj fuel duration i c lo (cond : nat * R -> St -> (nat * R) * res E bool) :
  0 <= lo -> steps_forward e lo i -> 0 < duration ->
  let sent := o_sent (propagate e cond fuel duration i c) in
  finalize o (arrange sent ++ [state i]) = state i :: sent /\
  strictly_chronological (st_epoch o) (state i :: sent).
Proof.
  intros Hlo Hf Hd sent.
  pose proof (proj1 (C02_forward_epochs _ _ _ _ _ e cond Hk lo fuel duration i c Hlo Hf Hd)) as I. fold sent in I.
  assert (G : forall l a b, increasing_within a b (map (epoch e) l) ->
     strictly_chronological (st_epoch o) l /\ forall y, In y l -> a < st_epoch o y).
  { induction l as [|x l IH]; intros a b; cbn; [intros _; split; [trivial|intros y []]|].
    intros [H1 H2]. destruct (IH _ _ H2) as [I1 I2]. rewrite He. split; [split; [exact I2|exact I1]|].
    intros y [->|Hy]; [rewrite He; lia|]. specialize (I2 y Hy). lia. }
  destruct (G _ _ _ I) as [G1 G2].
  assert (SC : strictly_chronological (st_epoch o) (state i :: sent)) by (split; [rewrite He; exact G2|exact G1]).
  split; [|exact SC].
  rewrite (finalize_perm o (state i :: sent)).
  - now apply finalize_id.
  - now apply schron_nodup.
  - eapply Permutation_trans; [apply Permutation_cons_append|]. apply Permutation_app_tail. apply Ha.
Qed.

Lemma last_state_cons (x : St) l : last_state (x :: l) = Some (last l x).
Proof.
  unfold last_state. cbn [length]. replace (S (length l) - 1)%nat with (length l) by lia.
  revert x. induction l as [|y l IH]; intros x; [reflexivity|]. rewrite last_cons. exact (IH y).
Qed.

(** The search succeeds only right after a crossing, the [trigger]-th one of the start state
    and of all the states emitted: the trajectory is made of them and of the state after the
    crossing, and the returned state is that of the trajectory at the root found within the
    last step. *)
Theorem C54_found : forall lo fuel duration trigger i s traj,
  (forall s s', st_eqb s s' = true -> epoch e s = epoch e s') -> (forall s, st_eqb s s = true) ->
  integration_frame (opts e) = None ->
  0 <= lo -> steps_forward e lo i -> 0 < duration -> (0 < trigger)%nat ->
  until fuel duration trigger i = Ok (s, traj) ->
  exists emitted stop y0 ys y,
    traj = state i :: emitted ++ [stop] /\ strictly_chronological (st_epoch o) traj /\
    has_value (state i) y0 /\ Forall2 has_value emitted ys /\ has_value stop y /\
    sign_change angle (last ys y0) y /\
    crossings (sign_change angle) y0 ys (trigger - 1) /\
    crossings (sign_change angle) y0 (ys ++ [y]) trigger /\
    exists t, brent (traj_at o raw traj) (st_epoch o (last emitted (state i))) (st_epoch o stop) = Some t /\
              at_epoch o traj t = Ok s.
Proof.
  intros lo fuel duration trigger i s traj Heq Hrefl Hif Hlo Hf Hd Htr H.
  unfold until_nth_event in H. destruct (ev (state i)) as [y0|x| |] eqn:Hy0; try discriminate.
  set (out := propagate e (watch trigger) fuel duration i (0%nat, y0)) in *.
  destruct (o_res out) as [stop|x| |] eqn:Hres; try discriminate.
  destruct (forward_traj fuel duration i (0%nat, y0) lo (watch trigger) Hlo Hf Hd) as [T SC]. fold out in T, SC.
  rewrite T in H. rewrite last_state_cons in H.
  destruct (st_eqb stop (last (o_sent out) (state i))) eqn:Hq; [discriminate|].
  destruct (brent _ _ _) as [t|] eqn:Hb; [|discriminate].
  destruct (at_epoch _ _ t) as [s'|x| |] eqn:Hat; try discriminate.
  assert (s' = s) as -> by congruence. assert (Et : (state i :: o_sent out) ++ [stop] = traj) by congruence.
  destruct (watched (watch trigger) fuel duration i (0%nat, y0) stop Hk ltac:(lia) Hres)
    as [(c1 & Q & W & W0 & _)|(pre & x & Hs & _ & [->|[N _]] & _)]; [fold out in Q, W, W0|fold out in Hs|congruence].
  - destruct (quiet_counts _ _ _ _ _ Q Htr) as (ys & k & Q1 & Q2 & Q3 & Q4 & Q5).
    apply watch_ok in W as (y & W1 & _ & W2 & W3). cbn [fst snd] in *.
    symmetry in W2. apply Nat.leb_le in W2. rewrite Q4 in W3.
    destruct W3 as [[W3 W4]|[_ W4]]; [|lia].
    assert (k = (trigger - 1)%nat) by lia. subst k.
    exists (o_sent out), stop, y0, ys, y. rewrite Et in *. cbn [app] in Et.
    split; [congruence|]. split.
    { rewrite <- Et.
      change (state i :: o_sent out ++ [stop]) with ((state i :: o_sent out) ++ [stop]).
      apply schron_app; [exact SC|split; [intros ? []|exact I]|].
      intros a b Hia [<-|[]]. specialize (W0 lo Hlo Hf Hd). rewrite Forall_forall in W0. rewrite !He. apply W0, Hia. }
    split; [exact Hy0|]. split; [exact Q1|]. split; [exact W1|]. split; [exact W3|]. split; [exact Q2|].
    split.
    { replace trigger with (S (trigger - 1)) by lia. exact (proj1 (crossings_snoc _ _ _ _ y Q2) W3). }
    exists t. split; [exact Hb|exact Hat].
  - exfalso. rewrite Hs, last_last, Hrefl in Hq. discriminate.
Qed.

(** [until_event] stops at the first sign change: none of the states emitted before shows one. *)
Theorem C54_first_event : forall lo fuel duration i s traj,
  (forall s s', st_eqb s s' = true -> epoch e s = epoch e s') -> (forall s, st_eqb s s = true) ->
  integration_frame (opts e) = None -> 0 <= lo -> steps_forward e lo i -> 0 < duration ->
  until_event e o arrange ev raw angle st_eqb brent fuel duration i = Ok (s, traj) ->
  exists emitted stop y0 ys y,
    traj = state i :: emitted ++ [stop] /\ has_value (state i) y0 /\ Forall2 has_value emitted ys /\
    has_value stop y /\ crossings (sign_change angle) y0 ys 0 /\ sign_change angle (last ys y0) y /\
    exists t, brent (traj_at o raw traj) (st_epoch o (last emitted (state i))) (st_epoch o stop) = Some t /\
              at_epoch o traj t = Ok s.
Proof.
  intros lo fuel duration i s traj Heq Hrefl Hif Hlo Hf Hd H.
  destruct (C54_found lo fuel duration 1 i s traj Heq Hrefl Hif Hlo Hf Hd ltac:(lia) H)
    as (em & stop & y0 & ys & y & T1 & _ & T3 & T4 & T5 & T6 & T7 & _ & T8).
  exists em, stop, y0, ys, y. repeat (split; [assumption|]). exact T8.
Qed.

(** With a sound root finder the state returned is close to a zero of the event, in the frame
    in which the trajectory is integrated. *)
Theorem C54_root : forall near lo fuel duration trigger i s traj,
  (forall s s', st_eqb s s' = true -> epoch e s = epoch e s') -> (forall s, st_eqb s s = true) ->
  integration_frame (opts e) = None -> finds_roots near brent ->
  0 <= lo -> steps_forward e lo i -> 0 < duration -> (0 < trigger)%nat ->
  until fuel duration trigger i = Ok (s, traj) ->
  exists t y pre a b, traj = pre ++ [a; b] /\ st_epoch o a <= t <= st_epoch o b /\
    at_epoch o traj t = Ok s /\ raw s = Ok y /\ near y.
Proof.
  intros near lo fuel duration trigger i s traj Heq Hrefl Hif Hb Hlo Hf Hd Htr H.
  destruct (C54_found lo fuel duration trigger i s traj Heq Hrefl Hif Hlo Hf Hd Htr H)
    as (em & stop & y0 & ys & y & T1 & T2 & _ & _ & _ & _ & _ & _ & t & T3 & T4).
  assert (L : exists pre, state i :: em = pre ++ [last em (state i)]).
  { destruct (exists_last (l := state i :: em)) as (pre & x & Hx); [discriminate|]. exists pre. rewrite Hx. f_equal. f_equal.
    rewrite <- last_cons with (y := state i), Hx, last_last. reflexivity. }
  destruct L as [pre L].
  assert (T : traj = pre ++ [last em (state i); stop]).
  { rewrite T1. change (state i :: em ++ [stop]) with ((state i :: em) ++ [stop]). rewrite L, <- app_assoc. reflexivity. }
  assert (O : st_epoch o (last em (state i)) <= st_epoch o stop).
  { assert (Z.lt (st_epoch o (last em (state i))) (st_epoch o stop)); [|lia].
    rewrite T in T2. clear - T2. induction pre as [|x pre IH]; cbn [app strictly_chronological] in T2.
    - apply T2. now left.
    - apply IH, T2. }
  destruct (Hb _ _ _ _ T3 O) as (R1 & z & R2 & R3).
  unfold traj_at in R2. rewrite T4 in R2. destruct (raw s) as [z'|x| |] eqn:Hr; try discriminate.
  exists t, z, pre, (last em (state i)), stop. split; [exact T|]. split; [exact R1|]. split; [exact T4|].
  split; [congruence|exact R3].
Qed.

(** If the search reports that there were not enough events, fewer than [trigger] crossings
    were seen along the emitted states, the last one excepted when it is that of a shortened
    step. *)
Theorem C54_not_found : forall lo fuel duration trigger i nth found,
  (forall s s', st_eqb s s' = true -> epoch e s = epoch e s') ->
  0 <= lo -> steps_forward e lo i -> 0 < duration -> (0 < trigger)%nat ->
  until fuel duration trigger i = Err (NthEventError nth found) ->
  nth = trigger /\ (found < trigger)%nat /\
  exists y0 checked ys, has_value (state i) y0 /\ Forall2 has_value checked ys /\
    crossings (sign_change angle) y0 ys found /\
    let sent := o_sent (propagate e (watch trigger) fuel duration i (0%nat, y0)) in
    (exists pre x, sent = pre ++ [x] /\ epoch e x = epoch e (state i) + duration) /\
    (checked = sent \/ exists x, sent = checked ++ [x]).
Proof.
  intros lo fuel duration trigger i nth found Heq Hlo Hf Hd Htr H.
  unfold until_nth_event in H. destruct (ev (state i)) as [y0|x| |] eqn:Hy0; try discriminate.
  set (out := propagate e (watch trigger) fuel duration i (0%nat, y0)) in *.
  destruct (o_res out) as [stop|x| |] eqn:Hres; try discriminate.
  destruct (forward_traj fuel duration i (0%nat, y0) lo (watch trigger) Hlo Hf Hd) as [T SC]. fold out in T, SC.
  rewrite T in H. rewrite last_state_cons in H.
  destruct (st_eqb stop (last (o_sent out) (state i))) eqn:Hq;
    [|destruct (brent _ _ _) as [t|]; [destruct (at_epoch _ _ t)|]; discriminate].
  assert (nth = trigger) by congruence. assert (Hfd : fst (o_cond out) = found) by congruence. subst nth.
  split; [reflexivity|].
  destruct (watched (watch trigger) fuel duration i (0%nat, y0) stop Hk ltac:(lia) Hres)
    as [(c1 & Q & W & W0 & _)|(pre & x & Hs & Hx & _ & Hc)]; [fold out in Q, W, W0|fold out in Hs, Hc].
  - exfalso. specialize (W0 lo Hlo Hf Hd). rewrite Forall_forall in W0. apply Heq in Hq.
    specialize (W0 (last (o_sent out) (state i))). rewrite Hq in W0.
    assert (In (last (o_sent out) (state i)) (state i :: o_sent out)); [|apply W0 in H0; lia].
    destruct (o_sent out) as [|z l] using rev_ind; [now left|]. rewrite last_last. right. apply in_or_app. right. now left.
  - destruct Hc as [Hc|Hc]; destruct (quiet_counts _ _ _ _ _ Hc Htr) as (ys & k & Q1 & Q2 & Q3 & _ & Q5);
      (split; [lia|]); cbn [fst] in *.
    + exists y0, (o_sent out), ys. assert (k = found) as -> by lia.
      split; [exact Hy0|]. split; [exact Q1|]. split; [exact Q2|]. split; [eauto|now left].
    + exists y0, pre, ys. assert (k = found) as -> by lia.
      split; [exact Hy0|]. split; [exact Q1|]. split; [exact Q2|]. split; [eauto|right; eauto].
Qed.

(** A backward search never succeeds: the state that ends it is pushed after the start
    state, and the trajectory can no longer be read at the start of the bracket. *)
Theorem C54_backward_never_succeeds : forall lo fuel duration trigger i s traj,
  evaluates_ends brent -> 0 <= lo -> steps_backward e lo i -> duration < 0 ->
  until fuel duration trigger i <> Ok (s, traj).
Proof.
  intros lo fuel duration trigger i s traj Hb Hlo Hf Hd H.
  unfold until_nth_event in H. destruct (ev (state i)) as [y0|x| |] eqn:Hy0; try discriminate.
  set (out := propagate e (watch trigger) fuel duration i (0%nat, y0)) in *.
  destruct (o_res out) as [stop|x| |] eqn:Hres; try discriminate.
  destruct (last_state (finalize o (arrange (o_sent out) ++ [state i]))) as [l|] eqn:Hl; [|discriminate].
  destruct (st_eqb stop l); [discriminate|].
  destruct (brent _ _ _) as [t|] eqn:Hbr; [|discriminate]. clear H.
  assert (B : epoch e stop < epoch e (state i)).
  { destruct (watched (watch trigger) fuel duration i (0%nat, y0) stop Hk ltac:(lia) Hres)
      as [(c1 & _ & _ & _ & W0)|(pre & x & _ & Hx & Hs & _)].
    - specialize (W0 lo Hlo Hf Hd). inversion W0. assumption.
    - destruct Hs as [->|(_ & f & Hs)]; [lia|]. rewrite (epoch_leave _ Hk _ _ _ Hs). lia. }
  assert (L : st_epoch o l >= epoch e (state i)).
  { pose proof (finalize_chron o (arrange (o_sent out) ++ [state i])) as C.
    destruct (finalize_epochs o (arrange (o_sent out) ++ [state i]) (state i)) as (y & Hy1 & Hy2);
      [apply in_or_app; right; now left|].
    pose proof (chron_last o _ _ _ C Hl Hy1). rewrite Hy2, He in H. lia. }
  destruct (Hb _ _ _ _ Hbr) as [[y Hy] _]. unfold traj_at, at_epoch in Hy.
  destruct (first _) as [a|]; [|discriminate].
  assert (LS : last_state (finalize o (arrange (o_sent out) ++ [state i]) ++ [stop]) = Some stop).
  { unfold last_state. rewrite app_length. cbn [length]. replace (length _ + 1 - 1)%nat with (length (finalize o (arrange (o_sent out) ++ [state i]))) by lia.
    rewrite nth_error_app2 by lia. now rewrite Nat.sub_diag. }
  rewrite LS in Hy.
  replace ((st_epoch o l <? st_epoch o a) || (st_epoch o stop <? st_epoch o l)) with true in Hy; [discriminate|].
  symmetry. apply orb_true_iff. right. apply Z.ltb_lt. rewrite (He stop). lia.
Qed.
End Event.

(** ** Cases: a clock stepping by ten *)
Definition tick_event (g : Z -> Z) : Z -> res unit R := fun s => Ok (IZR (g s)).
Definition tick_until brent g raw := until_nth_event (clock 0 Ok) tick_ops (fun l => l) (tick_event g)
  (tick_event raw) false Z.eqb brent.
Definition tick (t step : Z) d : inst (St := Z) := {| state := t; step_size := step; fixed_step := true; det := d |}.
Definition det_of (step : Z) : details := {| d_step := step; d_error := 0%R; d_attempts := 1 |}.

Definition seen (n : nat) (p v : Z) : nat := if p * v <? 0 then S n else n.

Lemma counts_IZR p n : counts_as_crossing false (IZR p) (IZR n) = (p * n <? 0).
Proof.
  unfold counts_as_crossing. rewrite <- mult_IZR. destruct (Rlt_dec (IZR (p * n)) 0) as [H|H], (p * n <? 0) eqn:K; try reflexivity.
  - apply Z.ltb_ge, IZR_le in K. lra.
  - apply Z.ltb_lt, IZR_lt in K. contradiction.
Qed.

Lemma tick_single t step d : d_error d = 0%R ->
  single_step (clock 0 Ok) (tick t step d) = (tick (t + step) step (det_of step), Ok tt).
Proof. destruct d as [a b c]. cbn [d_error]. intros ->. reflexivity. Qed.

(** One step of the clock under watch, the step that completes the search, and the last step. *)
Lemma tick_on g trigger bp stop fuel t step n p d sent : d_error d = 0%R ->
  ((negb bp && (stop <? t + step)) || (bp && (t + step <=? stop))) = false ->
  Nat.leb trigger (seen n p (g (t + step))) = false ->
  prop_loop (clock 0 Ok) (enough_crossings (tick_event g) false trigger) bp stop None (S fuel)
    (tick t step d) (n, IZR p) sent =
  prop_loop (clock 0 Ok) (enough_crossings (tick_event g) false trigger) bp stop None fuel
    (tick (t + step) step (det_of step))
    (seen n p (g (t + step)), IZR (g (t + step))) (sent ++ [t + step]).
Proof.
  intros Hd H1 H2. cbn [prop_loop].
  change (epoch (clock 0 Ok) (state (tick t step d)) + step_size (tick t step d)) with (t + step).
  rewrite H1, (tick_single _ _ _ Hd).
  change (state (tick (t + step) step (det_of step))) with (t + step).
  change (enough_crossings (tick_event g) false trigger (n, IZR p) (t + step))
    with (((if counts_as_crossing false (IZR p) (IZR (g (t + step))) then S n else n), IZR (g (t + step))),
      @Ok unit _ (Nat.leb trigger (if counts_as_crossing false (IZR p) (IZR (g (t + step))) then S n else n))).
  rewrite counts_IZR. change (if p * g (t + step) <? 0 then S n else n) with (seen n p (g (t + step))). rewrite H2. reflexivity.
Qed.

Lemma tick_stop g trigger bp stop fuel t step n p d sent : d_error d = 0%R ->
  ((negb bp && (stop <? t + step)) || (bp && (t + step <=? stop))) = false ->
  Nat.leb trigger (seen n p (g (t + step))) = true ->
  prop_loop (clock 0 Ok) (enough_crossings (tick_event g) false trigger) bp stop None (S fuel)
    (tick t step d) (n, IZR p) sent =
  {| o_inst := tick (t + step) step (det_of step);
     o_cond := (seen n p (g (t + step)), IZR (g (t + step)));
     o_sent := sent; o_res := Ok (t + step) |}.
Proof.
  intros Hd H1 H2. cbn [prop_loop].
  change (epoch (clock 0 Ok) (state (tick t step d)) + step_size (tick t step d)) with (t + step).
  rewrite H1, (tick_single _ _ _ Hd).
  change (state (tick (t + step) step (det_of step))) with (t + step).
  change (enough_crossings (tick_event g) false trigger (n, IZR p) (t + step))
    with (((if counts_as_crossing false (IZR p) (IZR (g (t + step))) then S n else n), IZR (g (t + step))),
      @Ok unit _ (Nat.leb trigger (if counts_as_crossing false (IZR p) (IZR (g (t + step))) then S n else n))).
  rewrite counts_IZR. change (if p * g (t + step) <? 0 then S n else n) with (seen n p (g (t + step))). rewrite H2. reflexivity.
Qed.

(** A root finder for tabulated integer events: the first whole epoch of the bracket at which
    the function is zero, after evaluating both ends. *)
Definition is_zero (y : res unit R) : bool :=
  match y with Ok y => if Req_EM_T y 0 then true else false | _ => false end.
Definition is_okb (y : res unit R) : bool := match y with Ok _ => true | _ => false end.
Fixpoint scan (f : Z -> res unit R) (a : Z) (n : nat) : option Z :=
  if is_zero (f a) then Some a else match n with O => None | S n => scan f (a + 1) n end.
Definition scan_brent (f : Z -> res unit R) (a b : Z) : option Z :=
  if is_okb (f a) && is_okb (f b) then scan f a (Z.to_nat (b - a)) else None.

Lemma scan_spec f n : forall a t, scan f a n = Some t -> a <= t <= a + Z.of_nat n /\ f t = Ok 0%R.
Proof.
  induction n as [|n IH]; intros a t; cbn [scan]; destruct (f a) as [y| | |] eqn:Hf; cbn [is_zero].
  all: try (destruct (Req_EM_T y 0) as [->|]; [intros [= <-]; split; [lia|exact Hf]|]); try discriminate.
  all: intros H; apply IH in H; split; [lia|apply H].
Qed.

Lemma scan_finds : finds_roots (fun y => y = 0%R) scan_brent.
Proof.
  intros f a b t H Hab. unfold scan_brent in H. destruct (is_okb (f a) && is_okb (f b)); [|discriminate].
  apply scan_spec in H as [H1 H2]. split; [lia|]. eauto.
Qed.

Lemma scan_evaluates : evaluates_ends scan_brent.
Proof.
  intros f a b t H. unfold scan_brent in H.
  destruct (f a) as [y| | |], (f b) as [z| | |]; cbn in H; try discriminate. eauto.
Qed.

Lemma is_zero_IZR z : is_zero (Ok (IZR z)) = (z =? 0).
Proof.
  cbn [is_zero]. destruct (Req_EM_T (IZR z) 0) as [H|H], (Z.eqb_spec z 0) as [K|K]; try reflexivity.
  - apply eq_IZR in H. contradiction.
  - now subst.
Qed.

Lemma clock_backward_fixed est fin t step :
  0 < step -> steps_backward (clock est fin) step (clock_inst t step true).
Proof. intros H. left. cbn. split; [reflexivity|lia]. Qed.


Lemma tick_propagate g trigger fuel duration t step : duration <> 0 ->
  propagate (clock 0 Ok) (enough_crossings (tick_event g) false trigger) fuel duration (clock_inst t step true) (0%nat, IZR (g t)) =
  prop_loop (clock 0 Ok) (enough_crossings (tick_event g) false trigger) (duration <? 0) (t + duration) None fuel
    (tick t (if duration <? 0 then - step else step) (det_of 0)) (0%nat, IZR (g t)) [].
Proof.
  intros H. unfold propagate. apply Z.eqb_neq in H. rewrite H. destruct (duration <? 0); reflexivity.
Qed.

(** The run of the clock under watch ended at [stop] after sending [sent], with [n] crossings. *)
Definition tick_ran g trigger fuel duration t stop sent n : Prop :=
  exists i y, prop_loop (clock 0 Ok) (enough_crossings (tick_event g) false trigger) (duration <? 0) (t + duration) None fuel
    (tick t (if duration <? 0 then - (10) else 10) (det_of 0)) (0%nat, IZR (g t)) [] =
    {| o_inst := i; o_cond := (n, y); o_sent := sent; o_res := Ok stop |}.

Lemma tick_found brent g raw trigger fuel duration t stop sent n traj l : duration <> 0 ->
  tick_ran g trigger fuel duration t stop sent n ->
  finalize tick_ops (sent ++ [t]) = traj -> last_state traj = Some l -> (stop =? l) = false ->
  tick_until brent g raw fuel duration trigger (clock_inst t 10 true) =
  match brent (traj_at tick_ops (tick_event raw) (traj ++ [stop])) l stop with
  | Some x => match at_epoch tick_ops (traj ++ [stop]) x with
              | Ok s => Ok (s, traj ++ [stop]) | Err x => Err (TrajectoryEvent x) | Panic => Panic | NoFuel => NoFuel end
  | None => Err PropAnalysis
  end.
Proof.
  intros Hd (i & y & H) Ht Hl Hs. unfold tick_until, until_nth_event.
  change (tick_event g (state (clock_inst t 10 true))) with (@Ok unit R (IZR (g t))). cbv iota beta zeta.
  rewrite tick_propagate by exact Hd. rewrite H. cbn [o_res o_sent].
  change (state (clock_inst t 10 true)) with t. rewrite Ht, Hl, Hs. reflexivity.
Qed.

Lemma tick_missed brent g raw trigger fuel duration t stop sent n traj l : duration <> 0 ->
  tick_ran g trigger fuel duration t stop sent n ->
  finalize tick_ops (sent ++ [t]) = traj -> last_state traj = Some l -> (stop =? l) = true ->
  tick_until brent g raw fuel duration trigger (clock_inst t 10 true) = Err (NthEventError trigger n).
Proof.
  intros Hd (i & y & H) Ht Hl Hs. unfold tick_until, until_nth_event.
  change (tick_event g (state (clock_inst t 10 true))) with (@Ok unit R (IZR (g t))). cbv iota beta zeta.
  rewrite tick_propagate by exact Hd. rewrite H. cbn [o_res o_sent o_cond fst].
  change (state (clock_inst t 10 true)) with t. rewrite Ht, Hl, Hs. reflexivity.
Qed.

Ltac tick_run := unfold tick_ran; repeat (rewrite tick_on by reflexivity);
  try (rewrite tick_stop by reflexivity); eexists; eexists; reflexivity.

Definition from (z s : Z) : Z := s - z.

(** A run that succeeds: the clock starts at 0, the event is [s - 13]; the crossing is seen
    between the states 10 and 20, and the state at epoch 13 is returned. *)
Example C54_case :
  tick_until scan_brent (from 13) (from 13) 9 55 1 (clock_inst 0 10 true) = Ok (13, [0; 10; 20]) /\
  crossings (sign_change false) (IZR (-13)) [IZR (-3); IZR 7] 1 /\
  steps_forward (clock 0 Ok) 10 (clock_inst 0 10 true) /\
  (forall s s', Z.eqb s s' = true -> epoch (clock 0 Ok) s = epoch (clock 0 Ok) s').
Proof.
  split; [|split; [|split; [now apply clock_forward_fixed|now intros s s' H%Z.eqb_eq]]].
  - rewrite (tick_found scan_brent (from 13) (from 13) 1 9 55 0 20 [10] 1 [0; 10] 10); try lia; try reflexivity; [|tick_run].
    unfold scan_brent.
    change (traj_at tick_ops (tick_event (from 13)) ([0; 10] ++ [20]) 10) with (@Ok unit R (IZR (-3))).
    change (traj_at tick_ops (tick_event (from 13)) ([0; 10] ++ [20]) 20) with (@Ok unit R (IZR 7)).
    change (Z.to_nat (20 - 10)) with 10%nat. cbn [is_okb andb scan].
    change (traj_at tick_ops (tick_event (from 13)) ([0; 10] ++ [20]) 10) with (@Ok unit R (IZR (-3))).
    change (traj_at tick_ops (tick_event (from 13)) ([0; 10] ++ [20]) (10 + 1)) with (@Ok unit R (IZR (-2))).
    change (traj_at tick_ops (tick_event (from 13)) ([0; 10] ++ [20]) (10 + 1 + 1)) with (@Ok unit R (IZR (-1))).
    change (traj_at tick_ops (tick_event (from 13)) ([0; 10] ++ [20]) (10 + 1 + 1 + 1)) with (@Ok unit R (IZR 0)).
    rewrite !is_zero_IZR. reflexivity.
  - apply crossings_no; [cbn; lra|]. apply crossings_yes; [cbn; lra|]. constructor.
Qed.

(** A sign change within the last, shortened step is not seen: at duration 25 the event
    [s - 23] goes from -3 to 2 between the emitted states 20 and 25. *)
Theorem C54_last_step_refuted : exists brent g fuel duration i,
  finds_roots (fun y => y = 0%R) brent /\ steps_forward (clock 0 Ok) 10 i /\
  o_sent (for_duration (clock 0 Ok) fuel duration i) = [10; 20; 25] /\
  crossings (sign_change false) (IZR (g (state i))) (map IZR (map g [10; 20; 25])) 1 /\
  tick_until brent g g fuel duration 1 i = Err (NthEventError 1 0).
Proof.
  exists scan_brent, (from 23), 9%nat, 25, (clock_inst 0 10 true).
  split; [exact scan_finds|]. split; [now apply clock_forward_fixed|]. split; [reflexivity|]. split.
  - apply crossings_no; [cbn; lra|]. apply crossings_no; [cbn; lra|]. apply crossings_yes; [cbn; lra|]. constructor.
  - apply (tick_missed _ _ _ _ _ _ _ 25 [10; 20; 25] 0 [0; 10; 20; 25] 25); try lia; try reflexivity. tick_run.
Qed.

(** A scalar event that is exactly zero at a state of the propagation is not seen: the event
    [s - 20] takes the values -20, -10, 0, 10, 20, 30. *)
Theorem C54_exact_zero_refuted : exists brent g fuel duration i,
  finds_roots (fun y => y = 0%R) brent /\ steps_forward (clock 0 Ok) 10 i /\
  o_sent (for_duration (clock 0 Ok) fuel duration i) = [10; 20; 30; 40; 50] /\
  map g [0; 10; 20; 30; 40; 50] = [-20; -10; 0; 10; 20; 30] /\
  tick_until brent g g fuel duration 1 i = Err (NthEventError 1 0).
Proof.
  exists scan_brent, (from 20), 9%nat, 50, (clock_inst 0 10 true).
  split; [exact scan_finds|]. split; [now apply clock_forward_fixed|]. split; [reflexivity|]. split; [reflexivity|].
  apply (tick_missed _ _ _ _ _ _ _ 50 [10; 20; 30; 40; 50] 0 [0; 10; 20; 30; 40; 50] 50); try lia; try reflexivity. tick_run.
Qed.

(** The crossing is looked for with the event evaluated in the event frame, the root with the
    event evaluated in the frame of the states: in the event frame the event is [s - 15], in
    that of the states [s - 12], and the state returned is not at the event. *)
Theorem C54_event_frame_refuted : exists brent g raw fuel duration i s traj,
  finds_roots (fun y => y = 0%R) brent /\ steps_forward (clock 0 Ok) 10 i /\
  tick_until brent g raw fuel duration 1 i = Ok (s, traj) /\ g 15 = 0 /\ g s = -3.
Proof.
  exists scan_brent, (from 15), (from 12), 9%nat, 55, (clock_inst 0 10 true), 12, [0; 10; 20].
  split; [exact scan_finds|]. split; [now apply clock_forward_fixed|]. split; [|split; reflexivity].
  rewrite (tick_found scan_brent (from 15) (from 12) 1 9 55 0 20 [10] 1 [0; 10] 10); try lia; try reflexivity; [|tick_run].
  unfold scan_brent.
  change (traj_at tick_ops (tick_event (from 12)) ([0; 10] ++ [20]) 10) with (@Ok unit R (IZR (-2))).
  change (traj_at tick_ops (tick_event (from 12)) ([0; 10] ++ [20]) 20) with (@Ok unit R (IZR 8)).
  change (Z.to_nat (20 - 10)) with 10%nat. cbn [is_okb andb scan].
  change (traj_at tick_ops (tick_event (from 12)) ([0; 10] ++ [20]) 10) with (@Ok unit R (IZR (-2))).
  change (traj_at tick_ops (tick_event (from 12)) ([0; 10] ++ [20]) (10 + 1)) with (@Ok unit R (IZR (-1))).
  change (traj_at tick_ops (tick_event (from 12)) ([0; 10] ++ [20]) (10 + 1 + 1)) with (@Ok unit R (IZR 0)).
  rewrite !is_zero_IZR. reflexivity.
Qed.

(** Backward, the crossing at -13 is seen between -10 and -20 but the search fails. *)
Theorem C54_backward_refuted : exists g fuel duration i,
  steps_backward (clock 0 Ok) 10 i /\ duration < 0 /\
  crossings (sign_change false) (IZR (g (state i))) (map IZR (map g [-10; -20])) 1 /\
  o_sent (for_duration (clock 0 Ok) fuel duration i) = [-10; -20; -30; -40] /\
  forall brent, evaluates_ends brent -> tick_until brent g g fuel duration 1 i = Err PropAnalysis.
Proof.
  exists (from (-13)), 9%nat, (-40), (clock_inst 0 10 true).
  split; [now apply clock_backward_fixed|]. split; [lia|]. split; [|split; [reflexivity|]].
  - apply crossings_no; [cbn; lra|]. apply crossings_yes; [cbn; lra|]. constructor.
  - intros brent Hb.
    assert (N : forall s traj, tick_until brent (from (-13)) (from (-13)) 9 (-40) 1 (clock_inst 0 10 true) <> Ok (s, traj)).
    { intros s traj. unfold tick_until.
      refine (C54_backward_never_succeeds (clock 0 Ok) tick_ops (fun l => l) _ _ false Z.eqb brent _ _ 10 9 (-40) 1 _ s traj Hb _ _ _);
        [apply clock_keeps|reflexivity|lia|now apply clock_backward_fixed|lia]. }
    rewrite (tick_found brent (from (-13)) (from (-13)) 1 9 (-40) 0 (-20) [-10] 1 [-10; 0] 0) in *; try lia; try reflexivity; try tick_run.
    destruct (brent _ _ _) as [x|] eqn:Hx; [|reflexivity].
    destruct (Hb _ _ _ _ Hx) as [[y Hy] _]. discriminate Hy.
Qed.

(** A clock whose states carry a frame, integrated in another frame than the initial one. *)
Definition framed : env (Z * bool) unit bool unit :=
  {| epoch := fst; set_state := fun s t _ => (t, snd s); to_vector := fun _ => tt;
     finally := Ok; eom := fun _ _ _ => Ok tt; vadd := fun _ _ => tt;
     vscale := fun _ _ => tt; vzero := tt; has_nan := fun _ => false;
     estimate := fun _ _ _ => 0%R; frame_of := snd; frame_eqb := Bool.eqb;
     enter_frame := fun s f => Ok (fst s, f); leave_frame := fun s f => Ok (fst s, f);
     of_secs := trunc_secs; nan_error := tt; meth := euler;
     opts := {| tolerance := 1; min_step := 10; max_step := 1000; attempts := 3;
                integration_frame := Some true |} |}.
Definition framed_ops : state_ops (Z * bool) bool :=
  {| st_epoch := fst; st_frame := snd; st_frame_eqb := Bool.eqb;
     st_interpolate := fun s e _ => Ok (e, snd s) |}.
Definition framed_eqb (a b : Z * bool) : bool := (fst a =? fst b) && Bool.eqb (snd a) (snd b).

(** With an integration frame, the duration elapsed without any event is not reported as
    such: the event is constant and never zero. *)
Theorem C54_integration_frame_refuted : exists i fuel duration,
  keeps_epoch framed /\ steps_forward framed 10 i /\ 0 < duration /\
  o_res (for_duration framed fuel duration i) = Ok (duration, false) /\
  forall brent nth found,
    until_nth_event framed framed_ops (fun l => l) (fun _ => Ok 1%R) (fun _ => Ok 1%R) false framed_eqb brent
      fuel duration 1 i <> Err (NthEventError nth found).
Proof.
  exists {| state := (0, false); step_size := 10; fixed_step := true; det := det_of 0 |}, 9%nat, 5.
  split; [split; cbn; intros; repeat match goal with H : Ok _ = Ok _ |- _ => injection H as <- end; reflexivity|]. split; [left; cbn; split; [reflexivity|lia]|]. split; [lia|]. split; [reflexivity|].
  intros brent nth found H. unfold until_nth_event in H. cbn [state] in H.
  assert (P : propagate framed (enough_crossings (fun _ => Ok 1%R) false 1) 9 5
      {| state := (0, false); step_size := 10; fixed_step := true; det := det_of 0 |} (0%nat, 1%R) =
    {| o_inst := {| state := (5, false); step_size := 10; fixed_step := true; det := det_of 5 |};
       o_cond := (0%nat, 1%R); o_sent := [(5, true)]; o_res := @Ok unit _ (5, false) |}) by reflexivity.
  rewrite P in H.
  cbn [o_res o_sent] in H.
  change (finalize framed_ops ([(5, true)] ++ [(0, false)])) with [(0, false); (5, true)] in H.
  change (last_state [(0, false); (5, true)]) with (Some (5, true)) in H. cbv iota beta in H.
  change (framed_eqb (5, false) (5, true)) with false in H. cbv iota in H.
  destruct (brent _ _ _) as [t|]; [|discriminate]. destruct (at_epoch _ _ t); discriminate.
Qed.

Print Assumptions C54_found.
Print Assumptions C54_root.
Print Assumptions C54_first_event.
Print Assumptions C54_not_found.
Print Assumptions C54_backward_never_succeeds.
Print Assumptions C54_last_step_refuted.
Print Assumptions C54_exact_zero_refuted.
Print Assumptions C54_event_frame_refuted.
Print Assumptions C54_backward_refuted.
Print Assumptions C54_integration_frame_refuted.
