(** The propagation loop: what every outcome of it looks like, and its consequences. *)
From Coq Require Import Reals Lra.
From Verif Require Import Base Prop_Model Prop_Spec Prop_Proofs.
Local Open Scope Z_scope.

Section Loop.
Context {St V F E C : Type} (e : env St V F E).
Variable cond : C -> St -> C * res E bool.

Definition last_test (bp : bool) (stop : Z) (i : inst) : bool :=
  (negb bp && (stop <? epoch e (state i) + step_size i))
  || (bp && (epoch e (state i) + step_size i <=? stop)).

(** Regular steps only: each taken when the last-step test fails. *)
Inductive gsteps (bp : bool) (stop : Z) : inst -> list St -> inst -> Prop :=
| gsteps_nil : forall i, gsteps bp stop i [] i
| gsteps_cons : forall i i1 l i',
    last_test bp stop i = false ->
    single_step e i = (i1, Ok tt) -> gsteps bp stop i1 l i' ->
    gsteps bp stop i (state i1 :: l) i'.

Lemma gsteps_steps bp stop i l i' : gsteps bp stop i l i' -> steps e i l i'.
Proof. induction 1; econstructor; eassumption. Qed.

Definition restored (bp : bool) (i i1 : inst (St := St)) : inst :=
  let i2 := set_step i1 (step_size i) (fixed_step i) in
  if bp then set_step i2 (- step_size i2) (fixed_step i2) else i2.

Inductive ending (bp : bool) (stop : Z) (orig : option F) (i : inst) (c : C) (sent : list St)
  : outcome (St := St) (E := E) C -> Prop :=
| end_here :
    last_test bp stop i = true -> stop = epoch e (state i) ->
    ending bp stop orig i c sent (rotate_back e orig i c sent)
| end_final : forall i1,
    last_test bp stop i = true -> stop <> epoch e (state i) ->
    single_step e (set_step i (stop - epoch e (state i)) true) = (i1, Ok tt) ->
    ending bp stop orig i c sent
      (rotate_back e orig (restored bp i i1) c (sent ++ [state i1]))
| end_cond : forall i1 c1,
    last_test bp stop i = false -> single_step e i = (i1, Ok tt) ->
    cond c (state i1) = (c1, Ok true) ->
    ending bp stop orig i c sent
      {| o_inst := i1; o_cond := c1; o_sent := sent; o_res := Ok (state i1) |}
| end_error : forall o,
    o_sent o = sent -> (forall s, o_res o <> Ok s) -> ending bp stop orig i c sent o.

Lemma quiet_cons c x l c1 c' :
  cond c x = (c1, Ok false) -> quiet cond c1 l c' -> quiet cond c (x :: l) c'.
Proof. intros H1 H2. exists c1. auto. Qed.

Lemma loop_ending bp stop orig fuel : forall i c sent,
  exists l i1 c1,
    gsteps bp stop i l i1 /\ quiet cond c l c1 /\
    ending bp stop orig i1 c1 (sent ++ l)
      (prop_loop e cond bp stop orig fuel i c sent).
Proof.
  induction fuel as [|fuel IH]; intros i c sent; cbn [prop_loop].
  - exists [], i, c. split; [constructor|]. split; [reflexivity|].
    apply end_error; cbn; [now rewrite app_nil_r|discriminate].
  - change ((negb bp && (stop <? epoch e (state i) + step_size i))
            || (bp && (epoch e (state i) + step_size i <=? stop)))
      with (last_test bp stop i).
    destruct (last_test bp stop i) eqn:Hlt.
    + exists [], i, c. split; [constructor|]. split; [reflexivity|].
      rewrite app_nil_r.
      destruct (Z.eqb_spec stop (epoch e (state i))) as [Heq|Hne].
      * apply end_here; assumption.
      * destruct (single_step e (set_step i _ true)) as [i1 [[]|x| |]] eqn:Hss.
        -- apply end_final; assumption.
        -- apply end_error; cbn; [reflexivity|discriminate].
        -- apply end_error; cbn; [reflexivity|discriminate].
        -- apply end_error; cbn; [reflexivity|discriminate].
    + destruct (single_step e i) as [i1 [[]|x| |]] eqn:Hss.
      * destruct (cond c (state i1)) as [c1 [[|]|x| |]] eqn:Hcd.
        -- exists [], i, c. split; [constructor|]. split; [reflexivity|].
           rewrite app_nil_r. apply end_cond; assumption.
        -- destruct (IH i1 c1 (sent ++ [state i1])) as (l & i2 & c2 & Hg & Hq & He).
           exists (state i1 :: l), i2, c2.
           split; [econstructor; eassumption|].
           split; [eapply quiet_cons; eassumption|].
           rewrite <- app_assoc in He. exact He.
        -- exists [], i, c. split; [constructor|]. split; [reflexivity|].
           rewrite app_nil_r. apply end_error; cbn; [reflexivity|discriminate].
        -- exists [], i, c. split; [constructor|]. split; [reflexivity|].
           rewrite app_nil_r. apply end_error; cbn; [reflexivity|discriminate].
        -- exists [], i, c. split; [constructor|]. split; [reflexivity|].
           rewrite app_nil_r. apply end_error; cbn; [reflexivity|discriminate].
      * exists [], i, c. split; [constructor|]. split; [reflexivity|].
        rewrite app_nil_r. apply end_error; cbn; [reflexivity|discriminate].
      * exists [], i, c. split; [constructor|]. split; [reflexivity|].
        rewrite app_nil_r. apply end_error; cbn; [reflexivity|discriminate].
      * exists [], i, c. split; [constructor|]. split; [reflexivity|].
        rewrite app_nil_r. apply end_error; cbn; [reflexivity|discriminate].
Qed.

(** The instance with which the loop is entered. *)
Inductive entered (duration : Z) (i : inst) : option F -> inst -> Prop :=
| entered_same : forall s,
    finally e (state i) = Ok s ->
    entered duration i None
      {| state := s;
         step_size := if duration <? 0 then - step_size i else step_size i;
         fixed_step := fixed_step i; det := det i |}
| entered_frame : forall s f s',
    finally e (state i) = Ok s ->
    integration_frame (opts e) = Some f ->
    frame_eqb e f (frame_of e s) = false ->
    enter_frame e s f = Ok s' ->
    entered duration i (Some (frame_of e s))
      {| state := s';
         step_size := if duration <? 0 then - step_size i else step_size i;
         fixed_step := fixed_step i; det := det i |}.

Lemma propagate_cases fuel duration i c :
  let o := propagate e cond fuel duration i c in
  (duration = 0 /\ o = {| o_inst := i; o_cond := c; o_sent := []; o_res := Ok (state i) |})
  \/ (duration <> 0 /\ o_sent o = [] /\ forall s, o_res o <> Ok s)
  \/ (duration <> 0 /\ exists orig i0, entered duration i orig i0 /\
      o = prop_loop e cond (duration <? 0) (epoch e (state i) + duration) orig fuel i0 c []).
Proof.
  cbn. unfold propagate.
  destruct (Z.eqb_spec duration 0) as [Hz|Hnz]; [left; auto|]. right.
  destruct (finally e (state i)) as [s|x| |] eqn:Hfin.
  2-4: left; cbn; split; [assumption|split; [reflexivity|discriminate]].
  cbn [with_state state step_size fixed_step det].
  assert (Hs : state (if duration <? 0 then set_step (with_state i s) (- step_size i) (fixed_step i)
                      else with_state i s) = s) by (destruct (duration <? 0); reflexivity).
  rewrite Hs.
  assert (Hi : forall s', with_state
     (if duration <? 0 then set_step (with_state i s) (- step_size i) (fixed_step i)
      else with_state i s) s' =
     {| state := s'; step_size := if duration <? 0 then - step_size i else step_size i;
         fixed_step := fixed_step i; det := det i |})
    by (intros s'; destruct (duration <? 0); reflexivity).
  assert (Hi2 : (if duration <? 0 then set_step (with_state i s) (- step_size i) (fixed_step i)
      else with_state i s) =
     {| state := s; step_size := if duration <? 0 then - step_size i else step_size i;
         fixed_step := fixed_step i; det := det i |})
    by (destruct (duration <? 0); reflexivity).
  destruct (integration_frame (opts e)) as [f|] eqn:Hif.
  - destruct (frame_eqb e f (frame_of e s)) eqn:Hfe.
    + right. split; [assumption|]. exists None. eexists. split; [apply entered_same; eassumption|].
      rewrite Hi2. reflexivity.
    + destruct (enter_frame e s f) as [s'|x| |] eqn:Hen.
      2-4: left; cbn; split; [assumption|split; [reflexivity|discriminate]].
      right. split; [assumption|]. exists (Some (frame_of e s)). eexists.
      split; [eapply entered_frame; eassumption|]. rewrite Hi. reflexivity.
  - right. split; [assumption|]. exists None. eexists. split; [apply entered_same; eassumption|].
    rewrite Hi2. reflexivity.
Qed.

(** ** Epochs *)
Hypothesis Hk : keeps_epoch e.

Lemma entered_epoch duration i orig i0 :
  entered duration i orig i0 -> epoch e (state i0) = epoch e (state i).
Proof.
  intros H. inversion H; subst; cbn.
  - eapply epoch_finally; eassumption.
  - rewrite (epoch_enter e Hk _ _ _ H3). eapply epoch_finally; eassumption.
Qed.

Lemma single_step_inv i i' :
  single_step e i = (i', Ok tt) ->
  exists i1 t v, derive e i = (i1, Ok (t, v)) /\
    epoch e (state i') = epoch e (state i) + t /\
    step_size i' = step_size i1 /\ fixed_step i' = fixed_step i1.
Proof.
  unfold single_step. destruct (derive e i) as [i1 [[t v]|x| |]] eqn:Hd; try discriminate.
  destruct (finally e _) as [s'|x| |] eqn:Hf; try discriminate.
  intros H. injection H as <-. exists i1, t, v. split; [reflexivity|]. cbn.
  rewrite (epoch_finally e Hk _ _ Hf), (epoch_set e Hk).
  rewrite (proj1 (derive_keeps e _ _ _ Hd)). auto.
Qed.

Lemma single_step_fixed i i' :
  fixed_step i = true -> single_step e i = (i', Ok tt) ->
  epoch e (state i') = epoch e (state i) + step_size i /\
  step_size i' = step_size i /\ fixed_step i' = true.
Proof.
  intros Hf H. destruct (single_step_inv _ _ H) as (i1 & t & v & Hd & He & Hs & Hfx).
  pose proof (derive_fixed e _ _ _ _ Hf Hd) as ->.
  pose proof (derive_keeps e _ _ _ Hd) as (_ & Hk1 & Hk2).
  rewrite Hs, (Hk2 Hf), Hfx, Hk1. auto.
Qed.

Lemma single_step_forward lo i i' :
  0 <= lo -> steps_forward e lo i -> single_step e i = (i', Ok tt) ->
  epoch e (state i) + Z.max lo 1 <= epoch e (state i') <= epoch e (state i) + step_size i /\
  steps_forward e lo i' /\ fixed_step i' = fixed_step i /\
  (fixed_step i = true -> step_size i' = step_size i).
Proof.
  intros Hlo Hf H. destruct (single_step_inv _ _ H) as (i1 & t & v & Hd & He & Hs & Hfx).
  pose proof (derive_keeps e _ _ _ Hd) as (_ & Hk1 & Hk2).
  rewrite He, Hs, Hfx.
  destruct Hf as [(Hf & H1 & H2)|(Hf & slop & Hc & Ho & H1 & H2 & H3)].
  - pose proof (derive_fixed e _ _ _ _ Hf Hd) as ->.
    split; [lia|]. split; [left|split; auto]. rewrite Hs, (Hk2 Hf), Hfx, Hk1. auto.
  - assert (Hok : step_ok e slop i lo).
    { unfold step_ok. rewrite Hf. lia. }
    pose proof (derive_forward e slop Hc Ho _ _ _ _ _ Hok Hlo Hd) as (Ha & Hb & Hok').
    split; [lia|]. split; [|split; [exact Hk1|rewrite Hf; discriminate]].
    right. rewrite Hfx, Hk1, Hs. split; [exact Hf|]. exists slop.
    unfold step_ok in Hok'. rewrite Hk1, Hf in Hok'. intuition lia.
Qed.

(** Backward: [nb i] is the instance with the sign of its step restored. *)
Definition flipped (i : inst (St := St)) : inst := set_step i (- step_size i) (fixed_step i).

Lemma single_step_backward lo i i' :
  0 <= lo -> steps_backward e lo (flipped i) -> single_step e i = (i', Ok tt) ->
  epoch e (state i) + step_size i <= epoch e (state i') <= epoch e (state i) - Z.max lo 1 /\
  steps_backward e lo (flipped i') /\ fixed_step i' = fixed_step i /\
  (fixed_step i = true -> step_size i' = step_size i).
Proof.
  intros Hlo Hf H. destruct (single_step_inv _ _ H) as (i1 & t & v & Hd & He & Hs & Hfx).
  pose proof (derive_keeps e _ _ _ Hd) as (_ & Hk1 & Hk2).
  rewrite He, Hfx, Hs.
  destruct Hf as [(Hf & H1 & H2)|(Hf & slop & Hc & Ho & H1 & H2 & H3 & H4)];
    cbn [flipped set_step step_size fixed_step] in *.
  - pose proof (derive_fixed e _ _ _ _ Hf Hd) as ->.
    split; [lia|]. split; [left|split; auto]. cbn. rewrite Hs, (Hk2 Hf), Hfx, Hk1. auto.
  - pose proof (slop_pos e slop Hc).
    pose proof (derive_backward e slop Hc Ho _ _ _ _ Hf ltac:(lia) H2 Hd) as (Ha & Hb & Hcc).
    split; [lia|]. split; [|split; [exact Hk1|rewrite Hf; discriminate]].
    right. cbn [flipped set_step step_size fixed_step]. rewrite Hfx, Hk1, Hs.
    split; [exact Hf|]. exists slop. intuition lia.
Qed.

(** Regular forward steps stay within the interval. *)
Lemma gsteps_forward lo stop i l i' :
  0 <= lo -> gsteps false stop i l i' -> steps_forward e lo i ->
  epoch e (state i) <= stop ->
  increasing_within (epoch e (state i)) stop (map (epoch e) l) /\
  steps_forward e lo i' /\ epoch e (state i') <= stop /\
  epoch e (state i) + Z.of_nat (length l) * Z.max lo 1 <= epoch e (state i') /\
  Forall (fun s => epoch e s <= epoch e (state i')) l /\
  (l = [] -> i' = i) /\ (forall d, l <> [] -> last l d = state i') /\
  fixed_step i' = fixed_step i /\ (fixed_step i = true -> step_size i' = step_size i).
Proof.
  intros Hlo H. induction H as [i|i i1 l i' Hlt Hss Hg IH]; intros Hf Hle.
  - cbn. repeat split; auto; try lia; try constructor; congruence.
  - destruct (single_step_forward _ _ _ Hlo Hf Hss) as (Hb & Hf1 & Hx & Hst).
    unfold last_test in Hlt. cbn in Hlt. rewrite orb_false_r in Hlt. apply Z.ltb_ge in Hlt.
    destruct (IH Hf1 ltac:(lia)) as (I1 & I2 & I3 & I4 & I5 & I6 & I7 & I8 & I9).
    cbn [map increasing_within length]. repeat split; auto; try lia.
    + constructor; [|exact I5]. lia.
    + discriminate.
    + intros d _. destruct l as [|y l]; [now rewrite (I6 eq_refl)|].
      exact (I7 d ltac:(discriminate)).
    + congruence.
    + intros Ht. rewrite I9 by congruence. auto.
Qed.

Lemma gsteps_backward lo stop i l i' :
  0 <= lo -> gsteps true stop i l i' -> steps_backward e lo (flipped i) ->
  stop < epoch e (state i) ->
  decreasing_within (epoch e (state i)) stop (map (epoch e) l) /\
  steps_backward e lo (flipped i') /\ stop < epoch e (state i') /\
  epoch e (state i') <= epoch e (state i) - Z.of_nat (length l) * Z.max lo 1 /\
  Forall (fun s => epoch e (state i') <= epoch e s) l /\
  (l = [] -> i' = i) /\ (forall d, l <> [] -> last l d = state i') /\
  fixed_step i' = fixed_step i /\ (fixed_step i = true -> step_size i' = step_size i).
Proof.
  intros Hlo H. induction H as [i|i i1 l i' Hlt Hss Hg IH]; intros Hf Hle.
  - cbn. repeat split; auto; try lia; try constructor; congruence.
  - destruct (single_step_backward _ _ _ Hlo Hf Hss) as (Hb & Hf1 & Hx & Hst).
    unfold last_test in Hlt. cbn in Hlt. apply Z.leb_gt in Hlt.
    destruct (IH Hf1 ltac:(lia)) as (I1 & I2 & I3 & I4 & I5 & I6 & I7 & I8 & I9).
    cbn [map decreasing_within length]. repeat split; auto; try lia.
    + constructor; [|exact I5]. lia.
    + discriminate.
    + intros d _. destruct l as [|y l]; [now rewrite (I6 eq_refl)|].
      exact (I7 d ltac:(discriminate)).
    + congruence.
    + intros Ht. rewrite I9 by congruence. auto.
Qed.

Lemma increasing_app lo hi l x :
  increasing_within lo hi l -> Forall (fun y => y < x) l -> lo < x <= hi ->
  increasing_within lo hi (l ++ [x]).
Proof.
  revert lo; induction l as [|y l IH]; cbn; intros lo H Hall Hx; [auto|].
  inversion Hall; subst. split; [apply H|]. apply IH; [apply H|assumption|lia].
Qed.

Lemma decreasing_app lo hi l x :
  decreasing_within hi lo l -> Forall (fun y => x < y) l -> lo <= x < hi ->
  decreasing_within hi lo (l ++ [x]).
Proof.
  revert hi; induction l as [|y l IH]; cbn; intros hi H Hall Hx; [auto|].
  inversion Hall; subst. split; [apply H|]. apply IH; [apply H|assumption|lia].
Qed.

Lemma rotate_back_sent orig i c sent :
  o_sent (rotate_back e (C := C) orig i c sent) = sent.
Proof. unfold rotate_back. destruct orig; [destruct (leave_frame _ _ _)|]; reflexivity. Qed.

Lemma rotate_back_ok orig i c sent s :
  o_res (rotate_back e (C := C) orig i c sent) = Ok s ->
  epoch e s = epoch e (state i) /\
  (s = state i /\ orig = None \/ exists f, orig = Some f /\ leave_frame e (state i) f = Ok s) /\
  o_inst (rotate_back e (C := C) orig i c sent) = with_state i s.
Proof.
  unfold rotate_back. destruct orig as [f|].
  - destruct (leave_frame e (state i) f) as [s'|x| |] eqn:Hl; cbn; try discriminate.
    intros H. injection H as <-. split; [eapply epoch_leave; eassumption|].
    split; [right; exists f; auto|reflexivity].
  - cbn. intros H. injection H as <-. split; [reflexivity|].
    split; [left; auto|]. destruct i; reflexivity.
Qed.

Lemma set_step_epoch (i : inst (St := St)) d b : state (set_step i d b) = state i.
Proof. reflexivity. Qed.

Lemma restored_state bp (i i1 : inst (St := St)) : state (restored bp i i1) = state i1.
Proof. unfold restored. destruct bp; reflexivity. Qed.

Lemma final_epoch (i : inst (St := St)) stop i1 :
  single_step e (set_step i (stop - epoch e (state i)) true) = (i1, Ok tt) ->
  epoch e (state i1) = stop.
Proof.
  intros H. apply single_step_fixed in H; [|reflexivity]. cbn in H. lia.
Qed.

Lemma quiet_true_absurd (c : C) i1 c1 :
  (forall c s, snd (cond c s) = Ok false) -> cond c (state i1) = (c1, Ok true) -> False.
Proof. intros H H1. pose proof (H c (state i1)) as H2. rewrite H1 in H2. discriminate. Qed.

(** *** C01 *)
Lemma propagate_stops_exactly fuel duration i c s :
  (forall c s, snd (cond c s) = Ok false) ->
  let o := propagate e cond fuel duration i c in
  o_res o = Ok s -> epoch e s = epoch e (state i) + duration /\ state (o_inst o) = s.
Proof.
  intros Hnv o Ho. subst o.
  destruct (propagate_cases fuel duration i c) as [(Hz & Heq)|[(Hz & _ & Hne)|(Hz & orig & i0 & Hen & Heq)]].
  - rewrite Heq in *. cbn in *. injection Ho as <-. split; [lia|reflexivity].
  - exfalso. eapply Hne. exact Ho.
  - rewrite Heq in *.
    destruct (loop_ending (duration <? 0) (epoch e (state i) + duration) orig fuel i0 c [])
      as (l & i1 & c1 & Hg & Hq & Hend).
    inversion Hend as [Ht He Hr|i2 Ht Hn Hss Hr|i2 c2 Ht Hss Hcd Hr|o Hs Hno Hr].
    + rewrite <- Hr in *. apply rotate_back_ok in Ho as (He2 & _ & Hi). rewrite Hi. cbn.
      split; [congruence|reflexivity].
    + rewrite <- Hr in *. apply rotate_back_ok in Ho as (He2 & _ & Hi). rewrite Hi. cbn.
      rewrite restored_state in He2. rewrite He2. split; [|reflexivity].
      eapply final_epoch; eassumption.
    + exfalso. eapply quiet_true_absurd; eassumption.
    + exfalso. eapply Hno. subst o. exact Ho.
Qed.

(** *** C02, forward *)
Definition ends_at_last (o : outcome (St := St) (E := E) C) (stop : Z) (s : St) : Prop :=
  exists pre x, o_sent o = pre ++ [x] /\ epoch e x = stop /\
    (s = x \/ exists f, leave_frame e x f = Ok s).

Definition ends_early (o : outcome (St := St) (E := E) C) (s : St) : Prop :=
  exists c1 c2, cond c1 s = (c2, Ok true).

Lemma last_in_app (l : list St) d : l <> [] -> exists pre, l = pre ++ [last l d].
Proof. intros H. exists (removelast l). apply app_removelast_last. exact H. Qed.

Lemma entered_forward lo duration i orig i0 :
  0 < duration -> steps_forward e lo i -> entered duration i orig i0 ->
  steps_forward e lo i0 /\ step_size i0 = step_size i /\ fixed_step i0 = fixed_step i.
Proof.
  intros Hd Hf H. assert (Hb : (duration <? 0) = false) by lia.
  inversion H; subst; cbn; rewrite Hb; unfold steps_forward in *; cbn; auto.
Qed.

Lemma entered_backward lo duration i orig i0 :
  duration < 0 -> steps_backward e lo i -> entered duration i orig i0 ->
  steps_backward e lo (flipped i0) /\ step_size i0 = - step_size i /\
  fixed_step i0 = fixed_step i.
Proof.
  intros Hd Hf H. assert (Hb : (duration <? 0) = true) by lia.
  inversion H; subst; cbn; rewrite Hb; unfold steps_backward in *; cbn;
    rewrite ?Z.opp_involutive; auto.
Qed.

Lemma Forall_le_lt (l : list St) a b :
  Forall (fun s => epoch e s <= a) l -> a < b -> Forall (fun y => y < b) (map (epoch e) l).
Proof.
  intros H Hab. apply Forall_map. eapply Forall_impl; [|exact H]. cbn. intros; lia.
Qed.

Lemma Forall_ge_gt (l : list St) a b :
  Forall (fun s => a <= epoch e s) l -> b < a -> Forall (fun y => b < y) (map (epoch e) l).
Proof.
  intros H Hab. apply Forall_map. eapply Forall_impl; [|exact H]. cbn. intros; lia.
Qed.

Lemma propagate_forward lo fuel duration i c :
  0 <= lo -> steps_forward e lo i -> 0 < duration ->
  let start := epoch e (state i) in
  let o := propagate e cond fuel duration i c in
  increasing_within start (start + duration) (map (epoch e) (o_sent o)) /\
  Z.of_nat (length (o_sent o)) * Z.max lo 1 < duration + Z.max lo 1 /\
  (forall s, o_res o = Ok s ->
     ends_at_last o (start + duration) s \/
     (ends_early o s /\ start < epoch e s <= start + duration /\
      Forall (fun x => epoch e x < epoch e s) (o_sent o))).
Proof.
  intros Hlo Hf Hd start o. subst o.
  destruct (propagate_cases fuel duration i c) as [(Hz & _)|[(Hz & Hse & Hne)|(Hz & orig & i0 & Hen & Heq)]].
  - lia.
  - rewrite Hse. cbn. split; [exact I|]. split; [lia|]. intros s Hs. exfalso.
    eapply Hne. exact Hs.
  - rewrite Heq. assert (Hb : (duration <? 0) = false) by lia. rewrite Hb in *.
    destruct (loop_ending false (start + duration) orig fuel i0 c [])
      as (l & i1 & c1 & Hg & Hq & Hend).
    pose proof (entered_epoch _ _ _ _ Hen) as Hep. fold start in Hep.
    destruct (entered_forward _ _ _ _ _ Hd Hf Hen) as (Hf0 & Hst0 & Hfx0).
    destruct (gsteps_forward _ _ _ _ _ Hlo Hg Hf0 ltac:(lia))
      as (I1 & I2 & I3 & I4 & I5 & I6 & I7 & I8 & I9).
    rewrite Hep in *. cbn [app] in Hend. fold start in Hend |- *.
    assert (Hlen : Z.of_nat (length l) * Z.max lo 1 < duration + Z.max lo 1).
    { lia. }
    inversion Hend as [Ht He Hr|i2 Ht Hn Hss Hr|i2 c2 Ht Hss Hcd Hr|o Hs Hno Hr].
    + rewrite rotate_back_sent. split; [exact I1|]. split; [exact Hlen|].
      intros s Hs. left. apply rotate_back_ok in Hs as (He2 & Hor & _).
      destruct l as [|y l].
      { exfalso. rewrite (I6 eq_refl) in *. lia. }
      destruct (last_in_app (y :: l) (state i0) ltac:(discriminate)) as [pre Hpre].
      rewrite I7 in Hpre by discriminate.
      exists pre, (state i1). rewrite rotate_back_sent.
      split; [exact Hpre|]. split; [congruence|].
      destruct Hor as [[-> _]|(f & _ & Hl)]; [left; reflexivity|right; exists f; exact Hl].
    + rewrite rotate_back_sent. pose proof (final_epoch _ _ _ Hss) as Hfe.
      rewrite map_app, app_length. cbn [map length].
      split; [|split].
      * apply increasing_app; [exact I1|eapply Forall_le_lt; [exact I5|lia]|lia].
      * lia.
      * intros s Hs. left. apply rotate_back_ok in Hs as (He2 & Hor & _).
        exists l, (state i2). rewrite rotate_back_sent. split; [reflexivity|].
        split; [exact Hfe|].
        destruct Hor as [[-> _]|(f & _ & Hl)]; [left; reflexivity|right; exists f; exact Hl].
    + cbn [o_sent o_res]. split; [exact I1|]. split; [exact Hlen|].
      intros s Hs. injection Hs as <-. right.
      split; [exists c1, c2; exact Hcd|].
      destruct (single_step_forward _ _ _ Hlo I2 Hss) as (Hbd & _).
      unfold last_test in Ht. cbn in Ht. rewrite orb_false_r in Ht. apply Z.ltb_ge in Ht.
      split; [lia|]. eapply Forall_impl; [|exact I5]. cbn. intros a Ha. lia.
    + rewrite Hs. split; [exact I1|]. split; [exact Hlen|].
      intros s Hs2. exfalso. eapply Hno. exact Hs2.
Qed.

(** *** C02, backward *)
Lemma propagate_backward lo fuel duration i c :
  0 <= lo -> steps_backward e lo i -> duration < 0 ->
  let start := epoch e (state i) in
  let o := propagate e cond fuel duration i c in
  decreasing_within start (start + duration) (map (epoch e) (o_sent o)) /\
  Z.of_nat (length (o_sent o)) * Z.max lo 1 < - duration + Z.max lo 1 /\
  (forall s, o_res o = Ok s ->
     ends_at_last o (start + duration) s \/
     (ends_early o s /\ start + duration <= epoch e s < start /\
      Forall (fun x => epoch e s < epoch e x) (o_sent o))).
Proof.
  intros Hlo Hf Hd start o. subst o.
  destruct (propagate_cases fuel duration i c) as [(Hz & _)|[(Hz & Hse & Hne)|(Hz & orig & i0 & Hen & Heq)]].
  - lia.
  - rewrite Hse. cbn. split; [exact I|]. split; [lia|]. intros s Hs. exfalso.
    eapply Hne. exact Hs.
  - rewrite Heq. assert (Hb : (duration <? 0) = true) by lia. rewrite Hb in *.
    destruct (loop_ending true (start + duration) orig fuel i0 c [])
      as (l & i1 & c1 & Hg & Hq & Hend).
    pose proof (entered_epoch _ _ _ _ Hen) as Hep. fold start in Hep.
    destruct (entered_backward _ _ _ _ _ Hd Hf Hen) as (Hf0 & Hst0 & Hfx0).
    destruct (gsteps_backward _ _ _ _ _ Hlo Hg Hf0 ltac:(lia))
      as (I1 & I2 & I3 & I4 & I5 & I6 & I7 & I8 & I9).
    rewrite Hep in *. cbn [app] in Hend. fold start in Hend |- *.
    assert (Hlen : Z.of_nat (length l) * Z.max lo 1 < - duration).
    { lia. }
    inversion Hend as [Ht He Hr|i2 Ht Hn Hss Hr|i2 c2 Ht Hss Hcd Hr|o Hs Hno Hr].
    + exfalso. lia.
    + rewrite rotate_back_sent. pose proof (final_epoch _ _ _ Hss) as Hfe.
      rewrite map_app, app_length. cbn [map length].
      split; [|split].
      * apply decreasing_app; [exact I1|eapply Forall_ge_gt; [exact I5|lia]|lia].
      * lia.
      * intros s Hs. left. apply rotate_back_ok in Hs as (He2 & Hor & _).
        exists l, (state i2). rewrite rotate_back_sent. split; [reflexivity|].
        split; [exact Hfe|].
        destruct Hor as [[-> _]|(f & _ & Hl)]; [left; reflexivity|right; exists f; exact Hl].
    + cbn [o_sent o_res]. split; [exact I1|]. split; [lia|].
      intros s Hs. injection Hs as <-. right.
      split; [exists c1, c2; exact Hcd|].
      destruct (single_step_backward _ _ _ Hlo I2 Hss) as (Hbd & _).
      unfold last_test in Ht. cbn in Ht. apply Z.leb_gt in Ht.
      split; [lia|]. eapply Forall_impl; [|exact I5]. cbn. intros a Ha. lia.
    + rewrite Hs. split; [exact I1|]. split; [lia|].
      intros s Hs2. exfalso. eapply Hno. exact Hs2.
Qed.

(** *** C05: configuration kept *)
Lemma propagate_config_forward lo fuel duration i c s :
  (forall c s, snd (cond c s) = Ok false) ->
  0 <= lo -> steps_forward e lo i -> 0 < duration ->
  let o := propagate e cond fuel duration i c in
  o_res o = Ok s ->
  exists i0 l i1,
    steps e i0 l i1 /\ step_size i0 = step_size i /\ fixed_step i0 = fixed_step i /\
    (o_sent o = l \/ exists x, o_sent o = l ++ [x]) /\
    step_size (o_inst o) = step_size i1 /\
    fixed_step (o_inst o) = fixed_step i /\
    (fixed_step i = true -> step_size (o_inst o) = step_size i) /\
    steps_forward e lo (o_inst o).
Proof.
  intros Hnv Hlo Hf Hd o Ho. subst o.
  destruct (propagate_cases fuel duration i c) as [(Hz & _)|[(Hz & Hse & Hne)|(Hz & orig & i0 & Hen & Heq)]].
  - lia.
  - exfalso. eapply Hne. exact Ho.
  - rewrite Heq in *. assert (Hb : (duration <? 0) = false) by lia. rewrite Hb in *.
    set (start := epoch e (state i)) in *.
    destruct (loop_ending false (start + duration) orig fuel i0 c [])
      as (l & i1 & c1 & Hg & Hq & Hend).
    pose proof (entered_epoch _ _ _ _ Hen) as Hep. fold start in Hep.
    destruct (entered_forward _ _ _ _ _ Hd Hf Hen) as (Hf0 & Hst0 & Hfx0).
    destruct (gsteps_forward _ _ _ _ _ Hlo Hg Hf0 ltac:(lia))
      as (I1 & I2 & I3 & I4 & I5 & I6 & I7 & I8 & I9).
    exists i0, l, i1. split; [eapply gsteps_steps; eassumption|].
    split; [assumption|]. split; [assumption|].
    cbn [app] in Hend.
    assert (Hfix : fixed_step i = true -> step_size i1 = step_size i).
    { intros Ht. rewrite I9 by congruence. exact Hst0. }
    inversion Hend as [Ht He Hr|i2 Ht Hn Hss Hr|i2 c2 Ht Hss Hcd Hr|o Hs Hno Hr].
    + rewrite <- Hr in *. rewrite rotate_back_sent.
      apply rotate_back_ok in Ho as (He2 & _ & Hi). rewrite Hi. cbn.
      split; [left; reflexivity|]. repeat split; auto; congruence.
    + rewrite <- Hr in *. rewrite rotate_back_sent.
      apply rotate_back_ok in Ho as (He2 & _ & Hi). rewrite Hi. cbn.
      split; [right; eexists; reflexivity|]. repeat split; auto; congruence.
    + exfalso. eapply quiet_true_absurd; eassumption.
    + exfalso. eapply Hno. subst o. exact Ho.
Qed.

Lemma propagate_config_backward lo fuel duration i c s :
  (forall c s, snd (cond c s) = Ok false) ->
  0 <= lo -> steps_backward e lo i -> duration < 0 ->
  let o := propagate e cond fuel duration i c in
  o_res o = Ok s ->
  exists i0 l i1,
    steps e i0 l i1 /\ step_size i0 = - step_size i /\ fixed_step i0 = fixed_step i /\
    (exists x, o_sent o = l ++ [x]) /\
    step_size (o_inst o) = - step_size i1 /\
    fixed_step (o_inst o) = fixed_step i /\
    (fixed_step i = true -> step_size (o_inst o) = step_size i) /\
    steps_backward e lo (o_inst o).
Proof.
  intros Hnv Hlo Hf Hd o Ho. subst o.
  destruct (propagate_cases fuel duration i c) as [(Hz & _)|[(Hz & Hse & Hne)|(Hz & orig & i0 & Hen & Heq)]].
  - lia.
  - exfalso. eapply Hne. exact Ho.
  - rewrite Heq in *. assert (Hb : (duration <? 0) = true) by lia. rewrite Hb in *.
    set (start := epoch e (state i)) in *.
    destruct (loop_ending true (start + duration) orig fuel i0 c [])
      as (l & i1 & c1 & Hg & Hq & Hend).
    pose proof (entered_epoch _ _ _ _ Hen) as Hep. fold start in Hep.
    destruct (entered_backward _ _ _ _ _ Hd Hf Hen) as (Hf0 & Hst0 & Hfx0).
    destruct (gsteps_backward _ _ _ _ _ Hlo Hg Hf0 ltac:(lia))
      as (I1 & I2 & I3 & I4 & I5 & I6 & I7 & I8 & I9).
    exists i0, l, i1. split; [eapply gsteps_steps; eassumption|].
    split; [assumption|]. split; [assumption|].
    cbn [app] in Hend.
    assert (Hfix : fixed_step i = true -> step_size i1 = - step_size i).
    { intros Ht. rewrite I9 by congruence. exact Hst0. }
    inversion Hend as [Ht He Hr|i2 Ht Hn Hss Hr|i2 c2 Ht Hss Hcd Hr|o Hs Hno Hr].
    + exfalso. lia.
    + rewrite <- Hr in *. rewrite rotate_back_sent.
      apply rotate_back_ok in Ho as (He2 & _ & Hi). rewrite Hi. cbn.
      split; [eexists; reflexivity|].
      repeat split; auto; try congruence.
      intros Ht2. rewrite (Hfix Ht2). lia.
    + exfalso. eapply quiet_true_absurd; eassumption.
    + exfalso. eapply Hno. subst o. exact Ho.
Qed.

(** *** C07 *)
Lemma propagate_condition fuel duration i c :
  duration <> 0 ->
  let o := propagate e cond fuel duration i c in
  (exists c1, quiet cond c (o_sent o) c1) /\ (forall s, o_res o = Ok s ->
      (exists c1 c2, quiet cond c (o_sent o) c1 /\ cond c1 s = (c2, Ok true)) \/
      epoch e s = epoch e (state i) + duration)
  \/ (exists pre x c1, o_sent o = pre ++ [x] /\ quiet cond c pre c1 /\
      epoch e x = epoch e (state i) + duration /\
      forall s, o_res o = Ok s -> epoch e s = epoch e x).
Proof.
  intros Hd o. subst o.
  destruct (propagate_cases fuel duration i c) as [(Hz & _)|[(Hz & Hse & Hne)|(Hz & orig & i0 & Hen & Heq)]].
  - contradiction.
  - left. rewrite Hse. split; [exists c; reflexivity|]. intros s Hs. exfalso. eapply Hne. exact Hs.
  - rewrite Heq.
    destruct (loop_ending (duration <? 0) (epoch e (state i) + duration) orig fuel i0 c [])
      as (l & i1 & c1 & Hg & Hq & Hend).
    cbn [app] in Hend.
    inversion Hend as [Ht He Hr|i2 Ht Hn Hss Hr|i2 c2 Ht Hss Hcd Hr|o Hs Hno Hr].
    + left. rewrite rotate_back_sent. split; [exists c1; exact Hq|].
      intros s Hs. right. apply rotate_back_ok in Hs as (He2 & _). congruence.
    + right. rewrite rotate_back_sent. exists l, (state i2), c1. split; [reflexivity|].
      split; [exact Hq|]. split; [eapply final_epoch; eassumption|].
      intros s Hs. apply rotate_back_ok in Hs as (He2 & _). rewrite restored_state in He2.
      exact He2.
    + left. cbn [o_sent o_res]. split; [exists c1; exact Hq|].
      intros s Hs. injection Hs as <-. left. exists c1, c2. auto.
    + left. rewrite Hs. split; [exists c1; exact Hq|]. intros s Hs2. exfalso.
      eapply Hno. exact Hs2.
Qed.

End Loop.
