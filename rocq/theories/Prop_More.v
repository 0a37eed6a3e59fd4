(** Termination, composition of fixed steps, and the step controller. *)
From Coq Require Import Reals Lra.
From Verif Require Import Base Prop_Model Prop_Spec Prop_Proofs Prop_Loop.
Local Open Scope Z_scope.

Section Fuel.
Context {St V F E C : Type} (e : env St V F E).
Variable cond : C -> St -> C * res E bool.

Section Real.
Hypothesis Hr : real_outcomes e cond.

Lemma stage_loop_real n : forall a_idx ks sv ctx h,
  stage_loop e n a_idx ks sv ctx h <> NoFuel.
Proof.
  induction n as [|n IH]; intros; cbn [stage_loop]; [discriminate|].
  destruct (stage_sum e ks a_idx 0 (vzero e)) as [[[ci wi] idx]|]; [|discriminate].
  destruct (eom e _ _ _) eqn:He; cbn [bind]; try discriminate; [apply IH|].
  exfalso. eapply real_eom; eassumption.
Qed.

Lemma try_step_real s fixed h : try_step e s fixed h <> NoFuel.
Proof.
  unfold try_step. destruct (eom e _ _ _) eqn:He; cbn [bind]; try discriminate.
  - destruct (stages (meth e)); [discriminate|].
    destruct (stage_loop _ _ _ _ _ _ _) eqn:Hs; cbn [bind]; try discriminate.
    + destruct (combine_stages _ _ _ _ _ _ _); discriminate.
    + exfalso. eapply stage_loop_real; eassumption.
  - exfalso. eapply real_eom; eassumption.
Qed.

Lemma derive_real i : snd (derive e i) <> NoFuel.
Proof.
  unfold derive. apply derive_loop_fuel; [lia|lia|]. intros. apply try_step_real.
Qed.

Lemma single_step_real i : snd (single_step e i) <> NoFuel.
Proof.
  unfold single_step. pose proof (derive_real i) as Hd.
  destruct (derive e i) as [i1 [[t v]|x| |]]; cbn in *; try discriminate; [|congruence].
  destruct (finally e _) eqn:Hf; cbn; try discriminate.
  exfalso. eapply real_finally; eassumption.
Qed.

Lemma rotate_back_real orig i c sent : o_res (rotate_back e (C := C) orig i c sent) <> NoFuel.
Proof.
  unfold rotate_back. destruct orig as [f|]; [|discriminate].
  destruct (leave_frame e _ _) eqn:Hl; cbn; try discriminate.
  exfalso. eapply real_leave; eassumption.
Qed.

Hypothesis Hk : keeps_epoch e.

Lemma loop_terminates_forward lo stop orig fuel : forall i c sent,
  1 <= lo -> steps_forward e lo i -> epoch e (state i) <= stop ->
  stop - epoch e (state i) < Z.of_nat fuel * lo ->
  o_res (prop_loop e cond false stop orig fuel i c sent) <> NoFuel.
Proof.
  induction fuel as [|fuel IH]; intros i c sent Hlo Hf Hle Hfu; [lia|].
  cbn [prop_loop].
  destruct ((_ && _) || _) eqn:Hlt.
  - destruct (stop =? epoch e (state i)); [apply rotate_back_real|].
    pose proof (single_step_real (set_step i (stop - epoch e (state i)) true)) as Hs.
    destruct (single_step e _) as [i1 [[]|x| |]]; cbn in *; try discriminate; [|congruence].
    apply rotate_back_real.
  - pose proof (single_step_real i) as Hs.
    destruct (single_step e i) as [i1 [[]|x| |]] eqn:Hss; cbn in Hs |- *; try discriminate;
      [|congruence].
    pose proof (real_cond e cond Hr c (state i1)) as Hcn.
    destruct (cond c (state i1)) as [c1 [[|]|x| |]]; cbn in Hcn |- *; try discriminate;
      [|congruence].
    destruct (single_step_forward e Hk lo i i1 ltac:(lia) Hf Hss) as (Hb & Hf1 & _).
    cbn in Hlt. rewrite orb_false_r in Hlt. apply Z.ltb_ge in Hlt.
    apply IH; [exact Hlo|exact Hf1|lia|lia].
Qed.

Lemma loop_terminates_backward lo stop orig fuel : forall i c sent,
  1 <= lo -> steps_backward e lo (flipped i) -> stop < epoch e (state i) ->
  epoch e (state i) - stop <= Z.of_nat fuel * lo ->
  o_res (prop_loop e cond true stop orig fuel i c sent) <> NoFuel.
Proof.
  induction fuel as [|fuel IH]; intros i c sent Hlo Hf Hle Hfu; [lia|].
  cbn [prop_loop].
  destruct ((_ && _) || _) eqn:Hlt.
  - destruct (stop =? epoch e (state i)); [apply rotate_back_real|].
    pose proof (single_step_real (set_step i (stop - epoch e (state i)) true)) as Hs.
    destruct (single_step e _) as [i1 [[]|x| |]]; cbn in *; try discriminate; [|congruence].
    apply rotate_back_real.
  - pose proof (single_step_real i) as Hs.
    destruct (single_step e i) as [i1 [[]|x| |]] eqn:Hss; cbn in Hs |- *; try discriminate;
      [|congruence].
    pose proof (real_cond e cond Hr c (state i1)) as Hcn.
    destruct (cond c (state i1)) as [c1 [[|]|x| |]]; cbn in Hcn |- *; try discriminate;
      [|congruence].
    destruct (single_step_backward e Hk lo i i1 ltac:(lia) Hf Hss) as (Hb & Hf1 & _).
    cbn in Hlt. apply Z.leb_gt in Hlt.
    apply IH; [exact Hlo|exact Hf1|lia|lia].
Qed.

Lemma propagate_terminates_forward lo fuel duration i c :
  1 <= lo -> steps_forward e lo i -> 0 < duration -> duration < Z.of_nat fuel * lo ->
  o_res (propagate e cond fuel duration i c) <> NoFuel.
Proof.
  intros Hlo Hf Hd Hfu. unfold propagate.
  destruct (Z.eqb_spec duration 0) as [|_]; [lia|].
  assert (Hb : (duration <? 0) = false) by lia. rewrite Hb.
  destruct (finally e (state i)) as [s|x| |] eqn:Hfin; cbn; try discriminate.
  2: { exfalso. eapply real_finally; eassumption. }
  pose proof (epoch_finally e Hk _ _ Hfin) as Hes.
  assert (Hgo : forall s' orig, epoch e s' = epoch e (state i) ->
    o_res (prop_loop e cond false (epoch e (state i) + duration) orig fuel
             (with_state i s') c []) <> NoFuel).
  { intros s' orig He. apply (loop_terminates_forward lo); cbn.
    - exact Hlo.
    - unfold steps_forward in *. exact Hf.
    - lia.
    - lia. }
  destruct (integration_frame (opts e)) as [f|]; [|apply Hgo; exact Hes].
  destruct (frame_eqb e f (frame_of e s)); [apply Hgo; exact Hes|].
  destruct (enter_frame e s f) as [s'|x| |] eqn:Hen; cbn; try discriminate.
  - apply Hgo. rewrite (epoch_enter e Hk _ _ _ Hen). exact Hes.
  - exfalso. eapply real_enter; eassumption.
Qed.

Lemma propagate_terminates_backward lo fuel duration i c :
  1 <= lo -> steps_backward e lo i -> duration < 0 -> - duration <= Z.of_nat fuel * lo ->
  o_res (propagate e cond fuel duration i c) <> NoFuel.
Proof.
  intros Hlo Hf Hd Hfu. unfold propagate.
  destruct (Z.eqb_spec duration 0) as [|_]; [lia|].
  assert (Hb : (duration <? 0) = true) by lia. rewrite Hb.
  destruct (finally e (state i)) as [s|x| |] eqn:Hfin; cbn; try discriminate.
  2: { exfalso. eapply real_finally; eassumption. }
  pose proof (epoch_finally e Hk _ _ Hfin) as Hes.
  assert (Hgo : forall s' orig, epoch e s' = epoch e (state i) ->
    o_res (prop_loop e cond true (epoch e (state i) + duration) orig fuel
             (with_state (set_step (with_state i s) (- step_size i) (fixed_step i)) s') c [])
    <> NoFuel).
  { intros s' orig He. apply (loop_terminates_backward lo).
    - exact Hlo.
    - unfold steps_backward, flipped in *. cbn [state set_step with_state step_size fixed_step].
      rewrite Z.opp_involutive. exact Hf.
    - cbn [state set_step with_state]. lia.
    - cbn [state set_step with_state]. lia. }
  change (set_step (with_state i s) (- step_size i) (fixed_step i)) with
    (with_state (set_step (with_state i s) (- step_size i) (fixed_step i)) s).
  destruct (integration_frame (opts e)) as [f|]; [|apply Hgo; exact Hes].
  destruct (frame_eqb e f (frame_of e s)); [apply Hgo; exact Hes|].
  destruct (enter_frame e s f) as [s'|x| |] eqn:Hen; cbn; try discriminate.
  - apply Hgo. rewrite (epoch_enter e Hk _ _ _ Hen). exact Hes.
  - exfalso. eapply real_enter; eassumption.
Qed.
End Real.

(** More fuel does not change an outcome. *)
Lemma loop_more_fuel bp stop orig fuel : forall i c sent fuel',
  o_res (prop_loop e cond bp stop orig fuel i c sent) <> NoFuel -> (fuel <= fuel')%nat ->
  prop_loop e cond bp stop orig fuel' i c sent = prop_loop e cond bp stop orig fuel i c sent.
Proof.
  induction fuel as [|fuel IH]; intros i c sent fuel' Hn Hle; [cbn in Hn; congruence|].
  destruct fuel' as [|fuel']; [lia|]. cbn [prop_loop] in *.
  destruct ((_ && _) || _); [reflexivity|].
  destruct (single_step e i) as [i1 [[]|x| |]]; try reflexivity.
  destruct (cond c (state i1)) as [c1 [[|]|x| |]]; try reflexivity.
  apply IH; [exact Hn|lia].
Qed.

(** The states already sent do not matter. *)
Definition prepend (l : list St) (o : outcome (St := St) (E := E) C) : outcome C :=
  {| o_inst := o_inst o; o_cond := o_cond o; o_sent := l ++ o_sent o; o_res := o_res o |}.

Lemma loop_prepend bp stop orig fuel : forall i c sent,
  prop_loop e cond bp stop orig fuel i c sent =
  prepend sent (prop_loop e cond bp stop orig fuel i c []).
Proof.
  assert (Hrb : forall orig i c sent,
    rotate_back e (C := C) orig i c sent = prepend sent (rotate_back e orig i c [])).
  { intros o i c s. unfold rotate_back, prepend.
    destruct o as [f|]; [destruct (leave_frame e (state i) f)|]; cbn; now rewrite app_nil_r. }
  assert (Hrb2 : forall orig i c sent x,
    rotate_back e (C := C) orig i c (sent ++ [x]) = prepend sent (rotate_back e orig i c [x])).
  { intros o i c s x. unfold rotate_back, prepend.
    destruct o as [f|]; [destruct (leave_frame e (state i) f)|]; reflexivity. }
  induction fuel as [|fuel IH]; intros i c sent; cbn [prop_loop].
  - unfold prepend; cbn; now rewrite app_nil_r.
  - destruct ((_ && _) || _).
    + destruct (stop =? epoch e (state i)); [apply Hrb|].
      destruct (single_step e _) as [i1 [[]|x| |]]; [apply Hrb2| | |];
        unfold prepend; cbn; now rewrite app_nil_r.
    + destruct (single_step e i) as [i1 [[]|x| |]];
        [|unfold prepend; cbn; now rewrite app_nil_r ..].
      destruct (cond c (state i1)) as [c1 [[|]|x| |]];
        try (unfold prepend; cbn; now rewrite app_nil_r).
      rewrite (IH i1 c1 (sent ++ [state i1])), (IH i1 c1 ([] ++ [state i1])).
      unfold prepend; cbn. now rewrite <- app_assoc.
Qed.
End Fuel.

(** ** Composition with a fixed step *)
Section Compose.
Context {St V F E : Type} (e : env St V F E).
Hypothesis Hk : keeps_epoch e.
Hypothesis Hidem : forall s s', finally e s = Ok s' -> finally e s' = Ok s'.

Lemma single_step_final i i' :
  single_step e i = (i', Ok tt) -> finally e (state i') = Ok (state i').
Proof.
  unfold single_step. destruct (derive e i) as [i1 [[t v]|x| |]]; try discriminate.
  destruct (finally e _) as [s'|x| |] eqn:Hf; try discriminate.
  intros H. injection H as <-. cbn. eapply Hidem; eassumption.
Qed.

Lemma loop_split_forward stop1 stop2 f1 : forall f2 i sent h k,
  fixed_step i = true -> step_size i = h -> 0 < h -> 0 <= k ->
  stop1 - epoch e (state i) = k * h -> stop1 < stop2 ->
  (finally e (state i) = Ok (state i)) ->
  let o1 := prop_loop e never false stop1 None f1 i tt sent in
  (exists s, o_res o1 = Ok s) ->
  finally e (state (o_inst o1)) = Ok (state (o_inst o1)) /\
  exists f', (f2 <= f')%nat /\
    prop_loop e never false stop2 None (f1 + f2) i tt sent =
    prop_loop e never false stop2 None f' (o_inst o1) tt (o_sent o1).
Proof.
  induction f1 as [|f1 IH]; intros f2 i sent h k Hfx Hst Hh Hkk Hep Hlt Hfin o1 [s Hs].
  - discriminate Hs.
  - subst o1. cbn [prop_loop] in Hs |- *. cbn [negb andb] in Hs |- *.
    rewrite orb_false_r in Hs |- *. rewrite Hst in *.
    destruct (Z.ltb_spec stop1 (epoch e (state i) + h)) as [Hl|Hg].
    + assert (k = 0) by nia. subst k.
      destruct (Z.eqb_spec stop1 (epoch e (state i))) as [Heq|Hne]; [|lia].
      cbn. split; [exact Hfin|]. exists (S f1 + f2)%nat. split; [lia|].
      reflexivity.
    + cbn [Nat.add prop_loop negb andb]. rewrite orb_false_r, Hst.
      assert (H2 : (stop2 <? epoch e (state i) + h) = false) by lia. rewrite H2.
      destruct (single_step e i) as [i1 [[]|x| |]] eqn:Hss; try discriminate Hs.
      cbn [never] in *.
      destruct (single_step_fixed e Hk _ _ Hfx Hss) as (He1 & Hs1 & Hf1).
      assert (Hk1 : 1 <= k).
      { destruct (Z_le_gt_dec 1 k) as [|Hgt]; [assumption|]. exfalso.
        assert (k = 0) by lia. subst k. lia. }
      apply (IH f2 i1 _ h (k - 1)); try assumption; try lia.
      * eapply single_step_final; eassumption.
      * exists s. exact Hs.
Qed.

Lemma set_step_same (i : inst (St := St)) h :
  step_size i = h -> fixed_step i = true -> set_step i h true = i.
Proof. intros <- H. destruct i; cbn in *. now rewrite H. Qed.

Lemma flipped_twice (i : inst (St := St)) : flipped (flipped i) = i.
Proof. destruct i; unfold flipped, set_step; cbn. now rewrite Z.opp_involutive. Qed.

Lemma loop_split_backward stop1 stop2 f1 : forall f2 i sent h k,
  fixed_step i = true -> step_size i = - h -> 0 < h -> 1 <= k ->
  epoch e (state i) - stop1 = k * h -> stop2 < stop1 ->
  let o1 := prop_loop e never true stop1 None f1 i tt sent in
  (exists s, o_res o1 = Ok s) ->
  finally e (state (o_inst o1)) = Ok (state (o_inst o1)) /\
  exists f', (f2 <= f')%nat /\
    prop_loop e never true stop2 None (f1 + f2) i tt sent =
    prop_loop e never true stop2 None f' (flipped (o_inst o1)) tt (o_sent o1).
Proof.
  induction f1 as [|f1 IH]; intros f2 i sent h k Hfx Hst Hh Hkk Hep Hlt o1 [s Hs].
  - discriminate Hs.
  - subst o1. cbn [prop_loop] in Hs |- *. cbn [negb andb orb] in Hs |- *.
    rewrite Hst in *.
    cbn [Nat.add prop_loop negb andb orb]. rewrite Hst.
    destruct (Z.leb_spec (epoch e (state i) + - h) stop1) as [Hl|Hg].
    + assert (k = 1) by nia. subst k.
      destruct (Z.eqb_spec stop1 (epoch e (state i))) as [Heq|Hne]; [lia|].
      replace (stop1 - epoch e (state i)) with (- h) in * by lia.
      rewrite (set_step_same i (- h) Hst Hfx) in *.
      assert (H2 : (epoch e (state i) + - h <=? stop2) = false) by lia. rewrite H2.
      destruct (single_step e i) as [i1 [[]|x| |]] eqn:Hss; try discriminate Hs.
      destruct (single_step_fixed e Hk _ _ Hfx Hss) as (He1 & Hs1 & Hf1).
      cbn [rotate_back o_inst o_sent state set_step step_size fixed_step never].
      split; [eapply single_step_final; eassumption|].
      exists (f1 + f2)%nat. split; [lia|].
      replace (flipped _) with i1; [reflexivity|].
      unfold flipped, set_step; cbn. rewrite Z.opp_involutive, <- Hst, <- Hs1, Hfx, <- Hf1.
      destruct i1; reflexivity.
    + assert (H2 : (epoch e (state i) + - h <=? stop2) = false) by lia. rewrite H2.
      destruct (single_step e i) as [i1 [[]|x| |]] eqn:Hss; try discriminate Hs.
      cbn [never] in *.
      destruct (single_step_fixed e Hk _ _ Hfx Hss) as (He1 & Hs1 & Hf1).
      assert (Hk1 : 2 <= k).
      { destruct (Z_le_gt_dec 2 k) as [|Hgt]; [assumption|]. exfalso.
        assert (k = 1) by lia. subst k. lia. }
      apply (IH f2 i1 _ h (k - 1)); try assumption; try lia.
      * exists s. exact Hs.
Qed.

(** No frame change ever happens. *)
Definition native_frame : Prop :=
  forall f s, integration_frame (opts e) = Some f -> frame_eqb e f (frame_of e s) = true.

Lemma propagate_native fuel d i :
  native_frame -> d <> 0 ->
  for_duration e fuel d i =
  match finally e (state i) with
  | Ok s =>
      prop_loop e never (d <? 0) (epoch e (state i) + d) None fuel
        (if d <? 0 then flipped (with_state i s) else with_state i s) tt []
  | Err x => {| o_inst := i; o_cond := tt; o_sent := []; o_res := Err x |}
  | Panic => {| o_inst := i; o_cond := tt; o_sent := []; o_res := Panic |}
  | NoFuel => {| o_inst := i; o_cond := tt; o_sent := []; o_res := NoFuel |}
  end.
Proof.
  intros Hn Hd. unfold for_duration, propagate.
  destruct (Z.eqb_spec d 0) as [|_]; [contradiction|].
  destruct (finally e (state i)) as [s|x| |]; try reflexivity.
  cbn [with_state state].
  destruct (integration_frame (opts e)) as [f|] eqn:Hif; [|reflexivity].
  rewrite (Hn f _ Hif). reflexivity.
Qed.

Lemma with_state_same (i : inst (St := St)) s : state i = s -> with_state i s = i.
Proof. intros <-. destruct i; reflexivity. Qed.

Lemma compose_forward f1 f2 i h k d2 s1 :
  native_frame -> fixed_step i = true -> step_size i = h -> 0 < h -> 1 <= k -> 0 <= d2 ->
  let o1 := for_duration e f1 (k * h) i in
  o_res o1 = Ok s1 ->
  let o2 := for_duration e f2 d2 (o_inst o1) in
  o_res o2 <> NoFuel ->
  let o := for_duration e (f1 + f2) (k * h + d2) i in
  o_res o = o_res o2 /\ o_sent o = o_sent o1 ++ o_sent o2 /\ o_inst o = o_inst o2.
Proof.
  intros Hn Hfx Hst Hh Hkk Hd2 o1 Ho1 o2 Ho2 o.
  assert (Hd1 : k * h <> 0) by nia.
  pose proof (propagate_stops_exactly e never Hk f1 (k * h) i tt s1
                (fun _ _ => eq_refl) Ho1) as [Hex Hst1].
  fold (for_duration e f1 (k * h) i) in Hst1. fold o1 in Hst1.
  destruct (Z.eq_dec d2 0) as [->|Hnz].
  - assert (Eo2 : o2 = {| o_inst := o_inst o1; o_cond := tt; o_sent := [];
                          o_res := Ok (state (o_inst o1)) |}) by reflexivity.
    assert (Eo : o = o1).
    { subst o o1. rewrite Z.add_0_r. rewrite !propagate_native in * by assumption.
      destruct (finally e (state i)) as [s|x| |]; try reflexivity.
      apply loop_more_fuel; [rewrite Ho1; discriminate|lia]. }
    rewrite Eo, Eo2. cbn. rewrite app_nil_r, Hst1, Ho1. auto.
  - assert (Hb1 : (k * h <? 0) = false) by nia.
    assert (Hb2 : (d2 <? 0) = false) by lia.
    assert (Hb : (k * h + d2 <? 0) = false) by nia.
    assert (Hdn : k * h + d2 <> 0) by nia.
    assert (E2 : o2 = for_duration e f2 d2 (o_inst o1)) by reflexivity.
    assert (E1 : o1 = for_duration e f1 (k * h) i) by reflexivity.
    assert (E0 : o = for_duration e (f1 + f2) (k * h + d2) i) by reflexivity.
    clearbody o o1 o2.
    rewrite propagate_native in E0, E1 by assumption. rewrite Hb in E0. rewrite Hb1 in E1.
    destruct (finally e (state i)) as [s|x| |] eqn:Hfin; try (subst o1; discriminate Ho1).
    destruct (loop_split_forward (epoch e (state i) + k * h)
                (epoch e (state i) + (k * h + d2)) f1 f2 (with_state i s) [] h k)
      as (Hff & f' & Hle & Heq);
      cbn [flipped set_step with_state fixed_step step_size state]; try assumption.
    + lia.
    + rewrite (epoch_finally e Hk _ _ Hfin). lia.
    + lia.
    + eapply Hidem; eassumption.
    + exists s1. rewrite <- Ho1, E1. reflexivity.
    + rewrite <- E1 in Hff, Heq.
      rewrite propagate_native in E2 by assumption. rewrite Hff, Hb2 in E2.
      rewrite (with_state_same (o_inst o1) _ eq_refl) in E2.
      replace (epoch e (state (o_inst o1)) + d2) with (epoch e (state i) + (k * h + d2)) in E2
        by (rewrite Hst1; lia).
      rewrite (loop_prepend e never _ _ _ f') in Heq.
      assert (Hmf : prop_loop e never false (epoch e (state i) + (k * h + d2)) None f'
                (o_inst o1) tt [] = o2)
        by (rewrite E2; apply loop_more_fuel; [rewrite <- E2; assumption|assumption]).
      rewrite Hmf in Heq. rewrite E0, Heq. cbn. auto.
Qed.

Lemma compose_backward f1 f2 i h k d2 s1 :
  native_frame -> fixed_step i = true -> step_size i = h -> 0 < h -> 1 <= k -> d2 <= 0 ->
  let o1 := for_duration e f1 (- (k * h)) i in
  o_res o1 = Ok s1 ->
  let o2 := for_duration e f2 d2 (o_inst o1) in
  o_res o2 <> NoFuel ->
  let o := for_duration e (f1 + f2) (- (k * h) + d2) i in
  o_res o = o_res o2 /\ o_sent o = o_sent o1 ++ o_sent o2 /\ o_inst o = o_inst o2.
Proof.
  intros Hn Hfx Hst Hh Hkk Hd2 o1 Ho1 o2 Ho2 o.
  assert (Hd1 : - (k * h) <> 0) by nia.
  pose proof (propagate_stops_exactly e never Hk f1 (- (k * h)) i tt s1
                (fun _ _ => eq_refl) Ho1) as [Hex Hst1].
  fold (for_duration e f1 (- (k * h)) i) in Hst1. fold o1 in Hst1.
  destruct (Z.eq_dec d2 0) as [->|Hnz].
  - assert (Eo2 : o2 = {| o_inst := o_inst o1; o_cond := tt; o_sent := [];
                          o_res := Ok (state (o_inst o1)) |}) by reflexivity.
    assert (Eo : o = o1).
    { subst o o1. rewrite Z.add_0_r. rewrite !propagate_native in * by assumption.
      destruct (finally e (state i)) as [s|x| |]; try reflexivity.
      apply loop_more_fuel; [rewrite Ho1; discriminate|lia]. }
    rewrite Eo, Eo2. cbn. rewrite app_nil_r, Hst1, Ho1. auto.
  - assert (Hb1 : (- (k * h) <? 0) = true) by nia.
    assert (Hb2 : (d2 <? 0) = true) by lia.
    assert (Hb : (- (k * h) + d2 <? 0) = true) by nia.
    assert (Hdn : - (k * h) + d2 <> 0) by nia.
    assert (E2 : o2 = for_duration e f2 d2 (o_inst o1)) by reflexivity.
    assert (E1 : o1 = for_duration e f1 (- (k * h)) i) by reflexivity.
    assert (E0 : o = for_duration e (f1 + f2) (- (k * h) + d2) i) by reflexivity.
    clearbody o o1 o2.
    rewrite propagate_native in E0, E1 by assumption. rewrite Hb in E0. rewrite Hb1 in E1.
    destruct (finally e (state i)) as [s|x| |] eqn:Hfin; try (subst o1; discriminate Ho1).
    destruct (loop_split_backward (epoch e (state i) + - (k * h))
                (epoch e (state i) + (- (k * h) + d2)) f1 f2 (flipped (with_state i s)) [] h k)
      as (Hff & f' & Hle & Heq);
      cbn [flipped set_step with_state fixed_step step_size state]; try assumption.
    + lia.
    + rewrite (epoch_finally e Hk _ _ Hfin). lia.
    + lia.
    + exists s1. rewrite <- Ho1, E1. reflexivity.
    + rewrite <- E1 in Hff, Heq.
      rewrite propagate_native in E2 by assumption. rewrite Hff, Hb2 in E2.
      rewrite (with_state_same (o_inst o1) _ eq_refl) in E2.
      replace (epoch e (state (o_inst o1)) + d2) with (epoch e (state i) + (- (k * h) + d2)) in E2
        by (rewrite Hst1; lia).
      rewrite (loop_prepend e never _ _ _ f') in Heq.
      assert (Hmf : prop_loop e never true (epoch e (state i) + (- (k * h) + d2)) None f'
                (flipped (o_inst o1)) tt [] = o2)
        by (rewrite E2; apply loop_more_fuel; [rewrite <- E2; assumption|assumption]).
      rewrite Hmf in Heq. rewrite E0, Heq. cbn. auto.
Qed.

End Compose.

(** ** The step controller *)
Section Controller.
Context {St V F E : Type} (e : env St V F E).

Lemma derive_loop_more fuel : forall i h att fuel',
  snd (derive_loop e fuel i h att) <> NoFuel -> (fuel <= fuel')%nat ->
  derive_loop e fuel' i h att = derive_loop e fuel i h att.
Proof.
  induction fuel as [|fuel IH]; intros i h att fuel' Hn Hle; [cbn in Hn; congruence|].
  destruct fuel' as [|fuel']; [lia|]. cbn [derive_loop] in *.
  destruct (try_step e (state i) (fixed_step i) h) as [[next errv]|x| |]; try reflexivity.
  destruct (fixed_step i); [reflexivity|].
  destruct (accepts e _ h att); [reflexivity|].
  apply IH; [exact Hn|lia].
Qed.

Lemma derive_evaluations i :
  (forall h v s, eom e h v s <> NoFuel) -> (1 <= attempts (opts e))%nat ->
  snd (derive e i) <> NoFuel /\
  derive e i =
  derive_loop e (attempts (opts e))
    (with_details i {| d_step := d_step (det i); d_error := d_error (det i); d_attempts := 1 |})
    (to_secs (step_size i)) 1.
Proof.
  intros He Ha.
  assert (Hts : forall s f h, try_step e s f h <> NoFuel).
  { intros s f h. unfold try_step.
    assert (Hsl : forall n a_idx ks sv ctx h, stage_loop e n a_idx ks sv ctx h <> NoFuel).
    { induction n as [|n IH]; intros; cbn [stage_loop]; [discriminate|].
      destruct (stage_sum e ks a_idx 0 (vzero e)) as [[[ci wi] idx]|]; [|discriminate].
      destruct (eom e _ _ _) eqn:Heq; cbn [bind]; try discriminate; [apply IH|].
      exfalso. eapply He; eassumption. }
    destruct (eom e _ _ _) eqn:Heq; cbn [bind]; try discriminate.
    - destruct (stages (meth e)); [discriminate|].
      destruct (stage_loop _ _ _ _ _ _ _) eqn:Hs; cbn [bind]; try discriminate.
      + destruct (combine_stages _ _ _ _ _ _ _); discriminate.
      + exfalso. eapply Hsl; eassumption.
    - exfalso. eapply He; eassumption. }
  unfold derive.
  assert (Hn : snd (derive_loop e (attempts (opts e))
    (with_details i {| d_step := d_step (det i); d_error := d_error (det i); d_attempts := 1 |})
    (to_secs (step_size i)) 1) <> NoFuel) by (apply derive_loop_fuel; auto; lia).
  split.
  - rewrite (derive_loop_more _ _ _ _ _ Hn); [exact Hn|lia].
  - apply derive_loop_more; [exact Hn|lia].
Qed.

Lemma next_step_bounds slop h top :
  converts e slop -> 0 <= top -> min_step (opts e) <= top -> 0 <= min_step (opts e) ->
  Z.abs (of_secs e h) <= top ->
  min_step (opts e) <= Z.abs (next_step e h) <= top.
Proof.
  intros Hc Ht Hm Hm0 Ho. unfold next_step.
  destruct (Z.ltb_spec (Z.abs (of_secs e h)) (min_step (opts e))).
  - destruct (of_secs e h <? 0); lia.
  - lia.
Qed.

Lemma of_secs_abs slop x m :
  converts e slop -> 0 <= m -> (Rabs x <= to_secs m)%R -> Z.abs (of_secs e x) <= m.
Proof.
  intros Hc Hm Hx. pose proof (Rle_abs x) as Ha1.
  pose proof (Rle_abs (- x)) as Ha2. rewrite Rabs_Ropp in Ha2.
  pose proof (conv_hi e slop Hc x m Hm ltac:(lra)).
  pose proof (conv_hi e slop Hc (- x) m Hm ltac:(lra)) as H2.
  rewrite (conv_odd e slop Hc) in H2. lia.
Qed.

Lemma grow_abs h err : 0 <= max_step (opts e) ->
  (Rabs (grow e h err) <= to_secs (max_step (opts e)))%R.
Proof.
  intros Hm. assert (Hp : (0 <= to_secs (max_step (opts e)))%R).
  { rewrite <- to_secs_0. apply to_secs_le. exact Hm. }
  assert (Hs : forall x, (Rabs (to_secs (max_step (opts e)) * signum x) <=
                 to_secs (max_step (opts e)))%R).
  { intros x. unfold signum. destruct (Rlt_dec x 0); rewrite Rabs_mult.
    - rewrite (Rabs_left (-1)) by lra. rewrite Rabs_right by lra. lra.
    - rewrite (Rabs_right 1) by lra. rewrite Rabs_right by lra. lra. }
  unfold grow. destruct (Req_EM_T err 0); [apply Hs|].
  destruct (Rlt_dec _ _) as [|Hn]; [apply Hs|].
  rewrite (Rabs_right (to_secs _)) in Hn by lra. lra.
Qed.

Lemma derive_loop_controlled slop fuel : forall i h att i' t v,
  converts e slop -> 0 <= min_step (opts e) <= max_step (opts e) ->
  fixed_step i = false -> (att <= attempts (opts e))%nat ->
  derive_loop e fuel i h att = (i', Ok (t, v)) ->
  exists h' errv,
    try_step e (state i) false h' = Ok (v, errv) /\ t = of_secs e h' /\
    d_step (det i') = t /\
    d_error (det i') = estimate e errv v (to_vector e (state i)) /\
    has_nan e v = false /\
    (d_attempts (det i') <= attempts (opts e))%nat /\
    ((d_error (det i') <= tolerance (opts e))%R \/
     (h' <= to_secs (min_step (opts e)))%R \/
     d_attempts (det i') = attempts (opts e)) /\
    min_step (opts e) <= Z.abs (step_size i') <= Z.max (max_step (opts e)) (Z.abs t).
Proof.
  induction fuel as [|fuel IH]; intros i h att i' t v Hc Hm Hf Ha; cbn [derive_loop];
    [discriminate|].
  rewrite Hf.
  destruct (try_step e (state i) false h) as [[next errv]|x| |] eqn:Hts; try discriminate.
  set (err := estimate e errv next (to_vector e (state i))).
  destruct (accepts e err h att) eqn:Hacc.
  - destruct (has_nan e next) eqn:Hnan; [discriminate|].
    intros H. injection H as <- Ht Hv. subst next t. cbn.
    exists h, errv. repeat split; auto.
    + unfold accepts in Hacc. apply orb_prop in Hacc as [Hacc|Hacc].
      * apply orb_prop in Hacc as [Hacc|Hacc].
        -- destruct (Rle_dec err (tolerance (opts e))); [left; assumption|discriminate].
        -- destruct (Rle_dec h (to_secs (min_step (opts e))));
             [right; left; assumption|discriminate].
      * apply Nat.leb_le in Hacc. right; right. lia.
    + apply (next_step_bounds slop _ (Z.max (max_step (opts e)) (Z.abs (of_secs e h))));
        try assumption; try lia.
      destruct (Rlt_dec err (tolerance (opts e))); [|lia].
      pose proof (of_secs_abs slop _ (max_step (opts e)) Hc ltac:(lia) (grow_abs h err ltac:(lia))). lia.
    + apply (next_step_bounds slop _ (Z.max (max_step (opts e)) (Z.abs (of_secs e h))));
        try assumption; try lia.
      destruct (Rlt_dec err (tolerance (opts e))); [|lia].
      pose proof (of_secs_abs slop _ (max_step (opts e)) Hc ltac:(lia) (grow_abs h err ltac:(lia))). lia.
  - intros H. unfold accepts in Hacc. apply orb_false_elim in Hacc as [_ Hacc].
    apply Nat.leb_gt in Hacc.
    apply IH in H; auto.
Qed.
End Controller.
