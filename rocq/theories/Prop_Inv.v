(** Invariants along a propagation, and linear functionals of a Runge-Kutta step. *)
From Coq Require Import Reals Lra.
From Verif Require Import Base Prop_Model Prop_Spec Prop_Proofs Prop_Loop RK_Spec.
Local Open Scope Z_scope.

(** Consecutive states related by [Q], starting from [s]. *)
Fixpoint chain {St} (Q : St -> St -> Prop) (s : St) (l : list St) : Prop :=
  match l with
  | [] => True
  | x :: l' => Q s x /\ chain Q x l'
  end.

Lemma last_default {A} (l : list A) a b : l <> [] -> last l a = last l b.
Proof. induction l as [|x [|y l] IH]; cbn; [congruence|reflexivity|]. intros _. apply IH. discriminate. Qed.

Lemma chain_app {St} (Q : St -> St -> Prop) l : forall s x,
  chain Q s l -> Q (last l s) x -> chain Q s (l ++ [x]).
Proof.
  induction l as [|y l IH]; cbn [chain app]; intros s x H Hx; [cbn in Hx; auto|].
  destruct H as [H1 H2]. split; [exact H1|]. apply IH; [exact H2|].
  destruct l as [|z l]; [exact Hx|].
  rewrite (last_default (z :: l) y s) by discriminate. exact Hx.
Qed.

Section Invariants.
Context {St V F E C : Type} (e : env St V F E).
Variable cond : C -> St -> C * res E bool.

Lemma single_step_state i i' :
  single_step e i = (i', Ok tt) ->
  exists i1 t v, derive e i = (i1, Ok (t, v)) /\
    finally e (set_state e (state i) (epoch e (state i) + t) v) = Ok (state i').
Proof.
  unfold single_step. destruct (derive e i) as [i1 [[t v]|x| |]] eqn:Hd; try discriminate.
  rewrite (proj1 (derive_keeps e _ _ _ Hd)).
  destruct (finally e _) as [s'|x| |] eqn:Hf; try discriminate.
  intros H. injection H as <-. exists i1, t, v. split; [reflexivity|]. exact Hf.
Qed.

(** What the hook establishes holds of every state sent or returned. *)
Lemma propagate_all (P : St -> Prop) fuel duration i c :
  (forall s s', finally e s = Ok s' -> P s') ->
  (forall s f s', P s -> enter_frame e s f = Ok s' -> P s') ->
  (forall s f s', P s -> leave_frame e s f = Ok s' -> P s') ->
  duration <> 0 ->
  let o := propagate e cond fuel duration i c in
  Forall P (o_sent o) /\ forall s, o_res o = Ok s -> P s.
Proof.
  intros Hf He Hl Hd o. subst o.
  assert (Hstep : forall i i', single_step e i = (i', Ok tt) -> P (state i')).
  { intros a b H. destruct (single_step_state _ _ H) as (i1 & t & v & _ & H1). eapply Hf, H1. }
  destruct (propagate_cases e cond fuel duration i c)
    as [(Hz & _)|[(Hz & Hse & Hne)|(Hz & orig & i0 & Hen & Heq)]].
  - contradiction.
  - rewrite Hse. split; [constructor|]. intros s Hs. exfalso. eapply Hne, Hs.
  - rewrite Heq.
    destruct (loop_ending e cond (duration <? 0) (epoch e (state i) + duration) orig fuel i0 c [])
      as (l & i1 & c1 & Hg & _ & Hend).
    assert (H0 : P (state i0)).
    { inversion Hen; subst; cbn; [eapply Hf; eassumption|].
      eapply He; [|eassumption]. eapply Hf; eassumption. }
    assert (Hall : Forall P l /\ P (state i1)).
    { clear Hend Heq Hen. induction Hg as [j|j j1 l j' _ Hss Hg IH]; [split; [constructor|exact H0]|].
      destruct (IH (Hstep _ _ Hss)) as [A B]. split; [constructor; [apply (Hstep _ _ Hss)|exact A]|exact B]. }
    destruct Hall as [Hall H1]. cbn [app] in Hend.
    assert (Hback : forall orig j c sent s, P (state j) ->
      o_res (rotate_back e (C := C) orig j c sent) = Ok s -> P s).
    { intros og j cc sent s Hj. unfold rotate_back. destruct og as [f|]; [|cbn; congruence].
      destruct (leave_frame e (state j) f) as [s'|x| |] eqn:Hlf; cbn; try discriminate.
      intros H. assert (s' = s) as <- by congruence. eapply Hl; eassumption. }
    inversion Hend as [Ht He2 Hr|i2 Ht Hn Hss Hr|i2 c2 Ht Hss Hcd Hr|o Hs Hno Hr].
    + rewrite rotate_back_sent. split; [exact Hall|]. intros s. apply Hback, H1.
    + rewrite rotate_back_sent. split.
      * apply Forall_app. split; [exact Hall|]. constructor; [apply (Hstep _ _ Hss)|constructor].
      * intros s. apply Hback. rewrite restored_state. apply (Hstep _ _ Hss).
    + cbn [o_sent o_res]. split; [exact Hall|]. intros s Hs.
      assert (state i2 = s) as <- by congruence. apply (Hstep _ _ Hss).
    + rewrite Hs. split; [exact Hall|]. intros s H. exfalso. eapply Hno, H.
Qed.

(** A relation kept by every forward step, from states satisfying an invariant, holds
    between consecutive states sent. *)
Lemma propagate_chain (P : St -> Prop) (Q : St -> St -> Prop) lo fuel duration i c :
  keeps_epoch e -> 0 <= lo -> steps_forward e lo i -> 0 < duration ->
  (forall s, Q s s) -> (forall a b d, Q a b -> Q b d -> Q a d) ->
  (forall s s', P s -> finally e s = Ok s' -> P s' /\ Q s s') ->
  (forall s f s', P s -> enter_frame e s f = Ok s' -> P s' /\ Q s s') ->
  (forall s f s', P s -> leave_frame e s f = Ok s' -> P s' /\ Q s s') ->
  (forall j j', P (state j) -> single_step e j = (j', Ok tt) ->
     (0 < step_size j) -> (fixed_step j = true \/ 0 <= min_step (opts e)) ->
     P (state j') /\ Q (state j) (state j')) ->
  P (state i) ->
  let o := propagate e cond fuel duration i c in
  chain Q (state i) (o_sent o) /\
  forall s, o_res o = Ok s -> Q (last (o_sent o) (state i)) s.
Proof.
  intros Hk Hlo Hf Hd Qr Qt Pf Pe Pl Ps Pi o. subst o.
  destruct (propagate_cases e cond fuel duration i c)
    as [(Hz & _)|[(Hz & Hse & Hne)|(Hz & orig & i0 & Hen & Heq)]].
  - lia.
  - rewrite Hse. split; [exact I|]. intros s Hs. exfalso. eapply Hne, Hs.
  - rewrite Heq. assert (Hb : (duration <? 0) = false) by lia. rewrite Hb in *.
    set (stop := epoch e (state i) + duration).
    destruct (loop_ending e cond false stop orig fuel i0 c [])
      as (l & i1 & c1 & Hg & _ & Hend).
    pose proof (entered_epoch e Hk _ _ _ _ Hen) as Hep.
    destruct (entered_forward e _ _ _ _ _ Hd Hf Hen) as (Hf0 & Hst0 & Hfx0).
    assert (H0 : P (state i0) /\ Q (state i) (state i0)).
    { inversion Hen; subst; cbn; [eapply Pf; eassumption|].
      destruct (Pf _ _ Pi H) as [A B]. destruct (Pe _ _ _ A H2) as [A2 B2].
      split; [exact A2|]. eapply Qt; eassumption. }
    assert (Hstop : epoch e (state i0) <= stop) by (subst stop; lia).
    destruct (gsteps_forward e Hk _ _ _ _ _ Hlo Hg Hf0 Hstop)
      as (_ & I2 & I3 & _ & _ & I6 & I7 & _ & _).
    clear Heq Hen.
    assert (Hall : chain Q (state i) l /\ P (state i1) /\ Q (last l (state i)) (state i1)).
    { destruct H0 as [P0 Q0]. clear Hend I2 I3 I6 I7 Hst0 Hfx0 Hep.
      assert (G : forall s, Q s (state i0) ->
        chain Q s l /\ P (state i1) /\ Q (last l s) (state i1)).
      { clear Q0. revert Hf0 P0 Hstop.
        induction Hg as [j|j j1 l j' Hlt Hss Hg IH]; intros Hfj Pj Hle s Qs.
        - split; [exact I|]. split; [exact Pj|]. exact Qs.
        - destruct (single_step_forward e Hk _ _ _ Hlo Hfj Hss) as (Hbd & Hf1 & _).
          unfold last_test in Hlt. cbn in Hlt. rewrite orb_false_r in Hlt. apply Z.ltb_ge in Hlt.
          assert (Hpos : 0 < step_size j /\ (fixed_step j = true \/ 0 <= min_step (opts e))).
          { destruct Hfj as [(A1 & A2 & A3)|(A1 & slop & A2 & A3 & A4 & A5 & A6)]; [auto|].
            pose proof (slop_pos _ _ A2). pose proof (min_pos _ _ A3). lia. }
          destruct (Ps _ _ Pj Hss (proj1 Hpos) (proj2 Hpos)) as [P1 Q1].
          destruct (IH Hf1 P1 ltac:(lia) (state j1) (Qr _)) as (C1 & C2 & C3).
          split; [split; [eapply Qt; eassumption|exact C1]|]. split; [exact C2|].
          destruct l as [|y l]; [exact C3|].
          change (last (state j1 :: y :: l) s) with (last (y :: l) s).
          rewrite (last_default (y :: l) s (state j1)) by discriminate. exact C3. }
      exact (G _ Q0). }
    destruct Hall as (Hall & P1 & Q1). cbn [app] in Hend.
    assert (Hback : forall orig j c sent s, P (state j) ->
      o_res (rotate_back e (C := C) orig j c sent) = Ok s -> Q (state j) s).
    { intros og j cc sent s Hj. unfold rotate_back. destruct og as [f|].
      - destruct (leave_frame e (state j) f) as [s'|x| |] eqn:Hlf; cbn; try discriminate.
        intros H. assert (s' = s) as <- by congruence. eapply Pl; eassumption.
      - cbn. intros H. assert (state j = s) as <- by congruence. apply Qr. }
    inversion Hend as [Ht He2 Hr|i2 Ht Hn Hss Hr|i2 c2 Ht Hss Hcd Hr|o Hs Hno Hr].
    + rewrite rotate_back_sent. split; [exact Hall|]. intros s Hs.
      eapply Qt; [exact Q1|]. eapply Hback; eassumption.
    + rewrite rotate_back_sent.
      destruct (Ps (set_step i1 (stop - epoch e (state i1)) true) i2) as [P2 Q2];
        [exact P1|exact Hss|cbn; lia|left; reflexivity|]. cbn in Q2.
      split.
      * apply chain_app; [exact Hall|]. eapply Qt; eassumption.
      * intros s Hs. rewrite last_last.
        rewrite <- (restored_state false i1 i2). eapply Hback; [|exact Hs].
        rewrite restored_state. exact P2.
    + cbn [o_sent o_res]. split; [exact Hall|]. intros s Hs.
      assert (state i2 = s) as <- by congruence. eapply Qt; [exact Q1|].
      assert (Hpos : 0 < step_size i1 /\ (fixed_step i1 = true \/ 0 <= min_step (opts e))).
      { destruct I2 as [(A1 & A2 & A3)|(A1 & slop & A2 & A3 & A4 & A5 & A6)]; [auto|].
        pose proof (slop_pos _ _ A2). pose proof (min_pos _ _ A3). lia. }
      eapply Ps; [exact P1|exact Hss|apply Hpos|apply Hpos].
    + rewrite Hs. split; [exact Hall|]. intros s H. exfalso. eapply Hno, H.
Qed.

(** The same without transitivity: the hook and the frame change give the first state of
    the chain. *)
Lemma propagate_trace (P : St -> Prop) (Q : St -> St -> Prop) lo fuel duration i c :
  keeps_epoch e -> 0 <= lo -> steps_forward e lo i -> 0 < duration ->
  (forall s s', P s -> finally e s = Ok s' -> P s') ->
  (forall s f s', P s -> enter_frame e s f = Ok s' -> P s') ->
  (forall j j', P (state j) -> single_step e j = (j', Ok tt) ->
     0 < step_size j -> (fixed_step j = true \/ fixed_step i = false /\ 0 <= min_step (opts e)) ->
     P (state j') /\ Q (state j) (state j')) ->
  P (state i) ->
  let o := propagate e cond fuel duration i c in
  o_sent o = [] \/
  exists s0 s1, finally e (state i) = Ok s0 /\
    (s1 = s0 \/ exists f, enter_frame e s0 f = Ok s1) /\ chain Q s1 (o_sent o).
Proof.
  intros Hk Hlo Hf Hd Pf Pe Ps Pi o. subst o.
  destruct (propagate_cases e cond fuel duration i c)
    as [(Hz & _)|[(Hz & Hse & Hne)|(Hz & orig & i0 & Hen & Heq)]]; [lia|left; exact Hse|].
  right. rewrite Heq. assert (Hb : (duration <? 0) = false) by lia. rewrite Hb in *.
  set (stop := epoch e (state i) + duration).
  destruct (loop_ending e cond false stop orig fuel i0 c [])
    as (l & i1 & c1 & Hg & _ & Hend).
  pose proof (entered_epoch e Hk _ _ _ _ Hen) as Hep.
  destruct (entered_forward e _ _ _ _ _ Hd Hf Hen) as (Hf0 & Hst0 & Hfx0).
  assert (Hstop : epoch e (state i0) <= stop) by (subst stop; lia).
  destruct (gsteps_forward e Hk _ _ _ _ _ Hlo Hg Hf0 Hstop)
    as (_ & I2 & I3 & _ & _ & I6 & I7 & I8 & _).
  assert (P0 : P (state i0)).
  { inversion Hen; subst; cbn; eauto. }
  assert (Hall : chain Q (state i0) l /\ P (state i1) /\ last l (state i0) = state i1).
  { rewrite <- Hfx0 in Ps. clear Heq Hen Hend I2 I3 I6 I7 I8 Hst0 Hfx0 Hep.
    revert Ps Hf0 P0 Hstop.
    induction Hg as [j|j j1 l j' Hlt Hss Hg IH]; intros Ps Hfj Pj Hle; [repeat split; [exact Pj]|].
    destruct (single_step_forward e Hk _ _ _ Hlo Hfj Hss) as (Hbd & Hf1 & Hfx & _).
    unfold last_test in Hlt. cbn in Hlt. rewrite orb_false_r in Hlt. apply Z.ltb_ge in Hlt.
    assert (Hpos : 0 < step_size j /\
                   (fixed_step j = true \/ fixed_step j = false /\ 0 <= min_step (opts e))).
    { destruct Hfj as [(A1 & A2 & A3)|(A1 & slop & A2 & A3 & A4 & A5 & A6)]; [auto|].
      pose proof (slop_pos _ _ A2). pose proof (min_pos _ _ A3). split; [lia|right; split; [auto|lia]]. }
    destruct (Ps _ _ Pj Hss (proj1 Hpos)) as [P1 Q1];
      [apply Hpos|].
    rewrite Hfx in IH. destruct (IH Ps Hf1 P1 ltac:(lia)) as (C1 & C2 & C3).
    split; [split; assumption|]. split; [exact C2|].
    destruct l as [|y l]; [exact C3|].
    change (last (state j1 :: y :: l) (state j)) with (last (y :: l) (state j)).
    rewrite (last_default (y :: l) (state j) (state j1)) by discriminate. exact C3. }
  destruct Hall as (Hall & P1 & Hlast). cbn [app] in Hend.
  assert (Hchain : chain Q (state i0) (o_sent (prop_loop e cond false stop orig fuel i0 c []))).
  { inversion Hend as [Ht He2 Hr|i2 Ht Hn Hss Hr|i2 c2 Ht Hss Hcd Hr|o Hs Hno Hr].
    - rewrite rotate_back_sent. exact Hall.
    - rewrite rotate_back_sent. apply chain_app; [exact Hall|]. rewrite Hlast.
      destruct (Ps (set_step i1 (stop - epoch e (state i1)) true) i2) as [P2 Q2];
        [exact P1|exact Hss|cbn; lia|left; reflexivity|]. exact Q2.
    - exact Hall.
    - rewrite Hs. exact Hall. }
  inversion Hen; subst; cbn in Hchain |- *; eauto 8.
Qed.

(** The step actually evaluated. *)
Lemma derive_loop_step fuel : forall i h att i' t v,
  derive_loop e fuel i h att = (i', Ok (t, v)) ->
  exists h' err, try_step e (state i) (fixed_step i) h' = Ok (v, err) /\
    (fixed_step i = true -> h' = h /\ t = step_size i) /\
    (fixed_step i = false -> t = of_secs e h') /\
    ((0 <= h)%R -> (fixed_step i = true \/ 0 <= min_step (opts e)) -> (0 <= h')%R).
Proof.
  induction fuel as [|fuel IH]; intros i h att i' t v; cbn [derive_loop]; [discriminate|].
  destruct (try_step e (state i) (fixed_step i) h) as [[next errv]|x| |] eqn:Ht; try discriminate.
  destruct (fixed_step i) eqn:Hf.
  - intros H. assert (E1 : step_size i = t) by congruence. assert (E2 : next = v) by congruence.
    subst. exists h, errv. rewrite Ht. repeat split; auto. discriminate.
  - destruct (accepts e _ h att).
    + destruct (has_nan e next); [discriminate|]. intros H.
      assert (E1 : of_secs e h = t) by congruence. assert (E2 : next = v) by congruence.
      subst. exists h, errv. rewrite Ht. repeat split; auto; discriminate.
    + intros H. apply IH in H. cbn [state fixed_step with_details det] in H. rewrite Hf in H.
      destruct H as (h' & err & H1 & _ & H3 & H4). exists h', err.
      split; [exact H1|]. split; [discriminate|]. split; [exact H3|].
      intros Hh Hm. apply H4; [|exact Hm]. unfold shrink. destruct Hm as [Hm|Hm]; [discriminate|].
      assert (0 <= to_secs (min_step (opts e)))%R by (rewrite <- to_secs_0; apply to_secs_le, Hm).
      destruct (Rlt_dec _ _) as [Hlt|Hge]; lra.
Qed.

Lemma derive_step i i' t v :
  derive e i = (i', Ok (t, v)) ->
  exists h err, try_step e (state i) (fixed_step i) h = Ok (v, err) /\
    (fixed_step i = true -> h = to_secs t /\ t = step_size i) /\
    (fixed_step i = false -> t = of_secs e h) /\
    (0 <= step_size i -> (fixed_step i = true \/ 0 <= min_step (opts e)) -> (0 <= h)%R).
Proof.
  intros H. apply derive_loop_step in H. cbn [state fixed_step with_details step_size] in H.
  destruct H as (h & err & H1 & H2 & H3 & H4). exists h, err. split; [exact H1|].
  split; [intros Hf; destruct (H2 Hf) as [-> ->]; auto|]. split; [exact H3|].
  intros Hs. apply H4. rewrite <- to_secs_0. apply to_secs_le, Hs.
Qed.
End Invariants.

Lemma Forall2_len {A B} (P : A -> B -> Prop) l m : Forall2 P l m -> length l = length m.
Proof. induction 1; cbn; congruence. Qed.

Section Functional.
Local Open Scope R_scope.
Context {St V F E : Type} (e : env St V F E) (phi : V -> R).
Hypothesis phi_add : forall a b, phi (vadd e a b) = phi a + phi b.
Hypothesis phi_scale : forall x a, phi (vscale e x a) = x * phi a.

Fixpoint weighted (l : list R) (i : nat) : R :=
  match l with
  | [] => 0
  | x :: l' => nth i (b_coeffs (meth e)) 0 * x + weighted l' (S i)
  end.

Lemma combine_functional ks : forall i fixed h next err next' err',
  combine_stages e ks i fixed h next err = Some (next', err') ->
  phi next' = phi next + h * weighted (map phi ks) i.
Proof.
  induction ks as [|k ks IH]; cbn [combine_stages map weighted]; intros i fixed h next err next' err' H.
  - assert (next = next') as <- by congruence. ring.
  - destruct (nth_error (b_coeffs (meth e)) i) as [b|] eqn:Hb; [|discriminate].
    rewrite (nth_error_nth _ _ 0 Hb).
    assert (G : exists er, combine_stages e ks (S i) fixed h (vadd e next (vscale e (h * b) k)) er
                           = Some (next', err')).
    { destruct fixed; [exists err; exact H|].
      destruct (nth_error (b_coeffs (meth e)) (i + stages (meth e))); [eexists; exact H|discriminate]. }
    destruct G as [er G]. apply IH in G. rewrite G, phi_add, phi_scale. ring.
Qed.

(** The sum of [n] consecutive coefficients of the table. *)
Fixpoint coeff_sum (a_idx n : nat) : R :=
  match n with
  | O => 0
  | S n' => nth a_idx (a_coeffs (meth e)) 0 + coeff_sum (S a_idx) n'
  end.

Lemma stage_sum_coeff ks : forall a_idx ci wi c w a',
  stage_sum e ks a_idx ci wi = Some (c, w, a') ->
  c = ci + coeff_sum a_idx (length ks) /\ a' = (a_idx + length ks)%nat.
Proof.
  induction ks as [|k ks IH]; cbn [stage_sum length coeff_sum]; intros a_idx ci wi c w a' H.
  - assert (ci = c) as <- by congruence. assert (a_idx = a') as <- by congruence. split; [ring|lia].
  - destruct (nth_error (a_coeffs (meth e)) a_idx) as [a|] eqn:Ha; [|discriminate].
    rewrite (nth_error_nth _ _ 0 Ha). apply IH in H as [-> ->]. split; [ring|lia].
Qed.

(** The times at which the stages after the first [k] are evaluated. *)
Fixpoint stage_times (h : R) (n a_idx k : nat) : list R :=
  match n with
  | O => []
  | S n' => coeff_sum a_idx k * h :: stage_times h n' (a_idx + k) (S k)
  end.

Lemma stage_loop_functional (rel : R -> R -> Prop) ctx :
  (forall dt v k, eom e dt v ctx = Ok k -> rel dt (phi k)) ->
  forall n a_idx ks sv h ks',
  stage_loop e n a_idx ks sv ctx h = Ok ks' ->
  exists new, ks' = ks ++ new /\ Forall2 rel (stage_times h n a_idx (length ks)) (map phi new).
Proof.
  intros Hr. induction n as [|n IH]; cbn [stage_loop stage_times]; intros a_idx ks sv h ks' H.
  - assert (ks = ks') as <- by congruence. exists []. rewrite app_nil_r. split; constructor.
  - destruct (stage_sum e ks a_idx 0 (vzero e)) as [[[c w] a']|] eqn:Hs; [|discriminate].
    apply stage_sum_coeff in Hs as [-> ->].
    destruct (eom e _ _ ctx) as [k|x| |] eqn:Hk; cbn [bind] in H; try discriminate.
    apply IH in H as (new & -> & Hf). exists (k :: new). rewrite <- app_assoc. split; [reflexivity|].
    cbn [map]. constructor; [|rewrite app_length in Hf; cbn [length] in Hf].
    + apply Hr in Hk. rewrite Rplus_0_l in Hk. exact Hk.
    + replace (length ks + 1)%nat with (S (length ks)) in Hf by lia. exact Hf.
Qed.

(** A step changes [phi] by the weighted sum of its derivative at the stages. *)
Lemma try_step_functional (rel : R -> R -> Prop) s fixed h next err :
  (forall dt v k, eom e dt v s = Ok k -> rel dt (phi k)) ->
  try_step e s fixed h = Ok (next, err) ->
  exists rates,
    Forall2 rel (0 :: stage_times h (stages (meth e) - 1) 0 1) rates /\
    (stages (meth e) <> 0)%nat /\
    phi next = phi (to_vector e s) + h * weighted rates 0.
Proof.
  intros Hr. unfold try_step.
  destruct (eom e 0 (to_vector e s) s) as [k0|x| |] eqn:Hk; cbn [bind]; try discriminate.
  destruct (stages (meth e)) as [|n] eqn:Hst; [discriminate|].
  destruct (stage_loop e n 0 [k0] (to_vector e s) s h) as [ks|x| |] eqn:Hl; cbn [bind]; try discriminate.
  destruct (combine_stages e ks 0 fixed h _ _) as [[nx er]|] eqn:Hc; [|discriminate].
  intros H. assert (nx = next) as -> by congruence.
  apply combine_functional in Hc.
  apply (stage_loop_functional rel _ Hr) in Hl as (new & -> & Hf).
  exists (map phi ([k0] ++ new)). split; [|split; [discriminate|exact Hc]].
  cbn [app map]. replace (S n - 1)%nat with n by lia. constructor; [apply Hr in Hk; exact Hk|exact Hf].
Qed.

Lemma weighted_const c l : forall i, Forall (fun x => x = c) l ->
  weighted l i = c * fold_right Rplus 0 (map (fun j => nth j (b_coeffs (meth e)) 0) (seq i (length l))).
Proof.
  induction l as [|x l IH]; intros i H; cbn [weighted length seq map fold_right]; [ring|].
  inversion H; subst. rewrite IH by assumption. ring.
Qed.

Lemma stage_times_length h n : forall a k, length (stage_times h n a k) = n.
Proof. induction n; intros; cbn; [reflexivity|]. f_equal. apply IHn. Qed.

Lemma sumR_fold f n : forall i, fold_right Rplus 0 (map f (seq i n)) = sumR n (fun j => f (i + j)%nat).
Proof.
  induction n as [|n IH]; intros i; cbn [seq map fold_right]; [reflexivity|].
  rewrite IH. clear IH.
  assert (G : forall m g, sumR (S m) g = g 0%nat + sumR m (fun j => g (S j))).
  { induction m as [|m IHm]; intros g; [unfold sumR; ring|].
    change (sumR (S (S m)) g) with (sumR (S m) g + g (S m)). rewrite IHm.
    change (sumR (S m) (fun j => g (S j))) with (sumR m (fun j => g (S j)) + g (S m)). ring. }
  rewrite G. rewrite Nat.add_0_r. f_equal.
  clear G. assert (H : forall j, f (S i + j)%nat = f (i + S j)%nat) by (intros; f_equal; lia).
  induction n as [|n IHn]; [reflexivity|]. cbn [sumR]. rewrite IHn, H. reflexivity.
Qed.

(** A constant derivative. *)
Lemma try_step_constant c s fixed h next err :
  (forall dt v k, eom e dt v s = Ok k -> phi k = c) ->
  try_step e s fixed h = Ok (next, err) ->
  phi next = phi (to_vector e s) + h * (c * sumR (stages (meth e)) (coeff_b (meth e))).
Proof.
  intros Hc H.
  destruct (try_step_functional (fun _ x => x = c) _ _ _ _ _ Hc H) as (rates & Hf & Hs & ->).
  assert (Hl : length rates = stages (meth e)).
  { apply Forall2_len in Hf. cbn [length] in Hf. rewrite stage_times_length in Hf. lia. }
  rewrite (weighted_const c).
  - rewrite Hl, sumR_fold. reflexivity.
  - clear -Hf. induction Hf; constructor; auto.
Qed.

(** Non-negative weights and a non-positive derivative. *)
Lemma weighted_sign l : forall i,
  (forall j, 0 <= nth j (firstn (i + length l) (b_coeffs (meth e))) 0) -> Forall (fun x => x <= 0) l -> weighted l i <= 0.
Proof.
  induction l as [|x l IH]; intros i Hb H; cbn [weighted]; [lra|]. inversion H; subst.
  assert (0 <= nth i (b_coeffs (meth e)) 0).
  { specialize (Hb i). destruct (Nat.lt_ge_cases i (length (b_coeffs (meth e)))) as [Hi|Hi].
    - rewrite <- (firstn_skipn (i + length (x :: l)) (b_coeffs (meth e))).
      rewrite app_nth1; [exact Hb|]. rewrite firstn_length. cbn [length]. lia.
    - rewrite (nth_overflow (b_coeffs (meth e))) by lia. lra. }
  assert (weighted l (S i) <= 0).
  { apply IH; [|assumption]. intros j. specialize (Hb j). cbn [length] in Hb.
    replace (i + S (length l))%nat with (S i + length l)%nat in Hb by lia. exact Hb. }
  nra.
Qed.

Lemma try_step_nonincreasing s fixed h next err :
  (forall dt v k, eom e dt v s = Ok k -> phi k <= 0) ->
  (forall j, (j < stages (meth e))%nat -> 0 <= coeff_b (meth e) j) ->
  0 <= h ->
  try_step e s fixed h = Ok (next, err) -> phi next <= phi (to_vector e s).
Proof.
  intros Hc Hb Hh H.
  destruct (try_step_functional (fun _ x => x <= 0) _ _ _ _ _ Hc H) as (rates & Hf & Hs & ->).
  assert (Hl : length rates = stages (meth e)).
  { apply Forall2_len in Hf. cbn [length] in Hf. rewrite stage_times_length in Hf. lia. }
  assert (weighted rates 0 <= 0).
  { apply weighted_sign.
    - intros j. cbn [Nat.add]. rewrite Hl.
      destruct (Nat.lt_ge_cases j (stages (meth e))) as [Hj|Hj].
      + destruct (Nat.lt_ge_cases j (length (b_coeffs (meth e)))) as [Hj2|Hj2].
        * specialize (Hb j Hj). unfold coeff_b in Hb.
          rewrite <- (firstn_skipn (stages (meth e)) (b_coeffs (meth e))) in Hb.
          rewrite app_nth1 in Hb; [exact Hb|]. rewrite firstn_length. lia.
        * rewrite nth_overflow; [lra|]. rewrite firstn_length. lia.
      + rewrite nth_overflow; [lra|]. rewrite firstn_length. lia.
    - clear -Hf. induction Hf; constructor; auto. }
  nra.
Qed.
End Functional.
