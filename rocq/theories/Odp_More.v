(** Order, termination and prediction. *)
From Coq Require Import Reals String.
From Verif Require Import Base Arc_Model Sched_Model Sched_Proofs Sol_Model Prop_Model Prop_Spec.
From Verif Require Import Prop_Props Traj_Model Odp_Model Odp_Spec Odp_Proofs Prop_Model.
Local Open Scope Z_scope.

(** ** Order of the requests *)
Section Order.
Context {St V F E D C H De : Type} (e : env St V F E) (dv : device_ops St D C H De) (n : nat)
        (p : odp D) (a : arc) (always : Prop).
Notation times := (map (fun c : call St C H => epoch e (nominal_state c))).

Lemma paced_times start step last l :
  paced e start step last l ->
  Forall (fun t => start < t <= last) (times l) /\ ordered (times l).
Proof.
  revert start. induction l as [|[s|s nm ty re co c h] l IH]; intros start; cbn [paced map].
  - intros _. split; constructor.
  - intros (H1 & H2 & H3). destruct (IH _ H3) as (I1 & I2). cbn [nominal_state].
    split.
    + constructor; [lia|]. eapply Forall_impl; [|exact I1]. cbn. intros; lia.
    + constructor; [|exact I2]. eapply Forall_impl; [|exact I1]. cbn. intros; lia.
  - tauto.
Qed.

Lemma ordered_app l l' :
  ordered l -> ordered l' -> (forall x y, List.In x l -> List.In y l' -> x <= y) -> ordered (l ++ l').
Proof.
  induction 1 as [|x l H1 _ IH]; intros H2 H3; [exact H2|].
  cbn. constructor.
  - apply Forall_app. split; [exact H1|]. apply Forall_forall. intros y Hy. apply H3; [now left|exact Hy].
  - apply IH; [exact H2|]. intros u v Hu Hv. apply H3; [now right|exact Hv].
Qed.

Lemma updates_times m all ups used :
  Forall2 (is_update e dv n p a m all) ups used ->
  Forall (fun t => t = Arc_Model.epoch m) (times ups).
Proof.
  induction 1 as [|x g ups used Hx _ IH]; cbn [map]; constructor; [|exact IH].
  destruct x; cbn in Hx |- *; [easy|apply Hx].
Qed.

Lemma constant_ordered x l : Forall (fun t => t = x) l -> ordered l.
Proof.
  induction 1 as [|y l -> Hl IH]; constructor; [|exact IH].
  eapply Forall_impl; [|exact Hl]. cbn. intros; lia.
Qed.

Lemma visit_times start m now :
  0 < epoch_precision p -> start <= Arc_Model.epoch m -> visit e dv n p a always start m now ->
  ordered (times now) /\
  Forall (fun t => start - epoch_precision p < t < Arc_Model.epoch m + epoch_precision p) (times now) /\
  (rejected m = false -> Forall (fun t => start <= t <= Arc_Model.epoch m) (times now)).
Proof.
  intros Hp Hle Hv.
  destruct Hv as [way s Hrej Hway Hs _|way Hrej _ Hway _
                 |way d groups usable used ups Hrej _ Hway _ _ _ _ _ _ _ Hups];
    destruct (paced_times _ _ _ _ Hway) as (I1 & I2).
  - rewrite map_app. cbn [map nominal_state]. split; [|split].
    + apply ordered_app; [exact I2|repeat constructor|].
      intros x y Hx [<-|[]]. rewrite Forall_forall in I1. specialize (I1 x Hx). cbn in I1. lia.
    + apply Forall_app. split; [eapply Forall_impl; [|exact I1]; cbn; intros; lia|].
      repeat constructor; lia.
    + congruence.
  - split; [exact I2|]. split; [|intros _]; (eapply Forall_impl; [|exact I1]); cbn; intros; lia.
  - rewrite map_app. pose proof (updates_times _ _ _ _ Hups) as Hu. split; [|split].
    + apply ordered_app; [exact I2|eapply constant_ordered; exact Hu|].
      intros x y Hx Hy. rewrite Forall_forall in I1, Hu. specialize (I1 x Hx). cbn in I1.
      rewrite (Hu y Hy). lia.
    + apply Forall_app. split; [eapply Forall_impl; [|exact I1]|eapply Forall_impl; [|exact Hu]];
        cbn; intros; lia.
    + intros _. apply Forall_app.
      split; [eapply Forall_impl; [|exact I1]|eapply Forall_impl; [|exact Hu]]; cbn; intros; lia.
Qed.

Lemma visits_times l : forall start calls,
  0 < epoch_precision p -> ordered (start :: map Arc_Model.epoch l) ->
  visits e dv n p a always start l calls ->
  Forall (fun t => start - epoch_precision p < t) (times calls) /\
  (forall i j x y, (i < j)%nat -> nth_error (times calls) i = Some x ->
     nth_error (times calls) j = Some y -> x <= y + 2 * (epoch_precision p - 1)) /\
  (Forall (fun m => rejected m = false) l ->
     Forall (fun t => start <= t) (times calls) /\ ordered (times calls)).
Proof.
  induction l as [|m l IH]; intros start calls Hp Ho Hv; cbn [visits] in Hv.
  - subst. cbn. repeat split; try constructor. intros [|i] j x y _ Hx; discriminate.
  - destruct Hv as (now & later & -> & Hv & Hvs).
    inversion Ho as [|x0 l0 H1 H2]; subst. cbn [map] in H1, H2.
    inversion H1 as [|x1 l1 H3 H4]; subst.
    destruct (visit_times _ _ _ Hp H3 Hv) as (A1 & A2 & A3).
    destruct (IH _ _ Hp H2 Hvs) as (B1 & B2 & B3).
    rewrite map_app. split; [|split].
    + apply Forall_app. split; [eapply Forall_impl; [|exact A2]|eapply Forall_impl; [|exact B1]];
        cbn; intros; lia.
    + intros i j x y Hij Hx Hy.
      destruct (Nat.lt_ge_cases j (length (times now))) as [Hj|Hj].
      * rewrite nth_error_app1 in Hx, Hy by lia.
        assert (Hxy : x <= y); [|lia].
        clear -A1 Hij Hx Hy. revert i j x y Hij Hx Hy.
        induction A1 as [|z l Hz _ IH]; intros [|i] [|j] x y Hij Hx Hy; cbn in *; try lia; try discriminate.
        -- injection Hx as <-. apply nth_error_In in Hy. rewrite Forall_forall in Hz. now apply Hz.
        -- apply (IH i j); [lia|assumption..].
      * rewrite nth_error_app2 in Hy by lia.
        destruct (Nat.lt_ge_cases i (length (times now))) as [Hi|Hi].
        -- rewrite nth_error_app1 in Hx by lia.
           apply nth_error_In in Hx, Hy. rewrite Forall_forall in A2, B1.
           specialize (A2 x Hx). specialize (B1 y Hy). cbn in A2, B1. lia.
        -- rewrite nth_error_app2 in Hx by lia.
           exact (B2 (i - length (times now))%nat (j - length (times now))%nat x y ltac:(lia) Hx Hy).
    + intros Hf. inversion Hf as [|x2 l2 F1 F2]; subst.
      destruct (B3 F2) as (C1 & C2). specialize (A3 F1). split.
      * apply Forall_app. split; [eapply Forall_impl; [|exact A3]|eapply Forall_impl; [|exact C1]];
          cbn; intros; lia.
      * apply ordered_app; [exact A1|exact C2|]. intros x y Hx Hy.
        rewrite Forall_forall in A3, C1. specialize (A3 x Hx). specialize (C1 y Hy). cbn in A3, C1. lia.
Qed.
End Order.

(** ** Termination *)
Section Ends.
Context {St V F E : Type} (e : env St V F E) (o : state_ops St F) (arrange : list St -> list St)
        (so : stm_ops St).
Context {K Est RV G C H Fe FS : Type} (fo : filter_ops St K Est RV G C H Fe).
Context {D De : Type} (dv : device_ops St D C H De) (n : nat).
Context (Hk : keeps_epoch e) (Hc : keeps_clock e so) (Hd : keeps_date e fo)
        (Ht : keeps_types dv) (Hr : real_outcomes e (never (St := St) (E := E)))
        (Hrc : real_calls fo dv).
Context (p : odp D) (a : arc) (crit : option R).
Notation rn := (run (St := St) (K := K) (Est := Est) (RV := RV) (G := G) (FS := FS) (D := D)).

Lemma window_real m d types (r : rn) :
  process_window (E := E) so fo dv n a crit m d types r <> NoFuel.
Proof.
  unfold process_window. intros Hx.
  apply bind_fuel in Hx as [Hx|(h & _ & Hx)]; [apply lift_fuel in Hx; now apply (real_h fo dv Hrc) in Hx|].
  apply bind_fuel in Hx as [Hx|(c & _ & Hx)]; [apply lift_fuel in Hx; now apply (real_covar fo dv Hrc) in Hx|].
  destruct (measure dv d (r_epoch r) (r_traj r)) as [d' out] eqn:Hm.
  apply bind_fuel in Hx as [Hx|(seen & _ & Hx)].
  { apply lift_fuel in Hx. apply (real_measure fo dv Hrc d (r_epoch r) (r_traj r)). now rewrite Hm. }
  destruct seen as [seen|]; [|discriminate].
  apply bind_fuel in Hx as [Hx|(b & _ & Hx)]; [apply lift_fuel in Hx; now apply (real_bias fo dv Hrc) in Hx|].
  destruct (measurement_update _ _ _ _ _ _ _ _) as [kf upd] eqn:Hu.
  apply bind_fuel in Hx as [Hx|([[est resid] gain] & _ & Hx)]; [|discriminate].
  apply lift_fuel in Hx. subst upd.
  eapply (real_msr fo dv Hrc). rewrite Hu. reflexivity.
Qed.

Lemma windows_real m all l : forall r : rn,
  process_windows (E := E) so fo dv n a crit m all l r <> NoFuel.
Proof.
  induction l as [|w l IH]; intros r; cbn [process_windows]; [discriminate|].
  destruct (firstn n (skipn (w * n) all)); [discriminate|].
  destruct (any_available _ _); [|apply IH].
  destruct (find _ _); [|discriminate].
  intros Hx. apply bind_fuel in Hx as [Hx|(r1 & _ & Hx)]; [now apply window_real in Hx|now apply IH in Hx].
Qed.

Lemma update_real nominal k (r : rn) :
  do_time_update (E := E) (De := De) so fo r nominal k <> NoFuel.
Proof.
  unfold do_time_update. destruct (time_update fo (r_kf r) nominal) as [kf upd] eqn:Hu.
  intros Hx. apply bind_fuel in Hx as [Hx|(est & _ & Hx)]; [|discriminate].
  apply lift_fuel in Hx. subst. apply (real_time fo dv Hrc (r_kf r) nominal). now rewrite Hu.
Qed.

Lemma at_real m (r : rn) : at_measurement (E := E) so fo dv n a crit m r <> NoFuel.
Proof.
  unfold at_measurement. destruct (rejected m); [apply update_real|].
  destruct (find _ _); [|discriminate]. destruct n eqn:Hn; [discriminate|]. rewrite <- Hn.
  apply windows_real.
Qed.

Lemma advance_real lo hi pfuel m fuel : forall r : rn,
  0 < epoch_precision p -> 0 < odp_max_step p -> ready e (r_inst r) ->
  Z.abs (r_epoch r - epoch e (state (r_inst r))) < epoch_precision p ->
  lo <= epoch e (state (r_inst r)) <= hi -> lo <= Arc_Model.epoch m <= hi ->
  hi - lo + epoch_precision p + 1 <= Z.of_nat pfuel ->
  Z.max 0 (Arc_Model.epoch m - epoch e (state (r_inst r))) + 1 <= Z.of_nat fuel ->
  advance e o arrange so fo dv n p a crit pfuel fuel m r <> NoFuel.
Proof.
  induction fuel as [|fuel IH]; intros r Hp Hmx Hi Hq Hs Hm Hpf Hf; [lia|].
  cbn [advance]. intros Hx. pose proof (ready_step e _ Hi) as Hstep.
  apply bind_fuel in Hx as [Hx|(r1 & Hw1 & Hx)].
  - unfold step_toward in Hx. apply bind_fuel in Hx as [Hx|(s & _ & Hx)]; [|discriminate].
    apply lift_fuel in Hx. revert Hx. apply (for_duration_fuel e Hk); [exact Hr|exact Hi|lia].
  - destruct (step_ok e o arrange Hk p _ _ _ _ Hi Hw1) as (E1 & E2 & E3 & E4 & E5 & E6).
    unfold next_of in E1.
    destruct (Z.ltb_spec (Z.abs (epoch e (state (r_inst r1)) - Arc_Model.epoch m)) (epoch_precision p))
      as [Hc1|Hc1]; [now apply at_real in Hx|].
    apply bind_fuel in Hx as [Hx|(r2 & Hw2 & Hx)]; [now apply update_real in Hx|].
    destruct (update_ok e so fo Hc crit _ _ _ _ Hw2) as (F1 & F2 & F3 & F4 & F5).
    revert Hx. apply IH; try assumption; try lia. auto.
Qed.

Lemma measurements_real lo hi pfuel fuel l : forall r : rn,
  0 < epoch_precision p -> 0 < odp_max_step p -> same_types dv p r -> ready e (r_inst r) ->
  Z.abs (r_epoch r - epoch e (state (r_inst r))) < epoch_precision p ->
  lo <= epoch e (state (r_inst r)) <= hi ->
  Forall (fun m => lo <= Arc_Model.epoch m <= hi) l ->
  hi - lo + epoch_precision p + 1 <= Z.of_nat pfuel ->
  hi - lo + 1 <= Z.of_nat fuel ->
  process_measurements e o arrange so fo dv n p a crit pfuel fuel l r <> NoFuel.
Proof.
  induction l as [|m l IH]; intros r Hp Hmx Hst Hi Hq Hs Hl Hpf Hf; cbn [process_measurements];
    [discriminate|].
  inversion Hl as [|x y Hm Hl']; subst. intros Hx.
  apply bind_fuel in Hx as [Hx|(r1 & Hw1 & Hx)].
  - revert Hx. eapply advance_real; eauto. lia.
  - destruct (advance_ok e o arrange so fo dv n Hk Hc Hd Ht p a crit pfuel m fuel r r1 [] _
                Hp Hmx Hst Hi Hq I eq_refl Hw1) as (T1 & T2 & T3 & T4 & _).
    revert Hx. apply IH; try assumption. now rewrite T2.
Qed.

(** A precision that is not positive is never met. *)
Lemma advance_stuck pfuel m fuel : forall r r' : rn, epoch_precision p <= 0 ->
  advance e o arrange so fo dv n p a crit pfuel fuel m r <> Ok r'.
Proof.
  induction fuel as [|fuel IH]; intros r r' Hp; cbn [advance]; [discriminate|].
  intros Hx. apply bind_ok in Hx as (r1 & _ & Hx).
  destruct (Z.ltb_spec (Z.abs (epoch e (state (r_inst r1)) - Arc_Model.epoch m)) (epoch_precision p));
    [lia|].
  apply bind_ok in Hx as (r2 & _ & Hx). now apply IH in Hx.
Qed.

(** ** Prediction *)
Lemma predict_ok pfuel stop fuel : forall i k (s s' : solution Est RV G FS),
  predict_loop (De := De) e so fo p pfuel fuel stop i k s = Ok s' ->
  exists j l rows k', is_count (epoch e (state i)) (odp_max_step p) stop j /\
    made fo None k l rows k' /\ s' = extended s rows /\
    Forall (fun c => exists x, c = TimeUpdate x) l /\
    map (fun c => epoch e (nominal_state c)) l =
    map (fun x => epoch e (state i) + Z.of_nat x * odp_max_step p) (seq 1 j).
Proof.
  induction fuel as [|fuel IH]; intros i k s s' Hw; cbn [predict_loop] in Hw; [discriminate|].
  apply bind_ok in Hw as (nom & Ho & Hw). apply lift_ok in Ho.
  destruct (C01_stop_epoch _ _ _ _ e Hk _ _ _ _ Ho) as (H1 & H2).
  destruct (time_update fo k nom) as [k1 upd] eqn:Hu.
  apply bind_ok in Hw as (est & Hx & Hw). apply lift_ok in Hx. subst upd.
  destruct (Z.leb_spec stop (epoch e nom)) as [Hle|Hlt].
  - injection Hw as <-. exists 1%nat. do 3 eexists. split.
    { split; [lia|]. split; [lia|]. intros j Hj. lia. }
    split; [econstructor; [exact Hu|constructor]|]. split; [reflexivity|].
    split; [repeat constructor; eauto|]. cbn [seq map nominal_state]. f_equal. lia.
  - destruct (IH _ _ _ _ Hw) as (j & l & rows & k' & (J1 & J2 & J3) & Hm & -> & Hfa & Hmap).
    cbn [state with_state] in J1, J2, J3, Hmap.
    rewrite (clock_reset e so Hc) in J2, J3, Hmap. rewrite H2, H1 in J2, J3, Hmap.
    exists (S j). do 3 eexists. split.
    { split; [lia|]. split; [lia|]. intros [|[|x]] Hx; [lia| |].
      - rewrite H1 in Hlt. lia.
      - specialize (J3 (S x) ltac:(lia)). lia. }
    split; [econstructor; [exact Hu|exact Hm]|].
    split. { unfold extended, push_time_update. cbn. now rewrite <- !app_assoc. }
    split; [constructor; eauto|].
    cbn [seq map nominal_state]. rewrite Hmap, H1. f_equal; [lia|].
    rewrite <- (seq_shift j 1), map_map. apply map_ext. intros x. lia.
Qed.

Lemma predict_stuck pfuel stop fuel : forall i k (s s' : solution Est RV G FS),
  odp_max_step p <= 0 -> epoch e (state i) < stop ->
  predict_loop (De := De) e so fo p pfuel fuel stop i k s <> Ok s'.
Proof.
  induction fuel as [|fuel IH]; intros i k s s' Hp Hlt; cbn [predict_loop]; [discriminate|].
  intros Hw. apply bind_ok in Hw as (nom & Ho & Hw). apply lift_ok in Ho.
  destruct (C01_stop_epoch _ _ _ _ e Hk _ _ _ _ Ho) as (H1 & H2).
  destruct (time_update fo k nom) as [k1 upd] eqn:Hu.
  apply bind_ok in Hw as (est & Hx & Hw).
  destruct (Z.leb_spec stop (epoch e nom)) as [Hle|Hl]; [lia|].
  revert Hw. apply IH; [exact Hp|]. cbn [state with_state].
  rewrite (clock_reset e so Hc), H2. exact Hl.
Qed.

Lemma predict_real pfuel stop fuel : forall i k (s : solution Est RV G FS),
  0 < odp_max_step p -> ready e i -> odp_max_step p + 1 <= Z.of_nat pfuel ->
  Z.max 0 (stop - epoch e (state i)) / odp_max_step p + 2 <= Z.of_nat fuel ->
  predict_loop (De := De) e so fo p pfuel fuel stop i k s <> NoFuel.
Proof.
  induction fuel as [|fuel IH]; intros i k s Hp Hi Hpf Hf.
  { pose proof (Z.div_pos (Z.max 0 (stop - epoch e (state i))) (odp_max_step p)). lia. }
  cbn [predict_loop]. intros Hw.
  apply bind_fuel in Hw as [Hw|(nom & Ho & Hw)].
  { apply lift_fuel in Hw. revert Hw. apply (for_duration_fuel e Hk); [exact Hr|exact Hi|lia]. }
  apply lift_ok in Ho.
  destruct (C01_stop_epoch _ _ _ _ e Hk _ _ _ _ Ho) as (H1 & H2).
  destruct (time_update fo k nom) as [k1 upd] eqn:Hu.
  apply bind_fuel in Hw as [Hw|(est & Hx & Hw)].
  { apply lift_fuel in Hw. subst upd. apply (real_time fo dv Hrc k nom). now rewrite Hu. }
  destruct (Z.leb_spec stop (epoch e nom)) as [Hle|Hl]; [discriminate|].
  revert Hw. apply IH; [exact Hp| |exact Hpf|].
  - apply ready_state. eapply for_duration_ready; eauto.
  - cbn [state with_state]. rewrite (clock_reset e so Hc), H2.
    rewrite !Z.max_r in * by lia.
    assert (Heq : stop - epoch e (state i) = (stop - epoch e nom) + 1 * odp_max_step p) by lia.
    rewrite Heq, Z.div_add in Hf by lia. lia.
Qed.
End Ends.
