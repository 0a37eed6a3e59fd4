(** Proofs about the orbit determination process. *)
From Coq Require Import Reals String.
From Verif Require Import Base Arc_Model Sched_Model Sched_Proofs Sol_Model Prop_Model Prop_Spec.
From Verif Require Import Prop_Proofs Prop_Loop Prop_Props Traj_Model Odp_Model Odp_Spec Prop_Model.
Local Open Scope Z_scope.

Lemma bind_ok {E A B} (x : res E A) (f : A -> res E B) b :
  bind x f = Ok b -> exists a, x = Ok a /\ f a = Ok b.
Proof. destruct x; cbn; try discriminate. eauto. Qed.

Lemma lift_ok {E E' A} (f : E -> E') (x : res E A) a : lift f x = Ok a -> x = Ok a.
Proof. destruct x; cbn; congruence. Qed.

Lemma bind_fuel {E A B} (x : res E A) (f : A -> res E B) :
  bind x f = NoFuel -> x = NoFuel \/ exists a, x = Ok a /\ f a = NoFuel.
Proof. destruct x; cbn; try discriminate; eauto. Qed.

Lemma lift_fuel {E E' A} (f : E -> E') (x : res E A) : lift f x = NoFuel -> x = NoFuel.
Proof. destruct x; cbn; congruence. Qed.

Lemma nth_error_firstn_lt {A} (l : list A) k i :
  (i < k)%nat -> nth_error (firstn k l) i = nth_error l i.
Proof.
  revert k i. induction l as [|x l IH]; intros [|k] [|i] Hi; cbn; try lia; try reflexivity.
  apply IH. lia.
Qed.

Lemma skipn_skipn' {A} i j (l : list A) : skipn i (skipn j l) = skipn (j + i) l.
Proof. revert l. induction j as [|j IH]; intros [|x l]; cbn; try apply IH; try reflexivity. now destruct i. Qed.

(** ** The propagator stays ready *)
Section Ready.
Context {St V F E : Type} (e : env St V F E) (Hk : keeps_epoch e).

Lemma ready_forward i : ready e i -> steps_forward e 1 i.
Proof.
  intros [H|(Hf & slop & H1 & H2 & H3 & H4 & H5 & H6)]; [left; exact H|].
  right. split; [exact Hf|]. exists slop. pose proof (slop_pos e slop H1). intuition lia.
Qed.

Lemma steps_ready i l i' : steps e i l i' -> ready e i -> ready e i'.
Proof.
  induction 1 as [i|i i1 l i' H _ IH]; [trivial|].
  intros Hr. apply IH. clear IH.
  destruct (single_step_inv e Hk _ _ H) as (i2 & t & v & Hd & He & Hs & Hfx).
  destruct Hr as [(Hf & Hl & Hp)|(Hf & slop & H1 & H2 & H3 & H4 & H5 & H6)].
  - pose proof (derive_keeps e _ _ _ Hd) as (_ & K2 & K3). left.
    rewrite Hfx, Hs, K2, (K3 Hf). auto.
  - pose proof (slop_pos e slop H1) as Hsl.
    destruct (C04_forward_step _ _ _ _ e slop H1 H2 i i2 t v Hf ltac:(lia) Hd)
      as (_ & K2 & _ & h & errv & _ & _ & _ & _ & _ & _ & K3).
    right. rewrite Hfx, Hs. split; [exact K2|]. exists slop. intuition lia.
Qed.

Lemma for_duration_ready fuel d i s :
  ready e i -> o_res (for_duration e fuel d i) = Ok s ->
  ready e (o_inst (for_duration e fuel d i)).
Proof.
  intros Hr Ho. destruct (Z.lt_trichotomy d 0) as [Hd|[->|Hd]].
  - exact (proj1 (proj2 (proj2
      (C05_config_kept_backward _ _ _ _ e Hk 1 fuel d i s ltac:(lia) Hr Hd Ho)))).
  - exact Hr.
  - destruct (C05_config_kept_forward _ _ _ _ e Hk 1 fuel d i s ltac:(lia)
                (ready_forward _ Hr) Hd Ho) as (H1 & H2 & H3 & i0 & l & i1 & H4 & H5 & H6 & _ & H7).
    assert (Hr0 : ready e i0).
    { destruct Hr as [H|H]; [left|right]; rewrite H5, H6; exact H. }
    pose proof (steps_ready _ _ _ H4 Hr0) as Hr1.
    assert (Hf1 : fixed_step i1 = fixed_step i0).
    { clear -H4 Hk. induction H4 as [|i i1 l i' Hs _ IH]; [reflexivity|].
      rewrite IH. destruct (single_step_inv e Hk _ _ Hs) as (i2 & t & v & Hd & _ & _ & Hfx).
      rewrite Hfx. apply (derive_keeps e _ _ _ Hd). }
    destruct Hr1 as [H|H]; [left|right]; rewrite H1, <- H6, <- Hf1, H7; exact H.
Qed.

Lemma for_duration_fuel fuel d i :
  real_outcomes e (never (St := St) (E := E)) -> ready e i ->
  Z.abs d + 1 <= Z.of_nat fuel -> o_res (for_duration e fuel d i) <> NoFuel.
Proof.
  intros Hr Hi Hf. destruct (Z.lt_trichotomy d 0) as [Hd|[->|Hd]].
  - apply (C03_backward_terminates _ _ _ _ _ e never Hk Hr 1); try lia; [exact Hi|].
    rewrite Z.div_1_r. lia.
  - discriminate.
  - apply (C03_forward_terminates _ _ _ _ _ e never Hk Hr 1); try lia;
      [exact (ready_forward _ Hi)|]. rewrite Z.div_1_r. lia.
Qed.
End Ready.

(** ** Requests to the filter *)
Section Replay.
Context {St K Est RV G C H Fe FS : Type} (fo : filter_ops St K Est RV G C H Fe) (crit : option R).
Notation rw := (row Est RV G).
Notation sol := (solution Est RV G FS).

Inductive made : K -> list (call St C H) -> list rw -> K -> Prop :=
| made_nil : forall k, made k [] [] k
| made_time : forall k s k1 est l rows k2,
    time_update fo k s = (k1, Ok est) -> made k1 l rows k2 ->
    made k (TimeUpdate s :: l)
      ({| row_estimate := est; row_residual := None; row_gain := None |} :: rows) k2
| made_msr : forall k s name types real computed c h k1 est r g l rows k2,
    measurement_update fo k s real computed c h crit = (k1, Ok (est, r, g)) ->
    made k1 l rows k2 ->
    made k (MeasurementUpdate s name types real computed c h :: l)
      ({| row_estimate := est;
          row_residual := Some {| values := values r; res_rejected := res_rejected r;
                                  res_tracker := Some name; res_types := types |};
          row_gain := g |} :: rows) k2.

Lemma made_replay k l rows k' : made k l rows k' -> replay fo crit k l = Some rows.
Proof.
  induction 1 as [|k s k1 est l rows k2 Ht _ IH|k s name types real computed c h k1 est r g l rows k2 Hm _ IH];
    cbn [replay]; [reflexivity| |].
  - now rewrite Ht, IH.
  - now rewrite Hm, IH.
Qed.

Lemma made_app k l rows k1 l' rows' k2 :
  made k l rows k1 -> made k1 l' rows' k2 -> made k (l ++ l') (rows ++ rows') k2.
Proof. induction 1; intros; cbn; [assumption|econstructor; eauto..]. Qed.

Definition extended (s : sol) (rows : list rw) : sol :=
  {| estimates := estimates s ++ map row_estimate rows;
     residuals := residuals s ++ map row_residual rows;
     gains := gains s ++ map row_gain rows;
     fs_ratios := fs_ratios s ++ map (fun _ => None) rows |}.

Lemma extended_nil s : extended s [] = s.
Proof. destruct s. unfold extended. cbn. now rewrite !app_nil_r. Qed.

Lemma extended_app s r r' : extended (extended s r) r' = extended s (r ++ r').
Proof. unfold extended. cbn [estimates residuals gains fs_ratios]. now rewrite !map_app, !app_assoc. Qed.

Lemma made_dates {V F E} (e : env St V F E) k l rows k' :
  keeps_date e fo -> made k l rows k' ->
  map (fun r => epoch e (nominal_of fo (row_estimate r))) rows =
  map (fun c => epoch e (nominal_state c)) l.
Proof.
  intros Hd. induction 1 as [|k s k1 est l rows k2 Ht _ IH|k s name types real computed c h k1 est r g l rows k2 Hm _ IH];
    cbn [map row_estimate nominal_state]; [reflexivity| |]; rewrite IH; f_equal.
  - exact (date_time e fo Hd _ _ _ _ Ht).
  - exact (proj1 (date_msr e fo Hd _ _ _ _ _ _ _ _ _ _ _ Hm)).
Qed.
End Replay.

(** ** The process *)
Section Process.
Context {St V F E : Type} (e : env St V F E) (o : state_ops St F) (arrange : list St -> list St)
        (so : stm_ops St).
Context {K Est RV G C H Fe FS : Type} (fo : filter_ops St K Est RV G C H Fe).
Context {D De : Type} (dv : device_ops St D C H De) (n : nat).
Context (Hk : keeps_epoch e) (Hc : keeps_clock e so) (Hd : keeps_date e fo)
        (Ht : keeps_types dv).
Context (p : odp D) (a : arc) (crit : option R).
Notation rn := (run (St := St) (K := K) (Est := Est) (RV := RV) (G := G) (FS := FS) (D := D)).
Notation "'win'" := (process_window (E := E) so fo dv n a crit).
Notation "'wins'" := (process_windows (E := E) so fo dv n a crit).

Definition same_types (r : rn) : Prop := forall name,
  option_map (types_of dv) (find name (r_devices r)) =
  option_map (types_of dv) (find name (devices p)).

(** From one value of the loop variables to the next: the requests made. *)
Definition goes (r : rn) (calls : list (call St C H)) (r' : rn) : Prop :=
  exists rows, made fo crit (r_kf r) calls rows (r_kf r') /\
    r_sol r' = extended (r_sol r) rows.

Lemma goes_nil r r' : r_kf r' = r_kf r -> r_sol r' = r_sol r -> goes r [] r'.
Proof. intros H1 H2. exists []. rewrite H1, H2, extended_nil. split; [constructor|reflexivity]. Qed.

Lemma goes_app r l r1 l' r2 : goes r l r1 -> goes r1 l' r2 -> goes r (l ++ l') r2.
Proof.
  intros (w & H1 & H2) (w' & H3 & H4). exists (w ++ w'). split; [eapply made_app; eauto|].
  now rewrite H4, H2, extended_app.
Qed.

Lemma ready_state i s : ready e i -> ready e (with_state i s).
Proof. intros H1. exact H1. Qed.

Lemma observation_nth types d i t :
  (length types <= n)%nat -> nth_error types i = Some t ->
  nth_error (observation n types d) i = Some (value_or_zero d t).
Proof.
  intros Hl Hi. unfold observation.
  assert (Hlt : (i < length types)%nat) by (apply nth_error_Some; congruence).
  rewrite nth_error_firstn_lt by lia.
  rewrite nth_error_app1 by (rewrite map_length; exact Hlt).
  rewrite nth_error_map, Hi. reflexivity.
Qed.

Lemma observation_beyond types d i :
  (length types <= i < n)%nat -> nth_error (observation n types d) i = Some 0%R.
Proof.
  intros Hl. unfold observation. rewrite nth_error_firstn_lt by lia.
  rewrite nth_error_app2 by (rewrite map_length; lia). rewrite map_length.
  apply nth_error_repeat. lia.
Qed.

Lemma resolve_all_nth ms types real computed i t x c :
  nth_error types i = Some t -> nth_error real i = Some x -> nth_error computed i = Some c ->
  nth_error (resolve_all ms types real computed) i = Some (resolve_ambiguity ms t x c).
Proof.
  revert types real computed. induction i as [|i IH]; intros [|t0 ts] [|x0 xs] [|c0 cs];
    cbn; try discriminate; [congruence|apply IH].
Qed.

Lemma resolve_all_beyond ms types real computed i :
  (length types <= i)%nat -> nth_error (resolve_all ms types real computed) i = nth_error real i.
Proof.
  revert types real computed. induction i as [|i IH]; intros [|t0 ts] [|x0 xs] [|c0 cs] Hl;
    cbn in *; try reflexivity; try lia. apply IH. lia.
Qed.

Lemma minus_nth (l m : list R) i x y :
  nth_error l i = Some x -> nth_error m i = Some y ->
  nth_error (map (fun xy => fst xy - snd xy)%R (combine l m)) i = Some (x - y)%R.
Proof.
  revert l m. induction i as [|i IH]; intros [|x0 l] [|y0 m]; cbn; try discriminate;
    [congruence|apply IH].
Qed.

Lemma same_types_modify r name d d' i ep kf tr sl ac rj :
  same_types r -> find name (r_devices r) = Some d -> types_of dv d' = types_of dv d ->
  same_types {| r_inst := i; r_epoch := ep; r_kf := kf;
                r_devices := modify name (fun _ => d') (r_devices r); r_traj := tr;
                r_sol := sl; r_accepted := ac; r_rejected := rj |}.
Proof.
  intros Hs Hf Hd' x. cbn [r_devices]. rewrite find_modify, <- Hs.
  destruct (String.eqb x name) eqn:Hx; [|reflexivity].
  apply String.eqb_eq in Hx as ->. rewrite Hf. cbn. now rewrite Hd'.
Qed.

(** One group of types. *)
Lemma window_ok m d types r r' :
  (length types <= n)%nat -> same_types r -> find (tracker m) (r_devices r) = Some d ->
  epoch e (state (r_inst r)) = Arc_Model.epoch m ->
  Z.abs (r_epoch r - Arc_Model.epoch m) < epoch_precision p ->
  ready e (r_inst r) ->
  win m d types r = Ok (r' : rn) ->
  same_types r' /\ epoch e (state (r_inst r')) = Arc_Model.epoch m /\
  r_epoch r' = r_epoch r /\ ready e (r_inst r') /\
  ((goes r [] r' /\ ~ always_answers dv) \/
   exists x, goes r [x] r' /\ is_update e dv n p a m (types_of dv d) x types).
Proof.
  intros Hl Hs Hf He Hq Hr. unfold process_window. intros Hw.
  apply bind_ok in Hw as (h & Hh & Hw). apply lift_ok in Hh.
  apply bind_ok in Hw as (c & Hcv & Hw). apply lift_ok in Hcv.
  destruct (measure dv d (r_epoch r) (r_traj r)) as [d' out] eqn:Hm.
  assert (Hd' : types_of dv d' = types_of dv d).
  { pose proof (Ht d (r_epoch r) (r_traj r)) as Hx. now rewrite Hm in Hx. }
  apply bind_ok in Hw as (seen & Ho & Hw). apply lift_ok in Ho. subst out.
  destruct seen as [seen|]; cbn [r_inst r_epoch r_kf r_devices r_traj r_sol r_accepted r_rejected] in Hw.
  2: { injection Hw as <-.
       split; [now apply (same_types_modify r _ d)|]. cbn [r_inst r_epoch].
       split; [exact He|]. split; [reflexivity|]. split; [exact Hr|].
       left. split; [now apply goes_nil|]. intros Ha. exact (Ha _ _ _ _ Hm). }
  apply bind_ok in Hw as (bias & Hb & Hw). apply lift_ok in Hb.
  set (computed := map _ _) in Hw.
  set (real := resolve_all _ _ _ _) in Hw.
  destruct (measurement_update _ _ _ _ _ _ _ _) as [kf upd] eqn:Hu.
  apply bind_ok in Hw as ([[est resid] gain] & Hx & Hw). apply lift_ok in Hx. subst upd.
  injection Hw as <-.
  destruct (date_msr e fo Hd _ _ _ _ _ _ _ _ _ _ _ Hu) as (He1 & He2).
  split; [now apply (same_types_modify r _ d)|]. cbn [r_inst r_epoch state with_state].
  split. { rewrite (clock_reset e so Hc). destruct (_ && _); congruence. }
  split; [reflexivity|]. split; [exact Hr|].
  right. exists (MeasurementUpdate (state (r_inst r)) (name_of dv d') types real computed c h).
  split.
  - eexists. split; [econstructor; [exact Hu|constructor]|]. reflexivity.
  - split; [reflexivity|]. split; [exact He|].
    exists (r_epoch r), d, (r_traj r), d', seen, bias.
    split; [exact Hq|]. split; [reflexivity|]. split; [reflexivity|]. split; [exact Hh|].
    split; [exact Hcv|]. split; [exact Hm|]. split; [exact Hb|].
    split; [|split].
    + intros i ty b Hi Hb'. unfold computed. apply minus_nth; [|exact Hb'].
      now apply observation_nth.
    + intros i ty cv Hi Hcc. unfold real. apply resolve_all_nth; [exact Hi| |exact Hcc].
      now apply observation_nth.
    + intros i Hi. unfold real. rewrite resolve_all_beyond by lia. now apply observation_beyond.
Qed.

Lemma any_available_iff types d : any_available types d = true <-> has_one d types.
Proof.
  unfold any_available, has_one. rewrite existsb_exists. split.
  - intros (t & H1 & H2). destruct (get t d) as [v|] eqn:Hg; [eauto|discriminate].
  - intros (t & v & H1 & H2). exists t. now rewrite H2.
Qed.

Lemma grouped_nil_inv {A} (gs : list (list A)) k : grouped k [] gs -> gs = [].
Proof.
  intros Hg. remember [] as l eqn:Hl. destruct Hg as [|l Hx|g l gs _ Hn _]; [reflexivity| |].
  - subst. cbn in Hx. lia.
  - apply app_eq_nil in Hl as (_ & Hl). congruence.
Qed.

(** All the groups. *)
Lemma windows_ok m all j : forall k r r', (0 < n)%nat ->
  same_types r -> option_map (types_of dv) (find (tracker m) (r_devices r)) = Some all ->
  epoch e (state (r_inst r)) = Arc_Model.epoch m ->
  Z.abs (r_epoch r - Arc_Model.epoch m) < epoch_precision p ->
  ready e (r_inst r) ->
  (length (skipn (k * n) all) <= j * n)%nat ->
  wins m all (seq k j) r = Ok (r' : rn) ->
  same_types r' /\ epoch e (state (r_inst r')) = Arc_Model.epoch m /\
  r_epoch r' = r_epoch r /\ ready e (r_inst r') /\
  exists groups usable used ups,
    grouped n (skipn (k * n) all) groups /\
    subsequence usable groups /\ Forall (has_one (obs m)) usable /\
    (forall g, List.In g groups -> has_one (obs m) g -> List.In g usable) /\
    subsequence used usable /\ (always_answers dv -> used = usable) /\
    Forall2 (is_update e dv n p a m all) ups used /\ goes r ups r'.
Proof.
  induction j as [|j IH]; intros k r r' Hn Hs Hf He Hq Hr Hl Hw.
  { cbn in Hw. injection Hw as <-.
    destruct (skipn (k * n) all) as [|y ys]; [|cbn in Hl; lia].
    do 4 (split; [assumption || reflexivity|]).
    exists [], [], [], []. split; [constructor|]. split; [constructor|]. split; [constructor|].
    split; [intros g []|]. split; [constructor|]. split; [reflexivity|]. split; [constructor|].
    now apply goes_nil. }
  cbn [seq process_windows] in Hw.
  destruct (firstn n (skipn (k * n) all)) as [|t0 ts] eqn:Hg.
  - injection Hw as <-.
    assert (Hnil : skipn (k * n) all = []).
    { destruct (skipn (k * n) all); [reflexivity|]. destruct n; [lia|discriminate]. }
    rewrite Hnil. do 4 (split; [assumption || reflexivity|]).
    exists [], [], [], []. split; [constructor|]. split; [constructor|]. split; [constructor|].
    split; [intros g []|]. split; [constructor|]. split; [reflexivity|]. split; [constructor|].
    now apply goes_nil.
  - assert (Hne : skipn (k * n) all <> []) by (intros Hx; rewrite Hx in Hg; now destruct n).
    set (g := t0 :: ts) in *.
    assert (Hsplit : skipn (k * n) all = g ++ skipn (S k * n) all).
    { rewrite <- (firstn_skipn n (skipn (k * n) all)), Hg. f_equal.
      rewrite skipn_skipn'. f_equal. lia. }
    assert (Hgl : (length g <= n)%nat) by (rewrite <- Hg; apply firstn_le_length).
    assert (Hgr : forall gs, grouped n (skipn (S k * n) all) gs ->
                  grouped n (skipn (k * n) all) (g :: gs)).
    { intros gs Hgs. rewrite Hsplit.
      destruct (skipn (S k * n) all) as [|y ys] eqn:Hrest.
      - apply grouped_nil_inv in Hgs as ->. rewrite app_nil_r. apply grouped_last.
        unfold g in *. cbn [length] in *. lia.
      - apply grouped_cons; [|discriminate|exact Hgs].
        assert (Hx : length (skipn (k * n) all) = (length g + length (skipn (S k * n) all))%nat)
          by (rewrite Hsplit at 1; now rewrite app_length, Hrest).
        rewrite Hrest in Hx. cbn [length] in Hx.
        rewrite <- Hg, firstn_length in *. lia. }
    assert (Hl' : (length (skipn (S k * n) all) <= j * n)%nat).
    { rewrite skipn_length in *. cbn [Nat.mul] in *. lia. }
    destruct (any_available g (obs m)) eqn:Hav.
    + destruct (find (tracker m) (r_devices r)) as [d|] eqn:Hfd; [|discriminate].
      cbn [option_map] in Hf. injection Hf as Hall.
      apply bind_ok in Hw as (r1 & Hw1 & Hw).
      destruct (window_ok m d g r r1 Hgl Hs Hfd He Hq Hr Hw1) as (S1 & S2 & S3 & S4 & S5).
      rewrite Hall in S5.
      destruct (IH (S k) r1 r' Hn S1) as (T1 & T2 & T3 & T4 & groups & usable & used & ups &
        U1 & U2 & U3 & U4 & U5 & U6 & U7 & U8); try assumption.
      { rewrite S1, <- (Hs (tracker m)), Hfd. cbn. now rewrite Hall. }
      { now rewrite S3. }
      split; [exact T1|]. split; [exact T2|]. split; [congruence|]. split; [exact T4|].
      apply any_available_iff in Hav.
      destruct S5 as [(S5 & S6)|(x & S5 & S6)].
      * exists (g :: groups), (g :: usable), used, ups.
        split; [now apply Hgr|]. split; [now constructor|]. split; [now constructor|].
        split. { intros g' [<-|Hi] Ho'; [now left|right; auto]. }
        split; [now constructor|]. split; [tauto|]. split; [exact U7|].
        exact (goes_app _ [] _ _ _ S5 U8).
      * exists (g :: groups), (g :: usable), (g :: used), (x :: ups).
        split; [now apply Hgr|]. split; [now constructor|]. split; [now constructor|].
        split. { intros g' [<-|Hi] Ho'; [now left|right; auto]. }
        split; [now constructor|]. split; [intros Ha; now rewrite (U6 Ha)|].
        split; [now constructor|].
        exact (goes_app _ [x] _ _ _ S5 U8).
    + destruct (IH (S k) r r' Hn Hs Hf He Hq Hr Hl' Hw) as (T1 & T2 & T3 & T4 & groups & usable &
        used & ups & U1 & U2 & U3 & U4 & U5 & U6 & U7 & U8).
      do 4 (split; [assumption|]).
      exists (g :: groups), usable, used, ups.
      split; [now apply Hgr|]. split; [now constructor|]. split; [exact U3|].
      split. { intros g' [<-|Hi] Ho'; [|auto]. apply any_available_iff in Ho'. congruence. }
      auto.
Qed.

(** One propagation. *)
Definition next_of (target : Z) (r : rn) : Z :=
  Z.min (Z.min (target - r_epoch r) (step_size (r_inst r))) (odp_max_step p).

Lemma step_ok pfuel target r r' :
  ready e (r_inst r) ->
  step_toward (Fe := Fe) (De := De) e o arrange p pfuel target r = Ok (r' : rn) ->
  epoch e (state (r_inst r')) = epoch e (state (r_inst r)) + next_of target r /\
  r_epoch r' = epoch e (state (r_inst r')) /\ ready e (r_inst r') /\
  r_kf r' = r_kf r /\ r_devices r' = r_devices r /\ r_sol r' = r_sol r.
Proof.
  intros Hr. unfold step_toward. fold (next_of target r). intros Hw.
  apply bind_ok in Hw as (s & Hs & Hw). apply lift_ok in Hs. injection Hw as <-.
  cbn [r_inst r_epoch r_kf r_devices r_sol].
  destruct (C01_stop_epoch _ _ _ _ e Hk _ _ _ _ Hs) as (H1 & H2).
  rewrite H2. split; [exact H1|]. split; [reflexivity|].
  split; [eapply for_duration_ready; eauto|]. auto.
Qed.

Lemma ready_step i : ready e i -> 0 < step_size i.
Proof. intros [H1|(_ & slop & H1 & H2 & H3 & _)]; [lia|]. pose proof (slop_pos e slop H1). lia. Qed.

Lemma update_ok nominal rej r r' :
  do_time_update (E := E) (De := De) so fo r nominal rej = Ok (r' : rn) ->
  epoch e (state (r_inst r')) = epoch e (state (r_inst r)) /\ r_epoch r' = r_epoch r /\
  (ready e (r_inst r) -> ready e (r_inst r')) /\ r_devices r' = r_devices r /\
  goes r [TimeUpdate nominal] r'.
Proof.
  unfold do_time_update. destruct (time_update fo (r_kf r) nominal) as [kf upd] eqn:Hu.
  intros Hw. apply bind_ok in Hw as (est & Hx & Hw). apply lift_ok in Hx. subst upd.
  injection Hw as <-. cbn [r_inst r_epoch r_devices with_state state].
  split; [apply (clock_reset e so Hc)|]. split; [reflexivity|]. split; [trivial|].
  split; [reflexivity|]. eexists. split; [econstructor; [exact Hu|constructor]|]. reflexivity.
Qed.

Lemma paced_one start step last s l :
  start < epoch e s <= start + step -> epoch e s <= last ->
  paced e (epoch e s) step last l -> paced (C := C) (H := H) e start step last (TimeUpdate s :: l).
Proof. cbn. auto. Qed.

(** At the measurement. *)
Lemma at_ok m r r' way start :
  same_types r -> r_epoch r = epoch e (state (r_inst r)) ->
  Z.abs (r_epoch r - Arc_Model.epoch m) < epoch_precision p ->
  ready e (r_inst r) ->
  paced e start (odp_max_step p) (Arc_Model.epoch m - epoch_precision p) way ->
  epoch e (state (r_inst r)) <= last_epoch e start way + odp_max_step p ->
  at_measurement (E := E) so fo dv n a crit m r = Ok (r' : rn) ->
  same_types r' /\ epoch e (state (r_inst r')) = Arc_Model.epoch m /\
  r_epoch r' = r_epoch r /\ ready e (r_inst r') /\
  exists calls, goes r calls r' /\
    visit e dv n p a (always_answers dv) start m (way ++ calls).
Proof.
  intros Hs Hq Hp Hr Hway Hlast. unfold at_measurement.
  set (r0 := {| r_inst := _ |}). 
  assert (Hr0 : ready e (r_inst r0)) by exact Hr.
  assert (Hs0 : same_types r0) by exact Hs.
  assert (He0 : epoch e (state (r_inst r0)) = Arc_Model.epoch m)
    by apply (clock_set e so Hc).
  assert (Hg0 : forall l r'', goes r0 l r'' -> goes r l r'') by (intros l r'' Hx; exact Hx).
  destruct (rejected m) eqn:Hrej.
  - intros Hw. destruct (update_ok _ _ _ _ Hw) as (H1 & H2 & H3 & H4 & H5).
    split; [intros x; rewrite H4; apply Hs0|]. split; [congruence|]. split; [exact H2|].
    split; [auto|]. eexists. split; [exact (Hg0 _ _ H5)|].
    apply visit_rejected; try assumption. now rewrite <- Hq.
  - assert (Hlt : Arc_Model.epoch m < last_epoch e start way + odp_max_step p + epoch_precision p)
      by lia.
    destruct (find (tracker m) (r_devices r0)) as [d|] eqn:Hfd.
    + destruct n as [|n'] eqn:Hn; [discriminate|]. rewrite <- Hn in *. intros Hw.
      pose proof (Hs0 (tracker m)) as Hty. rewrite Hfd in Hty. cbn [option_map] in Hty.
      destruct (find (tracker m) (devices p)) as [d0|] eqn:Hd0; [|discriminate].
      cbn [option_map] in Hty. injection Hty as Hty.
      destruct (windows_ok m (types_of dv d) (S (length (types_of dv d) / n)) 0 r0 r')
        as (T1 & T2 & T3 & T4 & groups & usable & used & ups & U1 & U2 & U3 & U4 & U5 & U6 & U7 & U8);
        try assumption.
      { lia. }
      { now rewrite Hfd. }
      { cbn [Nat.mul skipn]. pose proof (Nat.div_mod (length (types_of dv d)) n ltac:(lia)).
        pose proof (Nat.mod_upper_bound (length (types_of dv d)) n ltac:(lia)). nia. }
      split; [exact T1|]. split; [exact T2|]. split; [exact T3|]. split; [exact T4|].
      exists ups. split; [exact (Hg0 _ _ U8)|].
      cbn [Nat.mul skipn] in U1. rewrite Hty in U1, U7.
      eapply visit_known; eauto.
    + intros Hw. injection Hw as <-.
      split; [exact Hs0|]. split; [exact He0|]. split; [reflexivity|]. split; [exact Hr0|].
      exists []. split; [apply Hg0; now apply goes_nil|]. rewrite app_nil_r.
      apply visit_unknown; try assumption.
      pose proof (Hs0 (tracker m)) as Hty. rewrite Hfd in Hty. cbn in Hty.
      destruct (find (tracker m) (devices p)); [discriminate|reflexivity].
Qed.

(** Toward a measurement, after [way]. *)
Lemma advance_ok pfuel m fuel : forall r r' way start,
  0 < epoch_precision p -> 0 < odp_max_step p ->
  same_types r -> ready e (r_inst r) ->
  Z.abs (r_epoch r - epoch e (state (r_inst r))) < epoch_precision p ->
  paced e start (odp_max_step p) (Arc_Model.epoch m - epoch_precision p) way ->
  last_epoch e start way = epoch e (state (r_inst r)) ->
  advance e o arrange so fo dv n p a crit pfuel fuel m r = Ok (r' : rn) ->
  same_types r' /\ epoch e (state (r_inst r')) = Arc_Model.epoch m /\
  Z.abs (r_epoch r' - epoch e (state (r_inst r'))) < epoch_precision p /\
  ready e (r_inst r') /\
  exists calls, goes r calls r' /\
    visit e dv n p a (always_answers dv) start m (way ++ calls).
Proof.
  induction fuel as [|fuel IH]; intros r r' way start Hp Hmx Hs Hr Hq Hway Hlast Hw; [discriminate|].
  cbn [advance] in Hw. apply bind_ok in Hw as (r1 & Hw1 & Hw).
  destruct (step_ok _ _ _ _ Hr Hw1) as (E1 & E2 & E3 & E4 & E5 & E6).
  assert (Hg1 : goes r [] r1) by (now apply goes_nil).
  assert (Hs1 : same_types r1) by (intros x; rewrite E5; apply Hs).
  pose proof (ready_step _ Hr) as Hstep. unfold next_of in E1.
  destruct (Z.ltb_spec (Z.abs (epoch e (state (r_inst r1)) - Arc_Model.epoch m)) (epoch_precision p))
    as [Hc1|Hc1].
  - destruct (at_ok m r1 r' way start Hs1 E2 ltac:(lia) E3 Hway ltac:(lia) Hw)
      as (T1 & T2 & T3 & T4 & calls & T5 & T6).
    split; [exact T1|]. split; [exact T2|]. split; [lia|]. split; [exact T4|].
    exists calls. split; [exact (goes_app _ [] _ _ _ Hg1 T5)|exact T6].
  - apply bind_ok in Hw as (r2 & Hw2 & Hw).
    destruct (update_ok _ _ _ _ Hw2) as (F1 & F2 & F3 & F4 & F5).
    assert (Hle : epoch e (state (r_inst r)) < epoch e (state (r_inst r1)) <=
                  Arc_Model.epoch m - epoch_precision p) by lia.
    destruct (IH r2 r' (way ++ [TimeUpdate (state (r_inst r1))]) start Hp Hmx)
      as (T1 & T2 & T3 & T4 & calls & T5 & T6); try assumption.
    + intros x. rewrite F4. apply Hs1.
    + auto.
    + lia.
    + assert (Hx : epoch e (state (r_inst r1)) <= last_epoch e start way + odp_max_step p) by lia.
      rewrite <- Hlast in Hle. clear -Hway Hle Hx.
      revert start Hway Hle Hx. induction way as [|c way IH]; intros start; cbn [last_epoch app].
      * intros _ Hle Hx. apply paced_one; [lia|lia|exact I].
      * destruct c as [s|s name types real computed c h]; cbn [paced nominal_state]; [|tauto].
        intros (H1 & H2 & H3) Hle Hx. auto.
    + rewrite F1. clear. revert start. induction way as [|c way IH]; intros start; cbn; [reflexivity|].
      apply IH.
    + split; [exact T1|]. split; [exact T2|]. split; [exact T3|]. split; [exact T4|].
      exists (TimeUpdate (state (r_inst r1)) :: calls). rewrite <- app_assoc in T6.
      split; [|exact T6]. exact (goes_app _ [] _ _ _ Hg1 (goes_app _ [_] _ _ _ F5 T5)).
Qed.

Lemma measurements_ok pfuel fuel l : forall r r',
  0 < epoch_precision p -> 0 < odp_max_step p ->
  same_types r -> ready e (r_inst r) ->
  Z.abs (r_epoch r - epoch e (state (r_inst r))) < epoch_precision p ->
  process_measurements e o arrange so fo dv n p a crit pfuel fuel l r = Ok (r' : rn) ->
  exists calls, goes r calls r' /\
    visits e dv n p a (always_answers dv) (epoch e (state (r_inst r))) l calls.
Proof.
  induction l as [|m l IH]; intros r r' Hp Hmx Hs Hr Hq Hw; cbn [process_measurements] in Hw.
  - injection Hw as <-. exists []. split; [now apply goes_nil|reflexivity].
  - apply bind_ok in Hw as (r1 & Hw1 & Hw).
    destruct (advance_ok pfuel m fuel r r1 [] _ Hp Hmx Hs Hr Hq I eq_refl Hw1)
      as (T1 & T2 & T3 & T4 & now_ & T5 & T6).
    destruct (IH r1 r' Hp Hmx T1 T4 T3 Hw) as (later & U1 & U2).
    exists (now_ ++ later). split; [exact (goes_app _ _ _ _ _ T5 U1)|].
    cbn [visits]. exists now_, later. rewrite <- T2. auto.
Qed.
End Process.
