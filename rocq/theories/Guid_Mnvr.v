(** Properties of the maneuver setters (C66) and of the law that replays recorded commands
    (C67). *)
From Coq Require Import Reals Lra Sorted.
From Verif Require Import Base RustStd Vec3 Angles Poly_Model Sc_Model Guid_Model Guid_Props.
Local Open Scope R_scope.

(** ** C66: setters and getters of a maneuver *)

(** Everything of a maneuver but its direction. *)
Definition same_burn (m m' : maneuver) : Prop :=
  m_start m' = m_start m /\ m_end m' = m_end m /\ thrust_prct m' = thrust_prct m /\
  m_frame m' = m_frame m.

Lemma unit_not_nan v : norm v = 1 -> nan_angles v = false.
Proof.
  intros H. apply unit_dot in H. unfold nan_angles. destruct (Rle_dec (Rabs (vz v)) 1) as [_|N]; [reflexivity|].
  exfalso. apply N. apply Rabs_le. nra.
Qed.

Lemma unit_not_tiny v : norm v = 1 -> tiny v = false.
Proof.
  intros H. unfold tiny. rewrite H. pose proof EPSILON_small. destruct (Rlt_dec 1 EPSILON); [lra|reflexivity].
Qed.

Lemma set_direction_first m dir rate accel m' : norm dir = 1 ->
  set_direction_and_rates m dir rate accel = Ok m' -> m_direction m' = Ok dir /\ same_burn m m'.
Proof.
  intros Hn H. unfold set_direction_and_rates in H. rewrite (unit_not_nan _ Hn) in H.
  destruct (ra_dec_from_unit_vector dir) as [al de] eqn:Ed.
  destruct (C43_ra_dec_roundtrip _ _ _ Hn Ed) as (Eu & _ & _).
  assert (K : exists r, m' = with_repr m r /\ m_direction (with_repr m r) = Ok dir).
  { destruct (tiny rate && tiny accel).
    - exists (Vector dir). split; [congruence|]. unfold m_direction. cbn [representation with_repr].
      rewrite Hn. f_equal. unfold vscale. destruct dir as [x y z]. cbn [vx vy vz]. f_equal; field.
    - destruct (nan_angles rate); [discriminate|].
      destruct (ra_dec_from_unit_vector rate) as [al1 de1].
      destruct (tiny accel).
      + eexists. split; [injection H as <-; reflexivity|]. unfold m_direction. cbn. now rewrite Eu.
      + destruct (nan_angles accel); [discriminate|].
        destruct (ra_dec_from_unit_vector accel) as [al2 de2].
        eexists. split; [injection H as <-; reflexivity|]. unfold m_direction. cbn. now rewrite Eu. }
  destruct K as (r & -> & K). split; [exact K|]. repeat split.
Qed.

(** Setting a unit direction is read back and leaves the times, the level and the frame. *)
Theorem C66_set_direction : forall m v m', norm v = 1 -> set_direction m v = Ok m' ->
  m_direction m' = Ok v /\ same_burn m m'.
Proof.
  intros m v m' Hn H. unfold set_direction in H.
  destruct (m_rate m) as [r| | |]; try discriminate. cbn [bind] in H.
  destruct (m_accel m) as [a| | |]; try discriminate. cbn [bind] in H.
  eapply set_direction_first; eauto.
Qed.

(** The two angles have the same degree, as after any of the setters. *)
Definition matched (m : maneuver) : Prop :=
  match representation m with
  | Vector _ => True
  | Angles az el => forall n, (exists a, coeff_in_order az n = Ok a) <-> (exists d, coeff_in_order el n = Ok d)
  end.

Lemma m_coeff_matched m n : matched m ->
  m_coeff m n = Ok vzero \/ exists v, m_coeff m n = Ok v /\ norm v = 1.
Proof.
  intros H. unfold m_coeff, matched in *. destruct (representation m) as [v|az el]; [now left|].
  specialize (H n). destruct (coeff_in_order az n) as [a| | |]; [|now left|now left|now left].
  destruct H as [H _]. destruct (H ltac:(eauto)) as [d Hd]. rewrite Hd. right.
  eexists. split; [reflexivity|apply C43_ra_dec_unit].
Qed.

Lemma zero_not_nan : nan_angles vzero = false.
Proof. unfold nan_angles, vzero. cbn [vz]. rewrite Rabs_R0. destruct (Rle_dec 0 1); [reflexivity|lra]. Qed.

Theorem C66_set_direction_succeeds : forall m v, matched m -> norm v = 1 ->
  exists m', set_direction m v = Ok m' /\ matched m'.
Proof.
  intros m v Hm Hn. unfold set_direction, m_rate, m_accel.
  assert (K : forall n, exists w, m_coeff m n = Ok w /\ nan_angles w = false).
  { intros n. destruct (m_coeff_matched m n Hm) as [E|(w & E & W)].
    - exists vzero. split; [exact E|apply zero_not_nan].
    - exists w. split; [exact E|now apply unit_not_nan]. }
  destruct (K 1%nat) as (r & Er & Nr). destruct (K 2%nat) as (a & Ea & Na).
  rewrite Er, Ea. cbn [bind]. unfold set_direction_and_rates. rewrite Nr, Na, (unit_not_nan _ Hn).
  destruct (tiny r && tiny a); [eexists; split; [reflexivity|exact I]|].
  destruct (ra_dec_from_unit_vector v), (ra_dec_from_unit_vector r), (ra_dec_from_unit_vector a).
  destruct (tiny a); (eexists; split; [reflexivity|]); cbn;
    intros [|[|[|n]]]; split; intros [x Hx]; try discriminate; eexists; reflexivity.
Qed.

(** Setting the direction of a turning maneuver keeps its rates and accelerations, as long
    as these are angles in the principal range. *)
Definition principal (alpha delta : R) : Prop := - PI < alpha <= PI /\ - (PI / 2) < delta < PI / 2.

Theorem C66_set_direction_keeps_rates : forall m v m' a1 a0 d1 d0, norm v = 1 ->
  representation m = Angles (Linear a1 a0) (Linear d1 d0) -> principal a1 d1 ->
  set_direction m v = Ok m' ->
  exists a d, representation m' = Angles (Linear a1 a) (Linear d1 d) /\ unit_vector_from_ra_dec a d = v.
Proof.
  intros m v m' a1 a0 d1 d0 Hn Hr [Pa Pd] H. unfold set_direction, m_rate, m_accel, m_coeff in H.
  rewrite Hr in H. cbn [coeff_in_order bind] in H. unfold set_direction_and_rates in H.
  rewrite (unit_not_nan _ Hn) in H. rewrite (unit_not_tiny _ (C43_ra_dec_unit a1 d1)) in H.
  cbn [andb] in H. destruct (ra_dec_from_unit_vector v) as [a d] eqn:Ev.
  rewrite (unit_not_nan _ (C43_ra_dec_unit a1 d1)) in H.
  rewrite (C43_ra_dec_angles a1 d1 Pa Pd) in H.
  replace (tiny vzero) with true in H.
  2: { symmetry. unfold tiny. replace (norm vzero) with 0.
       - pose proof EPSILON_pos. destruct (Rlt_dec 0 EPSILON); [reflexivity|lra].
       - symmetry. unfold norm, dot, vzero. cbn [vx vy vz]. replace (0*0+0*0+0*0) with 0 by ring. apply sqrt_0. }
  exists a, d. split; [injection H as <-; reflexivity|]. now apply (C43_ra_dec_roundtrip v a d Hn).
Qed.

(** A unit rate is read back and keeps the direction. *)
Theorem C66_set_unit_rate : forall m dir v m', m_direction m = Ok dir -> norm dir = 1 -> norm v = 1 ->
  set_rate m v = Ok m' -> m_rate m' = Ok v /\ m_direction m' = Ok dir /\ same_burn m m'.
Proof.
  intros m dir v m' Hd Nd Nv H. unfold set_rate in H. rewrite Hd in H. cbn [bind] in H.
  destruct (m_accel m) as [a| | |]; try discriminate. cbn [bind] in H.
  destruct (set_direction_first _ _ _ _ _ Nd H) as [K S]. split; [|auto].
  unfold set_direction_and_rates in H. rewrite (unit_not_nan _ Nd), (unit_not_nan _ Nv), (unit_not_tiny _ Nv) in H.
  cbn [andb] in H. destruct (ra_dec_from_unit_vector dir) as [al de].
  destruct (ra_dec_from_unit_vector v) as [al1 de1] eqn:Ev.
  destruct (C43_ra_dec_roundtrip _ _ _ Nv Ev) as (Eu & _ & _).
  destruct (tiny a).
  - injection H as <-. unfold m_rate, m_coeff. cbn. now rewrite Eu.
  - destruct (nan_angles a); [discriminate|]. destruct (ra_dec_from_unit_vector a) as [al2 de2].
    injection H as <-. unfold m_rate, m_coeff. cbn. now rewrite Eu.
Qed.

Definition still_burn : maneuver := from_time_invariant 0 10000000000 1 (V3 1 0 0) INERTIAL.

(** A rate which is not a unit vector is not read back; here the maneuver does not even turn. *)
Theorem C66_rate_readback_refuted : exists m v m', 0 < norm v /\ set_rate m v = Ok m' /\
  m_rate m' <> Ok v /\ (forall ep, m_vector m' ep = m_vector m ep).
Proof.
  exists still_burn, (V3 (1/1000) 0 0),
    (with_repr still_burn (Angles (Linear 0 0) (Linear 0 0))).
  assert (N1 : norm (V3 1 0 0) = 1).
  { unfold norm, dot. cbn [vx vy vz]. replace (1*1+0*0+0*0) with 1 by ring. apply sqrt_1. }
  assert (N2 : norm (V3 (1/1000) 0 0) = 1/1000).
  { unfold norm, dot. cbn [vx vy vz]. replace (1/1000*(1/1000)+0*0+0*0) with ((1/1000)*(1/1000)) by ring.
    apply sqrt_square. lra. }
  assert (A0 : asin 0 = 0) by apply asin_0.
  assert (T : forall c, 0 < c -> atan2 0 c = 0).
  { intros c Hc. pose proof PI_RGT_0. pose proof (atan2_polar c 0 Hc ltac:(lra)) as P.
    rewrite sin_0, cos_0, Rmult_0_r, Rmult_1_r in P. exact P. }
  assert (EPS : EPSILON < 1/1000).
  { unfold EPSILON. apply (Rmult_lt_reg_l (2^52)); [apply pow_lt; lra|]. rewrite Rinv_r by (apply pow_nonzero; lra).
    lra. }
  assert (U0 : unit_vector_from_ra_dec 0 0 = V3 1 0 0).
  { unfold unit_vector_from_ra_dec. rewrite sin_0, cos_0. f_equal; ring. }
  split; [lra|]. split; [|split].
  - unfold set_rate, m_direction, m_accel, m_coeff. cbn [still_burn from_time_invariant representation bind].
    rewrite N1. replace (vscale (/ 1) (V3 1 0 0)) with (V3 1 0 0)
      by (unfold vscale; cbn [vx vy vz]; f_equal; field).
    unfold set_direction_and_rates.
    rewrite (unit_not_nan _ N1).
    replace (tiny (V3 (1/1000) 0 0)) with false
      by (unfold tiny; rewrite N2; destruct (Rlt_dec (1/1000) EPSILON); [lra|reflexivity]).
    cbn [andb]. unfold ra_dec_from_unit_vector. cbn [vx vy vz].
    replace (nan_angles (V3 (1/1000) 0 0)) with false
      by (unfold nan_angles; cbn [vz]; rewrite Rabs_R0; destruct (Rle_dec 0 1); [reflexivity|lra]).
    rewrite A0, !T by lra.
    replace (tiny vzero) with true; [reflexivity|].
    symmetry. unfold tiny. replace (norm vzero) with 0.
    + pose proof EPSILON_pos. destruct (Rlt_dec 0 EPSILON); [reflexivity|lra].
    + symmetry. unfold norm, dot, vzero. cbn [vx vy vz]. replace (0*0+0*0+0*0) with 0 by ring. apply sqrt_0.
  - unfold m_rate, m_coeff. cbn [with_repr representation coeff_in_order]. rewrite U0.
    intros E. assert (X : 1 = 1/1000) by congruence. lra.
  - intros ep. unfold m_vector. cbn [with_repr representation still_burn from_time_invariant m_start].
    unfold common_eval, eval, eval_n_deriv. cbn [to_polynomial last skipn rev app fold_left bind fst].
    replace (seconds (ep - 0) * 0 + 0) with 0 by ring. now rewrite U0.
Qed.

(** The direction of a turning maneuver is where it points at its start. *)
Theorem C66_direction_at_start : forall m az el, representation m = Angles az el ->
  m_vector m (m_start m) = m_direction m.
Proof.
  intros m az el H. unfold m_vector, m_direction. rewrite H.
  replace (seconds (m_start m - m_start m)) with 0
    by (rewrite Z.sub_diag; unfold seconds; cbn [IZR]; field).
  assert (K : forall p, exists c, common_eval p 0 = Ok c /\ coeff_in_order p 0 = Ok c).
  { intros p. unfold common_eval, eval.
    destruct p as [a|a b|a b c]; cbn [to_polynomial eval_n_deriv last skipn rev app fold_left bind coeff_in_order].
    - exists a. auto.
    - exists b. split; [f_equal; cbn [fst]; ring|reflexivity].
    - exists c. split; [unfold horner_step; cbn [bind fst]; f_equal; ring|reflexivity]. }
  destruct (K az) as (a & E1 & E2), (K el) as (d & E3 & E4). now rewrite E1, E2, E3, E4.
Qed.

(** A maneuver with a fixed vector is commanded along that vector, normalized or not: its
    direction and its command differ. *)
Theorem C66_fixed_vector_not_normalized_refuted : exists m, m_vector m (m_start m) <> m_direction m.
Proof.
  exists (from_impulsive 0 (V3 (1/100) 0 0) INERTIAL). unfold m_vector, m_direction.
  cbn [from_impulsive from_time_invariant representation]. intros E.
  assert (X : 1/100 = / norm (V3 (1/100) 0 0) * (1/100)) by (unfold vscale in E; cbn [vx vy vz] in E; congruence).
  replace (norm (V3 (1/100) 0 0)) with (1/100) in X.
  - rewrite Rinv_l in X; lra.
  - symmetry. unfold norm, dot. cbn [vx vy vz]. replace (1/100*(1/100)+0*0+0*0) with ((1/100)*(1/100)) by ring.
    apply sqrt_square. lra.
Qed.

(** A maneuver is antichronological exactly when it ends more than a microsecond before it
    starts. *)
Theorem C66_antichronological : forall m,
  antichronological m = true <-> (m_end m < m_start m - 1000)%Z.
Proof.
  intros m. unfold antichronological, m_duration, MICROSECOND.
  rewrite andb_true_iff, !Z.ltb_lt. lia.
Qed.

Example C66_set_direction_case : exists m',
  set_direction (with_repr still_burn (Angles (Linear (1/100) 0) (Linear 0 0))) (V3 0 1 0) = Ok m' /\
  matched m'.
Proof.
  apply C66_set_direction_succeeds.
  - intros [|[|[|n]]]; split; intros [x Hx]; try discriminate; eexists; reflexivity.
  - unfold norm, dot. cbn [vx vy vz]. replace (0*0+1*1+0*0) with 1 by ring. apply sqrt_1.
Qed.

(** ** C67: replaying recorded commands *)

Definition at_ (s : spacecraft) : Z := epoch (sc_orbit s).

(** The states of a recorded profile are in strictly increasing order of epoch, as those of
    a trajectory after [finalize]. *)
Definition recorded (l : list spacecraft) : Prop := StronglySorted (fun a b => (at_ a < at_ b)%Z) l.

(** [c] is the last state recorded at or before [ep]. *)
Definition in_force (l : list spacecraft) (ep : Z) (c : spacecraft) : Prop :=
  In c l /\ (at_ c <= ep)%Z /\ forall s, In s l -> (at_ s <= ep)%Z -> (at_ s <= at_ c)%Z.

Lemma recorded_nth l : recorded l -> forall i j a b, nth_error l i = Some a -> nth_error l j = Some b ->
  (i < j)%nat -> (at_ a < at_ b)%Z.
Proof.
  intros H. induction H as [|x l H IH Hx]; intros [|i] [|j] a b Ha Hb Hij; cbn in *; try discriminate; try lia.
  - injection Ha as ->. rewrite Forall_forall in Hx. apply Hx. eapply nth_error_In; eauto.
  - eapply IH; eauto. lia.
Qed.

Lemma recorded_search l ep : recorded l -> searchable (fun s => (at_ s ?= ep)%Z) l.
Proof.
  intros H i j Hij. unfold cmp_at.
  destruct (nth_error l i) as [x|] eqn:Ex; [|apply nth_error_None in Ex; lia].
  destruct (nth_error l j) as [y|] eqn:Ey; [|apply nth_error_None in Ey; lia].
  assert (at_ x <= at_ y)%Z.
  { destruct (Nat.eq_dec i j) as [->|]; [assert (x = y) by congruence; subst; lia|].
    pose proof (recorded_nth _ H i j x y Ex Ey). lia. }
  destruct (Z.compare_spec (at_ x) ep), (Z.compare_spec (at_ y) ep); cbn; lia.
Qed.

Lemma in_nth (l : list spacecraft) s : In s l -> exists i, nth_error l i = Some s.
Proof. intros H. now apply In_nth_error. Qed.

Lemma last_nth (l : list spacecraft) d : l <> [] -> nth_error l (length l - 1) = Some (List.last l d).
Proof.
  induction l as [|x [|y l] IH]; intros H; [congruence|reflexivity|].
  cbn [length List.last]. replace (S (S (length l)) - 1)%nat with (S (S (length l) - 1)) by lia.
  cbn [nth_error]. apply IH. discriminate.
Qed.

(** The state the binary search of the law designates. *)
Lemma searched_command first rest ep : recorded (first :: rest) ->
  (at_ first <= ep)%Z ->
  exists c, in_force (first :: rest) ep c /\
  match binary_search_by (fun s => (at_ s ?= ep)%Z) (first :: rest) with
  | inl idx => nth_error (first :: rest) idx
  | inr O => None
  | inr (S idx) => nth_error (first :: rest) idx
  end = Some c.
Proof.
  intros H Hf. set (l := first :: rest) in *.
  pose proof (binary_search_spec _ l (recorded_search l ep H)) as B.
  destruct (binary_search_by _ l) as [idx|idx].
  - destruct B as [B1 B2]. unfold cmp_at in B2. destruct (nth_error l idx) as [s|] eqn:Es; [|discriminate].
    exists s. split; [|reflexivity]. apply Z.compare_eq in B2. split; [eapply nth_error_In; eauto|]. split; lia.
  - destruct B as (B1 & B2 & B3). destruct idx as [|i].
    + exfalso. specialize (B3 0%nat ltac:(cbn; lia)). unfold cmp_at, l in B3. cbn in B3.
      rewrite Z.compare_gt_iff in B3. lia.
    + destruct (nth_error l i) as [s|] eqn:Es; [|apply nth_error_None in Es; lia].
      exists s. split; [|reflexivity]. split; [eapply nth_error_In; eauto|].
      pose proof (B2 i ltac:(lia)) as Bi. unfold cmp_at in Bi. rewrite Es in Bi.
      rewrite Z.compare_lt_iff in Bi. split; [lia|].
      intros s' Hs' Le. destruct (in_nth _ _ Hs') as [j Hj].
      destruct (le_lt_dec j i) as [L|L].
      * destruct (Nat.eq_dec j i) as [->|]; [assert (s = s') by congruence; subst; lia|].
        pose proof (recorded_nth _ H j i _ _ Hj Es). lia.
      * specialize (B3 j). assert (Lj : (j < length l)%nat) by (apply nth_error_Some; congruence).
        specialize (B3 ltac:(lia)). unfold cmp_at in B3. rewrite Hj in B3. rewrite Z.compare_gt_iff in B3. lia.
Qed.

(** Within the span of the profile the law commands the direction recorded in the last state
    at or before the epoch, and coasts if that state has none -- unless that state is a
    thrusting one whose direction was not recorded in a profile that starts thrusting. *)
Theorem C67_replay_in_force : forall profile ep c first, recorded profile ->
  hd_error profile = Some first -> in_force profile ep c ->
  (ep <= at_ (List.last profile first))%Z ->
  (thrust_direction c <> None \/ mode c <> Thrust \/ mode first <> Thrust) ->
  replayed profile ep = thrust_direction c.
Proof.
  intros [|first rest] ep c f0 H E (Ic & Lc & Mc) Hl Hk; [discriminate|].
  cbn in E. assert (f0 = first) by congruence. subst f0. clear E.
  assert (Hf : (at_ first <= ep)%Z).
  { destruct (in_nth _ _ Ic) as [[|j] Hj]; cbn in Hj.
    - assert (first = c) by congruence. subst. lia.
    - pose proof (recorded_nth _ H 0 (S j) first c eq_refl Hj). lia. }
  destruct (searched_command first rest ep H Hf) as (c' & (Ic' & Lc' & Mc') & S).
  assert (Ecc : c' = c).
  { pose proof (Mc _ Ic' Lc'). pose proof (Mc' _ Ic Lc).
    destruct (in_nth _ _ Ic) as [i Hi], (in_nth _ _ Ic') as [j Hj].
    destruct (Nat.lt_trichotomy i j) as [L|[L|L]].
    - pose proof (recorded_nth _ H _ _ _ _ Hi Hj L). lia.
    - subst j. congruence.
    - pose proof (recorded_nth _ H _ _ _ _ Hj Hi L). lia. }
  subst c'. unfold replayed, command_at_or_before.
  replace ((ep <? epoch (sc_orbit first))%Z || (epoch (sc_orbit (List.last (first :: rest) first)) <? ep)%Z)
    with false.
  2: { symmetry. apply orb_false_iff. split; apply Z.ltb_ge; unfold at_ in *; lia. }
  unfold at_ in S. rewrite S.
  destruct (thrust_direction c) as [d|] eqn:Ed.
  - cbn [is_some orb]. now rewrite Ed.
  - cbn [is_some orb].
    destruct (negb (mode_eqb (mode c) Thrust)) eqn:Em; [now rewrite Ed|].
    destruct (mode_eqb (mode first) Thrust) eqn:Ef; [|now rewrite Ed].
    exfalso. destruct Hk as [Hk|[Hk|Hk]]; [congruence| |]; apply Hk.
    + destruct (mode c); try discriminate; reflexivity.
    + destruct (mode first); try discriminate; reflexivity.
Qed.

(** In that remaining case the law looks ahead: the next recorded direction is commanded. *)
Theorem C67_replay_looks_ahead : forall profile ep c first d, recorded profile ->
  hd_error profile = Some first -> in_force profile ep c ->
  thrust_direction c = None -> mode c = Thrust -> mode first = Thrust ->
  replayed profile ep = Some d ->
  exists s, In s profile /\ (ep <= at_ s)%Z /\ thrust_direction s = Some d /\
            forall s', In s' profile -> (ep <= at_ s' < at_ s)%Z -> thrust_direction s' = None.
Proof.
  intros [|first rest] ep c f0 d H E (Ic & Lc & Mc) Dc Kc Kf R; [discriminate|].
  cbn in E. assert (f0 = first) by congruence. subst f0. clear E.
  unfold replayed, command_at_or_before in R.
  destruct ((ep <? epoch (sc_orbit first))%Z || (epoch (sc_orbit (List.last (first :: rest) first)) <? ep)%Z);
    [discriminate|].
  assert (Hf : (at_ first <= ep)%Z).
  { destruct (in_nth _ _ Ic) as [[|j] Hj]; cbn in Hj.
    - assert (first = c) by congruence. subst. lia.
    - pose proof (recorded_nth _ H 0 (S j) first c eq_refl Hj). lia. }
  destruct (searched_command first rest ep H Hf) as (c' & (Ic' & Lc' & Mc') & S).
  assert (Ecc : c' = c).
  { pose proof (Mc _ Ic' Lc'). pose proof (Mc' _ Ic Lc).
    destruct (in_nth _ _ Ic) as [i Hi], (in_nth _ _ Ic') as [j Hj].
    destruct (Nat.lt_trichotomy i j) as [L|[L|L]].
    - pose proof (recorded_nth _ H _ _ _ _ Hi Hj L). lia.
    - subst j. congruence.
    - pose proof (recorded_nth _ H _ _ _ _ Hj Hi L). lia. }
  subst c'. unfold at_ in S. rewrite S in R. rewrite Dc in R. cbn [is_some orb] in R.
  rewrite Kc, Kf in R. cbn [mode_eqb negb] in R.
  clear - R H. revert R. unfold recorded in H. revert H. generalize (first :: rest) as l.
  induction l as [|x l IH]; intros H R; cbn [find] in R; [discriminate|].
  inversion H as [|? ? Hl Hx]; subst. rewrite Forall_forall in Hx.
  destruct ((ep <=? epoch (sc_orbit x))%Z && is_some (thrust_direction x)) eqn:Ex.
  - apply andb_true_iff in Ex. destruct Ex as [E1 _]. apply Z.leb_le in E1.
    exists x. repeat split; [now left|exact E1|exact R|].
    intros s' [<-|Hs'] Le; [lia|]. specialize (Hx _ Hs'). unfold at_ in *. lia.
  - destruct (IH Hl R) as (s & S1 & S2 & S3 & S4). exists s. repeat split; auto; [now right|].
    intros s' [<-|Hs'] Le; [|auto].
    apply andb_false_iff in Ex. destruct Ex as [Ex|Ex].
    + apply Z.leb_gt in Ex. unfold at_ in Le. lia.
    + destruct (thrust_direction x); [discriminate|reflexivity].
Qed.

(** Outside of the span of the profile the law coasts. *)
Theorem C67_replay_outside : forall profile ep first, hd_error profile = Some first ->
  (ep < at_ first \/ at_ (List.last profile first) < ep)%Z -> replayed profile ep = None.
Proof.
  intros [|first rest] ep f0 E H; [discriminate|]. cbn in E. assert (f0 = first) by congruence. subst f0.
  unfold replayed, command_at_or_before.
  replace ((ep <? epoch (sc_orbit first))%Z || (epoch (sc_orbit (List.last (first :: rest) first)) <? ep)%Z)
    with true; [reflexivity|].
  symmetry. apply orb_true_iff. unfold at_ in H. rewrite !Z.ltb_lt. exact H.
Qed.

(** The mode, the throttle and the recorded direction the law sets follow that command. *)
Theorem C67_replay_mode : forall profile osc osc', replay_next profile osc = Ok osc' ->
  (forall d, replayed profile (at_ osc) = Some d -> norm d = 1 -> thrust_direction osc' = Some d) /\
  (replayed profile (at_ osc) = None -> thrust_direction osc' = None) /\
  (mode osc' = Thrust <-> replayed profile (at_ osc) <> None) /\
  (mode osc' = Coast <-> replayed profile (at_ osc) = None) /\
  replay_throttle profile osc = Ok (match replayed profile (at_ osc) with Some _ => 1 | None => 0 end) /\
  at_ osc' = at_ osc.
Proof.
  intros p o o' H. unfold replay_next in H.
  match type of H with Ok ?x = _ => assert (E : o' = x) by congruence; rewrite E end. clear.
  unfold replay_throttle, at_. destruct (replayed p (epoch (sc_orbit o))) as [d|]; cbn;
    repeat split; intros; try congruence.
  assert (d = d0) by congruence. subst d0. rewrite H0. f_equal.
  unfold vscale. destruct d as [x y z]. cbn [Vec3.vx Vec3.vy Vec3.vz]. f_equal; field.
Qed.

Definition beacon (ep : Z) (m : guidance_mode) (d : option v3) : spacecraft :=
  Spacecraft (Orbit ep 0 (V3 7000 0 0) (V3 0 7 0)) 100 50 0 1 (18/10) 2 (22/10)
    (Some (Thruster 1 300)) m d None.

Example C67_profile :
  let profile := [beacon 0 Coast None; beacon 10 Thrust (Some (V3 1 0 0)); beacon 20 Coast None] in
  recorded profile /\ in_force profile 15 (beacon 10 Thrust (Some (V3 1 0 0))) /\
  replayed profile 15 = Some (V3 1 0 0) /\ replayed profile 20 = None /\ replayed profile 25 = None.
Proof.
  cbv zeta. split; [|split; [|split; [reflexivity|split; reflexivity]]].
  - repeat constructor; cbn; lia.
  - split; [cbn; auto|]. split; [cbn; lia|]. intros s [<-|[<-|[<-|[]]]]; cbn; lia.
Qed.

Print Assumptions C66_set_direction.
Print Assumptions C66_set_direction_succeeds.
Print Assumptions C66_set_direction_keeps_rates.
Print Assumptions C66_set_unit_rate.
Print Assumptions C66_rate_readback_refuted.
Print Assumptions C66_direction_at_start.
Print Assumptions C66_fixed_vector_not_normalized_refuted.
Print Assumptions C66_antichronological.
Print Assumptions C67_replay_in_force.
Print Assumptions C67_replay_looks_ahead.
Print Assumptions C67_replay_outside.
Print Assumptions C67_replay_mode.
