From Coq Require Import Reals.
From Verif Require Import Base RustStd Prop_Model Prop_Spec Traj_Model Traj_Spec.
Local Open Scope Z_scope.

Section Proofs.
Context {S F : Type} (o : state_ops S F).
Notation ep := (st_epoch o).
Notation leb := (key_leb ep).
Notation chron := (chronological ep).
Notation schron := (strictly_chronological ep).

Lemma ordered_chron l : ordered leb l <-> chron l.
Proof.
  induction l as [|x l IH]; cbn; [split; [trivial|constructor]|]. split.
  - inversion 1 as [|? ? H1 H2]; subst. rewrite Forall_forall in H2. split; [|now apply IH].
    intros y Hy. apply Z.leb_le. now apply H2.
  - intros [H1 H2]. constructor; [now apply IH|]. rewrite Forall_forall. intros y Hy.
    apply Z.leb_le. auto.
Qed.
Lemma schron_chron l : schron l -> chron l.
Proof.
  induction l as [|x l IH]; cbn; [trivial|]. intros [H1 H2]. split; [|auto].
  intros y Hy. specialize (H1 y Hy). lia.
Qed.

Definition same (a b : S) : bool := ep a =? ep b.

Lemma finalize_unfold l : finalize o l = sort_by leb (dedup_by same l).
Proof. reflexivity. Qed.

Lemma finalize_chron l : chron (finalize o l).
Proof. apply ordered_chron. apply sort_sorted; [apply key_total|apply key_trans]. Qed.

Lemma finalize_in x l : In x (finalize o l) -> In x l.
Proof. rewrite finalize_unfold, sort_in. apply dedup_in. Qed.

Lemma dedup_after_epoch l : forall last x, In x l ->
  ep x = ep last \/ exists y, In y (dedup_after same last l) /\ ep y = ep x.
Proof.
  induction l as [|a l IH]; intros last x Hx; [destruct Hx|]. cbn [dedup_after].
  unfold same at 1. destruct (Z.eqb_spec (ep a) (ep last)) as [E|E].
  - destruct Hx as [->|Hx]; [now left|]. destruct (IH last x Hx) as [H|H]; [left; lia|now right].
  - destruct Hx as [->|Hx].
    + right. exists x. split; [now left|reflexivity].
    + destruct (IH a x Hx) as [H|(y & H1 & H2)].
      * right. exists a. split; [now left|congruence].
      * right. exists y. split; [now right|assumption].
Qed.

Lemma finalize_epochs l x : In x l -> exists y, In y (finalize o l) /\ ep y = ep x.
Proof.
  intros Hx.
  assert (H : exists y, In y (dedup_by same l) /\ ep y = ep x).
  { destruct l as [|a l]; [destruct Hx|]. cbn [dedup_by].
    destruct Hx as [->|Hx]; [exists x; split; [now left|reflexivity]|].
    destruct (dedup_after_epoch l a x Hx) as [H|(y & H1 & H2)].
    - exists a. split; [now left|congruence].
    - exists y. split; [now right|assumption]. }
  destruct H as (y & H1 & H2). exists y. split; [|assumption].
  rewrite finalize_unfold, sort_in. exact H1.
Qed.

Lemma grouped_tail a l : grouped ep (a :: l) -> grouped ep l.
Proof. intros G pre x mid y post E. apply (G (a :: pre) x mid y post). now rewrite E. Qed.

Lemma dedup_after_nodup l : forall last, grouped ep (last :: l) ->
  NoDup (map ep (last :: dedup_after same last l)).
Proof.
  induction l as [|a l IH]; intros last G; cbn [dedup_after]; [repeat constructor; auto|].
  unfold same at 1. destruct (Z.eqb_spec (ep a) (ep last)) as [E|E].
  - apply IH. intros pre x mid y post Hl Hxy z Hz.
    destruct pre as [|p pre].
    + cbn in Hl. injection Hl as <- ->.
      apply (G [] last (a :: mid) y post); [reflexivity|assumption|now right].
    + cbn in Hl. injection Hl as -> ->.
      apply (G (p :: a :: pre) x mid y post); [reflexivity|assumption|assumption].
  - pose proof (IH a (grouped_tail _ _ G)) as ND. cbn [map]. constructor; [|exact ND].
    intros HI. apply (in_map_iff ep (a :: dedup_after same a l)) in HI.
    destruct HI as (y & E1 & [->|Hy]); [congruence|].
    apply dedup_after_in in Hy. apply in_split in Hy. destruct Hy as (m1 & m2 & ->).
    apply E. apply (G [] last (a :: m1) y m2); [reflexivity|congruence|now left].
Qed.

Lemma dedup_nodup l : grouped ep l -> NoDup (map ep (dedup_by same l)).
Proof. destruct l as [|a l]; [constructor|]. apply dedup_after_nodup. Qed.

Lemma finalize_nodup l : grouped ep l -> NoDup (map ep (finalize o l)).
Proof.
  intros G. eapply Permutation_NoDup; [|apply (dedup_nodup l G)].
  apply Permutation_map. apply sort_perm.
Qed.

Lemma chron_nodup_strict l : chron l -> NoDup (map ep l) -> schron l.
Proof.
  induction l as [|x l IH]; cbn; [trivial|]. intros [H1 H2] N. inversion N as [|? ? N1 N2]; subst.
  split; [|auto]. intros y Hy. specialize (H1 y Hy).
  assert (ep x <> ep y) by (intros Q; apply N1; rewrite Q; now apply in_map). lia.
Qed.
Lemma schron_nodup l : schron l -> NoDup (map ep l).
Proof.
  induction l as [|x l IH]; cbn; [constructor|]. intros [H1 H2]. constructor; [|auto].
  intros HI. apply in_map_iff in HI. destruct HI as (y & E & Hy). specialize (H1 y Hy). lia.
Qed.

Lemma dedup_after_id l : forall last, ~ In (ep last) (map ep l) -> NoDup (map ep l) ->
  dedup_after same last l = l.
Proof.
  induction l as [|a l IH]; intros last H1 H2; [reflexivity|]. cbn [dedup_after].
  unfold same at 1. destruct (Z.eqb_spec (ep a) (ep last)) as [E|E].
  - exfalso. apply H1. left. exact E.
  - inversion H2; subst. rewrite IH; [reflexivity|assumption|assumption].
Qed.
Lemma dedup_id l : NoDup (map ep l) -> dedup_by same l = l.
Proof.
  destruct l as [|a l]; [reflexivity|]. intros H. inversion H; subst. cbn [dedup_by].
  now rewrite dedup_after_id.
Qed.

Lemma finalize_perm l m : NoDup (map ep l) -> Permutation l m -> finalize o m = finalize o l.
Proof.
  intros N P. assert (N' : NoDup (map ep m)).
  { eapply Permutation_NoDup; [apply Permutation_map, P|assumption]. }
  rewrite !finalize_unfold, !dedup_id by assumption. symmetry.
  apply sort_permutation; [apply key_total|apply key_trans| |exact P].
  intros a b Ha Hb H1 H2. unfold key_leb in *. apply Z.leb_le in H1, H2.
  assert (E : ep a = ep b) by lia. clear -N Ha Hb E.
  induction l as [|x l IH]; [destruct Ha|]. cbn in N. inversion N as [|? ? N1 N2]; subst.
  destruct Ha as [->|Ha], Hb as [->|Hb]; try reflexivity.
  - exfalso. apply N1. rewrite E. now apply in_map.
  - exfalso. apply N1. rewrite <- E. now apply in_map.
  - auto.
Qed.

Lemma finalize_id l : schron l -> finalize o l = l.
Proof.
  intros H. rewrite finalize_unfold, dedup_id by now apply schron_nodup.
  apply sort_id. apply ordered_chron, schron_chron, H.
Qed.

Lemma finalize_sorted_input l : chron l -> schron (finalize o l).
Proof.
  intros H. apply chron_nodup_strict; [apply finalize_chron|]. apply finalize_nodup.
  intros pre x mid y post -> E z Hz.
  assert (C : forall pre l, chron (pre ++ l) -> chron l).
  { clear. induction pre as [|p pre IH]; intros l; cbn; [trivial|]. intros [_ H]. auto. }
  apply C in H. cbn in H. destruct H as [H1 H2].
  assert (ep x <= ep z) by (apply H1; apply in_or_app; now left).
  assert (ep z <= ep y).
  { apply in_split in Hz. destruct Hz as (m1 & m2 & ->). rewrite <- app_assoc in H2.
    apply C in H2. cbn in H2. apply H2. apply in_or_app. right. now left. }
  lia.
Qed.

(** * Querying *)
Lemma chron_nth l i j x y : chron l -> (i <= j)%nat ->
  nth_error l i = Some x -> nth_error l j = Some y -> ep x <= ep y.
Proof.
  revert i j. induction l as [|a l IH]; intros i j H Hij Hx Hy; [destruct i; discriminate|].
  cbn in H. destruct H as [H1 H2]. destruct i as [|i], j as [|j]; cbn in *.
  - injection Hx as ->. injection Hy as ->. lia.
  - injection Hx as ->. apply H1. eapply nth_error_In; eauto.
  - lia.
  - apply (IH i j); [assumption|lia|assumption|assumption].
Qed.

Lemma search_ok l e : chron l -> searchable (fun s => ep s ?= e) l.
Proof.
  intros H i j Hij. unfold cmp_at.
  destruct (nth_error l i) as [x|] eqn:Ex; [|apply nth_error_None in Ex; lia].
  destruct (nth_error l j) as [y|] eqn:Ey; [|apply nth_error_None in Ey; lia].
  assert (ep x <= ep y) by (eapply chron_nth; [exact H| |exact Ex|exact Ey]; lia).
  destruct (Z.compare_spec (ep x) e), (Z.compare_spec (ep y) e); cbn; lia.
Qed.

Lemma push_range_slice (l : list S) : forall n a, (a + n <= length l)%nat ->
  push_range l a n = Some (firstn n (skipn a l)).
Proof.
  induction n as [|n IH]; intros a H; [reflexivity|]. cbn [push_range].
  destruct (nth_error l a) as [x|] eqn:E; [|apply nth_error_None in E; lia].
  rewrite IH by lia. f_equal.
  assert (K : skipn a l = x :: skipn (Datatypes.S a) l).
  { clear -E. revert l E. induction a as [|a IH]; intros [|y l] E; cbn in *; try discriminate.
    - now injection E as ->.
    - auto. }
  rewrite K. reflexivity.
Qed.

Lemma nth_error_split_eq (l : list S) i x : nth_error l i = Some x ->
  l = firstn i l ++ x :: skipn (Datatypes.S i) l.
Proof.
  revert l. induction i as [|i IH]; intros [|y l] H; cbn in *; try discriminate.
  - now injection H as ->.
  - f_equal. auto.
Qed.

(** All the cases of a query of a time ordered trajectory. *)
Lemma at_cases l e : chron l ->
  (at_epoch o l e = Err (NoInterpolationData e) /\
     (l = [] \/ (forall s, In s l -> e < ep s) \/ (forall s, In s l -> ep s < e))) \/
  (exists s, at_epoch o l e = Ok s /\ In s l /\ ep s = e) \/
  (exists pre left_ anchor right_ post,
     l = pre ++ (left_ ++ anchor :: right_) ++ post /\
     (pre ++ left_ <> []) /\
     (forall s, In s (pre ++ left_) -> ep s < e) /\
     (forall s, In s (anchor :: right_ ++ post) -> e < ep s) /\
     (length (left_ ++ anchor :: right_) <= 13)%nat /\
     (length (left_ ++ anchor :: right_) = length l \/
      12 <= length (left_ ++ anchor :: right_))%nat /\
     (left_ = [] -> length l = 13%nat /\ length pre = 1%nat) /\
     at_epoch o l e =
       match st_interpolate o anchor e (left_ ++ anchor :: right_) with
       | Ok r => Ok r
       | Err _ => Err Interpolation
       | Panic => Panic
       | NoFuel => NoFuel
       end).
Proof.
  intros H. unfold at_epoch.
  destruct l as [|x0 l0]; [left; split; [reflexivity|now left]|].
  set (l := x0 :: l0) in *. change (first l) with (Some x0).
  assert (HL : (1 <= length l)%nat) by (cbn; lia).
  unfold last_state. destruct (nth_error l (length l - 1)) as [xl|] eqn:El;
    [|apply nth_error_None in El; lia].
  destruct (Z.ltb_spec e (ep x0)) as [H1|H1]; cbn [orb].
  { left. split; [reflexivity|]. right. left. intros s Hs. cbn in H, Hs.
    destruct Hs as [<-|Hs]; [assumption|]. destruct H as [H _]. specialize (H s Hs). lia. }
  destruct (Z.ltb_spec (ep xl) e) as [H2|H2].
  { left. split; [reflexivity|]. right. right. intros s Hs.
    apply In_nth_error in Hs. destruct Hs as [k Hk].
    assert (k < length l)%nat by (apply nth_error_Some; congruence).
    assert (ep s <= ep xl) by (eapply chron_nth; [exact H| |exact Hk|exact El]; lia). lia. }
  pose proof (binary_search_spec _ l (search_ok l e H)) as B.
  destruct (binary_search_by (fun s => ep s ?= e) l) as [idx|idx].
  { right. left. destruct B as [B1 B2]. unfold cmp_at in B2.
    destruct (nth_error l idx) as [s|] eqn:Es; [|discriminate].
    exists s. split; [reflexivity|]. split; [eapply nth_error_In; eauto|].
    now apply Z.compare_eq. }
  destruct B as (B1 & B2 & B3).
  assert (I0 : idx <> 0%nat).
  { intros ->. specialize (B3 0%nat ltac:(lia)). unfold cmp_at in B3. cbn in B3.
    rewrite Z.compare_gt_iff in B3. lia. }
  assert (I1 : (idx < length l)%nat).
  { destruct (Nat.eq_dec idx (length l)) as [E|]; [|lia]. exfalso.
    specialize (B2 (length l - 1)%nat ltac:(lia)). unfold cmp_at in B2. rewrite El in B2.
    rewrite Z.compare_lt_iff in B2. lia. }
  replace ((idx =? 0) || (length l <=? idx))%nat with false.
  2: { symmetry. apply orb_false_iff. split; [apply Nat.eqb_neq; lia|apply Nat.leb_gt; lia]. }
  change (INTERPOLATION_SAMPLES / 2)%nat with 6%nat.
  change INTERPOLATION_SAMPLES with 13%nat. change (2 * 6)%nat with 12%nat.
  set (last := Nat.min (length l) (idx - 6 + 13)).
  set (fi := if (last =? length l)%nat then (last - 12)%nat else (idx - 6)%nat).
  assert (FI : (fi <= idx /\ idx < last /\ last <= length l /\ last - fi <= 13 /\
               (last - fi = length l \/ 12 <= last - fi) /\
               (fi = idx -> length l = 13 /\ fi = 1))%nat).
  { unfold fi, last. destruct (Nat.eqb_spec (Nat.min (length l) (idx - 6 + 13)) (length l)); lia. }
  destruct FI as (F1 & F2 & F3 & F4 & F5 & F6).
  replace (last <? fi)%nat with false by (symmetry; apply Nat.ltb_ge; lia).
  destruct (nth_error l idx) as [anchor|] eqn:Ea; [|apply nth_error_None in Ea; lia].
  rewrite push_range_slice by lia.
  right. right.
  pose proof (nth_error_split_eq l idx anchor Ea) as SP.
  set (before := firstn idx l) in *. set (after := skipn (Datatypes.S idx) l) in *.
  assert (LB : length before = idx) by (unfold before; rewrite firstn_length; lia).
  assert (LA : (length l = idx + 1 + length after)%nat).
  { rewrite SP at 1. rewrite app_length. cbn [length]. lia. }
  exists (firstn fi before), (skipn fi before), anchor,
         (firstn (last - idx - 1) after), (skipn (last - idx - 1) after).
  assert (W : firstn (last - fi) (skipn fi l) =
              skipn fi before ++ anchor :: firstn (last - idx - 1) after).
  { rewrite SP at 1. rewrite skipn_app. replace (fi - length before)%nat with 0%nat by lia.
    cbn [skipn]. rewrite firstn_app. rewrite skipn_length, LB.
    rewrite firstn_all2 by (rewrite skipn_length; lia).
    replace (last - fi - (idx - fi))%nat with (Datatypes.S (last - idx - 1)) by lia. reflexivity. }
  rewrite W.
  assert (LW : length (skipn fi before ++ anchor :: firstn (last - idx - 1) after)
               = (last - fi)%nat).
  { rewrite <- W. rewrite firstn_length, skipn_length. lia. }
  rewrite (firstn_skipn fi before). rewrite LW.
  split.
  { rewrite <- app_assoc. cbn [app]. rewrite (firstn_skipn (last - idx - 1) after).
    rewrite app_assoc, (firstn_skipn fi before). exact SP. }
  split. { intros E. rewrite E in LB. cbn in LB. lia. }
  split.
  { intros s Hs. apply In_nth_error in Hs. destruct Hs as [k Hk].
    assert (k < length before)%nat by (apply nth_error_Some; congruence).
    specialize (B2 k ltac:(lia)). unfold cmp_at in B2. rewrite SP in B2.
    rewrite nth_error_app1 in B2 by lia. rewrite Hk in B2. now apply Z.compare_lt_iff. }
  split.
  { intros s Hs. rewrite (firstn_skipn (last - idx - 1) after) in Hs.
    apply In_nth_error in Hs. destruct Hs as [k Hk].
    assert (k < length (anchor :: after))%nat by (apply nth_error_Some; congruence).
    cbn [length] in H0.
    specialize (B3 (idx + k)%nat ltac:(lia)). unfold cmp_at in B3. rewrite SP in B3.
    rewrite nth_error_app2 in B3 by lia. rewrite LB in B3.
    replace (idx + k - idx)%nat with k in B3 by lia. rewrite Hk in B3.
    now apply Z.compare_gt_iff. }
  split; [lia|]. split; [lia|]. split; [|reflexivity].
  intros E. assert (length (skipn fi before) = 0%nat) by now rewrite E.
  rewrite skipn_length in H0. rewrite firstn_length. destruct F6; lia.
Qed.

Lemma at_stored l s : schron l -> In s l -> at_epoch o l (ep s) = Ok s.
Proof.
  intros H Hs. pose proof (schron_nodup l H) as ND. apply schron_chron in H.
  destruct (at_cases l (ep s) H) as [(_ & [H1|[H1|H1]])|[(x & H1 & H2 & H3)|
     (pre & lf & an & rt & post & H1 & _ & H2 & H3 & _)]].
  - subst l. destruct Hs.
  - specialize (H1 s Hs). lia.
  - specialize (H1 s Hs). lia.
  - rewrite H1. f_equal. clear -ND Hs H2 H3.
    induction l as [|y l IH]; [destruct Hs|]. cbn in ND. inversion ND as [|? ? N1 N2]; subst.
    destruct Hs as [->|Hs], H2 as [->|H2]; try reflexivity.
    + exfalso. apply N1. rewrite <- H3. now apply in_map.
    + exfalso. apply N1. rewrite H3. now apply in_map.
    + auto.
  - exfalso. rewrite H1 in Hs. rewrite <- !app_assoc in Hs. rewrite app_assoc in Hs.
    apply in_app_or in Hs. destruct Hs as [Hs|Hs]; [specialize (H2 s Hs); lia|].
    cbn [app] in Hs. specialize (H3 s Hs). lia.
Qed.

Lemma at_inside l e a b : chron l -> In a l -> In b l -> ep a <= e <= ep b ->
  at_epoch o l e <> Err (NoInterpolationData e).
Proof.
  intros H Ha Hb He. destruct (at_cases l e H) as [(_ & [H1|[H1|H1]])|[(x & H1 & H2 & H3)|
     (pre & lf & an & rt & post & H1 & _ & _ & _ & _ & _ & _ & H2)]].
  - subst l. destruct Ha.
  - specialize (H1 a Ha). lia.
  - specialize (H1 b Hb). lia.
  - rewrite H1. discriminate.
  - rewrite H2. destruct (st_interpolate _ _ _ _); discriminate.
Qed.

(** * Iterating *)
Lemma grid_snoc start step n : grid start step (Datatypes.S n) =
  grid start step n ++ [start + Z.of_nat n * step].
Proof.
  revert start. induction n as [|n IH]; intros start; [cbn; f_equal; lia|].
  change (grid start step (Datatypes.S (Datatypes.S n)))
    with (start :: grid (start + step) step (Datatypes.S n)).
  rewrite IH. cbn [grid app]. do 3 f_equal. lia.
Qed.

Definition series (start stop step cur : Z) : time_series :=
  {| ts_start := start; ts_duration := stop - start; ts_step := step; ts_cur := cur;
     ts_incl := true |}.

Lemma ts_next_series start stop step cur :
  ts_next (series start stop step cur) =
  if (stop <? start + cur * step)%Z then None
  else Some (start + cur * step, series start stop step (cur + 1)).
Proof.
  unfold ts_next, series. cbn.
  destruct (Z.ltb_spec (stop - start) (cur * step)), (Z.ltb_spec stop (start + cur * step));
    try reflexivity; lia.
Qed.

(** The items of the iteration from the [cur]-th epoch on, [n] epochs being left. *)
Lemma iterate_ok l start stop step (n : nat) : forall fuel cur items,
  0 < step -> 0 <= cur ->
  (n < fuel)%nat ->
  (Z.of_nat n = 0 \/ start + (cur + Z.of_nat n - 1) * step <= stop) ->
  stop < start + (cur + Z.of_nat n) * step ->
  Forall2 (fun e s => at_epoch o l e = Ok s) (grid (start + cur * step) step n) items ->
  iterate_traj o fuel l (series start stop step cur) = Ok items.
Proof.
  induction n as [|n IH]; intros fuel cur items Hs Hc Hf Hin Hout HF.
  - destruct fuel as [|fuel]; [lia|]. cbn [iterate_traj]. rewrite ts_next_series.
    replace (stop <? start + cur * step) with true by (symmetry; apply Z.ltb_lt; nia).
    inversion HF. reflexivity.
  - destruct fuel as [|fuel]; [lia|]. cbn [iterate_traj]. rewrite ts_next_series.
    replace (stop <? start + cur * step) with false by (symmetry; apply Z.ltb_ge; nia).
    cbn [grid] in HF. inversion HF as [|e s es ss H1 H2]; subst. rewrite H1.
    rewrite (IH fuel (cur + 1) ss); [reflexivity|lia|lia|lia| | |].
    + right. nia.
    + nia.
    + replace (start + (cur + 1) * step) with (start + cur * step + step) by ring. exact H2.
Qed.

(** The iteration stops at the first failing query. *)
Lemma iterate_prefix l start stop step (k : nat) : first l <> None -> forall fuel cur items,
  0 < step -> 0 <= cur -> (k < fuel)%nat ->
  start + (cur + Z.of_nat k) * step <= stop ->
  Forall2 (fun e s => at_epoch o l e = Ok s) (grid (start + cur * step) step k) items ->
  (exists x, at_epoch o l (start + (cur + Z.of_nat k) * step) = Err x) ->
  iterate_traj o fuel l (series start stop step cur) = Ok items.
Proof.
  intros Hl. induction k as [|k IH]; intros fuel cur items Hs Hc Hf Hin HF HE.
  - destruct fuel as [|fuel]; [lia|]. cbn [iterate_traj]. rewrite ts_next_series.
    replace (stop <? start + cur * step) with false by (symmetry; apply Z.ltb_ge; nia).
    inversion HF. destruct HE as [x HE]. rewrite Z.add_0_r in HE. rewrite HE.
    destruct (first l); [reflexivity|contradiction].
  - destruct fuel as [|fuel]; [lia|]. cbn [iterate_traj]. rewrite ts_next_series.
    replace (stop <? start + cur * step) with false by (symmetry; apply Z.ltb_ge; nia).
    cbn [grid] in HF. inversion HF as [|e s es ss H1 H2]; subst. rewrite H1.
    rewrite (IH fuel (cur + 1) ss); [reflexivity|lia|lia|lia|nia| |].
    + replace (start + (cur + 1) * step) with (start + cur * step + step) by ring. exact H2.
    + destruct HE as [x HE]. exists x. rewrite <- HE. f_equal. lia.
Qed.

Lemma grid_count_spec start stop step : 0 < step ->
  let n := grid_count start stop step in
  (Z.of_nat n = 0 \/ start + (Z.of_nat n - 1) * step <= stop) /\
  stop < start + Z.of_nat n * step.
Proof.
  intros Hs. unfold grid_count. destruct (Z.ltb_spec stop start) as [H|H]; cbv zeta.
  - cbn. split; [now left|lia].
  - pose proof (Z.div_mod (stop - start) step ltac:(lia)).
    pose proof (Z.mod_pos_bound (stop - start) step Hs).
    pose proof (Z.div_pos (stop - start) step ltac:(lia) Hs).
    rewrite Z2Nat.id by lia. split; [right; nia|nia].
Qed.

Lemma grid_in start step n e : In e (grid start step n) <->
  exists k, 0 <= k < Z.of_nat n /\ e = start + k * step.
Proof.
  revert start. induction n as [|n IH]; intros start; cbn [grid In].
  - split; [intros []|intros (k & H & _); lia].
  - rewrite IH. split.
    + intros [<-|(k & H & ->)]; [exists 0; lia|exists (k + 1); lia].
    + intros (k & H & ->). destruct (Z.eq_dec k 0) as [->|]; [left; lia|].
      right. exists (k - 1). lia.
Qed.

Lemma first_some (l : list S) a : first l = Some a -> exists l', l = a :: l'.
Proof. destruct l as [|x l]; cbn; [discriminate|]. intros E. injection E as ->. eauto. Qed.
Lemma last_some (l : list S) z : last_state l = Some z -> exists l', l = l' ++ [z].
Proof.
  unfold last_state. intros H. apply nth_error_split_eq in H.
  assert (skipn (Datatypes.S (length l - 1)) l = []) by (apply skipn_all2; lia).
  rewrite H0 in H. eauto.
Qed.
Lemma last_in (l : list S) z : last_state l = Some z -> In z l.
Proof. intros H. apply last_some in H. destruct H as [l' ->]. apply in_or_app. right. now left. Qed.
Lemma first_in (l : list S) z : first l = Some z -> In z l.
Proof. intros H. apply first_some in H. destruct H as [l' ->]. now left. Qed.
Lemma chron_first l a x : chron l -> first l = Some a -> In x l -> ep a <= ep x.
Proof.
  intros H Ha Hx. apply first_some in Ha. destruct Ha as [l' ->]. cbn in H.
  destruct Hx as [->|Hx]; [lia|]. now apply H.
Qed.
Lemma chron_last l z x : chron l -> last_state l = Some z -> In x l -> ep x <= ep z.
Proof.
  intros H Hz Hx. apply In_nth_error in Hx. destruct Hx as [k Hk].
  assert (k < length l)%nat by (apply nth_error_Some; congruence).
  eapply chron_nth; [exact H| |exact Hk|exact Hz]. lia.
Qed.

(** * Joining *)
Lemma schron_app l m : schron l -> schron m ->
  (forall x y, In x l -> In y m -> ep x < ep y) -> schron (l ++ m).
Proof.
  induction l as [|a l IH]; cbn; intros H1 H2 H3; [assumption|]. destruct H1 as [H1 H1'].
  split.
  - intros y Hy. apply in_app_or in Hy. destruct Hy; [auto|]. apply H3; [now left|assumption].
  - apply IH; auto.
Qed.
Lemma schron_filter p l : schron l -> schron (filter p l).
Proof.
  induction l as [|a l IH]; cbn; [trivial|]. intros [H1 H2]. destruct (p a); [|auto].
  cbn. split; [|auto]. intros y Hy. apply filter_In in Hy. apply H1, Hy.
Qed.

Lemma at_all_spec l es : forall r,
  at_all o l es = Ok r <-> Forall2 (fun e s => at_epoch o l e = Ok s) es r.
Proof.
  induction es as [|e es IH]; intros r; cbn.
  - split; [intros E; injection E as <-; constructor|inversion 1; reflexivity].
  - split.
    + destruct (at_epoch o l e) as [s|x| |] eqn:E; cbn; try discriminate.
      destruct (at_all o l es) as [q|x| |]; cbn; try discriminate.
      intros Q. injection Q as <-. constructor; [assumption|]. now apply IH.
    + inversion 1 as [|? s ? q H1 H2]; subst. rewrite H1. cbn.
      apply IH in H2. rewrite H2. reflexivity.
Qed.
End Proofs.
