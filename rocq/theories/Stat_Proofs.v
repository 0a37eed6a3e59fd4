(** Proofs about the statistics of a solution. *)
From Coq Require Import Reals Lra String.
From Verif Require Import Base RustStd Sol_Model Sol_Spec Sol_Proofs Stat_Model Stat_Spec.
Local Open Scope R_scope.

Lemma dot_norm2 v : dot v v = norm2 v.
Proof. unfold norm2. induction v as [|x v IH]; cbn; [reflexivity|]. now rewrite IH. Qed.
Lemma norm2_nonneg v : 0 <= norm2 v.
Proof. unfold norm2, sum. induction v as [|x v IH]; cbn; [lra|]. pose proof (Rle_0_sqr x). unfold Rsqr in *. lra. Qed.
Lemma rsum_sum l : rsum l = sum l.
Proof. reflexivity. Qed.

Lemma sum_perm l l' : Permutation l l' -> sum l = sum l'.
Proof. unfold sum. induction 1; cbn; lra. Qed.

Lemma sum_nan_some {A} (f : A -> R) : forall l acc,
  sum_nan (map (fun a => Some (f a)) l) acc = Some (acc + sum (map f l)).
Proof.
  induction l as [|a l IH]; intros acc; cbn; [f_equal; lra|]. rewrite IH. f_equal.
  unfold sum. lra.
Qed.
Lemma sum_nan_none {A} (f : A -> option R) : forall l acc,
  (exists a, In a l /\ f a = None) -> sum_nan (map f l) acc = None.
Proof.
  induction l as [|a l IH]; intros acc (b & H & Q); [destruct H|]. cbn.
  destruct H as [->|H]; [now rewrite Q|]. destruct (f a); [|reflexivity]. apply IH. eauto.
Qed.
Lemma sum_nan_all {A} (f : A -> option R) (g : A -> R) : forall l acc,
  (forall a, In a l -> f a = Some (g a)) -> sum_nan (map f l) acc = Some (acc + sum (map g l)).
Proof.
  intros l acc H. rewrite <- sum_nan_some. f_equal. apply map_ext_in. exact H.
Qed.

Section Solutions.
Context {E G F : Type}.
Notation sol := (solution E numbers G F).

Lemma measured_flatten (s : sol) : measured s = map values (flatten (residuals s)).
Proof. unfold measured. induction (residuals s) as [|[r|] l IH]; cbn; [reflexivity| |]; now rewrite IH. Qed.
Lemma accepted_flatten (s : sol) : accepted s = map values (accepted_residuals s).
Proof.
  unfold accepted, accepted_residuals.
  induction (residuals s) as [|[r|] l IH]; cbn; [reflexivity| |assumption].
  destruct (res_rejected r); cbn; now rewrite IH.
Qed.
Lemma flatten_length {A} (l : list (option A)) : (length (flatten l) <= length l)%nat.
Proof. induction l as [|[a|] l IH]; cbn; lia. Qed.
Lemma flatten_full {A} (l : list (option A)) :
  (forall o, In o l -> o <> None) -> length (flatten l) = length l.
Proof.
  induction l as [|[a|] l IH]; intros H; cbn; [reflexivity| |].
  - f_equal. apply IH. intros o Ho. apply H. now right.
  - exfalso. apply (H None); [now left|reflexivity].
Qed.

Lemma quotient_rms (vs : list (list R)) n : vs <> [] -> (length vs <= n)%nat ->
  sqrt_of_quotient (Some (0 + sum (map norm2 vs))) n
  = Some (rms vs * sqrt (INR (length vs) / INR n)).
Proof.
  intros H L. assert (P : (0 < length vs)%nat) by (destruct vs; cbn; [congruence|lia]).
  destruct n as [|n]; [lia|]. cbn [sqrt_of_quotient]. f_equal. unfold rms, mean.
  rewrite map_length.
  assert (0 < INR (length vs)) by (apply lt_0_INR; lia).
  assert (0 < INR (S n)) by (apply lt_0_INR; lia).
  assert (N : 0 <= sum (map norm2 vs)).
  { clear. induction vs as [|v vs IH]; cbn; [lra|]. pose proof (norm2_nonneg v). unfold sum in IH. lra. }
  rewrite <- sqrt_mult.
  - f_equal. field. split; lra.
  - apply Rmult_le_pos; [assumption|]. apply Rlt_le, Rinv_0_lt_compat. assumption.
  - apply Rmult_le_pos; [lra|]. apply Rlt_le, Rinv_0_lt_compat. assumption.
Qed.

Lemma rms_prefit_spec (s : sol) : measured s <> [] ->
  rms_prefit_residuals s
  = Some (rms (map prefit (measured s))
          * sqrt (INR (length (measured s)) / INR (length (residuals s)))).
Proof.
  intros H. unfold rms_prefit_residuals.
  rewrite (sum_nan_some (fun r => dot (prefit (values r)) (prefit (values r)))).
  rewrite measured_flatten in *. rewrite map_map.
  erewrite (map_ext (fun r => dot _ _)) by (intros; apply dot_norm2).
  rewrite <- (map_map (fun r => prefit (values r)) norm2), quotient_rms.
  - now rewrite !map_length.
  - destruct (flatten (residuals s)); [now contradiction H|discriminate].
  - rewrite map_length. apply flatten_length.
Qed.
Lemma rms_ratio_spec (s : sol) : measured s <> [] ->
  rms_residual_ratios s
  = Some (rms (map (fun v => [ratio v]) (measured s))
          * sqrt (INR (length (measured s)) / INR (length (residuals s)))).
Proof.
  intros H. unfold rms_residual_ratios.
  rewrite (sum_nan_some (fun r => ratio (values r) ^ 2)).
  rewrite measured_flatten in *. rewrite map_map.
  erewrite (map_ext (fun r => ratio (values r) ^ 2) (fun r => norm2 [ratio (values r)]))
    by (intros r; unfold norm2; cbn; lra).
  rewrite <- (map_map (fun r => [ratio (values r)]) norm2), quotient_rms.
  - now rewrite !map_length.
  - destruct (flatten (residuals s)); [now contradiction H|discriminate].
  - rewrite map_length. apply flatten_length.
Qed.
Lemma rms_postfit_spec (s : sol) posts : measured s <> [] ->
  map postfit (measured s) = map Some posts ->
  rms_postfit_residuals s
  = Some (rms posts * sqrt (INR (length (measured s)) / INR (length (residuals s)))).
Proof.
  intros H P. unfold rms_postfit_residuals. rewrite measured_flatten in *.
  assert (L : length posts = length (flatten (residuals s))).
  { rewrite <- (map_length Some posts), <- P, !map_length. reflexivity. }
  replace (map _ (flatten (residuals s))) with (map (fun v => Some (norm2 v)) posts).
  2: { rewrite map_map in P. clear H L. revert posts P.
       induction (flatten (residuals s)) as [|r l IH]; intros [|p posts] P; cbn in *; try discriminate; [reflexivity|].
       injection P as P1 P2. rewrite P1, dot_norm2. f_equal. auto. }
  rewrite sum_nan_some, quotient_rms.
  - now rewrite L, map_length.
  - destruct posts; [|discriminate]. destruct (flatten (residuals s)); [now contradiction H|discriminate].
  - rewrite L. apply flatten_length.
Qed.
Lemma rms_postfit_nan (s : sol) :
  (exists v, In v (measured s) /\ postfit v = None) -> rms_postfit_residuals s = None.
Proof.
  intros (v & H & Q). unfold rms_postfit_residuals. rewrite sum_nan_none; [reflexivity|].
  rewrite measured_flatten in H. apply in_map_iff in H. destruct H as (r & <- & H).
  exists r. split; [assumption|]. now rewrite Q.
Qed.

(** ** Counting *)
Lemma count_within_spec t : forall l a b,
  count_within t l a b
  = ((a + length l)%nat, (b + length (filter (fun r => rleb (Rabs (ratio (values r))) t) l))%nat).
Proof.
  induction l as [|r l IH]; intros a b; cbn [count_within filter length].
  - now rewrite !Nat.add_0_r.
  - rewrite IH. unfold rleb at 2. destruct (Rle_dec _ t); cbn [length]; f_equal; lia.
Qed.
Lemma within_spec (s : sol) t kept :
  keeps (fun v => Rabs (ratio v) <= t) (measured s) kept ->
  residual_ratio_within_threshold s t
  = match measured s with
    | [] => Err NoResiduals
    | _ => Ok (INR (length kept) / INR (length (measured s)))
    end.
Proof.
  intros K. unfold residual_ratio_within_threshold. rewrite count_within_spec.
  rewrite measured_flatten in *. cbn [Nat.add].
  assert (Lk : length kept = length (filter (fun r => rleb (Rabs (ratio (values r))) t)
                                       (flatten (residuals s)))).
  { revert kept K. induction (flatten (residuals s)) as [|r l IH]; intros kept K; cbn in *.
    - inversion K. reflexivity.
    - unfold rleb at 1. inversion K as [|? ? ? H1 H2 |? ? ? H1 H2]; subst; destruct (Rle_dec _ t);
        try contradiction; cbn; [f_equal|]; auto. }
  rewrite <- Lk. destruct (flatten (residuals s)); cbn; [reflexivity|]. now rewrite map_length.
Qed.

(** ** The normality test *)
Lemma rleb_total a b : rleb a b = true \/ rleb b a = true.
Proof. unfold rleb. destruct (Rle_dec a b), (Rle_dec b a); auto. lra. Qed.
Lemma rleb_trans a b c : rleb a b = true -> rleb b c = true -> rleb a c = true.
Proof. unfold rleb. destruct (Rle_dec a b), (Rle_dec b c), (Rle_dec a c); auto; try discriminate. lra. Qed.
Lemma rleb_iff a b : rleb a b = true <-> a <= b.
Proof. unfold rleb. destruct (Rle_dec a b); split; auto; discriminate. Qed.

Lemma ks_loop_ge f n : forall l i d, d <= ks_loop f n i l d.
Proof.
  induction l as [|v l IH]; intros i d; cbn; [lra|]. cbv zeta.
  eapply Rle_trans; [|apply IH]. destruct (Rlt_dec _ _); lra.
Qed.
Lemma ks_loop_bounds f n : forall l i d j v, nth_error l j = Some v ->
  Rabs (INR (S (i + j)) / n - f v) <= ks_loop f n i l d.
Proof.
  induction l as [|w l IH]; intros i d [|j] v H; cbn [nth_error] in H; try discriminate;
    cbn [ks_loop]; cbv zeta.
  - injection H as ->. rewrite Nat.add_0_r. eapply Rle_trans; [|apply ks_loop_ge].
    destruct (Rlt_dec _ _); lra.
  - replace (i + S j)%nat with (S i + j)%nat by lia. now apply IH.
Qed.
Lemma ks_loop_attained f n : forall l i d,
  ks_loop f n i l d = d \/
  exists j v, nth_error l j = Some v /\ ks_loop f n i l d = Rabs (INR (S (i + j)) / n - f v).
Proof.
  induction l as [|w l IH]; intros i d; cbn [ks_loop]; cbv zeta; [now left|].
  set (d' := if Rlt_dec d (Rabs (INR (S i) / n - f w)) then Rabs (INR (S i) / n - f w) else d).
  destruct (IH (S i) d') as [H|(j & v & H & Q)].
  - rewrite H. subst d'. destruct (Rlt_dec _ _); [right|now left].
    exists 0%nat, w. split; [reflexivity|]. now rewrite Nat.add_0_r.
  - right. exists (S j), v. split; [assumption|].
    now replace (i + S j)%nat with (S i + j)%nat by lia.
Qed.

Lemma sorted_prefix x : forall l, ordered rleb l ->
  let j := length (filter (fun v => rleb v x) l) in
  (forall i v, nth_error l i = Some v -> (i < j)%nat -> v <= x) /\
  (forall i v, nth_error l i = Some v -> (j <= i)%nat -> x < v).
Proof.
  induction 1 as [|a l H IH Fa]; cbn [filter].
  - split; intros [|i] v Hv; discriminate.
  - rewrite Forall_forall in Fa. destruct (rleb a x) eqn:Q; cbn [length].
    + apply rleb_iff in Q. destruct IH as [IH1 IH2]. split; intros [|i] v Hv Hi; cbn in *.
      * injection Hv as <-. assumption.
      * apply (IH1 i); [assumption|lia].
      * lia.
      * apply (IH2 i); [assumption|lia].
    + assert (A : x < a).
      { apply Rnot_le_lt. intros N. apply rleb_iff in N. congruence. }
      assert (Z : filter (fun v => rleb v x) l = []).
      { clear -Fa A. induction l as [|b l IH]; cbn; [reflexivity|].
        assert (rleb a b = true) by (apply Fa; now left). apply rleb_iff in H.
        destruct (rleb b x) eqn:Qb; [apply rleb_iff in Qb; lra|].
        apply IH. intros y Hy. apply Fa. now right. }
      rewrite Z in *. cbn. split; intros [|i] v Hv Hi; cbn in *; try lia.
      * injection Hv as <-. assumption.
      * assert (rleb a v = true) by (apply Fa; eapply nth_error_In; eauto).
        apply rleb_iff in H0. lra.
Qed.

Lemma filter_perm_length {A} (p : A -> bool) l l' :
  Permutation l l' -> length (filter p l) = length (filter p l').
Proof.
  induction 1; cbn; [reflexivity| | |congruence].
  - destruct (p x); cbn; congruence.
  - destruct (p x), (p y); reflexivity.
Qed.

(** The reported statistic is at most 1/n below the Kolmogorov-Smirnov distance. *)
Lemma ks_upper f l : l <> [] ->
  (forall a b, a <= b -> f a <= f b) -> (forall a, 0 <= f a <= 1) ->
  forall x, Rabs (empirical_cdf l x - f x)
            <= ks_loop f (INR (length l)) 0 (sort_by rleb l) 0 + / INR (length l).
Proof.
  intros H M B x. set (n := length l).
  assert (Np : (0 < n)%nat) by (subst n; destruct l; cbn; [congruence|lia]).
  assert (P : 0 < INR n) by (apply lt_0_INR; lia).
  set (ss := sort_by rleb l). set (D := ks_loop f (INR n) 0 ss 0).
  assert (Ls : length ss = n) by (unfold ss; now rewrite sort_length).
  unfold empirical_cdf. fold n.
  rewrite (filter_perm_length _ l ss) by (apply sort_perm).
  destruct (sorted_prefix x ss) as [S1 S2]; [apply sort_sorted; [apply rleb_total|apply rleb_trans]|].
  set (j := length (filter (fun v => rleb v x) ss)) in *.
  assert (J : (j <= n)%nat).
  { subst j. rewrite <- Ls. clear. induction ss as [|a l0 IH]; cbn; [lia|]. destruct (rleb a x); cbn; lia. }
  pose proof (B x) as Bx.
  assert (U : f x - INR j / INR n <= D + / INR n).
  { destruct (Nat.eq_dec j n) as [->|N].
    - assert (INR n / INR n = 1) by (field; lra). pose proof (ks_loop_ge f (INR n) ss 0 0).
      fold D in H1. assert (0 < / INR n) by (apply Rinv_0_lt_compat; lra). lra.
    - destruct (nth_error ss j) as [v|] eqn:Q; [|apply nth_error_None in Q; lia].
      pose proof (S2 j v Q ltac:(lia)) as Hv. pose proof (M x v ltac:(lra)) as Mv.
      pose proof (ks_loop_bounds f (INR n) ss 0 0 j v Q) as K. fold D in K. cbn [Nat.add] in K.
      rewrite S_INR in K. replace ((INR j + 1) / INR n) with (INR j / INR n + / INR n) in K by (field; lra).
      unfold Rabs in K. destruct (Rcase_abs _) in K; lra. }
  assert (W : INR j / INR n - f x <= D).
  { destruct j as [|j'].
    - cbn [INR]. unfold Rdiv. rewrite Rmult_0_l. pose proof (ks_loop_ge f (INR n) ss 0 0). fold D in H0. lra.
    - destruct (nth_error ss j') as [v|] eqn:Q; [|apply nth_error_None in Q; lia].
      pose proof (S1 j' v Q ltac:(lia)) as Hv. pose proof (M v x Hv) as Mv.
      pose proof (ks_loop_bounds f (INR n) ss 0 0 j' v Q) as K. fold D in K. cbn [Nat.add] in K.
      unfold Rabs in K. destruct (Rcase_abs _) in K; lra. }
  assert (0 < / INR n) by (apply Rinv_0_lt_compat; lra).
  unfold Rabs. destruct (Rcase_abs _); lra.
Qed.

(** For distinct values it is at most the distance. *)
Lemma ks_lower f l B : l <> [] -> NoDup l ->
  (forall x, Rabs (empirical_cdf l x - f x) <= B) ->
  ks_loop f (INR (length l)) 0 (sort_by rleb l) 0 <= B.
Proof.
  intros H N Hb.
  assert (B0 : 0 <= B) by (eapply Rle_trans; [apply Rabs_pos|apply (Hb 0)]).
  destruct (ks_loop_attained f (INR (length l)) (sort_by rleb l) 0 0) as [->|(j & v & Q & ->)];
    [assumption|].
  cbn [Nat.add]. replace (INR (S j) / INR (length l)) with (empirical_cdf l v); [apply Hb|].
  unfold empirical_cdf. do 2 f_equal. set (ss := sort_by rleb l) in *.
  rewrite (filter_perm_length _ l ss) by (apply sort_perm).
  assert (So : ordered rleb ss) by (apply sort_sorted; [apply rleb_total|apply rleb_trans]).
  assert (Nd : NoDup ss) by (eapply Permutation_NoDup; [apply sort_perm|assumption]).
  destruct (sorted_prefix v ss So) as [S1 S2].
  set (k := length (filter (fun w => rleb w v) ss)) in *.
  assert (K1 : (j < k)%nat).
  { destruct (Nat.lt_ge_cases j k) as [|G']; [assumption|]. specialize (S2 j v Q G'). lra. }
  assert (K2 : (k <= S j)%nat).
  { destruct (Nat.le_gt_cases k (S j)) as [|G']; [assumption|].
    assert (L : (k <= length ss)%nat).
    { subst k. clear. induction ss as [|a l' IH]; cbn; [lia|]. destruct (rleb a v); cbn; lia. }
    destruct (nth_error ss (S j)) as [w|] eqn:Qw; [|apply nth_error_None in Qw; lia].
    pose proof (S1 (S j) w Qw G') as W1.
    assert (W2 : v <= w).
    { apply rleb_iff. apply (sorted_nth _ ss So j (S j)); [lia|assumption|assumption]. }
    assert (v = w) by lra. subst w.
    pose proof (proj1 (NoDup_nth_error ss) Nd j (S j)) as D.
    assert (j < length ss)%nat by (apply nth_error_Some; congruence).
    specialize (D ltac:(assumption) ltac:(congruence)). lia. }
  lia.
Qed.

(** ** The innovation test *)
Lemma nis_spec quantile dim (s : sol) alpha :
  match nis_consistency quantile dim s alpha with
  | Ok c => accepted s <> [] /\
      normalized_sum c = sum (map (fun v => norm2 (whitened v)) (accepted s)) /\
      k_dof c = INR (length (accepted s)) * INR dim
  | Err NoResiduals => accepted s = []
  | _ => False
  end.
Proof.
  unfold nis_consistency. rewrite accepted_flatten.
  destruct (accepted_residuals s) as [|r l] eqn:Q; cbn [length].
  - reflexivity.
  - split; [discriminate|]. cbn [normalized_sum k_dof]. split.
    + rewrite rsum_sum, map_map. f_equal. apply map_ext. intros x. apply dot_norm2.
    + rewrite map_length. apply mult_INR.
Qed.

Lemma cube_lt a b : a < b -> a ^ 3 < b ^ 3.
Proof.
  intros H. assert (0 < (b - a) * (b * b + a * b + a * a)); [|nra].
  apply Rmult_lt_0_compat; [lra|].
  assert (0 < (a - b) * (a - b)) by (apply Rsqr_pos_lt; lra).
  pose proof (Rle_0_sqr (a + b)) as Q. unfold Rsqr in Q. nra.
Qed.

Lemma nis_brackets quantile dim (s : sol) alpha c :
  let z := quantile (1 - (match alpha with Some a => a | None => 5 / 100 end) / 2) in
  nis_consistency quantile dim s alpha = Ok c -> (0 < dim)%nat ->
  sqrt (2 / (9 * k_dof c)) < z ->
  lower_bound c < k_dof c < upper_bound c.
Proof.
  cbv zeta. unfold nis_consistency.
  destruct (length (accepted_residuals s)) as [|n] eqn:Q; [discriminate|].
  intros H D Z. apply (f_equal (fun r => match r with Ok c => c | _ => c end)) in H.
  cbv beta iota zeta in H. subst c. cbn [k_dof lower_bound upper_bound] in *.
  set (k := INR (S n * dim)) in *. set (z := quantile _) in *. set (f := 2 / (9 * k)) in *.
  assert (K : 0 < k) by (apply lt_0_INR; nia).
  assert (Ff : 0 < f) by (unfold f; apply Rdiv_lt_0_compat; lra).
  pose proof (sqrt_lt_R0 f Ff) as Sf. pose proof (sqrt_sqrt f ltac:(lra)) as Ss.
  assert (U : f < z * sqrt f) by (rewrite <- Ss at 1; apply Rmult_lt_compat_r; assumption).
  set (w := z * sqrt f) in *. clearbody w f k. rewrite <- (Rmult_1_r k) at 2 3.
  split; apply Rmult_lt_compat_l; try assumption; rewrite <- (pow1 3); apply cube_lt; lra.
Qed.
End Solutions.

Lemma verdicts c : lower_bound c < upper_bound c ->
  (is_consistent c = true <-> lower_bound c < normalized_sum c < upper_bound c) /\
  (is_underconfident c = true <-> normalized_sum c < lower_bound c) /\
  (is_overconfident c = true <-> upper_bound c < normalized_sum c).
Proof.
  intros H. unfold is_consistent, is_underconfident, is_overconfident.
  destruct (Rlt_dec (normalized_sum c) (upper_bound c)), (Rlt_dec (lower_bound c) (normalized_sum c)),
    (Rlt_dec (normalized_sum c) (lower_bound c)), (Rlt_dec (upper_bound c) (normalized_sum c));
    cbn; repeat split; intros; try discriminate; try reflexivity; lra.
Qed.
