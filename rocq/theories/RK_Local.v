(** The local error of one step against the exact solution. *)
From Coq Require Import Reals Lra Psatz.
From Verif Require Import Base Prop_Model RK_Model RK_Spec RK_Check RK_Step RK_OrderSpec RK_BSeries.
Local Open Scope R_scope.

(** * From local to global bounds *)
Lemma local_to_global (phi : R -> R) L t : 0 <= t -> phi 0 <= 0 ->
  (forall s, 0 <= s <= t -> exists eta, 0 < eta /\
     forall d, Rabs d <= eta -> 0 <= s + d <= t -> Rabs (phi (s + d) - phi s) <= L * Rabs d) ->
  phi t <= L * t.
Proof.
  intros Ht P0 HL.
  set (A := fun x => 0 <= x <= t /\ forall z, 0 <= z <= x -> phi z <= L * z).
  assert (A0 : A 0).
  { split; [lra|]. intros z Hz. replace z with 0 by lra. lra. }
  assert (BA : bound A) by (exists t; intros x [Hx _]; lra).
  destruct (completeness A BA (ex_intro _ 0 A0)) as [s [SU SL]].
  assert (Hs0 : 0 <= s) by (apply SU, A0).
  assert (Hst : s <= t) by (apply SL; intros x [Hx _]; lra).
  assert (below : forall z, 0 <= z < s -> phi z <= L * z).
  { intros z Hz. destruct (Rle_lt_dec (phi z) (L * z)) as [|Hn]; [assumption|].
    exfalso. assert (s <= z); [|lra]. apply SL. intros x [Hx HA].
    destruct (Rle_dec x z); [assumption|]. specialize (HA z ltac:(lra)). lra. }
  destruct (HL s ltac:(lra)) as (eta & E0 & HE).
  assert (Hs : phi s <= L * s).
  { destruct (Req_dec s 0) as [->|Hn]; [lra|].
    set (d := - Rmin eta s). assert (0 < - d <= eta /\ 0 <= s + d).
    { unfold d, Rmin. destruct (Rle_dec eta s); lra. }
    assert (AD : Rabs d = - d) by (apply Rabs_left; lra).
    specialize (HE d ltac:(lra) ltac:(lra)).
    specialize (below (s + d) ltac:(lra)). rewrite AD in HE.
    pose proof (Rle_abs (- (phi (s + d) - phi s))) as RA. rewrite Rabs_Ropp in RA. lra. }
  destruct (Req_dec s t) as [<-|Hn]; [assumption|].
  exfalso. set (x := Rmin (s + eta) t).
  assert (Hx : s < x <= s + eta /\ x <= t).
  { unfold x, Rmin. destruct (Rle_dec (s + eta) t); lra. }
  assert (AX : A x).
  { split; [lra|]. intros z Hz. destruct (Rlt_dec z s); [apply below; lra|].
    specialize (HE (z - s)). rewrite (Rabs_pos_eq (z - s)) in HE by lra.
    specialize (HE ltac:(lra) ltac:(lra)). replace (s + (z - s)) with z in HE by lra.
    pose proof (Rle_abs (phi z - phi s)). nra. }
  pose proof (SU x AX). lra.
Qed.

Section Local.
Context {St V F E : Type} (e : env St V F E) (vs : vector_space e).
Context (norm : V -> R) (nm : normed e norm).
Notation "a ⊕ b" := (vadd e a b) (at level 50, left associativity).
Notation "x ⊗ a" := (vscale e x a) (at level 40, left associativity).
Notation "a ⊖ b" := (vsub e a b) (at level 50, left associativity).
Notation m := (meth e).
Notation bigO := (bigO norm).
Notation approx := (approx e norm).

Lemma sub_self a : a ⊖ a = vzero e.
Proof.
  unfold vsub. rewrite <- (v_scale1 e vs a) at 1. rewrite <- (v_scale_add e vs).
  replace (1 + -1) with 0 by lra. apply (v_scale0 e vs).
Qed.
Lemma add_sub a b : a ⊕ (b ⊖ a) = b.
Proof.
  unfold vsub. rewrite (v_comm e vs b), (v_assoc e vs).
  change (a ⊕ -1 ⊗ a) with (a ⊖ a). rewrite sub_self. apply (v_zero_l e vs).
Qed.
Lemma sub_add a b : (a ⊕ b) ⊖ a = b.
Proof.
  unfold vsub. rewrite (v_comm e vs a b), <- (v_assoc e vs).
  change (a ⊕ -1 ⊗ a) with (a ⊖ a). rewrite sub_self. apply (v_zero e vs).
Qed.
Lemma sub_swap a b c d : (a ⊕ b) ⊖ (c ⊕ d) = (a ⊖ c) ⊕ (b ⊖ d).
Proof. unfold vsub. rewrite (v_scale_vadd e vs). apply (vadd_swap e vs). Qed.
Lemma sub_chain a b c : a ⊖ c = (a ⊖ b) ⊕ (b ⊖ c).
Proof.
  unfold vsub. rewrite (v_assoc e vs). f_equal. rewrite <- (v_assoc e vs).
  rewrite (v_comm e vs (-1 ⊗ b) b). change (b ⊕ -1 ⊗ b) with (b ⊖ b).
  rewrite sub_self. symmetry. apply (v_zero e vs).
Qed.
Lemma sub_scale x a b : x ⊗ (a ⊖ b) = x ⊗ a ⊖ x ⊗ b.
Proof.
  unfold vsub. rewrite (v_scale_vadd e vs). f_equal. rewrite <- !(v_scale_mul e vs).
  f_equal. lra.
Qed.
Lemma sub_cancel c a b : (c ⊕ a) ⊖ (c ⊕ b) = a ⊖ b.
Proof. rewrite sub_swap, sub_self. apply (v_zero_l e vs). Qed.
Lemma norm_sub a b : norm (a ⊖ b) <= norm a + norm b.
Proof.
  unfold vsub. eapply Rle_trans; [apply (norm_triangle _ _ nm)|].
  rewrite (norm_scale _ _ nm). replace (Rabs (-1)) with 1; [lra|].
  rewrite Rabs_left; lra.
Qed.
Lemma norm_sub_swap a b : norm (a ⊖ b) = norm (b ⊖ a).
Proof.
  replace (a ⊖ b) with (-1 ⊗ (b ⊖ a)).
  - rewrite (norm_scale _ _ nm), Rabs_left by lra. lra.
  - rewrite sub_scale. unfold vsub. rewrite <- (v_scale_mul e vs).
    replace (-1 * -1) with 1 by lra. rewrite (v_scale1 e vs). apply (v_comm e vs).
Qed.
Lemma norm_diff a b : Rabs (norm a - norm b) <= norm (a ⊖ b).
Proof.
  apply Rabs_le. split.
  - pose proof (norm_triangle _ _ nm a (b ⊖ a)) as T. rewrite add_sub in T.
    rewrite norm_sub_swap. lra.
  - pose proof (norm_triangle _ _ nm b (a ⊖ b)) as T. rewrite add_sub in T. lra.
Qed.

(** * The mean value inequality *)
Lemma mean_value_pos (g g' : R -> V) B t : 0 <= t -> 0 <= B ->
  (forall s, 0 <= s <= t -> has_derivative e norm g s (g' s) /\ norm (g' s) <= B) ->
  norm (g t ⊖ g 0) <= B * t.
Proof.
  intros Ht HB H.
  assert (forall eps, 0 < eps -> norm (g t ⊖ g 0) <= (B + eps) * t) as HE.
  { intros eps He.
    apply (local_to_global (fun x => norm (g x ⊖ g 0))); [assumption| |].
    - rewrite sub_self, (norm_zero e vs norm nm). lra.
    - intros s Hs. destruct (H s Hs) as [HD HN].
      destruct (HD eps He) as (eta & E0 & HE). exists eta. split; [assumption|].
      intros d Hd _. specialize (HE d Hd).
      eapply Rle_trans; [apply norm_diff|].
      replace (g (s + d) ⊖ g 0 ⊖ (g s ⊖ g 0)) with (g (s + d) ⊖ g s).
      2: { rewrite (sub_chain (g (s + d)) (g s) (g 0)).
           symmetry. rewrite (v_comm e vs). apply sub_add. }
      rewrite <- (add_sub (d ⊗ g' s) (g (s + d) ⊖ g s)).
      eapply Rle_trans; [apply (norm_triangle _ _ nm)|].
      rewrite (norm_scale _ _ nm). pose proof (Rabs_pos d). nra. }
  destruct (Rle_lt_dec (norm (g t ⊖ g 0)) (B * t)) as [|Hn]; [assumption|].
  exfalso. set (x := norm (g t ⊖ g 0)) in *.
  specialize (HE ((x - B * t) / (2 * (t + 1))) ltac:(apply Rdiv_lt_0_compat; lra)).
  assert (0 < x - B * t) by lra.
  assert ((x - B * t) / (2 * (t + 1)) * t < x - B * t).
  { assert (Q : (x - B * t) / (2 * (t + 1)) * t = (x - B * t) * (t / (2 * (t + 1)))) by (field; lra).
    rewrite Q. assert (t / (2 * (t + 1)) < 1).
    { apply Rmult_lt_reg_r with (2 * (t + 1)); [lra|].
      replace (t / (2 * (t + 1)) * (2 * (t + 1))) with t by (field; lra). lra. }
    nra. }
  lra.
Qed.

Lemma derivative_flip g d s : has_derivative e norm g (- s) d ->
  has_derivative e norm (fun x => g (- x)) s (-1 ⊗ d).
Proof.
  intros H eps He. destruct (H eps He) as (eta & E0 & HE). exists eta. split; [assumption|].
  intros x Hx. specialize (HE (- x)). rewrite Rabs_Ropp in HE. specialize (HE Hx).
  replace (- (s + x)) with (- s + - x) by lra.
  rewrite <- (v_scale_mul e vs). replace (x * -1) with (- x) by lra. exact HE.
Qed.

Lemma mean_value (g g' : R -> V) B t : 0 <= B ->
  (forall s, Rabs s <= Rabs t -> has_derivative e norm g s (g' s) /\ norm (g' s) <= B) ->
  norm (g t ⊖ g 0) <= B * Rabs t.
Proof.
  intros HB H. destruct (Rle_dec 0 t) as [Ht|Ht].
  - rewrite Rabs_pos_eq by assumption. apply (mean_value_pos g g'); [assumption|assumption|].
    intros s Hs. apply H. rewrite !Rabs_pos_eq; lra.
  - replace (Rabs t) with (- t) by (rewrite Rabs_left; lra).
    pose proof (mean_value_pos (fun x => g (- x)) (fun x => -1 ⊗ g' (- x)) B (- t)) as M.
    cbn in M. rewrite Ropp_involutive, Ropp_0 in M. apply M; [lra|assumption|].
    intros s Hs. assert (HS : Rabs (- s) <= Rabs t).
    { rewrite Rabs_Ropp, (Rabs_pos_eq s), Rabs_left; lra. }
    destruct (H (- s) HS) as [H1 H2]. split; [now apply derivative_flip|].
    rewrite (norm_scale _ _ nm). replace (Rabs (-1)) with 1 by (rewrite Rabs_left; lra). lra.
Qed.

(** * Derivatives of polynomials *)
Lemma derivative_scalar (g : R -> R) t l a : derivable_pt_lim g t l ->
  has_derivative e norm (fun x => g x ⊗ a) t (l ⊗ a).
Proof.
  intros H eps He. pose proof (norm_pos _ _ nm a) as NA.
  destruct (H (eps / (norm a + 1)) ltac:(apply Rdiv_lt_0_compat; lra)) as [[d D0] HD].
  cbn in HD. exists (d / 2). split; [lra|]. intros s Hs.
  destruct (Req_dec s 0) as [->|Hn].
  - rewrite Rplus_0_r, sub_self, (v_scale0 e vs), sub_self, (norm_zero e vs norm nm), Rabs_R0. lra.
  - specialize (HD s Hn ltac:(lra)).
    replace (g (t + s) ⊗ a ⊖ g t ⊗ a ⊖ s ⊗ (l ⊗ a)) with ((g (t + s) - g t - s * l) ⊗ a).
    2: { unfold vsub. rewrite <- !(v_scale_mul e vs), <- !(v_scale_add e vs). f_equal. lra. }
    rewrite (norm_scale _ _ nm).
    replace (g (t + s) - g t - s * l) with (((g (t + s) - g t) / s - l) * s) by (field; assumption).
    rewrite Rabs_mult.
    assert (Q : Rabs ((g (t + s) - g t) / s - l) * (norm a + 1) <= eps).
    { apply Rlt_le. apply Rmult_lt_reg_r with (/ (norm a + 1)); [apply Rinv_0_lt_compat; lra|].
      rewrite Rmult_assoc, Rinv_r by lra. rewrite Rmult_1_r. exact HD. }
    pose proof (Rabs_pos s). pose proof (Rabs_pos ((g (t + s) - g t) / s - l)). nra.
Qed.

Lemma derivative_add g g' t d d' : has_derivative e norm g t d -> has_derivative e norm g' t d' ->
  has_derivative e norm (fun x => g x ⊕ g' x) t (d ⊕ d').
Proof.
  intros H H' eps He.
  destruct (H (eps / 2) ltac:(lra)) as (eta & E0 & HE).
  destruct (H' (eps / 2) ltac:(lra)) as (eta' & E0' & HE').
  exists (Rmin eta eta'). split; [apply Rmin_glb_lt; assumption|]. intros s Hs.
  pose proof (Rmin_l eta eta'). pose proof (Rmin_r eta eta').
  specialize (HE s ltac:(lra)). specialize (HE' s ltac:(lra)).
  rewrite (v_scale_vadd e vs), !sub_swap.
  eapply Rle_trans; [apply (norm_triangle _ _ nm)|]. lra.
Qed.

Lemma derivative_const a t : has_derivative e norm (fun _ => a) t (vzero e).
Proof.
  intros eps He. exists 1. split; [lra|]. intros s _.
  rewrite sub_self, (v_scale_zero e vs), sub_self, (norm_zero e vs norm nm).
  pose proof (Rabs_pos s). nra.
Qed.

Lemma derivative_vsum n (g : nat -> R -> V) d t :
  (forall i, (i < n)%nat -> has_derivative e norm (g i) t (d i)) ->
  has_derivative e norm (fun x => vsum e n (fun i => g i x)) t (vsum e n d).
Proof.
  induction n; intros H; cbn; [apply derivative_const|].
  apply derivative_add; [apply IHn; intros; apply H; lia|apply H; lia].
Qed.

Lemma derivative_sub g g' t d d' : has_derivative e norm g t d -> has_derivative e norm g' t d' ->
  has_derivative e norm (fun x => g x ⊖ g' x) t (d ⊖ d').
Proof.
  intros H H'. unfold vsub. apply (derivative_add g (fun x => -1 ⊗ g' x)); [assumption|].
  intros eps He. destruct (H' eps He) as (eta & E0 & HE). exists eta. split; [assumption|].
  intros s Hs. specialize (HE s Hs).
  replace (-1 ⊗ g' (t + s) ⊖ -1 ⊗ g' t ⊖ s ⊗ (-1 ⊗ d')) with (-1 ⊗ (g' (t + s) ⊖ g' t ⊖ s ⊗ d')).
  - rewrite (norm_scale _ _ nm). replace (Rabs (-1)) with 1 by (rewrite Rabs_left; lra). lra.
  - rewrite !sub_scale. f_equal. rewrite <- !(v_scale_mul e vs). f_equal. lra.
Qed.

(** * The step *)
Variables (f : V -> V) (y0 : V) (D : list V -> V) (p : nat).
Hypothesis sm : smooth e norm f y0 D (S p).
Notation ml := (sm_multilinear _ _ _ _ _ _ sm).
Notation P := (S p).

Lemma series_drop c M N : (M <= N)%nat ->
  approx (series e D c N) (series e D c M) (S M).
Proof.
  intros H. induction H as [|q H IH]; [now apply approx_refl|].
  apply (approx_trans e vs norm nm _ (series e D c q)); [|exact IH].
  apply approx_drop. apply (bigO_weaken norm _ _ (S q + 0)); [|lia].
  apply (bigO_pow e norm nm), (bigO_const e norm nm).
Qed.

(** The stages as a function of the step. *)
Fixpoint klist (h : R) (n : nat) : list V :=
  match n with
  | O => []
  | S n' => klist h n' ++
      [f (y0 ⊕ h ⊗ vsum e n' (fun j => coeff_a m n' j ⊗ nthv e (klist h n') j))]
  end.

Lemma klist_length h n : length (klist h n) = n.
Proof. induction n; cbn; [reflexivity|]. rewrite app_length, IHn. cbn. lia. Qed.

Definition K (h : R) (i : nat) : V := nthv e (klist h (S i)) i.

Lemma klist_prefix h n i : (i < n)%nat -> nthv e (klist h n) i = K h i.
Proof.
  induction n; intros H; [lia|]. destruct (Nat.eq_dec i n) as [->|]; [reflexivity|].
  cbn [klist]. unfold nthv. rewrite app_nth1 by (rewrite klist_length; lia). apply IHn. lia.
Qed.

Lemma K_eq h i : K h i = f (y0 ⊕ h ⊗ vsum e i (fun j => coeff_a m i j ⊗ K h j)).
Proof.
  unfold K at 1. cbn [klist]. unfold nthv. rewrite app_nth2 by (rewrite klist_length; lia).
  rewrite klist_length, Nat.sub_diag. cbn [nth].
  do 3 f_equal. apply vsum_ext. intros j Hj. f_equal. now apply klist_prefix.
Qed.

Lemma K_unique h k n : stages_ok e (fun _ v => f v) y0 h k n ->
  forall i, (i < n)%nat -> k i = K h i.
Proof.
  intros HK. induction i as [i IH] using lt_wf_ind. intros Hi.
  rewrite HK, K_eq by assumption. do 3 f_equal. apply vsum_ext. intros j Hj.
  rewrite IH; [reflexivity|assumption|lia].
Qed.

(** The coefficient of h^n in stage [i]. *)
Definition kterm (i n : nat) : V :=
  lsum e (fun ch => stage_weight m (Node ch) i ⊗ ediff D (Node ch)) (forests n).

Definition arg_coeff (i : nat) (t : tree) : R :=
  sumR i (fun j => coeff_a m i j * stage_weight m t j).

Lemma arg_term i n :
  term e D (arg_coeff i) (S n) = vsum e i (fun j => coeff_a m i j ⊗ kterm j n).
Proof.
  unfold term, kterm. replace (S n - 1)%nat with n by lia.
  rewrite (vsum_ext e i _ (fun j => lsum e (fun ch => (coeff_a m i j * stage_weight m (Node ch) j) ⊗ ediff D (Node ch)) (forests n))).
  2: { intros j _. rewrite <- (lsum_scale e vs). apply lsum_ext. intros. now rewrite (v_scale_mul e vs). }
  rewrite (vsum_lsum e vs). apply lsum_ext. intros ch _. now rewrite (sum_scale e vs).
Qed.

Lemma stage_fterm i n : fterm e D (arg_coeff i) [] n = kterm i n.
Proof. reflexivity. Qed.

Lemma stage_series : forall i,
  approx (fun h => K h i) (fun h => vsum e P (fun n => h ^ n ⊗ kterm i n)) P.
Proof.
  induction i as [i IH] using lt_wf_ind.
  set (d := fun h => h ⊗ vsum e i (fun j => coeff_a m i j ⊗ K h j)).
  apply (approx_ext e norm (fun h => f (y0 ⊕ d h)) (fun h => vsum e P (fun n => h ^ n ⊗ fterm e D (arg_coeff i) [] n))).
  - intros h. rewrite K_eq. reflexivity.
  - reflexivity.
  - apply (rhs_series e vs norm nm D ml (arg_coeff i) f y0 p d sm).
    apply (approx_trans e vs norm nm _ (series e D (arg_coeff i) P)).
    2: apply series_drop; lia.
    apply (approx_weaken e norm _ _ _ (1 + P)); [|lia].
    apply (approx_ext e norm (fun h => h ^ 1 ⊗ vsum e i (fun j => coeff_a m i j ⊗ K h j))
             (fun h => h ^ 1 ⊗ vsum e i (fun j => coeff_a m i j ⊗ vsum e P (fun n => h ^ n ⊗ kterm j n)))).
    { intros h. unfold d. now rewrite pow_1. }
    { intros h. unfold series.
      rewrite (vsum_ext e P _ (fun n => vsum e i (fun j => h ^ S n ⊗ (coeff_a m i j ⊗ kterm j n)))).
      2: { intros n _. rewrite arg_term. now rewrite (vsum_scale e vs). }
      rewrite <- (vsum_swap e vs), <- (vsum_scale e vs). apply vsum_ext. intros j _.
      rewrite <- !(vsum_scale e vs). apply vsum_ext. intros n _.
      rewrite <- !(v_scale_mul e vs). f_equal. cbn [pow]. ring. }
    apply (approx_pow e vs norm nm). apply (approx_vsum e vs norm nm). intros j Hj.
    apply (approx_scale e vs norm nm). apply IH, Hj.
Qed.

(** The increment with weights [b]. *)
Definition increment (b : nat -> R) (h : R) : V :=
  h ⊗ vsum e (stages m) (fun j => b j ⊗ K h j).

Lemma increment_series b :
  approx (increment b) (series e D (weight m b) P) (S P).
Proof.
  apply (approx_ext e norm (fun h => h ^ 1 ⊗ vsum e (stages m) (fun j => b j ⊗ K h j))
           (fun h => h ^ 1 ⊗ vsum e (stages m) (fun j => b j ⊗ vsum e P (fun n => h ^ n ⊗ kterm j n)))).
  { intros h. unfold increment. now rewrite pow_1. }
  { intros h. unfold series.
    rewrite (vsum_ext e P _ (fun n => vsum e (stages m) (fun j => h ^ S n ⊗ (b j ⊗ kterm j n)))).
    2: { intros n _. rewrite (vsum_scale e vs). f_equal.
         unfold term, kterm. replace (S n - 1)%nat with n by lia.
         rewrite (vsum_ext e (stages m) _ (fun j => lsum e (fun ch => (b j * stage_weight m (Node ch) j) ⊗ ediff D (Node ch)) (forests n))).
         2: { intros j _. rewrite <- (lsum_scale e vs). apply lsum_ext. intros. now rewrite (v_scale_mul e vs). }
         rewrite (vsum_lsum e vs). apply lsum_ext. intros ch _. now rewrite (sum_scale e vs). }
    rewrite <- (vsum_swap e vs), <- (vsum_scale e vs). apply vsum_ext. intros j _.
    rewrite <- !(vsum_scale e vs). apply vsum_ext. intros n _.
    rewrite <- !(v_scale_mul e vs). f_equal. cbn [pow]. ring. }
  apply (approx_pow e vs norm nm _ _ P 1). apply (approx_vsum e vs norm nm). intros j Hj.
  apply (approx_scale e vs norm nm). apply stage_series.
Qed.

(** * The exact solution *)
Definition exact_coeff (t : tree) : R := 1 / INR (density t).

Lemma exact_cprod l : cprod exact_coeff l = INR (size (Node l)) * exact_coeff (Node l).
Proof.
  assert (DE : density (Node l) = (size (Node l) * fold_right (fun c n => (density c * n)%nat) 1%nat l)%nat) by reflexivity.
  unfold exact_coeff at 2. rewrite DE, mult_INR.
  assert (SP : INR (size (Node l)) <> 0) by (apply not_0_INR; pose proof (size_pos (Node l)); lia).
  assert (FP : forall l, INR (fold_right (fun c n => (density c * n)%nat) 1%nat l) <> 0).
  { clear. intros l. apply not_0_INR. induction l as [|c l IH]; cbn [fold_right]; [lia|].
    pose proof (density_pos c). nia. }
  replace (INR (size (Node l)) * (1 / (INR (size (Node l)) * INR (fold_right (fun c n => (density c * n)%nat) 1%nat l))))
    with (1 / INR (fold_right (fun c n => (density c * n)%nat) 1%nat l)) by (field; split; [apply FP|assumption]).
  clear -FP. unfold cprod. induction l as [|c l IH]; cbn [fold_right]; [cbn; lra|].
  rewrite IH. unfold exact_coeff. rewrite mult_INR. specialize (FP l).
  assert (INR (density c) <> 0) by (apply not_0_INR; pose proof (density_pos c); lia).
  field. split; assumption.
Qed.

Notation u := (series e D exact_coeff P).
Definition u' (t : R) : V := vsum e P (fun n => (INR (S n) * t ^ n) ⊗ term e D exact_coeff (S n)).

Lemma exact_fterm n : fterm e D exact_coeff [] n = INR (S n) ⊗ term e D exact_coeff (S n).
Proof.
  unfold fterm, term. replace (S n - 1)%nat with n by lia. rewrite <- (lsum_scale e vs).
  apply lsum_ext. intros ch Hch. rewrite <- (v_scale_mul e vs). rewrite exact_cprod.
  replace (size (Node ch)) with (S n).
  - reflexivity.
  - cbn. fold (forest_size ch). now rewrite (forests_size n ch Hch).
Qed.

Lemma derivative_u t : has_derivative e norm u t (u' t).
Proof.
  unfold series, u'. apply derivative_vsum. intros n _.
  apply (derivative_scalar (fun x => x ^ S n)).
  pose proof (derivable_pt_lim_pow t (S n)) as H. cbn [pred] in H. exact H.
Qed.

Lemma rhs_u : approx (fun t => f (y0 ⊕ u t)) u' P.
Proof.
  apply (approx_ext e norm (fun t => f (y0 ⊕ u t)) (fun h => vsum e P (fun n => h ^ n ⊗ fterm e D exact_coeff [] n))).
  - reflexivity.
  - intros h. apply vsum_ext. intros n _. rewrite exact_fterm, <- (v_scale_mul e vs). f_equal. ring.
  - apply (rhs_series e vs norm nm D ml exact_coeff f y0 p _ sm). apply series_drop. lia.
Qed.

Variable y : R -> V.
Hypothesis sol : solution e norm f y0 y.
Definition gap (t : R) : V := y t ⊖ (y0 ⊕ u t).

Lemma u_zero : u 0 = vzero e.
Proof.
  unfold series. rewrite (vsum_ext e P _ (fun _ => vzero e)).
  - apply (vsum_zero e vs).
  - intros n _. cbn [pow]. rewrite Rmult_0_l. apply (v_scale0 e vs).
Qed.

Lemma gap_zero : gap 0 = vzero e.
Proof.
  unfold gap. destruct sol as [-> _]. rewrite u_zero, (v_zero e vs). apply sub_self.
Qed.

Lemma y_gap t : y t = y0 ⊕ (u t ⊕ gap t).
Proof. unfold gap. rewrite (v_assoc e vs). symmetry. apply add_sub. Qed.

Lemma derivative_gap t T : Rabs t <= T ->
  (forall t, Rabs t <= T -> has_derivative e norm y t (f (y t))) ->
  has_derivative e norm gap t (f (y t) ⊖ u' t).
Proof.
  intros Ht HY. unfold gap. apply derivative_sub; [now apply HY|].
  rewrite <- (v_zero_l e vs (u' t)). apply derivative_add; [apply derivative_const|apply derivative_u].
Qed.

Lemma gap_1 : bigO gap 1.
Proof.
  destruct sol as (Y0 & T & T0 & HY).
  pose proof (derivative_gap 0 T ltac:(rewrite Rabs_R0; lra) HY) as HD.
  destruct (HD 1 ltac:(lra)) as (eta & E0 & HE).
  exists (1 + norm (f (y 0) ⊖ u' 0)), (Rmin eta 1).
  pose proof (norm_pos _ _ nm (f (y 0) ⊖ u' 0)).
  split; [lra|]. split. { unfold Rmin. destruct (Rle_dec eta 1); lra. }
  intros h Hh. pose proof (Rmin_l eta 1). specialize (HE h ltac:(lra)).
  rewrite Rplus_0_l, gap_zero in HE.
  replace (gap h ⊖ vzero e) with (gap h) in HE.
  2: { unfold vsub. now rewrite (v_scale_zero e vs), (v_zero e vs). }
  rewrite <- (add_sub (h ⊗ (f (y 0) ⊖ u' 0)) (gap h)).
  eapply Rle_trans; [apply (norm_triangle _ _ nm)|].
  rewrite (norm_scale _ _ nm), pow_1. lra.
Qed.

Lemma gap_step k : (1 <= k <= P)%nat -> bigO gap k -> bigO gap (S k).
Proof.
  intros Hk HG.
  destruct rhs_u as (r & (C2 & H2 & C20 & H20 & B2) & HR).
  destruct (sm_lipschitz _ _ _ _ _ _ sm) as (L & rho & R0 & HL).
  pose proof (bigO_series e vs norm nm D exact_coeff P) as (C3 & H3 & C30 & H30 & B3).
  destruct HG as (C1 & H1 & C10 & H10 & B1).
  pose proof sol as (Y0 & T & T0 & HY).
  set (q := rho / (C1 + C3 + 1)).
  assert (Q0 : 0 < q) by (apply Rdiv_lt_0_compat; lra).
  set (H := Rmin (Rmin H1 H2) (Rmin (Rmin H3 T) q)).
  assert (HH : 0 < H <= 1 /\ H <= H1 /\ H <= H2 /\ H <= H3 /\ H <= T /\ H <= q).
  { unfold H. pose proof (Rmin_l (Rmin H1 H2) (Rmin (Rmin H3 T) q)).
    pose proof (Rmin_r (Rmin H1 H2) (Rmin (Rmin H3 T) q)).
    pose proof (Rmin_l H1 H2). pose proof (Rmin_r H1 H2).
    pose proof (Rmin_l (Rmin H3 T) q). pose proof (Rmin_r (Rmin H3 T) q).
    pose proof (Rmin_l H3 T). pose proof (Rmin_r H3 T).
    split; [|lra]. split; [|lra]. repeat apply Rmin_glb_lt; lra. }
  destruct HH as (HH0 & HA1 & HA2 & HA3 & HA4 & HA5).
  exists (Rabs L * C1 + C2), H. pose proof (Rabs_pos L).
  split; [nra|]. split; [assumption|]. intros t Ht.
  assert (main : norm (gap t ⊖ gap 0) <= ((Rabs L * C1 + C2) * Rabs t ^ k) * Rabs t).
  { assert (0 <= Rabs t ^ k) by (apply pow_le, Rabs_pos).
    apply (mean_value gap (fun s => f (y s) ⊖ u' s)); [apply Rmult_le_pos; nra|].
    intros s Hs. assert (Hs' : Rabs s <= H) by lra. clear Ht.
    split. { apply (derivative_gap s T); [lra|assumption]. }
    pose proof (Rabs_pos s) as AS.
    specialize (B1 s ltac:(lra)). specialize (B2 s ltac:(lra)). specialize (B3 s ltac:(lra)).
    rewrite pow_1 in B3.
    assert (S1 : Rabs s ^ k <= Rabs t ^ k) by (apply pow_incr; lra).
    assert (SK : Rabs s ^ k <= Rabs s).
    { rewrite <- (pow_1 (Rabs s)) at 2. apply pow_anti; [lra|lia]. }
    assert (SP : Rabs s ^ P <= Rabs s ^ k) by (apply pow_anti; [lra|lia]).
    rewrite (sub_chain _ (f (y0 ⊕ u s)) _).
    eapply Rle_trans; [apply (norm_triangle _ _ nm)|].
    assert (N1 : norm (f (y s) ⊖ f (y0 ⊕ u s)) <= Rabs L * (C1 * Rabs s ^ k)).
    { assert (QS : Rabs s * (C1 + C3 + 1) <= rho).
      { replace rho with (q * (C1 + C3 + 1)) by (unfold q; field; lra).
        apply Rmult_le_compat_r; lra. }
      rewrite (y_gap s).
      eapply Rle_trans. { apply HL.
        - eapply Rle_trans; [apply (norm_triangle _ _ nm)|]. nra.
        - nra. }
      rewrite sub_add.
      pose proof (Rle_abs L). pose proof (norm_pos _ _ nm (gap s)). nra. }
    assert (N2 : norm (f (y0 ⊕ u s) ⊖ u' s) <= C2 * Rabs s ^ P).
    { rewrite HR, sub_add. exact B2. }
    assert (Rabs L * (C1 * Rabs s ^ k) <= Rabs L * (C1 * Rabs t ^ k)).
    { apply Rmult_le_compat_l; [assumption|]. apply Rmult_le_compat_l; assumption. }
    assert (C2 * Rabs s ^ P <= C2 * Rabs t ^ k) by (apply Rmult_le_compat_l; lra).
    lra. }
  rewrite gap_zero in main. unfold vsub in main.
  rewrite (v_scale_zero e vs), (v_zero e vs) in main. cbn [pow].
  rewrite (Rmult_comm (Rabs t)), <- Rmult_assoc. exact main.
Qed.

Lemma gap_order : bigO gap (S P).
Proof.
  assert (H : forall k, (k <= P)%nat -> bigO gap (S k)).
  { induction k; intros Hk; [exact gap_1|]. apply gap_step; [lia|]. apply IHk. lia. }
  apply H. lia.
Qed.

Lemma lsum_norm {A} (g : A -> V) l eps (c : A -> R) :
  (forall a, In a l -> Rabs (c a) <= eps) -> 0 <= eps ->
  norm (lsum e (fun a => c a ⊗ g a) l) <= eps * fold_right (fun a r => norm (g a) + r) 0 l.
Proof.
  induction l; intros H He; cbn; [rewrite (norm_zero e vs norm nm); lra|].
  eapply Rle_trans; [apply (norm_triangle _ _ nm)|].
  assert (I : norm (lsum e (fun a => c a ⊗ g a) l) <= eps * fold_right (fun a r => norm (g a) + r) 0 l).
  { apply IHl; [intros; apply H; now right|assumption]. }
  rewrite (norm_scale _ _ nm). specialize (H a (or_introl eq_refl)).
  pose proof (norm_pos _ _ nm (g a)). pose proof (Rabs_pos (c a)). nra.
Qed.

(** The local error. *)
Lemma local_error b eps : order_within m b P eps ->
  exists C H, 0 < H /\ forall h, Rabs h <= H ->
    norm ((y0 ⊕ increment b h) ⊖ y h) <= C * (Rabs h ^ S P + eps * Rabs h).
Proof.
  intros OW.
  assert (E0 : 0 <= eps).
  { specialize (OW leaf ltac:(cbn; lia)). pose proof (Rabs_pos (weight m b leaf - 1 / INR (density leaf))). lra. }
  destruct (increment_series b) as (r & (C1 & H1 & C10 & H10 & B1) & HR).
  destruct gap_order as (C2 & H2 & C20 & H20 & B2).
  set (W := fun n => fold_right (fun ch r => norm (ediff D (Node ch)) + r) 0 (forests n)).
  assert (WP : forall n, 0 <= W n).
  { intros n. unfold W. induction (forests n) as [|ch l IHl]; cbn [fold_right]; [lra|].
    pose proof (norm_pos _ _ nm (ediff D (Node ch))). lra. }
  set (C3 := sumR P W).
  assert (C30 : 0 <= C3).
  { unfold C3. generalize P as N. induction N; cbn [sumR]; [lra|]. specialize (WP N). lra. }
  assert (B3 : forall h, Rabs h <= 1 ->
    norm (series e D (weight m b) P h ⊖ u h) <= C3 * (eps * Rabs h)).
  { intros h Hh.
    assert (ST : forall N, (N <= P)%nat -> norm (series e D (weight m b) N h ⊖ series e D exact_coeff N h) <= sumR N W * (eps * Rabs h)).
    { induction N; intros HN; cbn [series vsum sumR].
      - unfold series. cbn [vsum]. rewrite sub_self, (norm_zero e vs norm nm). lra.
      - unfold series in *. cbn [vsum]. rewrite sub_swap.
        eapply Rle_trans; [apply (norm_triangle _ _ nm)|]. specialize (IHN ltac:(lia)).
        assert (T : norm (h ^ S N ⊗ term e D (weight m b) (S N) ⊖ h ^ S N ⊗ term e D exact_coeff (S N)) <= W N * (eps * Rabs h)).
        { rewrite <- sub_scale, (norm_scale _ _ nm).
          replace (term e D (weight m b) (S N) ⊖ term e D exact_coeff (S N))
            with (lsum e (fun ch => (weight m b (Node ch) - exact_coeff (Node ch)) ⊗ ediff D (Node ch)) (forests N)).
          2: { unfold term. replace (S N - 1)%nat with N by lia. unfold vsub.
               rewrite <- (lsum_scale e vs), <- (lsum_add e vs). apply lsum_ext. intros ch _.
               rewrite <- (v_scale_mul e vs), <- (v_scale_add e vs). f_equal. lra. }
          assert (LN : norm (lsum e (fun ch => (weight m b (Node ch) - exact_coeff (Node ch)) ⊗ ediff D (Node ch)) (forests N)) <= eps * W N).
          { apply (lsum_norm (fun ch => ediff D (Node ch)) (forests N) eps (fun ch => weight m b (Node ch) - exact_coeff (Node ch))); [|assumption].
            intros ch Hch. apply OW. cbn. fold (forest_size ch). rewrite (forests_size N ch Hch). lia. }
          assert (HP : Rabs (h ^ S N) <= Rabs h).
          { rewrite <- RPow_abs. rewrite <- (pow_1 (Rabs h)) at 2. apply pow_anti; [|lia].
            pose proof (Rabs_pos h). lra. }
          pose proof (norm_pos _ _ nm (lsum e (fun ch => (weight m b (Node ch) - exact_coeff (Node ch)) ⊗ ediff D (Node ch)) (forests N))).
          replace (W N * (eps * Rabs h)) with (Rabs h * (eps * W N)) by ring.
          apply Rmult_le_compat; [apply Rabs_pos|assumption|assumption|assumption]. }
        lra. }
    apply ST. lia. }
  exists (C1 + C2 + C3), (Rmin H1 H2). split. { apply Rmin_glb_lt; lra. }
  intros h Hh. pose proof (Rmin_l H1 H2). pose proof (Rmin_r H1 H2).
  specialize (B1 h ltac:(lra)). specialize (B2 h ltac:(lra)). specialize (B3 h ltac:(lra)).
  rewrite (y_gap h), sub_cancel, HR.
  replace (series e D (weight m b) P h ⊕ r h ⊖ (u h ⊕ gap h))
    with ((series e D (weight m b) P h ⊖ u h) ⊕ (r h ⊖ gap h)) by (symmetry; apply sub_swap).
  eapply Rle_trans; [apply (norm_triangle _ _ nm)|].
  pose proof (norm_sub (r h) (gap h)).
  assert (0 <= eps * Rabs h) by (apply Rmult_le_pos; [assumption|apply Rabs_pos]).
  assert (0 <= Rabs h ^ S P) by (apply pow_le, Rabs_pos). nra.
Qed.
End Local.
