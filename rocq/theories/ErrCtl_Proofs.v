From Coq Require Import Reals Lra Psatz.
From Verif Require Import Base ErrCtl_Model ErrCtl_Spec.
Local Open Scope R_scope.

Ltac split_dim :=
  match goal with |- context [(6 <=? ?n)%nat] => destruct (6 <=? n)%nat | _ => idtac end.

Lemma sum_nonneg f x : (forall a, 0 <= f a) -> 0 <= sum_of f x.
Proof. intros Hf. induction x as [|a x IH]; cbn; [lra|]. pose proof (Hf a). lra. Qed.

Lemma sum_mono f x y : (forall a b, Rabs a <= Rabs b -> f a <= f b) -> no_larger x y ->
  sum_of f x <= sum_of f y.
Proof. intros Hf. induction 1 as [|a b x y H _ IH]; cbn; [lra|]. pose proof (Hf _ _ H). lra. Qed.

Lemma sq_mono a b : Rabs a <= Rabs b -> a * a <= b * b.
Proof. intros H. apply Rsqr_le_abs_1. exact H. Qed.

Lemma norm_nonneg x : 0 <= norm x. Proof. apply sqrt_pos. Qed.
Lemma norm_mono x y : no_larger x y -> norm x <= norm y.
Proof. intros H. apply sqrt_le_1_alt. apply sum_mono; [apply sq_mono|exact H]. Qed.

Lemma sum_scale f k c x : (forall a, f (k * a) = c * f a) ->
  sum_of f (scaled k x) = c * sum_of f x.
Proof.
  intros Hf. induction x as [|a x IH]; cbn; [lra|]. fold (scaled k x). rewrite Hf, IH. ring.
Qed.

Lemma norm_scale k x : norm (scaled k x) = Rabs k * norm x.
Proof.
  unfold norm. rewrite (sum_scale _ k (k * k)) by (intros; ring).
  rewrite sqrt_mult_alt by nra. f_equal. apply sqrt_Rsqr_abs.
Qed.
Lemma sum_abs_scale k x : sum_of Rabs (scaled k x) = Rabs k * sum_of Rabs x.
Proof. apply sum_scale. intros. apply Rabs_mult. Qed.

Lemma sum_zero f x : (forall a, 0 <= f a) -> (forall a, f a = 0 -> a = 0) ->
  sum_of f x = 0 -> Forall (fun a => a = 0) x.
Proof.
  intros H1 H2. induction x as [|a x IH]; cbn; intros H; constructor.
  - apply H2. pose proof (H1 a). pose proof (sum_nonneg f x H1). lra.
  - apply IH. pose proof (H1 a). pose proof (sum_nonneg f x H1). lra.
Qed.
Lemma norm_zero x : norm x = 0 -> Forall (fun a => a = 0) x.
Proof.
  intros H. apply sqrt_eq_0 in H; [|apply sum_nonneg; intros; nra].
  revert H. apply sum_zero; intros; nra.
Qed.
Lemma sum_abs_zero x : sum_of Rabs x = 0 -> Forall (fun a => a = 0) x.
Proof.
  apply sum_zero; [apply Rabs_pos|]. intros a Ha.
  destruct (Req_dec a 0) as [|N]; [assumption|]. apply Rabs_no_R0 in N. contradiction.
Qed.

Lemma sum_mirror f x : (forall a, f (- a) = f a) -> forall fl, sum_of f (mirror fl x) = sum_of f x.
Proof.
  intros Hf. induction x as [|a x IH]; intros [|g fl]; cbn; try reflexivity.
  rewrite IH. destruct g; rewrite ?Hf; reflexivity.
Qed.
Lemma norm_mirror fl x : norm (mirror fl x) = norm x.
Proof. unfold norm. rewrite sum_mirror; [reflexivity|]. intros; ring. Qed.
Lemma zip_mirror f x : (forall a b, f (- a) (- b) = - f a b) -> forall y fl,
  zip_with f (mirror fl x) (mirror fl y) = mirror fl (zip_with f x y).
Proof.
  intros Hf. induction x as [|a x IH]; intros [|b y] [|g fl]; cbn; try reflexivity.
  rewrite IH. destruct g; rewrite ?Hf; reflexivity.
Qed.
Lemma mirror_plus fl x y : zip_with Rplus (mirror fl x) (mirror fl y) = mirror fl (zip_with Rplus x y).
Proof. apply zip_mirror. intros; ring. Qed.
Lemma mirror_minus fl x y : zip_with Rminus (mirror fl x) (mirror fl y) = mirror fl (zip_with Rminus x y).
Proof. apply zip_mirror. intros; ring. Qed.
Lemma mirror_length fl : forall x, length (mirror fl x) = length x.
Proof. induction fl as [|f fl IH]; intros [|a x]; cbn; auto. Qed.
Lemma mirror_skipn i : forall fl x, skipn i (mirror fl x) = mirror (skipn i fl) (skipn i x).
Proof.
  induction i as [|i IH]; intros fl x; [reflexivity|].
  destruct fl as [|f fl], x as [|a x]; cbn; try reflexivity.
  - destruct (skipn i fl); reflexivity.
  - apply IH.
Qed.
Lemma mirror_firstn i : forall fl x, firstn i (mirror fl x) = mirror fl (firstn i x).
Proof.
  induction i as [|i IH]; intros fl x; destruct fl as [|f fl], x as [|a x]; cbn; try reflexivity.
  now rewrite IH.
Qed.
Lemma mirror_rows i fl x : fixed_rows3 i (mirror fl x) = mirror (skipn i fl) (fixed_rows3 i x).
Proof. unfold fixed_rows3. now rewrite mirror_skipn, mirror_firstn. Qed.

(** The quotient by a magnitude above a positive threshold. *)
Definition guarded (thr mag e : R) : R := if Rlt_dec thr mag then e / mag else e.
Lemma guarded_nonneg thr mag e : 0 <= thr -> 0 <= e -> 0 <= guarded thr mag e.
Proof.
  intros. unfold guarded. destruct (Rlt_dec thr mag); [|assumption].
  apply Rmult_le_pos; [assumption|]. left. apply Rinv_0_lt_compat. lra.
Qed.
Lemma guarded_mono thr mag e e' : 0 <= thr -> e <= e' -> guarded thr mag e <= guarded thr mag e'.
Proof.
  intros. unfold guarded. destruct (Rlt_dec thr mag); [|assumption].
  apply Rmult_le_compat_r; [|assumption]. left. apply Rinv_0_lt_compat. lra.
Qed.
Lemma guarded_scale thr mag k e : guarded thr mag (k * e) = k * guarded thr mag e.
Proof. unfold guarded. destruct (Rlt_dec thr mag); [|reflexivity]. unfold Rdiv. ring. Qed.
Lemma guarded_zero thr mag e : 0 <= thr -> guarded thr mag e = 0 -> e = 0.
Proof.
  intros H. unfold guarded. destruct (Rlt_dec thr mag); [|trivial]. intros E.
  apply Rmult_integral in E. destruct E as [E|E]; [assumption|].
  apply Rinv_neq_0_compat in E; [contradiction|lra].
Qed.

Lemma thr_pos : 0 <= REL_ERR_THRESH. Proof. unfold REL_ERR_THRESH. lra. Qed.
Lemma thr_sqrt_pos : 0 <= sqrt REL_ERR_THRESH. Proof. apply sqrt_pos. Qed.
Lemma rss_state_g e c x : rss_state e c x = guarded REL_ERR_THRESH (1 / 2 * norm (zip_with Rplus c x)) (norm e).
Proof. reflexivity. Qed.
Lemma rss_step_g e c x : rss_step e c x = guarded (sqrt REL_ERR_THRESH) (norm (zip_with Rminus c x)) (norm e).
Proof. reflexivity. Qed.
Lemma largest_state_g e c x : largest_state e c x =
  guarded REL_ERR_THRESH (sum_of (fun a => 1 / 2 * Rabs a) (zip_with Rplus c x)) (sum_of Rabs e).
Proof. reflexivity. Qed.
Lemma largest_step_g e c x : largest_step e c x =
  guarded REL_ERR_THRESH (sum_of Rabs (zip_with Rminus c x)) (sum_of Rabs e).
Proof. reflexivity. Qed.

(** The running maximum. *)
Lemma largest_ge e : forall d m, m <= largest_error m e d.
Proof.
  induction e as [|a e IH]; intros [|b d] m; cbn; try lra.
  eapply Rle_trans; [|apply IH].
  match goal with |- _ <= if Rlt_dec m ?x then _ else _ => destruct (Rlt_dec m x) end; lra.
Qed.
Lemma comp_abs (a b : R) : (if Rlt_dec REL_ERR_THRESH b then Rabs (a / b) else Rabs a)
  = guarded REL_ERR_THRESH b (Rabs a).
Proof.
  unfold guarded. destruct (Rlt_dec REL_ERR_THRESH b) as [H|H]; [|reflexivity].
  unfold Rdiv. rewrite Rabs_mult. f_equal. apply Rabs_pos_eq. left.
  apply Rinv_0_lt_compat. pose proof thr_pos. lra.
Qed.
Lemma largest_cons m a e b d : largest_error m (a :: e) (b :: d) =
  largest_error (Rmax m (guarded REL_ERR_THRESH b (Rabs a))) e d.
Proof.
  cbn [largest_error]. rewrite comp_abs. f_equal.
  unfold Rmax. destruct (Rlt_dec _ _), (Rle_dec _ _); lra.
Qed.
Lemma largest_mono e e' : no_larger e e' -> forall d m m', m <= m' ->
  largest_error m e d <= largest_error m' e' d.
Proof.
  induction 1 as [|a b x y H _ IH]; intros d m m' Hm; [destruct d; exact Hm|].
  destruct d as [|c d]; [exact Hm|]. rewrite !largest_cons. apply IH.
  pose proof (guarded_mono REL_ERR_THRESH c _ _ thr_pos H).
  unfold Rmax. destruct (Rle_dec m _), (Rle_dec m' _); lra.
Qed.
Lemma largest_scale k e : forall d m,
  largest_error (Rabs k * m) (scaled k e) d = Rabs k * largest_error m e d.
Proof.
  induction e as [|a e IH]; intros [|b d] m; try reflexivity.
  cbn [scaled map]. fold (scaled k e). rewrite !largest_cons. rewrite <- IH. f_equal.
  rewrite Rabs_mult, guarded_scale. apply RmaxRmult. apply Rabs_pos.
Qed.
Lemma largest_zero e : forall d m, length e = length d -> 0 <= m -> largest_error m e d = 0 ->
  Forall (fun a => a = 0) e.
Proof.
  induction e as [|a e IH]; intros [|b d] m Hl Hm H; cbn in Hl; try discriminate; constructor.
  - rewrite largest_cons in H.
    pose proof (largest_ge e d (Rmax m (guarded REL_ERR_THRESH b (Rabs a)))) as G.
    rewrite H in G. pose proof (Rmax_r m (guarded REL_ERR_THRESH b (Rabs a))).
    pose proof (guarded_nonneg REL_ERR_THRESH b (Rabs a) thr_pos (Rabs_pos a)).
    assert (Z : Rabs a = 0) by (apply (guarded_zero REL_ERR_THRESH b); [apply thr_pos|lra]).
    destruct (Req_dec a 0) as [|N]; [assumption|]. apply Rabs_no_R0 in N. contradiction.
  - rewrite largest_cons in H. apply (IH d _ ltac:(lia)) in H; [assumption|].
    eapply Rle_trans; [exact Hm|apply Rmax_l].
Qed.

Lemma no_larger_rows i x y : no_larger x y -> no_larger (fixed_rows3 i x) (fixed_rows3 i y).
Proof.
  intros H. unfold fixed_rows3.
  assert (S : no_larger (skipn i x) (skipn i y)).
  { revert x y H. induction i as [|i IH]; intros x y H; [exact H|].
    destruct H; cbn; [constructor|]. now apply IH. }
  revert S. generalize (skipn i x) (skipn i y). clear. intros u v H.
  generalize 3%nat as n. intros n. revert u v H.
  induction n as [|n IH]; intros u v H; [constructor|].
  destruct H; cbn; constructor; [assumption|]. now apply IH.
Qed.
Lemma scaled_rows i k x : fixed_rows3 i (scaled k x) = scaled k (fixed_rows3 i x).
Proof. unfold fixed_rows3, scaled. now rewrite skipn_map, firstn_map. Qed.

Lemma estimate_nonneg c e x y : 0 <= estimate c e x y.
Proof.
  pose proof thr_pos. pose proof thr_sqrt_pos.
  assert (A : forall e x y, 0 <= rss_state e x y)
    by (intros; rewrite rss_state_g; apply guarded_nonneg; [assumption|apply norm_nonneg]).
  assert (B : forall e x y, 0 <= rss_step e x y)
    by (intros; rewrite rss_step_g; apply guarded_nonneg; [assumption|apply norm_nonneg]).
  destruct c; cbn [estimate]; split_dim; auto; unfold cartesian.
  - eapply Rle_trans; [apply A|apply Rmax_l].
  - eapply Rle_trans; [apply B|apply Rmax_l].
  - apply largest_ge.
  - rewrite largest_state_g. apply guarded_nonneg; [assumption|]. apply sum_nonneg, Rabs_pos.
  - rewrite largest_step_g. apply guarded_nonneg; [assumption|]. apply sum_nonneg, Rabs_pos.
Qed.

Lemma estimate_mono c e e' x y : no_larger e e' -> estimate c e x y <= estimate c e' x y.
Proof.
  intros H. pose proof thr_pos. pose proof thr_sqrt_pos.
  assert (A : forall e e' x y, no_larger e e' -> rss_state e x y <= rss_state e' x y)
    by (intros; rewrite !rss_state_g; apply guarded_mono; [assumption|now apply norm_mono]).
  assert (B : forall e e' x y, no_larger e e' -> rss_step e x y <= rss_step e' x y)
    by (intros; rewrite !rss_step_g; apply guarded_mono; [assumption|now apply norm_mono]).
  assert (L : length e = length e') by (clear -H; induction H; cbn; auto).
  assert (M : forall a b c d, a <= c -> b <= d -> Rmax a b <= Rmax c d).
  { intros a b c' d ? ?. unfold Rmax. destruct (Rle_dec a b), (Rle_dec c' d); lra. }
  destruct c; cbn [estimate]; rewrite <- ?L; split_dim; auto;
    unfold cartesian; auto using no_larger_rows.
  - apply largest_mono; [assumption|lra].
  - rewrite !largest_state_g. apply guarded_mono; [assumption|]. now apply sum_mono.
  - rewrite !largest_step_g. apply guarded_mono; [assumption|]. now apply sum_mono.
Qed.

Lemma estimate_scale c k e x y : estimate c (scaled k e) x y = Rabs k * estimate c e x y.
Proof.
  assert (A : forall e x y, rss_state (scaled k e) x y = Rabs k * rss_state e x y)
    by (intros; rewrite !rss_state_g, norm_scale; apply guarded_scale).
  assert (B : forall e x y, rss_step (scaled k e) x y = Rabs k * rss_step e x y)
    by (intros; rewrite !rss_step_g, norm_scale; apply guarded_scale).
  assert (L : length (scaled k e) = length e) by apply map_length.
  assert (M : forall a b, Rmax (Rabs k * a) (Rabs k * b) = Rabs k * Rmax a b)
    by (intros; apply RmaxRmult, Rabs_pos).
  destruct c; cbn [estimate]; rewrite ?L; split_dim; auto;
    unfold cartesian; rewrite ?scaled_rows, ?A, ?B, ?M; auto.
  - rewrite <- largest_scale. f_equal. ring.
  - rewrite !largest_state_g, sum_abs_scale. apply guarded_scale.
  - rewrite !largest_step_g, sum_abs_scale. apply guarded_scale.
Qed.

Lemma zip_length f x : forall y, length x = length y -> length (zip_with f x y) = length x.
Proof. induction x as [|a x IH]; intros [|b y] H; cbn in *; try discriminate; auto. Qed.

Lemma Forall_six (P : R -> Prop) x :
  Forall P (fixed_rows3 0 x) -> Forall P (fixed_rows3 3 x) -> Forall P (firstn 6 x).
Proof.
  unfold fixed_rows3. change (skipn 0 x) with x. intros H1 H2. rewrite (firstn_skipn_comm 3 3 x) in H2.
  cbn [Nat.add] in H2.
  rewrite <- (firstn_skipn 3 (firstn 6 x)). apply Forall_app. split; [|exact H2].
  rewrite firstn_firstn. exact H1.
Qed.

Lemma estimate_zero c e x y : length x = length e -> length y = length e ->
  estimate c e x y = 0 -> Forall (fun a => a = 0) (firstn (watched c (length e)) e).
Proof.
  intros Lx Ly. pose proof thr_pos as T. pose proof thr_sqrt_pos as TS.
  assert (A : forall e x y, rss_state e x y = 0 -> Forall (fun a => a = 0) e).
  { intros e0 x0 y0. rewrite rss_state_g. intros H. apply guarded_zero in H; [|assumption].
    now apply norm_zero. }
  assert (B : forall e x y, rss_step e x y = 0 -> Forall (fun a => a = 0) e).
  { intros e0 x0 y0. rewrite rss_step_g. intros H. apply guarded_zero in H; [|assumption].
    now apply norm_zero. }
  assert (M : forall a b, 0 <= a -> 0 <= b -> Rmax a b = 0 -> a = 0 /\ b = 0).
  { intros a b ? ?. unfold Rmax. destruct (Rle_dec a b); lra. }
  pose proof (fun e x y => estimate_nonneg RSSState e x y) as PA.
  pose proof (fun e x y => estimate_nonneg RSSStep e x y) as PB. cbn [estimate] in PA, PB.
  destruct c; cbn [estimate watched]; split_dim; intros H;
    rewrite ?firstn_all; eauto.
  - apply M in H; [|apply PA|apply PA]. destruct H as [H1 H2]. apply Forall_six; eauto.
  - apply M in H; [|apply PB|apply PB]. destruct H as [H1 H2]. apply Forall_six; eauto.
  - apply largest_zero in H; [assumption| |lra]. rewrite zip_length; congruence.
  - rewrite largest_state_g in H. apply guarded_zero in H; [|assumption]. now apply sum_abs_zero.
  - rewrite largest_step_g in H. apply guarded_zero in H; [|assumption]. now apply sum_abs_zero.
Qed.

Lemma estimate_mirror c fl e x y : c <> LargestError ->
  estimate c (mirror fl e) (mirror fl x) (mirror fl y) = estimate c e x y.
Proof.
  intros Hc.
  assert (A : forall fl e x y, rss_state (mirror fl e) (mirror fl x) (mirror fl y) = rss_state e x y)
    by (intros; rewrite !rss_state_g, mirror_plus, !norm_mirror; reflexivity).
  assert (B : forall fl e x y, rss_step (mirror fl e) (mirror fl x) (mirror fl y) = rss_step e x y)
    by (intros; rewrite !rss_step_g, mirror_minus, !norm_mirror; reflexivity).
  destruct c; cbn [estimate]; rewrite ?mirror_length; split_dim; auto;
    unfold cartesian; rewrite ?mirror_rows, ?A, ?B; auto; try contradiction.
  - rewrite !largest_state_g, mirror_plus, !sum_mirror; auto using Rabs_Ropp.
    intros; now rewrite Rabs_Ropp.
  - rewrite !largest_step_g, mirror_minus, !sum_mirror; auto using Rabs_Ropp.
Qed.

(** One component advances by 10 with an error of 1, then retreats by 10 with an error of 1. *)
Lemma largest_error_direction :
  estimate LargestError [1] [10] [0] = 1 / 10 /\ estimate LargestError [-1] [-10] [0] = 1.
Proof.
  cbn [estimate zip_with]. rewrite !largest_cons. cbn [largest_error].
  unfold guarded, REL_ERR_THRESH.
  destruct (Rlt_dec (1 / 10) (10 - 0)); [|lra]. destruct (Rlt_dec (1 / 10) (-10 - 0)); [lra|].
  rewrite (Rabs_pos_eq 1) by lra. rewrite (Rabs_left (-1)) by lra.
  unfold Rmax. destruct (Rle_dec _ _), (Rle_dec _ _); lra.
Qed.

(** Components past the sixth do not enter the Cartesian estimators. *)
Lemma cartesian_ignores c e x y : (c = RSSCartesianState \/ c = RSSCartesianStep) ->
  (6 <= length e)%nat ->
  estimate c e x y = estimate c (firstn 6 e) (firstn 6 x) (firstn 6 y).
Proof.
  intros Hc He.
  assert (R : forall x, fixed_rows3 0 (firstn 6 x) = fixed_rows3 0 x).
  { intros. unfold fixed_rows3. cbn [skipn]. now rewrite firstn_firstn. }
  assert (R3 : forall x, fixed_rows3 3 (firstn 6 x) = fixed_rows3 3 x).
  { intros. unfold fixed_rows3. rewrite skipn_firstn_comm. now rewrite firstn_firstn. }
  assert (L : (6 <=? length e)%nat = true) by (apply Nat.leb_le; lia).
  assert (L' : (6 <=? length (firstn 6 e))%nat = true).
  { rewrite firstn_length. apply Nat.leb_le. lia. }
  destruct Hc as [-> | ->]; cbn [estimate]; rewrite L, L'; unfold cartesian; now rewrite !R, !R3.
Qed.
