(** Properties of measurement noises (C39), of the bias and noise the filter assumes (C62) and of
    the builders of ground stations (C63). *)
From Coq Require Import String Reals Lra Permutation.
From Verif Require Import Base Arc_Model Sens_Model Sched_Model Traj_Model Sol_Model Noise_Model Noise_Spec Noise_Proofs.
From Verif Require Import Prop_Model Prop_Examples Odp_Model Odp_Props.
From Verif Require Noise_Model.
Local Open Scope string_scope.
Local Open Scope R_scope.

Notation measure := Noise_Model.measure.

(** ** C39.  Constructors. *)
Lemma seconds_pos d : 0 < seconds d <-> (0 < d)%Z.
Proof.
  unfold seconds. split; intros H.
  - apply lt_IZR. apply (Rmult_lt_reg_r (/ IZR 1000000000)); [lra|]. unfold Rdiv in H. lra.
  - apply IZR_lt in H. apply Rmult_lt_0_compat; [exact H|]. lra.
Qed.
Theorem C39_white_new :
  forall q d, (0 <= q /\ (0 < d)%Z ->
               exists n, white_new q d = Ok n /\ mean n = 0 /\ sigma n * seconds d = q /\ 0 <= sigma n) /\
              (q < 0 \/ (d <= 0)%Z -> exists e, white_new q d = Err e).
Proof.
  intros q d. unfold white_new. split.
  - intros (Hq & Hd). apply seconds_pos in Hd. destruct (Rlt_dec q 0); [lra|].
    destruct (Rle_dec (seconds d) 0); [lra|]. eexists. split; [reflexivity|]. cbn [mean sigma].
    split; [reflexivity|]. split; [field; lra|]. apply Rmult_le_pos; [exact Hq|].
    apply Rlt_le. now apply Rinv_0_lt_compat.
  - intros H. destruct (Rlt_dec q 0); [eauto|]. destruct (Rle_dec (seconds d) 0) as [|Hn]; [eauto|].
    exfalso. destruct H as [H|H]; [lra|]. apply Rnot_le_lt, seconds_pos in Hn. lia.
Qed.
Print Assumptions C39_white_new.
(** The noise of a power over a noise density and of a bandwidth: all positive for positive ones, smaller
    with more of either. *)
Theorem C39_pr_n0 : forall p b, 0 < p -> 0 < b ->
  mean (from_pr_n0 p b) = 0 /\ 0 < sigma (from_pr_n0 p b) /\
  sigma (from_pr_n0 p b) * (2 * b * sqrt p) = 299792458 / 1000 /\
  (forall p', p < p' -> sigma (from_pr_n0 p' b) < sigma (from_pr_n0 p b)) /\
  (forall b', b < b' -> sigma (from_pr_n0 p b') < sigma (from_pr_n0 p b)).
Proof.
  intros p b Hp Hb. assert (Sp : 0 < sqrt p) by now apply sqrt_lt_R0.
  assert (C : 0 < SPEED_OF_LIGHT_KM_S) by (unfold SPEED_OF_LIGHT_KM_S; apply Rdiv_lt_0_compat; [apply IZR_lt; lia|lra]).
  unfold from_pr_n0. cbn [mean sigma]. split; [reflexivity|].
  assert (D : 0 < 2 * b * sqrt p) by (apply Rmult_lt_0_compat; lra).
  split; [now apply Rdiv_lt_0_compat|]. split; [unfold SPEED_OF_LIGHT_KM_S; field; split; lra|].
  split; intros x' Hx; unfold Rdiv; apply Rmult_lt_compat_l; try exact C; apply Rinv_lt_contravar.
  - apply Rmult_lt_0_compat; [exact D|]. apply Rmult_lt_0_compat; [lra|]. apply sqrt_lt_R0. lra.
  - apply Rmult_lt_compat_l; [lra|]. apply sqrt_lt_1_alt. lra.
  - apply Rmult_lt_0_compat; [exact D|]. apply Rmult_lt_0_compat; lra.
  - apply Rmult_lt_compat_r; [exact Sp|]. lra.
Qed.
Print Assumptions C39_pr_n0.
Example C39_white_example : exists n, white_new 6 60000000000 = Ok n /\ sigma n = / 10.
Proof.
  destruct (proj1 (C39_white_new 6 60000000000)) as (n & H & _ & Hs & _); [split; [lra|lia]|].
  exists n. split; [exact H|]. unfold seconds in Hs. lra.
Qed.

Theorem C39_gauss_markov_new_partial :
  forall tau0 q, ((0 < tau0)%Z -> exists g, gm_new tau0 q = Ok g /\ tau g = tau0 /\
                    process_noise g = q /\ constant g = None) /\
                 ((tau0 <= 0)%Z -> exists e, gm_new tau0 q = Err e).
Proof.
  intros t q. unfold gm_new. destruct (t <=? 0)%Z eqn:E1; [apply Z.leb_le in E1|apply Z.leb_gt in E1];
    split; intros H; try lia; eexists; repeat split.
Qed.
Print Assumptions C39_gauss_markov_new_partial.
(** A negative process noise is accepted. *)
Theorem C39_gauss_markov_new_refuted :
  exists g, gm_new 60000000000 (-1) = Ok g /\ process_noise g = -1.
Proof. eexists. split; reflexivity. Qed.
Print Assumptions C39_gauss_markov_new_refuted.

(** ** C39.  Variances: never negative, those of the parts add up, and scale with the square. *)
Theorem C39_variance :
  forall n x, 0 <= covariance n /\
    covariance n = covariance {| white_noise := white_noise n; bias := None |}
                   + covariance {| white_noise := None; bias := bias n |} /\
    covariance (noise_mul n x) = x ^ 2 * covariance n.
Proof.
  intros [wn g] x. unfold covariance, noise_mul, white_covariance, gm_covariance.
  cbn [white_noise bias].
  assert (H2 : forall y : R, 0 <= y ^ 2) by (intros; apply pow2_ge_0).
  split; [|split].
  - destruct wn as [wn|], g as [g|]; try lra; try (pose proof (H2 (sigma wn))); try (pose proof (H2 (process_noise g))); lra.
  - destruct wn, g; lra.
  - destruct wn as [wn|], g as [g|]; cbn [option_map]; unfold white_mul, gm_mul; cbn [sigma process_noise]; ring.
Qed.
Print Assumptions C39_variance.
Definition demo_noise : noise :=
  {| white_noise := Some {| mean := 0; sigma := 3 |};
     bias := Some {| tau := 60000000000; process_noise := 4; constant := Some 5; prev_epoch := None;
                     init_sample := None |} |}.
Example C39_variance_example :
  covariance demo_noise = 25 /\ covariance (noise_mul demo_noise 2) = 100.
Proof.
  destruct (C39_variance demo_noise 2) as (_ & _ & H). rewrite H.
  unfold covariance, demo_noise, white_covariance, gm_covariance. cbn [white_noise bias sigma process_noise].
  split; lra.
Qed.

(** White noise: the reported variance and mean are those of the samples. *)
Theorem C39_white_samples :
  forall n k E wn, expectation n E -> (k < n)%nat ->
    E (fun w => fst (white_sample w wn k)) = mean wn /\
    variance E (fun w => fst (white_sample w wn k)) = white_covariance wn /\
    forall w, snd (white_sample w wn k) = S k.
Proof.
  intros n k E wn HE Hk. cbn [white_sample draw fst snd].
  assert (Hm : E (fun w => mean wn + sigma wn * w k) = mean wn).
  { rewrite (E_plus n E HE (fun _ => mean wn) (fun w => sigma wn * w k)).
    rewrite (E_const n E HE), (E_scale n E HE), (E_mean _ _ HE) by assumption. ring. }
  split; [exact Hm|]. split; [|reflexivity].
  unfold variance. rewrite Hm.
  rewrite (E_ext _ _ HE _ (fun w => sigma wn ^ 2 * (w k * w k))) by (intros; ring).
  rewrite (E_scale n E HE _ (fun w => w k * w k)), (E_cov _ _ HE) by assumption.
  rewrite Nat.eqb_refl. unfold white_covariance. ring.
Qed.
Print Assumptions C39_white_samples.
Example C39_white_samples_example :
  variance (coins 1) (fun w => fst (white_sample w {| mean := 7; sigma := 3 |} 0)) = 9.
Proof.
  destruct (C39_white_samples 1 0 (coins 1) {| mean := 7; sigma := 3 |} (coins_expectation 1))
    as (_ & H & _); [lia|]. rewrite H. unfold white_covariance. cbn [sigma]. lra.
Qed.

(** ** C39.  Samples of a Gauss-Markov process, for every history of epochs: one draw is kept for
    the whole history and fades with the time since the {e previous} sample only. *)
Theorem C39_history :
  forall w ts g k i t, prev_epoch g = None -> init_sample g = None -> nth_error ts i = Some t ->
    let fade := exp (- seconds (t - previous ts i) / seconds (tau g)) in
    nth_error (gm_samples w ts g k) i =
    Some (process_noise g * w k * fade
          + / 2 * process_noise g * seconds (tau g) * (1 - fade) * w (k + 1 + i)%nat
          + or_zero (constant g)).
Proof. intros w ts g k i t Hp Hi Ht. exact (gm_history w ts g k Hp Hi i t Ht). Qed.
Print Assumptions C39_history.
Lemma seconds_minute : seconds 60000000000 = 60.
Proof. unfold seconds. lra. Qed.
Definition minute_gm : gm :=
  {| tau := 60000000000; process_noise := 1; constant := None; prev_epoch := None; init_sample := None |}.
Definition minutes : list Z := [0; 60000000000; 120000000000]%Z.

(** With a sample every minute, the contribution of the first draw is the same at all times,
    where after two time constants it should be [exp (-2)] of what it was. *)
Theorem C39_decay_refuted :
  forall w k, exists x0 x1 x2, gm_samples w minutes minute_gm k = [x0; x1; x2] /\
    x0 = w k /\
    x1 = w k * exp (-1) + 30 * (1 - exp (-1)) * w (k + 2)%nat /\
    x2 = w k * exp (-1) + 30 * (1 - exp (-1)) * w (k + 3)%nat /\
    exp (-2) < exp (-1).
Proof.
  intros w k.
  pose proof (C39_history w minutes minute_gm k 0 0 eq_refl eq_refl eq_refl) as H0.
  pose proof (C39_history w minutes minute_gm k 1 60000000000 eq_refl eq_refl eq_refl) as H1.
  pose proof (C39_history w minutes minute_gm k 2 120000000000 eq_refl eq_refl eq_refl) as H2.
  destruct (gm_samples w minutes minute_gm k) as [|x0 [|x1 [|x2 [|]]]] eqn:E1;
    try (unfold minutes in E1; cbn [gm_samples] in E1; discriminate E1);
    try discriminate H0; try discriminate H1; try discriminate H2.
  cbn [nth_error] in H0, H1, H2. unfold previous, minutes in H0, H1, H2.
  cbn [Nat.sub nth minute_gm process_noise tau constant or_zero] in H0, H1, H2.
  change (0 - 0)%Z with 0%Z in H0. change (60000000000 - 0)%Z with 60000000000%Z in H1.
  change (120000000000 - 60000000000)%Z with 60000000000%Z in H2.
  rewrite seconds_minute in H0, H1, H2.
  assert (Hz : seconds 0 = 0) by (unfold seconds; lra). rewrite Hz in H0.
  replace (- 0 / 60) with 0 in H0 by field. rewrite exp_0 in H0.
  replace (- (60) / 60) with (-1) in H1, H2 by field.
  exists x0, x1, x2. split; [reflexivity|].
  replace (k + 1 + 1)%nat with (k + 2)%nat in H1 by lia.
  replace (k + 1 + 2)%nat with (k + 3)%nat in H2 by lia.
  apply (f_equal (fun o => match o with Some v => v | None => 0 end)) in H0, H1, H2.
  repeat split; try lra. apply exp_increasing. lra.
Qed.
Print Assumptions C39_decay_refuted.

(** Their variance is the reported one at the first sample... *)
Theorem C39_first_variance :
  forall n k E g t, expectation n E -> (k + 2 < n)%nat -> prev_epoch g = None -> init_sample g = None ->
    variance E (fun w => hd 0 (gm_samples w [t] g k)) = gm_covariance g.
Proof.
  intros n k E g t HE Hk Hp Hi.
  rewrite (variance_ext n E HE _ (fun w => or_zero (constant g) + process_noise g * w k
    + 0 * w (k + 1)%nat + 0 * w (k + 2)%nat)).
  - rewrite (variance_three n E HE) by lia. unfold gm_covariance. ring.
  - intros w. pose proof (C39_history w [t] g k 0 t Hp Hi eq_refl) as H. cbv zeta in H.
    destruct (gm_samples w [t] g k) as [|x l]; [discriminate|]. cbn [nth_error hd] in H |- *.
    unfold previous in H. cbn [Nat.sub nth] in H. rewrite Z.sub_diag in H.
    fold (decay g 0) in H. rewrite decay_zero in H. apply (f_equal or_zero) in H. cbn [or_zero] in H.
    rewrite H. ring.
Qed.
Print Assumptions C39_first_variance.
(** ...and in general something else. *)
Theorem C39_later_variance_partial :
  forall n k E g ts i t, expectation n E -> (k + 2 + i < n)%nat ->
    prev_epoch g = None -> init_sample g = None -> nth_error ts i = Some t ->
    let fade := exp (- seconds (t - previous ts i) / seconds (tau g)) in
    variance E (fun w => nth i (gm_samples w ts g k) 0) =
    process_noise g ^ 2 * (fade ^ 2 + (seconds (tau g) / 2 * (1 - fade)) ^ 2).
Proof.
  intros n k E g ts i t HE Hk Hp Hi Ht fade.
  rewrite (variance_ext n E HE _ (fun w => or_zero (constant g) + (process_noise g * fade) * w k
    + (/ 2 * process_noise g * seconds (tau g) * (1 - fade)) * w (k + 1 + i)%nat + 0 * w (k + 2 + i)%nat)).
  - rewrite (variance_three n E HE) by lia. unfold Rdiv. ring.
  - intros w. pose proof (C39_history w ts g k i t Hp Hi Ht) as H. cbv zeta in H. fold fade in H.
    rewrite (nth_error_nth _ _ 0 H). ring.
Qed.
Print Assumptions C39_later_variance_partial.
Lemma exp_m1_bounds : / 4 < exp (-1) < / 2.
Proof.
  assert (H : 2 < exp 1 < 4).
  { split.
    - pose proof (exp_ineq1 1). lra.
    - pose proof exp_le_3. lra. }
  replace (-1) with (- (1)) by ring. rewrite exp_Ropp.
  split; apply Rinv_lt_contravar; try lra; nra.
Qed.
(** One minute later the variance of a process of time constant one minute and of variance 1 is
    more than 200, where the filter is told 1. *)
Theorem C39_variance_refuted :
  exists E, expectation 4 E /\
    gm_covariance minute_gm = 1 /\
    200 < variance E (fun w => nth 1 (gm_samples w minutes minute_gm 0) 0).
Proof.
  exists (coins 4). split; [apply coins_expectation|]. split; [unfold gm_covariance; cbn; lra|].
  rewrite (C39_later_variance_partial 4 0 (coins 4) minute_gm minutes 1 60000000000 (coins_expectation 4))
    by (reflexivity || lia).
  unfold previous, minutes. cbn [Nat.sub nth minute_gm process_noise tau].
  change (60000000000 - 0)%Z with 60000000000%Z. rewrite seconds_minute.
  replace (- (60) / 60) with (-1) by field. pose proof exp_m1_bounds. nra.
Qed.
Print Assumptions C39_variance_refuted.

(** ** C39.  Scaling: the samples of a scaled process without a constant are the scaled samples... *)
Theorem C39_scaled_samples_partial :
  forall w wn x k, mean wn = 0 ->
    fst (white_sample w (white_mul wn x) k) = x * fst (white_sample w wn k).
Proof.
  intros w wn x k H. cbn [white_sample draw fst white_mul mean sigma]. rewrite H. ring.
Qed.
Print Assumptions C39_scaled_samples_partial.
Theorem C39_scaled_bias_partial :
  forall w g x k ts i y, prev_epoch g = None -> init_sample g = None -> constant g = None ->
    nth_error (gm_samples w ts g k) i = Some y ->
    nth_error (gm_samples w ts (gm_mul g x) k) i = Some (x * y).
Proof.
  intros w g x k ts i y Hp Hi Hc Hy.
  destruct (nth_error ts i) as [t|] eqn:Ht.
  - pose proof (C39_history w ts g k i t Hp Hi Ht) as H.
    pose proof (C39_history w ts (gm_mul g x) k i t eq_refl eq_refl Ht) as H'. cbv zeta in H, H'.
    rewrite H'. rewrite H in Hy. injection Hy as <-. rewrite Hc.
    cbn [gm_mul tau process_noise constant or_zero]. f_equal. ring.
  - exfalso. apply nth_error_None in Ht.
    assert (Hl : forall l g' k', length (gm_samples w l g' k') = length l).
    { induction l as [|u l IH]; intros g' k'; cbn [gm_samples]; [reflexivity|].
      destruct (gm_sample w u g' k') as [[a b] c]. cbn [length]. now rewrite IH. }
    assert (Hn : nth_error (gm_samples w ts g k) i = None) by (apply nth_error_None; rewrite Hl; exact Ht).
    congruence.
Qed.
Print Assumptions C39_scaled_bias_partial.
Example C39_scaled_example : forall w,
  nth_error (gm_samples w minutes (gm_mul minute_gm 2) 0) 0 = Some (2 * w 0%nat).
Proof.
  intros w. apply (C39_scaled_bias_partial w minute_gm 2 0 minutes 0); try reflexivity.
  destruct (C39_decay_refuted w 0) as (x0 & x1 & x2 & H & H0 & _). rewrite H. cbn. now rewrite H0.
Qed.
(** ...but the constant bias is lost, even when scaling by one. *)
Theorem C39_scaling_refuted :
  exists n, noise_mul n 1 <> n /\
    match bias n, bias (noise_mul n 1) with
    | Some g, Some g' => constant g = Some 5 /\ constant g' = None
    | _, _ => False
    end.
Proof.
  exists demo_noise. split; [|cbn; auto].
  intros H. apply (f_equal (fun n => match bias n with Some g => constant g | None => None end)) in H.
  discriminate.
Qed.
Print Assumptions C39_scaling_refuted.

(** Link budgets: both contributions add up in variance. *)
Theorem C39_hardware :
  forall allan d rate density,
    covariance (from_hardware_range allan d rate density) =
      (SPEED_OF_LIGHT_KM_S * allan * seconds d / sqrt 3) ^ 2
      + (SPEED_OF_LIGHT_KM_S / (TAU * rate * sqrt (2 * density))) ^ 2 /\
    covariance (from_hardware_doppler allan d rate density) =
      (SPEED_OF_LIGHT_KM_S * allan) ^ 2
      + (SPEED_OF_LIGHT_KM_S / (TAU * rate * sqrt (2 * density * seconds d))) ^ 2.
Proof.
  intros allan d rate density. unfold covariance, from_hardware_range, from_hardware_doppler.
  cbn [white_noise bias]. unfold white_covariance, constant_white_noise. cbn [sigma].
  assert (H : forall x y, sqrt (x ^ 2 + y ^ 2) ^ 2 = x ^ 2 + y ^ 2).
  { intros x y. rewrite <- Rsqr_pow2, Rsqr_sqrt; [reflexivity|]. pose proof (pow2_ge_0 x).
    pose proof (pow2_ge_0 y). lra. }
  rewrite !H. split; ring.
Qed.
Print Assumptions C39_hardware.

(** ** C62.  Noise and bias the filter assumes. *)

(** A station with only a constant bias [b] on its ranges, or without any noise. *)
Definition biased (b : R) : noise :=
  {| white_noise := None;
     bias := Some {| tau := 60000000000; process_noise := 0; constant := Some b; prev_epoch := None;
                     init_sample := None |} |}.
Definition biased_station (d : option Z) (b : R) : station :=
  {| st_name := "DSS-65"; st_types := [Range]; integration_time := d; timestamp_noise := None;
     st_noises := Some [(Range, biased b)] |}.
Definition at_range (x : R) : aer := {| az_deg := 0; el_deg := 45; range_km := x; rate_km_s := 0 |}.

(** The device of the orbit determination process is that station. *)
Definition station_dv (geometry : Z -> option aer) : device_ops Z station unit unit station_error :=
  {| name_of := st_name; types_of := st_types;
     Odp_Model.h_tilde := fun _ _ _ _ => Ok tt; covar_of := fun _ _ _ => Ok tt;
     Odp_Model.measure := fun s t _ =>
       let '(s', _, out) := measure (fun _ => 0) geometry t None s in
       (s', bind out (fun o => Ok (option_map snd o)));
     bias_of := fun s types _ => bias_vector 1 s types |}.
Definition station_window (geometry : Z -> option aer) (s : station) (m : measurement) :=
  process_window (E := unit) (FS := unit) demo_so demo_fo (station_dv geometry) 1 (demo_arc [m]) None m s [Range]
    {| r_inst := clock_inst 0 1 true; r_epoch := 0; r_kf := O; r_devices := [("DSS-65", s)]; r_traj := [];
       r_sol := new; r_accepted := 0; r_rejected := 0 |}.

(** The simulated range is the true one plus the bias (over the root of two when averaged)... *)
Lemma biased_simulation w k x d b :
  exists s rng, measure w (fun _ => Some (at_range x)) 0 (Some k) (biased_station d b) =
    (s, rng, Ok (Some (0, [(Range, match d with None => x + b | Some _ => x + b / sqrt 2 end)]))).
Proof.
  assert (H : exists s' rng', forall t,  (exists g, s' t = with_noises (biased_station d b) [(Range, {| white_noise := None; bias := Some g |})]) /\
    noises w t (Some k) (biased_station d b) = (s' t, rng', Ok [0; b])).
  { eexists (fun t => _), _. intros t.
    unfold noises, biased_station. cbn [st_noises timestamp_noise st_types sample_all].
    unfold im_get. rewrite type_eqb_refl. unfold sample, biased. cbn [white_noise bias].
    unfold gm_sample. cbn [prev_epoch init_sample process_noise tau constant]. unfold draw.
    cbv beta iota zeta. cbn [bind or_zero]. split.
    2:{ f_equal. f_equal. repeat (apply (f_equal2 cons)); try reflexivity. ring. }
    unfold im_insert. rewrite type_eqb_refl. cbv iota. eexists. reflexivity. }
  destruct H as (s' & rng' & H).
  unfold measure. destruct d as [d|]; cbn [biased_station integration_time].
  - unfold averaged. destruct (H (0 - d / 2)%Z) as (_ & Hn). rewrite Hn.
    do 2 eexists. f_equal. cbn [bind st_types biased_station observe compute_two_way at_range range_km lift_sens].
    do 3 f_equal. apply (f_equal (fun v => [(Range, v)])). field. apply Rgt_not_eq, sqrt_lt_R0. lra.
  - unfold instantaneous. destruct (H 0%Z) as (_ & Hn). rewrite Hn.
    do 2 eexists. reflexivity.
Qed.
(** ...where the process subtracts the bias from the range it expects: at the true state, the
    filter is given a difference of twice the bias. *)
Theorem C62_bias_refuted :
  forall w k x b, exists s rng m r,
    measure w (fun _ => Some (at_range x)) 0 (Some k) (biased_station None b) = (s, rng, Ok (Some (0, m))) /\
    station_window (fun _ => Some (at_range x)) (biased_station None b) (demo_m "DSS-65" 0 m false) = Ok r /\
    exists res, residuals (r_sol r) = [Some res] /\ values res = ([x + b], [x - b]) /\
      (x + b) - (x - b) = 2 * b.
Proof.
  intros w k x b. destruct (biased_simulation w k x None b) as (s & rng & H).
  exists s, rng, [(Range, x + b)]. eexists. split; [exact H|]. split; [reflexivity|].
  eexists. split; [reflexivity|]. cbn [values label].
  split; [|ring]. f_equal. apply (f_equal (fun v => [v])). cbn. ring.
Qed.
Print Assumptions C62_bias_refuted.

(** Averaged measurements carry the bias over the root of two, and are corrected by all of it. *)
Theorem C62_bias_two_way_refuted :
  forall w k x b, exists s rng m r,
    measure w (fun _ => Some (at_range x)) 0 (Some k) (biased_station (Some 2%Z) b) = (s, rng, Ok (Some (0, m))) /\
    station_window (fun _ => Some (at_range x)) (biased_station (Some 2%Z) b) (demo_m "DSS-65" 0 m false) = Ok r /\
    exists res, residuals (r_sol r) = [Some res] /\ values res = ([x + b / sqrt 2], [x - b]).
Proof.
  intros w k x b. destruct (biased_simulation w k x (Some 2%Z) b) as (s & rng & H).
  exists s, rng, [(Range, x + b / sqrt 2)]. eexists. split; [exact H|]. split; [reflexivity|].
  eexists. split; [reflexivity|]. cbn [values label]. f_equal.
  apply (f_equal (fun v => [v])). cbn. unfold Rdiv. field. apply Rgt_not_eq, sqrt_lt_R0. lra.
Qed.
Print Assumptions C62_bias_two_way_refuted.
(** Without bias the residual at the true state is zero. *)
Theorem C62_no_bias :
  forall w k x d, exists s rng m r,
    measure w (fun _ => Some (at_range x)) 0 (Some k) (biased_station d 0) = (s, rng, Ok (Some (0, m))) /\
    station_window (fun _ => Some (at_range x)) (biased_station d 0) (demo_m "DSS-65" 0 m false) = Ok r /\
    exists res, residuals (r_sol r) = [Some res] /\ values res = ([x], [x]).
Proof.
  intros w k x d. destruct (biased_simulation w k x d 0) as (s & rng & H).
  assert (Hx : match d with Some _ => x + 0 / sqrt 2 | None => x + 0 end = x).
  { destruct d; [unfold Rdiv|]; ring. }
  rewrite Hx in H. clear Hx. exists s, rng, [(Range, x)].
  destruct d; eexists; (split; [exact H|]); (split; [reflexivity|]); eexists; (split; [reflexivity|]); cbn [values label]; f_equal;
    apply (f_equal (fun v => [v])); cbn; unfold Rdiv; field; apply Rgt_not_eq, sqrt_lt_R0; lra.
Qed.
Print Assumptions C62_no_bias.


(** The variance of one-way observables with white noise is the one given to the filter; that of
    averaged ones is half of it. *)
Definition value_of (out : station * option nat * res station_error (option (R * data))) (ty : msr_type) : R :=
  match snd out with Ok (Some (_, d)) => or_zero (get ty d) | _ => 0 end.
Definition white_station (d : option Z) (wn : white) (ty : msr_type) : station :=
  {| st_name := "DSS-65"; st_types := [ty]; integration_time := d; timestamp_noise := None;
     st_noises := Some [(ty, {| white_noise := Some wn; bias := None |})] |}.
Definition supported (ty : msr_type) : Prop := In ty [Range; Doppler; Azimuth; Elevation].
Lemma white_value w k d wn ty a t : supported ty ->
  exists x, value_of (measure w (fun _ => Some a) t (Some k) (white_station d wn ty)) ty =
    match d with
    | None => x + (mean wn + sigma wn * w k)
    | Some _ => (x + x) * / 2 + (mean wn + sigma wn * w k) / sqrt 2
    end /\ compute_one_way ty a 0 = Ok (x + 0).
Proof.
  intros Hs. unfold measure, value_of, white_station. cbn [integration_time].
  assert (Hn : forall u, noises w u (Some k) (white_station d wn ty) =
    (with_noises (white_station d wn ty) [(ty, {| white_noise := Some wn; bias := None |})],
     Some (S k), Ok [0; mean wn + sigma wn * w k])).
  { intros u. unfold noises, white_station. cbn [st_noises timestamp_noise st_types sample_all].
    unfold im_get. rewrite type_eqb_refl. unfold sample. cbn [white_noise bias white_sample draw].
    unfold im_insert. rewrite type_eqb_refl. reflexivity. }
  unfold white_station in Hn.
  destruct d as [d|].
  - unfold averaged. rewrite Hn. cbn [bind st_types observe snd].
    unfold supported in Hs. cbn [In] in Hs.
    destruct Hs as [<-|[<-|[<-|[<-|[]]]]]; cbn [compute_two_way compute_one_way bind lift_sens get im_get];
      eexists; split; unfold get, im_get; rewrite ?type_eqb_refl; reflexivity.
  - unfold instantaneous. rewrite Hn. cbn [bind st_types observe snd].
    unfold supported in Hs. cbn [In] in Hs.
    destruct Hs as [<-|[<-|[<-|[<-|[]]]]]; cbn [compute_one_way bind lift_sens];
      eexists; split; unfold get, im_get; rewrite ?type_eqb_refl; reflexivity.
Qed.
Lemma affine_variance n E c b k f : expectation n E -> (k < n)%nat -> (forall w, f w = c + b * w k) ->
  variance E f = b ^ 2.
Proof.
  intros HE Hk Hf. rewrite (variance_ext n E HE f (fun w => c + b * w k) Hf).
  pose proof (C39_white_samples n k E {| mean := c; sigma := b |} HE Hk) as (_ & H & _).
  cbn [white_sample draw fst mean sigma] in H. exact H.
Qed.
Theorem C62_variance :
  forall n k E wn ty a t d, expectation n E -> (k < n)%nat -> supported ty ->
    exists v, variance E (fun w => value_of (measure w (fun _ => Some a) t (Some k) (white_station d wn ty)) ty) = v /\
      measurement_covar (white_station d wn ty) ty = Ok (match d with None => v | Some _ => 2 * v end).
Proof.
  intros n k E wn ty a t d HE Hk Hs. eexists. split; [reflexivity|].
  assert (Hc : measurement_covar (white_station d wn ty) ty = Ok (sigma wn ^ 2 + 0)).
  { unfold measurement_covar, white_station. cbn [st_noises]. unfold im_get. rewrite type_eqb_refl.
    reflexivity. }
  rewrite Hc. f_equal.
  destruct (white_value (fun _ => 0) k d wn ty a t Hs) as (x & _ & Hx).
  assert (H : forall w : nat -> R, value_of (measure w (fun _ => Some a) t (Some k) (white_station d wn ty)) ty =
     match d with None => (x + mean wn) + sigma wn * w k
     | Some _ => (x + mean wn / sqrt 2) + (sigma wn / sqrt 2) * w k end).
  { intros w. destruct (white_value w k d wn ty a t Hs) as (y & Hy & Hy').
    assert (y = x). { rewrite Hx in Hy'. injection Hy' as H. lra. }
    subst y. rewrite Hy. destruct d; [unfold Rdiv; field; apply Rgt_not_eq, sqrt_lt_R0; lra|ring]. }
  destruct d as [d|].
  - rewrite (affine_variance n E (x + mean wn / sqrt 2) (sigma wn / sqrt 2) k _ HE Hk H).
    unfold Rdiv. rewrite Rpow_mult_distr, pow_inv.
    replace (sqrt 2 ^ 2) with 2 by (rewrite <- Rsqr_pow2, Rsqr_sqrt; lra). field.
  - rewrite (affine_variance n E (x + mean wn) (sigma wn) k _ HE Hk H). ring.
Qed.
Print Assumptions C62_variance.
Theorem C62_variance_refuted :
  exists E s, expectation 1 E /\
    variance E (fun w => value_of (measure w (fun _ => Some (at_range 1000)) 0 (Some 0%nat) s) Range) = 2 /\
    measurement_covar s Range = Ok 4.
Proof.
  exists (coins 1), (white_station (Some 2%Z) {| mean := 0; sigma := 2 |} Range).
  split; [apply coins_expectation|].
  destruct (C62_variance 1 0 (coins 1) {| mean := 0; sigma := 2 |} Range (at_range 1000) 0 (Some 2%Z)
    (coins_expectation 1)) as (v & Hv & Hc); [lia|now left|].
  rewrite Hv. assert (H4 : measurement_covar (white_station (Some 2%Z) {| mean := 0; sigma := 2 |} Range) Range
    = Ok (2 ^ 2 + 0)) by reflexivity.
  rewrite Hc in H4. injection H4 as H4. rewrite Hc. split; [lra|]. f_equal. lra.
Qed.
Print Assumptions C62_variance_refuted.

(** The bias vector and the diagonal of the noise matrix: one entry per type of measurement, that
    of the device for the types it has, zero for the others and for the spare rows; an error
    exactly when a type it has is not configured. *)
Definition assembled (m : nat) (types : list msr_type) (s : station)
    (value : msr_type -> res station_error R) (l : list R) : Prop :=
  length l = m /\
  (forall i t, nth_error types i = Some t ->
     (In t (st_types s) -> value t = Ok (nth i l 0)) /\ (~ In t (st_types s) -> nth i l 0 = 0)) /\
  (forall i, (length types <= i)%nat -> nth i l 0 = 0).
Lemma known_in s t : known s t = true <-> In t (st_types s).
Proof.
  unfold known. rewrite existsb_exists. split.
  - intros (x & I & E). unfold type_eqb in E. destruct (msr_type_eq_dec t x); [now subst|discriminate].
  - intros I. exists t. split; [exact I|]. apply type_eqb_refl.
Qed.
Lemma fill_assembled s (value : msr_type -> res station_error R) : forall types m,
  (length types <= m)%nat ->
  ((forall t, In t types -> In t (st_types s) -> is_ok (value t)) ->
     exists l, fill 0 value (known s) m types = Ok l /\ assembled m types s value l) /\
  (forall t, In t types -> In t (st_types s) -> ~ is_ok (value t) ->
     ~ is_ok (fill 0 value (known s) m types)).
Proof.
  induction types as [|t types IH]; intros m Hm.
  - split; [|now intros t []]. intros _. destruct m; cbn [fill]; eexists; (split; [reflexivity|]);
      unfold assembled; (split; [now rewrite repeat_length|]); (split; [now intros [|i] t|]);
      intros i _; apply nth_repeat.
  - destruct m as [|m]; cbn [length] in Hm; [lia|]. destruct (IH m ltac:(lia)) as (I1 & I2).
    cbn [fill]. split.
    + intros H. destruct I1 as (l & El & Hl1 & Hl2 & Hl3); [intros u Iu; apply H; now right|].
      destruct (known s t) eqn:K.
      * destruct (H t) as (v & Ev); [now left|now apply known_in|]. rewrite Ev. cbn [bind]. rewrite El.
        cbn [bind]. eexists. split; [reflexivity|]. split; [cbn [length]; lia|]. split.
        -- intros [|i] u; cbn [nth_error nth].
           ++ intros [= <-]. split; [intros _; exact Ev|]. intros N. now apply known_in in K.
           ++ apply Hl2.
        -- intros [|i]; cbn [length nth]; [lia|]. intros; apply Hl3; lia.
      * cbn [bind]. rewrite El. cbn [bind]. eexists. split; [reflexivity|].
        split; [cbn [length]; lia|]. split.
        -- intros [|i] u; cbn [nth_error nth].
           ++ intros [= <-]. split; [|reflexivity]. intros I. apply known_in in I. congruence.
           ++ apply Hl2.
        -- intros [|i]; cbn [length nth]; [lia|]. intros; apply Hl3; lia.
    + intros u Iu Hu Hn (l & El).
      destruct (if known s t then value t else Ok 0) as [v| | |] eqn:Ev; cbn [bind] in El; try discriminate.
      destruct (fill 0 value (known s) m types) as [l'| | |] eqn:El'; cbn [bind] in El; try discriminate.
      destruct Iu as [->|Iu].
      * apply known_in in Hu. rewrite Hu in Ev. apply Hn. now exists v.
      * apply (I2 u Iu Hu Hn). now exists l'.
Qed.
Theorem C62_assembled :
  forall m s types, (length types <= m)%nat ->
    ((forall t, In t types -> In t (st_types s) -> noise_of s t <> None) ->
       exists b r, bias_vector m s types = Ok b /\ assembled m types s (measurement_bias s) b /\
                   covar_diagonal m s types = Ok r /\ assembled m types s (measurement_covar s) r) /\
    (forall t, In t types -> In t (st_types s) -> noise_of s t = None ->
       ~ is_ok (bias_vector m s types) /\ ~ is_ok (covar_diagonal m s types)).
Proof.
  intros m s types Hm.
  destruct (fill_assembled s (measurement_bias s) types m Hm) as (B1 & B2).
  destruct (fill_assembled s (measurement_covar s) types m Hm) as (C1 & C2).
  unfold noise_of, noises_or_empty. split.
  - intros H. destruct B1 as (b & Eb & Hb).
    { intros t I1 I2. specialize (H t I1 I2). unfold measurement_bias.
      destruct (st_noises s) as [l|]; [|now contradiction H].
      destruct (im_get type_eqb t l); [|congruence].
      now eexists. }
    destruct C1 as (r & Er & Hr).
    { intros t I1 I2. specialize (H t I1 I2). unfold measurement_covar.
      destruct (st_noises s) as [l|]; [|now contradiction H].
      destruct (im_get type_eqb t l); [|congruence].
      now eexists. }
    exists b, r. auto.
  - intros t I1 I2 E. split; [apply (B2 t I1 I2)|apply (C2 t I1 I2)]; unfold measurement_bias, measurement_covar;
      (destruct (st_noises s) as [l|]; [|intros (x & [=])]); rewrite E; intros (x & [=]).
Qed.
Print Assumptions C62_assembled.
(** A station that has the range only, for a measurement of angle and range. *)
Example C62_assembled_example :
  covar_diagonal 3 (white_station None {| mean := 0; sigma := 2 |} Range) [Azimuth; Range] = Ok [0; 2 ^ 2 + 0; 0].
Proof. reflexivity. Qed.

(** ** C63.  Builders of ground stations. *)
Inductive build := Add (t : msr_type) (n : noise) | Remove (t : msr_type) | Average (d : option Z)
  | Bias (t : msr_type) (b : R).
Definition apply_build (x : build) (s : station) : res station_error station :=
  match x with
  | Add t n => Ok (with_msr_type t n s)
  | Remove t => Ok (without_msr_type t s)
  | Average d => Ok (with_integration_time d s)
  | Bias t b => with_msr_bias_constant t b s
  end.
Fixpoint builds (l : list build) (s : station) : res station_error station :=
  match l with
  | [] => Ok s
  | x :: l' => bind (apply_build x s) (builds l')
  end.

(** Adding sets the noise of this type, removing removes it; the other types keep theirs. *)
Theorem C63_add_remove :
  forall s t n u, well_formed (st_types s) (noise_of s) -> NoDup (map fst (noises_or_empty s)) ->
    noise_of (with_msr_type t n s) t = Some n /\
    noise_of (without_msr_type t s) t = None /\
    (u <> t -> noise_of (with_msr_type t n s) u = noise_of s u /\
               noise_of (without_msr_type t s) u = noise_of s u) /\
    (In u (st_types (with_msr_type t n s)) <-> u = t \/ In u (st_types s)) /\
    (In u (st_types (without_msr_type t s)) <-> u <> t /\ In u (st_types s)).
Proof.
  intros s t n u (Hd & _) Hk. rewrite !with_msr_noise, !without_msr_noise, type_eqb_refl by assumption.
  split; [reflexivity|]. split; [reflexivity|]. split.
  - intros Hu. rewrite type_eqb_neq by exact Hu. auto.
  - split; [apply set_insert_in|now apply without_msr_types].
Qed.
Print Assumptions C63_add_remove.

Lemma builds_good l : forall s s', good s -> builds l s = Ok s' -> good s'.
Proof.
  induction l as [|x l IH]; intros s s' Hg H; cbn [builds] in H.
  - now injection H as <-.
  - destruct (apply_build x s) as [s1| | |] eqn:E1; try discriminate. cbn [bind] in H.
    apply (IH s1); [|exact H]. destruct x as [t n|t|d|t b]; cbn [apply_build] in E1.
    + injection E1 as <-. now apply with_msr_good.
    + injection E1 as <-. now apply without_msr_good.
    + injection E1 as <-. exact Hg.
    + now apply (with_bias_good t b s).
Qed.
Lemma from_point_good name : good (from_point name).
Proof.
  split; [constructor|]. split; [constructor|]. intros t. cbn. split; [contradiction|congruence].
Qed.

(** However a station is built from a bare point, each of its observables is listed once and has a
    noise, so that once a type has been added neither the simulation nor the filter fails to
    find it, also after any simulated measurement. *)
Theorem C63_builds :
  forall name l s, builds l (from_point name) = Ok s ->
    well_formed (st_types s) (noise_of s) /\
    (st_noises s <> None -> forall w t rng,
       (exists s' rng' x xs, noises w t rng s = (s', rng', Ok (x :: xs)) /\
          length xs = length (st_types s) /\ st_types s' = st_types s /\
          well_formed (st_types s') (noise_of s')) /\
       forall ty, In ty (st_types s) ->
         (exists v, measurement_covar s ty = Ok v /\ 0 <= v) /\ exists b, measurement_bias s ty = Ok b).
Proof.
  intros name l s H. pose proof (builds_good l _ _ (from_point_good name) H) as Hg.
  split; [exact (proj2 Hg)|]. intros Hn w t rng. split.
  - destruct (noises_ok w t rng s Hg Hn) as (s' & rng' & x & xs & H1 & H2 & H3 & H4).
    exists s', rng', x, xs. repeat (split; [assumption|]). exact (proj2 H4).
  - intros ty Hty. destruct Hg as (_ & _ & Hi). apply Hi in Hty. unfold noise_of, noises_or_empty in Hty.
    unfold measurement_covar, measurement_bias. destruct (st_noises s) as [m|]; [|congruence].
    destruct (im_get type_eqb ty m) as [n|]; [|congruence]. split; eexists; [|reflexivity].
    split; [reflexivity|]. apply (C39_variance n 1).
Qed.
Print Assumptions C63_builds.
Example C63_example :
  exists s, builds [Add Range demo_noise; Add Doppler demo_noise; Add Azimuth demo_noise; Remove Range;
                    Average (Some 60%Z); Bias Doppler 3] (from_point "DSS-65") = Ok s /\
    st_types s = [Azimuth; Doppler] /\ st_noises s <> None.
Proof. eexists. split; [reflexivity|]. split; [reflexivity|]. discriminate. Qed.

(** Setting the constant bias has no effect: a bias is the same before and after... *)
Theorem C63_bias_refuted :
  forall s t b s', with_msr_bias_constant t b s = Ok s' ->
    measurement_bias s' t = measurement_bias s t /\
    (forall n, noise_of s t = Some n -> bias n = None -> measurement_bias s' t = Ok 0).
Proof.
  intros s t b s' H. unfold with_msr_bias_constant in H. unfold noise_of, measurement_bias.
  unfold noises_or_empty in *. destruct (st_noises s) as [m|]; [|discriminate].
  destruct (im_get type_eqb t m) as [n|] eqn:E1; [|discriminate].
  injection H as <-. cbn [st_noises]. rewrite insert_get, type_eqb_refl.
  destruct (bias n) as [g|] eqn:E2; cbn [bias].
  - rewrite E2. split; [reflexivity|]. intros n' [= <-]. congruence.
  - split; [reflexivity|]. intros; reflexivity.
Qed.
Print Assumptions C63_bias_refuted.
Example C63_bias_example :
  exists s s', with_msr_bias_constant Range 7 s = Ok s' /\ measurement_bias s' Range = Ok 0.
Proof.
  exists (white_station None {| mean := 0; sigma := 1 |} Range). eexists. split; [reflexivity|]. reflexivity.
Qed.
(** ...and for a type that is not configured it panics instead of returning an error. *)
Theorem C63_unconfigured_refuted :
  forall s t b, noise_of s t = None -> with_msr_bias_constant t b s = Panic.
Proof. intros s t b H. unfold with_msr_bias_constant. unfold noise_of in H. now rewrite H. Qed.
Print Assumptions C63_unconfigured_refuted.

(** The state of the noise on the time tag is never kept: its bias is drawn anew each time. *)
Theorem C63_timestamp_refuted :
  forall w t rng s s' rng' out, noises w t rng s = (s', rng', out) -> timestamp_noise s' = timestamp_noise s.
Proof.
  intros w t rng s s' rng' out. unfold noises. destruct rng as [k|]; [|now intros [= <- _ _]].
  destruct (st_noises s) as [l|]; [|now intros [= <- _ _]].
  destruct (match timestamp_noise s with
            | Some n => let '(x, _, k0) := sample w t n k in (x, k0)
            | None => (0, k) end) as [x0 k0].
  destruct (sample_all w t (st_types s) l k0) as [[l' k'] o]. now intros [= <- _ _].
Qed.
Print Assumptions C63_timestamp_refuted.
