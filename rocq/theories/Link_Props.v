(** C100: noises from named radio links. *)
From Coq Require Import Reals Lra Lia.
From Verif Require Import Base Noise_Model Link_Model.
Local Open Scope R_scope.

(** ** Specification *)

(** Decibels of a ratio in Hertz. *)
Definition decibels (hz : R) : R := 10 * ln hz / ln 10.
(** The standard deviation of the white noise. *)
Definition deviation (n : noise) : R := match white_noise n with Some w => sigma w | None => 0 end.

(** ** Proofs *)

Lemma ln10 : 0 < ln 10.
Proof. rewrite <- ln_1. apply ln_increasing; lra. Qed.
Lemma decibels_power x : decibels (Rpower 10 (x / 10)) = x.
Proof. unfold decibels, Rpower. rewrite ln_exp. pose proof ln10. field. lra. Qed.
Lemma pow_power n : 10 ^ n = Rpower 10 (INR n * 10 / 10).
Proof. rewrite <- Rpower_pow by lra. f_equal. field. Qed.

(** The named levels are the decibels documented, and the manual ones those given. *)
Theorem C100_levels :
  decibels (sn0_hz SnStrong) = 65 /\ decibels (sn0_hz SnAverage) = 50 /\ decibels (sn0_hz SnPoor) = 40 /\
  decibels (cn0_hz CnStrong) = 70 /\ decibels (cn0_hz CnAverage) = 55 /\ decibels (cn0_hz CnPoor) = 45 /\
  forall v, decibels (sn0_hz (SnManualDbHz v)) = v /\ decibels (cn0_hz (CnManualDbHz v)) = v.
Proof.
  cbn [sn0_hz cn0_hz]. rewrite !pow_power, !decibels_power. cbn [INR]. repeat split; try lra; apply decibels_power.
Qed.

Lemma sn0_pos l : 0 < sn0_hz l.
Proof. destruct l; cbn [sn0_hz]; try (apply pow_lt; lra); apply exp_pos. Qed.
Lemma cn0_pos l : 0 < cn0_hz l.
Proof. destruct l; cbn [cn0_hz]; try (apply pow_lt; lra); apply exp_pos. Qed.
Lemma decibels_lt x y : 0 < x -> 0 < y -> (decibels x < decibels y <-> x < y).
Proof.
  intros Hx Hy. pose proof ln10 as L. unfold decibels.
  assert (E : 10 * ln y / ln 10 - 10 * ln x / ln 10 = (ln y - ln x) * (10 * / ln 10)) by (field; lra).
  assert (P : 0 < 10 * / ln 10) by (apply Rmult_lt_0_compat; [lra|now apply Rinv_0_lt_compat]).
  split; intros H.
  - apply ln_lt_inv; [assumption|assumption|].
    assert (0 < (ln y - ln x) * (10 * / ln 10)) by lra.
    assert (0 < ln y - ln x); [|lra]. apply (Rmult_lt_reg_r (10 * / ln 10)); [exact P|]. lra.
  - assert (ln x < ln y) by now apply ln_increasing.
    assert (0 < (ln y - ln x) * (10 * / ln 10)) by (apply Rmult_lt_0_compat; lra). lra.
Qed.

Lemma light_pos : 0 < SPEED_OF_LIGHT_KM_S.
Proof. unfold SPEED_OF_LIGHT_KM_S. lra. Qed.
Lemma rss_lt a x y : 0 < x < y -> sqrt (a ^ 2 + x ^ 2) < sqrt (a ^ 2 + y ^ 2).
Proof. intros [Hx Hy]. apply sqrt_lt_1_alt. assert (0 <= a ^ 2) by apply pow2_ge_0. split; [nra|]. nra. Qed.
Lemma thermal_lt c d d' : 0 < c -> 0 < d < d' -> 0 < c / d' < c / d.
Proof.
  intros Hc [H1 H2]. split; [apply Rdiv_lt_0_compat; lra|]. unfold Rdiv. apply Rmult_lt_compat_l; [exact Hc|].
  apply Rinv_lt_contravar; [apply Rmult_lt_0_compat; lra|exact H2].
Qed.

(** Whatever the clock and the integration, a better signal or a faster code makes a range less noisy. *)
Theorem C100_range : forall allan t c l, 0 < chip_s c ->
  0 < deviation (from_hardware_range_km allan t c l) /\
  (forall l', decibels (sn0_hz l) < decibels (sn0_hz l') ->
     deviation (from_hardware_range_km allan t c l') < deviation (from_hardware_range_km allan t c l)) /\
  (forall c', chip_s c < chip_s c' ->
     deviation (from_hardware_range_km allan t c' l) < deviation (from_hardware_range_km allan t c l)).
Proof.
  intros allan t c l Hc. pose proof light_pos as L. pose proof PI_RGT_0 as P. pose proof (sn0_pos l) as S.
  unfold from_hardware_range_km, from_hardware_range, deviation, constant_white_noise. cbn [white_noise sigma].
  assert (R : forall c l, 0 < chip_s c -> 0 < TAU * chip_s c * sqrt (2 * sn0_hz l)).
  { intros c0 l0 H. pose proof (sn0_pos l0). apply Rmult_lt_0_compat; [apply Rmult_lt_0_compat; [unfold TAU; lra|exact H]|].
    apply sqrt_lt_R0. lra. }
  split; [|split].
  - apply sqrt_lt_R0. pose proof (Rdiv_lt_0_compat _ _ L (R c l Hc)).
    assert (0 <= (SPEED_OF_LIGHT_KM_S * allan * seconds t / sqrt 3) ^ 2) by apply pow2_ge_0. nra.
  - intros l' D. apply (decibels_lt _ _ S (sn0_pos l')) in D.
    apply rss_lt, thermal_lt; [exact L|]. split; [now apply R|]. apply Rmult_lt_compat_l; [unfold TAU; nra|].
    apply sqrt_lt_1_alt. lra.
  - intros c' D. apply rss_lt, thermal_lt; [exact L|]. split; [now apply R|].
    apply Rmult_lt_compat_r; [apply sqrt_lt_R0; lra|]. apply Rmult_lt_compat_l; [unfold TAU; lra|exact D].
Qed.
(** Whatever the clock, a better carrier to noise density, a higher carrier or a longer integration makes a
    Doppler less noisy. *)
Theorem C100_doppler : forall allan t c l, 0 < carrier_hz c -> (0 < t)%Z ->
  0 < deviation (from_hardware_doppler_km_s allan t c l) /\
  (forall l', decibels (cn0_hz l) < decibels (cn0_hz l') ->
     deviation (from_hardware_doppler_km_s allan t c l') < deviation (from_hardware_doppler_km_s allan t c l)) /\
  (forall c', carrier_hz c < carrier_hz c' ->
     deviation (from_hardware_doppler_km_s allan t c' l) < deviation (from_hardware_doppler_km_s allan t c l)) /\
  (forall t', (t < t')%Z ->
     deviation (from_hardware_doppler_km_s allan t' c l) < deviation (from_hardware_doppler_km_s allan t c l)).
Proof.
  intros allan t c l Hc Ht. pose proof light_pos as L. pose proof PI_RGT_0 as P. pose proof (cn0_pos l) as S.
  unfold from_hardware_doppler_km_s, from_hardware_doppler, deviation, constant_white_noise. cbn [white_noise sigma].
  assert (T : forall t, (0 < t)%Z -> 0 < seconds t).
  { intros t0 H. apply IZR_lt in H. unfold seconds. lra. }
  assert (R : forall c l t, 0 < carrier_hz c -> (0 < t)%Z -> 0 < TAU * carrier_hz c * sqrt (2 * cn0_hz l * seconds t)).
  { intros c0 l0 t0 H Ht0. pose proof (cn0_pos l0). apply Rmult_lt_0_compat; [apply Rmult_lt_0_compat; [unfold TAU; lra|exact H]|].
    apply sqrt_lt_R0. pose proof (T t0 Ht0). apply Rmult_lt_0_compat; lra. }
  pose proof (T t Ht) as Tt.
  split; [|split; [|split]].
  - apply sqrt_lt_R0. pose proof (Rdiv_lt_0_compat _ _ L (R c l t Hc Ht)).
    assert (0 <= (SPEED_OF_LIGHT_KM_S * allan) ^ 2) by apply pow2_ge_0. nra.
  - intros l' D. apply (decibels_lt _ _ S (cn0_pos l')) in D.
    apply rss_lt, thermal_lt; [exact L|]. split; [now apply R|]. apply Rmult_lt_compat_l; [unfold TAU; nra|].
    apply sqrt_lt_1_alt. split; [apply Rmult_le_pos; lra|]. apply Rmult_lt_compat_r; lra.
  - intros c' D. apply rss_lt, thermal_lt; [exact L|]. split; [now apply R|].
    apply Rmult_lt_compat_r; [apply sqrt_lt_R0; apply Rmult_lt_0_compat; lra|]. apply Rmult_lt_compat_l; [unfold TAU; lra|exact D].
  - intros t' D. apply rss_lt, thermal_lt; [exact L|]. split; [now apply R|]. apply Rmult_lt_compat_l; [unfold TAU; nra|].
    apply sqrt_lt_1_alt. split; [apply Rmult_le_pos; lra|]. apply Rmult_lt_compat_l; [lra|].
    unfold seconds. apply IZR_lt in D. lra.
Qed.
(** The carriers are those documented, in gigahertz, the codes in thousands and millions of chips per
    second; what is not chosen is an average link with a code of a million chips per second. *)
Definition gigahertz (x : R) : R := x / 1000000000.
Definition megachips (x : R) : R := x / 1000000.
Theorem C100_bands :
  gigahertz (carrier_hz SBand) = 22 / 10 /\ gigahertz (carrier_hz XBand) = 84 / 10 /\ gigahertz (carrier_hz KaBand) = 32 /\
  megachips (chip_s Lowest) = 1 / 1000 /\ megachips (chip_s Low) = 1 / 10 /\ megachips (chip_s StandardT4B) = 1 /\
  megachips (chip_s High) = 10 /\ megachips (chip_s VeryHigh) = 25 /\
  (forall v, carrier_hz (CarrierHz v) = v /\ chip_s (ChipHz v) = v) /\
  decibels (sn0_hz sn0_default) = 50 /\ decibels (cn0_hz cn0_default) = 55 /\ megachips (chip_s chip_default) = 1.
Proof.
  destruct C100_levels as (_ & A & _ & _ & B & _).
  unfold gigahertz, megachips, sn0_default, cn0_default, chip_default. rewrite A, B. cbn [carrier_hz chip_s].
  repeat (split; [try lra; try (intros; split; reflexivity)|]); lra.
Qed.
(** So the noises of the named links are in order, whatever the clock. *)
Theorem C100_ordered : forall allan t l m, (0 < t)%Z ->
  deviation (from_hardware_doppler_km_s allan t KaBand l) < deviation (from_hardware_doppler_km_s allan t XBand l) /\
  deviation (from_hardware_doppler_km_s allan t XBand l) < deviation (from_hardware_doppler_km_s allan t SBand l) /\
  deviation (from_hardware_range_km allan t VeryHigh m) < deviation (from_hardware_range_km allan t High m) /\
  deviation (from_hardware_range_km allan t High m) < deviation (from_hardware_range_km allan t StandardT4B m) /\
  deviation (from_hardware_range_km allan t StandardT4B m) < deviation (from_hardware_range_km allan t Low m) /\
  deviation (from_hardware_range_km allan t Low m) < deviation (from_hardware_range_km allan t Lowest m).
Proof.
  intros allan t l m Ht.
  destruct C100_bands as (S & X & K & c0 & c1 & c2 & c3 & c4 & _). unfold gigahertz, megachips in *.
  split; [|split]; [apply C100_doppler; [lra|exact Ht|lra]..|].
  split; [|split; [|split]]; (apply C100_range; lra).
Qed.
(** Two pairs of named links. *)
Example C100_case : forall allan t, (0 < t)%Z ->
  deviation (from_hardware_range_km allan t StandardT4B SnStrong) < deviation (from_hardware_range_km allan t StandardT4B SnPoor) /\
  deviation (from_hardware_doppler_km_s allan t KaBand CnAverage) < deviation (from_hardware_doppler_km_s allan t XBand CnAverage).
Proof.
  intros allan t Ht. destruct C100_levels as (A & _ & B & _). split.
  - apply C100_range; [cbn [chip_s]; apply pow_lt; lra|]. rewrite A, B. lra.
  - apply C100_doppler; [cbn [carrier_hz]; lra|exact Ht|cbn [carrier_hz]; lra].
Qed.
Print Assumptions C100_levels.
Print Assumptions C100_range.
Print Assumptions C100_doppler.
Print Assumptions C100_bands.
Print Assumptions C100_ordered.
