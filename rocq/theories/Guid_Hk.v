(** C64: when the Kluever law moves the equinoctial elements h and k towards their targets (kluever.rs:217-247). *)
From Coq Require Import Reals Lra Psatz.
From Coquelicot Require Import Coquelicot.
From Verif Require Import Base RustStd Vec3 Angles Poly_Model Sc_Model Guid_Model Guid_Spec Guid_Steer Guid_Props Guid_Eq.
Local Open Scope R_scope.

(** ** Specification *)

(** The axes of the equinoctial frame in the local frame at true longitude [l], and the components of the
    eccentricity vector along them. *)
Definition longitude_x (l : R) : v3 := V3 (cos l) (- sin l) 0.
Definition longitude_y (l : R) : v3 := V3 (sin l) (cos l) 0.
Definition equinoctial_h (mu l : R) (r v : v3) : R := dot (longitude_y l) (ecc_vector mu r v).
Definition equinoctial_k (mu l : R) (r v : v3) : R := dot (longitude_x l) (ecc_vector mu r v).

(** ** Proofs *)

Lemma hk_rates mu e nu r s l a b : on_conic mu e nu r s ->
  rate_along (equinoctial_h mu l (local_position r)) (local_velocity s e nu) (V3 a b 0)
    ((- a * cos l + b * (sin l + (e * sin (l - nu) + sin l) / (1 + e * cos nu))) / s) /\
  rate_along (equinoctial_k mu l (local_position r)) (local_velocity s e nu) (V3 a b 0)
    ((a * sin l + b * (cos l + (e * cos (l - nu) + cos l) / (1 + e * cos nu))) / s).
Proof.
  intros H. pose proof (conic_q _ _ _ _ _ H) as Hq. destruct H as (Hm & He & Hr & Hs & E).
  unfold rate_along, equinoctial_h, equinoctial_k, ecc_vector. rewrite norm_local by exact Hr.
  rewrite sin_minus, cos_minus.
  split; apply is_derive_Reals; unfold dot, vadd, vsub, vscale, local_position, local_velocity, longitude_x, longitude_y; cbn [vx vy vz];
  (auto_derive; [exact I|]); rewrite E; field; repeat split; lra.
Qed.

(** The elements are those of the orbit: the eccentricity times the sine and cosine of the longitude of periapsis. *)
Lemma hk_values mu e nu r s l : on_conic mu e nu r s ->
  equinoctial_h mu l (local_position r) (local_velocity s e nu) = e * sin (l - nu) /\
  equinoctial_k mu l (local_position r) (local_velocity s e nu) = e * cos (l - nu).
Proof.
  intros H. pose proof (conic_q _ _ _ _ _ H) as Hq. destruct H as (Hm & He & Hr & Hs & E).
  unfold equinoctial_h, equinoctial_k, ecc_vector. rewrite norm_local by exact Hr. rewrite sin_minus, cos_minus. pose proof (trig2 nu) as T.
  unfold dot, vsub, vscale, local_position, local_velocity, longitude_x, longitude_y. cbn [vx vy vz].
  assert (A : / mu * ((s * (e * sin nu) * (s * (e * sin nu)) + s * (1 + e * cos nu) * (s * (1 + e * cos nu)) + 0 * 0 - mu / r) * r -
    (r * (s * (e * sin nu)) + 0 * (s * (1 + e * cos nu)) + 0 * 0) * (s * (e * sin nu))) = e * cos nu).
  { rewrite E. field. repeat split; lra. }
  assert (B : / mu * ((s * (e * sin nu) * (s * (e * sin nu)) + s * (1 + e * cos nu) * (s * (1 + e * cos nu)) + 0 * 0 - mu / r) * 0 -
    (r * (s * (e * sin nu)) + 0 * (s * (1 + e * cos nu)) + 0 * 0) * (s * (1 + e * cos nu))) = - (e * sin nu)).
  { rewrite E. field. repeat split; lra. }
  rewrite A, B. split; ring.
Qed.

Section Law.
Context (evaluate : element -> orbit -> option R) (bplane : orbit -> option (R * R * R))
        (dcm_to_inertial : nat -> orbit -> option m3) (kepler : orbit -> option keplerian).

(** What the law does with a radial part [x] of the wrong sign and a transverse part [t]. *)
Lemma wrong_radial x t g s : g <> 0 -> 0 < s -> x * x + t * t <> 0 ->
  let u := kluever_steering (g * x, g * t, 0) in
  norm u = 1 /\ exists a b, u = V3 a b 0 /\ forall sgn, sgn * (g / Rabs g) = 1 ->
    (0 < sgn * ((- a * x + b * t) / s) <-> x * x < t * t) /\ (sgn * ((- a * x + b * t) / s) < 0 <-> t * t < x * x).
Proof.
  intros Hg Hs Hn u. set (N := norm (V3 (g * x) (g * t) 0)).
  assert (Hz : triple (g * x, g * t, 0) <> vzero).
  { unfold triple, vzero. cbn [fst snd]. intros F. assert (F1 : g * x = 0) by congruence. assert (F2 : g * t = 0) by congruence.
    apply Rmult_integral in F1 as [F1|F1]; [contradiction|]. apply Rmult_integral in F2 as [F2|F2]; [contradiction|]. apply Hn. rewrite F1, F2. ring. }
  assert (HN : 0 < N) by (apply norm_pos; exact Hz).
  assert (Hu : u = V3 (g * x / N) (g * t / N) 0).
  { unfold u. rewrite (kluever_steering_unit _ Hz). change (norm (triple (g * x, g * t, 0))) with N. unfold triple, vscale. cbn [fst snd vx vy vz]. f_equal; field; lra. }
  split.
  - unfold u. rewrite (kluever_steering_unit _ Hz). rewrite norm_scale. change (norm (triple (g * x, g * t, 0))) with N.
    rewrite Rabs_pos_eq by (left; now apply Rinv_0_lt_compat). field. lra.
  - exists (g * x / N), (g * t / N). split; [exact Hu|]. intros sgn Hsg.
    assert (Hga : 0 < Rabs g) by now apply Rabs_pos_lt.
    assert (Eg : sgn * g = Rabs g) by (apply (Rmult_eq_reg_r (/ Rabs g)); [|apply Rinv_neq_0_compat; lra]; rewrite Rinv_r by lra; rewrite <- Hsg; field; lra).
    replace (sgn * ((- (g * x / N) * x + g * t / N * t) / s)) with (Rabs g * / N * / s * (t * t - x * x)) by (rewrite <- Eg; field; lra).
    assert (Hc : 0 < Rabs g * / N * / s).
    { apply Rmult_lt_0_compat; [apply Rmult_lt_0_compat; [exact Hga|]|]; now apply Rinv_0_lt_compat. }
    set (c := Rabs g * / N * / s) in *. split; split; intros; nra.
Qed.

Lemma not_both_null e nu x y z : 0 <= e < 1 -> x * x + y * y = 1 -> 0 < 1 + e * cos nu -> -1 < z < 1 ->
  (x = 0 -> 1 + e * cos nu = 1 + z * y) -> x * x + (y + (z + y) / (1 + e * cos nu)) * (y + (z + y) / (1 + e * cos nu)) <> 0.
Proof.
  intros He Hxy Hq Hz Hx F. set (t := y + (z + y) / (1 + e * cos nu)) in *. assert (x = 0) by nra. assert (Ht : t = 0) by nra.
  specialize (Hx H). assert (G : t * (1 + e * cos nu) = y * (1 + e * cos nu) + z + y) by (unfold t; field; lra). rewrite Ht, Hx in G.
  assert (y * y = 1) by nra. assert (y * (1 + z * y) + z + y = 2 * y + 2 * z) by nra. assert (y = - z) by lra. nra.
Qed.

(** The elements h and k move towards their targets exactly when a thrust along the motion changes them more than a
    radial one of the same size, and away from them when it changes them less. *)
Theorem C64_equinoctial_partial : forall kl k sc o w v d dcm mu r s,
  mode sc = Thrust -> kepler (sc_orbit sc) = Some k -> dcm_to_inertial RCN (sc_orbit sc) = Some dcm ->
  kl_objectives kl = [(o, w)] -> 0 < w -> obj_parameter o = Element EQ_H \/ obj_parameter o = Element EQ_K ->
  value evaluate bplane dcm_to_inertial sc (obj_parameter o) = Ok v -> obj_tolerance o <= Rabs (desired_value o - v) ->
  on_conic mu (k_ecc k) (k_ta k) r s ->
  let along := k_ta k + k_aop k + k_raan k in
  value evaluate bplane dcm_to_inertial sc (Element EQ_H) = Ok (k_ecc k * sin (along - k_ta k)) ->
  value evaluate bplane dcm_to_inertial sc (Element EQ_K) = Ok (k_ecc k * cos (along - k_ta k)) ->
  kluever_direction evaluate bplane dcm_to_inertial kepler kl sc = Ok d ->
  let vel := local_velocity s (k_ecc k) (k_ta k) in
  let el := if (match obj_parameter o with Element (OtherElement 0) => true | _ => false end)
            then equinoctial_h mu along (local_position r) else equinoctial_k mu along (local_position r) in
  let sgn := if Rlt_dec (desired_value o) v then -1 else 1 in
  exists u l lr lt, d = mv dcm u /\ norm u = 1 /\ rate_along el vel u l /\
    rate_along el vel (V3 1 0 0) lr /\ rate_along el vel (V3 0 1 0) lt /\
    (0 < sgn * l <-> lr * lr < lt * lt) /\ (sgn * l < 0 <-> lt * lt < lr * lr).
Proof.
  intros kl k sc o w v d dcm mu r s Hm Hk Hdcm Ho Hw Hp Hv Htol Hc along Hh Hkk Hd vel el sgn.
  destruct (kluever_one _ _ _ _ _ _ _ _ _ _ _ _ Hm Hk Hdcm Ho ltac:(lra) Hv Htol Hd) as (t & Ht & ->).
  set (g := w * fsignum (desired_value o - v)) in *.
  assert (Hsg : 0 < sgn * g).
  { unfold sgn, g, fsignum. destruct (Rlt_dec (desired_value o) v); destruct (Rlt_dec (desired_value o - v) 0); lra. }
  assert (Hg0 : g <> 0) by (intros E; rewrite E in Hsg; lra).
  assert (Hga : sgn * (g / Rabs g) = 1).
  { unfold sgn in *. pose proof (Rabs_pos_lt _ Hg0). destruct (Rlt_dec (desired_value o) v); [rewrite Rabs_left by lra|rewrite Rabs_pos_eq by lra]; field; lra. }
  pose proof (conic_q _ _ _ _ _ Hc) as Hq. assert (Hs : 0 < s) by (destruct Hc as (_ & _ & _ & A & _); exact A).
  assert (He : 0 <= k_ecc k < 1) by (destruct Hc as (_ & A & _); exact A).
  set (e := k_ecc k) in *. set (nu := k_ta k) in *.
  assert (Eq : 1 + e * sin (along - nu) * sin along + e * cos (along - nu) * cos along = 1 + e * cos nu).
  { replace (e * sin (along - nu) * sin along + e * cos (along - nu) * cos along) with (e * (cos along * cos (along - nu) + sin along * sin (along - nu))) by ring.
    replace (1 + e * sin (along - nu) * sin along + e * cos (along - nu) * cos along) with (1 + e * (cos along * cos (along - nu) + sin along * sin (along - nu))) by ring.
    rewrite <- cos_minus. do 3 f_equal. ring. }
  pose proof (trig2 along) as Ta. pose proof (SIN_bound (along - nu)) as Bs. pose proof (COS_bound (along - nu)) as Bc.
  assert (Sq : forall x y c, 0 < c -> (x / c * (x / c) < y / c * (y / c) <-> x * x < y * y)).
  { intros x y c Hpos. assert (Hi : 0 < / c) by now apply Rinv_0_lt_compat. unfold Rdiv.
    replace (x * / c * (x * / c)) with (/ c * / c * (x * x)) by ring. replace (y * / c * (y * / c)) with (/ c * / c * (y * y)) by ring.
    assert (0 < / c * / c) by now apply Rmult_lt_0_compat. set (z := / c * / c) in *. split; intros; nra. }
  destruct Hp as [Hp|Hp]; rewrite Hp in Ht; unfold EQ_H, EQ_K in *; cbn [kluever_term] in Ht; unfold EQ_H, EQ_K in *; rewrite Hh in Ht; cbn [lift bind] in Ht;
  rewrite Hkk in Ht; cbn [lift bind] in Ht; fold nu in Ht; fold along in Ht; rewrite Eq in Ht;
  (match type of Ht with Ok ?x = _ => assert (Et : t = x) by congruence; rewrite Et end); clear Ht Et; unfold el; rewrite Hp.
  - set (T := sin along + (e * sin (along - nu) + sin along) / (1 + e * cos nu)) in *.
    assert (Hnz : cos along * cos along + T * T <> 0).
    { apply not_both_null; [exact He|lra|exact Hq|split; nra|]. intros Z. rewrite <- Eq, Z. ring. }
    destruct (wrong_radial (cos along) T g s Hg0 Hs Hnz) as (U1 & a & b & U2 & U3). rewrite U2 in U1 |- *.
    destruct (U3 sgn Hga) as [U4 U5].
    exists (V3 a b 0), ((- a * cos along + b * T) / s), ((- (1) * cos along + 0 * T) / s), ((- 0 * cos along + 1 * T) / s).
    split; [reflexivity|]. split; [exact U1|]. split; [apply (hk_rates mu e nu r s along a b Hc)|].
    split; [apply (hk_rates mu e nu r s along 1 0 Hc)|]. split; [apply (hk_rates mu e nu r s along 0 1 Hc)|].
    rewrite !Sq by exact Hs. rewrite U4, U5. split; split; intros; nra.
  - set (T := cos along + (e * cos (along - nu) + cos along) / (1 + e * cos nu)) in *.
    assert (Hnz : - sin along * - sin along + T * T <> 0).
    { replace (- sin along * - sin along) with (sin along * sin along) by ring.
      apply not_both_null; [exact He|lra|exact Hq|split; nra|]. intros Z. rewrite <- Eq, Z. ring. }
    destruct (wrong_radial (- sin along) T g s Hg0 Hs Hnz) as (U1 & a & b & U2 & U3). rewrite U2 in U1 |- *.
    destruct (U3 sgn Hga) as [U4 U5].
    replace (- a * - sin along + b * T) with (a * sin along + b * T) in U4, U5 by ring.
    exists (V3 a b 0), ((a * sin along + b * T) / s), ((1 * sin along + 0 * T) / s), ((0 * sin along + 1 * T) / s).
    split; [reflexivity|]. split; [exact U1|]. split; [apply (hk_rates mu e nu r s along a b Hc)|].
    split; [apply (hk_rates mu e nu r s along 1 0 Hc)|]. split; [apply (hk_rates mu e nu r s along 0 1 Hc)|].
    rewrite !Sq by exact Hs. rewrite U4, U5. split; split; intros; nra.
Qed.
End Law.

(** The hypotheses can be met: a circular orbit. *)
Example hk_case : let k := circular 0 in let along := k_ta k + k_aop k + k_raan k in
  value (fun _ _ => Some 0) no_bplane dcm_identity demo_sc (Element EQ_H) = Ok (k_ecc k * sin (along - k_ta k)) /\
  exists d, kluever_direction (fun _ _ => Some 0) no_bplane dcm_identity (fun _ => Some k)
    (Kluever [(within_tolerance (Element EQ_H) (1 / 10) (1 / 100), 1)] None) demo_sc = Ok d.
Proof.
  cbv zeta. split; [cbn [circular k_ecc]; rewrite Rmult_0_l; reflexivity|].
  unfold Guid_Model.kluever_direction. cbn [demo_sc mode kl_objectives kluever_sums]. unfold EQ_H.
  repeat (match goal with |- context [if ?c then _ else _] => destruct c end;
          cbn [bind lift value element_value ok_or kluever_term obj_parameter within_tolerance desired_value obj_tolerance EQ_H EQ_K]);
  eexists; reflexivity.
Qed.

Print Assumptions hk_values.
Print Assumptions C64_equinoctial_partial.
