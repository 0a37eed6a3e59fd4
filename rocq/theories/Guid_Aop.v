(** C64 for the argument of periapsis, which only the Ruggiero law corrects (ruggiero.rs:362-388). *)
From Coq Require Import Reals Lra.
From Coquelicot Require Import Coquelicot.
From Verif Require Import Base RustStd Vec3 Angles Poly_Model Sc_Model Guid_Model Guid_Spec Guid_Steer Guid_Props.
Local Open Scope R_scope.

(** ** Specification *)

(** In the local frame, the direction a quarter of a turn ahead of the periapsis; a thrust in the plane of
    the orbit leaves the node, and turns the periapsis forward when it moves the eccentricity vector along
    this direction. *)
Definition ahead_of_periapsis (nu : R) : v3 := V3 (sin nu) (cos nu) 0.
Definition turns_periapsis (mu e nu r s : R) (u : v3) (l : R) : Prop :=
  vz u = 0 /\ rate_along (fun v => dot (ahead_of_periapsis nu) (ecc_vector mu (local_position r) v)) (local_velocity s e nu) u l.
(** The true anomalies at which a thrust in the plane, or normal to it, is the most effective according to
    the reference of the law; the law takes the nearest. *)
Definition best_in_plane (e : R) : R :=
  acos (Rpower ((1 - e ^ 2) / (2 * e ^ 3) + sqrt (1 / 4 * ((1 - e ^ 2) / e ^ 3) ^ 2 + 1 / 27)) (1 / 3)
        - Rpower (- (1 - e ^ 2) / (2 * e ^ 3) + sqrt (1 / 4 * ((1 - e ^ 2) / e ^ 3) ^ 2 + 1 / 27)) (1 / 3) - 1 / e).
Definition best_normal (e aop : R) : R := acos (- e * cos aop) - aop.

(** ** Lemmas *)

Lemma periapsis_rate mu e nu r s u : on_conic mu e nu r s -> vz u = 0 ->
  turns_periapsis mu e nu r s u (/ (s * (1 + e * cos nu)) * (- cos nu * (1 + e * cos nu) * vx u + sin nu * (2 + e * cos nu) * vy u)).
Proof.
  intros H Hz. split; [exact Hz|]. pose proof (conic_q _ _ _ _ _ H) as Hq. destruct H as (Hm & He & Hr & Hs & E).
  unfold rate_along, ecc_vector. rewrite norm_local by exact Hr.
  apply is_derive_Reals. unfold dot, vadd, vsub, vscale, local_velocity, local_position, ahead_of_periapsis. cbn [vx vy vz].
  set (S := sin nu) in *. set (C := cos nu) in *. set (q := 1 + e * C) in *.
  auto_derive; [exact I|]. rewrite E. rewrite Hz. field_simplify_eq; [|repeat split; lra].
  subst q. ring.
Qed.

Section Law.
Context (evaluate : element -> orbit -> option R) (bplane : orbit -> option (R * R * R))
        (dcm_to_inertial : nat -> orbit -> option m3) (kepler : orbit -> option keplerian).

(** When the law takes the plane of the orbit, the periapsis turns towards its target, at every point. *)
Theorem C64_ruggiero_periapsis_partial : forall ru k sc o threshold w v d dcm mu r s,
  mode sc = Thrust -> kepler (sc_orbit sc) = Some k -> dcm_to_inertial RCN (sc_orbit sc) = Some dcm ->
  ru_objectives ru = [(o, threshold)] -> obj_parameter o = Element AoP -> 0 < obj_tolerance o ->
  value evaluate bplane dcm_to_inertial sc (Element AoP) = Ok v ->
  weighting evaluate bplane dcm_to_inertial kepler ru o sc threshold = Ok w -> w <> 0 ->
  on_conic mu (k_ecc k) (k_ta k) r s -> norm (radius_km (sc_orbit sc)) = r -> k_semi_parameter k = r * (1 + k_ecc k * cos (k_ta k)) ->
  Rabs (k_ta k - best_in_plane (k_ecc k)) < Rabs (k_ta k - best_normal (k_ecc k) (k_aop k)) ->
  ruggiero_direction evaluate bplane dcm_to_inertial kepler ru sc = Ok d ->
  exists u l, d = mv dcm u /\ norm u = 1 /\ turns_periapsis mu (k_ecc k) (k_ta k) r s u l /\ 0 < (desired_value o - v) * l.
Proof.
  intros ru k sc o threshold w v d dcm mu r s Hm Hk Hdcm Ho Hp Htol Hv Hw Hw0 Hc Hr Hsp Hbr.
  unfold ruggiero_direction. rewrite Hm, Ho, Hdcm. cbn [ruggiero_sum]. rewrite Hw. cbn [bind].
  destruct (Rle_dec (Rabs w) 0) as [A|_]; [pose proof (Rabs_pos_lt _ Hw0); lra|].
  rewrite Hk, Hp. cbn [ruggiero_term].
  unfold best_in_plane, best_normal in Hbr.
  destruct (Rlt_dec _ _) as [_|N]; [|contradiction]. cbn [bind].
  pose proof (conic_q _ _ _ _ _ Hc) as Hq. pose proof Hc as (_ & He & Hr0 & Hs0 & _).
  set (e := k_ecc k) in *. set (nu := k_ta k) in *. pose proof (trig2 nu) as T.
  set (a := - k_semi_parameter k * cos nu). set (b := (k_semi_parameter k + norm (radius_km (sc_orbit sc))) * sin nu).
  assert (Ea : a = r * (- cos nu * (1 + e * cos nu))) by (unfold a; rewrite Hsp; ring).
  assert (Eb : b = r * (sin nu * (2 + e * cos nu))) by (unfold b; rewrite Hsp, Hr; ring).
  assert (Hab : a <> 0 \/ b <> 0).
  { destruct (Req_dec (sin nu) 0) as [S0|S0].
    - left. rewrite Ea. rewrite S0 in T. intros F. apply Rmult_integral in F as [F|F]; [lra|]. apply Rmult_integral in F as [F|F]; nra.
    - right. rewrite Eb. intros F. apply Rmult_integral in F as [F|F]; [lra|]. apply Rmult_integral in F as [F|F]; lra. }
  rewrite (plane_in_plane a b Hab). set (g := V3 a b 0).
  assert (Hg : g <> vzero) by (intros F; unfold g, vzero in F; assert (a = 0) by congruence; assert (b = 0) by congruence; tauto).
  pose proof (norm_pos _ Hg) as Hgp. pose proof (Rabs_pos_lt _ Hw0) as Hwp.
  set (x := vadd vzero (vscale w (vscale (/ norm g) g))).
  assert (Hx : x = vscale (w * / norm g) g) by (unfold x, vadd, vscale, vzero; cbn [vx vy vz]; f_equal; ring).
  assert (Hxn : norm x = Rabs w).
  { rewrite Hx, norm_scale, Rabs_mult, (Rabs_pos_eq (/ norm g)) by (left; now apply Rinv_0_lt_compat). field. lra. }
  assert (Hxz : x <> vzero) by (intros E; apply norm_zero_iff in E; lra).
  assert (Hu : normalized x = vscale (/ Rabs w * (w * / norm g)) g).
  { rewrite (normalized_norm _ Hxz), Hxn, Hx. unfold vscale. cbn [vx vy vz]. f_equal; ring. }
  intros H. exists (normalized x). eexists. split; [congruence|]. split; [|split].
  - rewrite (normalized_norm _ Hxz), norm_scale, Hxn, Rabs_pos_eq by (left; now apply Rinv_0_lt_compat). field. lra.
  - apply periapsis_rate; [exact Hc|]. rewrite Hu. unfold g. cbn [vscale vz]. ring.
  - rewrite Hu. unfold g at 2 4. cbn [vscale vx vy].
    assert (Hws : 0 < (desired_value o - v) * w) by (eapply weighting_sign; try eassumption; now rewrite Hp).
    set (c := / Rabs w * / norm g). assert (Hcp : 0 < c) by (apply Rmult_lt_0_compat; now apply Rinv_0_lt_compat).
    replace (/ Rabs w * (w * / norm g)) with (w * c) by (unfold c; ring).
    assert (Hi : 0 < / (s * (1 + e * cos nu))) by (apply Rinv_0_lt_compat; nra).
    replace ((desired_value o - v) * (/ (s * (1 + e * cos nu)) * (- cos nu * (1 + e * cos nu) * (w * c * a) + sin nu * (2 + e * cos nu) * (w * c * b))))
      with (((desired_value o - v) * w) * (c * / (s * (1 + e * cos nu)) * (/ r * (a * a + b * b)))).
    + assert (0 < a * a + b * b) by (destruct Hab; nra).
      assert (0 < / r) by now apply Rinv_0_lt_compat.
      apply Rmult_lt_0_compat; [exact Hws|]. apply Rmult_lt_0_compat; apply Rmult_lt_0_compat; assumption.
    + rewrite Ea, Eb. field. split; [|split]; lra.
Qed.
End Law.

(** ** The wrong way on a polar orbit *)

Definition aop_sc : spacecraft := with_orbit demo_sc (Orbit 0 0 (V3 7000 0 0) (V3 (-7 / 2) 7 0)).
Definition polar : keplerian :=
  {| k_ecc := 1 / 2; k_ta := 3 * (PI / 2); k_aop := 0; k_raan := 0; k_inc := PI / 2; k_ea := 2 * PI - PI / 3; k_sma := 28000 / 3;
     k_mu := 343000; k_semi_parameter := 7000 |}.

Lemma cbrt_of x : 0 < x -> Rpower (x * x * x) (1 / 3) = x.
Proof.
  intros H. replace (x * x * x) with (Rpower x 3).
  - rewrite Rpower_mult. replace (3 * (1 / 3)) with 1 by field. now apply Rpower_1.
  - replace 3 with (INR 3) by (cbn; ring). rewrite Rpower_pow by exact H. cbn. ring.
Qed.

(** At a half of eccentricity, the cosine of the best anomaly in the plane is above minus a half. *)
Lemma best_half : PI / 2 <= best_in_plane (1 / 2) <= acos (- (1 / 2)).
Proof.
  unfold best_in_plane. set (s := sqrt _).
  assert (Hs : 3 < s < 5).
  { unfold s. split.
    - apply Rsqr_incrst_0; [|lra|apply sqrt_pos]. rewrite Rsqr_sqrt; unfold Rsqr; lra.
    - apply Rsqr_incrst_0; [|apply sqrt_pos|lra]. rewrite Rsqr_sqrt; unfold Rsqr; lra. }
  assert (Hss : s * s = 9 + 1 / 27) by (unfold s; rewrite sqrt_sqrt; lra).
  set (A := (1 - (1 / 2) ^ 2) / (2 * (1 / 2) ^ 3) + s). set (B := - (1 - (1 / 2) ^ 2) / (2 * (1 / 2) ^ 3) + s).
  assert (EA : A = 3 + s) by (unfold A; field). assert (EB : B = s - 3) by (unfold B; field).
  assert (A1 : 18 / 10 <= Rpower A (1 / 3)).
  { rewrite <- (cbrt_of (18 / 10)) by lra. apply Rle_Rpower_l; [lra|]. rewrite EA. lra. }
  assert (A2 : Rpower A (1 / 3) <= 2).
  { rewrite <- (cbrt_of 2) by lra. apply Rle_Rpower_l; [lra|]. rewrite EA. lra. }
  assert (B1 : Rpower B (1 / 3) <= 2 / 10).
  { rewrite <- (cbrt_of (2 / 10)) by lra. apply Rle_Rpower_l; [lra|]. rewrite EB. split; [lra|]. nra. }
  assert (B2 : 0 < Rpower B (1 / 3)) by apply exp_pos.
  set (Q := Rpower A (1 / 3) - Rpower B (1 / 3) - 1 / (1 / 2)).
  assert (HQ : - (1 / 2) <= Q <= 0) by (unfold Q; lra).
  pose proof (acos_bound Q). pose proof (acos_bound (- (1 / 2))). pose proof PI_RGT_0. split.
  { destruct (Rle_lt_dec (PI / 2) (acos Q)) as [L|L]; [exact L|exfalso].
    assert (C : cos (PI / 2) < cos (acos Q)) by (apply cos_decreasing_1; lra). rewrite cos_PI2, cos_acos in C by lra. lra. }
  destruct (Rle_lt_dec (acos Q) (acos (- (1 / 2)))) as [L|L]; [exact L|exfalso].
  assert (C : cos (acos Q) < cos (acos (- (1 / 2)))) by (apply cos_decreasing_1; lra).
  rewrite !cos_acos in C by lra. lra.
Qed.

Lemma sin_three_quarters : sin (3 * (PI / 2)) = -1.
Proof. apply sin_3PI2. Qed.
Lemma cos_three_quarters : cos (3 * (PI / 2)) = 0.
Proof. apply cos_3PI2. Qed.

(** On a polar orbit, below the target, three quarters of a turn after the periapsis: the law chooses to thrust
    normal to the plane, multiplies the angle from the plane by the cosine of the inclination, and so
    thrusts along the motion, which turns the periapsis backward. *)
Theorem C64_periapsis_refuted : exists evaluate bplane dcm kepler ru k sc o v w d mu r s l,
  mode sc = Thrust /\ kepler (sc_orbit sc) = Some k /\ dcm RCN (sc_orbit sc) = Some identity3 /\
  ru_objectives ru = [(o, 0)] /\ obj_parameter o = Element AoP /\ 0 < obj_tolerance o /\
  value evaluate bplane dcm sc (Element AoP) = Ok v /\ v < desired_value o /\
  weighting evaluate bplane dcm kepler ru o sc 0 = Ok w /\ w <> 0 /\
  on_conic mu (k_ecc k) (k_ta k) r s /\ anomalies k /\ 0 < k_ecc k /\
  radius_km (sc_orbit sc) = local_position r /\ velocity_km_s (sc_orbit sc) = local_velocity s (k_ecc k) (k_ta k) /\
  k_semi_parameter k = r * (1 + k_ecc k * cos (k_ta k)) /\
  ruggiero_direction evaluate bplane dcm kepler ru sc = Ok d /\
  turns_periapsis mu (k_ecc k) (k_ta k) r s d l /\ l < 0.
Proof.
  set (o := within_tolerance (Element AoP) 10 (1 / 100)).
  assert (Hc : on_conic 343000 (k_ecc polar) (k_ta polar) 7000 7).
  { unfold on_conic. cbn [polar k_ecc k_ta]. rewrite cos_three_quarters. lra. }
  assert (Hw : weighting (fun _ _ => Some 0) no_bplane dcm_identity (fun _ => Some polar) (Ruggiero [(o, 0)] None aop_sc) o aop_sc 0 = Ok 1).
  { unfold weighting. cbn [value element_value ok_or obj_parameter within_tolerance desired_value obj_tolerance ru_init efficiency o].
    destruct (Rlt_dec (Rabs (0 - 10)) (1 / 100)) as [A|A]; [rewrite Rabs_left in A; lra|].
    destruct (Rlt_dec 1 0) as [B|_]; [lra|]. f_equal. rewrite Rabs_pos_eq by lra. lra. }
  exists (fun _ _ => Some 0), no_bplane, dcm_identity, (fun _ => Some polar),
    (Ruggiero [(o, 0)] None aop_sc), polar, aop_sc, o, 0, 1, (V3 0 1 0), 343000, 7000, 7. eexists.
  do 5 (split; [reflexivity|]). split; [cbn; lra|]. split; [reflexivity|]. split; [cbn; lra|].
  split; [exact Hw|]. split; [lra|]. split; [exact Hc|].
  split. { unfold anomalies. cbn [polar k_ecc k_ta k_ea]. rewrite cos_three_quarters.
           replace (2 * PI - PI / 3) with (- (PI / 3) + 2 * PI) by ring. rewrite cos_plus, cos_2PI, sin_2PI, cos_neg, cos_PI3. field. }
  split; [cbn; lra|]. split; [reflexivity|].
  split. { unfold local_velocity. cbn [polar k_ecc k_ta aop_sc sc_orbit with_orbit velocity_km_s]. rewrite sin_three_quarters, cos_three_quarters. f_equal; field. }
  split. { cbn [polar k_ecc k_ta k_semi_parameter]. rewrite cos_three_quarters. ring. }
  split; [|split].
  - unfold ruggiero_direction. change (mode aop_sc) with Thrust. cbn [ru_objectives ruggiero_sum]. rewrite Hw. cbn [bind].
    destruct (Rle_dec (Rabs 1) 0) as [A|_]; [rewrite Rabs_R1 in A; lra|].
    change (obj_parameter o) with (Element AoP). cbn [ruggiero_term].
    change (k_ecc polar) with (1 / 2). change (k_ta polar) with (3 * (PI / 2)). change (k_aop polar) with 0. change (k_inc polar) with (PI / 2).
    destruct (Rlt_dec _ _) as [L|_].
    + exfalso. pose proof best_half as Hb. unfold best_in_plane in Hb. rewrite cos_0 in L.
      replace (- (1 / 2) * 1) with (- (1 / 2)) in L by ring. rewrite Rminus_0_r in L.
      pose proof (acos_bound (- (1 / 2))). pose proof PI_RGT_0.
      rewrite !Rabs_pos_eq in L by lra. lra.
    + cbn [bind]. unfold dcm_identity. rewrite mv_identity. f_equal. rewrite cos_PI2, Rmult_0_r.
      unfold unit_vector_from_plane_angles. rewrite sin_0, cos_0.
      replace (vadd vzero (vscale 1 (V3 (0 * 1) (1 * 1) 0))) with (V3 0 1 0) by (unfold vadd, vscale, vzero; cbn [vx vy vz]; f_equal; ring).
      assert (E : norm (V3 0 1 0) = 1) by (unfold norm, dot; cbn [vx vy vz]; replace (0 * 0 + 1 * 1 + 0 * 0) with 1 by ring; apply sqrt_1).
      unfold normalized. rewrite E. destruct (Rlt_dec 0 1); [|lra]. unfold vscale. cbn [vx vy vz]. f_equal; field.
  - apply periapsis_rate; [exact Hc|reflexivity].
  - cbn [polar k_ecc k_ta vx vy]. rewrite sin_three_quarters, cos_three_quarters. lra.
Qed.

(** The hypotheses of [C64_ruggiero_periapsis_partial] on the orbit can be met: at the best point of the
    plane, the periapsis being a quarter of a turn from the node. *)
Example periapsis_case : let nu := best_in_plane (1 / 2) in exists mu r,
  on_conic mu (1 / 2) nu r 7 /\ Rabs (nu - best_in_plane (1 / 2)) < Rabs (nu - best_normal (1 / 2) (PI / 2)).
Proof.
  cbv zeta. exists (49 * (7000 * (1 + 1 / 2 * cos (best_in_plane (1 / 2))))), 7000.
  pose proof (COS_bound (best_in_plane (1 / 2))). split.
  - unfold on_conic. repeat split; lra.
  - rewrite Rminus_eq_0, Rabs_R0. apply Rabs_pos_lt. unfold best_normal. rewrite cos_PI2, Rmult_0_r, acos_0.
    pose proof best_half. pose proof PI_RGT_0. lra.
Qed.

Print Assumptions C64_ruggiero_periapsis_partial.
Print Assumptions C64_periapsis_refuted.
