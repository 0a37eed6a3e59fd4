(** What the steering directions of the closed-loop laws do to the orbit. *)
From Coq Require Import Reals Lra.
From Coquelicot Require Import Coquelicot.
From Verif Require Import Base Vec3 Angles Sc_Model Guid_Model Guid_Spec.
Local Open Scope R_scope.

Lemma trig2 a : sin a * sin a = 1 - cos a * cos a.
Proof. pose proof (sin2_cos2 a) as H. unfold Rsqr in H. lra. Qed.

Lemma norm_local r : 0 < r -> norm (local_position r) = r.
Proof.
  intros H. unfold norm, dot, local_position. cbn [vx vy vz].
  replace (r * r + 0 * 0 + 0 * 0) with (r * r) by ring. apply sqrt_square. lra.
Qed.

Lemma conic_q mu e nu r s : on_conic mu e nu r s -> 0 < 1 + e * cos nu.
Proof.
  intros (Hm & He & Hr & Hs & E). pose proof (COS_bound nu).
  assert (- e <= e * cos nu) by nra. lra.
Qed.

(** Semi-major axis. *)
Lemma sma_rate mu e nu r s u : on_conic mu e nu r s ->
  exists c, 0 < c /\
  rate_along (sma_of mu (local_position r)) (local_velocity s e nu) u
    (c * (e * sin nu * vx u + (1 + e * cos nu) * vy u)).
Proof.
  intros H. pose proof (conic_q _ _ _ _ _ H) as Hq. destruct H as (Hm & He & Hr & Hs & E).
  unfold rate_along, sma_of. rewrite norm_local by exact Hr.
  set (q := 1 + e * cos nu) in *. set (S := sin nu) in *.
  assert (HD : 2 / r - s * s * (e * S * (e * S) + q * q) / mu = (1 - e * e) / (r * q)).
  { unfold S. replace (e * sin nu * (e * sin nu)) with (e * e * (sin nu * sin nu)) by ring.
    rewrite trig2. rewrite E. subst q. field. lra. }
  assert (HDp : 0 < (1 - e * e) / (r * q)).
  { apply Rmult_lt_0_compat; [nra|]. apply Rinv_0_lt_compat. nra. }
  exists (2 * s / (mu * (((1 - e * e) / (r * q)) * ((1 - e * e) / (r * q))))). split.
  - apply Rmult_lt_0_compat; [lra|]. apply Rinv_0_lt_compat.
    apply Rmult_lt_0_compat; [exact Hm|]. apply Rmult_lt_0_compat; exact HDp.
  - apply is_derive_Reals. unfold dot, vadd, vscale, local_velocity. cbn [vx vy vz]. fold S q.
    auto_derive.
    + match goal with |- ?x <> 0 => replace x with ((1 - e * e) / (r * q)); [lra|] end.
      rewrite <- HD. field. lra.
    + match goal with |- context [/ (?x * ?x)] =>
        replace x with ((1 - e * e) / (r * q)) by (rewrite <- HD; field; lra) end.
      field. repeat split; nra.
Qed.

(** Eccentricity. *)
Lemma ecc_rate mu e nu r s u : on_conic mu e nu r s ->
  rate_along (ecc_squared mu (local_position r)) (local_velocity s e nu) u
    (2 * e / s * (sin nu * vx u + (cos nu + (e + cos nu) / (1 + e * cos nu)) * vy u)).
Proof.
  intros H. pose proof (conic_q _ _ _ _ _ H) as Hq. destruct H as (Hm & He & Hr & Hs & E).
  unfold rate_along, ecc_squared, ecc_vector. rewrite norm_local by exact Hr.
  apply is_derive_Reals. unfold dot, vadd, vsub, vscale, local_velocity, local_position.
  cbn [vx vy vz].
  pose proof (trig2 nu) as T.
  set (S := sin nu) in *. set (C := cos nu) in *. set (q := 1 + e * C) in *.
  auto_derive; [exact I|]. rewrite E.
  field_simplify_eq; [|repeat split; lra].
  replace (S ^ 3) with (S * (1 - C * C)) by (rewrite <- T; ring).
  replace (S ^ 2) with (1 - C * C) by (rewrite <- T; ring).
  subst q. ring.
Qed.

(** The inclination grows when its cosine decreases. *)
Lemma inc_rate mu e nu r s i lat u : on_conic mu e nu r s ->
  rate_along (cos_inclination (local_pole i lat) (local_position r)) (local_velocity s e nu) u
    (- (sin i * cos lat * vz u / (s * (1 + e * cos nu)))).
Proof.
  intros H. pose proof (conic_q _ _ _ _ _ H) as Hq. destruct H as (Hm & He & Hr & Hs & E).
  unfold rate_along, cos_inclination, norm.
  apply is_derive_Reals.
  unfold dot, cross, vadd, vscale, local_velocity, local_position, local_pole. cbn [vx vy vz].
  set (q := 1 + e * cos nu) in *.
  assert (Hsq : sqrt ((r * (s * q)) * (r * (s * q))) = r * (s * q)).
  { apply sqrt_square. repeat apply Rmult_le_pos; lra. }
  assert (Hp : 0 < r * (s * q)) by (repeat apply Rmult_lt_0_compat; lra).
  auto_derive.
  - match goal with |- _ < ?x /\ _ => replace x with ((r * (s * q)) * (r * (s * q))) by ring end.
    split; [nra|]. split; [rewrite Hsq; lra|exact I].
  - match goal with |- context [sqrt ?x] =>
      replace x with ((r * (s * q)) * (r * (s * q))) by ring end.
    rewrite Hsq. field. lra.
Qed.

(** The ascending node. *)
Lemma node_rate mu e nu r s i lat u : on_conic mu e nu r s -> 0 < sin i ->
  rate_along (tan_node (local_node lat) (local_quad i lat) (local_pole i lat) (local_position r))
    (local_velocity s e nu) u (sin lat * vz u / (s * (1 + e * cos nu) * sin i)).
Proof.
  intros H Hi. pose proof (conic_q _ _ _ _ _ H) as Hq. destruct H as (Hm & He & Hr & Hs & E).
  unfold rate_along, tan_node.
  apply is_derive_Reals.
  unfold dot, cross, vadd, vscale, local_velocity, local_position, local_pole, local_node, local_quad.
  cbn [vx vy vz].
  set (q := 1 + e * cos nu) in *.
  pose proof (trig2 lat) as Tl. pose proof (trig2 i) as Ti.
  set (sl := sin lat) in *. set (cl := cos lat) in *. set (si := sin i) in *. set (ci := cos i) in *.
  assert (Hp : 0 < r * (s * q) * si) by (repeat apply Rmult_lt_0_compat; lra).
  assert (HD : forall x, x = r * (s * q) * si * (sl * sl + cl * cl) -> x = r * (s * q) * si).
  { intros x ->. rewrite Tl. ring. }
  auto_derive.
  - match goal with |- ?x <> 0 => rewrite (HD x) by ring end. lra.
  - match goal with |- context [/ (?x * ?x)] => rewrite (HD x) by ring end.
    field_simplify_eq; [|repeat split; lra].
    assert (Tl2 : sl ^ 2 = 1 - cl ^ 2) by (replace (sl ^ 2) with (sl * sl) by ring; rewrite Tl; ring).
    assert (Ti2 : ci ^ 2 = 1 - si ^ 2) by (replace (si ^ 2) with (si * si) by ring; rewrite Ti; ring).
    replace (sl ^ 3) with (sl * sl ^ 2) by ring. rewrite ?Tl2, ?Ti2. ring_simplify.
    rewrite ?Ti2. ring_simplify. rewrite ?Tl2, ?Ti2. ring.
Qed.

(** ** The directions *)

Definition triple (s : R * R * R) : v3 := V3 (fst (fst s)) (snd (fst s)) (snd s).

Lemma norm_sq v : norm v * norm v = vx v * vx v + vy v * vy v + vz v * vz v.
Proof. apply norm_sqr. Qed.

(** The Kluever angles give the normalised sums. *)
Lemma kluever_steering_unit s : triple s <> vzero ->
  kluever_steering s = vscale (/ norm (triple s)) (triple s).
Proof.
  destruct s as [[na da] nb]. unfold triple, kluever_steering. cbn [fst snd]. intros Hz.
  set (v := V3 na da nb) in *. pose proof (norm_pos _ Hz) as Hn. pose proof (norm_sq v) as Hq.
  cbn [v vx vy vz] in Hq.
  set (rho := sqrt (na ^ 2 + da ^ 2)).
  assert (Hrho : rho * rho = na * na + da * da) by (unfold rho; rewrite sqrt_sqrt; nra).
  assert (Hrho0 : 0 <= rho) by apply sqrt_pos.
  assert (Hb : cos (atan2 nb rho) * norm v = rho /\ sin (atan2 nb rho) * norm v = nb).
  { assert (Hnz : rho <> 0 \/ nb <> 0).
    { destruct (Req_dec rho 0) as [E|E]; [|auto]. destruct (Req_dec nb 0) as [E2|E2]; [|auto].
      exfalso. nra. }
    destruct (atan2_spec _ _ Hnz) as [A B].
    replace (sqrt (rho * rho + nb * nb)) with (norm v) in A, B; [auto|].
    unfold norm, dot, v. cbn [vx vy vz]. f_equal. lra. }
  destruct Hb as [Hb1 Hb2].
  assert (Ha : cos (atan2 na da) * rho = da /\ sin (atan2 na da) * rho = na).
  { destruct (Req_dec rho 0) as [E|E].
    - assert (na = 0) by nra. assert (da = 0) by nra. rewrite E. lra.
    - assert (Hnz : da <> 0 \/ na <> 0).
      { destruct (Req_dec da 0); [|auto]. destruct (Req_dec na 0); [|auto]. exfalso. nra. }
      destruct (atan2_spec _ _ Hnz) as [A B].
      replace (sqrt (da * da + na * na)) with rho in A, B; [auto|].
      unfold rho. f_equal. ring. }
  destruct Ha as [Ha1 Ha2].
  assert (Hx : cos (atan2 nb rho) = rho / norm v) by (apply (Rmult_eq_reg_r (norm v)); [|lra]; rewrite Hb1; field; lra).
  assert (Hy : sin (atan2 nb rho) = nb / norm v) by (apply (Rmult_eq_reg_r (norm v)); [|lra]; rewrite Hb2; field; lra).
  apply v3_eq; cbn [vscale vx vy vz v]; fold rho; rewrite ?Hx, ?Hy.
  - transitivity (sin (atan2 na da) * rho / norm v); [field; lra|]. rewrite Ha2. field. lra.
  - transitivity (cos (atan2 na da) * rho / norm v); [field; lra|]. rewrite Ha1. field. lra.
  - field. lra.
Qed.

(** With nothing to correct the angles are zero: along the motion. *)
Lemma kluever_steering_idle : kluever_steering (0, 0, 0) = V3 0 1 0.
Proof.
  unfold kluever_steering.
  assert (E : atan2 0 0 = 0).
  { unfold atan2. destruct (Rlt_dec 0 0); [lra|reflexivity]. }
  replace (0 ^ 2 + 0 ^ 2) with 0 by ring. rewrite sqrt_0, E, sin_0, cos_0. f_equal; ring.
Qed.

Lemma plane_in_plane a b : a <> 0 \/ b <> 0 ->
  unit_vector_from_plane_angles (atan2 a b) 0 = vscale (/ norm (V3 a b 0)) (V3 a b 0).
Proof.
  intros H. unfold unit_vector_from_plane_angles. rewrite sin_0, cos_0.
  assert (H' : b <> 0 \/ a <> 0) by tauto.
  destruct (atan2_spec _ _ H') as [A B].
  assert (E : sqrt (b * b + a * a) = norm (V3 a b 0)).
  { unfold norm, dot. cbn [vx vy vz]. f_equal. ring. }
  rewrite E in A, B.
  assert (Hn : 0 < norm (V3 a b 0)).
  { apply norm_pos. intros F. unfold vzero in F. assert (a = 0) by congruence. assert (b = 0) by congruence. tauto. }
  apply v3_eq; cbn [vscale vx vy vz].
  - apply (Rmult_eq_reg_r (norm (V3 a b 0))); [|lra]. rewrite Rmult_1_r, B. field. lra.
  - apply (Rmult_eq_reg_r (norm (V3 a b 0))); [|lra]. rewrite Rmult_1_r, A. field. lra.
  - ring.
Qed.

Lemma plane_normal x : unit_vector_from_plane_angles 0 (copysign (PI / 2) x) =
  V3 0 0 (if Rlt_dec x 0 then -1 else 1).
Proof.
  unfold unit_vector_from_plane_angles, copysign. pose proof PI_RGT_0.
  rewrite (Rabs_pos_eq (PI / 2)) by lra. rewrite sin_0, cos_0.
  destruct (Rlt_dec x 0).
  - rewrite cos_neg, sin_neg, cos_PI2, sin_PI2. f_equal; ring.
  - rewrite cos_PI2, sin_PI2. f_equal; ring.
Qed.

(** What a radial push does to the eccentricity vector of a circular orbit. *)
Lemma circular_radial_rate mu r s c : 0 < r -> 0 < mu ->
  rate_along (fun v => vy (ecc_vector mu (local_position r) v)) (V3 0 s 0) (V3 c 0 0)
    (- (c * r * s / mu)).
Proof.
  intros Hr Hm. unfold rate_along, ecc_vector. rewrite norm_local by exact Hr.
  apply is_derive_Reals. unfold dot, vadd, vsub, vscale, local_position. cbn [vx vy vz].
  auto_derive; [exact I|]. field. lra.
Qed.
