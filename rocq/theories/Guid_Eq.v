(** C64 for the equinoctial elements, which only the Kluever law corrects (kluever.rs:217-258): those of the
    plane of the orbit, and the eccentricity vector along the first axis (along the second: Guid_Props). *)
From Coq Require Import Reals Lra.
From Coquelicot Require Import Coquelicot.
From Verif Require Import Base RustStd Vec3 Angles Poly_Model Sc_Model Guid_Model Guid_Spec Guid_Steer Guid_Props.
Local Open Scope R_scope.

(** ** Specification *)

(** The tangent of half of the inclination times the sine (P) and the cosine (Q) of the node, from the
    angular momentum; the axes are [x], [y] and [z]. *)
Definition equinoctial_p (x z r v : v3) : R := dot (cross r v) x / (norm (cross r v) + dot (cross r v) z).
Definition equinoctial_q (y z r v : v3) : R := - dot (cross r v) y / (norm (cross r v) + dot (cross r v) z).
(** The inertial axes in the local frame of an orbit of inclination [i] and node [n] at argument of latitude [u]. *)
Definition local_x (i n u : R) : v3 := vsub (vscale (cos n) (local_node u)) (vscale (sin n) (local_quad i u)).
Definition local_y (i n u : R) : v3 := vadd (vscale (sin n) (local_node u)) (vscale (cos n) (local_quad i u)).
(** These are the elements. *)
Lemma equinoctial_pq mu e nu r s i n u : on_conic mu e nu r s -> 0 <= i < PI ->
  equinoctial_p (local_x i n u) (local_pole i u) (local_position r) (local_velocity s e nu) = tan (i / 2) * sin n /\
  equinoctial_q (local_y i n u) (local_pole i u) (local_position r) (local_velocity s e nu) = tan (i / 2) * cos n.
Proof.
  intros H Hi. pose proof (conic_q _ _ _ _ _ H) as Hq. destruct H as (Hm & He & Hr & Hs & E).
  assert (Hn : norm (cross (local_position r) (local_velocity s e nu)) = r * (s * (1 + e * cos nu))).
  { unfold norm, dot, cross, local_position, local_velocity. cbn [vx vy vz].
    match goal with |- sqrt ?x = _ => replace x with ((r * (s * (1 + e * cos nu))) * (r * (s * (1 + e * cos nu)))) by ring end.
    apply sqrt_square. repeat apply Rmult_le_pos; lra. }
  assert (Hp : 0 < r * (s * (1 + e * cos nu))) by (repeat apply Rmult_lt_0_compat; lra).
  assert (Hc : 0 < cos (i / 2)) by (apply cos_gt_0; lra).
  assert (Ci : cos i = 2 * cos (i / 2) * cos (i / 2) - 1) by (replace i with (2 * (i / 2)) at 1 by field; apply cos_2a_cos).
  assert (Si : sin i = 2 * sin (i / 2) * cos (i / 2)) by (replace i with (2 * (i / 2)) at 1 by field; apply sin_2a).
  unfold equinoctial_p, equinoctial_q. rewrite Hn. unfold tan, local_x, local_y, local_pole, local_quad, local_node, dot, cross, local_position, local_velocity, vsub, vadd, vscale. cbn [vx vy vz].
  rewrite Ci, Si. set (q := 1 + e * cos nu) in *. set (C := cos (i / 2)) in *. set (S := sin (i / 2)) in *.
  split; field; (split; [lra|]); (replace (r * (s * q) + _) with (r * (s * q) * (2 * (C * C))) by ring);
    apply Rmult_integral_contrapositive_currified; nra.
Qed.

(** ** Lemmas *)

Lemma plane_rates mu e nu r s i n u c : on_conic mu e nu r s -> 0 <= i < PI ->
  rate_along (equinoctial_p (local_x i n u) (local_pole i u) (local_position r)) (local_velocity s e nu) (V3 0 0 c)
    (c * sin (u + n) / (s * (1 + e * cos nu) * (1 + cos i))) /\
  rate_along (equinoctial_q (local_y i n u) (local_pole i u) (local_position r)) (local_velocity s e nu) (V3 0 0 c)
    (c * cos (u + n) / (s * (1 + e * cos nu) * (1 + cos i))).
Proof.
  intros H Hi. pose proof (conic_q _ _ _ _ _ H) as Hq. destruct H as (Hm & He & Hr & Hs & E).
  unfold rate_along, equinoctial_p, equinoctial_q, norm.
  assert (Hci : 0 < 1 + cos i).
  { assert (cos PI < cos i) by (apply cos_decreasing_1; lra). rewrite cos_PI in *. lra. }
  rewrite sin_plus, cos_plus. pose proof (trig2 i) as T.
  split; apply is_derive_Reals; unfold dot, cross, vadd, vsub, vscale, local_velocity, local_position, local_pole, local_x, local_y, local_node, local_quad; cbn [vx vy vz];
  set (q := 1 + e * cos nu) in *;
  (assert (Hsq : sqrt ((r * (s * q)) * (r * (s * q))) = r * (s * q)) by (apply sqrt_square; repeat apply Rmult_le_pos; lra));
  (assert (Hp : 0 < r * (s * q)) by (repeat apply Rmult_lt_0_compat; lra));
  (assert (Hpc : 0 < r * (s * q) * (1 + cos i)) by (apply Rmult_lt_0_compat; lra));
  auto_derive;
  try (match goal with |- _ < ?x /\ _ => replace x with ((r * (s * q)) * (r * (s * q))) by ring end; split; [nra|]; split; [rewrite Hsq; nra|exact I]);
  (match goal with |- context [sqrt ?x] => replace x with ((r * (s * q)) * (r * (s * q))) by ring end; rewrite Hsq);
  set (S := sin i) in *; set (C := cos i) in *; set (SU := sin u); set (CU := cos u); set (SN := sin n); set (CN := cos n).
  - field_simplify_eq; [|split; nra].
    replace (S ^ 2) with (1 - C * C) by (rewrite <- T; ring). ring.
  - field_simplify_eq; [|split; nra].
    replace (S ^ 2) with (1 - C * C) by (rewrite <- T; ring). ring.
Qed.

Section Law.
Context (evaluate : element -> orbit -> option R) (bplane : orbit -> option (R * R * R))
        (dcm_to_inertial : nat -> orbit -> option m3) (kepler : orbit -> option keplerian).

Lemma normal_steering g c : g <> 0 -> c = 1 \/ c = -1 -> kluever_steering (0, 0, g * c) = V3 0 0 (c * (g / Rabs g)).
Proof.
  intros Hg Hc. assert (Hn : norm (V3 0 0 (g * c)) = Rabs g).
  { unfold norm, dot. cbn [vx vy vz]. replace (0 * 0 + 0 * 0 + g * c * (g * c)) with (Rsqr g) by (unfold Rsqr; destruct Hc as [-> | ->]; ring).
    apply sqrt_Rsqr_abs. }
  rewrite kluever_steering_unit; unfold triple; cbn [fst snd].
  - rewrite Hn. unfold vscale. cbn [vx vy vz]. f_equal; try ring. unfold Rdiv. ring.
  - intros E. unfold vzero in E. assert (E' : g * c = 0) by congruence. destruct Hc as [-> | ->]; apply Hg; lra.
Qed.

(** P and Q move towards their targets, except at the points where no thrust changes them at first order. *)
Theorem C64_kluever_plane : forall kl k sc o w v d dcm mu r s,
  mode sc = Thrust -> kepler (sc_orbit sc) = Some k -> dcm_to_inertial RCN (sc_orbit sc) = Some dcm ->
  kl_objectives kl = [(o, w)] -> 0 < w -> obj_parameter o = Element EQ_P \/ obj_parameter o = Element EQ_Q ->
  value evaluate bplane dcm_to_inertial sc (obj_parameter o) = Ok v -> obj_tolerance o <= Rabs (desired_value o - v) ->
  on_conic mu (k_ecc k) (k_ta k) r s -> 0 <= k_inc k < PI ->
  kluever_direction evaluate bplane dcm_to_inertial kepler kl sc = Ok d ->
  let lat := k_ta k + k_aop k in let along := lat + k_raan k in let vel := local_velocity s (k_ecc k) (k_ta k) in
  let sgn := if Rlt_dec (desired_value o) v then -1 else 1 in
  exists u l, d = mv dcm u /\ norm u = 1 /\ 0 <= sgn * l /\
    (obj_parameter o = Element EQ_P ->
       rate_along (equinoctial_p (local_x (k_inc k) (k_raan k) lat) (local_pole (k_inc k) lat) (local_position r)) vel u l /\ (sin along <> 0 -> 0 < sgn * l)) /\
    (obj_parameter o = Element EQ_Q ->
       rate_along (equinoctial_q (local_y (k_inc k) (k_raan k) lat) (local_pole (k_inc k) lat) (local_position r)) vel u l /\ (cos along <> 0 -> 0 < sgn * l)).
Proof.
  intros kl k sc o w v d dcm mu r s Hm Hk Hdcm Ho Hw Hp Hv Htol Hc Hi Hd lat along vel sgn.
  destruct (kluever_one _ _ _ _ _ _ _ _ _ _ _ _ Hm Hk Hdcm Ho ltac:(lra) Hv Htol Hd) as (t & Ht & ->).
  set (g := w * fsignum (desired_value o - v)) in *.
  assert (Hsg : 0 < sgn * g).
  { unfold sgn, g, fsignum. destruct (Rlt_dec (desired_value o) v); destruct (Rlt_dec (desired_value o - v) 0); lra. }
  assert (Hg0 : g <> 0) by (intros E; rewrite E in Hsg; lra).
  assert (Hga : sgn * (g / Rabs g) = 1).
  { unfold sgn in *. pose proof (Rabs_pos_lt _ Hg0). destruct (Rlt_dec (desired_value o) v); [rewrite Rabs_left by lra|rewrite Rabs_pos_eq by lra]; field; lra. }
  pose proof (conic_q _ _ _ _ _ Hc) as Hq. assert (Hs : 0 < s) by (destruct Hc as (_ & _ & _ & A & _); exact A).
  assert (Hci : 0 < 1 + cos (k_inc k)).
  { assert (cos PI < cos (k_inc k)) by (apply cos_decreasing_1; lra). rewrite cos_PI in *. lra. }
  assert (Hpos : 0 < / (s * (1 + k_ecc k * cos (k_ta k)) * (1 + cos (k_inc k)))) by (apply Rinv_0_lt_compat; repeat apply Rmult_lt_0_compat; lra).
  assert (U : forall x, let c := sign_of x * (g / Rabs g) in norm (V3 0 0 c) = 1 /\
     0 <= sgn * (c * x / (s * (1 + k_ecc k * cos (k_ta k)) * (1 + cos (k_inc k)))) /\
     (x <> 0 -> 0 < sgn * (c * x / (s * (1 + k_ecc k * cos (k_ta k)) * (1 + cos (k_inc k)))))).
  { intros x c.
    assert (Ec : c * c = 1) by (unfold c; destruct (sign_of_sq x) as [-> | ->]; unfold sgn in Hga; destruct (Rlt_dec (desired_value o) v); nra).
    assert (El : sgn * (c * x / (s * (1 + k_ecc k * cos (k_ta k)) * (1 + cos (k_inc k)))) = Rabs x * / (s * (1 + k_ecc k * cos (k_ta k)) * (1 + cos (k_inc k)))).
    { unfold c, Rdiv at 1. rewrite <- (sign_of_mul x).
      replace (sgn * (sign_of x * (g / Rabs g) * x * / (s * (1 + k_ecc k * cos (k_ta k)) * (1 + cos (k_inc k)))))
        with ((sgn * (g / Rabs g)) * (x * sign_of x * / (s * (1 + k_ecc k * cos (k_ta k)) * (1 + cos (k_inc k))))) by ring.
      rewrite Hga. ring. }
    split; [|rewrite El; split].
    - unfold norm, dot. cbn [vx vy vz]. replace (0 * 0 + 0 * 0 + c * c) with 1 by lra. apply sqrt_1.
    - apply Rmult_le_pos; [apply Rabs_pos|lra].
    - intros Hx. apply Rmult_lt_0_compat; [now apply Rabs_pos_lt|exact Hpos]. }
  destruct Hp as [Hp|Hp]; rewrite Hp in Ht; cbn [kluever_term EQ_P EQ_Q] in Ht; unfold EQ_P, EQ_Q in Ht; cbn [kluever_term] in Ht;
  (match type of Ht with Ok ?x = _ => assert (Et : t = x) by congruence; rewrite Et end); clear Ht Et;
  rewrite normal_steering by (auto using sign_of_sq).
  - destruct (U (sin along)) as (U1 & U2 & U3). eexists _, _. split; [reflexivity|]. split; [exact U1|]. split; [exact U2|]. split.
    + intros _. split; [|exact U3]. apply (proj1 (plane_rates _ _ _ _ _ (k_inc k) (k_raan k) lat _ Hc Hi)).
    + rewrite Hp. intros F. discriminate F.
  - destruct (U (cos along)) as (U1 & U2 & U3). eexists _, _. split; [reflexivity|]. split; [exact U1|]. split; [exact U2|]. split.
    + rewrite Hp. intros F. discriminate F.
    + intros _. split; [|exact U3]. apply (proj2 (plane_rates _ _ _ _ _ (k_inc k) (k_raan k) lat _ Hc Hi)).
Qed.
End Law.

(** Below the target in the equinoctial element k (the eccentricity vector along the first axis of an
    equatorial orbit, here against the motion), the Kluever law pushes it further down. *)
Theorem C64_equinoctial_k_refuted : exists evaluate bplane dcm kepler kl k sc o v d mu r s l,
  mode sc = Thrust /\ kepler (sc_orbit sc) = Some k /\ dcm RCN (sc_orbit sc) = Some identity3 /\
  kl_objectives kl = [(o, 1)] /\ obj_parameter o = Element EQ_K /\
  value evaluate bplane dcm sc (obj_parameter o) = Ok v /\ v < desired_value o /\
  obj_tolerance o <= Rabs (desired_value o - v) /\
  on_conic mu (k_ecc k) (k_ta k) r s /\ k_inc k = 0 /\
  kluever_direction evaluate bplane dcm kepler kl sc = Ok d /\
  rate_along (fun vel => dot (local_x (k_inc k) (k_raan k) (k_ta k + k_aop k)) (ecc_vector mu (local_position r) vel))
    (local_velocity s (k_ecc k) (k_ta k)) d l /\ l < 0.
Proof.
  set (o := within_tolerance (Element EQ_K) (1/10) (1/100)).
  exists (fun _ _ => Some 0), no_bplane, dcm_identity, (fun _ => Some (circular (PI / 2))),
    (Kluever [(o, 1)] None), (circular (PI / 2)), demo_sc, o, 0, (V3 (-1) 0 0), 343000, 7000, 7, (- (7000 * 7 / 343000)).
  do 6 (split; [reflexivity|]). split; [cbn; lra|]. split; [cbn; rewrite Rabs_pos_eq; lra|].
  split; [apply circular_on_conic|]. split; [reflexivity|]. split; [|split; [|lra]].
  - unfold kluever_direction. cbn [demo_sc mode kl_objectives kluever_sums].
    destruct (Req_EM_T 1 0) as [A|_]; [lra|].
    change (obj_parameter o) with (Element EQ_K). unfold EQ_K.
    cbn [value element_value ok_or lift bind o within_tolerance desired_value obj_tolerance].
    destruct (Rlt_dec (Rabs (1/10 - 0)) (1/100)) as [A|_]; [rewrite Rabs_pos_eq in A; lra|].
    unfold kluever_term, EQ_K, EQ_H. cbn [value element_value ok_or lift bind].
    change (k_ta (circular (PI / 2)) + k_aop (circular (PI / 2)) + k_raan (circular (PI / 2))) with (PI / 2 + 0 + 0).
    replace (PI / 2 + 0 + 0) with (PI / 2) by ring.
    replace (fsignum (1/10 - 0)) with 1 by (unfold fsignum; destruct (Rlt_dec (1/10 - 0) 0); lra).
    unfold dcm_identity. rewrite mv_identity. f_equal. rewrite sin_PI2, cos_PI2.
    assert (E : triple (0 + 1 * 1 * - (1), 0 + 1 * 1 * (0 + (0 + 0) / (1 + 0 * 1 + 0 * 0)), 0 + 0) = V3 (-1) 0 0).
    { unfold triple. cbn [fst snd]. f_equal; field. }
    rewrite kluever_steering_unit.
    + rewrite E. replace (norm (V3 (-1) 0 0)) with 1.
      * unfold vscale. cbn [vx vy vz]. f_equal; field.
      * unfold norm, dot. cbn [vx vy vz]. replace (-1 * -1 + 0 * 0 + 0 * 0) with 1 by ring. symmetry. apply sqrt_1.
    + rewrite E. intros F. unfold vzero in F. assert (F' : -1 = 0) by congruence. lra.
  - cbn [circular k_inc k_raan k_ta k_aop k_ecc]. unfold rate_along, ecc_vector. rewrite norm_local by lra.
    apply is_derive_Reals. unfold dot, vadd, vsub, vscale, local_position, local_velocity, local_x, local_node, local_quad. cbn [vx vy vz].
    rewrite !Rplus_0_r, sin_0, cos_0, sin_PI2, cos_PI2. auto_derive; [exact I|]. field.
Qed.

(** The hypotheses of [C64_kluever_plane] can be met. *)
Example plane_case : exists d, kluever_direction (fun _ _ => Some 0) no_bplane dcm_identity (fun _ => Some (circular 0))
    (Kluever [(within_tolerance (Element EQ_Q) (1 / 10) (1 / 100), 1)] None) demo_sc = Ok d /\ on_conic 343000 0 0 7000 7 /\ 0 <= k_inc (circular 0) < PI.
Proof.
  eexists. split; [|split; [apply circular_on_conic|cbn; pose proof PI_RGT_0; lra]].
  unfold kluever_direction. cbn [demo_sc mode kl_objectives kluever_sums].
  destruct (Req_EM_T 1 0) as [A|_]; [lra|].
  cbn [value element_value ok_or lift bind obj_parameter within_tolerance desired_value obj_tolerance]. unfold EQ_Q.
  cbn [value element_value ok_or lift bind obj_parameter within_tolerance desired_value obj_tolerance].
  destruct (Rlt_dec _ _) as [A|_]; [rewrite Rabs_pos_eq in A; lra|]. reflexivity.
Qed.

Print Assumptions equinoctial_pq.
Print Assumptions C64_kluever_plane.
Print Assumptions C64_equinoctial_k_refuted.
