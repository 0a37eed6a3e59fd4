(** C111: the efficiency of the Ruggiero law (ruggiero.rs:160-213) is the fastest rate at which thrust changes
    the element at this point of the orbit, as a share of the fastest rate anywhere on that orbit. *)
From Coq Require Import Reals Lra Psatz.
From Coquelicot Require Import Coquelicot.
From Verif Require Import Base RustStd Vec3 Angles Poly_Model Sc_Model Guid_Model Guid_Spec Guid_Steer Guid_Props.
Local Open Scope R_scope.

(** ** Specification *)

(** [m] is the greatest rate of [f] at velocity [v] along directions. *)
Definition fastest (f : v3 -> R) (v : v3) (m : R) : Prop :=
  (exists u, norm u = 1 /\ rate_along f v u m) /\ forall u l, norm u = 1 -> rate_along f v u l -> l <= m.
(** The distance at true anomaly [nu]. *)
Definition conic_radius (mu e s nu : R) : R := mu / (s * s * (1 + e * cos nu)).
(** An element as a function of the velocity, at true anomaly [nu] of the orbit of eccentricity [e], inclination
    [i] and argument of periapsis [w]: the square of the eccentricity, the cosine of the inclination and the
    tangent of the node from here stand for these elements, whose rates are the same up to a constant. *)
Definition element_at (p : parameter) (mu s e i w nu : R) : v3 -> R :=
  let pos := local_position (conic_radius mu e s nu) in
  match p with
  | Element SemiMajorAxis => sma_of mu pos
  | Element Eccentricity => ecc_squared mu pos
  | Element Inclination => cos_inclination (local_pole i (nu + w)) pos
  | Element RAAN => tan_node (local_node (nu + w)) (local_quad i (nu + w)) (local_pole i (nu + w)) pos
  | _ => fun _ => 0
  end.
(** The fastest rate over the whole orbit. *)
Definition fastest_on_orbit (p : parameter) (mu s e i w top : R) : Prop :=
  (exists nu, fastest (element_at p mu s e i w nu) (local_velocity s e nu) top) /\
  forall nu m, fastest (element_at p mu s e i w nu) (local_velocity s e nu) m -> m <= top.

(** ** Proofs *)

Lemma rate_unique f v u l l' : rate_along f v u l -> rate_along f v u l' -> l = l'.
Proof. apply uniqueness_limite. Qed.

Lemma fastest_unique f v m m' : fastest f v m -> fastest f v m' -> m = m'.
Proof. intros ((u & Hu & R1) & B1) ((u' & Hu' & R2) & B2). apply Rle_antisym; eauto. Qed.

Lemma dot_unit g u : norm u = 1 -> dot g u <= norm g.
Proof.
  intros Hu. apply Rsqr_incr_0_var; [|apply norm_nonneg]. unfold Rsqr. rewrite norm_sq.
  pose proof (norm_sq u) as H. rewrite Hu in H. unfold dot.
  destruct g as [a b c], u as [x y z]. cbn [vx vy vz] in *.
  pose proof (pow2_ge_0 (a * y - b * x)). pose proof (pow2_ge_0 (a * z - c * x)). pose proof (pow2_ge_0 (b * z - c * y)).
  replace (a * a + b * b + c * c) with ((a * a + b * b + c * c) * (x * x + y * y + z * z)) by (rewrite <- H; ring). nra.
Qed.

Lemma fastest_gradient f v g : (forall u, rate_along f v u (dot g u)) -> fastest f v (norm g).
Proof.
  intros H. split.
  - destruct (Req_dec (norm g) 0) as [E|E].
    + exists (V3 1 0 0). split; [unfold norm, dot; cbn [vx vy vz]; replace (1 * 1 + 0 * 0 + 0 * 0) with 1 by ring; apply sqrt_1|].
      pose proof (norm_sq g) as Q. rewrite E in *. assert (E0 : vx g = 0) by nra.
      specialize (H (V3 1 0 0)). unfold dot in H. cbn [vx vy vz] in H. rewrite E0 in H.
      replace (0 * 1 + vy g * 0 + vz g * 0) with 0 in H by ring. exact H.
    + pose proof (norm_nonneg g). pose proof (norm_sq g) as Q. exists (vscale (/ norm g) g). split.
      * assert (Hn : norm (vscale (/ norm g) g) * norm (vscale (/ norm g) g) = 1).
        { rewrite norm_sq. unfold vscale. cbn [vx vy vz].
          replace (/ norm g * vx g * (/ norm g * vx g) + / norm g * vy g * (/ norm g * vy g) + / norm g * vz g * (/ norm g * vz g))
            with (/ norm g * / norm g * (vx g * vx g + vy g * vy g + vz g * vz g)) by ring. rewrite <- Q. field. exact E. }
        pose proof (norm_nonneg (vscale (/ norm g) g)). nra.
      * specialize (H (vscale (/ norm g) g)).
        replace (norm g) with (dot g (vscale (/ norm g) g)) at 2; [exact H|].
        unfold dot, vscale. cbn [vx vy vz].
        replace (vx g * (/ norm g * vx g) + vy g * (/ norm g * vy g) + vz g * (/ norm g * vz g))
          with (/ norm g * (vx g * vx g + vy g * vy g + vz g * vz g)) by ring. rewrite <- Q. field. exact E.
  - intros u l Hu Hl. rewrite (rate_unique _ _ _ _ _ Hl (H u)). now apply dot_unit.
Qed.

Lemma conic_at mu e s nu : 0 < mu -> 0 < s -> 0 <= e < 1 -> on_conic mu e nu (conic_radius mu e s nu) s.
Proof.
  intros Hm Hs He. pose proof (COS_bound nu). assert (Hq : 0 < 1 + e * cos nu) by nra.
  assert (Hd : 0 < s * s * (1 + e * cos nu)) by (apply Rmult_lt_0_compat; nra).
  unfold on_conic, conic_radius. split; [exact Hm|]. split; [exact He|]. split; [now apply Rdiv_lt_0_compat|]. split; [exact Hs|]. field. split; lra.
Qed.

Lemma sma_rate_exact mu e nu s u : 0 < mu -> 0 < s -> 0 <= e < 1 ->
  rate_along (sma_of mu (local_position (conic_radius mu e s nu))) (local_velocity s e nu) u
    (2 * mu / (s * s * s * ((1 - e * e) * (1 - e * e))) * (e * sin nu * vx u + (1 + e * cos nu) * vy u)).
Proof.
  intros Hm Hs He. pose proof (conic_at mu e s nu Hm Hs He) as H. pose proof (conic_q _ _ _ _ _ H) as Hq.
  assert (Hr : 0 < conic_radius mu e s nu) by (destruct H as (_ & _ & A & _); exact A).
  unfold rate_along, sma_of. rewrite norm_local by exact Hr.
  assert (Hee : 0 < 1 - e * e) by nra.
  assert (HD : 2 / conic_radius mu e s nu - s * s * (e * sin nu * (e * sin nu) + (1 + e * cos nu) * (1 + e * cos nu)) / mu = s * s * (1 - e * e) / mu).
  { replace (e * sin nu * (e * sin nu)) with (e * e * (sin nu * sin nu)) by ring. rewrite trig2. unfold conic_radius. field. repeat split; lra. }
  assert (HDp : 0 < s * s * (1 - e * e) / mu).
  { apply Rdiv_lt_0_compat; [|exact Hm]. apply Rmult_lt_0_compat; nra. }
  apply is_derive_Reals. unfold dot, vadd, vscale, local_velocity. cbn [vx vy vz]. set (r := conic_radius mu e s nu) in *.
  auto_derive.
  - match goal with |- ?x <> 0 => replace x with (s * s * (1 - e * e) / mu); [lra|] end. rewrite <- HD. field. lra.
  - match goal with |- context [/ (?x * ?x)] => replace x with (s * s * (1 - e * e) / mu) by (rewrite <- HD; field; lra) end.
    field. repeat split; lra.
Qed.

(** Where on the orbit the rate of the inclination is the greatest, [w] being the argument of periapsis. *)
Lemma best_latitude e w : 0 <= e < 1 -> let d := sqrt (1 - e ^ 2 * (sin w) ^ 2) - e * Rabs (cos w) in
  0 < d /\ (exists lat, Rabs (cos lat) * d = 1 + e * cos (lat - w)) /\ forall lat, Rabs (cos lat) * d <= 1 + e * cos (lat - w).
Proof.
  intros He d. pose proof (trig2 w) as Tw. pose proof (COS_bound w) as Bw. pose proof (SIN_bound w) as Sw.
  assert (H0 : 0 < 1 - e ^ 2 * sin w ^ 2) by nra.
  pose proof (sqrt_lt_R0 _ H0) as Hc. pose proof (sqrt_sqrt _ (Rlt_le _ _ H0)) as Hcc.
  assert (Hd : 0 < d).
  { unfold d. set (c := sqrt (1 - e ^ 2 * sin w ^ 2)) in *.
    assert (e * Rabs (cos w) < c); [|lra]. apply Rsqr_incrst_0; [|apply Rmult_le_pos; [lra|apply Rabs_pos]|lra].
    unfold Rsqr. rewrite Hcc. replace (e * Rabs (cos w) * (e * Rabs (cos w))) with (e * e * (Rabs (cos w) * Rabs (cos w))) by ring.
    rewrite <- Rabs_mult, Rabs_pos_eq by nra. nra. }
  split; [exact Hd|]. split.
  - set (lat0 := asin (- (e * sin w))).
    assert (Hb : -1 <= - (e * sin w) <= 1) by nra.
    assert (Sl : sin lat0 = - (e * sin w)) by (apply sin_asin; exact Hb).
    assert (Cl : cos lat0 = sqrt (1 - e ^ 2 * sin w ^ 2)).
    { unfold lat0. rewrite cos_asin by exact Hb. f_equal. unfold Rsqr. ring. }
    unfold d in *. set (c := sqrt (1 - e ^ 2 * sin w ^ 2)) in *.
    destruct (Rle_dec 0 (cos w)) as [Hw|Hw].
    + exists (PI - lat0).
      assert (C2 : cos (PI - lat0) = - c) by (rewrite <- Cl, cos_minus, cos_PI, sin_PI; ring).
      assert (S2 : sin (PI - lat0) = - (e * sin w)) by (rewrite <- Sl, sin_minus, cos_PI, sin_PI; ring).
      rewrite (cos_minus (PI - lat0) w), C2, S2, Rabs_Ropp, (Rabs_pos_eq c), (Rabs_pos_eq (cos w)) by lra. lra.
    + exists lat0. rewrite cos_minus, Cl, Sl, (Rabs_pos_eq c), (Rabs_left (cos w)) by lra. lra.
  - intros lat. assert (Hq : 0 < 1 + e * (cos lat * cos w + sin lat * sin w)).
    { rewrite <- cos_minus. pose proof (COS_bound (lat - w)). nra. }
    pose proof (trig2 lat) as Tl.
    destruct (node_efficiency e (cos lat) (sin lat) (cos w) (sin w) He ltac:(lra) ltac:(lra) Hq) as [_ H].
    apply (Rmult_le_compat_r _ _ _ (Rlt_le _ _ Hq)) in H. unfold Rdiv in H. rewrite Rmult_assoc, Rinv_l, Rmult_1_r, Rmult_1_l in H by lra.
    rewrite cos_minus. exact H.
Qed.

(** The same from the node turned by a quarter. *)
Lemma best_latitude_sin e w : 0 <= e < 1 -> let d := sqrt (1 - e ^ 2 * (cos w) ^ 2) - e * Rabs (sin w) in
  0 < d /\ (exists lat, Rabs (sin lat) * d = 1 + e * cos (lat - w)) /\ forall lat, Rabs (sin lat) * d <= 1 + e * cos (lat - w).
Proof.
  intros He. destruct (best_latitude e (w - PI / 2) He) as (A & (lat & B) & C). cbv zeta in *.
  assert (Es : forall x, sin (x - PI / 2) = - cos x) by (intros x; rewrite sin_minus, cos_PI2, sin_PI2; ring).
  assert (Ec : forall x, cos (x - PI / 2) = sin x) by (intros x; rewrite cos_minus, cos_PI2, sin_PI2; ring).
  rewrite Es, Ec in *. replace ((- cos w) ^ 2) with (cos w ^ 2) in * by ring.
  split; [exact A|]. split.
  - exists (lat + PI / 2). rewrite <- Ec. replace (lat + PI / 2 - PI / 2) with lat by ring. rewrite B. do 2 f_equal. f_equal. ring.
  - intros x. specialize (C (x - PI / 2)). rewrite Ec in C. replace (x - PI / 2 - (w - PI / 2)) with (x - w) in C by ring. exact C.
Qed.

Lemma norm_z c : norm (V3 0 0 c) = Rabs c.
Proof. unfold norm, dot. cbn [vx vy vz]. replace (0 * 0 + 0 * 0 + c * c) with (Rsqr c) by (unfold Rsqr; ring). apply sqrt_Rsqr_abs. Qed.

(** From the rates to the share: [g] is the rate up to the constant [a], [d] the inverse of the greatest. *)
Lemma share p mu s e i w a d (g : R -> R) nu : 0 < a -> 0 < d ->
  (forall nu, fastest (element_at p mu s e i w nu) (local_velocity s e nu) (a * g nu)) ->
  (exists nu, g nu * d = 1) -> (forall nu, g nu * d <= 1) ->
  exists m top, fastest (element_at p mu s e i w nu) (local_velocity s e nu) m /\ fastest_on_orbit p mu s e i w top /\ 0 < top /\ m / top = g nu * d.
Proof.
  intros Ha Hd Hf (nu0 & E0) Hb. exists (a * g nu), (a / d). split; [apply Hf|]. split; [split|split].
  - exists nu0. replace (a / d) with (a * g nu0); [apply Hf|]. apply (Rmult_eq_reg_r d); [|lra]. rewrite Rmult_assoc, E0. field. lra.
  - intros nu' m Hm. rewrite (fastest_unique _ _ _ _ Hm (Hf nu')).
    apply (Rmult_le_reg_r d); [exact Hd|]. replace (a / d * d) with a by (field; lra). specialize (Hb nu'). nra.
  - now apply Rdiv_lt_0_compat.
  - field. lra.
Qed.

Section Efficiency.
Context (kepler : orbit -> option keplerian).

(** Semi-major axis, inclination and node: the efficiency is the share of the fastest rate on the orbit. *)
Theorem C111_share_partial : forall p o k mu s eta,
  kepler o = Some k -> efficiency kepler p o = Ok eta ->
  p = Element SemiMajorAxis \/ p = Element Inclination \/ p = Element RAAN ->
  0 < mu -> 0 < s -> 0 <= k_ecc k < 1 -> 0 < sin (k_inc k) ->
  k_mu k = mu -> k_sma k * (1 - k_ecc k ^ 2) = mu / (s * s) -> norm (velocity_km_s o) = norm (local_velocity s (k_ecc k) (k_ta k)) ->
  exists m top, fastest (element_at p mu s (k_ecc k) (k_inc k) (k_aop k) (k_ta k)) (local_velocity s (k_ecc k) (k_ta k)) m /\
    fastest_on_orbit p mu s (k_ecc k) (k_inc k) (k_aop k) top /\ 0 < top /\ eta = m / top.
Proof.
  intros p o k mu s eta Hk Heta Hp Hm Hs He Hi Hmu Ha Hv. unfold efficiency in Heta. rewrite Hk in Heta.
  set (e := k_ecc k) in *. set (w := k_aop k) in *. set (i := k_inc k) in *.
  assert (Hq : forall nu, 0 < 1 + e * cos nu) by (intros nu; pose proof (COS_bound nu); nra).
  destruct Hp as [-> | [-> | ->]];
    match type of Heta with Ok ?x = _ => assert (E : eta = x) by congruence; rewrite E; clear E Heta end.
  - set (c := 2 * mu / (s * s * s * ((1 - e * e) * (1 - e * e)))).
    assert (Hee : 0 < 1 - e * e) by nra.
    assert (Hc : 0 < c) by (apply Rdiv_lt_0_compat; [lra|]; repeat apply Rmult_lt_0_compat; lra).
    assert (Hvn : forall nu, norm (local_velocity s e nu) = s * sqrt (1 + 2 * e * cos nu + e * e)).
    { intros nu. unfold norm, dot, local_velocity. cbn [vx vy vz]. pose proof (trig2 nu) as T.
      replace (s * (e * sin nu) * (s * (e * sin nu)) + s * (1 + e * cos nu) * (s * (1 + e * cos nu)) + 0 * 0)
        with (s * s * (1 + 2 * e * cos nu + e * e)).
      - rewrite sqrt_mult_alt by nra. rewrite sqrt_square by lra. reflexivity.
      - replace (s * (e * sin nu) * (s * (e * sin nu))) with (s * s * (e * e) * (sin nu * sin nu)) by ring. rewrite T. ring. }
    assert (Hpos : forall nu, 0 <= 1 + 2 * e * cos nu + e * e) by (intros nu; pose proof (COS_bound nu); nra).
    destruct (share (Element SemiMajorAxis) mu s e i w c (/ (1 + e)) (fun nu => sqrt (1 + 2 * e * cos nu + e * e)) (k_ta k)) as (m & top & A & B & C & D).
    + exact Hc.
    + apply Rinv_0_lt_compat. lra.
    + intros nu. unfold element_at.
      assert (G := fastest_gradient (sma_of mu (local_position (conic_radius mu e s nu))) (local_velocity s e nu) (vscale (c / s) (local_velocity s e nu))).
      assert (En : norm (vscale (c / s) (local_velocity s e nu)) = c * sqrt (1 + 2 * e * cos nu + e * e)).
      { assert (Hcs : 0 < c / s) by now apply Rdiv_lt_0_compat.
        unfold norm at 1, dot, vscale. cbn [vx vy vz]. pose proof (norm_sq (local_velocity s e nu)) as Q. rewrite Hvn in Q.
        match goal with |- sqrt ?x = _ => replace x with ((c * sqrt (1 + 2 * e * cos nu + e * e)) * (c * sqrt (1 + 2 * e * cos nu + e * e))) end.
        - apply sqrt_square. apply Rmult_le_pos; [lra|apply sqrt_pos].
        - set (V := local_velocity s e nu) in *.
          replace (c / s * vx V * (c / s * vx V) + c / s * vy V * (c / s * vy V) + c / s * vz V * (c / s * vz V))
            with (c / s * (c / s) * (vx V * vx V + vy V * vy V + vz V * vz V)) by ring. rewrite <- Q. field. lra. }
      rewrite En in G. apply G. intros u.
      replace (dot (vscale (c / s) (local_velocity s e nu)) u) with (c * (e * sin nu * vx u + (1 + e * cos nu) * vy u)).
      * apply sma_rate_exact; assumption.
      * unfold dot, vscale, local_velocity. cbn [vx vy vz]. field. lra.
    + exists 0. rewrite cos_0. replace (1 + 2 * e * 1 + e * e) with ((1 + e) * (1 + e)) by ring. rewrite sqrt_square by lra. field. lra.
    + intros nu. apply (Rmult_le_reg_r (1 + e)); [lra|]. rewrite Rmult_assoc, Rinv_l, Rmult_1_r, Rmult_1_l by lra.
      apply Rsqr_incr_0_var; [|lra]. unfold Rsqr. rewrite sqrt_sqrt by apply Hpos. pose proof (COS_bound nu). nra.
    + exists m, top. split; [exact A|]. split; [exact B|]. split; [exact C|]. rewrite D, Hv, Hvn, Hmu.
      assert (Esma : k_sma k = mu / (s * s * (1 - e * e))).
      { apply (Rmult_eq_reg_r (1 - e ^ 2)); [|nra]. rewrite Ha. field. split; nra. }
      replace (k_sma k * (1 - e) / (mu * (1 + e))) with (/ (s * (1 + e)) * / (s * (1 + e))) by (rewrite Esma; field; repeat split; nra).
      rewrite sqrt_square; [|left; apply Rinv_0_lt_compat; nra]. field. split; lra.
  - destruct (best_latitude e w He) as (Hd & (lat & Hl) & Hb). cbv zeta in *. set (d := sqrt (1 - e ^ 2 * sin w ^ 2) - e * Rabs (cos w)) in *.
    destruct (share (Element Inclination) mu s e i w (sin i / s) d (fun nu => Rabs (cos (nu + w)) / (1 + e * cos nu)) (k_ta k)) as (m & top & A & B & C & D).
    + now apply Rdiv_lt_0_compat.
    + exact Hd.
    + intros nu. specialize (Hq nu). unfold element_at.
      assert (Hsq : 0 < s * (1 + e * cos nu)) by now apply Rmult_lt_0_compat.
      assert (G := fastest_gradient (cos_inclination (local_pole i (nu + w)) (local_position (conic_radius mu e s nu))) (local_velocity s e nu)
        (V3 0 0 (- (sin i * cos (nu + w) / (s * (1 + e * cos nu)))))).
      assert (En : norm (V3 0 0 (- (sin i * cos (nu + w) / (s * (1 + e * cos nu))))) = sin i / s * (Rabs (cos (nu + w)) / (1 + e * cos nu))).
      { rewrite norm_z, Rabs_Ropp. unfold Rdiv at 1. rewrite !Rabs_mult, (Rabs_pos_eq (sin i)), (Rabs_pos_eq (/ _)) by (try (left; apply Rinv_0_lt_compat); lra).
        field. split; lra. }
      rewrite En in G. apply G. intros u.
      replace (dot (V3 0 0 (- (sin i * cos (nu + w) / (s * (1 + e * cos nu))))) u) with (- (sin i * cos (nu + w) * vz u / (s * (1 + e * cos nu)))).
      * apply (inc_rate mu). now apply conic_at.
      * unfold dot. cbn [vx vy vz]. field. split; lra.
    + exists (lat - w). replace (lat - w + w) with lat by ring. specialize (Hq (lat - w)).
      replace (Rabs (cos lat) / (1 + e * cos (lat - w)) * d) with (Rabs (cos lat) * d / (1 + e * cos (lat - w))) by (field; lra). rewrite Hl. field. lra.
    + intros nu. specialize (Hq nu). specialize (Hb (nu + w)). replace (nu + w - w) with nu in Hb by ring.
      apply (Rmult_le_reg_r (1 + e * cos nu)); [exact Hq|]. replace (Rabs (cos (nu + w)) / (1 + e * cos nu) * d * (1 + e * cos nu)) with (Rabs (cos (nu + w)) * d) by (field; lra). lra.
    + exists m, top. split; [exact A|]. split; [exact B|]. split; [exact C|]. rewrite D, (Rplus_comm w). specialize (Hq (k_ta k)). field. lra.
  - destruct (best_latitude_sin e w He) as (Hd & (lat & Hl) & Hb). cbv zeta in *. set (d := sqrt (1 - e ^ 2 * cos w ^ 2) - e * Rabs (sin w)) in *.
    destruct (share (Element RAAN) mu s e i w (/ (s * sin i)) d (fun nu => Rabs (sin (nu + w)) / (1 + e * cos nu)) (k_ta k)) as (m & top & A & B & C & D).
    + apply Rinv_0_lt_compat. now apply Rmult_lt_0_compat.
    + exact Hd.
    + intros nu. specialize (Hq nu). unfold element_at.
      assert (Hsq : 0 < s * (1 + e * cos nu) * sin i) by (apply Rmult_lt_0_compat; [now apply Rmult_lt_0_compat|exact Hi]).
      assert (G := fastest_gradient (tan_node (local_node (nu + w)) (local_quad i (nu + w)) (local_pole i (nu + w)) (local_position (conic_radius mu e s nu))) (local_velocity s e nu)
        (V3 0 0 (sin (nu + w) / (s * (1 + e * cos nu) * sin i)))).
      assert (En : norm (V3 0 0 (sin (nu + w) / (s * (1 + e * cos nu) * sin i))) = / (s * sin i) * (Rabs (sin (nu + w)) / (1 + e * cos nu))).
      { rewrite norm_z. unfold Rdiv at 1. rewrite Rabs_mult, (Rabs_pos_eq (/ _)) by (left; apply Rinv_0_lt_compat; lra). field. repeat split; lra. }
      rewrite En in G. apply G. intros u.
      replace (dot (V3 0 0 (sin (nu + w) / (s * (1 + e * cos nu) * sin i))) u) with (sin (nu + w) * vz u / (s * (1 + e * cos nu) * sin i)).
      * apply (node_rate mu); [now apply conic_at|exact Hi].
      * unfold dot. cbn [vx vy vz]. field. repeat split; lra.
    + exists (lat - w). replace (lat - w + w) with lat by ring. specialize (Hq (lat - w)).
      replace (Rabs (sin lat) / (1 + e * cos (lat - w)) * d) with (Rabs (sin lat) * d / (1 + e * cos (lat - w))) by (field; lra). rewrite Hl. field. lra.
    + intros nu. specialize (Hq nu). specialize (Hb (nu + w)). replace (nu + w - w) with nu in Hb by ring.
      apply (Rmult_le_reg_r (1 + e * cos nu)); [exact Hq|]. replace (Rabs (sin (nu + w)) / (1 + e * cos nu) * d * (1 + e * cos nu)) with (Rabs (sin (nu + w)) * d) by (field; lra). lra.
    + exists m, top. split; [exact A|]. split; [exact B|]. split; [exact C|]. rewrite D, (Rplus_comm w). specialize (Hq (k_ta k)). field. lra.
Qed.

(** Eccentricity: the share itself, and the efficiency is never more than it. *)
Theorem C111_eccentricity_below : forall o k mu s eta,
  kepler o = Some k -> efficiency kepler (Element Eccentricity) o = Ok eta -> 0 < mu -> 0 < s -> 0 < k_ecc k < 1 ->
  exists m top, fastest (element_at (Element Eccentricity) mu s (k_ecc k) (k_inc k) (k_aop k) (k_ta k)) (local_velocity s (k_ecc k) (k_ta k)) m /\
    fastest_on_orbit (Element Eccentricity) mu s (k_ecc k) (k_inc k) (k_aop k) top /\ 0 < top /\
    m / top = norm (V3 (sin (k_ta k)) (cos (k_ta k) + (k_ecc k + cos (k_ta k)) / (1 + k_ecc k * cos (k_ta k))) 0) / 2 /\ eta <= m / top.
Proof.
  intros o k mu s eta Hk Heta Hm Hs He. unfold efficiency in Heta. rewrite Hk in Heta.
  set (e := k_ecc k) in *. set (w := k_aop k) in *. set (i := k_inc k) in *.
  match type of Heta with Ok ?x = _ => assert (E : eta = x) by congruence; rewrite E; clear E Heta end.
  assert (Hq : forall nu, 0 < 1 + e * cos nu) by (intros nu; pose proof (COS_bound nu); nra).
  set (G := fun nu => V3 (sin nu) (cos nu + (e + cos nu) / (1 + e * cos nu)) 0).
  assert (Hy : forall nu, let y := (e + cos nu) / (1 + e * cos nu) in
     -1 <= y <= 1 /\ norm (G nu) * norm (G nu) = 1 + 2 * cos nu * y + y * y).
  { intros nu y. specialize (Hq nu). pose proof (COS_bound nu). assert (Ey : y * (1 + e * cos nu) = e + cos nu) by (unfold y; field; lra).
    split; [nra|]. rewrite norm_sq. unfold G. cbn [vx vy vz]. fold y. rewrite trig2. ring. }
  destruct (share (Element Eccentricity) mu s e i w (2 * e / s) (/ 2) (fun nu => norm (G nu)) (k_ta k)) as (m & top & A & B & C & D).
  - apply Rdiv_lt_0_compat; lra.
  - lra.
  - intros nu. unfold element_at. assert (Hc : 0 < 2 * e / s) by (apply Rdiv_lt_0_compat; lra).
    assert (F := fastest_gradient (ecc_squared mu (local_position (conic_radius mu e s nu))) (local_velocity s e nu) (vscale (2 * e / s) (G nu))).
    assert (En : norm (vscale (2 * e / s) (G nu)) = 2 * e / s * norm (G nu)).
    { unfold norm at 1, dot, vscale. cbn [vx vy vz]. pose proof (norm_sq (G nu)) as Q. set (V := G nu) in *.
      match goal with |- sqrt ?x = _ => replace x with ((2 * e / s * norm V) * (2 * e / s * norm V)) end.
      - apply sqrt_square. apply Rmult_le_pos; [lra|apply norm_nonneg].
      - replace (2 * e / s * norm V * (2 * e / s * norm V)) with (2 * e / s * (2 * e / s) * (norm V * norm V)) by ring. rewrite Q. ring. }
    rewrite En in F. apply F. intros u.
    replace (dot (vscale (2 * e / s) (G nu)) u) with (2 * e / s * (sin nu * vx u + (cos nu + (e + cos nu) / (1 + e * cos nu)) * vy u)).
    + apply ecc_rate. apply conic_at; lra.
    + unfold dot, vscale, G. cbn [vx vy vz]. ring.
  - exists 0. unfold G. rewrite sin_0, cos_0. replace (1 + (e + 1) / (1 + e * 1)) with 2 by (field; lra).
    unfold norm, dot. cbn [vx vy vz]. replace (0 * 0 + 2 * 2 + 0 * 0) with (2 * 2) by ring. rewrite sqrt_square; lra.
  - intros nu. destruct (Hy nu) as [Hb Hn]. set (y := (e + cos nu) / (1 + e * cos nu)) in *. pose proof (COS_bound nu).
    pose proof (norm_nonneg (G nu)). assert (norm (G nu) <= 2); [|lra].
    apply Rsqr_incr_0_var; [|lra]. unfold Rsqr. rewrite Hn. nra.
  - exists m, top. split; [exact A|]. split; [exact B|]. split; [exact C|]. split; [exact D|]. rewrite D.
    destruct (Hy (k_ta k)) as [Hb Hn]. specialize (Hq (k_ta k)). set (y := (e + cos (k_ta k)) / (1 + e * cos (k_ta k))) in *.
    replace ((1 + 2 * e * cos (k_ta k) + cos (k_ta k) ^ 2) / (2 * (1 + e * cos (k_ta k)))) with ((1 + cos (k_ta k) * y) / 2) by (unfold y; field; lra).
    assert (1 + cos (k_ta k) * y <= norm (G (k_ta k))); [|lra]. pose proof (COS_bound (k_ta k)).
    apply Rsqr_incr_0_var; [|apply norm_nonneg]. unfold Rsqr. rewrite Hn.
    assert (cos (k_ta k) * cos (k_ta k) <= 1) by nra. assert (0 <= y * y) by nra. nra.
Qed.
End Efficiency.

(** The efficiency of the eccentricity is less than the share: at the end of the semi-parameter of an orbit of
    eccentricity 3/4 it is a half instead of five eighths. *)
Theorem C111_eccentricity_refuted : exists kepler o k mu s eta m top,
  kepler o = Some k /\ efficiency kepler (Element Eccentricity) o = Ok eta /\ 0 < mu /\ 0 < s /\ 0 < k_ecc k < 1 /\ 0 < sin (k_inc k) /\
  k_mu k = mu /\ k_sma k * (1 - k_ecc k ^ 2) = mu / (s * s) /\ norm (velocity_km_s o) = norm (local_velocity s (k_ecc k) (k_ta k)) /\
  fastest (element_at (Element Eccentricity) mu s (k_ecc k) (k_inc k) (k_aop k) (k_ta k)) (local_velocity s (k_ecc k) (k_ta k)) m /\
  fastest_on_orbit (Element Eccentricity) mu s (k_ecc k) (k_inc k) (k_aop k) top /\ 0 < top /\ eta = 1 / 2 /\ m / top = 5 / 8.
Proof.
  pose (k := {| k_ecc := 3 / 4; k_ta := PI / 2; k_aop := 0; k_raan := 0; k_inc := PI / 2; k_ea := acos (3 / 4); k_sma := 16 / 7;
               k_mu := 1; k_semi_parameter := 1 |}).
  pose (o := Orbit 0 0 (V3 1 0 0) (local_velocity 1 (3 / 4) (PI / 2))).
  assert (E : efficiency (fun _ => Some k) (Element Eccentricity) o = Ok (1 / 2)).
  { unfold efficiency. f_equal. cbn [k k_ecc k_ta]. rewrite cos_PI2. field. }
  assert (He : 0 < k_ecc k < 1) by (cbn [k k_ecc]; lra).
  destruct (C111_eccentricity_below (fun _ => Some k) o k 1 1 (1 / 2) eq_refl E Rlt_0_1 Rlt_0_1 He) as (m & top & A & B & C & D & _).
  exists (fun _ => Some k), o, k, 1, 1, (1 / 2), m, top.
  split; [reflexivity|]. split; [exact E|]. split; [lra|]. split; [lra|]. split; [exact He|].
  split; [cbn [k k_inc]; rewrite sin_PI2; lra|]. split; [reflexivity|]. split; [cbn [k k_sma k_ecc]; field|]. split; [reflexivity|].
  split; [exact A|]. split; [exact B|]. split; [exact C|]. split; [reflexivity|].
  rewrite D. cbn [k k_ecc k_ta]. rewrite sin_PI2, cos_PI2.
  replace (0 + (3 / 4 + 0) / (1 + 3 / 4 * 0)) with (3 / 4) by field. unfold norm, dot. cbn [vx vy vz].
  replace (1 * 1 + 3 / 4 * (3 / 4) + 0 * 0) with (5 / 4 * (5 / 4)) by field. rewrite sqrt_square by lra. field.
Qed.

(** An orbit which meets the hypotheses of [C111_share_partial]. *)
Example share_case : exists (o : orbit) (k : keplerian), k_ecc k = 3 / 4 /\ 0 < sin (k_inc k) /\ k_mu k = 1 /\
  k_sma k * (1 - k_ecc k ^ 2) = 1 / (1 * 1) /\ norm (velocity_km_s o) = norm (local_velocity 1 (k_ecc k) (k_ta k)) /\
  exists eta, efficiency (fun _ => Some k) (Element Inclination) o = Ok eta /\ eta = 0 /\
  exists eta', efficiency (fun _ => Some k) (Element RAAN) o = Ok eta' /\ eta' = sqrt 7 / 4.
Proof.
  exists (Orbit 0 0 (V3 1 0 0) (local_velocity 1 (3 / 4) (PI / 2))),
    {| k_ecc := 3 / 4; k_ta := PI / 2; k_aop := 0; k_raan := 0; k_inc := PI / 2; k_ea := acos (3 / 4); k_sma := 16 / 7; k_mu := 1; k_semi_parameter := 1 |}.
  cbn [k_ecc k_inc k_mu k_sma k_ta]. split; [reflexivity|]. split; [rewrite sin_PI2; lra|]. split; [reflexivity|]. split; [field|]. split; [reflexivity|].
  eexists. split; [reflexivity|]. cbn [k_ecc k_inc k_ta k_aop]. split.
  - rewrite Rplus_0_l, cos_PI2, Rabs_R0. field.
  - eexists. split; [reflexivity|]. cbn [k_ecc k_inc k_ta k_aop]. rewrite Rplus_0_l, sin_PI2, cos_PI2, sin_0, cos_0, Rabs_R0, Rabs_R1.
    replace (1 - (3 / 4) ^ 2 * 1 ^ 2) with (7 / 16) by field. rewrite sqrt_div_alt by lra.
    replace 16 with (4 * 4) by ring. rewrite sqrt_square by lra. field.
Qed.

Print Assumptions C111_share_partial.
Print Assumptions C111_eccentricity_below.
Print Assumptions C111_eccentricity_refuted.
