(** C79: the geometry of ground assets. *)
From Coq Require Import String Reals Lra Psatz.
From Coquelicot Require Import Coquelicot.
From Verif Require Import Base Vec3 Angles Dual Gnd_Model Gnd_Spec Gnd_Proofs.
Local Open Scope R_scope.

(** An asset on a flattened body, for the examples. *)
Definition demo_asset (lat lon : R) : asset :=
  {| lat_deg := lat; lon_deg := lon; height_km := 1; lat_rate := 1 / 10; lon_rate := 1 / 5; height_rate := 1 / 50;
     asset_epoch := 0; asset_frame := {| frame_id := 399; shape := Some (6378, 6357) |}; asset_stm := None |}.

(** ** The vector of a state holds it: setting it back restores the asset, and adding a deviation adds
    it to the vector. *)
Theorem C79_vector :
  forall s t d,
    (forall i, to_vector42 (set42 s t (to_vector42 s)) i = to_vector42 s i) /\
    asset_epoch (set42 s t (to_vector42 s)) = t /\
    asset_frame (set42 s t (to_vector42 s)) = asset_frame s /\
    (asset_stm (set42 s t (to_vector42 s)) = None <-> asset_stm s = None) /\
    (forall i, (i < 6)%nat -> to_vector42 (add6 s d) i = to_vector42 s i + d i) /\
    asset_stm (add6 s d) = asset_stm s /\ asset_epoch (add6 s d) = asset_epoch s /\
    asset_frame (add6 s d) = asset_frame s.
Proof.
  intros s t d. split.
  - intros [|[|[|[|[|[|k]]]]]]; try reflexivity. cbn [to_vector42 set42 asset_stm].
    destruct (asset_stm s) as [m|] eqn:E; [|reflexivity]. cbn [Nat.add to_vector42]. rewrite E. now destruct (k <? 36)%nat.
  - split; [reflexivity|]. split; [reflexivity|]. split.
    + cbn [set42 asset_stm]. destruct (asset_stm s); split; congruence.
    + split; [|now split]. intros [|[|[|[|[|[|k]]]]]] Hi; try reflexivity. lia.
Qed.
Print Assumptions C79_vector.
Example vector_example : to_vector42 (reset_stm (demo_asset 10 20)) 6 = 1 /\
  to_vector42 (reset_stm (demo_asset 10 20)) 7 = 0 /\ to_vector42 (reset_stm (demo_asset 10 20)) 41 = 1.
Proof. repeat split. Qed.

(** ** The Jacobian.  Some map takes a geodetic state to its position on the ellipsoid and its
    velocity, and the matrix is its derivative, in each of the six components, at the state of the asset. *)
Theorem C79_jacobian :
  forall s a b, shape (asset_frame s) = Some (a, b) -> 0 < a -> 0 < b ->
    exists C J, jacobian s = Ok J /\ cartesian_map a b C /\
      forall i j, (i < 6)%nat -> (j < 6)%nat ->
        is_derive (fun h => C (nudge (to_vector42 s) j h) i) 0 (J i j).
Proof.
  intros s a b Hs Ha Hb. exists (cart a ((a * a - b * b) / (a * a)) s). unfold jacobian, radii. rewrite Hs.
  eexists. split; [reflexivity|]. split; [now apply cart_map|]. intros i j Hi Hj.
  destruct (jacobian_tracks a b s (to_vector42 s) j i Ha Hb Hi) as [_ D]. exact D.
Qed.
Print Assumptions C79_jacobian.
Example jacobian_example : shape (asset_frame (demo_asset 45 10)) = Some (6378, 6357) /\ is_ok (jacobian (demo_asset 45 10)).
Proof. split; [reflexivity|]. eexists. reflexivity. Qed.
(** Only one point has given geodetic coordinates, so that the map is determined. *)
Theorem C79_unique :
  forall a b C C', 0 < a -> 0 < b -> cartesian_map a b C -> cartesian_map a b C' ->
    forall q i, (i < 6)%nat -> C q i = C' q i.
Proof.
  intros a b C C' Ha Hb H H' q.
  assert (X : forall q i, (i < 3)%nat -> C q i = C' q i).
  { intros p i Hi. destruct (H p) as [G _]. destruct (H' p) as [G' _].
    pose proof (geodetic_unique _ _ _ _ _ _ _ Ha Hb G G') as E.
    destruct i as [|[|[|i]]]; [| | |lia].
    - exact (f_equal vx E).
    - exact (f_equal vy E).
    - exact (f_equal vz E). }
  intros i Hi. destruct (Nat.lt_ge_cases i 3) as [L|L]; [now apply X|].
  replace i with ((i - 3) + 3)%nat by lia.
  destruct (H q) as [_ D]. destruct (H' q) as [_ D'].
  assert (Hj : (i - 3 < 3)%nat) by lia.
  pose proof (is_derive_unique _ _ _ (D _ Hj)) as E. pose proof (is_derive_unique _ _ _ (D' _ Hj)) as E'.
  rewrite <- E, <- E'. apply Derive_ext. intros t. now apply X.
Qed.
Print Assumptions C79_unique.
Example unique_example : cartesian_map 6378 6357 (cart 6378 ((6378 * 6378 - 6357 * 6357) / (6378 * 6378)) (demo_asset 0 0)).
Proof. apply cart_map; lra. Qed.

(** ** Velocities on the topocentric axes.  Provided that anise gives back the latitude and the
    height of the asset from its orbit: the velocity is that of the Cartesian map, in meters per
    second and on the south, east and zenith axes, hence also its norm. *)
Definition restores (try_latlongalt : R -> R -> R -> Z -> gframe -> res gnd_error orbit)
    (latlongalt : orbit -> res gnd_error (R * R * R)) (s : asset) : Prop :=
  exists o lon, try_latlongalt (lat_deg s) (lon_deg s) (height_km s) (asset_epoch s) (asset_frame s) = Ok o /\
    latlongalt o = Ok (lat_deg s, lon, height_km s) /\ o_frame o = asset_frame s.
Theorem C79_velocity :
  forall try_latlongalt latlongalt s a b C, shape (asset_frame s) = Some (a, b) -> 0 < a -> 0 < b ->
    restores try_latlongalt latlongalt s -> cartesian_map a b C ->
    exists v, velocity_sez_m_s try_latlongalt latlongalt s = Ok v /\
      let c := C (to_vector42 s) in
      let w := V3 (c 3%nat) (c 4%nat) (c 5%nat) in
      Vec3.vscale 1000 w = Vec3.vadd (Vec3.vadd (Vec3.vscale (vx v) (south (lat_deg s) (lon_deg s)))
                                                (Vec3.vscale (vy v) (east (lon_deg s))))
                                     (Vec3.vscale (vz v) (up (lat_deg s) (lon_deg s))) /\
      norm v = 1000 * norm w.
Proof.
  intros tl ll s a b C Hs Ha Hb (o & lon & Ho & Hl & Hf) HC.
  unfold velocity_sez_m_s. rewrite Ho. cbn [bind]. unfold velocity_sez_from_rates. rewrite Hl. cbn [bind].
  unfold radii. rewrite Hf, Hs. cbn [bind]. eexists. split; [reflexivity|]. cbn zeta.
  pose proof (C79_unique a b C _ Ha Hb HC (cart_map a b s Ha Hb) (to_vector42 s)) as E.
  rewrite (E 3%nat) by lia. rewrite (E 4%nat) by lia. rewrite (E 5%nat) by lia. clear E.
  set (w := V3 _ _ _). set (v := Vec3.vscale 1000 (V3 _ _ _)).
  assert (K : Vec3.vscale 1000 w = Vec3.vadd (Vec3.vadd (Vec3.vscale (vx v) (south (lat_deg s) (lon_deg s)))
       (Vec3.vscale (vy v) (east (lon_deg s)))) (Vec3.vscale (vz v) (up (lat_deg s) (lon_deg s)))).
  { unfold v, w. clear v w. unfold to_radians, south, east, up, rad.
    unfold cart, geodetic_duals, with_six. cbn [nth to_vector42].
    cbn [re dadd dsub dmul ddiv dsqrt dsin dcos dneg dscal dvar dconst lat_deg lon_deg height_km
         lat_rate lon_rate height_rate].
    set (L := lat_deg s * (PI / 180)). set (O := lon_deg s * (PI / 180)).
    pose proof (w_pos a b L Ha Hb) as Hw.
    replace ((a ^ 2 - b ^ 2) / a ^ 2) with ((a * a - b * b) / (a * a)) by (field; lra).
    set (e2 := (a * a - b * b) / (a * a)) in *.
    replace (1 - e2 * sin L ^ 2) with (1 - e2 * sin L * sin L) by ring.
    rewrite powf_3_2_sqrt by exact Hw.
    assert (Hr : 0 < sqrt (1 - e2 * sin L * sin L)) by now apply sqrt_lt_R0.
    set (r := sqrt (1 - e2 * sin L * sin L)) in *. set (W := 1 - e2 * sin L * sin L) in *.
    apply v3_eq; unfold Vec3.vscale, Vec3.vadd; cbn [vx vy vz]; field; lra. }
  split; [exact K|].
  rewrite <- (topo_norm (lat_deg s) (lon_deg s) v), <- K, norm_scale, Rabs_right by lra. reflexivity.
Qed.
Print Assumptions C79_velocity.
(** An oracle that gives back the coordinates. *)
Definition demo_orbit (lat lon h : R) (t : Z) (f : gframe) : res gnd_error orbit :=
  Ok {| o_pos := V3 lat lon h; o_vel := Vec3.vzero; o_epoch := t; o_frame := f |}.
Definition demo_coordinates (o : orbit) : res gnd_error (R * R * R) :=
  Ok (vx (o_pos o), vy (o_pos o), vz (o_pos o)).
Example velocity_example : restores demo_orbit demo_coordinates (demo_asset 45 10).
Proof. do 2 eexists. now repeat split. Qed.

(** Away from the poles, and above the centers of curvature of an oblate body, setting a velocity
    and reading it gives the velocity. *)
Theorem C79_round_trip_partial :
  forall try_latlongalt latlongalt s a b vs ve vu, shape (asset_frame s) = Some (a, b) -> 0 < b -> b <= a ->
    restores try_latlongalt latlongalt s -> - (b ^ 2 / a) < height_km s ->
    1 / 10000000000 < Rabs (cos (rad (lat_deg s))) ->
    exists s', with_velocity_sez_m_s try_latlongalt latlongalt s vs ve vu = Ok s' /\
      velocity_sez_m_s try_latlongalt latlongalt s' = Ok (V3 vs ve vu) /\
      lat_deg s' = lat_deg s /\ lon_deg s' = lon_deg s /\ height_km s' = height_km s.
Proof.
  intros tl ll s a b vs ve vu Hs Hb Hab (o & lon & Ho & Hl & Hf) Hh Hc.
  unfold with_velocity_sez_m_s, orbit_of. rewrite Ho. cbn [bind]. unfold latlongalt_rate. rewrite Hl. cbn [bind].
  unfold radii. rewrite Hf, Hs. cbn [bind]. eexists. split; [reflexivity|].
  split; [|now repeat split]. unfold velocity_sez_m_s.
  cbn [lat_deg lon_deg height_km lat_rate lon_rate height_rate asset_epoch asset_frame]. rewrite Ho. cbn [bind].
  unfold velocity_sez_from_rates. rewrite Hl. cbn [bind]. unfold radii. rewrite Hf, Hs. cbn [bind]. f_equal.
  change (lat_deg s * (PI / 180)) with (rad (lat_deg s)). unfold to_radians, to_degrees.
  change (lat_deg s * (PI / 180)) with (rad (lat_deg s)). set (L := rad (lat_deg s)) in *.
  destruct (Rlt_dec (1 / 10000000000) (Rabs (cos L))) as [_|N]; [|contradiction].
  assert (Hcos : cos L <> 0) by (intros E; rewrite E, Rabs_R0 in Hc; lra).
  pose proof (w_pos a b L ltac:(lra) Hb) as Hw.
  replace ((a ^ 2 - b ^ 2) / a ^ 2) with ((a * a - b * b) / (a * a)) by (field; lra).
  set (e2 := (a * a - b * b) / (a * a)) in *.
  replace (1 - e2 * sin L ^ 2) with (1 - e2 * sin L * sin L) by ring.
  assert (He : 0 <= e2).
  { unfold e2. apply Rmult_le_pos; [nra|]. apply Rlt_le, Rinv_0_lt_compat. nra. }
  assert (Hw1 : 1 - e2 * sin L * sin L <= 1).
  { assert (0 <= e2 * (sin L * sin L)) by (apply Rmult_le_pos; [exact He|nra]). lra. }
  rewrite powf_3_2_sqrt by exact Hw.
  assert (Hr : 0 < sqrt (1 - e2 * sin L * sin L)) by now apply sqrt_lt_R0.
  assert (Hr1 : sqrt (1 - e2 * sin L * sin L) <= 1) by (rewrite <- sqrt_1 at 2; now apply sqrt_le_1_alt).
  set (r := sqrt (1 - e2 * sin L * sin L)) in *. set (W := 1 - e2 * sin L * sin L) in *.
  assert (E1 : a * (1 - e2) = b ^ 2 / a) by (unfold e2; field; lra). rewrite E1.
  assert (B0 : 0 < b ^ 2 / a) by (apply Rdiv_lt_0_compat; nra).
  assert (M : b ^ 2 / a <= b ^ 2 / a / (W * r)).
  { rewrite <- (Rmult_1_r (b ^ 2 / a)) at 1. unfold Rdiv at 3. apply Rmult_le_compat_l; [lra|].
    rewrite <- Rinv_1. apply Rinv_le_contravar; [nra|nra]. }
  assert (N : b ^ 2 / a <= a / r).
  { apply Rle_trans with a.
    - apply (Rmult_le_reg_r a); [lra|]. unfold Rdiv. rewrite Rmult_assoc, Rinv_l by lra. nra.
    - rewrite <- (Rmult_1_r a) at 1. unfold Rdiv. apply Rmult_le_compat_l; [lra|].
      rewrite <- Rinv_1. apply Rinv_le_contravar; lra. }
  set (m := b ^ 2 / a / (W * r)) in *. set (n := a / r) in *.
  pose proof PI_RGT_0.
  apply v3_eq; unfold Vec3.vscale; cbn [vx vy vz]; field; lra.
Qed.
Print Assumptions C79_round_trip_partial.
Example round_trip_example :
  restores demo_orbit demo_coordinates (demo_asset 0 10) /\ - (6357 ^ 2 / 6378) < height_km (demo_asset 0 10) /\
  1 / 10000000000 < Rabs (cos (rad (lat_deg (demo_asset 0 10)))).
Proof.
  split; [do 2 eexists; now repeat split|]. cbn [height_km lat_deg demo_asset]. split; [lra|].
  unfold rad. rewrite Rmult_0_l, cos_0, Rabs_R1. lra.
Qed.
(** At a pole the velocity to the east is lost. *)
Theorem C79_round_trip_refuted :
  exists s s', restores demo_orbit demo_coordinates s /\
    with_velocity_sez_m_s demo_orbit demo_coordinates s 0 1 0 = Ok s' /\
    velocity_sez_m_s demo_orbit demo_coordinates s' = Ok (V3 0 0 0).
Proof.
  exists (demo_asset 90 0). unfold with_velocity_sez_m_s, orbit_of, demo_orbit, latlongalt_rate, demo_coordinates, radii.
  cbn [lat_deg lon_deg height_km asset_epoch asset_frame demo_asset bind o_pos o_frame vx vy vz shape].
  assert (C : cos (to_radians 90) = 0).
  { unfold to_radians. replace (90 * (PI / 180)) with (PI / 2) by field. apply cos_PI2. }
  rewrite C. destruct (Rlt_dec (1 / 10000000000) (Rabs 0)) as [H|_]; [rewrite Rabs_R0 in H; lra|].
  eexists. split; [do 2 eexists; now repeat split|]. split; [reflexivity|].
  unfold velocity_sez_m_s, velocity_sez_from_rates, radii.
  cbn [lat_deg lon_deg height_km lat_rate lon_rate height_rate asset_epoch asset_frame bind o_pos o_frame vx vy vz shape].
  f_equal. unfold to_degrees. apply v3_eq; unfold Vec3.vscale; cbn [vx vy vz].
  - replace (- (0 / 1000)) with 0 by field. unfold to_radians, Rdiv. ring.
  - unfold to_radians. ring.
  - field.
Qed.
Print Assumptions C79_round_trip_refuted.

(** ** The great circle distance is the radius times the angle between the directions of both assets:
    a distance on the sphere. *)
Lemma haversine lat1 lon1 lat2 lon2 :
  sin ((rad lat2 - rad lat1) / 2) ^ 2 + cos (rad lat1) * cos (rad lat2) * sin ((rad lon2 - rad lon1) / 2) ^ 2
  = (1 - dot (up lat1 lon1) (up lat2 lon2)) / 2.
Proof.
  assert (H : forall x, sin (x / 2) ^ 2 = (1 - cos x) / 2).
  { intros x. assert (E : cos x = 1 - 2 * sin (x / 2) * sin (x / 2)).
    { rewrite <- cos_2a_sin. f_equal. field. } rewrite E. field. }
  rewrite !H, !cos_minus. unfold dot, up. cbn [vx vy vz]. field.
Qed.
Lemma unit_dot u v : dot u u = 1 -> dot v v = 1 -> -1 <= dot u v <= 1.
Proof.
  intros Hu Hv.
  assert (0 <= dot (Vec3.vadd u v) (Vec3.vadd u v)) by apply dot_self_nonneg.
  assert (0 <= dot (vsub u v) (vsub u v)) by apply dot_self_nonneg.
  replace (dot (Vec3.vadd u v) (Vec3.vadd u v)) with (dot u u + dot v v + 2 * dot u v) in *
    by (unfold dot, Vec3.vadd; cbn; ring).
  replace (dot (vsub u v) (vsub u v)) with (dot u u + dot v v - 2 * dot u v) in * by (unfold dot, vsub; cbn; ring).
  lra.
Qed.
Lemma half_angle x : 0 <= x <= 1 ->
  let c := 2 * atan2 (sqrt x) (sqrt (1 - x)) in 0 <= c <= PI /\ cos c = 1 - 2 * x.
Proof.
  intros Hx c. subst c. set (t := atan2 (sqrt x) (sqrt (1 - x))).
  assert (Sx : sqrt x * sqrt x = x) by (apply sqrt_sqrt; lra).
  assert (S1 : sqrt (1 - x) * sqrt (1 - x) = 1 - x) by (apply sqrt_sqrt; lra).
  assert (P1 : 0 <= sqrt x) by apply sqrt_pos. assert (P2 : 0 <= sqrt (1 - x)) by apply sqrt_pos.
  assert (N : sqrt (1 - x) <> 0 \/ sqrt x <> 0).
  { destruct (Req_dec x 0) as [E|E].
    - left. intros E'. rewrite E' in S1. lra.
    - right. intros E'. rewrite E' in Sx. lra. }
  destruct (atan2_spec (sqrt x) (sqrt (1 - x)) N) as [Ec Es]. fold t in Ec, Es.
  replace (sqrt (1 - x) * sqrt (1 - x) + sqrt x * sqrt x) with 1 in Ec, Es by lra.
  rewrite sqrt_1, Rmult_1_r in Ec, Es. pose proof (atan2_bounds (sqrt x) (sqrt (1 - x))) as B. fold t in B.
  pose proof PI_RGT_0. split.
  - assert (0 <= t).
    { destruct (Rle_lt_dec 0 t) as [|L]; [assumption|]. exfalso.
      assert (0 < sin (- t)) by (apply sin_gt_0; lra). rewrite sin_neg in *. lra. }
    assert (t <= PI / 2).
    { destruct (Rle_lt_dec t (PI / 2)) as [|L]; [assumption|]. exfalso.
      assert (cos t < 0) by (apply cos_lt_0; lra). lra. }
    lra.
  - rewrite cos_2a_sin, Es. lra.
Qed.
Theorem C79_great_circle :
  forall s o a b, shape (asset_frame s) = Some (a, b) ->
    exists angle, great_circle_distance_km s o = Ok (a * angle) /\ 0 <= angle <= PI /\
      cos angle = dot (up (lat_deg s) (lon_deg s)) (up (lat_deg o) (lon_deg o)).
Proof.
  intros s o a b Hs. unfold great_circle_distance_km, radii. rewrite Hs. cbn [bind].
  change (to_radians (lat_deg s)) with (rad (lat_deg s)). change (to_radians (lon_deg s)) with (rad (lon_deg s)).
  change (to_radians (lat_deg o)) with (rad (lat_deg o)). change (to_radians (lon_deg o)) with (rad (lon_deg o)).
  eexists. split; [reflexivity|]. rewrite haversine.
  set (d := dot _ _).
  assert (Hd : -1 <= d <= 1) by (apply unit_dot; apply axes_orthonormal; exact 0).
  destruct (half_angle ((1 - d) / 2) ltac:(lra)) as [B E]. split; [exact B|]. rewrite E. field.
Qed.
Print Assumptions C79_great_circle.
Lemma angle_of x y : 0 <= x <= PI -> 0 <= y <= PI -> cos x = cos y -> x = y.
Proof.
  intros Hx Hy E. destruct (Rtotal_order x y) as [L|[L|L]]; [exfalso| exact L|exfalso].
  - pose proof (cos_decreasing_1 x y ltac:(lra) ltac:(lra) ltac:(lra) ltac:(lra) L). lra.
  - pose proof (cos_decreasing_1 y x ltac:(lra) ltac:(lra) ltac:(lra) ltac:(lra) L). lra.
Qed.
Theorem C79_great_circle_metric :
  forall s o p f, asset_frame s = f -> asset_frame o = f -> asset_frame p = f ->
    (exists a b, shape f = Some (a, b) /\ 0 < a) ->
    exists so op sp, great_circle_distance_km s o = Ok so /\ great_circle_distance_km o p = Ok op /\
      great_circle_distance_km s p = Ok sp /\ great_circle_distance_km o s = Ok so /\
      0 <= so /\ sp <= so + op /\
      (so = 0 <-> up (lat_deg s) (lon_deg s) = up (lat_deg o) (lon_deg o)).
Proof.
  intros s o p f Fs Fo Fp (a & b & Hf & Ha). subst f.
  destruct (C79_great_circle s o a b Hf) as (x & -> & Bx & Ex).
  destruct (C79_great_circle o p a b ltac:(congruence)) as (y & -> & By & Ey).
  destruct (C79_great_circle s p a b Hf) as (z & -> & Bz & Ez).
  destruct (C79_great_circle o s a b ltac:(congruence)) as (x' & -> & Bx' & Ex').
  assert (x' = x) as ->. { apply angle_of; trivial. now rewrite Ex, Ex', dot_comm. }
  destruct (axes_orthonormal (lat_deg s) (lon_deg s)) as (U & _).
  destruct (axes_orthonormal (lat_deg o) (lon_deg o)) as (V & _).
  destruct (axes_orthonormal (lat_deg p) (lon_deg p)) as (W & _).
  set (u := up (lat_deg s) (lon_deg s)) in *. set (v := up (lat_deg o) (lon_deg o)) in *.
  set (w := up (lat_deg p) (lon_deg p)) in *.
  do 3 eexists. do 4 (split; [reflexivity|]). split; [nra|]. split.
  - apply Rle_trans with (a * (x + y)); [|lra]. apply Rmult_le_compat_l; [lra|].
    destruct (Rle_lt_dec PI (x + y)) as [L|L]; [lra|].
    destruct (Rle_lt_dec z (x + y)) as [|G]; [assumption|exfalso].
    pose proof (cos_decreasing_1 (x + y) z ltac:(lra) ltac:(lra) ltac:(lra) ltac:(lra) G) as H.
    rewrite cos_plus, Ex, Ey, Ez in H.
    assert (Sx : 0 <= sin x) by (apply sin_ge_0; lra). assert (Sy : 0 <= sin y) by (apply sin_ge_0; lra).
    pose proof (sin2_cos2 x) as Px. pose proof (sin2_cos2 y) as Py. unfold Rsqr in Px, Py. rewrite Ex in Px. rewrite Ey in Py.
    assert (Gram : dot u u * dot v v * dot w w + 2 * dot u v * dot v w * dot u w - dot u u * dot v w ^ 2
      - dot v v * dot u w ^ 2 - dot w w * dot u v ^ 2 = dot u (cross v w) ^ 2)
      by (unfold dot, cross; cbn [vx vy vz]; ring).
    rewrite U, V, W in Gram. pose proof (pow2_ge_0 (dot u (cross v w))) as Gp. rewrite <- Gram in Gp.
    set (A := dot u v) in *. set (B := dot v w) in *. set (D := dot u w) in *.
    assert (Q : (A * B - D) ^ 2 <= (sin x * sin y) ^ 2).
    { replace ((sin x * sin y) ^ 2) with ((sin x * sin x) * (sin y * sin y)) by ring.
      replace (sin x * sin x) with (1 - A * A) by lra. replace (sin y * sin y) with (1 - B * B) by lra. nra. }
    assert (0 <= sin x * sin y) by now apply Rmult_le_pos.
    assert (0 < A * B - D - sin x * sin y) by lra. nra.
  - split.
    + intros E. assert (x = 0) by nra. subst x. rewrite cos_0 in Ex.
      assert (Z : dot (vsub u v) (vsub u v) = 0).
      { replace (dot (vsub u v) (vsub u v)) with (dot u u + dot v v - 2 * dot u v) by (unfold dot, vsub; cbn; ring). lra. }
      apply dot_self_zero in Z. unfold vsub, Vec3.vzero in Z.
      assert (E1 : vx u - vx v = 0) by congruence. assert (E2 : vy u - vy v = 0) by congruence.
      assert (E3 : vz u - vz v = 0) by congruence. apply v3_eq; lra.
    + intros E. rewrite E, V in Ex. assert (x = 0) as ->; [|ring].
      apply angle_of; [lra|pose proof PI_RGT_0; lra|]. now rewrite Ex, cos_0.
Qed.
Print Assumptions C79_great_circle_metric.
(** A quarter of the equator. *)
Example great_circle_example :
  exists d, great_circle_distance_km (demo_asset 0 0) (demo_asset 0 90) = Ok d /\ d = 6378 * (PI / 2).
Proof.
  destruct (C79_great_circle (demo_asset 0 0) (demo_asset 0 90) 6378 6357 eq_refl) as (x & -> & B & E).
  eexists. split; [reflexivity|]. f_equal. apply angle_of; [exact B|pose proof PI_RGT_0; lra|].
  rewrite E, cos_PI2. unfold dot, up, rad. cbn [vx vy vz lat_deg lon_deg demo_asset].
  replace (90 * (PI / 180)) with (PI / 2) by field. rewrite Rmult_0_l, cos_PI2, sin_0, cos_0. ring.
Qed.
