(** Proofs and statements about the utilities (C50). *)
From Coq Require Import Reals Lra Psatz Lia ZArith List Bool Floats.SpecFloat.
From Verif Require Import Vec3 Angles Util_Model.
Import ListNotations.
Local Open Scope R_scope.

(** ** Angles *)

(** Two angles in degrees are the same direction. *)
Definition same_angle (a b : R) : Prop := exists k : Z, a = b + IZR k * 360.

Theorem C50_between_0_360_exact : forall a,
  0 <= between_0_360 a < 360 /\ same_angle a (between_0_360 a).
Proof.
  intros a. unfold between_0_360. destruct (rem_congruent a 360) as [k Hk].
  destruct (Rlt_dec (rem a 360) 0) as [H|H].
  - split.
    + destruct (Rle_lt_dec 0 a) as [P|P].
      * destruct (rem_nonneg a 360); lra.
      * destruct (rem_neg a 360); lra.
    + exists (k - 1)%Z. rewrite minus_IZR. lra.
  - split.
    + destruct (Rle_lt_dec 0 a) as [P|P].
      * destruct (rem_nonneg a 360); lra.
      * destruct (rem_neg a 360); lra.
    + now exists k.
Qed.

Lemma multiple_unique (x y : R) (k : Z) m : 0 < m ->
  0 <= x < m -> 0 <= y < m -> x = y + IZR k * m -> x = y.
Proof.
  intros Hm Hx Hy E. destruct (Z.eq_dec k 0) as [->|N]; [lra|].
  assert ((k <= -1)%Z \/ (1 <= k)%Z) as [C|C] by lia; apply IZR_le in C; nra.
Qed.

(** It is the only such angle, so it depends on the direction only and is a fixpoint. *)
Theorem C50_between_0_360_canonical : forall a b,
  same_angle a b <-> between_0_360 a = between_0_360 b.
Proof.
  intros a b. destruct (C50_between_0_360_exact a) as [Ha [i Hi]].
  destruct (C50_between_0_360_exact b) as [Hb [j Hj]]. split.
  - intros [k Hk]. apply (multiple_unique _ _ (k + j - i) 360); try assumption; [lra|].
    rewrite minus_IZR, plus_IZR. lra.
  - intros E. exists (i - j)%Z. rewrite minus_IZR. lra.
Qed.

(** With floating point numbers the upper bound is reached: an angle of minus [2^-70]
    degrees is returned as 360. *)
Theorem C50_between_0_360_f64_refuted :
  exists a, SFcompare a (S754_zero false) = Some Lt
    /\ SFcompare (between_0_360_f64_small a) f64_360 <> Some Lt.
Proof. exists (S754_finite true (2 ^ 52) (-122)). split; [reflexivity|discriminate]. Qed.

Lemma rem_bounds a b : 0 < b -> - b < rem a b < b.
Proof.
  intros Hb. destruct (Rle_lt_dec 0 a) as [P|P].
  - destruct (rem_nonneg a b); lra.
  - destruct (rem_neg a b); lra.
Qed.

Theorem C50_between_pm_x_exact : forall a x, 0 < x ->
  - x <= between_pm_x a x <= x /\ exists k : Z, a = between_pm_x a x + IZR k * (2 * x).
Proof.
  intros a x Hx. unfold between_pm_x. destruct (rem_congruent a (2 * x)) as [k Hk].
  destruct (rem_bounds a (2 * x)) as [B1 B2]; [lra|].
  destruct (Rlt_dec x (rem a (2 * x))) as [H|H];
    [destruct (Rlt_dec (rem a (2 * x) - 2 * x) (- x)) as [H'|H']
    |destruct (Rlt_dec (rem a (2 * x)) (- x)) as [H'|H']].
  - lra.
  - split; [lra|]. exists (k + 1)%Z. rewrite plus_IZR. lra.
  - split; [lra|]. exists (k - 1)%Z. rewrite minus_IZR. lra.
  - split; [lra|]. now exists k.
Qed.

Example between_pm_x_exact_nonvacuous : 0 < 180.
Proof. lra. Qed.

(** An angle already inside is returned unchanged. *)
Lemma trunc_zero q : -1 < q < 1 -> trunc q = 0%Z.
Proof.
  intros H. unfold trunc.
  assert (Z : forall x, 0 <= x < 1 -> Int_part x = 0%Z).
  { intros x Hx. apply one_IZR_lt1. destruct (Int_part_bounds x). lra. }
  destruct (Rle_dec 0 q).
  - apply Z. lra.
  - rewrite Z by lra. reflexivity.
Qed.

Lemma rem_small a b : 0 < b -> - b < a < b -> rem a b = a.
Proof.
  intros Hb Ha. unfold rem. rewrite trunc_zero; [cbn; ring|].
  assert (E : a = a / b * b) by (field; lra). split; apply (Rmult_lt_reg_r b); lra.
Qed.

Theorem C50_between_pm_x_inside : forall a x, 0 < x -> - x <= a <= x -> between_pm_x a x = a.
Proof.
  intros a x Hx Ha. unfold between_pm_x. rewrite rem_small by lra.
  destruct (Rlt_dec x a); [lra|]. destruct (Rlt_dec a (- x)); lra.
Qed.

Example between_pm_x_inside_nonvacuous : 0 < 180 /\ - 180 <= -90 <= 180.
Proof. lra. Qed.

(** The documented interval [-x, x) is not respected: 180 degrees stays 180 and -180 stays
    -180, although they are the same angle. *)
Theorem C50_between_pm_180_half_open_refuted :
  between_pm_180 180 = 180 /\ between_pm_180 (-180) = -180
  /\ same_angle 180 (-180).
Proof.
  unfold between_pm_180. split; [apply C50_between_pm_x_inside; lra|].
  split; [apply C50_between_pm_x_inside; lra|]. exists 1%Z. lra.
Qed.

(** ** Matrices *)

Theorem C50_tilde_is_cross_product : forall v w, mv (tilde_matrix v) w = cross v w.
Proof.
  intros v w. unfold mv, tilde_matrix, matrix3, cross, dot. cbn. f_equal; ring.
Qed.

Theorem C50_is_diagonal_iff : forall a b c d e f g h i,
  is_diagonal (matrix3 a b c d e f g h i) = true
  <-> forall x, In x [b; c; d; f; g; h] -> Rabs x <= EPSILON.
Proof.
  intros a b c d e f g h i. unfold is_diagonal. rewrite forallb_forall. cbn [row0 row1 row2 matrix3 vx vy vz].
  split; intros H x Hx; specialize (H x Hx); unfold above in *;
    destruct (Rlt_dec EPSILON (Rabs x)); cbn in *; easy || lra.
Qed.

Theorem C50_eigenvalues_stable_iff : forall l,
  are_eigenvalues_stable l = true <-> forall re im, In (re, im) l -> re <= 0.
Proof.
  intros l. unfold are_eigenvalues_stable. rewrite forallb_forall. split.
  - intros H re im Hi. specialize (H _ Hi). cbn in H. now destruct (Rle_dec re 0).
  - intros H [re im] Hi. cbn. destruct (Rle_dec re 0); [reflexivity|]. now specialize (H _ _ Hi).
Qed.

Theorem C50_kronecker_exact : forall a b,
  (Rabs (a - b) <= EPSILON -> kronecker a b = 1) /\ (EPSILON < Rabs (a - b) -> kronecker a b = 0).
Proof. intros a b. unfold kronecker. destruct (Rle_dec (Rabs (a - b)) EPSILON); split; lra. Qed.

Lemma m3_eq a b c d e f g h i a' b' c' d' e' f' g' h' i' :
  a = a' -> b = b' -> c = c' -> d = d' -> e = e' -> f = f' -> g = g' -> h = h' -> i = i' ->
  matrix3 a b c d e f g h i = matrix3 a' b' c' d' e' f' g' h' i'.
Proof. intros. subst. reflexivity. Qed.

Ltac trig a := let H := fresh in pose proof (sin2_cos2 a) as H; unfold Rsqr in H; nra.

(** The elementary rotations are rotations, and the opposite angle is the inverse. *)
Theorem C50_elementary_rotations : forall a,
  is_rotation (r1 a) /\ is_rotation (r2 a) /\ is_rotation (r3 a)
  /\ r1 (- a) = transpose (r1 a) /\ r2 (- a) = transpose (r2 a) /\ r3 (- a) = transpose (r3 a).
Proof.
  intros a. unfold is_rotation.
  assert (T : sin a * sin a + cos a * cos a = 1) by (pose proof (sin2_cos2 a) as H; unfold Rsqr in H; exact H).
  repeat split;
    unfold r1, r2, r3, mm, transpose, identity3, det3, matrix3, col0, col1, col2, dot, cross;
    cbn [row0 row1 row2 vx vy vz]; rewrite ?cos_neg, ?sin_neg;
    try (apply m3_eq); try lra.
Qed.

(** They turn the coordinate system about the first, second and third axis: the axis keeps
    its coordinates and the rotated axis gets the coordinates of the original one. *)
Theorem C50_elementary_rotations_turn_coordinates : forall a,
  mv (r1 a) (V3 1 0 0) = V3 1 0 0 /\ mv (r1 a) (V3 0 (cos a) (sin a)) = V3 0 1 0
  /\ mv (r2 a) (V3 0 1 0) = V3 0 1 0 /\ mv (r2 a) (V3 (sin a) 0 (cos a)) = V3 0 0 1
  /\ mv (r3 a) (V3 0 0 1) = V3 0 0 1 /\ mv (r3 a) (V3 (cos a) (sin a) 0) = V3 1 0 0.
Proof.
  intros a.
  assert (T : sin a * sin a + cos a * cos a = 1) by (pose proof (sin2_cos2 a) as H; unfold Rsqr in H; exact H).
  unfold mv, r1, r2, r3, matrix3, dot. cbn [row0 row1 row2 vx vy vz].
  repeat split; f_equal; lra.
Qed.

(** Rotations about the same axis add their angles. *)
Theorem C50_elementary_rotations_compose : forall a b,
  mm (r1 a) (r1 b) = r1 (a + b) /\ mm (r2 a) (r2 b) = r2 (a + b) /\ mm (r3 a) (r3 b) = r3 (a + b).
Proof.
  intros a b. unfold r1, r2, r3, mm, matrix3, col0, col1, col2, dot.
  cbn [row0 row1 row2 vx vy vz]. rewrite !cos_plus, !sin_plus.
  repeat split; apply m3_eq; ring.
Qed.

(** ** Rotation about an axis *)

Lemma vnormalize_unit v : v <> vzero -> dot (vnormalize v) (vnormalize v) = 1.
Proof.
  intros H. unfold vnormalize. pose proof (norm_pos v H) as Hp. pose proof (norm_sqr v) as Hs.
  replace (dot (vscale (/ norm v) v) (vscale (/ norm v) v))
    with (/ norm v * / norm v * dot v v) by (unfold dot, vscale; cbn; ring).
  rewrite <- Hs. field. lra.
Qed.

Definition rot (v k : v3) (t : R) : v3 :=
  vadd (vadd (vscale (cos t) v) (vscale (sin t) (cross k v)))
    (vscale (dot k v * (1 - cos t)) k).

Lemma rot_norm v k t : dot k k = 1 -> dot (rot v k t) (rot v k t) = dot v v.
Proof.
  intros Hk. destruct v as [a b c], k as [x y z].
  pose proof (sin2_cos2 t) as T. unfold Rsqr in T.
  unfold rot, vadd, vscale, cross, dot in *. cbn [vx vy vz] in *.
  set (s := sin t) in *. set (u := cos t) in *. clearbody s u.
  assert (Hx : x * x = 1 - y * y - z * z) by lra.
  assert (Hs : s * s = 1 - u * u) by lra.
  set (d := x * a + y * b + z * c).
  transitivity (u * u * (a * a + b * b + c * c)
    + s * s * ((x * x + y * y + z * z) * (a * a + b * b + c * c) - d * d)
    + d * d * (1 - u) * (1 - u) * (x * x + y * y + z * z)
    + 2 * u * d * (1 - u) * d).
  - unfold d. ring.
  - rewrite Hs. replace (x * x + y * y + z * z) with 1 by lra. ring.
Qed.

Lemma rot_axis v k t : dot k k = 1 -> dot k (rot v k t) = dot k v.
Proof.
  intros Hk. destruct v as [a b c], k as [x y z].
  unfold rot, vadd, vscale, cross, dot in *. cbn [vx vy vz] in *.
  set (s := sin t). set (u := cos t). clearbody s u.
  transitivity (u * (x * a + y * b + z * c) + (x * a + y * b + z * c) * (1 - u) * (x * x + y * y + z * z));
    [ring|]. replace (x * x + y * y + z * z) with 1 by lra. ring.
Qed.

(** [k x (k x v) = k (k.v) - v] for a unit vector. *)
Lemma cross_twice k v : dot k k = 1 -> cross k (cross k v) = vsub (vscale (dot k v) k) v.
Proof.
  intros Hk. destruct v as [a b c], k as [x y z].
  unfold cross, vsub, vscale, dot in *. cbn [vx vy vz] in *.
  apply v3_eq; cbn [vx vy vz].
  - transitivity (x * (x * a + y * b + z * c) - a * (x * x + y * y + z * z)); [ring|]. rewrite Hk. ring.
  - transitivity (y * (x * a + y * b + z * c) - b * (x * x + y * y + z * z)); [ring|]. rewrite Hk. ring.
  - transitivity (z * (x * a + y * b + z * c) - c * (x * x + y * y + z * z)); [ring|]. rewrite Hk. ring.
Qed.

Lemma cross_rot k v t : dot k k = 1 ->
  cross k (rot v k t) = vadd (vscale (cos t) (cross k v)) (vscale (sin t) (vsub (vscale (dot k v) k) v)).
Proof.
  intros Hk. rewrite <- (cross_twice k v Hk).
  destruct v as [a b c], k as [x y z].
  unfold rot, cross, vadd, vscale, dot. cbn [vx vy vz].
  apply v3_eq; cbn [vx vy vz]; ring.
Qed.

Lemma rot_compose v k t u : dot k k = 1 -> rot (rot v k t) k u = rot v k (t + u).
Proof.
  intros Hk. unfold rot at 1. rewrite cross_rot, rot_axis by assumption.
  unfold rot. rewrite cos_plus, sin_plus.
  set (w := cross k v). set (d := dot k v). clearbody w d.
  destruct v as [a b c], k as [x y z], w as [p q r].
  unfold vadd, vsub, vscale. cbn [vx vy vz]. apply v3_eq; cbn [vx vy vz]; ring.
Qed.

(** Rotating about a non-zero axis preserves lengths and the component along the axis,
    leaves the axis fixed and adds angles. *)
Theorem C50_rotv_is_rotation : forall v axis t u, axis <> vzero ->
  norm (rotv v axis t) = norm v
  /\ dot axis (rotv v axis t) = dot axis v
  /\ rotv axis axis t = axis
  /\ rotv (rotv v axis t) axis u = rotv v axis (t + u)
  /\ rotv v axis 0 = v.
Proof.
  intros v axis t u Ha. pose proof (vnormalize_unit axis Ha) as Hk.
  pose proof (norm_pos axis Ha) as Hp.
  assert (E : axis = vscale (norm axis) (vnormalize axis)).
  { destruct axis. unfold vnormalize, vscale. cbn. f_equal; field; lra. }
  change (rotv v axis t) with (rot v (vnormalize axis) t).
  change (rotv axis axis t) with (rot axis (vnormalize axis) t).
  change (rotv (rot v (vnormalize axis) t) axis u)
    with (rot (rot v (vnormalize axis) t) (vnormalize axis) u).
  change (rotv v axis (t + u)) with (rot v (vnormalize axis) (t + u)).
  change (rotv v axis 0) with (rot v (vnormalize axis) 0).
  set (k := vnormalize axis) in *. clearbody k. repeat split.
  - unfold norm. now rewrite rot_norm.
  - rewrite E, !dot_scale, rot_axis by assumption. reflexivity.
  - rewrite E. set (n := norm axis). clearbody n. clear - Hk.
    destruct k as [x y z]. unfold rot, vadd, vscale, cross, dot in *. cbn [vx vy vz] in *.
    apply v3_eq; cbn [vx vy vz]; ring_simplify.
    + replace (x ^ 3) with (x * (1 - y * y - z * z)); [ring|rewrite <- Hk; ring].
    + replace (y ^ 3) with (y * (1 - x * x - z * z)); [ring|rewrite <- Hk; ring].
    + replace (z ^ 3) with (z * (1 - x * x - y * y)); [ring|rewrite <- Hk; ring].
  - now apply rot_compose.
  - unfold rot. rewrite cos_0, sin_0. destruct v, k. unfold vadd, vscale. cbn. f_equal; ring.
Qed.

Example rotv_is_rotation_nonvacuous :
  V3 0 0 2 <> vzero /\ rotv (V3 1 0 0) (V3 0 0 2) (PI / 2) = V3 0 1 0.
Proof.
  split; [intros [= H]; lra|].
  assert (N : norm (V3 0 0 2) = 2).
  { unfold norm, dot. cbn [vx vy vz]. replace (0 * 0 + 0 * 0 + 2 * 2) with (2 * 2) by ring.
    apply sqrt_square. lra. }
  unfold rotv, vnormalize. rewrite N, cos_PI2, sin_PI2.
  unfold vadd, vscale, cross, dot. cbn [vx vy vz]. f_equal; field.
Qed.

(** ** Projections *)

Lemma amax_le v : Rabs (vx v) <= amax v /\ Rabs (vy v) <= amax v /\ Rabs (vz v) <= amax v.
Proof.
  unfold amax. pose proof (Rmax_l (Rabs (vx v)) (Rmax (Rabs (vy v)) (Rabs (vz v)))).
  pose proof (Rmax_r (Rabs (vx v)) (Rmax (Rabs (vy v)) (Rabs (vz v)))).
  pose proof (Rmax_l (Rabs (vy v)) (Rabs (vz v))). pose proof (Rmax_r (Rabs (vy v)) (Rabs (vz v))).
  lra.
Qed.

Lemma amax_attained v : amax v * amax v <= dot v v.
Proof.
  unfold amax, dot.
  assert (S : forall x, Rabs x * Rabs x = x * x).
  { intros x. rewrite <- Rabs_mult. apply Rabs_right. nra. }
  pose proof (S (vx v)) as Sx. pose proof (S (vy v)) as Sy. pose proof (S (vz v)) as Sz.
  set (x := vx v) in *. set (y := vy v) in *. set (z := vz v) in *.
  unfold Rmax. destruct (Rle_dec (Rabs y) (Rabs z)); destruct (Rle_dec (Rabs x) _); nra.
Qed.

Lemma projv_scaled a b : dot b b <> 0 -> EPSILON <= dot b b ->
  projv a b = vscale (dot a b / dot b b) b.
Proof.
  intros _ Hb. unfold projv. rewrite Rabs_right by (apply Rle_ge, dot_self_nonneg).
  destruct (Rlt_dec (dot b b) EPSILON); [lra|reflexivity].
Qed.

Lemma perpv_value a b : EPSILON <= amax a -> EPSILON <= amax b ->
  perpv a b = vsub a (vscale (dot a b / dot b b) b).
Proof.
  intros Ha Hb. pose proof EPSILON_pos as He. unfold perpv.
  destruct (Rlt_dec (amax a) EPSILON); [lra|]. destruct (Rlt_dec (amax b) EPSILON); [lra|].
  pose proof (amax_attained b) as Hq.
  assert (Hd : 0 < dot b b) by nra.
  set (k := amax a) in *. set (l := amax b) in *.
  assert (E1 : dot (vscale (/ l) b) (vscale (/ l) b) = dot b b / (l * l)).
  { replace (dot (vscale (/ l) b) (vscale (/ l) b)) with (/ l * / l * dot b b)
      by (unfold dot, vscale; cbn; ring). field. lra. }
  assert (E1' : 1 <= dot b b / (l * l)).
  { apply (Rmult_le_reg_r (l * l)); [nra|]. unfold Rdiv. rewrite Rmult_assoc, Rinv_l by nra. lra. }
  pose proof EPSILON_small as Hes.
  rewrite projv_scaled by (rewrite E1; lra).
  rewrite E1.
  replace (dot (vscale (/ k) a) (vscale (/ l) b)) with (/ k * / l * dot a b)
    by (unfold dot, vscale; cbn; ring).
  unfold vscale, vsub. apply v3_eq; cbn [vx vy vz]; field; repeat split; lra.
Qed.

(** The projection is along the second vector, what is left is orthogonal to it and they
    add up to the first vector, when neither vector is tiny.  Missing: tiny vectors, for
    which the two functions use different thresholds. *)
Theorem C50_projection_decomposition_partial : forall a b,
  EPSILON <= amax a -> EPSILON <= dot b b ->
  vadd (projv a b) (perpv a b) = a
  /\ dot (perpv a b) b = 0
  /\ exists k, projv a b = vscale k b.
Proof.
  intros a b Ha Hb. pose proof EPSILON_pos as He.
  assert (Hm : EPSILON <= amax b).
  { (* the largest component is at least eps when the squared norm is: 3 m^2 >= eps *)
    assert (dot b b <= 3 * (amax b * amax b)).
    { destruct (amax_le b) as [X [Y Z]]. unfold dot.
      assert (S : forall x, Rabs x <= amax b -> x * x <= amax b * amax b).
      { intros x Hx. rewrite <- (Rabs_right (x * x)) by nra. rewrite Rabs_mult.
        apply Rmult_le_compat; try apply Rabs_pos; assumption. }
      pose proof (S _ X). pose proof (S _ Y). pose proof (S _ Z). lra. }
    destruct (Rle_lt_dec EPSILON (amax b)); [assumption|].
    assert (P : 0 <= amax b) by (destruct (amax_le b) as [X _]; pose proof (Rabs_pos (vx b)); lra).
    assert (EPSILON < / 4).
    { unfold EPSILON. apply Rinv_lt_contravar; [|].
      - apply Rmult_lt_0_compat; [lra|]. apply pow_lt. lra.
      - replace 4 with (2 ^ 2) by ring. apply Rlt_pow; [lra|lia]. }
    assert (amax b * amax b <= EPSILON * amax b) by (apply Rmult_le_compat_r; lra).
    nra. }
  rewrite perpv_value by assumption. rewrite projv_scaled by lra.
  split; [|split].
  - unfold vadd, vsub, vscale. destruct a. cbn. f_equal; ring.
  - replace (dot (vsub a (vscale (dot a b / dot b b) b)) b)
      with (dot a b - dot a b / dot b b * dot b b) by (unfold dot, vsub, vscale; cbn; ring).
    field. lra.
  - eexists. reflexivity.
Qed.

Example projection_decomposition_partial_nonvacuous :
  EPSILON <= amax (V3 1 2 3) /\ EPSILON <= dot (V3 0 2 0) (V3 0 2 0).
Proof.
  pose proof EPSILON_small. split.
  - destruct (amax_le (V3 1 2 3)) as [H0 _]. cbn in H0. rewrite Rabs_right in H0 by lra. lra.
  - unfold dot. cbn. lra.
Qed.

(** For a small but not tiny second vector the two do not add up: the projection is
    dropped because the squared norm is below the threshold, and the perpendicular part is
    computed with the scaled vector. *)
Theorem C50_projection_decomposition_refuted :
  exists a b, b <> vzero /\ vadd (projv a b) (perpv a b) <> a.
Proof.
  set (e := / 2 ^ 30).
  assert (He : 0 < e) by (apply Rinv_0_lt_compat, pow_lt; lra).
  assert (H1 : e < 1).
  { unfold e. rewrite <- Rinv_1. apply Rinv_1_lt_contravar; [lra|]. apply Rlt_pow_R1; [lra|lia]. }
  assert (H2 : EPSILON <= e).
  { unfold EPSILON, e. apply Rinv_le_contravar; [apply pow_lt; lra|].
    apply Rle_pow; [lra|lia]. }
  assert (H3 : e * e < EPSILON).
  { unfold EPSILON, e. rewrite <- Rinv_mult_distr by (apply pow_nonzero; lra).
    rewrite <- pow_add. apply Rinv_lt_contravar.
    - apply Rmult_lt_0_compat; apply pow_lt; lra.
    - apply Rlt_pow; [lra|lia]. }
  clearbody e.
  assert (A : amax (V3 1 0 0) = 1).
  { unfold amax. cbn [vx vy vz]. rewrite !Rabs_R0, Rabs_R1. rewrite (Rmax_left 0 0) by lra.
    apply Rmax_left. lra. }
  assert (B : amax (V3 e 0 0) = e).
  { unfold amax. cbn [vx vy vz]. rewrite !Rabs_R0, (Rabs_right e) by lra.
    rewrite (Rmax_left 0 0) by lra. apply Rmax_left. lra. }
  pose proof EPSILON_small.
  exists (V3 1 0 0), (V3 e 0 0). split; [intros [= E]; lra|].
  rewrite perpv_value by (rewrite ?A, ?B; lra).
  unfold projv. replace (dot (V3 e 0 0) (V3 e 0 0)) with (e * e) by (unfold dot; cbn; ring).
  rewrite Rabs_right by nra. destruct (Rlt_dec (e * e) EPSILON); [|lra].
  replace (dot (V3 1 0 0) (V3 e 0 0)) with e by (unfold dot; cbn; ring).
  intros E. apply (f_equal vx) in E. unfold vadd, vsub, vscale, vzero in E. cbn [vx vy vz] in E.
  assert (K : e / (e * e) * e = 1) by (field; lra). lra.
Qed.

(** ** Scalars *)

Theorem C50_normalize_denormalize : forall x lo hi, lo <> hi ->
  denormalize (normalize x lo hi) lo hi = x /\ normalize (denormalize x lo hi) lo hi = x.
Proof. intros x lo hi H. unfold normalize, denormalize. split; field; lra. Qed.

Theorem C50_normalize_range : forall x lo hi, lo < hi ->
  (lo <= x <= hi <-> -1 <= normalize x lo hi <= 1).
Proof.
  intros x lo hi H. unfold normalize.
  assert (E : 2 * (x - lo) / (hi - lo) * (hi - lo) = 2 * (x - lo)) by (field; lra).
  set (q := 2 * (x - lo) / (hi - lo)) in *. split; intros B.
  - split; apply (Rmult_le_reg_r (hi - lo)); lra.
  - assert (0 <= q * (hi - lo)) by (apply Rmult_le_pos; lra).
    assert (q * (hi - lo) <= 2 * (hi - lo)) by (apply Rmult_le_compat_r; lra). lra.
Qed.

Example normalize_nonvacuous : normalize 5 0 10 = 0 /\ normalize 10 0 10 = 1 /\ normalize 0 0 10 = -1.
Proof. unfold normalize. repeat split; field. Qed.

Lemma powerRZ_exp (k : Z) : powerRZ 10 k = exp (IZR k * ln 10).
Proof.
  rewrite powerRZ_Rpower by lra. unfold Rpower. reflexivity.
Qed.

Theorem C50_mag_order_exact : forall v, v <> 0 ->
  powerRZ 10 (mag_order v) <= Rabs v < powerRZ 10 (mag_order v + 1).
Proof.
  intros v Hv. assert (Hp : 0 < Rabs v) by now apply Rabs_pos_lt.
  assert (Hl : 0 < ln 10) by (rewrite <- ln_1; apply ln_increasing; lra).
  rewrite !powerRZ_exp. unfold mag_order.
  destruct (Int_part_bounds (ln (Rabs v) / ln 10)) as [B1 B2].
  set (k := Int_part (ln (Rabs v) / ln 10)) in *.
  assert (E : ln (Rabs v) / ln 10 * ln 10 = ln (Rabs v)) by (field; lra).
  rewrite <- (exp_ln (Rabs v)) at 1 2 by assumption. rewrite plus_IZR. split.
  - assert (D : IZR k * ln 10 <= ln (Rabs v)) by (rewrite <- E; apply Rmult_le_compat_r; lra).
    destruct D as [D| ->]; [left; now apply exp_increasing|right; reflexivity].
  - apply exp_increasing. rewrite <- E at 1. apply Rmult_lt_compat_r; lra.
Qed.

Lemma powerRZ_nonneg_pow n : powerRZ 10 (Z.of_nat n) = 10 ^ n.
Proof. symmetry. apply pow_powerRZ. Qed.

(** [rss_errors] is the root of the sum of squared differences: it is a distance. *)
Lemma fold_sum l : forall a, fold_left Rplus l a = a + fold_left Rplus l 0.
Proof.
  induction l as [|x l IH]; intros a; cbn [fold_left]; [ring|].
  rewrite (IH (a + x)), (IH (0 + x)). ring.
Qed.

Lemma squares_nonneg l : 0 <= fold_left Rplus (map (fun xy : R * R => (fst xy - snd xy) ^ 2) l) 0.
Proof.
  induction l as [|x l IH]; cbn [map fold_left]; [lra|]. rewrite fold_sum.
  pose proof (pow2_ge_0 (fst x - snd x)). lra.
Qed.

Theorem C50_rss_errors_distance : forall p q, length p = length q ->
  0 <= rss_errors p q /\ rss_errors p q = rss_errors q p /\ (rss_errors p q = 0 <-> p = q).
Proof.
  intros p q Hl. unfold rss_errors. split; [apply sqrt_pos|]. split.
  - f_equal. revert q Hl. induction p as [|a p IH]; intros [|b q] Hl; try easy.
    cbn [combine map fold_left]. rewrite fold_sum. rewrite (fold_sum _ (0 + _)) at 1.
    rewrite (IH q) by (cbn in Hl; lia). cbn [fst snd]. ring.
  - split.
    + intros H. apply sqrt_eq_0 in H; [|apply squares_nonneg].
      revert q Hl H. induction p as [|a p IH]; intros [|b q] Hl H; try easy.
      cbn [combine map fold_left] in H. rewrite fold_sum in H.
      pose proof (squares_nonneg (combine p q)) as N. cbn [fst snd] in H.
      assert (a = b) by nra. subst b. f_equal. apply IH; [cbn in Hl; lia|]. nra.
    + intros <-. replace (fold_left _ _ _) with 0; [apply sqrt_0|].
      clear Hl. induction p as [|a p IH]; cbn [combine map fold_left]; [reflexivity|].
      rewrite fold_sum, <- IH. cbn [fst snd]. ring.
Qed.

Example rss_errors_distance_nonvacuous : length [1; 2; 3] = length [4; 5; 6].
Proof. reflexivity. Qed.

(** Every vector that is not tiny is made a unit vector in the same direction. *)
Theorem C50_unitize_exact : forall v,
  (EPSILON <= norm v -> norm (unitize v) = 1 /\ v = vscale (norm v) (unitize v))
  /\ (norm v < EPSILON -> unitize v = v).
Proof.
  intros v. unfold unitize. pose proof EPSILON_pos. destruct (Rlt_dec (norm v) EPSILON); split; intros Hv.
  - lra.
  - reflexivity.
  - assert (Hn : 0 < norm v) by lra. split.
    + rewrite norm_scale, Rabs_right by (left; now apply Rinv_0_lt_compat). field. lra.
    + destruct v as [x y z]. set (m := norm _) in *. clearbody m.
      unfold vscale. cbn [vx vy vz]. f_equal; field; lra.
  - lra.
Qed.

(** ** Spherical coordinates *)

Lemma vz_bound v : v <> vzero -> -1 <= vz v / norm v <= 1.
Proof.
  intros H. pose proof (norm_pos v H) as Hp. pose proof (norm_sqr v) as Hs. unfold dot in Hs.
  assert (E : vz v / norm v * norm v = vz v) by (field; lra).
  set (q := vz v / norm v) in *.
  assert (q * q <= 1).
  { apply (Rmult_le_reg_r (norm v * norm v)); [nra|].
    replace (q * q * (norm v * norm v)) with (q * norm v * (q * norm v)) by ring. rewrite E. nra. }
  split; nra.
Qed.

Lemma sin_acos_coord v : v <> vzero ->
  norm v * sin (acos (vz v / norm v)) = sqrt (vx v * vx v + vy v * vy v).
Proof.
  intros H. pose proof (norm_pos v H) as Hp. pose proof (norm_sqr v) as Hs. unfold dot in Hs.
  rewrite sin_acos by now apply vz_bound.
  rewrite <- (sqrt_square (norm v)) at 1 by lra.
  rewrite <- sqrt_mult_alt by nra. f_equal. unfold Rsqr.
  replace (norm v * norm v * (1 - vz v / norm v * (vz v / norm v)))
    with (norm v * norm v - vz v * vz v) by (field; lra).
  rewrite Hs. ring.
Qed.

(** Cartesian to spherical and back. *)
Theorem C50_spherical_roundtrip : forall v rho theta phi,
  cartesian_to_spherical v = (rho, theta, phi) ->
  0 <= rho /\ - PI < theta <= PI /\ 0 <= phi <= PI
  /\ (EPSILON <= norm v -> rho = norm v /\ spherical_to_cartesian rho theta phi = v)
  /\ (norm v < EPSILON -> spherical_to_cartesian rho theta phi = vzero).
Proof.
  intros v rho theta phi. unfold cartesian_to_spherical. pose proof PI_RGT_0. pose proof EPSILON_pos as He.
  destruct (Rlt_dec (norm v) EPSILON) as [T|T]; intros E.
  - assert (E1 : rho = 0) by congruence. assert (E2 : theta = 0) by congruence.
    assert (E3 : phi = 0) by congruence. subst rho theta phi.
    repeat split; try lra. unfold spherical_to_cartesian. destruct (Rlt_dec 0 EPSILON); [reflexivity|lra].
  - assert (E1 : rho = norm v) by congruence. assert (E2 : theta = atan2 (vy v) (vx v)) by congruence.
    assert (E3 : phi = acos (vz v / norm v)) by congruence. subst rho theta phi. clear E.
    assert (Hn : 0 < norm v) by lra.
    assert (Hv : v <> vzero) by (intros ->; rewrite (proj2 (norm_zero_iff vzero) eq_refl) in Hn; lra).
    split; [lra|]. split; [apply atan2_bounds|]. split; [apply acos_bound|].
    split; [|lra]. intros _. split; [reflexivity|].
    unfold spherical_to_cartesian. destruct (Rlt_dec (norm v) EPSILON); [lra|].
    rewrite sin_acos_coord, cos_acos by (assumption || now apply vz_bound).
    destruct v as [x y z]. cbn [vx vy vz] in *.
    assert (Hz : norm (V3 x y z) * (z / norm (V3 x y z)) = z) by (field; lra).
    destruct (Req_dec x 0) as [Hx|Hx]; [destruct (Req_dec y 0) as [Hy|Hy]|].
    + subst x y. rewrite Hz. replace (0 * 0 + 0 * 0) with 0 by ring. rewrite sqrt_0.
      f_equal; ring.
    + destruct (atan2_spec y x (or_intror Hy)) as [C S]. rewrite Hz.
      f_equal; rewrite Rmult_comm; assumption.
    + destruct (atan2_spec y x (or_introl Hx)) as [C S]. rewrite Hz.
      f_equal; rewrite Rmult_comm; assumption.
Qed.

(** Spherical to Cartesian and back, away from the poles. *)
Theorem C50_cartesian_roundtrip : forall rho theta phi,
  EPSILON <= rho -> - PI < theta <= PI -> 0 < phi < PI ->
  cartesian_to_spherical (spherical_to_cartesian rho theta phi) = (rho, theta, phi).
Proof.
  intros rho theta phi Hr Ht Hp. pose proof EPSILON_pos as He.
  unfold spherical_to_cartesian. destruct (Rlt_dec rho EPSILON); [lra|].
  assert (Hs : 0 < sin phi) by (apply sin_gt_0; lra).
  assert (N : norm (V3 (rho * sin phi * cos theta) (rho * sin phi * sin theta) (rho * cos phi)) = rho).
  { unfold norm, dot. cbn [vx vy vz].
    replace (rho * sin phi * cos theta * (rho * sin phi * cos theta)
             + rho * sin phi * sin theta * (rho * sin phi * sin theta)
             + rho * cos phi * (rho * cos phi))
      with (rho * rho * ((sin phi)² * ((sin theta)² + (cos theta)²) + (cos phi)²))
      by (unfold Rsqr; ring).
    rewrite sin2_cos2. rewrite Rmult_1_r, sin2_cos2, Rmult_1_r. apply sqrt_square. lra. }
  unfold cartesian_to_spherical. rewrite N. destruct (Rlt_dec rho EPSILON); [lra|].
  cbn [vx vy vz]. rewrite atan2_polar by (assumption || apply Rmult_lt_0_compat; lra).
  replace (rho * cos phi / rho) with (cos phi) by (field; lra).
  rewrite acos_cos by lra. reflexivity.
Qed.

Example cartesian_roundtrip_nonvacuous : EPSILON <= 2 /\ - PI < 1 <= PI /\ 0 < 1 < PI.
Proof. pose proof EPSILON_small. pose proof PI2_3_2. lra. Qed.

(** At a pole the angle about the axis is lost. *)
Theorem C50_cartesian_roundtrip_pole_refuted :
  exists rho theta phi, EPSILON <= rho /\ - PI < theta <= PI /\ 0 <= phi <= PI
    /\ cartesian_to_spherical (spherical_to_cartesian rho theta phi) <> (rho, theta, phi).
Proof.
  exists 1, 1, 0. pose proof EPSILON_small. pose proof PI2_3_2. repeat split; try lra.
  unfold spherical_to_cartesian. destruct (Rlt_dec 1 EPSILON); [lra|].
  rewrite sin_0, cos_0. unfold cartesian_to_spherical. cbn [vx vy vz].
  destruct (Rlt_dec _ EPSILON); intros E; [assert (1 = 0) by congruence; lra|].
  assert (E2 : atan2 (1 * 0 * sin 1) (1 * 0 * cos 1) = 1) by congruence.
  rewrite Rmult_0_r, !Rmult_0_l in E2. unfold atan2 in E2.
  destruct (Rlt_dec 0 0); [lra|]. destruct (Rlt_dec 0 0); lra.
Qed.

Print Assumptions C50_between_0_360_exact.
Print Assumptions C50_between_0_360_canonical.
Print Assumptions C50_between_0_360_f64_refuted.
Print Assumptions C50_between_pm_x_exact.
Print Assumptions C50_between_pm_x_inside.
Print Assumptions C50_between_pm_180_half_open_refuted.
Print Assumptions C50_tilde_is_cross_product.
Print Assumptions C50_is_diagonal_iff.
Print Assumptions C50_eigenvalues_stable_iff.
Print Assumptions C50_kronecker_exact.
Print Assumptions C50_elementary_rotations.
Print Assumptions C50_elementary_rotations_turn_coordinates.
Print Assumptions C50_elementary_rotations_compose.
Print Assumptions C50_rotv_is_rotation.
Print Assumptions C50_projection_decomposition_partial.
Print Assumptions C50_projection_decomposition_refuted.
Print Assumptions C50_normalize_denormalize.
Print Assumptions C50_normalize_range.
Print Assumptions C50_mag_order_exact.
Print Assumptions C50_rss_errors_distance.
Print Assumptions C50_unitize_exact.
Print Assumptions C50_spherical_roundtrip.
Print Assumptions C50_cartesian_roundtrip.
Print Assumptions C50_cartesian_roundtrip_pole_refuted.
