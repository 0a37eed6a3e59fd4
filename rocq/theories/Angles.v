(** Real number models of the [f64] functions [%] and [atan2] of the Rust standard
    library, the constant [f64::EPSILON], and three by three matrices (nalgebra's
    [Matrix3<f64>]). *)
From Coq Require Import Reals Lra Psatz Lia ZArith.
From Verif Require Import Vec3.
Local Open Scope R_scope.

(** [f64::EPSILON] is [2^-52]. *)
Definition EPSILON : R := / 2 ^ 52.

Lemma EPSILON_pos : 0 < EPSILON.
Proof. apply Rinv_0_lt_compat, pow_lt. lra. Qed.

Lemma EPSILON_small : EPSILON < 1.
Proof.
  unfold EPSILON. rewrite <- Rinv_1. apply Rinv_1_lt_contravar; [lra|].
  apply Rlt_pow_R1; [lra|lia].
Qed.

(** Rounding towards zero. *)
Definition trunc (x : R) : Z := if Rle_dec 0 x then Int_part x else (- Int_part (- x))%Z.

(** [a % b] for [b] not zero: the remainder of the division truncated towards zero. *)
Definition rem (a b : R) : R := a - b * IZR (trunc (a / b)).

Lemma Int_part_bounds x : IZR (Int_part x) <= x < IZR (Int_part x) + 1.
Proof. destruct (base_Int_part x). lra. Qed.

Lemma rem_nonneg a b : 0 < b -> 0 <= a -> 0 <= rem a b < b.
Proof.
  intros Hb Ha. unfold rem, trunc.
  assert (Hq : 0 <= a / b) by (apply Rmult_le_pos; [assumption|left; now apply Rinv_0_lt_compat]).
  destruct (Rle_dec 0 (a / b)); [|easy].
  destruct (Int_part_bounds (a / b)) as [H1 H2].
  assert (E : a = b * (a / b)) by (field; lra).
  assert (b * IZR (Int_part (a / b)) <= b * (a / b)) by (apply Rmult_le_compat_l; lra).
  assert (b * (a / b) < b * (IZR (Int_part (a / b)) + 1)) by (apply Rmult_lt_compat_l; lra).
  lra.
Qed.

Lemma rem_neg a b : 0 < b -> a < 0 -> - b < rem a b <= 0.
Proof.
  intros Hb Ha.
  assert (Hq : a / b < 0).
  { unfold Rdiv. rewrite <- (Rmult_0_l (/ b)).
    apply Rmult_lt_compat_r; [now apply Rinv_0_lt_compat|assumption]. }
  assert (E : rem a b = - rem (- a) b).
  { unfold rem, trunc. replace (- a / b) with (- (a / b)) by (field; lra).
    destruct (Rle_dec 0 (a / b)); [lra|]. destruct (Rle_dec 0 (- (a / b))); [|lra].
    rewrite opp_IZR. ring. }
  destruct (rem_nonneg (- a) b); lra.
Qed.

(** Within a multiple of the divisor. *)
Lemma rem_congruent a b : exists k : Z, a = rem a b + IZR k * b.
Proof. exists (trunc (a / b)). unfold rem. ring. Qed.

(** [y.atan2(x)]: the angle of the point [(x, y)], in (-pi, pi]; zero at the origin. *)
Definition atan2 (y x : R) : R :=
  if Rlt_dec 0 x then atan (y / x)
  else if Rlt_dec x 0 then
    (if Rle_dec 0 y then atan (y / x) + PI else atan (y / x) - PI)
  else if Rlt_dec 0 y then PI / 2
  else if Rlt_dec y 0 then - (PI / 2)
  else 0.

Lemma cos_sin_atan t : cos (atan t) = / sqrt (1 + t * t) /\ sin (atan t) = t / sqrt (1 + t * t).
Proof.
  assert (Hs : 0 < 1 + t * t) by nra.
  pose proof (sqrt_lt_R0 _ Hs) as Hr. pose proof (sqrt_sqrt (1 + t * t)) as Hq.
  destruct (atan_bound t) as [B1 B2].
  assert (Hc : 0 < cos (atan t)) by (apply cos_gt_0; lra).
  assert (Ht : sin (atan t) = t * cos (atan t)).
  { pose proof (tan_atan t) as E. unfold tan in E. rewrite <- E at 2. field. lra. }
  pose proof (sin2_cos2 (atan t)) as H1. unfold Rsqr in H1. rewrite Ht in H1.
  assert (Hk : cos (atan t) * sqrt (1 + t * t) = 1).
  { assert (P : (cos (atan t) * sqrt (1 + t * t) - 1) * (cos (atan t) * sqrt (1 + t * t) + 1) = 0).
    { replace ((cos (atan t) * sqrt (1 + t * t) - 1) * (cos (atan t) * sqrt (1 + t * t) + 1))
        with (cos (atan t) * cos (atan t) * (sqrt (1 + t * t) * sqrt (1 + t * t)) - 1) by ring.
      rewrite Hq by lra. nra. }
    apply Rmult_integral in P. destruct P as [P|P]; [lra|].
    assert (0 < cos (atan t) * sqrt (1 + t * t)) by now apply Rmult_lt_0_compat. lra. }
  assert (Ec : cos (atan t) = / sqrt (1 + t * t)).
  { apply (Rmult_eq_reg_r (sqrt (1 + t * t))); [|lra]. rewrite Hk. field. lra. }
  split; [assumption|]. rewrite Ht, Ec. reflexivity.
Qed.

Lemma sqrt_scaled x y : x <> 0 ->
  sqrt (x * x + y * y) = Rabs x * sqrt (1 + y / x * (y / x)).
Proof.
  intros Hx. rewrite <- (sqrt_Rsqr_abs x). rewrite <- sqrt_mult_alt by apply Rle_0_sqr.
  f_equal. unfold Rsqr. field. assumption.
Qed.

(** The cosine and sine of the angle are the coordinates over the distance. *)
Lemma atan2_spec y x : x <> 0 \/ y <> 0 ->
  cos (atan2 y x) * sqrt (x * x + y * y) = x /\ sin (atan2 y x) * sqrt (x * x + y * y) = y.
Proof.
  intros Hn. unfold atan2. destruct (cos_sin_atan (y / x)) as [Ec Es].
  assert (Hr : 0 < sqrt (1 + y / x * (y / x))) by (apply sqrt_lt_R0; nra).
  destruct (Rlt_dec 0 x) as [H|H]; [|destruct (Rlt_dec x 0) as [H'|H']].
  - rewrite sqrt_scaled by lra. rewrite Rabs_right by lra. rewrite Ec, Es. split; field; lra.
  - rewrite sqrt_scaled by lra. rewrite Rabs_left by lra.
    destruct (Rle_dec 0 y).
    + rewrite neg_cos, neg_sin, Ec, Es. split; field; lra.
    + rewrite cos_minus, sin_minus, cos_PI, sin_PI, Ec, Es. split; field; lra.
  - assert (x = 0) by lra. subst x. replace (0 * 0 + y * y) with (Rsqr y) by (unfold Rsqr; ring).
    rewrite sqrt_Rsqr_abs.
    destruct (Rlt_dec 0 y); [|destruct (Rlt_dec y 0)].
    + rewrite cos_PI2, sin_PI2, Rabs_right by lra. lra.
    + rewrite cos_neg, sin_neg, cos_PI2, sin_PI2, Rabs_left by lra. lra.
    + destruct Hn; lra.
Qed.

Lemma atan_sign t : (0 < t -> 0 < atan t) /\ (t < 0 -> atan t < 0).
Proof.
  split; intros H.
  - rewrite <- atan_0. now apply atan_increasing.
  - rewrite <- atan_0. now apply atan_increasing.
Qed.

Lemma atan2_bounds y x : - PI < atan2 y x <= PI.
Proof.
  pose proof PI_RGT_0. unfold atan2. destruct (atan_bound (y / x)) as [B1 B2].
  destruct (Rlt_dec 0 x); [lra|]. destruct (Rlt_dec x 0).
  - assert (Hi : / x < 0) by now apply Rinv_lt_0_compat.
    destruct (atan_sign (y / x)) as [S1 S2].
    destruct (Rle_dec 0 y).
    + assert (y / x <= 0).
      { unfold Rdiv. replace (y * / x) with (- (y * - / x)) by ring.
        assert (0 <= y * - / x) by (apply Rmult_le_pos; lra). lra. }
      destruct (Rle_lt_or_eq_dec _ _ H0) as [L|E].
      * specialize (S2 L). lra.
      * rewrite E, atan_0. lra.
    + assert (0 < y / x).
      { unfold Rdiv. replace (y * / x) with (- y * - / x) by ring.
        apply Rmult_lt_0_compat; lra. } specialize (S1 H0). lra.
  - destruct (Rlt_dec 0 y); [lra|]. destruct (Rlt_dec y 0); lra.
Qed.

(** An angle in (-pi, pi] is determined by its cosine and sine. *)
Lemma angle_unique a b : - PI < a <= PI -> - PI < b <= PI ->
  cos a = cos b -> sin a = sin b -> a = b.
Proof.
  intros Ha Hb Hc Hs.
  assert (Hd : sin (a - b) = 0) by (rewrite sin_minus, Hc, Hs; ring).
  assert (Hk : cos (a - b) = 1).
  { rewrite cos_minus, Hc, Hs. pose proof (sin2_cos2 b) as E. unfold Rsqr in E. lra. }
  assert (Hh : sin ((a - b) / 2) = 0).
  { assert (E : cos (a - b) = 1 - 2 * sin ((a - b) / 2) * sin ((a - b) / 2)).
    { rewrite <- cos_2a_sin. f_equal. field. }
    rewrite Hk in E. nra. }
  destruct (Req_dec a b) as [|N]; [assumption|exfalso].
  pose proof PI_RGT_0.
  destruct (Rlt_le_dec 0 ((a - b) / 2)) as [P|P].
  - assert (0 < sin ((a - b) / 2)) by (apply sin_gt_0; lra). lra.
  - assert (0 < sin (- ((a - b) / 2))) by (apply sin_gt_0; lra). rewrite sin_neg in *. lra.
Qed.

Lemma atan2_polar r t : 0 < r -> - PI < t <= PI -> atan2 (r * sin t) (r * cos t) = t.
Proof.
  intros Hr Ht.
  assert (Hn : r * cos t <> 0 \/ r * sin t <> 0).
  { destruct (Req_dec (cos t) 0) as [E|E].
    - right. apply Rmult_integral_contrapositive_currified; [lra|].
      intros E'. pose proof (sin2_cos2 t) as H. unfold Rsqr in H. rewrite E, E' in H. lra.
    - left. apply Rmult_integral_contrapositive_currified; lra. }
  destruct (atan2_spec (r * sin t) (r * cos t) Hn) as [Ec Es].
  assert (E : r * cos t * (r * cos t) + r * sin t * (r * sin t) = Rsqr r).
  { pose proof (sin2_cos2 t) as H. unfold Rsqr in *.
    replace (r * cos t * (r * cos t) + r * sin t * (r * sin t))
      with (r * r * (sin t * sin t + cos t * cos t)) by ring.
    rewrite H. ring. }
  rewrite E, sqrt_Rsqr in Ec, Es by lra.
  apply angle_unique; [apply atan2_bounds|assumption|nra|nra].
Qed.

(** Three by three matrices, as three rows. *)
Record m3 := M3 { row0 : v3; row1 : v3; row2 : v3 }.
(** [Matrix3::new] takes the entries row by row. *)
Definition matrix3 (a b c d e f g h i : R) : m3 := M3 (V3 a b c) (V3 d e f) (V3 g h i).
Definition mv (m : m3) (v : v3) : v3 := V3 (dot (row0 m) v) (dot (row1 m) v) (dot (row2 m) v).
Definition col0 (m : m3) : v3 := V3 (vx (row0 m)) (vx (row1 m)) (vx (row2 m)).
Definition col1 (m : m3) : v3 := V3 (vy (row0 m)) (vy (row1 m)) (vy (row2 m)).
Definition col2 (m : m3) : v3 := V3 (vz (row0 m)) (vz (row1 m)) (vz (row2 m)).
Definition transpose (m : m3) : m3 := M3 (col0 m) (col1 m) (col2 m).
Definition mm (a b : m3) : m3 :=
  let r v := V3 (dot v (col0 b)) (dot v (col1 b)) (dot v (col2 b)) in
  M3 (r (row0 a)) (r (row1 a)) (r (row2 a)).
Definition identity3 : m3 := matrix3 1 0 0 0 1 0 0 0 1.
Definition det3 (m : m3) : R := dot (row0 m) (cross (row1 m) (row2 m)).

(** A rotation matrix: orthogonal with determinant one. *)
Definition is_rotation (m : m3) : Prop :=
  mm m (transpose m) = identity3 /\ mm (transpose m) m = identity3 /\ det3 m = 1.

Lemma dot_mv m a b : dot (mv m a) b = dot a (mv (transpose m) b).
Proof. unfold dot, mv, transpose, col0, col1, col2, dot. cbn. ring. Qed.

Lemma mv_mm a b v : mv (mm a b) v = mv a (mv b v).
Proof. unfold mv, mm, col0, col1, col2, dot. cbn. f_equal; ring. Qed.

Lemma mv_identity v : mv identity3 v = v.
Proof. destruct v. unfold mv, identity3, matrix3, dot. cbn. f_equal; ring. Qed.

(** A rotation preserves lengths. *)
Lemma rotation_norm m v : is_rotation m -> norm (mv m v) = norm v.
Proof.
  intros [_ [H _]]. unfold norm. f_equal. rewrite dot_mv, <- mv_mm, H, mv_identity. reflexivity.
Qed.
