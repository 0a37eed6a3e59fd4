(** Proofs about the solver of Gooding. *)
From Coq Require Import Reals Lra Lia ZArith.
From Coquelicot Require Import Coquelicot.
From Verif Require Import Base Vec3 Angles Sc_Model Lambert_Model Lambert_Arc.
Local Open Scope R_scope.

Lemma bind_ok {E A B} (x : res E A) (f : A -> res E B) z :
  bind x f = Ok z -> exists a, x = Ok a /\ f a = Ok z.
Proof. destruct x; cbn; try discriminate. eauto. Qed.

(** ** The velocities *)
Section Velocities.
Context (p q : v3) (a mu y : R).
Notation r1 := (norm p). Notation r2 := (norm q).
Hypothesis Hmu : 0 < mu.
Hypothesis H1 : 0 < r1.
Hypothesis H2 : 0 < r2.
Hypothesis Ha : a * a = r1 * r2 + dot p q.
Hypothesis Hy : 0 < y.
Hypothesis Ha0 : a <> 0.
Notation g := (a * sqrt (y / mu)).
Definition v_init : v3 := vscale (/ g) (vsub q (vscale (1 - y / r1) p)).
Definition v_final : v3 := vscale (1 / g) (vsub (vscale (1 - y / r2) q) p).

Lemma root : 0 < sqrt (y / mu). Proof. apply sqrt_lt_R0. now apply Rdiv_lt_0_compat. Qed.
Lemma g_nonzero : g <> 0.
Proof. pose proof root. apply Rmult_integral_contrapositive_currified; lra. Qed.
Lemma g_sqr : g * g = a * a * y / mu.
Proof.
  replace (g * g) with (a * a * (sqrt (y / mu) * sqrt (y / mu))) by ring.
  rewrite sqrt_sqrt; [field; lra|]. left. now apply Rdiv_lt_0_compat.
Qed.
Lemma g_inv : / g * / g = mu / (a * a * y).
Proof. rewrite <- Rinv_mult, g_sqr. field. repeat split; lra. Qed.
Lemma pq : dot p q = a * a - r1 * r2. Proof. lra. Qed.
Lemma qq : dot q q = r2 * r2. Proof. symmetry. apply norm_sqr. Qed.
Lemma pp : dot p p = r1 * r1. Proof. symmetry. apply norm_sqr. Qed.

Lemma h_init : cross p v_init = vscale (/ g) (cross p q).
Proof. unfold v_init, cross, vscale, vsub. apply v3_eq; cbn; ring. Qed.
Lemma h_final : cross q v_final = vscale (/ g) (cross p q).
Proof. unfold v_final, Rdiv, cross, vscale, vsub. apply v3_eq; cbn; ring. Qed.

Lemma v_init_sqr : dot v_init v_init = mu * ((r1 + r2 - y) * (r1 + r2 - y) / (a * a * y) - 2 / y + 2 / r1).
Proof.
  assert (E : dot v_init v_init = (dot q q - 2 * (1 - y / r1) * dot p q + (1 - y / r1) * (1 - y / r1) * dot p p) * (/ g * / g)).
  { unfold v_init, dot, vscale, vsub. cbn. ring. }
  rewrite E, g_inv, pq, qq, pp. field. repeat split; lra.
Qed.
Lemma v_final_sqr : dot v_final v_final = mu * ((r1 + r2 - y) * (r1 + r2 - y) / (a * a * y) - 2 / y + 2 / r2).
Proof.
  assert (E : dot v_final v_final = (dot p p - 2 * (1 - y / r2) * dot p q + (1 - y / r2) * (1 - y / r2) * dot q q) * (/ g * / g)).
  { unfold v_final, Rdiv, dot, vscale, vsub. cbn. ring. }
  rewrite E, g_inv, pq, qq, pp. field. repeat split; lra.
Qed.

Lemma triple u b c : cross u (cross b c) = vsub (vscale (dot u c) b) (vscale (dot u b) c).
Proof. apply v3_eq; unfold cross, vsub, vscale, dot; cbn; ring. Qed.

Lemma ecc_init : eccentricity mu p v_init =
  vadd (vscale ((r2 * r2 - a * a + r1 * r2 - y * r2) / (a * a * y)) p)
       (vscale ((r1 * r1 - a * a + r1 * r2 - y * r1) / (a * a * y)) q).
Proof.
  unfold eccentricity. rewrite h_init.
  assert (E : cross v_init (vscale (/ g) (cross p q)) =
    vscale (/ g * / g) (vsub (vscale (dot q q - (1 - y / r1) * dot p q) p) (vscale (dot p q - (1 - y / r1) * dot p p) q))).
  { transitivity (vscale (/ g * / g) (cross (vsub q (vscale (1 - y / r1) p)) (cross p q))).
    - unfold v_init. apply v3_eq; unfold cross, vscale; cbn; ring.
    - f_equal. rewrite triple. apply v3_eq; unfold dot, vscale, vsub; cbn; ring. }
  rewrite E, g_inv, pq, qq, pp. apply v3_eq; cbn; field; repeat split; lra.
Qed.
Lemma ecc_final : eccentricity mu q v_final =
  vadd (vscale ((r2 * r2 - a * a + r1 * r2 - y * r2) / (a * a * y)) p)
       (vscale ((r1 * r1 - a * a + r1 * r2 - y * r1) / (a * a * y)) q).
Proof.
  unfold eccentricity. rewrite h_final.
  assert (E : cross v_final (vscale (/ g) (cross p q)) =
    vscale (/ g * / g) (vsub (vscale ((1 - y / r2) * dot q q - dot p q) p) (vscale ((1 - y / r2) * dot p q - dot p p) q))).
  { transitivity (vscale (/ g * / g) (cross (vsub (vscale (1 - y / r2) q) p) (cross p q))).
    - unfold v_final, Rdiv. apply v3_eq; unfold cross, vscale; cbn; ring.
    - f_equal. rewrite triple. apply v3_eq; unfold dot, vscale, vsub; cbn; ring. }
  rewrite E, g_inv, pq, qq, pp. apply v3_eq; cbn; field; repeat split; lra.
Qed.

Lemma conic : same_conic mu p v_init q v_final.
Proof.
  split; [|split].
  - now rewrite h_init, h_final.
  - unfold energy. rewrite v_init_sqr, v_final_sqr. field. repeat split; lra.
  - now rewrite ecc_init, ecc_final.
Qed.

(** ** The arc *)
Lemma pv_init : dot p v_init = sqrt mu * ((a - r1 * (r1 + r2 - y) / a) / sqrt y).
Proof.
  assert (E : dot p v_init = (dot p q - (1 - y / r1) * dot p p) * / g).
  { unfold v_init, dot, vscale, vsub. cbn. ring. }
  rewrite E, pq, pp. rewrite sqrt_div; [|lra|lra].
  assert (0 < sqrt mu) by now apply sqrt_lt_R0. assert (0 < sqrt y) by now apply sqrt_lt_R0. field. repeat split; lra.
Qed.

Section Arc.
Context (alpha chi : R) (U1 U2 U3 : R -> R).
Hypothesis Hcross : cross p q <> vzero.
Hypothesis Hchi : 0 < chi.
Hypothesis D1 : forall x, is_derive U1 x (1 - alpha * U2 x).
Hypothesis D2 : forall x, is_derive U2 x (U1 x).
Hypothesis D3 : forall x, is_derive U3 x (U2 x).
Hypothesis Z1 : U1 0 = 0.
Hypothesis Z2 : U2 0 = 0.
Hypothesis Z3 : U3 0 = 0.
Hypothesis Hid : forall x, U1 x * U1 x = 2 * U2 x - alpha * (U2 x * U2 x).
Hypothesis E2 : U2 chi = y.
Hypothesis E1 : y = r1 + r2 - a * U1 chi / sqrt y.

Lemma connected : kepler_arc mu p v_init q v_final ((U3 chi + a * sqrt y) / sqrt mu).
Proof.
  assert (Sy : 0 < sqrt y) by now apply sqrt_lt_R0.
  assert (Sm : 0 < sqrt mu) by now apply sqrt_lt_R0.
  assert (Sy2 : sqrt y * sqrt y = y) by (apply sqrt_sqrt; lra).
  assert (Sm2 : sqrt mu * sqrt mu = mu) by (apply sqrt_sqrt; lra).
  set (sigma := (a - r1 * U1 chi / sqrt y) / sqrt y).
  assert (W : sigma * y = a * sqrt y - r1 * U1 chi).
  { transitivity (sigma * (sqrt y * sqrt y)); [now rewrite Sy2|]. unfold sigma. field. lra. }
  assert (K : r1 + r2 - y = a * U1 chi / sqrt y) by lra.
  assert (Hrv : dot p v_init = sqrt mu * sigma).
  { rewrite pv_init, K. unfold sigma. f_equal. field. split; lra. }
  assert (Hvv : dot v_init v_init = mu * (2 / r1 - alpha)).
  { rewrite v_init_sqr, K. f_equal.
    replace (a * U1 chi / sqrt y * (a * U1 chi / sqrt y) / (a * a * y))
      with (U1 chi * U1 chi / (sqrt y * sqrt y) / y) by (field; repeat split; lra).
    rewrite Hid, E2, Sy2. field. split; lra. }
  assert (Hh : cross p v_init <> vzero).
  { rewrite h_init. intros E. apply Hcross. unfold vscale, vzero in E |- *. injection E as A B C.
    pose proof (Rinv_neq_0_compat _ g_nonzero) as N.
    apply v3_eq; cbn; apply (Rmult_eq_reg_l (/ g)); try exact N; lra. }
  pose proof (universal_arc mu alpha r1 sigma p v_init U1 U2 U3 Hmu eq_refl H1 Hrv Hvv Hh D1 D2 D3 Z1 Z2 Z3 Hid chi Hchi) as A.
  assert (T : time mu r1 sigma U1 U2 U3 chi = (U3 chi + a * sqrt y) / sqrt mu).
  { unfold time. rewrite E2, W. f_equal. ring. }
  rewrite T in A.
  assert (G : Gc mu r1 sigma U1 U2 chi = g).
  { unfold Gc. rewrite E2, W, sqrt_div; [|lra|lra]. field. lra. }
  assert (P : pos mu r1 sigma p v_init U1 U2 chi = q).
  { unfold pos. rewrite G. unfold Fc. rewrite E2. unfold v_init. pose proof root.
    apply v3_eq; cbn; field; repeat split; lra. }
  pose proof (pos_norm mu alpha r1 sigma p v_init U1 U2 Hmu eq_refl H1 Hrv Hvv Hh D1 D2 Z1 Z2 Hid chi) as N.
  rewrite P in N.
  assert (V : vel mu alpha r1 sigma p v_init U1 U2 chi = v_final).
  { unfold vel, Fd, Gd. rewrite <- N, E2. unfold v_init, v_final. pose proof root as Ng.
    assert (F : - (sqrt mu * U1 chi) / (r2 * r1) = ((1 - y / r1) * (1 - y / r2) - 1) / g).
    { assert (Q : 0 < sqrt y / sqrt mu) by now apply Rdiv_lt_0_compat.
      rewrite sqrt_div; [|lra|lra]. apply (Rmult_eq_reg_r (a * r1 * r2 * (sqrt y / sqrt mu)));
        [|repeat apply Rmult_integral_contrapositive_currified; try lra; apply Rinv_neq_0_compat; lra].
      replace (- (sqrt mu * U1 chi) / (r2 * r1) * (a * r1 * r2 * (sqrt y / sqrt mu))) with (- (a * U1 chi / sqrt y) * (sqrt y * sqrt y))
        by (field; repeat split; lra).
      rewrite <- K, Sy2. field. repeat split; lra. }
    rewrite F. apply v3_eq; cbn; field; repeat split; lra. }
  rewrite P, V in A. exact A.
Qed.
End Arc.

(** The three kinds of conics. *)
Section Kinds.
Hypothesis Hcross : cross p q <> vzero.
Context (phi : R).

Lemma elliptic : let c2 := (1 - cos (sqrt phi)) / phi in let c3 := (sqrt phi - sin (sqrt phi)) / sqrt (phi ^ 3) in
  0 < phi -> 0 < c2 -> y = r1 + r2 + a * (phi * c3 - 1) / sqrt c2 ->
  kepler_arc mu p v_init q v_final ((sqrt (y / c2) ^ 3 * c3 + a * sqrt y) / sqrt mu).
Proof.
  intros c2 c3 Hp Hc E.
  assert (Sp : 0 < sqrt phi) by now apply sqrt_lt_R0.
  assert (Sp2 : sqrt phi * sqrt phi = phi) by (apply sqrt_sqrt; lra).
  assert (Sp3 : sqrt (phi ^ 3) = sqrt phi * sqrt phi * sqrt phi).
  { replace (phi ^ 3) with (phi * phi * phi) by ring. rewrite !sqrt_mult_alt; [ring|lra|]. apply Rmult_le_pos; lra. }
  set (chi := sqrt (y / c2)) in *.
  assert (Hchi : 0 < chi) by (apply sqrt_lt_R0; now apply Rdiv_lt_0_compat).
  assert (Hchi2 : chi * chi = y / c2) by (apply sqrt_sqrt; left; now apply Rdiv_lt_0_compat).
  set (k := sqrt phi / chi). assert (Hk : 0 < k) by now apply Rdiv_lt_0_compat.
  assert (Hkc : k * chi = sqrt phi) by (unfold k; field; lra).
  assert (Sc : sqrt y = sqrt c2 * chi).
  { unfold chi. rewrite <- sqrt_mult_alt; [|lra]. f_equal. field. lra. }
  assert (Sc0 : 0 < sqrt c2) by now apply sqrt_lt_R0.
  set (U3 := fun x => (k * x - sin (k * x)) / (k * k * k)).
  replace (chi ^ 3 * c3) with (U3 chi).
  2:{ unfold U3, c3. rewrite Hkc, Sp3. unfold k. field. lra. }
  apply (connected (k * k) chi (fun x => sin (k * x) / k) (fun x => (1 - cos (k * x)) / (k * k)) U3).
  - exact Hcross.
  - exact Hchi.
  - intros x. auto_derive; [trivial|]. field. lra.
  - intros x. auto_derive; [trivial|]. field. lra.
  - intros x. unfold U3. auto_derive; [trivial|]. field. lra.
  - rewrite Rmult_0_r, sin_0. field. lra.
  - rewrite Rmult_0_r, cos_0. field. lra.
  - unfold U3. rewrite Rmult_0_r, sin_0. field. lra.
  - intros x. pose proof (sin2_cos2 (k * x)) as S. unfold Rsqr in S.
    replace (sin (k * x) / k * (sin (k * x) / k)) with ((1 - cos (k * x) * cos (k * x)) / (k * k)); [field; lra|].
    rewrite <- S. field. lra.
  - rewrite Hkc. replace (k * k) with (phi / (chi * chi)) by (rewrite <- Sp2; unfold k; field; lra).
    rewrite Hchi2. unfold c2 in *. field. repeat split; try lra.
    intros Z. rewrite Z in Hc. unfold Rdiv in Hc. lra.
  - rewrite Hkc, Sc. rewrite E at 1. unfold c3. rewrite Sp3. unfold k. rewrite <- Sp2 at 1. field. repeat split; lra.
Qed.

Lemma hyperbolic : let w := sqrt (- phi) in let c2 := (1 - cosh w) / phi in let c3 := (sinh w - w) / sqrt ((- phi) ^ 3) in
  phi < 0 -> 0 < c2 -> y = r1 + r2 + a * (phi * c3 - 1) / sqrt c2 ->
  kepler_arc mu p v_init q v_final ((sqrt (y / c2) ^ 3 * c3 + a * sqrt y) / sqrt mu).
Proof.
  intros w c2 c3 Hp Hc E.
  assert (Sp : 0 < w) by (apply sqrt_lt_R0; lra).
  assert (Sp2 : w * w = - phi) by (apply sqrt_sqrt; lra).
  assert (Sp3 : sqrt ((- phi) ^ 3) = w * w * w).
  { replace ((- phi) ^ 3) with ((- phi) * (- phi) * (- phi)) by ring. rewrite !sqrt_mult_alt; [reflexivity|lra|]. apply Rmult_le_pos; lra. }
  set (chi := sqrt (y / c2)) in *.
  assert (Hchi : 0 < chi) by (apply sqrt_lt_R0; now apply Rdiv_lt_0_compat).
  assert (Hchi2 : chi * chi = y / c2) by (apply sqrt_sqrt; left; now apply Rdiv_lt_0_compat).
  set (k := w / chi). assert (Hk : 0 < k) by now apply Rdiv_lt_0_compat.
  assert (Hkc : k * chi = w) by (unfold k; field; lra).
  assert (Sc : sqrt y = sqrt c2 * chi).
  { unfold chi. rewrite <- sqrt_mult_alt; [|lra]. f_equal. field. lra. }
  assert (Sc0 : 0 < sqrt c2) by now apply sqrt_lt_R0.
  set (U3 := fun x => (sinh (k * x) - k * x) / (k * k * k)).
  replace (chi ^ 3 * c3) with (U3 chi).
  2:{ unfold U3, c3. rewrite Hkc, Sp3. unfold k. field. lra. }
  apply (connected (- (k * k)) chi (fun x => sinh (k * x) / k) (fun x => (cosh (k * x) - 1) / (k * k)) U3).
  - exact Hcross.
  - exact Hchi.
  - intros x. unfold sinh, cosh. auto_derive; [trivial|]. field. lra.
  - intros x. unfold sinh, cosh. auto_derive; [trivial|]. field. lra.
  - intros x. unfold U3. unfold sinh, cosh. auto_derive; [trivial|]. field. lra.
  - rewrite Rmult_0_r, sinh_0. field. lra.
  - rewrite Rmult_0_r, cosh_0. field. lra.
  - unfold U3. rewrite Rmult_0_r, sinh_0. field. lra.
  - intros x. assert (S : sinh (k * x) * sinh (k * x) = cosh (k * x) * cosh (k * x) - 1).
    { unfold sinh, cosh. assert (X : exp (k * x) * exp (- (k * x)) = 1) by (rewrite <- exp_plus, Rplus_opp_r; apply exp_0). nra. }
    replace (sinh (k * x) / k * (sinh (k * x) / k)) with ((cosh (k * x) * cosh (k * x) - 1) / (k * k)); [field; lra|].
    rewrite <- S. field. lra.
  - rewrite Hkc. replace (k * k) with (- phi / (chi * chi)) by (rewrite <- Sp2; unfold k; field; lra).
    rewrite Hchi2. unfold c2 in *. field. repeat split; try lra.
    intros Z. rewrite Z in Hc. unfold Rdiv in Hc. lra.
  - rewrite Hkc, Sc. rewrite E at 1. unfold c3. rewrite Sp3.
    replace (phi * ((sinh w - w) / (w * w * w))) with (- ((sinh w - w) / w)).
    2:{ replace phi with (- (w * w)) by lra. field. lra. }
    unfold k. field. repeat split; lra.
Qed.

Lemma parabolic : y = r1 + r2 + a * (0 * (1 / 6) - 1) / sqrt (1 / 2) ->
  kepler_arc mu p v_init q v_final ((sqrt (y / (1 / 2)) ^ 3 * (1 / 6) + a * sqrt y) / sqrt mu).
Proof.
  intros E. set (chi := sqrt (y / (1 / 2))) in *.
  assert (Hchi : 0 < chi) by (apply sqrt_lt_R0; lra).
  assert (Hchi2 : chi * chi = y / (1 / 2)) by (apply sqrt_sqrt; lra).
  assert (Sc : sqrt y = sqrt (1 / 2) * chi).
  { unfold chi. rewrite <- sqrt_mult_alt; [|lra]. f_equal. field. }
  assert (Sc0 : 0 < sqrt (1 / 2)) by (apply sqrt_lt_R0; lra).
  set (U3 := fun x => x ^ 3 * (1 / 6)).
  change (chi ^ 3 * (1 / 6)) with (U3 chi).
  apply (connected 0 chi (fun x => x) (fun x => x ^ 2 / 2) U3).
  - exact Hcross.
  - exact Hchi.
  - intros x. auto_derive; [trivial|]. ring.
  - intros x. auto_derive; [trivial|]. field.
  - intros x. unfold U3. auto_derive; [trivial|]. field.
  - reflexivity.
  - field.
  - unfold U3. ring.
  - intros x. field.
  - replace (chi ^ 2) with (chi * chi) by ring. rewrite Hchi2. field.
  - rewrite Sc. rewrite E at 1. field. split; lra.
Qed.
End Kinds.
End Velocities.

(** ** The search *)
Lemma PI_bounds : 3 < PI < 33 / 10.
Proof.
  split.
  - pose proof PI2_3_2. lra.
  - pose proof (PI_ineq 3) as [_ H].
    assert (E : sum_f_R0 (tg_alt PI_tg) (2 * 3) = 1 - 1/3 + 1/5 - 1/7 + 1/9 - 1/11 + 1/13); [|lra].
    change (2 * 3)%nat with 6%nat. cbn [sum_f_R0]. unfold tg_alt, PI_tg. rewrite !INR_IZR_INZ. cbn [pow Nat.mul Nat.add Z.of_nat Pos.of_succ_nat Pos.succ]. field.
Qed.
Lemma PI_sqr_bounds : 36 < 4 * PI ^ 2 < 44.
Proof. destruct PI_bounds. nra. Qed.

Lemma cosh_ge x : 0 <= x -> 1 + x ^ 2 / 2 <= cosh x /\ x <= sinh x /\ x + x ^ 3 / 6 <= sinh x.
Proof.
  assert (Mono : forall (f f' : R -> R), (forall x, is_derive f x (f' x)) -> (forall x, 0 <= x -> 0 <= f' x) -> f 0 = 0 ->
            forall x, 0 <= x -> 0 <= f x).
  { intros f f' Hd Hn H0 z Hz. destruct (Req_dec z 0) as [->|N]; [lra|].
    destruct (MVT_gen f 0 z f') as (c & Hc & E).
    - intros t _. apply Hd.
    - intros t _. apply continuity_pt_filterlim. apply (ex_derive_continuous f t). eexists. apply Hd.
    - rewrite Rmin_left, Rmax_right in Hc by lra. rewrite H0 in E. specialize (Hn c ltac:(lra)).
      assert (0 <= f' c * (z - 0)) by (apply Rmult_le_pos; lra). lra. }
  assert (P0 : forall x, 0 <= x -> 0 <= cosh x - 1).
  { intros z Hz. unfold cosh. assert (X : exp z * exp (- z) = 1) by (rewrite <- exp_plus, Rplus_opp_r; apply exp_0).
    pose proof (exp_pos z). pose proof (exp_pos (- z)). set (e := exp z) in *. set (e' := exp (- z)) in *.
    assert (Q : 0 <= (e - 1) * (e - 1)) by apply Rle_0_sqr.
    assert (W : e * (e + e' - 2) = (e - 1) * (e - 1)) by (replace (e * (e + e' - 2)) with (e * e + e * e' - 2 * e) by ring; rewrite X; ring).
    assert (0 <= e + e' - 2); [|lra]. apply (Rmult_le_reg_l e); lra. }
  assert (P1 : forall x, 0 <= x -> 0 <= sinh x - x).
  { apply (Mono (fun x => sinh x - x) (fun x => cosh x - 1)); [|exact P0|rewrite sinh_0; ring].
    intros t. unfold sinh, cosh. auto_derive; [trivial|]. field. }
  assert (P2 : forall x, 0 <= x -> 0 <= cosh x - 1 - x ^ 2 / 2).
  { apply (Mono (fun x => cosh x - 1 - x ^ 2 / 2) (fun x => sinh x - x)); [|exact P1|rewrite cosh_0; field].
    intros t. unfold sinh, cosh. auto_derive; [trivial|]. field. }
  assert (P3 : forall x, 0 <= x -> 0 <= sinh x - x - x ^ 3 / 6).
  { apply (Mono (fun x => sinh x - x - x ^ 3 / 6) (fun x => cosh x - 1 - x ^ 2 / 2)); [|exact P2|rewrite sinh_0; field].
    intros t. unfold sinh, cosh. auto_derive; [trivial|]. field. }
  intros Hx. specialize (P1 x Hx). specialize (P2 x Hx). specialize (P3 x Hx). lra.
Qed.

Lemma eps_small : 0 < LAMBERT_EPSILON < 1.
Proof. unfold LAMBERT_EPSILON. lra. Qed.

Lemma cos_below_one t : 0 < t < 2 * PI -> cos t < 1.
Proof.
  intros Ht. replace t with (2 * (t / 2)) by field. rewrite cos_2a_sin.
  assert (S : 0 < sin (t / 2)) by (apply sin_gt_0; lra). nra.
Qed.

Lemma sqrt_below phi : LAMBERT_EPSILON < phi < 4 * PI ^ 2 -> 0 < sqrt phi < 2 * PI.
Proof.
  intros H. pose proof eps_small. split; [apply sqrt_lt_R0; lra|].
  destruct PI_bounds. rewrite <- (sqrt_square (2 * PI)) by lra. apply sqrt_lt_1_alt. nra.
Qed.

Lemma stumpff_c2 phi : phi < 4 * PI ^ 2 -> 0 < fst (stumpff phi).
Proof.
  intros H. unfold stumpff. pose proof eps_small. destruct (Rlt_dec LAMBERT_EPSILON phi) as [L|L]; cbn [fst].
  - destruct (sqrt_below phi) as [A B]; [lra|]. pose proof (cos_below_one (sqrt phi) ltac:(lra)). apply Rdiv_lt_0_compat; lra.
  - destruct (Rlt_dec phi (- LAMBERT_EPSILON)) as [N|N]; cbn [fst]; [|lra].
    assert (S : 0 < sqrt (- phi)) by (apply sqrt_lt_R0; lra).
    destruct (cosh_ge (sqrt (- phi))) as [C _]; [lra|]. assert (0 < sqrt (- phi) ^ 2) by (apply pow_lt; lra).
    replace ((1 - cosh (sqrt (- phi))) / phi) with ((cosh (sqrt (- phi)) - 1) / - phi) by (field; lra).
    apply Rdiv_lt_0_compat; lra.
Qed.

Lemma cube_root p : 0 < p -> sqrt (p ^ 3) = sqrt p * p.
Proof.
  intros H. replace (p ^ 3) with (p * (p * p)) by ring. rewrite sqrt_mult_alt; [|lra]. f_equal. apply sqrt_square. lra.
Qed.

Lemma stumpff_c3 phi : phi <= 0 -> 1 / 6 <= snd (stumpff phi).
Proof.
  intros H. unfold stumpff. pose proof eps_small. destruct (Rlt_dec LAMBERT_EPSILON phi) as [L|L]; [lra|].
  destruct (Rlt_dec phi (- LAMBERT_EPSILON)) as [N|N]; cbn [snd]; [|lra].
  assert (S : 0 < sqrt (- phi)) by (apply sqrt_lt_R0; lra).
  destruct (cosh_ge (sqrt (- phi))) as (_ & _ & C); [lra|]. rewrite cube_root by lra.
  assert (S2 : sqrt (- phi) * sqrt (- phi) = - phi) by (apply sqrt_sqrt; lra).
  set (w := sqrt (- phi)) in *.
  apply (Rmult_le_reg_r (w * - phi)); [apply Rmult_lt_0_compat; lra|].
  unfold Rdiv at 2. rewrite Rmult_assoc, Rinv_l, Rmult_1_r;
    [|apply Rmult_integral_contrapositive_currified; lra].
  rewrite <- S2. lra.
Qed.

Lemma stumpff_zero : stumpff 0 = (1 / 2, 1 / 6).
Proof.
  unfold stumpff. pose proof eps_small. destruct (Rlt_dec LAMBERT_EPSILON 0); [lra|].
  destruct (Rlt_dec 0 (- LAMBERT_EPSILON)); [lra|reflexivity].
Qed.

Section Search.
Context (r1 r2 a mu tof : R).
Hypothesis H1 : 0 < r1.
Hypothesis H2 : 0 < r2.
Hypothesis Ha : a * a <= 2 * r1 * r2.
Notation yof phi := (y_of r1 r2 a phi (fst (stumpff phi)) (snd (stumpff phi))).

Lemma two_radii b : b * b <= 2 * (a * a) -> - (r1 + r2) <= b <= r1 + r2.
Proof.
  intros H. assert (Q : b * b <= (r1 + r2) * (r1 + r2)).
  { assert (0 <= (r1 - r2) * (r1 - r2)) by (apply Rle_0_sqr). nra. }
  split; nra.
Qed.

Lemma y_elliptic phi : LAMBERT_EPSILON < phi < 4 * PI ^ 2 -> 0 <= yof phi.
Proof.
  intros H. pose proof (stumpff_c2 phi (proj2 H)) as C2. destruct (sqrt_below phi H) as [A B].
  pose proof (cos_below_one (sqrt phi) ltac:(lra)) as C. pose proof eps_small.
  unfold stumpff in *. destruct (Rlt_dec LAMBERT_EPSILON phi); [|lra]. cbn [fst snd] in *.
  unfold y_of. set (t := sqrt phi) in *. rewrite cube_root by lra. fold t.
  set (k := sqrt ((1 - cos t) / phi)). assert (K : 0 < k) by now apply sqrt_lt_R0.
  assert (K2 : k * k = (1 - cos t) / phi) by (apply sqrt_sqrt; lra).
  assert (T2 : t * t = phi) by (apply sqrt_sqrt; lra).
  replace (phi * ((t - sin t) / (t * phi)) - 1) with (- (sin t / t)) by (field; lra).
  assert (Q : a * - (sin t / t) / k * (a * - (sin t / t) / k) <= 2 * (a * a)).
  { replace (a * - (sin t / t) / k * (a * - (sin t / t) / k)) with (a * a * (sin t * sin t / (t * t) / (k * k))) by (field; lra).
    pose proof (sin2_cos2 t) as S. unfold Rsqr in S. rewrite K2, T2.
    replace (sin t * sin t / phi / ((1 - cos t) / phi)) with (1 + cos t).
    2:{ replace (sin t * sin t) with ((1 - cos t) * (1 + cos t)) by lra. field. lra. }
    assert (0 <= a * a) by apply Rle_0_sqr. nra. }
  apply two_radii in Q. lra.
Qed.

Lemma y_band phi : 0 <= phi <= LAMBERT_EPSILON -> 0 <= yof phi.
Proof.
  intros H. pose proof eps_small. unfold stumpff. destruct (Rlt_dec LAMBERT_EPSILON phi); [lra|].
  destruct (Rlt_dec phi (- LAMBERT_EPSILON)); [lra|]. cbn [fst snd]. unfold y_of.
  assert (K : 0 < sqrt (1 / 2)) by (apply sqrt_lt_R0; lra). assert (K2 : sqrt (1 / 2) * sqrt (1 / 2) = 1 / 2) by (apply sqrt_sqrt; lra).
  set (k := sqrt (1 / 2)) in *.
  assert (Q : a / k * (a / k) <= 2 * (a * a)).
  { replace (a / k * (a / k)) with (a * a / (k * k)) by (field; lra). rewrite K2. lra. }
  apply two_radii in Q. replace (a * (phi * (1 / 6) - 1) / k) with (- ((1 - phi / 6) * (a / k))) by (field; lra).
  assert (1 - phi / 6 <= 1) by lra. assert (0 <= 1 - phi / 6) by lra. nra.
Qed.

Lemma y_short phi : 0 <= phi < 4 * PI ^ 2 -> 0 <= yof phi.
Proof.
  intros H. destruct (Rle_lt_dec phi LAMBERT_EPSILON); [apply y_band; lra|apply y_elliptic; lra].
Qed.

(** The slope of y in phi is positive where there is a need for it. *)
Lemma y_long phi : a <= 0 -> phi < 4 * PI ^ 2 -> 0 <= yof phi.
Proof.
  intros Hn H. pose proof eps_small. destruct (Rle_lt_dec 0 phi) as [P|P]; [apply y_short; lra|].
  pose proof (stumpff_c2 phi H) as C2. unfold y_of.
  assert (K : 0 < sqrt (fst (stumpff phi))) by now apply sqrt_lt_R0.
  pose proof (stumpff_c3 phi ltac:(lra)) as C3.
  assert (N : phi * snd (stumpff phi) <= 0) by nra.
  assert (0 <= a * (phi * snd (stumpff phi) - 1) / sqrt (fst (stumpff phi))); [|lra].
  apply Rmult_le_pos; [nra|]. left. now apply Rinv_0_lt_compat.
Qed.

Lemma y_beyond phi c2 c3 : 0 < a -> 0 < c2 -> 1 <= phi * c3 -> 0 <= y_of r1 r2 a phi c2 c3.
Proof.
  intros P C H. unfold y_of. assert (K : 0 < sqrt c2) by now apply sqrt_lt_R0.
  assert (0 <= a * (phi * c3 - 1) / sqrt c2); [|lra].
  apply Rmult_le_pos; [nra|]. left. now apply Rinv_0_lt_compat.
Qed.

Lemma bump_ok c2 c3 : 0 < a -> 0 < c2 -> 1 / 6 <= c3 -> forall n phi,
  phi * c3 < 1 -> 6 <= phi + INR n / 10 -> (0 < n)%nat ->
  let r := bump r1 r2 a n phi (y_of r1 r2 a phi c2 c3) c2 c3 in
  phi < fst r < 6 + 1 / 10 /\ snd r = y_of r1 r2 a (fst r) c2 c3 /\ 0 <= snd r.
Proof.
  intros Pa Pc Hc. induction n as [|n IH]; intros phi Hp Hn Pn; [lia|]. cbn [bump].
  assert (Small : phi < 6) by nra.
  destruct (Rle_dec 0 (y_of r1 r2 a (phi + 1 / 10) c2 c3)) as [Y|Y]; cbn zeta; [cbn [fst snd]; lra|].
  assert (Hp' : (phi + 1 / 10) * c3 < 1).
  { apply Rnot_le_lt. intros L. apply Y. now apply y_beyond. }
  destruct n as [|n].
  - exfalso. cbn [INR] in Hn. nra.
  - rewrite S_INR in Hn. destruct (IH (phi + 1 / 10) Hp' ltac:(lra) ltac:(lia)) as (A & B & C). lra.
Qed.

Definition inv (s : gooding_state) : Prop :=
  - (4 * PI ^ 2) <= phi_lower s < 4 * PI ^ 2 /\ - (4 * PI ^ 2) <= phi_upper s <= 4 * PI ^ 2 /\
  - (4 * PI ^ 2) <= phi s < 4 * PI ^ 2 /\ (c2 s, c3 s) = stumpff (phi s).

Lemma inv_start : inv gooding_start.
Proof.
  pose proof PI_sqr_bounds. unfold inv. cbn [gooding_start phi_lower phi_upper phi c2 c3]. rewrite stumpff_zero.
  repeat split; lra.
Qed.

(** One pass: never an error, never a meaningless square root; the value of phi is replaced
    only where it gives a negative y. *)
Lemma pass_spec s : inv s -> exists s' phi1,
  pass r1 r2 a mu tof s = Ok (Some s') /\ inv s' /\
  y s' = y_of r1 r2 a phi1 (c2 s) (c3 s) /\ 0 <= y s' /\ 0 < c2 s /\
  cur_tof s' = (sqrt (y s' / c2 s) ^ 3 * c3 s + a * sqrt (y s')) / sqrt mu /\
  (0 <= yof (phi s) -> phi1 = phi s) /\ (0 <= phi s \/ a <= 0 -> phi1 = phi s) /\
  phi s <= phi1 < 4 * PI ^ 2 /\
  phi s' = (phi_upper s' + phi_lower s') / 2 /\
  ((phi_lower s' = phi1 /\ cur_tof s' < tof /\ phi_upper s' = phi_upper s) \/
   (phi_upper s' = phi1 /\ tof <= cur_tof s' /\ phi_lower s' = phi_lower s)).
Proof.
  intros (I1 & I2 & I3 & I4). pose proof PI_sqr_bounds as PB.
  assert (C2 : 0 < c2 s).
  { pose proof (stumpff_c2 (phi s) (proj2 I3)) as C. rewrite <- I4 in C. exact C. }
  unfold pass. destruct (Rle_dec (c2 s) 0); [lra|].
  assert (Choice : exists phi1 y1,
    (if Rlt_dec 0 a then (if Rlt_dec (y_of r1 r2 a (phi s) (c2 s) (c3 s)) 0
       then bump r1 r2 a 500 (phi s) (y_of r1 r2 a (phi s) (c2 s) (c3 s)) (c2 s) (c3 s)
       else (phi s, y_of r1 r2 a (phi s) (c2 s) (c3 s)))
     else (phi s, y_of r1 r2 a (phi s) (c2 s) (c3 s))) = (phi1, y1) /\
    y1 = y_of r1 r2 a phi1 (c2 s) (c3 s) /\ 0 <= y1 /\
    (0 <= yof (phi s) -> phi1 = phi s) /\ (0 <= phi s \/ a <= 0 -> phi1 = phi s) /\
    phi s <= phi1 < 4 * PI ^ 2).
  { assert (Y : yof (phi s) = y_of r1 r2 a (phi s) (c2 s) (c3 s)) by (rewrite <- I4; reflexivity).
    destruct (Rlt_dec 0 a) as [Pa|Pa].
    - destruct (Rlt_dec (y_of r1 r2 a (phi s) (c2 s) (c3 s)) 0) as [N|N].
      + assert (Neg : phi s < 0).
        { apply Rnot_le_lt. intros L. pose proof (y_short (phi s) ltac:(lra)). lra. }
        assert (C3 : 1 / 6 <= c3 s).
        { pose proof (stumpff_c3 (phi s) ltac:(lra)) as C. rewrite <- I4 in C. exact C. }
        destruct (bump_ok (c2 s) (c3 s) Pa C2 C3 500 (phi s)) as (A & B & C).
        * nra.
        * replace (INR 500) with 500 by (rewrite INR_IZR_INZ; reflexivity). lra.
        * lia.
        * destruct (bump r1 r2 a 500 (phi s) (y_of r1 r2 a (phi s) (c2 s) (c3 s)) (c2 s) (c3 s)) as [p' y'].
          cbn [fst snd] in A, B, C. exists p', y'. split; [reflexivity|]. split; [exact B|]. split; [exact C|].
          split; [lra|]. split; [lra|]. lra.
      + exists (phi s), (y_of r1 r2 a (phi s) (c2 s) (c3 s)). repeat split; try reflexivity; lra.
    - exists (phi s), (y_of r1 r2 a (phi s) (c2 s) (c3 s)). pose proof (y_long (phi s) ltac:(lra) ltac:(lra)).
      repeat split; try reflexivity; lra. }
  destruct Choice as (phi1 & y1 & -> & E & Py & P1 & P2 & P3). destruct (Rlt_dec y1 0); [lra|].
  eexists. exists phi1. split; [reflexivity|]. cbn [y c2 c3 cur_tof phi phi_upper phi_lower].
  set (t1 := (sqrt (y1 / c2 s) ^ 3 * c3 s + a * sqrt y1) / sqrt mu).
  destruct (Rlt_dec t1 tof) as [L|L].
  - split.
    { unfold inv. cbn [y c2 c3 cur_tof phi phi_upper phi_lower].
      repeat split; try lra. destruct (stumpff ((phi_upper s + phi1) / 2)); reflexivity. }
    split; [exact E|]. split; [exact Py|]. split; [exact C2|]. split; [reflexivity|]. split; [exact P1|]. split; [exact P2|].
    split; [exact P3|]. split; [reflexivity|]. left. repeat split; lra.
  - split.
    { unfold inv. cbn [y c2 c3 cur_tof phi phi_upper phi_lower].
      repeat split; try lra. destruct (stumpff ((phi1 + phi_lower s) / 2)); reflexivity. }
    split; [exact E|]. split; [exact Py|]. split; [exact C2|]. split; [reflexivity|]. split; [exact P1|]. split; [exact P2|].
    split; [exact P3|]. split; [reflexivity|]. right. repeat split; lra.
Qed.

(** The states of the search. *)
Inductive reached : gooding_state -> Prop :=
| reached_start : reached gooding_start
| reached_pass s s' : reached s -> pass r1 r2 a mu tof s = Ok (Some s') -> reached s'.

Lemma reached_inv s : reached s -> inv s.
Proof.
  induction 1 as [|s s' _ IH H]; [exact inv_start|].
  destruct (pass_spec s IH) as (x & p1 & E & I & _). congruence.
Qed.

Lemma search_spec n : forall s, reached s ->
  match search r1 r2 a mu tof n s with
  | Ok (Some s') => Rabs (cur_tof s' - tof) <= LAMBERT_EPSILON_TIME /\
      (s' = s \/ exists sp, reached sp /\ pass r1 r2 a mu tof sp = Ok (Some s'))
  | Err e => e = SolverMaxIter
  | _ => False
  end.
Proof.
  induction n as [|n IH]; intros s Hs; cbn [search].
  - destruct (Rlt_dec _ _); [reflexivity|]. split; [lra|now left].
  - destruct (Rlt_dec _ _) as [L|L]; [|split; [lra|now left]].
    destruct (pass_spec s (reached_inv s Hs)) as (s1 & p1 & E & _). rewrite E. cbn [bind].
    assert (R1 : reached s1) by (eapply reached_pass; eassumption).
    specialize (IH s1 R1). destruct (search r1 r2 a mu tof n s1) as [[s'|]|e| |]; try exact IH.
    destruct IH as [A [->|B]]; (split; [exact A|right]); [|exact B]. exists s. split; assumption.
Qed.
End Search.
