(** C95: the time of flight of the transfers of Izzo. *)
From Coq Require Import Reals Lra Lia ZArith.
From Coquelicot Require Import Coquelicot.
From Verif Require Import Base Vec3 Angles Sc_Model Lambert_Model Lambert_Arc Lambert_Proofs Lambert_Props Lambert_Izzo.
Local Open Scope R_scope.

(** ** The series of Battin, 2F1(3, 1; 5/2; z) *)

(** The terms of the series: one, and the ratio of Gauss from each to the next. *)
Fixpoint gauss (n : nat) : R :=
  match n with
  | O => 1
  | S m => gauss m * ((3 + INR m) * (1 + INR m) / ((5 / 2 + INR m) * (1 + INR m)))
  end.
(** [f] is the sum of the series wherever it converges. *)
Definition sums_series (f : R -> R) : Prop := forall z, -1 < z < 1 -> is_pseries gauss z (f z).

Lemma gauss_pos n : 0 < gauss n.
Proof.
  induction n as [|n IH]; [cbn; lra|]. cbn [gauss]. pose proof (pos_INR n).
  apply Rmult_lt_0_compat; [exact IH|]. apply Rdiv_lt_0_compat; apply Rmult_lt_0_compat; lra.
Qed.
Lemma gauss_step n : (INR n + 5 / 2) * gauss (S n) = (INR n + 3) * gauss n.
Proof. cbn [gauss]. pose proof (pos_INR n). field. split; lra. Qed.

Lemma gauss_radius : CV_radius gauss = 1.
Proof.
  replace (Finite 1) with (Finite (/ 1)) by (f_equal; lra). apply CV_radius_finite_DAlembert.
  - intros n. pose proof (gauss_pos n). lra.
  - lra.
  - apply (is_lim_seq_ext (fun n => 1 + / 2 * / (INR n + 5 / 2))).
    + intros n. pose proof (gauss_pos n) as P. pose proof (pos_INR n) as N. pose proof (gauss_step n) as E.
      replace (gauss (S n)) with ((INR n + 3) * gauss n / (INR n + 5 / 2)) by (rewrite <- E; field; lra).
      rewrite Rabs_right; [field; lra|]. apply Rle_ge. unfold Rdiv. repeat apply Rmult_le_pos; try lra; left; apply Rinv_0_lt_compat; lra.
    + replace (Finite 1) with (Finite (1 + / 2 * 0)) by (f_equal; lra).
      apply is_lim_seq_plus'; [apply is_lim_seq_const|].
      apply (is_lim_seq_scal_l _ (/ 2) 0).
      apply (is_lim_seq_inv _ p_infty); [|discriminate].
      apply (is_lim_seq_plus _ _ p_infty (5 / 2) p_infty); [apply is_lim_seq_INR|apply is_lim_seq_const|reflexivity].
Qed.

Lemma in_radius z : -1 < z < 1 -> Rbar_lt (Rabs z) (CV_radius gauss).
Proof. intros H. rewrite gauss_radius. cbn. now apply Rabs_def1. Qed.

(** The series has a sum. *)
Lemma series_exists : sums_series (PSeries gauss).
Proof. intros z H. apply PSeries_correct, CV_radius_inside, in_radius, H. Qed.

Lemma sum_unique f z : sums_series f -> -1 < z < 1 -> f z = PSeries gauss z.
Proof. intros H Z. symmetry. apply is_pseries_unique. now apply H. Qed.

Notation F := (PSeries gauss).
Notation F' := (PSeries (PS_derive gauss)).

Lemma gauss_derive z : -1 < z < 1 -> is_derive F z (F' z).
Proof. intros H. apply is_derive_PSeries, in_radius, H. Qed.

(** The equation of Gauss, of the first order because one of its parameters is one. *)
Lemma gauss_ode z : -1 < z < 1 -> z * (1 - z) * F' z + (3 / 2 - 3 * z) * F z = 3 / 2.
Proof.
  intros H. pose proof (in_radius z H) as I.
  assert (Ea : ex_pseries gauss z) by (apply CV_radius_inside, I).
  assert (Ed : ex_pseries (PS_derive gauss) z) by (apply CV_radius_inside; rewrite CV_radius_derive; exact I).
  assert (Es : ex_pseries (PS_decr_1 gauss) z).
  { destruct (Req_dec z 0) as [->|N]; [apply CV_radius_inside; rewrite CV_radius_decr_1; rewrite gauss_radius, Rabs_R0; cbn; lra|].
    apply CV_radius_inside. now rewrite CV_radius_decr_1. }
  assert (X : PSeries (PS_plus (PS_derive gauss) (PS_scal (3 / 2) (PS_decr_1 gauss))) z =
              PSeries (PS_plus (PS_incr_1 (PS_derive gauss)) (PS_scal 3 gauss)) z).
  { apply PSeries_ext. intros n. unfold PS_plus, PS_scal, PS_derive, PS_decr_1, PS_incr_1.
    pose proof (gauss_step n) as E. unfold plus, scal. cbn -[gauss INR]. unfold mult. cbn -[gauss INR]. rewrite S_INR.
    destruct n as [|n].
    - cbn [INR] in E |- *. unfold zero. cbn -[gauss]. lra.
    - lra. }
  rewrite !PSeries_plus in X; [|apply ex_pseries_incr_1; exact Ed|apply ex_pseries_scal; [apply Rmult_comm|exact Ea]
    |exact Ed|apply ex_pseries_scal; [apply Rmult_comm|exact Es]].
  rewrite !PSeries_scal, PSeries_incr_1 in X.
  pose proof (PSeries_decr_1 gauss z Ea) as Q. cbn [gauss] in Q.
  assert (Q' : z * PSeries (PS_decr_1 gauss) z = F z - 1) by lra.
  assert (X' : z * F' z + 3 / 2 * (z * PSeries (PS_decr_1 gauss) z) = z * (z * F' z + 3 * F z)).
  { transitivity (z * (F' z + 3 / 2 * PSeries (PS_decr_1 gauss) z)); [ring|]. rewrite X. reflexivity. }
  rewrite Q' in X'. lra.
Qed.

Lemma cosh2 t : cosh t * cosh t = 1 + sinh t * sinh t.
Proof. unfold sinh, cosh. assert (X : exp t * exp (- t) = 1) by (rewrite <- exp_plus, Rplus_opp_r; apply exp_0). nra. Qed.
Lemma cosh_ge t : 1 <= cosh t.
Proof.
  pose proof (cosh2 t) as E. assert (0 < cosh t) by (unfold cosh; pose proof (exp_pos t); pose proof (exp_pos (- t)); lra).
  pose proof (Rle_0_sqr (sinh t)) as S. unfold Rsqr in S. nra.
Qed.

(** Its values: on the sine of half an angle, *)
Lemma series_ellipse t : 0 <= t < PI -> sin t ^ 3 * F ((1 - cos t) / 2) = 3 / 2 * (t - sin t * cos t).
Proof.
  intros [[H0|<-] H1]; [|rewrite sin_0; ring].
  set (G := fun u => sin u ^ 3 * F ((1 - cos u) / 2) - 3 / 2 * (u - sin u * cos u)).
  assert (E : G 0 = G t).
  { apply (eq_is_derive G 0 t); [|exact H0]. intros u Hu.
    assert (Z : -1 < (1 - cos u) / 2 < 1).
    { pose proof (COS_bound u). assert (-1 < cos u); [|lra]. destruct (Req_dec u 0) as [->|N]; [rewrite cos_0; lra|].
      rewrite <- cos_PI. apply cos_decreasing_1; lra. }
    unfold G. auto_derive.
    - exists (F' ((1 - cos u) / 2)). now apply gauss_derive.
    - change (Derive (fun x => F x) ((1 + - cos u) * / 2)) with (Derive F ((1 - cos u) / 2)).
      change ((1 + - cos u) * / 2) with ((1 - cos u) / 2).
      rewrite (is_derive_unique _ _ _ (gauss_derive _ Z)).
      pose proof (gauss_ode _ Z) as O. pose proof (sin2_cos2 u) as S. unfold Rsqr in S.
      set (z := (1 - cos u) / 2) in *. assert (C : cos u = 1 - 2 * z) by (unfold z; field).
      assert (S2 : sin u * sin u = 4 * z * (1 - z)) by (rewrite C in S; lra).
      transitivity (2 * (sin u * sin u) * (3 / 2 * cos u * F z + sin u * sin u / 4 * F' z - 3 / 2)
                    + 3 / 2 * (sin u * sin u + cos u * cos u - 1)).
      + field.
      + rewrite S, S2, C. replace (3 / 2 * (1 - 2 * z) * F z + 4 * z * (1 - z) / 4 * F' z - 3 / 2)
          with (z * (1 - z) * F' z + (3 / 2 - 3 * z) * F z - 3 / 2) by field. rewrite O. unfold zero. cbn. ring. }
  unfold G in E. rewrite sin_0 in E. replace (0 ^ 3) with 0 in E by ring. lra.
Qed.

(** and on the hyperbolic sine. *)
Lemma series_hyperbola t : 0 <= t -> cosh t < 3 -> sinh t ^ 3 * F ((1 - cosh t) / 2) = 3 / 2 * (sinh t * cosh t - t).
Proof.
  intros [H0|<-] H1; [|rewrite sinh_0; ring].
  set (G := fun u => sinh u ^ 3 * F ((1 - cosh u) / 2) - 3 / 2 * (sinh u * cosh u - u)).
  assert (E : G 0 = G t).
  { apply (eq_is_derive G 0 t); [|exact H0]. intros u Hu.
    assert (Z : -1 < (1 - cosh u) / 2 < 1).
    { pose proof (cosh_ge u). assert (cosh u <= cosh t); [|lra].
      assert (S0 : forall a, 0 <= a -> 0 <= sinh a).
      { intros a [A|<-]; [|rewrite sinh_0; lra]. rewrite <- sinh_0. left. now apply sinh_lt. }
      assert (S1 : sinh u <= sinh t) by (destruct (proj2 Hu) as [L|<-]; [left; now apply sinh_lt|lra]).
      pose proof (S0 u ltac:(lra)). pose proof (cosh2 u). pose proof (cosh2 t). pose proof (cosh_ge t). nra. }
    unfold G. auto_derive.
    - exists (F' ((1 - cosh u) / 2)). now apply gauss_derive.
    - change (Derive (fun x => F x) ((1 + - cosh u) * / 2)) with (Derive F ((1 - cosh u) / 2)).
      change ((1 + - cosh u) * / 2) with ((1 - cosh u) / 2).
      rewrite (is_derive_unique _ _ _ (gauss_derive _ Z)).
      pose proof (gauss_ode _ Z) as O. pose proof (cosh2 u) as S.
      set (z := (1 - cosh u) / 2) in *. assert (C : cosh u = 1 - 2 * z) by (unfold z; field).
      assert (S2 : sinh u * sinh u = - 4 * z * (1 - z)) by (rewrite C in S; lra).
      transitivity (2 * (sinh u * sinh u) * (3 / 2 * cosh u * F z - sinh u * sinh u / 4 * F' z - 3 / 2)
                    - 3 / 2 * (cosh u * cosh u - (1 + sinh u * sinh u))).
      + field.
      + rewrite <- S, S2, C. replace (3 / 2 * (1 - 2 * z) * F z - -4 * z * (1 - z) / 4 * F' z - 3 / 2)
          with (z * (1 - z) * F' z + (3 / 2 - 3 * z) * F z - 3 / 2) by field. rewrite O. unfold zero. cbn. ring. }
  unfold G in E. rewrite sinh_0 in E. replace (0 ^ 3) with 0 in E by ring. lra.
Qed.

Lemma series_zero : F 0 = 1.
Proof. pose proof (gauss_ode 0 ltac:(lra)). lra. Qed.

(** ** The equation of the time of flight *)
Section Time.
Context (lam x : R).
Hypothesis Hl : Rabs lam < 1.
Hypothesis Hx : -1 < x.
Notation y := (compute_y x lam).
Notation eta := (y - lam * x).
Notation c := (x * y + lam * (1 - x ^ 2)).
Notation w := (sqrt (Rabs (1 - x ^ 2))).

Lemma y_sqr : y * y = 1 - lam ^ 2 * (1 - x ^ 2).
Proof.
  unfold compute_y. apply sqrt_sqrt. apply Rabs_def2 in Hl. pose proof (pow2_ge_0 x). nra.
Qed.
Lemma eta_pos : 0 < eta.
Proof.
  pose proof y_sqr as Y. assert (0 <= y) by apply sqrt_pos. apply Rabs_def2 in Hl.
  assert (lam ^ 2 < 1) by nra. nra.
Qed.
Lemma cos_sin : c * c + (1 - x ^ 2) * (eta * eta) = 1.
Proof. pose proof y_sqr as Y. set (v := y) in *. nra. Qed.
Lemma eta_sqr : eta * eta = 1 + lam ^ 2 - 2 * lam * c.
Proof. pose proof y_sqr as Y. set (v := y) in *. nra. Qed.
Lemma series_argument : (1 - lam - x * eta) / 2 = (1 - c) / 2.
Proof. field. Qed.
Lemma closed_part : - (eta * c) + 2 * lam * eta * (1 - x ^ 2) = (lam * y - x).
Proof. pose proof y_sqr as Y. set (v := y) in *. nra. Qed.
Lemma product : eta * (y + lam * x) = 1 - lam ^ 2.
Proof. pose proof y_sqr as Y. set (v := y) in *. nra. Qed.
Lemma product_c : eta * (lam * y + x) = c * (1 - lam ^ 2).
Proof. pose proof y_sqr as Y. set (v := y) in *. assert (X : v ^ 2 = 1 - lam ^ 2 * (1 - x ^ 2)) by (rewrite <- Y; ring). ring [X]. Qed.
Lemma product_d : eta * (lam * y - x) = 2 * lam - c * (1 + lam ^ 2).
Proof. pose proof y_sqr as Y. set (v := y) in *. assert (X : v ^ 2 = 1 - lam ^ 2 * (1 - x ^ 2)) by (rewrite <- Y; ring). ring [X]. Qed.

(** The part of the time of flight that depends on the kind of the conic. *)
Definition kernel (m : nat) : R :=
  if Rlt_dec x 1 then (acos c + INR m * PI - w * eta * c) / (w * (1 - x ^ 2))
  else if Rlt_dec 1 x then (w * eta * c - arcsinh (w * eta)) / (w * (x ^ 2 - 1))
  else 2 / 3 * eta ^ 3.

Lemma c_pos : 1 < x -> 0 < c.
Proof.
  intros X. pose proof eta_pos as E. assert (Y : 0 <= y) by apply sqrt_pos. set (v := y) in *.
  assert (X2 : 0 < x ^ 2 - 1) by nra. destruct (Rle_dec lam 0) as [L|L].
  - assert (0 < v). { destruct Y as [Y|Y]; [exact Y|]. exfalso. pose proof y_sqr as Z. fold v in Z. rewrite <- Y in Z. nra. }
    assert (0 < x * v) by nra. assert (0 <= lam * (1 - x ^ 2)) by nra. lra.
  - assert (lam * x * x < x * v) by nra. nra.
Qed.

Lemma w_sqr : w * w = Rabs (1 - x ^ 2).
Proof. apply sqrt_sqrt, Rabs_pos. Qed.

(** An ellipse: the sine of the angle whose cosine is [c]. *)
Lemma sine : x < 1 -> -1 < c < 1 /\ sin (acos c) = w * eta /\ 0 < w /\ w * w = 1 - x ^ 2.
Proof.
  intros X. pose proof eta_pos as E. pose proof cos_sin as S. pose proof w_sqr as W. pose proof (sqrt_pos (Rabs (1 - x ^ 2))) as P.
  assert (D : 0 < 1 - x ^ 2) by nra. rewrite (Rabs_right (1 - x ^ 2)) in * by lra. set (u := sqrt (1 - x ^ 2)) in *.
  assert (U : 0 < u) by nra. assert (B : -1 < c < 1). { assert (0 < (1 - x ^ 2) * (eta * eta)) by (apply Rmult_lt_0_compat; nra). nra. }
  split; [exact B|]. split; [|now split]. rewrite sin_acos by lra. apply sqrt_lem_1.
  - unfold Rsqr. assert (0 < (1 - x ^ 2) * (eta * eta)) by (apply Rmult_lt_0_compat; nra). lra.
  - apply Rmult_le_pos; lra.
  - unfold Rsqr. replace (u * eta * (u * eta)) with (u * u * (eta * eta)) by ring. rewrite W. lra.
Qed.
(** A hyperbola: the hyperbolic cosine of the argument of the hyperbolic sine. *)
Lemma hyperbolic_sine : 1 < x -> sinh (arcsinh (w * eta)) = w * eta /\ cosh (arcsinh (w * eta)) = c /\ 0 < w /\ w * w = x ^ 2 - 1 /\ 0 < arcsinh (w * eta).
Proof.
  intros X. pose proof eta_pos as E. pose proof cos_sin as S. pose proof w_sqr as W. pose proof (sqrt_pos (Rabs (1 - x ^ 2))) as P.
  assert (D : 1 - x ^ 2 < 0) by nra. rewrite (Rabs_left (1 - x ^ 2)) in * by lra. set (u := sqrt (- (1 - x ^ 2))) in *.
  assert (U : 0 < u) by nra. assert (Sh := sinh_arcsinh (u * eta)).
  split; [exact Sh|]. split; [|split; [exact U|split; [lra|]]].
  - pose proof (cosh2 (arcsinh (u * eta))) as C2. rewrite Sh in C2. pose proof (cosh_ge (arcsinh (u * eta))) as G. pose proof (c_pos X) as Cp.
    apply Rsqr_inj; [lra|lra|]. unfold Rsqr. rewrite C2. replace (u * eta * (u * eta)) with (u * u * (eta * eta)) by ring. rewrite W. lra.
  - rewrite <- arcsinh_0. apply arcsinh_lt. now apply Rmult_lt_0_compat.
Qed.

(** The two ways the program has to compute the time agree. *)
Lemma tof_kernel hyp2f1b m t0 : sums_series hyp2f1b -> (m <> O -> x < 1) ->
  tof_equation hyp2f1b x t0 lam m = kernel m + 2 * lam * eta - t0.
Proof.
  intros Hs Hm. unfold tof_equation, tof_equation_y. f_equal. pose proof eta_pos as E. pose proof closed_part as K.
  pose proof series_argument as A.
  destruct ((match m with O => true | _ => false end) && (if Rlt_dec (6 / 10) (x ^ 2) then true else false) &&
            (if Rlt_dec (x ^ 2) (14 / 10) then true else false))%bool eqn:B.
  - assert (M : m = O) by (destruct m; [reflexivity|discriminate]).
    assert (X2 : 6 / 10 < x ^ 2 < 14 / 10).
    { rewrite M in B. destruct (Rlt_dec (6 / 10) (x ^ 2)), (Rlt_dec (x ^ 2) (14 / 10)); try discriminate. now split. }
    cbv zeta. rewrite A. subst m. unfold kernel. cbn [INR]. destruct (Rlt_dec x 1) as [L|L].
    + destruct (sine L) as (C & Sn & W & W2).
      rewrite (sum_unique _ _ Hs) by lra.
      assert (T : 0 <= acos c < PI).
      { pose proof (acos_bound c) as T. split; [lra|]. destruct (proj2 T) as [Q|Q]; [exact Q|]. exfalso.
        assert (0 < w * eta) by now apply Rmult_lt_0_compat. rewrite <- Sn, Q, sin_PI in H. lra. }
      pose proof (series_ellipse _ T) as F0. rewrite Sn, cos_acos in F0 by lra.
      set (f := F ((1 - c) / 2)) in *. set (b := c) in *. set (e := eta) in *. set (k := w) in *. rewrite <- W2.
      transitivity (2 / 3 * (k ^ 3 * e ^ 3 * f) / (k * (k * k)) + 2 * lam * e); [field; lra|].
      replace (k ^ 3 * e ^ 3 * f) with ((k * e) ^ 3 * f) by ring. rewrite F0. field. lra.
    + destruct (Rlt_dec 1 x) as [G|G].
      * destruct (hyperbolic_sine G) as (Sh & Ch & W & W2 & P).
        assert (C3 : c < 3).
        { pose proof y_sqr as Y. assert (Y0 : 0 <= y) by apply sqrt_pos. set (v := y) in *.
          apply Rabs_def2 in Hl. assert (lam ^ 2 < 1) by nra. assert (v * v < 14 / 10) by nra. assert (v < 3 / 2) by nra. assert (x < 6 / 5) by nra.
          assert (x * v < 9 / 5) by nra. assert (lam * (1 - x ^ 2) < 1) by nra. lra. }
        pose proof (c_pos G) as Cp. pose proof (cosh_ge (arcsinh (w * eta))) as C1. rewrite Ch in C1.
        rewrite (sum_unique _ _ Hs) by lra.
        pose proof (series_hyperbola (arcsinh (w * eta)) ltac:(lra)) as F0. rewrite Ch, Sh in F0. specialize (F0 C3).
        set (f := F ((1 - c) / 2)) in *. set (b := c) in *. set (e := eta) in *. set (k := w) in *. rewrite <- W2.
        transitivity (2 / 3 * (k ^ 3 * e ^ 3 * f) / (k * (k * k)) + 2 * lam * e); [field; lra|].
        replace (k ^ 3 * e ^ 3 * f) with ((k * e) ^ 3 * f) by ring. rewrite F0. field. lra.
      * assert (X : x = 1) by lra.
        assert (Ec : c = 1).
        { rewrite X. unfold compute_y. replace (1 - lam ^ 2 * (1 - 1 ^ 2)) with 1 by ring. rewrite sqrt_1. ring. }
        rewrite Ec. replace ((1 - 1) / 2) with 0 by field. rewrite (sum_unique _ _ Hs) by lra. rewrite series_zero. field.
  - cbv zeta. unfold kernel, compute_psi. destruct (Rlt_dec x 1) as [L|L].
    + destruct (Rlt_dec 1 x) as [G|_]; [lra|]. destruct (sine L) as (C & Sn & W & W2).
      apply (Rmult_eq_reg_r (1 - x ^ 2)); [|nra].
      replace (((acos c + INR m * PI) / w - x + lam * y) / (1 - x ^ 2) * (1 - x ^ 2)) with ((acos c + INR m * PI) / w + (lam * y - x)) by (field; split; nra).
      rewrite <- K. set (e := eta) in *. set (k := w) in *. field. split; nra.
    + destruct (Rlt_dec 1 x) as [G|G].
      * assert (M : m = O) by (destruct m; [reflexivity|]; exfalso; apply L, Hm; discriminate). subst m. cbn [INR].
        destruct (hyperbolic_sine G) as (_ & _ & W & W2 & _).
        replace ((y - x * lam) * sqrt (x ^ 2 - 1)) with (w * eta).
        2:{ replace (Rabs (1 - x ^ 2)) with (x ^ 2 - 1) by (rewrite Rabs_left; nra). ring. }
        apply (Rmult_eq_reg_r (1 - x ^ 2)); [|nra].
        replace (((arcsinh (w * eta) + 0 * PI) / w - x + lam * y) / (1 - x ^ 2) * (1 - x ^ 2)) with (arcsinh (w * eta) / w + (lam * y - x)) by (field; split; nra).
        rewrite <- K. set (e := eta) in *. set (k := w) in *. field. split; nra.
      * exfalso. assert (X : x = 1) by lra. assert (M : m = O) by (destruct m; [reflexivity|]; exfalso; apply L, Hm; discriminate).
        subst m. rewrite X in B. destruct (Rlt_dec (6 / 10) (1 ^ 2)) as [|N]; [|apply N; lra]. destruct (Rlt_dec (1 ^ 2) (14 / 10)) as [|N]; [|apply N; lra]. discriminate.
Qed.
End Time.

(** ** The arc *)
Section Joined.
Context (p q : v3).
Hypothesis Hp : p <> vzero.
Hypothesis Hq : q <> vzero.
Hypothesis Hpq : cross (versor p) (versor q) <> vzero.
Context (d : R) (Hd : d = 1 \/ d = -1) (mu x : R) (Hmu : 0 < mu) (Hx : -1 < x).
Notation r1 := (norm p). Notation r2 := (norm q).
Notation u1 := (versor p). Notation u2 := (versor q).
Notation w := (cross (versor p) (versor q)).
Notation n := (versor w).
Notation s := (semi_parameter p q).
Notation lam := (d * sqrt (1 - chord_norm p q / semi_parameter p q)).
Notation rho := ((norm p - norm q) / chord_norm p q).
Notation sigma := (sqrt (1 - ((norm p - norm q) / chord_norm p q) ^ 2)).
Notation y := (compute_y x lam).
Notation eta := (y - lam * x).
Notation c := (x * y + lam * (1 - x ^ 2)).
Notation gamma := (sqrt (mu * s / 2)).
Notation a := (sqrt 2 * s * lam).
Notation Y := (s * (eta * eta)).

Lemma lam_nonzero : lam <> 0.
Proof.
  pose proof (sqrt_lt_R0 _ (lambda_pos p q Hp Hq Hpq)). destruct Hd as [-> | ->]; lra.
Qed.
Lemma lam_small : Rabs lam < 1.
Proof.
  pose proof (lam_sqr p q Hp Hq Hpq d Hd) as E. pose proof (chord_bounds p q Hp Hq Hpq) as (C & _). pose proof (s_pos p q Hp Hq Hpq) as S.
  assert (0 < chord_norm p q / s) by now apply Rdiv_lt_0_compat. apply Rabs_def1; nra.
Qed.
Notation Hl := lam_small.
Lemma Y_pos : 0 < Y.
Proof. pose proof (eta_pos _ x Hl) as E. pose proof (s_pos p q Hp Hq Hpq). apply Rmult_lt_0_compat; nra. Qed.
Lemma sqrt_Y : sqrt Y = sqrt s * eta.
Proof.
  pose proof (eta_pos _ x Hl) as E. pose proof (s_pos p q Hp Hq Hpq). rewrite sqrt_mult_alt by lra. f_equal. apply sqrt_square. lra.
Qed.
Lemma dot_pq : dot p q = r1 * r2 * dot u1 u2.
Proof.
  destruct (versor_unit p Hp) as [_ Ep]. destruct (versor_unit q Hq) as [_ Eq].
  transitivity (dot (vscale r1 u1) (vscale r2 u2)); [now rewrite <- Ep, <- Eq|]. unfold dot, vscale; cbn; ring.
Qed.
Lemma Ha : a * a = r1 * r2 + dot p q.
Proof.
  pose proof (norm_pos p Hp). pose proof (norm_pos q Hq). rewrite dot_pq, (C_lam p q Hp Hq Hpq d Hd).
  replace (a * a) with (sqrt 2 * sqrt 2 * s ^ 2 * lam ^ 2) by ring. rewrite sqrt_sqrt by lra. field. split; lra.
Qed.
Lemma Ha0 : a <> 0.
Proof.
  pose proof lam_nonzero as L. pose proof (s_pos p q Hp Hq Hpq). assert (0 < sqrt 2) by (apply sqrt_lt_R0; lra).
  apply Rmult_integral_contrapositive_currified; [apply Rmult_integral_contrapositive_currified; lra|exact L].
Qed.
Lemma g_gamma : a * sqrt (Y / mu) = s ^ 2 * lam * eta / gamma.
Proof.
  pose proof (s_pos p q Hp Hq Hpq) as S. pose proof Y_pos. pose proof (eta_pos _ x Hl) as E.
  rewrite (sqrt_div Y mu) by lra. rewrite sqrt_Y. rewrite (sqrt_div (mu * s) 2) by (try apply Rmult_le_pos; lra).
  rewrite sqrt_mult_alt by lra. assert (Qs : sqrt s * sqrt s = s) by (apply sqrt_sqrt; lra).
  pose proof (sqrt_lt_R0 s S). pose proof (sqrt_lt_R0 mu Hmu). pose proof (sqrt_lt_R0 2 ltac:(lra)).
  transitivity (sqrt 2 * s * (sqrt s * sqrt s) * lam * eta / (sqrt mu * sqrt s)); [field; lra|]. rewrite Qs. field. lra.
Qed.
Lemma gamma_pos : 0 < gamma.
Proof. pose proof (s_pos p q Hp Hq Hpq). apply sqrt_lt_R0. nra. Qed.
Lemma r_sum : r1 + r2 - Y = 2 * s * lam * c.
Proof.
  pose proof (r1_lam p q Hp Hq Hpq d Hd) as E1. pose proof (r2_lam p q Hp Hq Hpq d Hd) as E2.
  assert (E : r1 + r2 = s * (1 + lam ^ 2)) by lra. rewrite E, (eta_sqr _ x Hl). ring.
Qed.
Notation vr1 := (gamma * ((lam * y - x) - rho * (lam * y + x)) / r1).
Notation vr2 := (- gamma * ((lam * y - x) + rho * (lam * y + x)) / r2).
Notation vt1 := (gamma * sigma * (y + lam * x) / r1).
Notation vt2 := (gamma * sigma * (y + lam * x) / r2).

Lemma radial1 : (r2 * dot u1 u2 - r1 + Y) = vr1 * (s ^ 2 * lam * eta / gamma).
Proof.
  pose proof (norm_pos p Hp) as A1. pose proof (norm_pos q Hq) as A2. pose proof gamma_pos.
  replace (vr1 * (s ^ 2 * lam * eta / gamma)) with (s ^ 2 * lam * (eta * (lam * y - x) - rho * (eta * (lam * y + x))) / r1) by (field; repeat split; try lra; pose proof (chord_bounds p q Hp Hq Hpq); lra).
  rewrite (product_c _ x Hl), (product_d _ x Hl), (C_lam p q Hp Hq Hpq d Hd).
  apply (Rmult_eq_reg_r r1); [|lra].
  replace ((r2 * (2 * s ^ 2 * lam ^ 2 / (r1 * r2) - 1) - r1 + Y) * r1) with (2 * s ^ 2 * lam ^ 2 - r1 * (r1 + r2 - Y)) by (field; lra).
  rewrite r_sum. rewrite <- (r1_lam p q Hp Hq Hpq d Hd) at 1. field. repeat split; try lra; pose proof (chord_bounds p q Hp Hq Hpq); lra.
Qed.
Lemma radial2 : (r2 - Y - r1 * dot u1 u2) = vr2 * (s ^ 2 * lam * eta / gamma).
Proof.
  pose proof (norm_pos p Hp) as A1. pose proof (norm_pos q Hq) as A2. pose proof gamma_pos.
  replace (vr2 * (s ^ 2 * lam * eta / gamma)) with (- (s ^ 2 * lam * (eta * (lam * y - x) + rho * (eta * (lam * y + x)))) / r2) by (field; repeat split; try lra; pose proof (chord_bounds p q Hp Hq Hpq); lra).
  rewrite (product_c _ x Hl), (product_d _ x Hl), (C_lam p q Hp Hq Hpq d Hd).
  apply (Rmult_eq_reg_r r2); [|lra].
  replace ((r2 - Y - r1 * (2 * s ^ 2 * lam ^ 2 / (r1 * r2) - 1)) * r2) with (r2 * (r1 + r2 - Y) - 2 * s ^ 2 * lam ^ 2) by (field; lra).
  rewrite r_sum. rewrite <- (r2_lam p q Hp Hq Hpq d Hd) at 1. field. repeat split; try lra; pose proof (chord_bounds p q Hp Hq Hpq); lra.
Qed.
Lemma tangential1 : r2 * norm w = d * vt1 * (s ^ 2 * lam * eta / gamma).
Proof.
  pose proof (norm_pos p Hp) as A1. pose proof (norm_pos q Hq) as A2. pose proof gamma_pos.
  assert (D : d * d = 1) by (destruct Hd as [-> | ->]; ring).
  transitivity (d * (r2 * (d * norm w))); [transitivity (d * d * (r2 * norm w)); [rewrite D|]; ring|].
  rewrite (S_lam p q Hp Hq Hpq d Hd), <- (product _ x Hl). field. lra.
Qed.
Lemma tangential2 : r1 * norm w = d * vt2 * (s ^ 2 * lam * eta / gamma).
Proof.
  pose proof (norm_pos p Hp) as A1. pose proof (norm_pos q Hq) as A2. pose proof gamma_pos.
  assert (D : d * d = 1) by (destruct Hd as [-> | ->]; ring).
  transitivity (d * (r1 * (d * norm w))); [transitivity (d * d * (r1 * norm w)); [rewrite D|]; ring|].
  rewrite (S_lam p q Hp Hq Hpq d Hd), <- (product _ x Hl). field. lra.
Qed.
Lemma g_pos : s ^ 2 * lam * eta / gamma <> 0.
Proof.
  pose proof gamma_pos as A. pose proof lam_nonzero as L. pose proof (eta_pos _ x Hl) as E. pose proof (s_pos p q Hp Hq Hpq) as S.
  unfold Rdiv. apply Rmult_integral_contrapositive_currified; [|apply Rinv_neq_0_compat; lra].
  apply Rmult_integral_contrapositive_currified; [|lra]. apply Rmult_integral_contrapositive_currified; [|exact L].
  apply pow_nonzero. lra.
Qed.

Lemma first_velocity : v_init p q a mu Y = vadd (vscale vr1 u1) (vscale vt1 (vscale d (cross n u1))).
Proof.
  unfold v_init. rewrite g_gamma. pose proof g_pos as G. pose proof (norm_pos p Hp) as A1.
  destruct (versor_unit p Hp) as [_ Ep]. destruct (versor_unit q Hq) as [_ Eq].
  pose proof radial1 as R. pose proof tangential1 as T.
  set (g := s ^ 2 * lam * eta / gamma) in *. pose proof (second p q Hp Hpq) as U2.
  assert (P : vsub q (vscale (1 - Y / r1) p) = vadd (vscale (r2 * dot u1 u2 - r1 + Y) u1) (vscale (r2 * norm w) (cross n u1))).
  { transitivity (vsub (vscale r2 (vadd (vscale (dot u1 u2) u1) (vscale (norm w) (cross n u1)))) (vscale (1 - Y / r1) (vscale r1 u1))).
    - rewrite <- U2, <- Ep, <- Eq. reflexivity.
    - generalize (cross n u1). intros t. apply v3_eq; unfold vadd, vsub, vscale; cbn [vx vy vz]; field; lra. }
  rewrite P, R, T. generalize vr1 vt1 (cross n u1). intros. apply v3_eq; unfold vadd, vscale; cbn [vx vy vz]; field; exact G.
Qed.
Lemma second_velocity : v_final p q a mu Y = vadd (vscale vr2 u2) (vscale vt2 (vscale d (cross n u2))).
Proof.
  unfold v_final. rewrite g_gamma. pose proof g_pos as G. pose proof (norm_pos q Hq) as A2.
  destruct (versor_unit p Hp) as [_ Ep]. destruct (versor_unit q Hq) as [_ Eq].
  pose proof radial2 as R. pose proof tangential2 as T.
  set (g := s ^ 2 * lam * eta / gamma) in *.
  assert (U1 : u1 = vsub (vscale (dot u1 u2) u2) (vscale (norm w) (cross n u2))).
  { pose proof (Lambert_Izzo.w_sqr p q Hp Hq) as W. rewrite (second_t p q Hp Hpq).
    transitivity (vsub (vscale (dot u1 u2) (vadd (vscale (dot u1 u2) u1) (vscale (norm w) (cross n u1)))) (vscale (norm w) (vsub (vscale (dot u1 u2) (cross n u1)) (vscale (norm w) u1)))).
    - clear R T. revert W. generalize (cross n u1) as t. generalize (norm w) as W0. generalize (dot u1 u2) as C. generalize u1 as u. intros u C W0 t E.
      assert (X : C * C + W0 * W0 = 1) by lra. transitivity (vscale (C * C + W0 * W0) u); [rewrite X|];
        apply v3_eq; unfold vadd, vsub, vscale; cbn [vx vy vz]; ring.
    - rewrite <- (second p q Hp Hpq). reflexivity. }
  assert (P : vsub (vscale (1 - Y / r2) q) p = vadd (vscale (r2 - Y - r1 * dot u1 u2) u2) (vscale (r1 * norm w) (cross n u2))).
  { transitivity (vsub (vscale (1 - Y / r2) (vscale r2 u2)) (vscale r1 (vsub (vscale (dot u1 u2) u2) (vscale (norm w) (cross n u2))))).
    - rewrite <- U1, <- Ep, <- Eq. reflexivity.
    - generalize (cross n u2). intros t. apply v3_eq; unfold vadd, vsub, vscale; cbn [vx vy vz]; field; lra. }
  rewrite P, R, T. generalize vr2 vt2 (cross n u2). intros. apply v3_eq; unfold vadd, vscale; cbn [vx vy vz]; field; exact G.
Qed.

Lemma aligned : cross p q <> vzero.
Proof.
  intros E. apply Hpq. rewrite cross_versor, E. unfold vzero. apply v3_eq; cbn; ring.
Qed.

(** The universal functions, from where they must go to. *)
Lemma arc_of (alpha chi k : R) (U1 U2 U3 : R -> R) : 0 < chi ->
  (forall z, is_derive U1 z (1 - alpha * U2 z)) -> (forall z, is_derive U2 z (U1 z)) -> (forall z, is_derive U3 z (U2 z)) ->
  U1 0 = 0 -> U2 0 = 0 -> U3 0 = 0 -> (forall z, U1 z * U1 z = 2 * U2 z - alpha * (U2 z * U2 z)) ->
  U2 chi = Y -> U1 chi = sqrt 2 * sqrt s * eta * c -> U3 chi = sqrt s ^ 3 / sqrt 2 * k ->
  kepler_arc mu p (vadd (vscale vr1 u1) (vscale vt1 (vscale d (cross n u1)))) q (vadd (vscale vr2 u2) (vscale vt2 (vscale d (cross n u2))))
    (sqrt (s ^ 3 / (2 * mu)) * (k + 2 * lam * eta)).
Proof.
  intros Hc D1 D2 D3 Z1 Z2 Z3 Hid E2 E1 E3. pose proof (s_pos p q Hp Hq Hpq) as S. pose proof (eta_pos _ x Hl) as E.
  pose proof (sqrt_lt_R0 s S) as Qs. pose proof (sqrt_lt_R0 mu Hmu) as Qm. pose proof (sqrt_lt_R0 2 ltac:(lra)) as Q2.
  assert (Qs2 : sqrt s * sqrt s = s) by (apply sqrt_sqrt; lra). assert (Q22 : sqrt 2 * sqrt 2 = 2) by (apply sqrt_sqrt; lra).
  rewrite <- first_velocity, <- second_velocity.
  assert (B : Y = r1 + r2 - a * U1 chi / sqrt Y).
  { rewrite sqrt_Y, E1. replace (a * (sqrt 2 * sqrt s * eta * c) / (sqrt s * eta)) with (sqrt 2 * sqrt 2 * s * lam * c) by (field; lra).
    rewrite Q22, <- r_sum. ring. }
  pose proof (connected p q a mu Y Hmu (norm_pos p Hp) (norm_pos q Hq) Ha Y_pos Ha0 alpha chi U1 U2 U3 aligned Hc D1 D2 D3 Z1 Z2 Z3 Hid E2 B) as A.
  replace (sqrt (s ^ 3 / (2 * mu)) * (k + 2 * lam * eta)) with ((U3 chi + a * sqrt Y) / sqrt mu); [exact A|].
  rewrite E3, sqrt_Y, sqrt_div_alt by lra. rewrite (sqrt_mult_alt 2 mu) by lra.
  replace (sqrt (s ^ 3)) with (sqrt s ^ 3).
  2:{ replace (s ^ 3) with (s * s * s) by ring. rewrite sqrt_mult_alt by nra. rewrite sqrt_square by lra.
      transitivity (sqrt s * sqrt s * sqrt s); [ring|]. now rewrite Qs2. }
  transitivity (sqrt s ^ 3 / (sqrt 2 * sqrt mu) * k + sqrt 2 * sqrt 2 * s * sqrt s * lam * eta / (sqrt 2 * sqrt mu)); [field; lra|].
  rewrite Q22. rewrite <- Qs2 at 2. field. lra.
Qed.

Lemma izzo_arc m : (m <> O -> x < 1) ->
  kepler_arc mu p (vadd (vscale vr1 u1) (vscale vt1 (vscale d (cross n u1)))) q (vadd (vscale vr2 u2) (vscale vt2 (vscale d (cross n u2))))
    (sqrt (s ^ 3 / (2 * mu)) * (kernel lam x m + 2 * lam * eta)).
Proof.
  intros Hm. pose proof (s_pos p q Hp Hq Hpq) as S. pose proof (eta_pos _ x Hl) as E.
  pose proof (sqrt_lt_R0 s S) as Qs. pose proof (sqrt_lt_R0 2 ltac:(lra)) as Q2.
  assert (Qs2 : sqrt s * sqrt s = s) by (apply sqrt_sqrt; lra). assert (Q22 : sqrt 2 * sqrt 2 = 2) by (apply sqrt_sqrt; lra).
  unfold kernel. destruct (Rlt_dec x 1) as [L|L]; [|destruct (Rlt_dec 1 x) as [G|G]].
  - destruct (sine _ _ Hl Hx L) as (C & Sn & W & W2).
    set (u := sqrt (Rabs (1 - x ^ 2))) in *. set (k := sqrt 2 * u / sqrt s).
    assert (Hk : 0 < k) by (apply Rdiv_lt_0_compat; [now apply Rmult_lt_0_compat|lra]).
    set (A := acos c) in *. assert (T : 0 < A).
    { pose proof (acos_bound c) as T. fold A in T. destruct (proj1 T) as [X|X]; [exact X|]. exfalso.
      assert (0 < u * eta) by now apply Rmult_lt_0_compat. rewrite <- Sn, <- X, sin_0 in H. lra. }
    pose proof (pos_INR m) as M. pose proof PI_RGT_0 as Pi.
    set (chi := (2 * A + 2 * INR m * PI) / k).
    assert (Hchi : 0 < chi) by (apply Rdiv_lt_0_compat; [|exact Hk]; assert (0 <= INR m * PI) by (apply Rmult_le_pos; lra); lra).
    assert (Kc : k * chi = 2 * A + 2 * INR m * PI) by (unfold chi; field; lra).
    assert (Sc : sin (k * chi) = 2 * (u * eta) * c) by (rewrite Kc, sin_period, sin_2a, Sn; unfold A; rewrite cos_acos by lra; ring).
    assert (Cc : cos (k * chi) = 1 - 2 * (u * eta) * (u * eta)) by (rewrite Kc, cos_period, cos_2a_sin, Sn; ring).
    apply (arc_of (k * k) chi _ (fun z => sin (k * z) / k) (fun z => (1 - cos (k * z)) / (k * k)) (fun z => (k * z - sin (k * z)) / (k * k * k))).
    + exact Hchi.
    + intros z. auto_derive; [trivial|]. field. lra.
    + intros z. auto_derive; [trivial|]. field. lra.
    + intros z. auto_derive; [trivial|]. field. lra.
    + rewrite Rmult_0_r, sin_0. field. lra.
    + rewrite Rmult_0_r, cos_0. field. lra.
    + rewrite Rmult_0_r, sin_0. field. lra.
    + intros z. pose proof (sin2_cos2 (k * z)) as P. unfold Rsqr in P.
      replace (sin (k * z) / k * (sin (k * z) / k)) with ((1 - cos (k * z) * cos (k * z)) / (k * k)); [field; lra|].
      rewrite <- P. field. lra.
    + rewrite Cc. replace (k * k) with (2 * (u * u) / s).
      2:{ unfold k. rewrite <- Q22 at 1. rewrite <- Qs2 at 1. field. lra. }
      set (e := eta) in *. field. split; lra.
    + rewrite Sc. unfold k. set (e := eta) in *. set (b := c) in *.
      transitivity (2 * sqrt s * e * b / sqrt 2); [field; lra|]. rewrite <- Q22 at 1. field. lra.
    + rewrite Sc, Kc. set (e := eta) in *. set (b := c) in *. rewrite <- W2. unfold k.
      transitivity (2 * (sqrt s ^ 3 * (A + INR m * PI - u * e * b)) / (sqrt 2 * sqrt 2 * sqrt 2 * u ^ 3)); [field; lra|].
      rewrite Q22. field. lra.
  - destruct (hyperbolic_sine _ _ Hl Hx G) as (Sh & Ch & W & W2 & T).
    assert (M : m = O) by (destruct m; [reflexivity|]; exfalso; apply L, Hm; discriminate). clear Hm. subst m.
    set (u := sqrt (Rabs (1 - x ^ 2))) in *. set (k := sqrt 2 * u / sqrt s).
    assert (Hk : 0 < k) by (apply Rdiv_lt_0_compat; [now apply Rmult_lt_0_compat|lra]).
    set (A := arcsinh (u * eta)) in *. set (chi := (2 * A) / k).
    assert (Hchi : 0 < chi) by (apply Rdiv_lt_0_compat; lra).
    assert (Kc : k * chi = 2 * A) by (unfold chi; field; lra).
    assert (X2 : forall t, exp t * exp (- t) = 1) by (intros t; rewrite <- exp_plus, Rplus_opp_r; apply exp_0).
    assert (D2 : forall t, exp (2 * t) = exp t * exp t) by (intros t; replace (2 * t) with (t + t) by ring; apply exp_plus).
    assert (Sc : sinh (k * chi) = 2 * (u * eta) * c).
    { rewrite Kc, <- Sh, <- Ch. unfold sinh, cosh. replace (- (2 * A)) with (2 * - A) by ring. rewrite !D2. field. }
    assert (Cc : cosh (k * chi) = 1 + 2 * (u * eta) * (u * eta)).
    { rewrite Kc, <- Sh. unfold sinh, cosh. replace (- (2 * A)) with (2 * - A) by ring. rewrite !D2. pose proof (X2 A). nra. }
    apply (arc_of (- (k * k)) chi _ (fun z => sinh (k * z) / k) (fun z => (cosh (k * z) - 1) / (k * k)) (fun z => (sinh (k * z) - k * z) / (k * k * k))).
    + exact Hchi.
    + intros z. unfold sinh, cosh. auto_derive; [trivial|]. field. lra.
    + intros z. unfold sinh, cosh. auto_derive; [trivial|]. field. lra.
    + intros z. unfold sinh, cosh. auto_derive; [trivial|]. field. lra.
    + rewrite Rmult_0_r, sinh_0. field. lra.
    + rewrite Rmult_0_r, cosh_0. field. lra.
    + rewrite Rmult_0_r, sinh_0. field. lra.
    + intros z. pose proof (cosh2 (k * z)) as P.
      replace (sinh (k * z) / k * (sinh (k * z) / k)) with ((cosh (k * z) * cosh (k * z) - 1) / (k * k)); [field; lra|].
      rewrite P. field. lra.
    + rewrite Cc. replace (k * k) with (2 * (u * u) / s).
      2:{ unfold k. rewrite <- Q22 at 1. rewrite <- Qs2 at 1. field. lra. }
      set (e := eta) in *. field. split; lra.
    + rewrite Sc. unfold k. set (e := eta) in *. set (b := c) in *.
      transitivity (2 * sqrt s * e * b / sqrt 2); [field; lra|]. rewrite <- Q22 at 1. field. lra.
    + rewrite Sc, Kc. set (e := eta) in *. set (b := c) in *. rewrite <- W2. unfold k.
      transitivity (2 * (sqrt s ^ 3 * (u * e * b - A)) / (sqrt 2 * sqrt 2 * sqrt 2 * u ^ 3)); [field; lra|].
      rewrite Q22. field. lra.
  - assert (X : x = 1) by lra.
    assert (Ec : c = 1).
    { rewrite X. unfold compute_y. replace (1 - lam ^ 2 * (1 - 1 ^ 2)) with 1 by ring. rewrite sqrt_1. ring. }
    set (chi := sqrt 2 * sqrt s * eta).
    assert (Hchi : 0 < chi) by (repeat apply Rmult_lt_0_compat; lra).
    apply (arc_of 0 chi _ (fun z => z) (fun z => z ^ 2 / 2) (fun z => z ^ 3 / 6)).
    + exact Hchi.
    + intros z. auto_derive; [trivial|]. ring.
    + intros z. auto_derive; [trivial|]. field.
    + intros z. auto_derive; [trivial|]. field.
    + reflexivity.
    + field.
    + field.
    + intros z. field.
    + unfold chi. transitivity ((sqrt 2 * sqrt 2) * (sqrt s * sqrt s) * (eta * eta) / 2); [field|]. rewrite Q22, Qs2. field.
    + rewrite Ec. unfold chi. ring.
    + unfold chi. set (e := eta). transitivity (sqrt s ^ 3 / sqrt 2 * (sqrt 2 * sqrt 2 * (sqrt 2 * sqrt 2) / 6 * e ^ 3)); [field; lra|].
      rewrite Q22. field. lra.
Qed.
End Joined.
