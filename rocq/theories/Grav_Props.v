(** The acceleration of a gravity field is the gradient of its potential. *)
From Coq Require Import Reals List Lra Lia Psatz Arith.
From Coquelicot Require Import Coquelicot.
From Verif Require Import Base Vec3 Sc_Model Dyn_Model Dual Orb_Model Orb_Spec Orb_Props
  Grav_Legendre Grav_Model Grav_Spec Grav_Table Grav_Sum.
Import ListNotations.
Local Open Scope R_scope.

Lemma line_0 p w : line p w 0 = p.
Proof. apply v3_eq; unfold line, vadd, vscale; cbn [vx vy vz]; ring. Qed.

Lemma derives_line p w : derives (line p w) 0 w.
Proof.
  unfold derives, line, vadd, vscale. cbn [vx vy vz].
  refine (conj _ (conj _ _)); auto_derive; trivial; ring.
Qed.

Lemma is_derive_rsum {A} (f : A -> R -> R) (g : A -> R) l :
  (forall x, In x l -> is_derive (f x) 0 (g x)) ->
  is_derive (fun h => rsum (map (fun x => f x h) l)) 0 (rsum (map g l)).
Proof.
  induction l as [|x l IH]; intros H; cbn [map rsum]; [apply (is_derive_const 0)|].
  apply (is_derive_plus (f x) (fun h => rsum (map (fun x => f x h) l))).
  - apply H. now left.
  - apply IH. intros y Hy. apply H. now right.
Qed.

(** The powers of a moving s + i t. *)
Lemma derive_cpow s t s' t' : is_derive s 0 s' -> is_derive t 0 t' -> forall m,
  is_derive (fun h => fst (cpow (s h) (t h) m)) 0
    (INR m * (fst (cpow (s 0) (t 0) (m - 1)) * s' - snd (cpow (s 0) (t 0) (m - 1)) * t')) /\
  is_derive (fun h => snd (cpow (s h) (t h) m)) 0
    (INR m * (snd (cpow (s 0) (t 0) (m - 1)) * s' + fst (cpow (s 0) (t 0) (m - 1)) * t')).
Proof.
  intros Hs Ht. induction m as [|m [IH1 IH2]].
  - cbn [cpow fst snd INR]. split; (evar_last; [apply is_derive_const|]); cbn; ring.
  - assert (E1 : forall h, s h * fst (cpow (s h) (t h) m) - t h * snd (cpow (s h) (t h) m)
                           = fst (cpow (s h) (t h) (S m))).
    { intros h. cbn [cpow]. destruct (cpow (s h) (t h) m). reflexivity. }
    assert (E2 : forall h, s h * snd (cpow (s h) (t h) m) + t h * fst (cpow (s h) (t h) m)
                           = snd (cpow (s h) (t h) (S m))).
    { intros h. cbn [cpow]. destruct (cpow (s h) (t h) m). reflexivity. }
    replace (S m - 1)%nat with m by lia. rewrite S_INR.
    assert (R1 : INR m * (s 0 * fst (cpow (s 0) (t 0) (m - 1)) - t 0 * snd (cpow (s 0) (t 0) (m - 1)))
                 = INR m * fst (cpow (s 0) (t 0) m)).
    { destruct m as [|k]; [cbn [INR]; ring|]. replace (S k - 1)%nat with k by lia. f_equal.
      cbn [cpow]. destruct (cpow (s 0) (t 0) k). reflexivity. }
    assert (R2 : INR m * (s 0 * snd (cpow (s 0) (t 0) (m - 1)) + t 0 * fst (cpow (s 0) (t 0) (m - 1)))
                 = INR m * snd (cpow (s 0) (t 0) m)).
    { destruct m as [|k]; [cbn [INR]; ring|]. replace (S k - 1)%nat with k by lia. f_equal.
      cbn [cpow]. destruct (cpow (s 0) (t 0) k). reflexivity. }
    split.
    + apply (is_derive_ext _ _ _ _ E1). evar_last.
      * apply (is_derive_minus (fun h => s h * fst (cpow (s h) (t h) m)) (fun h => t h * snd (cpow (s h) (t h) m))).
        -- apply (is_derive_mult s (fun h => fst (cpow (s h) (t h) m))); [exact Hs|exact IH1|intros; apply Rmult_comm].
        -- apply (is_derive_mult t (fun h => snd (cpow (s h) (t h) m))); [exact Ht|exact IH2|intros; apply Rmult_comm].
      * cbv beta. unfold minus, plus, opp, mult; cbn.
        set (A := fst (cpow (s 0) (t 0) m)) in *. set (B := snd (cpow (s 0) (t 0) m)) in *.
        set (A1 := fst (cpow (s 0) (t 0) (m - 1))) in *. set (B1 := snd (cpow (s 0) (t 0) (m - 1))) in *.
        match goal with |- @eq _ ?x ?y => change (@eq R x y) end.
        transitivity (s' * A - t' * B + (INR m * (s 0 * A1 - t 0 * B1)) * s' - (INR m * (s 0 * B1 + t 0 * A1)) * t');
          [ring|]. rewrite R1, R2. ring.
    + apply (is_derive_ext _ _ _ _ E2). evar_last.
      * apply (is_derive_plus (fun h => s h * snd (cpow (s h) (t h) m)) (fun h => t h * fst (cpow (s h) (t h) m))).
        -- apply (is_derive_mult s (fun h => snd (cpow (s h) (t h) m))); [exact Hs|exact IH2|intros; apply Rmult_comm].
        -- apply (is_derive_mult t (fun h => fst (cpow (s h) (t h) m))); [exact Ht|exact IH1|intros; apply Rmult_comm].
      * cbv beta. unfold minus, plus, opp, mult; cbn.
        set (A := fst (cpow (s 0) (t 0) m)) in *. set (B := snd (cpow (s 0) (t 0) m)) in *.
        set (A1 := fst (cpow (s 0) (t 0) (m - 1))) in *. set (B1 := snd (cpow (s 0) (t 0) (m - 1))) in *.
        match goal with |- @eq _ ?x ?y => change (@eq R x y) end.
        transitivity (s' * B + t' * A + (INR m * (s 0 * B1 + t 0 * A1)) * s' + (INR m * (s 0 * A1 - t 0 * B1)) * t');
          [ring|]. rewrite R1, R2. ring.
Qed.

(** The radial part. *)
Lemma derive_radial r r' mu er n : r 0 <> 0 -> is_derive r 0 r' ->
  is_derive (fun h => mu / r h * (er / r h) ^ n) 0
    (- (INR n + 1) * (mu / r 0 * (er / r 0) ^ n) * (r' / r 0)).
Proof.
  intros N H.
  assert (I : forall c : R, is_derive (fun h => c / r h) 0 (- (c / r 0) * (r' / r 0))).
  { intros c. evar_last.
    - apply (is_derive_ext (fun h => c * / r h)); [reflexivity|]. apply is_derive_scal.
      apply is_derive_inv; [exact H|exact N].
    - unfold scal; cbn; unfold mult; cbn. field. exact N. }
  induction n as [|n IH].
  - apply (is_derive_ext (fun h => mu / r h)); [intros h; cbn [pow]; match goal with |- @eq _ ?x ?y => change (@eq R x y) end; ring|].
    evar_last; [apply I|]. cbn [pow INR]. match goal with |- @eq _ ?x ?y => change (@eq R x y) end. ring.
  - apply (is_derive_ext (fun h => (mu / r h * (er / r h) ^ n) * (er / r h)));
      [intros h; cbn [pow]; match goal with |- @eq _ ?x ?y => change (@eq R x y) end; ring|].
    evar_last.
    + apply (is_derive_mult (fun h => mu / r h * (er / r h) ^ n) (fun h => er / r h));
        [exact IH|apply I|intros; apply Rmult_comm].
    + unfold plus, mult; cbn [pow]. rewrite S_INR. cbn.
      match goal with |- @eq _ ?x ?y => change (@eq R x y) end. ring.
Qed.

Lemma derive_harmonic C S er mu n m p w : p <> vzero ->
  let r := norm p in let s := vx p / r in let t := vy p / r in let u := vz p / r in
  let e := (s * vx w + t * vy w + u * vz w) in
  is_derive (fun h => harmonic C S er mu n m (line p w h)) 0
    (mu / r * (er / r) ^ n / r * norm_factor n m *
     (vx w * (INR m * dlegendre n m u * (C * fst (cpow s t (m - 1)) + S * snd (cpow s t (m - 1))))
      + vy w * (INR m * dlegendre n m u * (S * fst (cpow s t (m - 1)) - C * snd (cpow s t (m - 1))))
      + vz w * (dlegendre n (Datatypes.S m) u * (C * fst (cpow s t m) + S * snd (cpow s t m)))
      - e * (dlegendre (Datatypes.S n) (Datatypes.S m) u * (C * fst (cpow s t m) + S * snd (cpow s t m))))).
Proof.
  intros Hp r s t u e.
  assert (Hr : 0 < r) by now apply norm_pos.
  pose proof (derives_line p w) as D. destruct D as (Dx & Dy & Dz).
  assert (Dn : is_derive (fun h => norm (line p w h)) 0 e).
  { evar_last; [apply (derive_norm (line p w) 0 w); [now rewrite line_0|apply derives_line]|].
    rewrite line_0. fold r. unfold e, s, t, u, dot. match goal with |- @eq _ ?x ?y => change (@eq R x y) end. field. lra. }
  assert (Q : forall (f : R -> R) f', is_derive f 0 f' ->
    is_derive (fun h => f h / norm (line p w h)) 0 ((f' - f 0 / r * e) / r)).
  { intros f f' Hf. evar_last; [apply is_derive_div; [exact Hf|exact Dn|rewrite line_0; fold r; lra]|].
    cbv beta. rewrite line_0. fold r. match goal with |- @eq _ ?x ?y => change (@eq R x y) end. field. lra. }
  pose proof (Q _ _ Dx) as Ds. pose proof (Q _ _ Dy) as Dt. pose proof (Q _ _ Dz) as Du. clear Q.
  cbv beta in Ds, Dt, Du. rewrite line_0 in Ds, Dt, Du. fold s in Ds. fold t in Dt. fold u in Du.
  pose proof (derive_radial _ _ mu er n (Rgt_not_eq _ _ (eq_rect_r (fun q => norm q > 0) Hr (line_0 p w))) Dn) as Drad.
  cbv beta in Drad. rewrite line_0 in Drad. fold r in Drad.
  destruct (derive_cpow _ _ _ _ Ds Dt m) as [Dc1 Dc2]. cbv beta in Dc1, Dc2. rewrite line_0 in Dc1, Dc2.
  fold r s t in Dc1, Dc2.
  assert (Dl : is_derive (fun h => dlegendre n m (vz (line p w h) / norm (line p w h))) 0
                 (dlegendre n (Datatypes.S m) u * ((vz w - u * e) / r))).
  { evar_last.
    - apply (is_derive_comp (dlegendre n m) (fun h => vz (line p w h) / norm (line p w h))).
      + rewrite line_0. fold r u. apply dlegendre_derive.
      + exact Du.
    - unfold scal; cbn; unfold mult; cbn. match goal with |- @eq _ ?x ?y => change (@eq R x y) end. ring. }
  apply (is_derive_ext (fun h => norm_factor n m * ((mu / norm (line p w h) * (er / norm (line p w h)) ^ n)
     * (dlegendre n m (vz (line p w h) / norm (line p w h))
        * (C * fst (cpow (vx (line p w h) / norm (line p w h)) (vy (line p w h) / norm (line p w h)) m)
         + S * snd (cpow (vx (line p w h) / norm (line p w h)) (vy (line p w h) / norm (line p w h)) m)))))).
  { intros h. unfold harmonic. clear Dc1 Dc2. destruct (cpow _ _ _) as [a b]. cbn [fst snd].
    match goal with |- @eq _ ?x ?y => change (@eq R x y) end. ring. }
  evar_last.
  - apply is_derive_scal.
    apply (is_derive_mult (fun h => mu / norm (line p w h) * (er / norm (line p w h)) ^ n)
      (fun h => dlegendre n m (vz (line p w h) / norm (line p w h))
        * (C * fst (cpow (vx (line p w h) / norm (line p w h)) (vy (line p w h) / norm (line p w h)) m)
         + S * snd (cpow (vx (line p w h) / norm (line p w h)) (vy (line p w h) / norm (line p w h)) m))));
      [exact Drad| |intros; apply Rmult_comm].
    apply (is_derive_mult (fun h => dlegendre n m (vz (line p w h) / norm (line p w h)))
      (fun h => C * fst (cpow (vx (line p w h) / norm (line p w h)) (vy (line p w h) / norm (line p w h)) m)
         + S * snd (cpow (vx (line p w h) / norm (line p w h)) (vy (line p w h) / norm (line p w h)) m)));
      [exact Dl| |intros; apply Rmult_comm].
    apply (is_derive_plus
      (fun h => C * fst (cpow (vx (line p w h) / norm (line p w h)) (vy (line p w h) / norm (line p w h)) m))
      (fun h => S * snd (cpow (vx (line p w h) / norm (line p w h)) (vy (line p w h) / norm (line p w h)) m)));
      apply is_derive_scal; [exact Dc1|exact Dc2].
  - cbv beta. rewrite line_0. fold r s t u. rewrite (up_relation n m u).
    assert (RA : INR m * fst (cpow s t m) = INR m * (s * fst (cpow s t (m - 1)) - t * snd (cpow s t (m - 1)))).
    { destruct m as [|k]; [cbn [INR]; ring|]. replace (Datatypes.S k - 1)%nat with k by lia.
      f_equal. cbn [cpow]. destruct (cpow s t k). reflexivity. }
    assert (RB : INR m * snd (cpow s t m) = INR m * (s * snd (cpow s t (m - 1)) + t * fst (cpow s t (m - 1)))).
    { destruct m as [|k]; [cbn [INR]; ring|]. replace (Datatypes.S k - 1)%nat with k by lia.
      f_equal. cbn [cpow]. destruct (cpow s t k). reflexivity. }
    clear Dc1 Dc2 Dl Drad Du Ds Dt Dn Dx Dy Dz.
    revert RA RB. generalize (fst (cpow s t m)) (snd (cpow s t m)) (fst (cpow s t (m - 1))) (snd (cpow s t (m - 1))).
    intros A B A1 B1 RA RB.
    generalize (norm_factor n m) (dlegendre n m u) (dlegendre n (Datatypes.S m) u) (mu / r * (er / r) ^ n).
    intros K G G1 rho. unfold scal, plus, mult; cbn.
    match goal with |- @eq _ ?x ?y => change (@eq R x y) end.
    transitivity (rho / r * K *
     (vx w * (INR m * G * (C * A1 + S * B1)) + vy w * (INR m * G * (S * A1 - C * B1)) + vz w * (G1 * (C * A + S * B))
      - e * (u * G1 * (C * A + S * B) + (INR n + 1) * G * (C * A + S * B)
             + G * (C * (INR m * (s * A1 - t * B1)) + S * (INR m * (s * B1 + t * A1)))))).
    + field. lra.
    + rewrite <- RA, <- RB. field. lra.
Qed.

Lemma rsum_scal k l : rsum (map (fun x => k * x) l) = k * rsum l.
Proof. induction l as [|x l IH]; cbn [map rsum]; [ring|]. rewrite IH. ring. Qed.

Lemma rsum_ext {A} (f g : A -> R) l : (forall x, In x l -> f x = g x) -> rsum (map f l) = rsum (map g l).
Proof.
  induction l as [|x l IH]; intros H; cbn [map rsum]; [reflexivity|].
  rewrite IH, H; [reflexivity|now left|]. intros y Hy. apply H. now right.
Qed.

Lemma rsum_lin {A} (f1 f2 f3 f4 : A -> R) k1 k2 k3 k4 l :
  rsum (map (fun x => k1 * f1 x + k2 * f2 x + k3 * f3 x - k4 * f4 x) l)
  = k1 * rsum (map f1 l) + k2 * rsum (map f2 l) + k3 * rsum (map f3 l) - k4 * rsum (map f4 l).
Proof. induction l as [|x l IH]; cbn [map rsum]; [ring|]. rewrite IH. ring. Qed.

(** For every degree, order and coefficients: the acceleration is computed without reading
    out of bounds, and its component along any direction is the derivative of the potential
    in this direction. *)
Theorem C74_gradient_of_potential : forall d eq_radius mu p,
  (degree d < size d)%nat -> eq_radius <> 0 -> p <> vzero ->
  exists a, local_accel d eq_radius mu p = Ok a /\
    forall w, is_derive (fun h => potential d eq_radius mu (line p w h)) 0 (dot a w).
Proof.
  intros d er mu p Hs He Hp.
  pose proof (local_accel_spec d er mu p Hs) as L. cbv zeta in L.
  set (r := norm p) in *. set (s := vx p / r) in *. set (t := vy p / r) in *. set (u := vz p / r) in *.
  eexists. split; [exact L|]. intros w.
  assert (Hr : 0 < r) by now apply norm_pos.
  unfold potential. evar_last.
  - apply (is_derive_rsum (fun n h => rsum (map (fun m => harmonic (c_nm d n m) (s_nm d n m) er mu n m (line p w h)) (orders d n)))).
    intros n _.
    apply (is_derive_rsum (fun m h => harmonic (c_nm d n m) (s_nm d n m) er mu n m (line p w h))).
    intros m _. exact (derive_harmonic _ _ _ _ _ _ p w Hp).
  - cbv beta zeta. fold r s t u. set (e := s * vx w + t * vy w + u * vz w).
    match goal with |- @eq _ ?x ?y => change (@eq R x y) end.
    transitivity (rsum (map (fun n =>
       vx w * (mu / r * (er / r) ^ S n / er * rsum (map (x1 d s t u n) (orders d n)))
       + vy w * (mu / r * (er / r) ^ S n / er * rsum (map (x2 d s t u n) (orders d n)))
       + vz w * (mu / r * (er / r) ^ S n / er * rsum (map (x3 d s t u n) (orders d n)))
       - e * (mu / r * (er / r) ^ S n / er * rsum (map (x4 d s t u n) (orders d n)))) (seq 1 (degree d)))).
    + apply rsum_ext. intros n _.
      transitivity (rsum (map (fun m => (mu / r * (er / r) ^ S n / er * vx w) * x1 d s t u n m
         + (mu / r * (er / r) ^ S n / er * vy w) * x2 d s t u n m
         + (mu / r * (er / r) ^ S n / er * vz w) * x3 d s t u n m
         - (mu / r * (er / r) ^ S n / er * e) * x4 d s t u n m) (orders d n))).
      * apply rsum_ext. intros m _. unfold x1, x2, x3, x4, term_D, term_E, term_F. cbn [pow]. field. split; lra.
      * rewrite rsum_lin. ring.
    + rewrite rsum_lin. unfold dot. cbn [vx vy vz]. unfold e. ring.
Qed.

(** In the frame of the orbit too, whatever the rotation and the place of the center. *)
Theorem C74_acceleration : forall to_field eq_radius mu rotate d o p dcm,
  (degree d < size d)%nat -> eq_radius <> 0 -> p <> vzero ->
  changes_frame to_field o p dcm -> rotate (frame o) (epoch o) = Ok dcm ->
  exists a, grav_eom to_field (Ok eq_radius) (Ok mu) rotate d o = Ok a /\
    forall j, (j < 3)%nat -> exists q, (forall h, to_field (moved j h o) = Ok (q h)) /\
      is_derive (fun h => potential d eq_radius mu (q h)) 0 (comp a j).
Proof.
  intros to_field er mu rotate d o p dcm Hs He Hp [T1 T2] Hd.
  destruct (C74_gradient_of_potential d er mu p Hs He Hp) as (a & La & Da).
  exists (mat_vec dcm a). split.
  - unfold grav_eom. rewrite T1. cbn [bind]. rewrite La. cbn [bind]. rewrite Hd. reflexivity.
  - intros j Hj. exists (line p (V3 (dcm j 0%nat) (dcm j 1%nat) (dcm j 2%nat))).
    split; [intros h; now apply T2|]. evar_last; [apply Da|].
    destruct j as [|[|[|j]]]; [| | |lia]; unfold dot, mat_vec; cbn [vx vy vz comp];
      match goal with |- @eq _ ?x ?y => change (@eq R x y) end; ring.
Qed.

(** The potential in spherical coordinates. *)
Lemma norm_spherical r lat lon : 0 < r -> norm (spherical r lat lon) = r.
Proof.
  intros H. unfold norm, spherical, dot; cbn [vx vy vz].
  pose proof (sin2_cos2 lat) as A. pose proof (sin2_cos2 lon) as B. unfold Rsqr in A, B.
  replace (_ + _) with (r * r); [apply sqrt_square; lra|].
  transitivity (r * r * (sin lat * sin lat + cos lat * cos lat * (sin lon * sin lon + cos lon * cos lon)));
    [rewrite B, Rmult_1_r, A; ring|ring].
Qed.

Lemma cpow_polar c lon m : cpow (c * cos lon) (c * sin lon) m = (c ^ m * cos (INR m * lon), c ^ m * sin (INR m * lon)).
Proof.
  induction m as [|m IH].
  - cbn [cpow pow INR]. rewrite Rmult_0_l, cos_0, sin_0. f_equal; ring.
  - cbn [cpow]. rewrite IH, S_INR. replace ((INR m + 1) * lon) with (INR m * lon + lon) by ring.
    rewrite cos_plus, sin_plus. cbn [pow]. f_equal; ring.
Qed.

Theorem C74_spherical : forall d eq_radius mu r lat lon, 0 < r ->
  potential d eq_radius mu (spherical r lat lon) =
  rsum (map (fun n => rsum (map (fun m =>
     mu / r * (eq_radius / r) ^ n * norm_factor n m * (cos lat ^ m * dlegendre n m (sin lat))
     * (c_nm d n m * cos (INR m * lon) + s_nm d n m * sin (INR m * lon)))
     (seq 0 (S (Nat.min n (order d)))))) (seq 1 (degree d))).
Proof.
  intros d er mu r lat lon Hr. unfold potential. apply rsum_ext. intros n _. apply rsum_ext. intros m _.
  unfold harmonic. rewrite norm_spherical by exact Hr. unfold spherical; cbn [vx vy vz].
  replace (r * cos lat * cos lon / r) with (cos lat * cos lon) by (field; lra).
  replace (r * cos lat * sin lon / r) with (cos lat * sin lon) by (field; lra).
  replace (r * sin lat / r) with (sin lat) by (field; lra).
  rewrite cpow_polar. ring.
Qed.
