(** C95: the derivatives that the search of Izzo uses. *)
From Coq Require Import Reals Lra Lia ZArith.
From Coquelicot Require Import Coquelicot.
From Verif Require Import Base Vec3 Angles Sc_Model Lambert_Model Lambert_Arc Lambert_Proofs Lambert_Props Lambert_Izzo Lambert_Time.
Local Open Scope R_scope.

(** ** The derivatives of the search *)
Section Derivatives.
Context (hyp2f1b : R -> R) (Hs : sums_series hyp2f1b) (lam : R) (Hl : Rabs lam < 1) (m : nat).
Notation T := (fun x : R => tof_equation hyp2f1b x 0 lam m).
Notation Yf := (fun x : R => compute_y x lam).
Notation c x := (x * compute_y x lam + lam * (1 - x ^ 2)).

Lemma y_pos (x : R) : 0 < compute_y x lam.
Proof.
  pose proof (y_sqr lam x Hl) as Y. assert (P : 0 <= compute_y x lam) by apply sqrt_pos. apply Rabs_def2 in Hl.
  assert (L : lam ^ 2 < 1) by nra. pose proof (pow2_ge_0 x). pose proof (pow2_ge_0 lam). destruct P as [P|P]; [exact P|]. rewrite <- P in Y. nra.
Qed.
Lemma y_derive (x : R) : is_derive Yf x (lam ^ 2 * x / compute_y x lam).
Proof.
  pose proof (y_pos x) as P. pose proof (y_sqr lam x Hl) as Y. unfold compute_y in *.
  auto_derive.
  - assert (0 < sqrt (1 - lam ^ 2 * (1 - x ^ 2)) * sqrt (1 - lam ^ 2 * (1 - x ^ 2))) by now apply Rmult_lt_0_compat.
    rewrite Y in H. replace (1 + - (lam * (lam * 1) * (1 + - (x * (x * 1))))) with (1 - lam ^ 2 * (1 - x ^ 2)) by ring. exact H.
  - replace (1 + - (lam * (lam * 1) * (1 + - (x * (x * 1))))) with (1 - lam ^ 2 * (1 - x ^ 2)) by ring. field. lra.
Qed.
Lemma c_derive (x : R) : is_derive (fun x : R => c x) x ((compute_y x lam - lam * x) ^ 2 / compute_y x lam).
Proof.
  pose proof (y_pos x) as P. pose proof (y_sqr lam x Hl) as Y. pose proof (y_derive x) as D.
  auto_derive.
  - eexists. exact D.
  - change (Derive (fun x0 : R => compute_y x0 lam) x) with (Derive Yf x). rewrite (is_derive_unique _ _ _ D). set (v := compute_y x lam) in *. field. lra.
Qed.

(** The angle, of an ellipse *)
Lemma acos_derive (x : R) : -1 < x < 1 -> is_derive (fun x : R => acos (c x)) x (- (compute_y x lam - lam * x) / (compute_y x lam * sqrt (1 - x ^ 2))).
Proof.
  intros X. destruct (sine _ _ Hl (proj1 X) (proj2 X)) as (C & Sn & W & W2).
  pose proof (y_pos x) as P. pose proof (eta_pos _ x Hl) as E.
  rewrite (Rabs_right (1 - x ^ 2)) in * by nra.
  assert (D : is_derive acos (c x) (- / (sqrt (1 - x ^ 2) * (compute_y x lam - lam * x)))).
  { apply is_derive_Reals. replace (- / (sqrt (1 - x ^ 2) * (compute_y x lam - lam * x))) with (-1 / sqrt (1 - (c x)²)).
    - rewrite <- (derive_pt_acos _ C). unfold derive_pt. exact (proj2_sig (derivable_pt_acos _ C)).
    - rewrite <- sin_acos by lra. rewrite Sn. field. split; lra. }
  pose proof (is_derive_comp acos (fun x : R => c x) x _ _ D (c_derive x)) as G.
  unfold scal in G. cbn -[acos compute_y pow] in G. unfold mult in G. cbn -[acos compute_y pow] in G.
  replace (- (compute_y x lam - lam * x) / (compute_y x lam * sqrt (1 - x ^ 2)))
    with ((compute_y x lam - lam * x) ^ 2 / compute_y x lam * - / (sqrt (1 - x ^ 2) * (compute_y x lam - lam * x))) by (field; repeat split; lra).
  exact G.
Qed.
(** and of a hyperbola. *)
Lemma arcsinh_derive (x : R) : 1 < x -> is_derive (fun x : R => arcsinh (sqrt (x ^ 2 - 1) * (compute_y x lam - lam * x))) x
  ((compute_y x lam - lam * x) / (compute_y x lam * sqrt (x ^ 2 - 1))).
Proof.
  intros X. destruct (hyperbolic_sine _ x Hl ltac:(lra) X) as (Sh & Ch & W & W2 & _).
  pose proof (y_pos x) as P. pose proof (eta_pos _ x Hl) as E. pose proof (c_pos _ x Hl ltac:(lra) X) as Cp. pose proof (cos_sin _ x Hl) as S.
  replace (Rabs (1 - x ^ 2)) with (x ^ 2 - 1) in * by (rewrite Rabs_left; nra).
  assert (D : is_derive arcsinh (sqrt (x ^ 2 - 1) * (compute_y x lam - lam * x)) (/ c x)).
  { apply is_derive_Reals. replace (/ c x) with (/ sqrt ((sqrt (x ^ 2 - 1) * (compute_y x lam - lam * x)) ^ 2 + 1)); [apply derivable_pt_lim_arcsinh|].
    f_equal. apply sqrt_lem_1; [pose proof (pow2_ge_0 (sqrt (x ^ 2 - 1) * (compute_y x lam - lam * x))); lra|lra|].
    replace ((sqrt (x ^ 2 - 1) * (compute_y x lam - lam * x)) ^ 2)
      with (sqrt (x ^ 2 - 1) * sqrt (x ^ 2 - 1) * ((compute_y x lam - lam * x) * (compute_y x lam - lam * x))) by ring. rewrite W2. lra. }
  assert (D1 : is_derive (fun x : R => sqrt (x ^ 2 - 1) * (compute_y x lam - lam * x)) x
     (c x * (compute_y x lam - lam * x) / (compute_y x lam * sqrt (x ^ 2 - 1)))).
  { pose proof (y_derive x) as Dy. pose proof (y_sqr lam x Hl) as Y. auto_derive.
    - split; [nra|]. split; [|trivial]. eexists. exact Dy.
    - change (Derive (fun x0 : R => compute_y x0 lam) x) with (Derive Yf x). rewrite (is_derive_unique _ _ _ Dy).
      replace (x * (x * 1) + - (1)) with (x ^ 2 - 1) by ring. set (u := sqrt (x ^ 2 - 1)) in *. set (v := compute_y x lam) in *.
      assert (V2 : v ^ 2 = 1 - lam ^ 2 * (1 - x ^ 2)) by (rewrite <- Y; ring).
      assert (U2 : u ^ 2 = x ^ 2 - 1) by (rewrite <- W2; ring).
      field_simplify_eq; [|split; lra]. ring [V2 U2]. }
  pose proof (is_derive_comp arcsinh _ x _ _ D D1) as G.
  unfold scal in G. cbn -[arcsinh compute_y pow] in G. unfold mult in G. cbn -[arcsinh compute_y pow] in G.
  replace ((compute_y x lam - lam * x) / (compute_y x lam * sqrt (x ^ 2 - 1)))
    with (c x * (compute_y x lam - lam * x) / (compute_y x lam * sqrt (x ^ 2 - 1)) * / c x) by (field; repeat split; lra).
  exact G.
Qed.

Lemma tof_ellipse (x : R) : -1 < x < 1 ->
  T x = ((acos (c x) + INR m * PI) / sqrt (1 - x ^ 2) - x + lam * compute_y x lam) / (1 - x ^ 2).
Proof.
  intros X. cbv beta. rewrite (tof_kernel lam x Hl (proj1 X) hyp2f1b m 0 Hs (fun _ => proj2 X)).
  destruct (sine _ _ Hl (proj1 X) (proj2 X)) as (C & Sn & W & W2).
  unfold kernel. destruct (Rlt_dec x 1) as [_|N]; [|lra].
  pose proof (closed_part _ x Hl ltac:(lra)) as K. rewrite (Rabs_right (1 - x ^ 2)) in * by nra.
  apply (Rmult_eq_reg_r (1 - x ^ 2)); [|nra].
  replace (((acos (c x) + INR m * PI) / sqrt (1 - x ^ 2) - x + lam * compute_y x lam) / (1 - x ^ 2) * (1 - x ^ 2))
    with ((acos (c x) + INR m * PI) / sqrt (1 - x ^ 2) + (lam * compute_y x lam - x)) by (field; split; nra).
  rewrite <- K. set (e := compute_y x lam - lam * x) in *. set (k := sqrt (1 - x ^ 2)) in *. field. split; nra.
Qed.
Lemma tof_hyperbola (x : R) : m = O -> 1 < x ->
  T x = (arcsinh (sqrt (x ^ 2 - 1) * (compute_y x lam - lam * x)) / sqrt (x ^ 2 - 1) - x + lam * compute_y x lam) / (1 - x ^ 2).
Proof.
  intros -> X. cbv beta. rewrite (tof_kernel lam x Hl ltac:(lra) hyp2f1b 0 0 Hs) by (intros N; now elim N).
  destruct (hyperbolic_sine _ x Hl ltac:(lra) X) as (_ & _ & W & W2 & _).
  unfold kernel. destruct (Rlt_dec x 1) as [N|_]; [lra|]. destruct (Rlt_dec 1 x) as [_|N]; [|lra].
  pose proof (closed_part _ x Hl ltac:(lra)) as K. replace (Rabs (1 - x ^ 2)) with (x ^ 2 - 1) in * by (rewrite Rabs_left; nra).
  apply (Rmult_eq_reg_r (1 - x ^ 2)); [|nra].
  set (A := arcsinh (sqrt (x ^ 2 - 1) * (compute_y x lam - lam * x))).
  replace ((A / sqrt (x ^ 2 - 1) - x + lam * compute_y x lam) / (1 - x ^ 2) * (1 - x ^ 2))
    with (A / sqrt (x ^ 2 - 1) + (lam * compute_y x lam - x)) by (field; split; nra).
  rewrite <- K. set (e := compute_y x lam - lam * x) in *. set (k := sqrt (x ^ 2 - 1)) in *. field. split; nra.
Qed.

(** Where the conic is not a parabola, and of a kind that the number of revolutions allows. *)
Definition on_conic (x : R) : Prop := -1 < x < 1 \/ (m = O /\ 1 < x).
Notation T1 := (fun x : R => tof_equation_p x (compute_y x lam) (T x) lam).
Notation T2 := (fun x : R => tof_equation_p2 x (compute_y x lam) (T x) (T1 x) lam).
Notation T3 := (fun x : R => tof_equation_p3 x (compute_y x lam) (T1 x) (T2 x) lam).

Lemma on_conic_den (x : R) : on_conic x -> 1 - x ^ 2 <> 0.
Proof. intros [X|[_ X]]; nra. Qed.

Lemma derivative_1 (x : R) : on_conic x -> is_derive T x (T1 x).
Proof.
  intros X. pose proof (y_pos x) as P. pose proof (y_derive x) as Dy. pose proof (y_sqr lam x Hl) as Y. pose proof (on_conic_den x X) as N.
  assert (V2 : (compute_y x lam) ^ 2 = 1 - lam ^ 2 * (1 - x ^ 2)) by (rewrite <- Y; ring).
  destruct X as [X|[M X]].
  - apply (is_derive_ext_loc (fun x : R => ((acos (c x) + INR m * PI) / sqrt (1 - x ^ 2) - x + lam * compute_y x lam) / (1 - x ^ 2))).
    { assert (O : open (fun t => -1 < t < 1)) by (apply open_and; [apply open_gt|apply open_lt]).
      apply (filter_imp (fun t => -1 < t < 1)); [|exact (O x X)]. intros t Ht. symmetry. now apply tof_ellipse. }
    rewrite (tof_ellipse x X). pose proof (acos_derive x X) as Da. set (A := fun x => acos (c x)) in *.
    change (fun x : R => ((acos (c x) + INR m * PI) / sqrt (1 - x ^ 2) - x + lam * compute_y x lam) / (1 - x ^ 2))
      with (fun x : R => ((A x + INR m * PI) / sqrt (1 - x ^ 2) - x + lam * Yf x) / (1 - x ^ 2)).
    change (acos (c x)) with (A x). destruct (sine _ _ Hl (proj1 X) (proj2 X)) as (_ & _ & W & W2).
    rewrite (Rabs_right (1 - x ^ 2)) in * by nra. clearbody A.
    auto_derive.
    + replace (1 + - (x * (x * 1))) with (1 - x ^ 2) by ring. repeat split; try (eexists; eassumption); try lra; nra.
    + change (Derive (fun x0 : R => A x0) x) with (Derive A x).
      change (Derive (fun x0 : R => compute_y x0 lam) x) with (Derive Yf x). rewrite (is_derive_unique _ _ _ Dy), (is_derive_unique _ _ _ Da).
      replace (1 + - (x * (x * 1))) with (1 - x ^ 2) by ring. unfold tof_equation_p.
      set (u := sqrt (1 - x ^ 2)) in *. set (v := compute_y x lam) in *. rewrite <- W2 in *.
      assert (X2 : x ^ 2 = 1 - u * u) by lra.
      assert (V3 : v ^ 2 = 1 - lam ^ 2 * (u * u)) by (rewrite V2; ring).
      field_simplify_eq; [|repeat split; lra]. ring [X2 V3].
  - apply (is_derive_ext_loc (fun x : R => (arcsinh (sqrt (x ^ 2 - 1) * (compute_y x lam - lam * x)) / sqrt (x ^ 2 - 1) - x + lam * compute_y x lam) / (1 - x ^ 2))).
    { apply (filter_imp (fun t => 1 < t)); [|exact (open_gt 1 x X)]. intros t Ht. symmetry. now apply tof_hyperbola. }
    rewrite (tof_hyperbola x M X). pose proof (arcsinh_derive x X) as Da. set (A := fun x => arcsinh (sqrt (x ^ 2 - 1) * (compute_y x lam - lam * x))) in *.
    change (fun x : R => (arcsinh (sqrt (x ^ 2 - 1) * (compute_y x lam - lam * x)) / sqrt (x ^ 2 - 1) - x + lam * compute_y x lam) / (1 - x ^ 2))
      with (fun x : R => (A x / sqrt (x ^ 2 - 1) - x + lam * Yf x) / (1 - x ^ 2)).
    change (arcsinh (sqrt (x ^ 2 - 1) * (compute_y x lam - lam * x))) with (A x).
    destruct (hyperbolic_sine _ x Hl ltac:(lra) X) as (_ & _ & W & W2 & _).
    replace (Rabs (1 - x ^ 2)) with (x ^ 2 - 1) in * by (rewrite Rabs_left; nra). clearbody A.
    auto_derive.
    + replace (x * (x * 1) + - (1)) with (x ^ 2 - 1) by ring. replace (1 + - (x * (x * 1))) with (1 - x ^ 2) by ring.
      repeat split; try (eexists; eassumption); try lra; nra.
    + change (Derive (fun x0 : R => A x0) x) with (Derive A x).
      change (Derive (fun x0 : R => compute_y x0 lam) x) with (Derive Yf x). rewrite (is_derive_unique _ _ _ Dy), (is_derive_unique _ _ _ Da).
      replace (x * (x * 1) + - (1)) with (x ^ 2 - 1) by ring. replace (1 + - (x * (x * 1))) with (1 - x ^ 2) by ring. unfold tof_equation_p.
      set (u := sqrt (x ^ 2 - 1)) in *. set (v := compute_y x lam) in *. replace (1 - x ^ 2) with (- (u * u)) in * by lra.
      assert (X2 : x ^ 2 = 1 + u * u) by lra.
      assert (V3 : v ^ 2 = 1 + lam ^ 2 * (u * u)) by (rewrite V2; ring).
      field_simplify_eq; [|repeat split; nra]. ring [X2 V3].
Qed.

Lemma derivative_2 (x : R) : on_conic x -> is_derive T1 x (T2 x).
Proof.
  intros X. pose proof (y_pos x) as P. pose proof (y_derive x) as Dy. pose proof (y_sqr lam x Hl) as Y. pose proof (on_conic_den x X) as N.
  pose proof (derivative_1 x X) as D. cbv beta. set (t := T) in *. set (v := Yf) in *. set (t1 := T1 x) in *.
  change (is_derive (fun x : R => (3 * t x * x - 2 + 2 * lam ^ 3 * x / v x) / (1 - x ^ 2)) x
    ((3 * t x + 5 * x * t1 + 2 * (1 - lam ^ 2) * lam ^ 3 / v x ^ 3) / (1 - x ^ 2))).
  change (compute_y x lam) with (v x) in *.
  assert (E1 : t1 = (3 * t x * x - 2 + 2 * lam ^ 3 * x / v x) / (1 - x ^ 2)) by reflexivity.
  assert (V2 : v x ^ 2 = 1 - lam ^ 2 * (1 - x ^ 2)) by (rewrite <- Y; ring).
  assert (D' : is_derive t x t1) by exact D. clear D.
  clearbody t t1. clearbody v.
  auto_derive.
  - repeat split; try (eexists; eassumption); lra.
  - change (Derive (fun x0 : R => t x0) x) with (Derive t x). change (Derive (fun x0 : R => v x0) x) with (Derive v x).
    rewrite (is_derive_unique _ _ _ Dy), (is_derive_unique _ _ _ D'). rewrite E1.
    replace (1 + - (x * (x * 1))) with (1 - x ^ 2) by ring. set (y := v x) in *. set (tt := t x) in *.
    assert (V4 : y ^ 4 = (1 - lam ^ 2 * (1 - x ^ 2)) * (1 - lam ^ 2 * (1 - x ^ 2))) by (rewrite <- V2; ring).
    field_simplify_eq; [|repeat split; lra]. ring [V2 V4].
Qed.
Lemma derivative_3 (x : R) : on_conic x -> is_derive T2 x (T3 x).
Proof.
  intros X. pose proof (y_pos x) as P. pose proof (y_derive x) as Dy. pose proof (y_sqr lam x Hl) as Y. pose proof (on_conic_den x X) as N.
  pose proof (derivative_1 x X) as D. pose proof (derivative_2 x X) as D2. cbv beta. set (t := T) in *. set (v := Yf) in *. set (t1 := T1) in *. set (t2 := T2 x) in *.
  change (is_derive (fun x : R => (3 * t x + 5 * x * t1 x + 2 * (1 - lam ^ 2) * lam ^ 3 / v x ^ 3) / (1 - x ^ 2)) x
    ((7 * x * t2 + 8 * t1 x - 6 * (1 - lam ^ 2) * lam ^ 5 * x / v x ^ 5) / (1 - x ^ 2))).
  change (compute_y x lam) with (v x) in *.
  assert (E2 : t2 = (3 * t x + 5 * x * t1 x + 2 * (1 - lam ^ 2) * lam ^ 3 / v x ^ 3) / (1 - x ^ 2)) by reflexivity.
  assert (D' : is_derive t x (t1 x)) by exact D. assert (D2' : is_derive t1 x t2) by exact D2.
  clear D D2. clearbody t2. clearbody t1. clearbody t v.
  auto_derive.
  - repeat split; try (eexists; eassumption); try lra; try (replace (1 + - (x * (x * 1))) with (1 - x ^ 2) by ring; exact N).
    repeat apply Rmult_integral_contrapositive_currified; lra.
  - change (Derive (fun x0 : R => t x0) x) with (Derive t x). change (Derive (fun x0 : R => t1 x0) x) with (Derive t1 x).
    change (Derive (fun x0 : R => v x0) x) with (Derive v x).
    rewrite (is_derive_unique _ _ _ Dy), (is_derive_unique _ _ _ D'), (is_derive_unique _ _ _ D2'). rewrite E2.
    replace (1 + - (x * (x * 1))) with (1 - x ^ 2) by ring. set (y := v x) in *.
    field. split; lra.
Qed.
End Derivatives.

(** ** Theorems *)

(** The revolutions asked for. *)
Definition revolutions (kind : transfer_kind) : nat := match kind with NRevs n => n | _ => O end.
(** The time of flight in the unit of the search. *)
Definition unit_time (mu s : R) : R := sqrt (s ^ 3 / (2 * mu)).

(** C95: a solution takes the departure to the arrival in the time asked for, up to the value
    the equation of the search has at the [x] the search accepted: exactly then when this is a
    root.  Partial: when the normal of the plane has no negative z (there is no such time
    otherwise, C69_same_conic_refuted), for an [x] that is on a conic (floats are not a number
    otherwise). *)
Theorem C95_time_of_flight_partial : forall hyp2f1b mu_of i kind sol v1 v2, sums_series hyp2f1b -> posed mu_of i ->
  0 <= vz (cross (departure i) (arrival i)) ->
  izzo hyp2f1b mu_of i kind = Ok sol -> velocities sol = Some (v1, v2) ->
  let s := (norm (departure i) + norm (arrival i) + norm (vsub (arrival i) (departure i))) / 2 in
  let asked := flight i / unit_time (mu_at mu_of i) s in
  exists lam x, lam * lam = 1 - norm (vsub (arrival i) (departure i)) / s /\
    (kind = LongWay -> lam < 0) /\ (kind = ShortWay \/ (exists n, kind = NRevs n) -> 0 < lam) /\
    find_xy hyp2f1b lam asked (revolutions kind) MAX_ITERATIONS LAMBERT_EPSILON LAMBERT_EPSILON true = Ok (x, compute_y x lam) /\
    (-1 < x -> (revolutions kind <> O -> x < 1) ->
     kepler_arc (mu_at mu_of i) (departure i) v1 (arrival i) v2
       (flight i + unit_time (mu_at mu_of i) s * tof_equation hyp2f1b x asked lam (revolutions kind))).
Proof.
  intros hyp2f1b mu_of i kind sol v1 v2 Hs P Hz H V s asked.
  destruct (izzo_ok _ _ _ _ _ _ _ P H V) as (W & d & e & x & D & _ & E & Dn & Ds & Dl & Y & (La & Fx) & S).
  rewrite (E Hz) in S. destruct P as (Hm & Hp & Hq).
  cbv zeta in S, Y. cbn [reconstruct] in S. destruct S as [-> ->].
  replace (vscale 1 (versor (cross (versor (departure i)) (versor (arrival i)))))
    with (versor (cross (versor (departure i)) (versor (arrival i)))) by (apply v3_eq; cbn [vscale vx vy vz]; ring).
  change s with (semi_parameter (departure i) (arrival i)) in *.
  pose proof (s_pos _ _ Hp Hq W) as Sp. set (p := departure i) in *. set (q := arrival i) in *. set (sp := semi_parameter p q) in *.
  set (lam := d * sqrt (1 - chord_norm p q / sp)) in *.
  assert (S3 : 0 < sp ^ 3) by now apply pow_lt.
  assert (U : 0 < unit_time (mu_at mu_of i) sp) by (apply sqrt_lt_R0, Rdiv_lt_0_compat; lra).
  assert (A : sqrt (2 * mu_at mu_of i / sp ^ 3) = / unit_time (mu_at mu_of i) sp).
  { unfold unit_time. rewrite <- sqrt_inv. f_equal. field. split; lra. }
  assert (Q : sqrt (2 * mu_at mu_of i / sp ^ 3) * flight i = asked) by (rewrite A; unfold asked, Rdiv; ring).
  rewrite Q in Fx. exists lam, x. split; [|split; [|split; [|split]]].
  - change (norm (vsub q p)) with (chord_norm p q). pose proof (lam_sqr p q Hp Hq W d D) as L. fold sp lam in L. rewrite <- L. ring.
  - intros ->. pose proof (sqrt_lt_R0 _ (lambda_pos p q Hp Hq W)) as L. fold sp in L. unfold lam. rewrite (Dl eq_refl). lra.
  - intros O. pose proof (sqrt_lt_R0 _ (lambda_pos p q Hp Hq W)) as L. fold sp in L. unfold lam.
    assert (D1 : d = 1) by (destruct O as [O|[n O]]; [exact (Ds O)|exact (Dn n O)]). rewrite D1. lra.
  - exact Fx.
  - intros X Hr.
    pose proof (izzo_arc p q Hp Hq W d D (mu_at mu_of i) x Hm X (revolutions kind) Hr) as K.
    rewrite (tof_kernel lam x La X hyp2f1b (revolutions kind) asked Hs Hr).
    replace (flight i + unit_time (mu_at mu_of i) sp * (kernel lam x (revolutions kind) + 2 * lam * (compute_y x lam - lam * x) - asked))
      with (unit_time (mu_at mu_of i) sp * (kernel lam x (revolutions kind) + 2 * lam * (compute_y x lam - lam * x)))
      by (unfold asked; field; lra).
    exact K.
Qed.

(** C95: the search steps with the derivatives of its equation, to the third. *)
Theorem C95_derivatives : forall hyp2f1b lam m t0 x, sums_series hyp2f1b -> Rabs lam < 1 ->
  -1 < x < 1 \/ (m = O /\ 1 < x) ->
  let t := fun z => tof_equation hyp2f1b z t0 lam m + t0 in
  let t1 := fun z => tof_equation_p z (compute_y z lam) (t z) lam in
  let t2 := fun z => tof_equation_p2 z (compute_y z lam) (t z) (t1 z) lam in
  is_derive (fun z => tof_equation hyp2f1b z t0 lam m) x (t1 x) /\ is_derive t1 x (t2 x) /\
  is_derive t2 x (tof_equation_p3 x (compute_y x lam) (t1 x) (t2 x) lam).
Proof.
  intros hyp2f1b lam m t0 x Hs Hl X t t1 t2.
  assert (E : forall z, tof_equation hyp2f1b z t0 lam m + t0 = tof_equation hyp2f1b z 0 lam m).
  { intros z. unfold tof_equation, tof_equation_y. ring. }
  pose proof (derivative_1 hyp2f1b Hs lam Hl m x X) as D1. pose proof (derivative_2 hyp2f1b Hs lam Hl m x X) as D2.
  pose proof (derivative_3 hyp2f1b Hs lam Hl m x X) as D3. cbv beta in D1, D2, D3.
  split; [|split].
  - unfold t1, t. rewrite E. apply (is_derive_ext (fun z : R => tof_equation hyp2f1b z 0 lam m - t0)).
    { intros z. rewrite <- E. cbn. unfold Rminus. now rewrite Rplus_assoc, Rplus_opp_r, Rplus_0_r. }
    set (l := tof_equation_p _ _ _ _) in *.
    rewrite <- (minus_zero_r l). apply (is_derive_minus (fun z : R => tof_equation hyp2f1b z 0 lam m) (fun _ => t0) x l zero D1).
    apply is_derive_const.
  - unfold t2, t1, t. rewrite E. eapply is_derive_ext; [|exact D2]. intros z. cbv beta. now rewrite E.
  - unfold t2, t1, t. rewrite E. eapply is_derive_ext; [|exact D3]. intros z. cbv beta. now rewrite E.
Qed.

(** ** The steps of the search *)

(** Householder's step of third order from [p], for a function of value [f] and of derivatives
    [f1], [f2], [f3] there (Householder 1970; stated here with its fractions cleared). *)
Definition third_order_step (f f1 f2 f3 p : R) : R :=
  p - (6 * f * f1 ^ 2 - 3 * f ^ 2 * f2) / (6 * f1 ^ 3 - 6 * f * f1 * f2 + f ^ 2 * f3).

(** The step is exact on a line: it lands on the root. *)
Lemma third_order_line : forall k r p, k <> 0 -> third_order_step (k * (p - r)) k 0 0 p = r.
Proof. intros k r p K. unfold third_order_step. field. exact K. Qed.

Lemma inside_locally : forall (m : nat) x, -1 < x < 1 \/ (m = O /\ 1 < x) ->
  locally x (fun z : R => -1 < z < 1 \/ (m = O /\ 1 < z)).
Proof.
  intros m x [X|[-> X]].
  - assert (E : 0 < Rmin (x + 1) (1 - x)) by (apply Rmin_glb_lt; lra).
    exists (mkposreal _ E). intros z Z. left. change (Rabs (z - x) < Rmin (x + 1) (1 - x)) in Z.
    apply Rabs_lt_between in Z. pose proof (Rmin_l (x + 1) (1 - x)). pose proof (Rmin_r (x + 1) (1 - x)). lra.
  - assert (E : 0 < x - 1) by lra. exists (mkposreal _ E). intros z Z. right. split; [reflexivity|].
    change (Rabs (z - x) < x - 1) in Z. apply Rabs_lt_between in Z. lra.
Qed.

Lemma derivatives_n : forall hyp2f1b lam m t0 x, sums_series hyp2f1b -> Rabs lam < 1 ->
  -1 < x < 1 \/ (m = O /\ 1 < x) ->
  let F := fun z => tof_equation hyp2f1b z t0 lam m in
  let t := fun z => F z + t0 in
  let t1 := fun z => tof_equation_p z (compute_y z lam) (t z) lam in
  let t2 := fun z => tof_equation_p2 z (compute_y z lam) (t z) (t1 z) lam in
  Derive_n F 1 x = t1 x /\ Derive_n F 2 x = t2 x /\ Derive_n F 3 x = tof_equation_p3 x (compute_y x lam) (t1 x) (t2 x) lam.
Proof.
  intros hyp2f1b lam m t0 x Hs Hl X F t t1 t2.
  assert (D1 : forall z, -1 < z < 1 \/ (m = O /\ 1 < z) -> Derive F z = t1 z).
  { intros z Z. apply is_derive_unique. exact (proj1 (C95_derivatives hyp2f1b lam m t0 z Hs Hl Z)). }
  assert (D2 : forall z, -1 < z < 1 \/ (m = O /\ 1 < z) -> Derive (Derive F) z = t2 z).
  { intros z Z. transitivity (Derive t1 z).
    - apply Derive_ext_loc. apply (filter_imp _ _ D1). now apply inside_locally.
    - apply is_derive_unique. exact (proj1 (proj2 (C95_derivatives hyp2f1b lam m t0 z Hs Hl Z))). }
  split; [exact (D1 x X)|]. split; [exact (D2 x X)|].
  change (Derive (Derive (Derive F)) x = tof_equation_p3 x (compute_y x lam) (t1 x) (t2 x) lam).
  transitivity (Derive t2 x).
  - apply Derive_ext_loc. apply (filter_imp _ _ D2). now apply inside_locally.
  - apply is_derive_unique. exact (proj2 (proj2 (C95_derivatives hyp2f1b lam m t0 x Hs Hl X))).
Qed.

(** From [a] to [b] by one step of the search, if [a] is where the equation is smooth. *)
Definition one_step (hyp2f1b : R -> R) (t0 lam : R) (m : nat) (a b : R) : Prop :=
  let F := fun z => tof_equation hyp2f1b z t0 lam m in
  -1 < a < 1 \/ (m = O /\ 1 < a) ->
  b = third_order_step (F a) (Derive_n F 1 a) (Derive_n F 2 a) (Derive_n F 3 a) a.

(** [b] is reached from [a] in [n] steps. *)
Fixpoint steps (R1 : R -> R -> Prop) (n : nat) (a b : R) : Prop :=
  match n with
  | O => a = b
  | S k => exists c, R1 a c /\ steps R1 k c b
  end.

Lemma search_steps : forall hyp2f1b maxiter p0 t0 lam m atol rtol x, sums_series hyp2f1b -> Rabs lam < 1 ->
  householder hyp2f1b maxiter p0 t0 lam m atol rtol = Ok x ->
  exists n p, (S n <= maxiter)%nat /\ steps (one_step hyp2f1b t0 lam m) n p0 p /\
    one_step hyp2f1b t0 lam m p x /\ Rabs (x - p) < rtol * Rabs p + atol.
Proof.
  intros hyp2f1b maxiter. induction maxiter as [|k IH]; intros p0 t0 lam m atol rtol x Hs Hl H; [discriminate|].
  cbn [householder] in H. cbv zeta in H.
  match type of H with context [Rlt_dec (Rabs ?d) _] => set (den := d) in * end.
  destruct (Rlt_dec (Rabs den) (1 / 10 ^ 14)) as [|D]; [discriminate|].
  match type of H with context [Rlt_dec (Rabs (?q - p0)) _] => set (p := q) in * end.
  assert (S1 : one_step hyp2f1b t0 lam m p0 p).
  { red; cbv zeta; intros X. destruct (derivatives_n hyp2f1b lam m t0 p0 Hs Hl X) as (E1 & E2 & E3). 
    rewrite E1, E2, E3. unfold third_order_step, p. fold (tof_equation hyp2f1b p0 t0 lam m) in *.
    unfold den in *. clear E1 E2 E3.
    set (f := tof_equation hyp2f1b p0 t0 lam m) in *.
    set (g1 := tof_equation_p _ _ _ _) in *. set (g2 := tof_equation_p2 _ _ _ _ _) in *. set (g3 := tof_equation_p3 _ _ _ _ _) in *.
    assert (N : g1 * (g1 ^ 2 - f * g2) + g3 * f ^ 2 / 6 <> 0).
    { intros Z. apply D. rewrite Z, Rabs_R0. apply Rdiv_lt_0_compat; [lra|]. apply pow_lt. lra. }
    field. intros Z. apply N. revert Z. lra. }
  destruct (Rlt_dec (Rabs (p - p0)) (rtol * Rabs p0 + atol)) as [A|A].
  - exists 0%nat, p0. split; [lia|]. split; [reflexivity|]. assert (x = p) as -> by congruence. now split.
  - destruct (IH _ _ _ _ _ _ _ Hs Hl H) as (n & q & Ln & Sn & Sq & Aq).
    exists (S n), q. split; [lia|]. split; [|now split]. exists p. now split.
Qed.

(** C95: what the search returns is Householder's third-order step of the time equation, taken
    with its true derivatives, from a point reached by such steps from the initial guess, and
    nearer to that point than the tolerances. *)
Theorem C95_search : forall hyp2f1b lam t m maxiter atol rtol low x y, sums_series hyp2f1b ->
  find_xy hyp2f1b lam t m maxiter atol rtol low = Ok (x, y) ->
  exists n p, (S n <= maxiter)%nat /\
    steps (one_step hyp2f1b t lam m) n (initial_guess t lam m low) p /\
    one_step hyp2f1b t lam m p x /\ Rabs (x - p) < rtol * Rabs p + atol.
Proof.
  intros hyp2f1b lam t m maxiter atol rtol low x y Hs H. unfold find_xy in H.
  destruct (Rlt_dec (Rabs lam) 1) as [Hl|]; [|discriminate]. cbv zeta in H.
  match type of H with bind ?b _ = _ => destruct b as [mm|e| |] end; cbn [bind] in H; try discriminate.
  destruct (Nat.ltb mm m); [discriminate|].
  destruct (householder hyp2f1b maxiter (initial_guess t lam m low) t lam m atol rtol) as [z|e| |] eqn:E; cbn [bind] in H; try discriminate.
  assert (x = z) as -> by congruence. now apply (search_steps hyp2f1b).
Qed.

(** The quarter of a turn is a search that succeeds. *)
Example search_quarter : exists x y, Rabs quarter_lam < 1 /\
  find_xy (PSeries gauss) quarter_lam quarter_t 0 MAX_ITERATIONS LAMBERT_EPSILON LAMBERT_EPSILON true = Ok (x, y).
Proof.
  do 2 eexists. split; [|apply quarter_search]. pose proof quarter_lam_bounds. rewrite Rabs_right; lra.
Qed.

(** The quarter of a turn meets the hypotheses, with an [x] that is a root: its velocities take
    the departure to the arrival in the second asked for. *)
Example quarter_on_time : exists sol v1 v2, sums_series (PSeries gauss) /\ posed quarter_mu (quarter 1) /\
  0 <= vz (cross (departure (quarter 1)) (arrival (quarter 1))) /\
  izzo (PSeries gauss) quarter_mu (quarter 1) ShortWay = Ok sol /\ velocities sol = Some (v1, v2) /\
  kepler_arc (quarter_mu 0) (V3 1 0 0) v1 (V3 0 1 0) v2 1.
Proof.
  destruct (quarter_solved 1 (or_introl eq_refl) (PSeries gauss)) as (sol & g & _ & _ & E & V).
  exists sol. do 2 eexists. split; [exact series_exists|]. split; [apply quarter_posed; now left|]. split; [cbn; lra|].
  split; [exact E|]. split; [exact V|].
  pose proof (C95_time_of_flight_partial _ _ _ _ _ _ _ series_exists (quarter_posed 1 (or_introl eq_refl)) ltac:(cbn; lra) E V) as T.
  cbv zeta in T. destruct T as (lam & x & L2 & _ & Lp & Fx & K). specialize (Lp (or_introl eq_refl)).
  change (departure (quarter 1)) with (V3 1 0 0) in *. change (arrival (quarter 1)) with (V3 0 1 0) in *.
  change (norm (vsub (V3 0 1 0) (V3 1 0 0))) with (chord_norm (V3 1 0 0) (V3 0 1 0)) in *.
  rewrite (quarter_chord 1 (or_introl eq_refl)), (quarter_r1), (quarter_r2 1 (or_introl eq_refl)) in *.
  replace ((1 + 1 + sqrt 2) / 2) with quarter_s in * by (unfold quarter_s; field).
  assert (Lam : lam = quarter_lam).
  { pose proof quarter_lam_bounds as [B _]. apply Rsqr_inj; [lra|lra|]. unfold Rsqr. rewrite L2.
    rewrite <- quarter_lambda. rewrite sqrt_sqrt; [reflexivity|].
    pose proof root2 as [A _]. unfold quarter_s. replace (1 - sqrt 2 / ((2 + sqrt 2) / 2)) with ((2 - sqrt 2) / (2 + sqrt 2)) by (field; lra).
    left. apply Rdiv_lt_0_compat; lra. }
  pose proof root2 as [R2 _]. pose proof quarter_t_bounds as T. assert (Sp : 0 < quarter_s) by (unfold quarter_s; lra).
  assert (Fl : flight (quarter 1) = 1) by (unfold flight; cbn [quarter between final_state initial_state on_path epoch]; replace (1000000000 - 0)%Z with 1000000000%Z by reflexivity; field).
  assert (U : unit_time (mu_at quarter_mu (quarter 1)) quarter_s = / quarter_t).
  { unfold unit_time, mu_at, quarter_mu. apply sqrt_lem_1.
    - left. apply Rdiv_lt_0_compat; [now apply pow_lt|]. pose proof (pow_lt quarter_t 2 ltac:(lra)). pose proof (pow_lt quarter_s 3 Sp). nra.
    - left. apply Rinv_0_lt_compat. lra.
    - field. split; lra. }
  rewrite Fl, U in *. replace (1 / / quarter_t) with quarter_t in * by (field; lra). subst lam.
  change (revolutions ShortWay) with O in *. rewrite quarter_search in Fx.
  assert (X : x = 0) by congruence. subst x.
  assert (Z : tof_equation (PSeries gauss) 0 quarter_t quarter_lam 0 = 0).
  { unfold tof_equation, tof_equation_y. destruct (Rlt_dec (6 / 10) (0 ^ 2)) as [N|_]; [exfalso; revert N; lra|]. cbn [andb].
    unfold compute_psi. destruct (Rlt_dec 1 0); [lra|]. destruct (Rlt_dec 0 1); [|lra]. unfold compute_y.
    cbn [INR]. replace (1 - 0 ^ 2) with 1 by ring. rewrite Rabs_R1, sqrt_1. unfold quarter_t.
    replace (quarter_lam ^ 2 * 1) with (quarter_lam ^ 2) by ring.
    replace (0 * sqrt (1 - quarter_lam ^ 2) + quarter_lam * 1) with quarter_lam by ring. field. }
  rewrite Z in K. specialize (K ltac:(lra) ltac:(intros N; now elim N)).
  replace (1 + / quarter_t * 0) with 1 in K by ring. exact K.
Qed.

(** Three places of the conics: an ellipse, one near the parabola, a hyperbola. *)
Example derivatives_cases : let d x := exists l, is_derive (fun z => tof_equation (PSeries gauss) z 1 (1 / 2) 0) x l in
  d 0 /\ d (9 / 10) /\ d 2.
Proof.
  assert (L : Rabs (1 / 2) < 1) by (rewrite Rabs_right; lra).
  cbv zeta. split; [|split]; eexists; refine (proj1 (C95_derivatives _ (1 / 2) 0 1 _ series_exists L _));
    first [left; lra|right; split; [reflexivity|lra]].
Qed.

Print Assumptions C95_time_of_flight_partial.
Print Assumptions C95_derivatives.
Print Assumptions C95_search.
