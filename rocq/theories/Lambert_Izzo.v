(** C69: solutions of the Lambert problem by the method of Izzo. *)
From Coq Require Import Reals Lra Lia ZArith.
From Coquelicot Require Import Coquelicot.
From Verif Require Import Base Vec3 Angles Sc_Model Lambert_Model Lambert_Arc Lambert_Proofs Lambert_Props.
From Verif Require Prop_Model.
Local Open Scope R_scope.

(** ** An arc conserves the conic *)
Lemma constant_fun (f : R -> R) a b : (forall x, is_derive f x 0) -> f a = f b.
Proof.
  intros H. apply (null_derivative_1 f (fun x => exist _ 0 (proj1 (is_derive_Reals f x 0) (H x)))). intros x. reflexivity.
Qed.

Section Conserved.
Context (mu : R) (Hmu : 0 < mu) (px py pz ux uy uz rate : R -> R).
Notation n x := (sqrt (px x * px x + py x * py x + pz x * pz x)).
Hypothesis Hn : forall x, 0 < px x * px x + py x * py x + pz x * pz x.
Hypothesis Dpx : forall x, is_derive px x (rate x * ux x).
Hypothesis Dpy : forall x, is_derive py x (rate x * uy x).
Hypothesis Dpz : forall x, is_derive pz x (rate x * uz x).
Hypothesis Dux : forall x, is_derive ux x (rate x * (- mu / n x ^ 3) * px x).
Hypothesis Duy : forall x, is_derive uy x (rate x * (- mu / n x ^ 3) * py x).
Hypothesis Duz : forall x, is_derive uz x (rate x * (- mu / n x ^ 3) * pz x).

Ltac known := match goal with
  | |- ex_derive (fun z => px z) _ => eexists; apply Dpx
  | |- ex_derive (fun z => py z) _ => eexists; apply Dpy
  | |- ex_derive (fun z => pz z) _ => eexists; apply Dpz
  | |- ex_derive (fun z => ux z) _ => eexists; apply Dux
  | |- ex_derive (fun z => uy z) _ => eexists; apply Duy
  | |- ex_derive (fun z => uz z) _ => eexists; apply Duz
  | |- True => exact I
  end.
Ltac values :=
  change (Derive (fun z => px z)) with (Derive px); change (Derive (fun z => py z)) with (Derive py);
  change (Derive (fun z => pz z)) with (Derive pz); change (Derive (fun z => ux z)) with (Derive ux);
  change (Derive (fun z => uy z)) with (Derive uy); change (Derive (fun z => uz z)) with (Derive uz);
  rewrite ?(is_derive_unique _ _ _ (Dpx _)), ?(is_derive_unique _ _ _ (Dpy _)), ?(is_derive_unique _ _ _ (Dpz _)),
    ?(is_derive_unique _ _ _ (Dux _)), ?(is_derive_unique _ _ _ (Duy _)), ?(is_derive_unique _ _ _ (Duz _)).

Lemma moment_x a b : py a * uz a - pz a * uy a = py b * uz b - pz b * uy b.
Proof.
  apply (constant_fun (fun x => py x * uz x - pz x * uy x)). intros x. auto_derive; [repeat split; known|]. values. ring.
Qed.
Lemma moment_y a b : pz a * ux a - px a * uz a = pz b * ux b - px b * uz b.
Proof.
  apply (constant_fun (fun x => pz x * ux x - px x * uz x)). intros x. auto_derive; [repeat split; known|]. values. ring.
Qed.
Lemma moment_z a b : px a * uy a - py a * ux a = px b * uy b - py b * ux b.
Proof.
  apply (constant_fun (fun x => px x * uy x - py x * ux x)). intros x. auto_derive; [repeat split; known|]. values. ring.
Qed.
Lemma energy_const a b :
  (ux a * ux a + uy a * uy a + uz a * uz a) / 2 - mu / n a = (ux b * ux b + uy b * uy b + uz b * uz b) / 2 - mu / n b.
Proof.
  apply (constant_fun (fun x => (ux x * ux x + uy x * uy x + uz x * uz x) / 2 - mu / n x)). intros x.
  pose proof (Hn x) as Hx. pose proof (sqrt_lt_R0 _ Hx) as Hs.
  auto_derive; [repeat split; try known; try lra|]. values. field. lra.
Qed.
Lemma ecc_x a b :
  (uy a * (px a * uy a - py a * ux a) - uz a * (pz a * ux a - px a * uz a)) / mu - px a / n a =
  (uy b * (px b * uy b - py b * ux b) - uz b * (pz b * ux b - px b * uz b)) / mu - px b / n b.
Proof.
  apply (constant_fun (fun x => (uy x * (px x * uy x - py x * ux x) - uz x * (pz x * ux x - px x * uz x)) / mu - px x / n x)). intros x.
  pose proof (Hn x) as Hx. pose proof (sqrt_lt_R0 _ Hx) as Hs.
  auto_derive; [repeat split; try known; try lra|]. values.
  set (s := n x) in *. assert (S2 : s * s = px x * px x + py x * py x + pz x * pz x) by (apply sqrt_sqrt; lra).
  assert (X : s ^ 2 = px x * px x + py x * py x + pz x * pz x) by (rewrite <- S2; ring).
  field_simplify_eq; [|lra]. ring [X].
Qed.
Lemma ecc_y a b :
  (uz a * (py a * uz a - pz a * uy a) - ux a * (px a * uy a - py a * ux a)) / mu - py a / n a =
  (uz b * (py b * uz b - pz b * uy b) - ux b * (px b * uy b - py b * ux b)) / mu - py b / n b.
Proof.
  apply (constant_fun (fun x => (uz x * (py x * uz x - pz x * uy x) - ux x * (px x * uy x - py x * ux x)) / mu - py x / n x)). intros x.
  pose proof (Hn x) as Hx. pose proof (sqrt_lt_R0 _ Hx) as Hs.
  auto_derive; [repeat split; try known; try lra|]. values.
  set (s := n x) in *. assert (S2 : s * s = px x * px x + py x * py x + pz x * pz x) by (apply sqrt_sqrt; lra).
  assert (X : s ^ 2 = px x * px x + py x * py x + pz x * pz x) by (rewrite <- S2; ring).
  field_simplify_eq; [|lra]. ring [X].
Qed.
Lemma ecc_z a b :
  (ux a * (pz a * ux a - px a * uz a) - uy a * (py a * uz a - pz a * uy a)) / mu - pz a / n a =
  (ux b * (pz b * ux b - px b * uz b) - uy b * (py b * uz b - pz b * uy b)) / mu - pz b / n b.
Proof.
  apply (constant_fun (fun x => (ux x * (pz x * ux x - px x * uz x) - uy x * (py x * uz x - pz x * uy x)) / mu - pz x / n x)). intros x.
  pose proof (Hn x) as Hx. pose proof (sqrt_lt_R0 _ Hx) as Hs.
  auto_derive; [repeat split; try known; try lra|]. values.
  set (s := n x) in *. assert (S2 : s * s = px x * px x + py x * py x + pz x * pz x) by (apply sqrt_sqrt; lra).
  assert (X : s ^ 2 = px x * px x + py x * py x + pz x * pz x) by (rewrite <- S2; ring).
  field_simplify_eq; [|lra]. ring [X].
Qed.
End Conserved.

(** The specification of an arc is stronger than that of the conic. *)
Lemma arc_conic mu r1 v1 r2 v2 t : 0 < mu -> kepler_arc mu r1 v1 r2 v2 t -> same_conic mu r1 v1 r2 v2.
Proof.
  intros Hmu (last & time & p & v & _ & _ & _ & <- & <- & <- & <- & H).
  assert (Hn : forall x, 0 < vx (p x) * vx (p x) + vy (p x) * vy (p x) + vz (p x) * vz (p x)).
  { intros x. destruct (H x) as (rate & _ & _ & N & _). now apply dot_pos in N. }
  assert (D : forall x, vderiv p x (vscale (Derive time x) (v x)) /\
    vderiv v x (vscale (Derive time x * (- mu / norm (p x) ^ 3)) (p x))).
  { intros x. destruct (H x) as (rate & _ & T & _ & A & B). apply is_derive_Reals, is_derive_unique in T.
    rewrite T. split; assumption. }
  pose (rate := Derive time).
  assert (D1 : forall x, is_derive (fun y => vx (p y)) x (rate x * vx (v x))) by (intros x; apply is_derive_Reals; apply D).
  assert (D2 : forall x, is_derive (fun y => vy (p y)) x (rate x * vy (v x))) by (intros x; apply is_derive_Reals; apply D).
  assert (D3 : forall x, is_derive (fun y => vz (p y)) x (rate x * vz (v x))) by (intros x; apply is_derive_Reals; apply D).
  assert (D4 : forall x, is_derive (fun y => vx (v y)) x (rate x * (- mu / norm (p x) ^ 3) * vx (p x))) by (intros x; apply is_derive_Reals; apply D).
  assert (D5 : forall x, is_derive (fun y => vy (v y)) x (rate x * (- mu / norm (p x) ^ 3) * vy (p x))) by (intros x; apply is_derive_Reals; apply D).
  assert (D6 : forall x, is_derive (fun y => vz (v y)) x (rate x * (- mu / norm (p x) ^ 3) * vz (p x))) by (intros x; apply is_derive_Reals; apply D).
  pose (px := fun y => vx (p y)). pose (py := fun y => vy (p y)). pose (pz := fun y => vz (p y)).
  pose (ux := fun y => vx (v y)). pose (uy := fun y => vy (v y)). pose (uz := fun y => vz (v y)).
  split; [|split].
  - apply v3_eq.
    + exact (moment_x mu px py pz uy uz rate D2 D3 D5 D6 0 last).
    + exact (moment_y mu px py pz ux uz rate D1 D3 D4 D6 0 last).
    + exact (moment_z mu px py pz ux uy rate D1 D2 D4 D5 0 last).
  - exact (energy_const mu px py pz ux uy uz rate Hn D1 D2 D3 D4 D5 D6 0 last).
  - pose proof (ecc_x mu Hmu px py pz ux uy uz rate Hn D1 D2 D3 D4 D5 D6 0 last) as Ex.
    pose proof (ecc_y mu Hmu px py pz ux uy uz rate Hn D1 D2 D3 D4 D5 D6 0 last) as Ey.
    pose proof (ecc_z mu Hmu px py pz ux uy uz rate Hn D1 D2 D3 D4 D5 D6 0 last) as Ez.
    unfold px, py, pz, ux, uy, uz, Rdiv in Ex, Ey, Ez. unfold eccentricity, norm, dot.
    apply v3_eq; cbn [vsub vscale cross vx vy vz].
    + rewrite !(Rmult_comm (/ mu)), !(Rmult_comm (/ sqrt _)). exact Ex.
    + rewrite !(Rmult_comm (/ mu)), !(Rmult_comm (/ sqrt _)). exact Ey.
    + rewrite !(Rmult_comm (/ mu)), !(Rmult_comm (/ sqrt _)). exact Ez.
Qed.

(** ** The velocities *)
Section Reconstruct.
Context (mu s lam rho sigma x y : R).
Hypothesis Hmu : 0 < mu.
Hypothesis Hs : 0 < s.
Notation r1 := (s * (1 + lam ^ 2 + rho * (1 - lam ^ 2)) / 2).
Notation r2 := (s * (1 + lam ^ 2 - rho * (1 - lam ^ 2)) / 2).
Hypothesis H1 : 0 < r1.
Hypothesis H2 : 0 < r2.
Hypothesis Hsig : sigma ^ 2 = 1 - rho ^ 2.
Hypothesis Hy : y ^ 2 = 1 - lam ^ 2 * (1 - x ^ 2).
Notation gamma := (sqrt (mu * s / 2)).
Notation vr1 := (gamma * ((lam * y - x) - rho * (lam * y + x)) / r1).
Notation vr2 := (- gamma * ((lam * y - x) + rho * (lam * y + x)) / r2).
Notation vt1 := (gamma * sigma * (y + lam * x) / r1).
Notation vt2 := (gamma * sigma * (y + lam * x) / r2).
Notation H := (gamma * sigma * (y + lam * x)).
Notation C := (2 * s ^ 2 * lam ^ 2 / (r1 * r2) - 1).
Notation S := (s * lam * (s * (1 - lam ^ 2)) * sigma / (r1 * r2)).

Lemma gamma_sqr : gamma ^ 2 = mu * s / 2.
Proof. rewrite <- Rsqr_pow2. apply Rsqr_sqrt. nra. Qed.

Lemma mu_gamma : mu = 2 * gamma ^ 2 / s.
Proof. rewrite gamma_sqr. field. lra. Qed.
Lemma side1 : 1 + lam ^ 2 + rho * (1 - lam ^ 2) <> 0.
Proof. intros E. rewrite E in H1. lra. Qed.
Lemma side2 : 1 + lam ^ 2 - rho * (1 - lam ^ 2) <> 0.
Proof. intros E. rewrite E in H2. lra. Qed.

Lemma recon_energy : (vr1 ^ 2 + vt1 ^ 2) / 2 - mu / r1 = (vr2 ^ 2 + vt2 ^ 2) / 2 - mu / r2.
Proof.
  pose proof mu_gamma as G. pose proof side1. pose proof side2. set (g := gamma) in *. clearbody g. rewrite G.
  field_simplify_eq; [|repeat split; try assumption; lra]. ring [Hsig Hy].
Qed.
Lemma recon_radial : H * vt1 - mu = (H * vt2 - mu) * C + H * vr2 * S.
Proof.
  pose proof mu_gamma as G. pose proof side1. pose proof side2. set (g := gamma) in *. clearbody g. rewrite G.
  field_simplify_eq; [|repeat split; try assumption; lra]. ring [Hsig Hy].
Qed.
Lemma recon_tangential : - H * vr1 = (H * vt2 - mu) * S - H * vr2 * C.
Proof.
  pose proof mu_gamma as G. pose proof side1. pose proof side2. set (g := gamma) in *. clearbody g. rewrite G.
  field_simplify_eq; [|repeat split; try assumption; lra]. ring [Hsig Hy].
Qed.
End Reconstruct.

(** A velocity given by its components along the unit vectors of a plane. *)
Section Polar.
Context (mu r vr vt d : R) (u n : v3).
Hypothesis Hmu : 0 < mu.
Hypothesis Hr : 0 < r.
Hypothesis Hu : dot u u = 1.
Hypothesis Hn : dot n n = 1.
Hypothesis Hun : dot u n = 0.
Hypothesis Hd : d * d = 1.
Notation p := (vscale r u).
Notation v := (vadd (vscale vr u) (vscale vt (vscale d (cross n u)))).

Lemma polar_norm : norm p = r.
Proof. rewrite norm_scale. unfold norm. rewrite Hu, sqrt_1, Rabs_right; lra. Qed.
Lemma u_n_u : cross u (cross n u) = n.
Proof. rewrite triple, Hu, Hun. apply v3_eq; cbn; ring. Qed.
Lemma polar_moment : cross p v = vscale (d * (r * vt)) n.
Proof.
  transitivity (vscale (d * (r * vt)) (cross u (cross n u))).
  - apply v3_eq; unfold cross, vscale, vadd; cbn; ring.
  - now rewrite u_n_u.
Qed.
Lemma polar_energy : energy mu p v = (vr ^ 2 + vt ^ 2) / 2 - mu / r.
Proof.
  unfold energy. rewrite polar_norm. f_equal.
  assert (E : dot v v = vr * vr * dot u u + vt * vt * (d * d) * (dot u u * dot n n - dot u n * dot u n)).
  { unfold dot, vadd, vscale, cross. cbn. ring. }
  rewrite E, Hu, Hn, Hun, Hd. field.
Qed.
Lemma polar_ecc : vscale mu (eccentricity mu p v) =
  vsub (vscale (r * vt * vt - mu) u) (vscale (r * vt * vr) (vscale d (cross n u))).
Proof.
  unfold eccentricity. rewrite polar_moment, polar_norm.
  assert (E : cross v (vscale (d * (r * vt)) n) =
    vadd (vscale (- (r * vt * vr)) (vscale d (cross n u))) (vscale (r * vt * vt) u)).
  { assert (W : cross (cross n u) n = u).
    { transitivity (vscale (-1) (cross n (cross n u))); [apply v3_eq; unfold cross, vscale; cbn; ring|].
      rewrite triple, Hn. rewrite dot_comm in Hun. rewrite Hun. apply v3_eq; cbn; ring. }
    transitivity (vadd (vscale (- (r * vt * vr)) (vscale d (cross n u))) (vscale (r * vt * vt * (d * d)) (cross (cross n u) n))).
    - apply v3_eq; unfold cross, vscale, vadd; cbn; ring.
    - now rewrite W, Hd, Rmult_1_r. }
  rewrite E. apply v3_eq; unfold vscale, vadd, vsub; cbn; field; lra.
Qed.
End Polar.

Lemma vscale_inj k a b : k <> 0 -> vscale k a = vscale k b -> a = b.
Proof.
  intros Hk E. assert (vx (vscale k a) = vx (vscale k b) /\ vy (vscale k a) = vy (vscale k b) /\ vz (vscale k a) = vz (vscale k b))
    as (A & B & C) by now rewrite E. cbn in A, B, C. apply v3_eq; now apply (Rmult_eq_reg_l k).
Qed.

(** ** The geometry *)
Lemma versor_unit p : p <> vzero -> dot (versor p) (versor p) = 1 /\ p = vscale (norm p) (versor p).
Proof.
  intros H. apply norm_pos in H. split.
  - assert (E : dot (versor p) (versor p) = dot p p * / norm p * / norm p) by (unfold versor, dot, vscale; cbn; ring).
    rewrite E, <- norm_sqr. field. lra.
  - unfold versor. apply v3_eq; cbn; field; lra.
Qed.

Lemma unit_versor p : dot p p = 1 -> versor p = p.
Proof. intros H. unfold versor, norm. rewrite H, sqrt_1, Rinv_1. apply v3_eq; cbn; ring. Qed.

Lemma cross_combination n a u k t :
  cross n (vadd (vscale a u) (vscale k t)) = vadd (vscale a (cross n u)) (vscale k (cross n t)).
Proof. apply v3_eq; unfold cross, vadd, vscale; cbn; ring. Qed.

Section Geometry.
Context (p q : v3).
Hypothesis Hp : p <> vzero.
Hypothesis Hq : q <> vzero.
Hypothesis Hpq : cross (versor p) (versor q) <> vzero.
Notation u1 := (versor p). Notation u2 := (versor q).
Notation w := (cross (versor p) (versor q)).
Notation n := (versor w).
Notation r1 := (norm p). Notation r2 := (norm q).
Notation c := (chord_norm p q).
Notation s := (semi_parameter p q).
Notation C := (dot (versor p) (versor q)).

Lemma w_sqr : norm w * norm w = 1 - C * C.
Proof.
  assert (E : dot w w = dot u1 u1 * dot u2 u2 - C * C) by (unfold dot, cross; cbn; ring).
  rewrite norm_sqr, E. destruct (versor_unit p Hp) as [-> _]. destruct (versor_unit q Hq) as [-> _]. ring.
Qed.
Lemma w_pos : 0 < norm w. Proof. now apply norm_pos. Qed.
Lemma n_unit : dot n n = 1. Proof. now apply versor_unit. Qed.
Lemma n_u1 : dot u1 n = 0.
Proof. unfold versor at 2. unfold dot, vscale, cross. cbn. ring. Qed.
Lemma n_u2 : dot u2 n = 0.
Proof. unfold versor at 2. unfold dot, vscale, cross. cbn. ring. Qed.
Lemma second : u2 = vadd (vscale C u1) (vscale (norm w) (cross n u1)).
Proof.
  assert (E : cross w u1 = vsub u2 (vscale C u1)).
  { transitivity (vsub (vscale (dot u1 u1) u2) (vscale C u1)); [apply v3_eq; unfold cross, vsub, vscale, dot; cbn; ring|].
    destruct (versor_unit p Hp) as [-> _]. apply v3_eq; cbn; ring. }
  assert (F : cross n u1 = vscale (/ norm w) (cross w u1)).
  { unfold versor at 1. apply v3_eq; unfold vscale, cross; cbn; ring. }
  rewrite F, E. pose proof w_pos as W. set (k := norm w) in *. apply v3_eq; unfold vadd, vsub, vscale; cbn [vx vy vz]; field; lra.
Qed.
Lemma second_t : cross n u2 = vsub (vscale C (cross n u1)) (vscale (norm w) u1).
Proof.
  assert (E : cross n (cross n u1) = vscale (-1) u1).
  { rewrite triple, n_unit. rewrite (dot_comm n), n_u1. apply v3_eq; cbn; ring. }
  transitivity (vadd (vscale C (cross n u1)) (vscale (norm w) (cross n (cross n u1)))).
  - transitivity (cross n (vadd (vscale C u1) (vscale (norm w) (cross n u1)))); [exact (f_equal (cross n) second)|].
    apply cross_combination.
  - rewrite E. apply v3_eq; unfold vadd, vsub, vscale; cbn; ring.
Qed.

Lemma chord_sqr : c * c = r1 * r1 + r2 * r2 - 2 * (r1 * r2 * C).
Proof.
  unfold chord_norm. rewrite norm_sqr.
  assert (E : dot (vsub q p) (vsub q p) = dot p p + dot q q - 2 * dot p q) by (unfold dot, vsub; cbn; ring).
  rewrite E, <- !norm_sqr. do 2 f_equal.
  destruct (versor_unit p Hp) as [_ Ep]. destruct (versor_unit q Hq) as [_ Eq].
  transitivity (dot (vscale r1 u1) (vscale r2 u2)); [now rewrite <- Ep, <- Eq|]. unfold dot, vscale; cbn; ring.
Qed.

Lemma C_bounds : -1 < C < 1.
Proof. pose proof w_sqr. pose proof w_pos. nra. Qed.

Lemma chord_bounds : 0 < c /\ (r1 - r2) * (r1 - r2) < c * c /\ c < r1 + r2.
Proof.
  pose proof C_bounds as B. pose proof chord_sqr as E. pose proof (norm_pos p Hp) as A1. pose proof (norm_pos q Hq) as A2.
  pose proof (norm_nonneg (vsub q p)) as A3. change (norm (vsub q p)) with c in A3.
  assert (0 < r1 * r2) by now apply Rmult_lt_0_compat.
  assert (F : (r1 - r2) * (r1 - r2) < c * c) by nra.
  assert (G : c * c < (r1 + r2) * (r1 + r2)) by nra.
  split; [|split; [exact F|]].
  - assert (0 <= (r1 - r2) * (r1 - r2)) by apply Rle_0_sqr. nra.
  - nra.
Qed.

Context (d : R) (Hd : d = 1 \/ d = -1).
Notation lam := (d * sqrt (1 - chord_norm p q / semi_parameter p q)).
Notation rho := ((norm p - norm q) / chord_norm p q).
Notation sigma := (sqrt (1 - ((norm p - norm q) / chord_norm p q) ^ 2)).

Lemma s_pos : 0 < s.
Proof. pose proof chord_bounds. pose proof (norm_pos p Hp). pose proof (norm_pos q Hq). unfold semi_parameter. lra. Qed.
Lemma lambda_pos : 0 < 1 - c / s.
Proof.
  pose proof s_pos. pose proof chord_bounds. assert (c < s) by (unfold semi_parameter; lra).
  replace (1 - c / s) with ((s - c) / s) by (field; lra). apply Rdiv_lt_0_compat; lra.
Qed.
Lemma lam_sqr : lam ^ 2 = 1 - c / s.
Proof.
  replace (lam ^ 2) with (d * d * (sqrt (1 - c / s) * sqrt (1 - c / s))) by ring.
  rewrite sqrt_sqrt by (pose proof lambda_pos; lra). destruct Hd as [-> | ->]; ring.
Qed.
Lemma r1_lam : s * (1 + lam ^ 2 + rho * (1 - lam ^ 2)) / 2 = r1.
Proof.
  rewrite lam_sqr. pose proof s_pos. pose proof chord_bounds. transitivity ((2 * s - c + (r1 - r2)) / 2); [field; lra|].
  unfold semi_parameter. field.
Qed.
Lemma r2_lam : s * (1 + lam ^ 2 - rho * (1 - lam ^ 2)) / 2 = r2.
Proof.
  rewrite lam_sqr. pose proof s_pos. pose proof chord_bounds. transitivity ((2 * s - c - (r1 - r2)) / 2); [field; lra|].
  unfold semi_parameter. field.
Qed.
Lemma sigma_arg : 0 < 1 - rho ^ 2.
Proof.
  pose proof chord_bounds. replace (1 - rho ^ 2) with ((c * c - (r1 - r2) * (r1 - r2)) / (c * c)) by (field; lra).
  apply Rdiv_lt_0_compat; nra.
Qed.
Lemma sigma_sqr : sigma ^ 2 = 1 - rho ^ 2.
Proof. rewrite <- Rsqr_pow2. apply Rsqr_sqrt. pose proof sigma_arg. lra. Qed.
Lemma C_lam : C = 2 * s ^ 2 * lam ^ 2 / (r1 * r2) - 1.
Proof.
  pose proof s_pos. pose proof (norm_pos p Hp) as A1. pose proof (norm_pos q Hq) as A2. rewrite lam_sqr.
  assert (E : r1 * r2 * C = 2 * s * (s - c) - r1 * r2).
  { pose proof chord_sqr as E. unfold semi_parameter. nra. }
  apply (Rmult_eq_reg_l (r1 * r2)); [|apply Rmult_integral_contrapositive_currified; lra].
  rewrite E. field. repeat split; lra.
Qed.
Lemma S_lam : d * norm w = s * lam * (s * (1 - lam ^ 2)) * sigma / (r1 * r2).
Proof.
  pose proof s_pos. pose proof (norm_pos p Hp) as A1. pose proof (norm_pos q Hq) as A2. pose proof chord_bounds as (B & _).
  pose proof lambda_pos as L. pose proof sigma_arg as G. pose proof w_pos as W.
  assert (A : 0 < r1 * r2) by now apply Rmult_lt_0_compat.
  assert (E : s * (1 - lam ^ 2) = c) by (rewrite lam_sqr; field; lra). rewrite E.
  set (k := sqrt (1 - c / s)) in *. assert (K : 0 < k) by now apply sqrt_lt_R0.
  assert (Sg : 0 < sigma) by now apply sqrt_lt_R0.
  assert (F : norm w = s * k * c * sigma / (r1 * r2)).
  { apply Rsqr_inj; [lra| |].
    - apply Rmult_le_pos; [|left; now apply Rinv_0_lt_compat]. repeat apply Rmult_le_pos; lra.
    - unfold Rsqr. rewrite w_sqr.
      assert (K2 : k * k = 1 - c / s) by (apply sqrt_sqrt; lra).
      assert (S2 : sigma * sigma = 1 - rho ^ 2) by (apply sqrt_sqrt; lra).
      replace (s * k * c * sigma / (r1 * r2) * (s * k * c * sigma / (r1 * r2)))
        with (s * s * (k * k) * (c * c) * (sigma * sigma) / (r1 * r2 * (r1 * r2))) by (field; lra).
      rewrite K2, S2.
      assert (E1 : r1 * r2 * (1 + C) = 2 * s * (s - c)).
      { pose proof chord_sqr. unfold semi_parameter. nra. }
      assert (E2 : r1 * r2 * (1 - C) = (c * c - (r1 - r2) * (r1 - r2)) / 2).
      { pose proof chord_sqr. nra. }
      apply (Rmult_eq_reg_l (r1 * r2 * (r1 * r2))); [|apply Rmult_integral_contrapositive_currified; lra].
      transitivity (r1 * r2 * (1 + C) * (r1 * r2 * (1 - C))); [ring|]. rewrite E1, E2. field. repeat split; lra. }
  rewrite F. field. lra.
Qed.

Context (mu x y : R) (Hmu : 0 < mu).
Hypothesis Hy : y ^ 2 = 1 - lam ^ 2 * (1 - x ^ 2).
Notation gamma := (sqrt (mu * s / 2)).
Notation parts := (reconstruct x y (norm p) (norm q) (d * sqrt (1 - chord_norm p q / semi_parameter p q))
  (sqrt (mu * semi_parameter p q / 2)) ((norm p - norm q) / chord_norm p q)
  (sqrt (1 - ((norm p - norm q) / chord_norm p q) ^ 2))).
Notation vr1 := (fst (fst (fst parts))). Notation vr2 := (snd (fst (fst parts))).
Notation vt1 := (snd (fst parts)). Notation vt2 := (snd parts).
Notation H := (gamma * sigma * (y + lam * x)).

Lemma lam_not_one : y ^ 2 = 1 - lam ^ 2 * (1 - x ^ 2). Proof. exact Hy. Qed.

(** Whatever the side [e] the normal is on. *)
Lemma izzo_moment_energy e : e * e = 1 ->
  let v1 := vadd (vscale vr1 u1) (vscale vt1 (vscale d (cross (vscale e n) u1))) in
  let v2 := vadd (vscale vr2 u2) (vscale vt2 (vscale d (cross (vscale e n) u2))) in
  cross p v1 = cross q v2 /\ energy mu p v1 = energy mu q v2.
Proof.
  intros He v1 v2. pose proof (norm_pos p Hp) as A1. pose proof (norm_pos q Hq) as A2.
  destruct (versor_unit p Hp) as [U1 Ep]. destruct (versor_unit q Hq) as [U2 Eq].
  assert (N : dot (vscale e n) (vscale e n) = 1).
  { rewrite dot_scale, dot_comm, dot_scale, n_unit. lra. }
  assert (N1 : dot u1 (vscale e n) = 0) by (rewrite dot_comm, dot_scale, (dot_comm n), n_u1; ring).
  assert (N2 : dot u2 (vscale e n) = 0) by (rewrite dot_comm, dot_scale, (dot_comm n), n_u2; ring).
  assert (D : d * d = 1) by (destruct Hd as [-> | ->]; ring).
  assert (M : r1 * vt1 = r2 * vt2) by (cbn [reconstruct fst snd]; field; lra).
  split.
  - replace (cross p v1) with (cross (vscale r1 u1) v1) by now rewrite <- Ep.
    replace (cross q v2) with (cross (vscale r2 u2) v2) by now rewrite <- Eq.
    unfold v1, v2. rewrite !polar_moment by assumption. now rewrite M.
  - replace (energy mu p v1) with (energy mu (vscale r1 u1) v1) by now rewrite <- Ep.
    replace (energy mu q v2) with (energy mu (vscale r2 u2) v2) by now rewrite <- Eq.
    unfold v1, v2. rewrite !polar_energy by assumption.
    pose proof (recon_energy mu s lam rho sigma x y Hmu s_pos) as E. rewrite r1_lam, r2_lam in E.
    exact (E A1 A2 sigma_sqr Hy).
Qed.

Lemma izzo_conic :
  let v1 := vadd (vscale vr1 u1) (vscale vt1 (vscale d (cross n u1))) in
  let v2 := vadd (vscale vr2 u2) (vscale vt2 (vscale d (cross n u2))) in
  same_conic mu p v1 q v2.
Proof.
  intros v1 v2. pose proof (norm_pos p Hp) as A1. pose proof (norm_pos q Hq) as A2.
  destruct (izzo_moment_energy 1 ltac:(ring)) as [M E].
  assert (N : vscale 1 n = n) by (apply v3_eq; cbn; ring). rewrite N in M, E.
  split; [exact M|]. split; [exact E|]. clear M E N.
  destruct (versor_unit p Hp) as [U1 Ep]. destruct (versor_unit q Hq) as [U2 Eq].
  assert (D : d * d = 1) by (destruct Hd as [-> | ->]; ring).
  apply (vscale_inj mu); [lra|].
  replace (eccentricity mu p v1) with (eccentricity mu (vscale r1 u1) v1) by now rewrite <- Ep.
  replace (eccentricity mu q v2) with (eccentricity mu (vscale r2 u2) v2) by now rewrite <- Eq.
  unfold v1, v2. rewrite (polar_ecc mu r1 vr1 vt1 d u1 n) by (try assumption; try apply n_unit; try apply n_u1; lra).
  rewrite (polar_ecc mu r2 vr2 vt2 d u2 n) by (try assumption; try apply n_unit; try apply n_u2; lra).
  pose proof (recon_radial mu s lam rho sigma x y Hmu s_pos) as Ra.
  pose proof (recon_tangential mu s lam rho sigma x y Hmu s_pos) as Ta.
  rewrite r1_lam, r2_lam in Ra, Ta. specialize (Ra A1 A2 sigma_sqr Hy). specialize (Ta A1 A2 sigma_sqr Hy).
  rewrite <- C_lam, <- S_lam in Ra, Ta.
  assert (H1 : r1 * vt1 = H) by (cbn [reconstruct fst snd]; field; lra).
  assert (H2 : r2 * vt2 = H) by (cbn [reconstruct fst snd]; field; lra).
  change (gamma * (lam * y - x - rho * (lam * y + x)) / r1) with vr1 in Ra, Ta.
  change (- gamma * (lam * y - x + rho * (lam * y + x)) / r2) with vr2 in Ra, Ta.
  change (gamma * sigma * (y + lam * x) / r1) with vt1 in Ra, Ta.
  change (gamma * sigma * (y + lam * x) / r2) with vt2 in Ra, Ta.
  rewrite H1, H2, second_t.
  assert (X : vscale (H * vt2 - mu) u2 = vscale (H * vt2 - mu) (vadd (vscale C u1) (vscale (norm w) (cross n u1))))
    by exact (f_equal (vscale _) second).
  rewrite X, Ra. clear X H1 H2 v1 v2.
  generalize dependent vr1. generalize dependent vr2. generalize dependent vt2. generalize dependent vt1.
  generalize dependent H. generalize (norm w). generalize (cross n u1). generalize C. generalize u1.
  intros U k T a h vt1 vt2 vr2 _ vr1 Ta.
  assert (Ta' : h * vr1 * d = - ((h * vt2 - mu) * a) + h * vr2 * k * d).
  { transitivity (- d * (- h * vr1)); [ring|]. rewrite Ta.
    transitivity (- (h * vt2 - mu) * (d * d) * a + h * vr2 * k * d); [ring|]. rewrite D. ring. }
  transitivity (vsub (vscale ((h * vt2 - mu) * k + h * vr2 * (d * a)) U) (vscale (h * vr1 * d) T)).
  { apply v3_eq; unfold vsub, vscale; cbn [vx vy vz]; ring. }
  rewrite Ta'. apply v3_eq; unfold vsub, vscale, vadd; cbn [vx vy vz]; ring.
Qed.
End Geometry.

(** ** Theorems *)
Lemma cross_versor p q : cross (versor p) (versor q) = vscale (/ norm p * / norm q) (cross p q).
Proof. unfold versor. apply v3_eq; unfold cross, vscale; cbn [vx vy vz]; ring. Qed.

Lemma not_aligned p q : p <> vzero -> q <> vzero -> cross p q <> vzero -> cross (versor p) (versor q) <> vzero.
Proof.
  intros Hp Hq Hc E. apply Hc. rewrite cross_versor in E. apply norm_pos in Hp, Hq.
  apply (vscale_inj (/ norm p * / norm q)).
  - apply Rmult_integral_contrapositive_currified; apply Rinv_neq_0_compat; lra.
  - rewrite E. unfold vzero. apply v3_eq; cbn; ring.
Qed.

(** What a solution with velocities comes from; the normal is on the side of positive z. *)
Lemma izzo_ok hyp2f1b mu_of i kind sol v1 v2 : posed mu_of i ->
  izzo hyp2f1b mu_of i kind = Ok sol -> velocities sol = Some (v1, v2) ->
  let p := departure i in let q := arrival i in
  cross (versor p) (versor q) <> vzero /\
  exists d e x, (d = 1 \/ d = -1) /\ (e = 1 \/ e = -1) /\ (0 <= vz (cross p q) -> e = 1) /\
    (forall n, kind = NRevs n -> d = 1) /\
    (kind = ShortWay -> d = 1) /\ (kind = LongWay -> d = -1) /\
    let lam := d * sqrt (1 - chord_norm p q / semi_parameter p q) in
    let y := sqrt (1 - lam ^ 2 * (1 - x ^ 2)) in
    y ^ 2 = 1 - lam ^ 2 * (1 - x ^ 2) /\
    (Rabs lam < 1 /\
     find_xy hyp2f1b lam (sqrt (2 * mu_at mu_of i / semi_parameter p q ^ 3) * flight i)
       (match kind with NRevs m => m | _ => O end) MAX_ITERATIONS LAMBERT_EPSILON LAMBERT_EPSILON true = Ok (x, y)) /\
    let n := versor (cross (versor p) (versor q)) in
    let rho := (norm p - norm q) / chord_norm p q in
    let '(vr1, vr2, vt1, vt2) := reconstruct x y (norm p) (norm q) lam
        (sqrt (mu_at mu_of i * semi_parameter p q / 2)) rho (sqrt (1 - rho ^ 2)) in
    v1 = vadd (vscale vr1 (versor p)) (vscale vt1 (vscale d (cross (vscale e n) (versor p)))) /\
    v2 = vadd (vscale vr2 (versor q)) (vscale vt2 (vscale d (cross (vscale e n) (versor q)))).
Proof.
  intros (Hm & Hp & Hq) H V p q. fold p in Hp. fold q in Hq. unfold izzo in H. fold (departure i) (arrival i) (mu_at mu_of i) in H. fold p q in H.
  apply bind_ok in H as (d & Hd & H).
  assert (D : (d = 1 \/ d = -1) /\ (forall n, kind = NRevs n -> d = 1) /\ (kind = ShortWay -> d = 1) /\ (kind = LongWay -> d = -1)).
  { destruct kind as [| | |m].
    - split; [exact (direction_unit _ _ _ _ Hd)|]. repeat split; discriminate.
    - cbn in Hd. assert (d = 1) by congruence. repeat split; auto; discriminate.
    - cbn in Hd. assert (d = -1) by congruence. repeat split; auto; discriminate.
    - assert (d = 1) by congruence. repeat split; auto; discriminate. }
  destruct D as (D & D1 & D2 & D3).
  apply bind_ok in H as ([x y] & Hx & H). cbn [fst snd] in H.
  destruct (reconstruct x y (norm p) (norm q) _ _ _ _) as [[[vr1 vr2] vt1] vt2] eqn:R.
  match type of H with Ok ?s = _ => assert (E : sol = s) by congruence end. subst sol. cbn [velocities] in V.
  destruct (Req_EM_T (norm (cross (versor p) (versor q))) 0) as [|Nz]; [discriminate|].
  assert (W : cross (versor p) (versor q) <> vzero).
  { intros E. apply Nz. now apply norm_zero_iff. }
  split; [exact W|]. set (n := versor (cross (versor p) (versor q))) in *.
  assert (N : exists e, plane_normal p q = vscale e n /\ (e = 1 \/ e = -1) /\ (0 <= vz (cross p q) -> e = 1)).
  { unfold plane_normal. cbv zeta. fold n. destruct (Rlt_dec (vz n) 0) as [L|L].
    - exists (-1). split; [reflexivity|]. split; [now right|]. intros Z. exfalso.
      assert (Vz : vz n = / norm (cross (versor p) (versor q)) * (/ norm p * / norm q * vz (cross p q))).
      { transitivity (/ norm (cross (versor p) (versor q)) * vz (cross (versor p) (versor q))); [reflexivity|].
        f_equal. now rewrite cross_versor. }
      apply norm_pos in W, Hp, Hq. apply Rinv_0_lt_compat in W, Hp, Hq.
      pose proof (Rmult_lt_0_compat _ _ Hp Hq) as X. pose proof (Rmult_le_pos _ _ (Rlt_le _ _ X) Z) as X2.
      pose proof (Rmult_le_pos _ _ (Rlt_le _ _ W) X2). lra.
    - exists 1. split; [|split; [now left|reflexivity]]. apply v3_eq; cbn; ring. }
  destruct N as (e & Ne & He & Hz).
  exists d, e, x. split; [exact D|]. split; [exact He|]. split; [exact Hz|]. split; [exact D1|]. split; [exact D2|]. split; [exact D3|].
  assert (Lm : (if (if Rlt_dec d 0 then true else false) then - sqrt (1 - chord_norm p q / semi_parameter p q)
                else sqrt (1 - chord_norm p q / semi_parameter p q)) = d * sqrt (1 - chord_norm p q / semi_parameter p q)).
  { destruct D as [-> | ->]; [destruct (Rlt_dec 1 0); lra|]. destruct (Rlt_dec (-1) 0); lra. }
  rewrite Lm in Hx, R. cbv zeta. set (lam := d * sqrt (1 - chord_norm p q / semi_parameter p q)) in *.
  assert (Y : y = sqrt (1 - lam ^ 2 * (1 - x ^ 2)) /\ Rabs lam < 1).
  { unfold find_xy in Hx. destruct (Rlt_dec (Rabs lam) 1) as [L|]; [|discriminate]. split; [|exact L].
    apply bind_ok in Hx as (mm & _ & Hx). destruct (Nat.ltb mm _); [discriminate|].
    apply bind_ok in Hx as (x' & _ & Hx). unfold compute_y in Hx. congruence. }
  destruct Y as [Ey La].
  split.
  { rewrite <- Rsqr_pow2. apply Rsqr_sqrt. apply Rabs_def2 in La. assert (lam ^ 2 <= 1) by nra.
    pose proof (pow2_ge_0 x). pose proof (pow2_ge_0 lam). nra. }
  split. { split; [exact La|]. rewrite <- Ey. exact Hx. }
  rewrite <- Ey, R.
  assert (Nu : dot n n = 1) by now apply versor_unit.
  assert (Hn : dot (vscale e n) (vscale e n) = 1).
  { rewrite dot_scale, dot_comm, dot_scale, Nu. destruct He as [-> | ->]; ring. }
  assert (T : forall u, dot u u = 1 -> dot u n = 0 ->
    versor (if (if Rlt_dec d 0 then true else false) then cross u (plane_normal p q) else cross (plane_normal p q) u) =
    vscale d (cross (vscale e n) u)).
  { intros u Hu Hun. rewrite Ne.
    assert (Uc : dot (cross (vscale e n) u) (cross (vscale e n) u) = 1).
    { assert (E : dot (cross (vscale e n) u) (cross (vscale e n) u) =
        dot (vscale e n) (vscale e n) * dot u u - (e * dot u n) * (e * dot u n)) by (unfold dot, cross, vscale; cbn [vx vy vz]; ring).
      rewrite E, Hn, Hu, Hun. ring. }
    destruct D as [-> | ->].
    - destruct (Rlt_dec 1 0); [lra|]. rewrite unit_versor by exact Uc. apply v3_eq; cbn [vscale vx vy vz]; ring.
    - destruct (Rlt_dec (-1) 0); [|lra].
      assert (E : cross u (vscale e n) = vscale (-1) (cross (vscale e n) u)).
      { apply v3_eq; unfold cross, vscale; cbn [vx vy vz]; ring. }
      rewrite E. apply unit_versor. rewrite dot_scale, dot_comm, dot_scale, Uc. ring. }
  destruct (versor_unit p Hp) as [U1 _]. destruct (versor_unit q Hq) as [U2 _].
  rewrite (T (versor p) U1 (n_u1 p q)), (T (versor q) U2 (n_u2 p q)) in V.
  split; congruence.
Qed.

(** C69: both ends have the same angular momentum and the same energy. *)
Theorem C69_moment_energy : forall hyp2f1b mu_of i kind sol v1 v2, posed mu_of i ->
  izzo hyp2f1b mu_of i kind = Ok sol -> velocities sol = Some (v1, v2) ->
  cross (departure i) v1 = cross (arrival i) v2 /\
  energy (mu_at mu_of i) (departure i) v1 = energy (mu_at mu_of i) (arrival i) v2.
Proof.
  intros hyp2f1b mu_of i kind sol v1 v2 P H V.
  destruct (izzo_ok _ _ _ _ _ _ _ P H V) as (W & d & e & x & D & E & _ & _ & _ & _ & Y & _ & S).
  destruct P as (Hm & Hp & Hq).
  cbv zeta in S, Y. match type of S with match ?r with _ => _ end => destruct r as [[[vr1 vr2] vt1] vt2] eqn:R end.
  destruct S as [-> ->].
  pose proof (izzo_moment_energy _ _ Hp Hq W d D (mu_at mu_of i) x _ Hm Y e ltac:(destruct E as [-> | ->]; ring)) as C.
  cbv zeta in C. rewrite R in C. exact C.
Qed.

(** C69: both ends are on one conic.  Partial: when the arrival is not on the side of the
    departure where the normal of the plane has a negative z (false there, see below). *)
Theorem C69_same_conic_partial : forall hyp2f1b mu_of i kind sol v1 v2, posed mu_of i ->
  0 <= vz (cross (departure i) (arrival i)) ->
  izzo hyp2f1b mu_of i kind = Ok sol -> velocities sol = Some (v1, v2) ->
  same_conic (mu_at mu_of i) (departure i) v1 (arrival i) v2.
Proof.
  intros hyp2f1b mu_of i kind sol v1 v2 P Hz H V.
  destruct (izzo_ok _ _ _ _ _ _ _ P H V) as (W & d & e & x & D & _ & E & _ & _ & _ & Y & _ & S).
  rewrite (E Hz) in S. destruct P as (Hm & Hp & Hq).
  cbv zeta in S, Y. match type of S with match ?r with _ => _ end => destruct r as [[[vr1 vr2] vt1] vt2] eqn:R end.
  destruct S as [-> ->].
  pose proof (izzo_conic _ _ Hp Hq W d D (mu_at mu_of i) x _ Hm Y) as C.
  cbv zeta in C. rewrite R in C. cbn [fst snd] in C.
  replace (vscale 1 (versor (cross (versor (departure i)) (versor (arrival i)))))
    with (versor (cross (versor (departure i)) (versor (arrival i)))); [exact C|].
  apply v3_eq; cbn [vscale vx vy vz]; ring.
Qed.

(** ** A quarter of a turn, with the time of flight of the minimum energy ellipse *)
Definition quarter_lam : R := sqrt 2 - 1.
Definition quarter_s : R := (2 + sqrt 2) / 2.
Definition quarter_t : R := acos quarter_lam + quarter_lam * sqrt (1 - quarter_lam ^ 2).
Definition quarter_mu (f : nat) : R := quarter_t ^ 2 * quarter_s ^ 3 / 2.
Definition quarter (k : R) : lambert_input := between 1000000000 (V3 1 0 0) (V3 0 k 0).

Lemma root2 : 1.4 < sqrt 2 < 1.5 /\ sqrt 2 * sqrt 2 = 2.
Proof.
  assert (E : sqrt 2 * sqrt 2 = 2) by (apply sqrt_sqrt; lra). pose proof (sqrt_pos 2). split; [|exact E]. split; nra.
Qed.
Lemma quarter_lam_bounds : 0 < quarter_lam < 1 / 2 /\ quarter_lam * quarter_lam = 3 - 2 * sqrt 2.
Proof. pose proof root2 as [A B]. unfold quarter_lam. split; [lra|]. ring_simplify. nra. Qed.

Lemma quarter_t_bounds : 0 < quarter_t < PI.
Proof.
  pose proof quarter_lam_bounds as [B _]. pose proof PI_bounds.
  assert (A : 0 < acos quarter_lam <= PI / 2).
  { split.
    - pose proof (acos_bound quarter_lam) as [C _]. destruct C as [C|C]; [exact C|]. exfalso.
      assert (cos (acos quarter_lam) = 1) by (rewrite <- C; apply cos_0). rewrite cos_acos in H0; lra.
    - apply Rnot_lt_le. intros C. assert (cos (acos quarter_lam) < 0).
      { apply cos_lt_0; [lra|]. pose proof (acos_bound quarter_lam). lra. }
      rewrite cos_acos in H0; lra. }
  assert (S : 0 <= sqrt (1 - quarter_lam ^ 2) <= 1).
  { split; [apply sqrt_pos|]. apply Rle_trans with (sqrt 1); [|rewrite sqrt_1; lra]. apply sqrt_le_1_alt. pose proof (pow2_ge_0 quarter_lam). lra. }
  unfold quarter_t. nra.
Qed.

Section Quarter.
Context (k : R) (Hk : k = 1 \/ k = -1) (hyp2f1b : R -> R).
Notation p := (V3 1 0 0). Notation q := (V3 0 k 0).

Lemma quarter_r1 : norm p = 1. Proof. apply norm_of; [lra|]. unfold dot. cbn. ring. Qed.
Lemma quarter_r2 : norm q = 1.
Proof. apply norm_of; [lra|]. unfold dot. cbn [vx vy vz]. destruct Hk as [-> | ->]; ring. Qed.
Lemma quarter_chord : chord_norm p q = sqrt 2.
Proof.
  unfold chord_norm, norm. f_equal. unfold dot, vsub. cbn [vx vy vz]. destruct Hk as [-> | ->]; ring.
Qed.
Lemma quarter_semi : semi_parameter p q = quarter_s.
Proof. unfold semi_parameter, quarter_s. rewrite quarter_r1, quarter_r2, quarter_chord. field. Qed.
Lemma quarter_lambda : sqrt (1 - sqrt 2 / quarter_s) = quarter_lam.
Proof.
  pose proof root2 as [A B]. pose proof quarter_lam_bounds as [C D]. apply sqrt_lem_1.
  - unfold quarter_s. apply Rlt_le. replace (1 - sqrt 2 / ((2 + sqrt 2) / 2)) with ((2 - sqrt 2) / (2 + sqrt 2)) by (field; lra).
    apply Rdiv_lt_0_compat; lra.
  - lra.
  - rewrite D. unfold quarter_s. apply (Rmult_eq_reg_r (2 + sqrt 2)); [|lra]. field_simplify; [|lra]. nra.
Qed.
Lemma quarter_versors : versor p = p /\ versor q = q.
Proof.
  split; apply unit_versor; unfold dot; cbn [vx vy vz]; [ring|]. destruct Hk as [-> | ->]; ring.
Qed.
Lemma quarter_normal : plane_normal p q = V3 0 0 1.
Proof.
  destruct quarter_versors as [Ep Eq]. unfold plane_normal. rewrite Ep, Eq.
  assert (W : cross p q = V3 0 0 k) by (apply v3_eq; unfold cross; cbn; ring). rewrite W.
  rewrite unit_versor by (unfold dot; cbn [vx vy vz]; destruct Hk as [-> | ->]; ring). cbn [vz].
  destruct Hk as [-> | ->].
  - destruct (Rlt_dec 1 0); [lra|reflexivity].
  - destruct (Rlt_dec (-1) 0); [|lra]. apply v3_eq; cbn; ring.
Qed.

Lemma quarter_search : find_xy hyp2f1b quarter_lam quarter_t 0 MAX_ITERATIONS LAMBERT_EPSILON LAMBERT_EPSILON true =
  Ok (0, sqrt (1 - quarter_lam ^ 2)).
Proof.
  pose proof quarter_lam_bounds as [B _]. pose proof quarter_t_bounds as T. pose proof PI_bounds as P.
  unfold find_xy. destruct (Rlt_dec (Rabs quarter_lam) 1) as [_|N]; [|exfalso; apply N; rewrite Rabs_right; lra].
  assert (M : as_u32 (quarter_t / PI) = O).
  { unfold as_u32. assert (Int_part (quarter_t / PI) = 0%Z) as ->; [|reflexivity].
    destruct (Int_part_bounds (quarter_t / PI)) as [I1 I2].
    assert (Q : 0 < quarter_t / PI < 1).
    { split; [apply Rdiv_lt_0_compat; lra|]. apply (Rmult_lt_reg_r PI); [lra|]. unfold Rdiv. rewrite Rmult_assoc, Rinv_l; lra. }
    assert (A : (Int_part (quarter_t / PI) < 1)%Z) by (apply lt_IZR; lra).
    assert (C : (-1 < Int_part (quarter_t / PI))%Z) by (apply lt_IZR; lra). lia. }
  cbv zeta. rewrite M. rewrite Bool.andb_false_r. cbn [bind Nat.ltb Nat.leb].
  assert (G : initial_guess quarter_t quarter_lam 0 true = 0).
  { unfold initial_guess. fold quarter_t. destruct (Rle_dec quarter_t quarter_t); [|lra].
    unfold Rdiv. rewrite Rinv_r by lra. unfold Rpower. rewrite ln_1, Rmult_0_r, exp_0. ring. }
  rewrite G.
  assert (Yc : compute_y 0 quarter_lam = sqrt (1 - quarter_lam ^ 2)) by (unfold compute_y; f_equal; ring).
  assert (F : tof_equation_y hyp2f1b 0 (sqrt (1 - quarter_lam ^ 2)) quarter_t quarter_lam 0 = 0).
  { unfold tof_equation_y. destruct (Rlt_dec (6 / 10) (0 ^ 2)) as [L|_]; [exfalso; revert L; lra|]. cbn [andb].
    unfold compute_psi. destruct (Rlt_dec 1 0); [lra|]. destruct (Rlt_dec 0 1); [|lra].
    cbn [INR]. replace (1 - 0 ^ 2) with 1 by ring. rewrite Rabs_R1, sqrt_1. unfold quarter_t.
    replace (0 * sqrt (1 - quarter_lam ^ 2) + quarter_lam * 1) with quarter_lam by ring. field. }
  assert (H : householder hyp2f1b MAX_ITERATIONS 0 quarter_t quarter_lam 0 LAMBERT_EPSILON LAMBERT_EPSILON = Ok 0).
  { assert (HS : forall m, householder hyp2f1b (S m) 0 quarter_t quarter_lam 0 LAMBERT_EPSILON LAMBERT_EPSILON = Ok 0); [|exact (HS 999%nat)].
    intros m. cbn [householder]. rewrite Yc, F.
    set (f2 := tof_equation_p2 _ _ _ _ _). set (f3 := tof_equation_p3 _ _ _ _ _).
    assert (D : tof_equation_p 0 (sqrt (1 - quarter_lam ^ 2)) (0 + quarter_t) quarter_lam = -2).
    { unfold tof_equation_p. unfold Rdiv. replace (1 - 0 ^ 2) with 1 by ring. rewrite Rinv_1. ring. }
    rewrite D. destruct (Rlt_dec _ (1 / 10 ^ 14)) as [L|_].
    - exfalso. revert L. replace (-2 * ((-2) ^ 2 - 0 * f2) + f3 * 0 ^ 2 / 6) with (-8) by field.
      rewrite Rabs_left by lra. lra.
    - match goal with |- (if Rlt_dec ?a ?b then _ else _) = _ => destruct (Rlt_dec a b) as [_|L] end.
      + f_equal. ring.
      + exfalso. apply L. match goal with |- Rabs ?z < _ => replace z with 0 by ring end.
        rewrite Rabs_R0. unfold LAMBERT_EPSILON. lra. }
  rewrite H. cbn [bind]. now rewrite Yc.
Qed.

Lemma quarter_solved : exists sol g, 0 < g /\ g * g = quarter_mu 0 * quarter_s / 2 /\
  izzo hyp2f1b quarter_mu (quarter k) ShortWay = Ok sol /\
  let y := sqrt (1 - quarter_lam ^ 2) in
  velocities sol = Some (V3 (g * quarter_lam * y) (g * y) 0, V3 (- k * g * y) (- k * (g * quarter_lam * y)) 0).
Proof.
  pose proof root2 as [R2 _]. pose proof quarter_t_bounds as T. assert (Sp : 0 < quarter_s) by (unfold quarter_s; lra).
  assert (Mp : 0 < quarter_mu 0).
  { unfold quarter_mu. pose proof (pow_lt quarter_t 2 ltac:(lra)). pose proof (pow_lt quarter_s 3 Sp). nra. }
  assert (G : 0 < quarter_mu 0 * quarter_s / 2) by nra.
  unfold izzo. cbn [quarter between initial_state final_state on_path radius_km epoch frame direction_of_motion bind].
  destruct quarter_versors as [Ep Eq]. rewrite Ep, Eq, quarter_normal, quarter_r1, quarter_r2, quarter_chord, quarter_semi, quarter_lambda.
  destruct (Rlt_dec 1 0); [lra|].
  assert (Tt : sqrt (2 * quarter_mu 0 / quarter_s ^ 3) * Prop_Model.to_secs (1000000000 - 0) = quarter_t).
  { unfold Prop_Model.to_secs. cbn [Z.sub Z.add Z.opp]. replace (1000000000 / 1000000000) with 1 by field. rewrite Rmult_1_r.
    apply sqrt_lem_1; [|lra|].
    - apply Rlt_le, Rdiv_lt_0_compat; [lra|]. now apply pow_lt.
    - unfold quarter_mu. field. lra. }
  rewrite Tt, quarter_search. cbn [bind fst snd reconstruct].
  set (g := sqrt (quarter_mu 0 * quarter_s / 2)). set (y := sqrt (1 - quarter_lam ^ 2)).
  eexists. exists g. split; [now apply sqrt_lt_R0|]. split; [apply sqrt_sqrt; lra|]. split; [reflexivity|]. cbn [velocities].
  assert (W : cross p q = V3 0 0 k) by (apply v3_eq; unfold cross; cbn; ring).
  destruct (Req_EM_T (norm (cross p q)) 0) as [Z|_].
  { exfalso. apply norm_zero_iff in Z. rewrite W in Z. unfold vzero in Z. injection Z. intros. destruct Hk; lra. }
  assert (S1 : sqrt (1 - ((1 - 1) / sqrt 2) ^ 2) = 1).
  { replace (1 - ((1 - 1) / sqrt 2) ^ 2) with 1 by (field; lra). apply sqrt_1. }
  rewrite S1.
  rewrite (unit_versor (cross (V3 0 0 1) p)) by (unfold dot, cross; cbn [vx vy vz]; ring).
  rewrite (unit_versor (cross (V3 0 0 1) q)) by (unfold dot, cross; cbn [vx vy vz]; destruct Hk as [-> | ->]; ring).
  unfold vadd, vscale, cross. cbn [vx vy vz].
  do 2 f_equal; apply v3_eq; cbn [vx vy vz]; field; lra.
Qed.

Lemma quarter_posed : posed quarter_mu (quarter k).
Proof.
  pose proof root2 as [R2 _]. pose proof quarter_t_bounds as T. assert (Sp : 0 < quarter_s) by (unfold quarter_s; lra).
  split; [|split].
  - unfold mu_at, quarter_mu. pose proof (pow_lt quarter_t 2 ltac:(lra)). pose proof (pow_lt quarter_s 3 Sp). nra.
  - cbn. unfold vzero. intros E. injection E. intros. lra.
  - cbn. unfold vzero. intros E. injection E. intros. destruct Hk; lra.
Qed.
End Quarter.

(** A quarter of a turn about positive z meets the hypotheses. *)
Example quarter_example : exists sol v1 v2, posed quarter_mu (quarter 1) /\
  0 <= vz (cross (departure (quarter 1)) (arrival (quarter 1))) /\
  izzo (fun _ => 1) quarter_mu (quarter 1) ShortWay = Ok sol /\ velocities sol = Some (v1, v2).
Proof.
  destruct (quarter_solved 1 (or_introl eq_refl) (fun _ => 1)) as (sol & g & _ & _ & E & V).
  exists sol. do 2 eexists. split; [apply quarter_posed; now left|]. split; [cbn; lra|]. split; [exact E|exact V].
Qed.

(** C69: a quarter of a turn about negative z: the velocities are not on one conic, so that
    Newton's law takes the departure to the arrival in no time of flight at all. *)
Theorem C69_same_conic_refuted : exists mu_of i, posed mu_of i /\ forall hyp2f1b, exists sol v1 v2,
  izzo hyp2f1b mu_of i ShortWay = Ok sol /\ velocities sol = Some (v1, v2) /\
  ~ same_conic (mu_at mu_of i) (departure i) v1 (arrival i) v2 /\
  forall t, ~ kepler_arc (mu_at mu_of i) (departure i) v1 (arrival i) v2 t.
Proof.
  exists quarter_mu, (quarter (-1)). split; [apply quarter_posed; now right|]. intros hyp.
  destruct (quarter_solved (-1) (or_intror eq_refl) hyp) as (sol & g & Hg & G2 & E & V). cbv zeta in V.
  exists sol. do 2 eexists. split; [exact E|]. split; [exact V|].
  assert (Hm : 0 < mu_at quarter_mu (quarter (-1))) by (apply quarter_posed; now right).
  match goal with |- ?A /\ _ => assert (NC : A) end.
  2:{ split; [exact NC|]. intros t K. apply NC. exact (arc_conic _ _ _ _ _ _ Hm K). }
  intros (_ & _ & Ec). revert Ec. change (mu_at quarter_mu (quarter (-1))) with (quarter_mu 0) in *.
  set (mu := quarter_mu 0) in *. set (y := sqrt (1 - quarter_lam ^ 2)).
  pose proof root2 as [R2 R22]. pose proof quarter_lam_bounds as [Lb L2].
  assert (Y2 : y * y = 1 - quarter_lam ^ 2) by (apply sqrt_sqrt; nra).
  unfold eccentricity. change (departure (quarter (-1))) with (V3 1 0 0). change (arrival (quarter (-1))) with (V3 0 (-1) 0).
  assert (N1 : norm (V3 1 0 0) = 1) by (apply norm_of; [lra|unfold dot; cbn; ring]).
  assert (N2 : norm (V3 0 (-1) 0) = 1) by (apply norm_of; [lra|unfold dot; cbn; ring]).
  rewrite N1, N2. intros Ec. apply (f_equal vx) in Ec. revert Ec. unfold cross, vsub, vscale. cbn [vx vy vz]. intros Ec.
  assert (K : g * g * (y * y) = mu * (sqrt 2 / 2)).
  { rewrite G2, Y2. unfold quarter_s. replace (quarter_lam ^ 2) with (3 - 2 * sqrt 2) by (rewrite <- L2; ring).
    transitivity (mu * ((2 + sqrt 2) * (sqrt 2 - 1) / 2)); [field|]. f_equal. nra. }
  assert (Ec1 : / mu * (g * g * (y * y)) - 1 = / mu * (quarter_lam * (g * g * (y * y)))) by (rewrite Rinv_1 in Ec; lra).
  rewrite K in Ec1. unfold quarter_lam in Ec1.
  assert (F1 : / mu * (mu * (sqrt 2 / 2)) = sqrt 2 / 2) by (field; lra).
  assert (F2 : / mu * ((sqrt 2 - 1) * (mu * (sqrt 2 / 2))) = (sqrt 2 - 1) * (sqrt 2 / 2)) by (field; lra).
  rewrite F1, F2 in Ec1. nra.
Qed.

(** C69: a departure and an arrival at the same position stop the program. *)
Theorem C69_same_position_refuted : exists mu_of i, posed mu_of i /\
  forall hyp2f1b, izzo hyp2f1b mu_of i ShortWay = Panic.
Proof.
  exists one_body, (between 1000000000 (V3 1 0 0) (V3 1 0 0)). split.
  { unfold posed, mu_at, one_body. cbn. unfold vzero. repeat split; [lra|..]; intros E; injection E; intros; lra. }
  intros hyp. unfold izzo. cbn [between initial_state final_state on_path radius_km epoch frame direction_of_motion bind].
  assert (C : chord_norm (V3 1 0 0) (V3 1 0 0) = 0).
  { unfold chord_norm, norm. replace (dot _ _) with 0 by (unfold dot, vsub; cbn [vx vy vz]; ring). apply sqrt_0. }
  rewrite C. unfold Rdiv at 2. rewrite Rmult_0_l, Rminus_0_r, sqrt_1. destruct (Rlt_dec 1 0); [lra|].
  unfold find_xy at 1. rewrite Rabs_R1. destruct (Rlt_dec 1 1); [lra|]. reflexivity.
Qed.

Print Assumptions C69_moment_energy.
Print Assumptions C69_same_conic_partial.
Print Assumptions C69_same_conic_refuted.
Print Assumptions C69_same_position_refuted.
