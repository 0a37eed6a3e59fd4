(** Lemmas about the B-plane. *)
From Coq Require Import Reals Lra Psatz.
From Coquelicot Require Import Coquelicot.
From Verif Require Import Base Vec3 Angles Dual Bpl_Model Bpl_Spec.
Local Open Scope R_scope.

(** ** Dual numbers that move with a real variable: the partial [j] at 0 is the derivative. *)
Definition moves (j : nat) (f : R -> dual) : Prop := tracks j (fun h => re (f h)) (f 0).
Definition moves3 (j : nat) (f : R -> d3) : Prop :=
  moves j (fun h => ux (f h)) /\ moves j (fun h => uy (f h)) /\ moves j (fun h => uz (f h)).

Lemma m_const j x : moves j (fun _ => dconst x).
Proof. apply tracks_const. Qed.
Lemma m_add j f g : moves j f -> moves j g -> moves j (fun h => dadd (f h) (g h)).
Proof. apply (tracks_add j (fun h => re (f h)) (fun h => re (g h))). Qed.
Lemma m_sub j f g : moves j f -> moves j g -> moves j (fun h => dsub (f h) (g h)).
Proof. apply (tracks_sub j (fun h => re (f h)) (fun h => re (g h))). Qed.
Lemma m_mul j f g : moves j f -> moves j g -> moves j (fun h => dmul (f h) (g h)).
Proof. apply (tracks_mul j (fun h => re (f h)) (fun h => re (g h))). Qed.
Lemma m_div j f g : re (g 0) <> 0 -> moves j f -> moves j g -> moves j (fun h => ddiv (f h) (g h)).
Proof. apply (tracks_div j (fun h => re (f h)) (fun h => re (g h))). Qed.
Lemma m_pow j f n : moves j f -> moves j (fun h => dpow (f h) n).
Proof. apply (tracks_pow j (fun h => re (f h))). Qed.
Lemma m_sqrt j f : 0 < re (f 0) -> moves j f -> moves j (fun h => dsqrt (f h)).
Proof. apply (tracks_sqrt j (fun h => re (f h))). Qed.

Lemma m3_add j f g : moves3 j f -> moves3 j g -> moves3 j (fun h => d3_add (f h) (g h)).
Proof. intros (A & B & C) (D & E & F). refine (conj _ (conj _ _)); cbn [ux uy uz d3_add]; now apply m_add. Qed.
Lemma m3_sub j f g : moves3 j f -> moves3 j g -> moves3 j (fun h => d3_sub (f h) (g h)).
Proof. intros (A & B & C) (D & E & F). refine (conj _ (conj _ _)); cbn [ux uy uz d3_sub]; now apply m_sub. Qed.
Lemma m3_mul j f g : moves3 j f -> moves j g -> moves3 j (fun h => d3_mul (f h) (g h)).
Proof. intros (A & B & C) D. refine (conj _ (conj _ _)); cbn [ux uy uz d3_mul]; now apply m_mul. Qed.
Lemma m3_div j f g : re (g 0) <> 0 -> moves3 j f -> moves j g -> moves3 j (fun h => d3_div (f h) (g h)).
Proof. intros N (A & B & C) D. refine (conj _ (conj _ _)); cbn [ux uy uz d3_div]; now apply m_div. Qed.
Lemma m3_cross j f g : moves3 j f -> moves3 j g -> moves3 j (fun h => d3_cross (f h) (g h)).
Proof.
  intros (A & B & C) (D & E & F).
  refine (conj _ (conj _ _)); cbn [ux uy uz d3_cross]; apply m_sub; now apply m_mul.
Qed.
Lemma m_dot j f g : moves3 j f -> moves3 j g -> moves j (fun h => d3_dot (f h) (g h)).
Proof. intros (A & B & C) (D & E & F). unfold d3_dot. repeat apply m_add; now apply m_mul. Qed.
Lemma m_norm j f : reals (f 0) <> vzero -> moves3 j f -> moves j (fun h => dnorm (f h)).
Proof.
  intros N (A & B & C). unfold dnorm. apply m_sqrt.
  - rewrite dot_re. now apply dot_pos.
  - repeat apply m_add; now apply m_mul.
Qed.

(** ** The pieces of [from_dual] *)
Definition p_e mu r v := d3_div (d_evec mu r v) (d_ecc mu r v).
Definition p_h r v := d3_div (d_hvec r v) (d_hmag r v).
Definition p_n mu r v := d3_cross (p_h r v) (p_e mu r v).
Definition p_fact mu r v := dsqrt (dsub (dconst 1) (dpow (ddiv (dconst 1) (d_ecc mu r v)) 2)).
Definition p_s mu r v := d3_add (d3_div (p_e mu r v) (d_ecc mu r v)) (d3_mul (p_n mu r v) (p_fact mu r v)).
Definition p_shat mu r v := d3_div (p_s mu r v) (dnorm (p_s mu r v)).
Definition p_b mu r v := d3_mul (d3_sub (d3_mul (p_e mu r v) (p_fact mu r v))
  (d3_mul (p_n mu r v) (ddiv (dconst 1) (d_ecc mu r v)))) (d_semi_minor mu r v).
Definition p_t mu r v := d3_cross (p_shat mu r v) (D3 (dconst 0) (dconst 0) (dconst 1)).
Definition p_that mu r v := d3_div (p_t mu r v) (dnorm (p_t mu r v)).
Definition p_rhat mu r v := d3_cross (p_shat mu r v) (p_that mu r v).
Definition pieces mu r v : bplane :=
  {| b_t := d3_dot (p_b mu r v) (p_that mu r v); b_r := d3_dot (p_b mu r v) (p_rhat mu r v);
     ltof_s := ddiv (d3_dot (p_b mu r v) (p_shat mu r v)) (dnorm v);
     s_hat := reals (p_shat mu r v); t_hat := reals (p_that mu r v); r_hat := reals (p_rhat mu r v) |}.
Lemma from_dual_pieces mu r v :
  from_dual (Some mu) r v = if Rlt_dec 1 (re (d_ecc mu r v)) then Ok (pieces mu r v) else Err NotHyperbolic.
Proof. reflexivity. Qed.

(** ** Values *)
Definition zaxis : v3 := V3 0 0 1.
Lemma reals_cross a b : reals (d3_cross a b) = cross (reals a) (reals b).
Proof. reflexivity. Qed.
Lemma re_dot a b : re (d3_dot a b) = dot (reals a) (reals b).
Proof. reflexivity. Qed.
Lemma reals_div a k : reals (d3_div a k) = vscale (/ re k) (reals a).
Proof. apply v3_eq; cbn; unfold Rdiv; ring. Qed.
Lemma reals_mul a k : reals (d3_mul a k) = vscale (re k) (reals a).
Proof. apply v3_eq; cbn; ring. Qed.
Lemma reals_grad r v : reals (grad_pos r) = r /\ reals (grad_vel v) = v.
Proof. now destruct r, v. Qed.

(** The eccentricity vector. *)
Definition laplace (mu : R) (r v : v3) : v3 := vsub (cross v (cross r v)) (vscale (mu / norm r) r).
Lemma reals_evec mu r v : reals (d_evec mu r v) = vscale (/ mu) (laplace mu (reals r) (reals v)).
Proof.
  unfold d_evec. rewrite reals_div. cbn [re dconst]. f_equal. unfold laplace.
  set (R := reals r). set (V := reals v).
  assert (N : norm V * norm V = dot V V) by apply norm_sqr.
  transitivity (vsub (vscale (norm V * norm V - mu / norm R) R) (vscale (dot R V) V)).
  - unfold R, V. apply v3_eq; cbn [reals d3_sub d3_mul ux uy uz re dsub dmul ddiv dconst dpow vsub vscale vx vy vz];
      rewrite !dnorm_re, re_dot; ring.
  - rewrite N. apply v3_eq; unfold vsub, vscale, cross, dot; cbn [vx vy vz]; ring.
Qed.
Lemma laplace_dot mu r v : r <> vzero ->
  dot (laplace mu r v) (laplace mu r v) = mu ^ 2 + (dot v v - 2 * mu / norm r) * dot (cross r v) (cross r v).
Proof.
  intros H. apply norm_pos in H. pose proof (norm_sqr r) as N. set (n := norm r) in *.
  assert (E : dot (laplace mu r v) (laplace mu r v) =
    dot v v * dot (cross r v) (cross r v) - 2 * (mu / n) * dot (cross r v) (cross r v) + (mu / n) ^ 2 * dot r r).
  { unfold laplace. fold n. unfold dot, vsub, vscale, cross; cbn [vx vy vz]. ring. }
  rewrite E, <- N. field. lra.
Qed.
Lemma laplace_plane mu r v : dot (laplace mu r v) (cross r v) = 0.
Proof. unfold laplace, dot, vsub, vscale, cross; cbn [vx vy vz]. ring. Qed.

(** In an orthonormal basis. *)
Section Basis.
Context (u k : v3) (Hu : dot u u = 1) (Hk : dot k k = 1) (Huk : dot u k = 0).
Let n := cross k u.
Lemma n_unit : dot n n = 1.
Proof.
  assert (E : dot n n = dot k k * dot u u - dot u k * dot u k) by (unfold n, dot, cross; cbn; ring).
  rewrite E, Hu, Hk, Huk. ring.
Qed.
Lemma n_u : dot n u = 0.
Proof. unfold n, dot, cross; cbn; ring. Qed.
Lemma n_k : dot n k = 0.
Proof. unfold n, dot, cross; cbn; ring. Qed.
Lemma u_n : cross u n = k.
Proof.
  transitivity (vsub (vscale (dot u u) k) (vscale (dot u k) u)).
  - apply v3_eq; unfold n, vsub, vscale, cross, dot; cbn; ring.
  - rewrite Hu, Huk. apply v3_eq; unfold vsub, vscale; cbn; ring.
Qed.
Lemma n_k_u : cross n k = u.
Proof.
  transitivity (vsub (vscale (dot k k) u) (vscale (dot u k) k)).
  - apply v3_eq; unfold n, vsub, vscale, cross, dot; cbn; ring.
  - rewrite Hk, Huk. apply v3_eq; unfold vsub, vscale; cbn; ring.
Qed.
Lemma plane_dot a b c d : dot (vadd (vscale a u) (vscale b n)) (vadd (vscale c u) (vscale d n)) = a * c + b * d.
Proof.
  transitivity (a * c * dot u u + b * d * dot n n + (a * d + b * c) * dot n u).
  - unfold dot, vadd, vscale; cbn; ring.
  - rewrite Hu, n_unit, n_u. ring.
Qed.
Lemma plane_cross a b c d : cross (vadd (vscale a u) (vscale b n)) (vadd (vscale c u) (vscale d n)) = vscale (a * d - b * c) k.
Proof. rewrite <- u_n. apply v3_eq; unfold vadd, vscale, cross; cbn; ring. Qed.
Lemma plane_turn a b c : cross (vadd (vscale a u) (vscale b n)) (vscale c k) = vadd (vscale (c * b) u) (vscale (- c * a) n).
Proof.
  transitivity (vadd (vscale (c * b) (cross n k)) (vscale (- c * a) n)); [|now rewrite n_k_u].
  apply v3_eq; unfold n, vadd, vscale, cross; cbn; ring.
Qed.
End Basis.

(** ** A hyperbola *)
Lemma eccentric mu r v : 0 < mu -> 1 < norm (vscale (/ mu) (laplace mu r v)) ->
  let e := norm (vscale (/ mu) (laplace mu r v)) in let h := norm (cross r v) in
  r <> vzero /\ v <> vzero /\ 0 < h /\ 0 < dot v v - 2 * mu / norm r /\
  (dot v v - 2 * mu / norm r) * (h * h) = mu ^ 2 * (e * e - 1).
Proof.
  intros Hm He e h.
  assert (Hr : r <> vzero).
  { intros ->. assert (E : laplace mu vzero v = vzero).
    { apply v3_eq; unfold laplace, vsub, vscale, cross, vzero; cbn [vx vy vz]; ring. }
    rewrite E in He. replace (vscale (/ mu) vzero) with vzero in He by (apply v3_eq; unfold vscale, vzero; cbn; ring).
    rewrite (proj2 (norm_zero_iff vzero) eq_refl) in He. lra. }
  assert (Ee : e * e = / mu * / mu * dot (laplace mu r v) (laplace mu r v)).
  { unfold e. rewrite norm_sqr. unfold dot, vscale; cbn [vx vy vz]. ring. }
  rewrite laplace_dot in Ee by exact Hr.
  assert (Hh : h * h = dot (cross r v) (cross r v)) by apply norm_sqr.
  assert (Key : (dot v v - 2 * mu / norm r) * (h * h) = mu ^ 2 * (e * e - 1)).
  { rewrite Hh. rewrite Ee. field. split; [|lra]. apply norm_pos in Hr. lra. }
  assert (Hpos : 0 < mu ^ 2 * (e * e - 1)).
  { fold e in He. apply Rmult_lt_0_compat; [nra|nra]. }
  assert (Hh0 : 0 <= h) by apply norm_nonneg.
  assert (Hh1 : 0 < h).
  { destruct Hh0 as [|Z]; [assumption|]. rewrite <- Z in Key. rewrite <- Key in Hpos. lra. }
  split; [exact Hr|]. split.
  - intros ->. unfold h in Hh1. assert (E : cross r vzero = vzero) by (apply v3_eq; unfold cross, vzero; cbn [vx vy vz]; ring).
    rewrite E, (proj2 (norm_zero_iff vzero) eq_refl) in Hh1. lra.
  - split; [exact Hh1|]. split; [|exact Key]. rewrite <- Key in Hpos.
    assert (0 < h * h) by nra. nra.
Qed.

(** The asymptote and the B vector of the pieces. *)
Lemma unit_of a : a <> vzero -> dot (vscale (/ norm a) a) (vscale (/ norm a) a) = 1.
Proof.
  intros H. apply norm_pos in H. pose proof (norm_sqr a) as N.
  replace (dot (vscale (/ norm a) a) (vscale (/ norm a) a)) with (/ norm a * / norm a * dot a a) by (unfold dot, vscale; cbn; ring).
  rewrite <- N. field. lra.
Qed.
Lemma unit_norm a : dot a a = 1 -> norm a = 1.
Proof. intros H. unfold norm. rewrite H. apply sqrt_1. Qed.
Lemma scale_one a : vscale (/ 1) a = a.
Proof. apply v3_eq; unfold vscale; cbn; field. Qed.

Lemma pieces_values mu r v : 0 < mu -> 1 < re (d_ecc mu r v) ->
  let R := reals r in let V := reals v in
  incoming mu R V (reals (p_shat mu r v)) (reals (p_b mu r v)) /\ reals (p_s mu r v) = reals (p_shat mu r v) /\
  R <> vzero /\ V <> vzero /\ cross R V <> vzero.
Proof.
  intros Hm He R V. unfold d_ecc in He. rewrite dnorm_re, reals_evec in He. fold R V in He.
  destruct (eccentric mu R V Hm He) as (Hr & Hv & Hh & Hw & Key). cbn zeta in Key, Hh.
  assert (He' : re (d_ecc mu r v) = norm (vscale (/ mu) (laplace mu R V))).
  { unfold d_ecc. now rewrite dnorm_re, reals_evec. }
  set (E := vscale (/ mu) (laplace mu R V)) in *. set (e := norm E) in *. set (H := cross R V) in *. set (h := norm H) in *.
  assert (HE : E <> vzero). { intros Z. unfold e in He. rewrite Z, (proj2 (norm_zero_iff vzero) eq_refl) in He. lra. }
  assert (HH : H <> vzero). { intros Z. unfold h in Hh. rewrite Z, (proj2 (norm_zero_iff vzero) eq_refl) in Hh. lra. }
  set (u := vscale (/ e) E). set (k := vscale (/ h) H).
  assert (Hu : dot u u = 1) by (apply unit_of; exact HE). assert (Hk : dot k k = 1) by (apply unit_of; exact HH).
  assert (Huk : dot u k = 0).
  { transitivity (/ e * / h * / mu * dot (laplace mu R V) H); [unfold u, k, E, dot, vscale; cbn [vx vy vz]; ring|].
    unfold H. rewrite laplace_plane. ring. }
  set (n := cross k u).
  assert (Vu : reals (p_e mu r v) = u).
  { unfold p_e. rewrite reals_div, He', reals_evec. reflexivity. }
  assert (Vn : reals (p_n mu r v) = n).
  { unfold p_n. rewrite reals_cross, Vu. unfold p_h. rewrite reals_div. reflexivity. }
  set (beta := re (p_fact mu r v)).
  assert (He1 : 0 < 1 - / e * / e).
  { assert (e * e * (1 - / e * / e) = e * e - 1) by (field; lra). nra. }
  assert (Hb2 : beta * beta = 1 - / e * / e).
  { unfold beta, p_fact. cbn [re dsqrt dsub dpow ddiv dconst]. rewrite He'. fold e.
    rewrite sqrt_sqrt; [field; lra|]. replace ((1 / e) ^ 2) with (/ e * / e) by (field; lra). lra. }
  assert (Hb0 : 0 <= beta) by apply sqrt_pos.
  assert (Vs : reals (p_s mu r v) = vadd (vscale (/ e) u) (vscale beta n)).
  { unfold p_s. change (reals (d3_add ?a ?b)) with (vadd (reals a) (reals b)). rewrite reals_div, reals_mul, Vu, Vn, He'. reflexivity. }
  assert (Ns : dot (reals (p_s mu r v)) (reals (p_s mu r v)) = 1).
  { rewrite Vs. unfold n. rewrite (plane_dot u k) by assumption. lra. }
  assert (Vsh : reals (p_shat mu r v) = reals (p_s mu r v)).
  { unfold p_shat. rewrite reals_div, dnorm_re, (unit_norm _ Ns). apply scale_one. }
  set (q := sqrt (e * e - 1)).
  assert (Hq : 0 < q) by (apply sqrt_lt_R0; nra). assert (Hqq : q * q = e * e - 1) by (apply sqrt_sqrt; nra).
  assert (Hqb : q = e * beta).
  { apply Rsqr_inj; [lra|nra|]. unfold Rsqr. rewrite Hqq. replace (e * beta * (e * beta)) with (e * e * (beta * beta)) by ring.
    rewrite Hb2. field. lra. }
  assert (Vb : reals (p_b mu r v) = vscale (h * h / (mu * q)) (vadd (vscale beta u) (vscale (- / e) n))).
  { unfold p_b. rewrite reals_mul. change (reals (d3_sub ?a ?b)) with (vsub (reals a) (reals b)). rewrite !reals_mul, Vu, Vn.
    replace (re (d_semi_minor mu r v)) with (h * h / (mu * q)).
    - f_equal. cbn [re ddiv dconst]. rewrite He'. fold e. fold beta. apply v3_eq; unfold vsub, vadd, vscale; cbn [vx vy vz]; field; lra.
    - unfold d_semi_minor. cbn [re ddiv dpow dmul dsqrt dsub dconst]. unfold d_hmag. rewrite dnorm_re, He'. fold e.
      change (norm (reals (d_hvec r v))) with h.
      replace (e ^ 2 - 1) with (e * e - 1) by ring. fold q. field. lra. }
  split; [|split; [now symmetry|now repeat split]].
  rewrite Vsh. split; [exact Ns|]. rewrite Vs, Vb. split.
  - replace (dot (vadd (vscale (/ e) u) (vscale beta n)) (vscale (h * h / (mu * q)) (vadd (vscale beta u) (vscale (- / e) n))))
      with (h * h / (mu * q) * dot (vadd (vscale (/ e) u) (vscale beta n)) (vadd (vscale beta u) (vscale (- / e) n)))
      by (unfold dot, vscale; cbn [vx vy vz]; ring).
    unfold n. rewrite (plane_dot u k) by assumption. ring.
  - exists (mu * q / h). split; [apply Rdiv_lt_0_compat; nra|].
    assert (Hhk : H = vscale h k) by (unfold k; apply v3_eq; unfold vscale; cbn [vx vy vz]; field; lra).
    split; [|split].
    + apply (Rmult_eq_reg_r (h * h)); [|nra]. rewrite Key.
      replace (mu * q / h * (mu * q / h) * (h * h)) with (mu ^ 2 * (q * q)) by (field; lra). rewrite Hqq. ring.
    + fold H. transitivity (vscale (h * h / (mu * q) * (mu * q / h))
        (cross (vadd (vscale beta u) (vscale (- / e) n)) (vadd (vscale (/ e) u) (vscale beta n)))).
      { apply v3_eq; unfold cross, vscale; cbn [vx vy vz]; ring. }
      unfold n. rewrite (plane_cross u k) by assumption. rewrite Hhk.
      replace (beta * beta - - / e * / e) with 1 by lra. apply v3_eq; unfold vscale; cbn [vx vy vz]; field; lra.
    + change (vsub (cross V (cross R V)) (vscale (mu / norm R) R)) with (laplace mu R V). fold H.
      assert (El : laplace mu R V = vscale (mu * e) u).
      { unfold u, E. apply v3_eq; unfold vscale; cbn [vx vy vz]; field; lra. }
      rewrite El, Hhk.
      replace (cross (vscale (mu * q / h) (vadd (vscale (/ e) u) (vscale beta n))) (vscale h k))
        with (cross (vadd (vscale (/ e) u) (vscale beta n)) (vscale (mu * q) k))
        by (apply v3_eq; unfold cross, vscale, vadd; cbn [vx vy vz]; field; lra).
      unfold n. rewrite (plane_turn u k) by assumption. fold n.
      assert (A : mu * e = mu * q * beta + mu * / e).
      { rewrite Hqb. replace (mu * (e * beta) * beta) with (mu * e * (beta * beta)) by ring. rewrite Hb2. field. lra. }
      assert (B : - (mu * q) * / e + mu * beta = 0) by (rewrite Hqb; field; lra).
      apply v3_eq; unfold vadd, vscale; cbn [vx vy vz].
      * transitivity ((mu * q * beta + mu * / e) * vx u + (- (mu * q) * / e + mu * beta) * vx n); [rewrite B, <- A; ring|ring].
      * transitivity ((mu * q * beta + mu * / e) * vy u + (- (mu * q) * / e + mu * beta) * vy n); [rewrite B, <- A; ring|ring].
      * transitivity ((mu * q * beta + mu * / e) * vz u + (- (mu * q) * / e + mu * beta) * vz n); [rewrite B, <- A; ring|ring].
Qed.

(** ** Derivatives *)
Section Moving.
Context (mu : R) (j : nat) (r v : R -> d3) (Hm : 0 < mu) (Mr : moves3 j r) (Mv : moves3 j v)
        (He : 1 < re (d_ecc mu (r 0) (v 0))).
Let facts := pieces_values mu (r 0) (v 0) Hm He.
Lemma r_nz : reals (r 0) <> vzero. Proof. apply facts. Qed.
Lemma v_nz : reals (v 0) <> vzero. Proof. apply facts. Qed.
Lemma h_nz : reals (d_hvec (r 0) (v 0)) <> vzero. Proof. apply facts. Qed.
Lemma e_nz : reals (d_evec mu (r 0) (v 0)) <> vzero.
Proof.
  intros E. pose proof He as H. unfold d_ecc in H. rewrite dnorm_re, E, (proj2 (norm_zero_iff vzero) eq_refl) in H. lra.
Qed.
Lemma move_h : moves3 j (fun h => d_hvec (r h) (v h)).
Proof. now apply m3_cross. Qed.
Lemma move_hmag : moves j (fun h => d_hmag (r h) (v h)).
Proof. apply (m_norm j (fun h => d_hvec (r h) (v h))); [apply h_nz|apply move_h]. Qed.
Lemma move_evec : moves3 j (fun h => d_evec mu (r h) (v h)).
Proof.
  unfold d_evec. apply m3_div; [cbn; lra| |apply m_const]. apply m3_sub; apply m3_mul; trivial.
  - apply m_sub; [apply m_pow, m_norm; [apply v_nz|trivial]|]. apply m_div; [|apply m_const|apply m_norm; [apply r_nz|trivial]].
    rewrite dnorm_re. apply Rgt_not_eq, norm_pos, r_nz.
  - now apply m_dot.
Qed.
Lemma move_ecc : moves j (fun h => d_ecc mu (r h) (v h)).
Proof. apply (m_norm j (fun h => d_evec mu (r h) (v h))); [apply e_nz|apply move_evec]. Qed.
Lemma move_e : moves3 j (fun h => p_e mu (r h) (v h)).
Proof. unfold p_e. apply m3_div; [lra|apply move_evec|apply move_ecc]. Qed.
Lemma move_n : moves3 j (fun h => p_n mu (r h) (v h)).
Proof.
  unfold p_n. apply m3_cross; [|apply move_e]. unfold p_h. apply m3_div; [|apply move_h|apply move_hmag].
  unfold d_hmag. rewrite dnorm_re. apply Rgt_not_eq, norm_pos, h_nz.
Qed.
Lemma move_inv : moves j (fun h => ddiv (dconst 1) (d_ecc mu (r h) (v h))).
Proof. apply m_div; [lra|apply m_const|apply move_ecc]. Qed.
Lemma fact_pos : 0 < 1 - (1 / re (d_ecc mu (r 0) (v 0))) ^ 2.
Proof.
  set (e := re _) in *. assert (e * e * (1 - (1 / e) ^ 2) = e * e - 1) by (field; lra). nra.
Qed.
Lemma move_fact : moves j (fun h => p_fact mu (r h) (v h)).
Proof.
  unfold p_fact. apply m_sqrt; [exact fact_pos|]. apply m_sub; [apply m_const|]. apply m_pow, move_inv.
Qed.
Lemma move_s : moves3 j (fun h => p_s mu (r h) (v h)).
Proof.
  unfold p_s. apply m3_add; [apply m3_div; [lra|apply move_e|apply move_ecc]|apply m3_mul; [apply move_n|apply move_fact]].
Qed.
Lemma s_unit : dot (reals (p_shat mu (r 0) (v 0))) (reals (p_shat mu (r 0) (v 0))) = 1 /\
  norm (reals (p_s mu (r 0) (v 0))) = 1.
Proof.
  destruct facts as ((A & _) & B & _). split; [exact A|]. rewrite B. now apply unit_norm.
Qed.
Lemma move_shat : moves3 j (fun h => p_shat mu (r h) (v h)).
Proof.
  destruct s_unit as [_ N]. unfold p_shat. apply m3_div; [rewrite dnorm_re, N; lra|apply move_s|].
  apply m_norm; [|apply move_s]. intros E. rewrite E, (proj2 (norm_zero_iff vzero) eq_refl) in N. lra.
Qed.
Lemma move_b : moves3 j (fun h => p_b mu (r h) (v h)).
Proof.
  unfold p_b. apply m3_mul.
  - apply m3_sub; apply m3_mul; [apply move_e|apply move_fact|apply move_n|apply move_inv].
  - unfold d_semi_minor. assert (P : 0 < sqrt (re (d_ecc mu (r 0) (v 0)) ^ 2 - 1)) by (apply sqrt_lt_R0; nra).
    apply m_div; [|apply m_pow, move_hmag|apply m_mul; [apply m_const|]].
    + cbn [re dmul dconst dsqrt dsub dpow]. apply Rgt_not_eq, Rmult_lt_0_compat; [exact Hm|exact P].
    + apply m_sqrt; [cbn [re dsub dpow dconst]; nra|]. apply m_sub; [apply m_pow, move_ecc|apply m_const].
Qed.
Lemma move_ltof : moves j (fun h => ltof_s (pieces mu (r h) (v h))).
Proof.
  cbn [ltof_s pieces]. apply m_div; [|apply m_dot; [apply move_b|apply move_shat]|apply m_norm; [apply v_nz|trivial]].
  rewrite dnorm_re. apply Rgt_not_eq, norm_pos, v_nz.
Qed.
Context (Ht : cross (reals (p_shat mu (r 0) (v 0))) zaxis <> vzero).
Lemma move_that : moves3 j (fun h => p_that mu (r h) (v h)).
Proof.
  assert (Mt : moves3 j (fun h => p_t mu (r h) (v h))).
  { unfold p_t. apply m3_cross; [apply move_shat|]. repeat split; try apply tracks_const. }
  unfold p_that. apply m3_div; [|exact Mt|apply m_norm; [exact Ht|exact Mt]].
  rewrite dnorm_re. apply Rgt_not_eq, norm_pos, Ht.
Qed.
Lemma move_bt : moves j (fun h => b_t (pieces mu (r h) (v h))).
Proof. cbn [b_t pieces]. apply m_dot; [apply move_b|apply move_that]. Qed.
Lemma move_br : moves j (fun h => b_r (pieces mu (r h) (v h))).
Proof.
  cbn [b_r pieces]. apply m_dot; [apply move_b|]. unfold p_rhat. apply m3_cross; [apply move_shat|apply move_that].
Qed.
End Moving.

(** The state with one component of the velocity moved. *)
Lemma move_pos j r : moves3 (4 + j) (fun _ => grad_pos r).
Proof.
  refine (conj _ (conj _ _)); cbn [grad_pos ux uy uz]; (split; [reflexivity|]); cbn [du dvar re];
    destruct (_ =? _)%nat eqn:E; try (apply Nat.eqb_eq in E; lia); auto_derive; trivial.
Qed.
Lemma move_vel j v : (j < 3)%nat -> moves3 (4 + j) (fun h => grad_vel (shift (S j) h v)).
Proof.
  intros Hj. refine (conj _ (conj _ _)); cbn [grad_vel ux uy uz]; (split; [reflexivity|]); cbn [du dvar re shift vx vy vz];
    destruct j as [|[|[|j]]]; try lia; cbn [Nat.eqb Nat.add]; auto_derive; trivial; ring.
Qed.
Lemma locally_above f : f 0 > 1 -> ex_derive f 0 -> locally 0 (fun h => 1 < f h).
Proof.
  intros H D. apply ex_derive_continuous in D.
  assert (L : locally (f 0) (fun y => 1 < y)).
  { exists (mkposreal (f 0 - 1) ltac:(lra)). intros y Hy. apply Rabs_def2 in Hy as [_ Hy]. unfold minus, plus, opp in Hy; cbn in Hy. lra. }
  exact (D _ L).
Qed.
