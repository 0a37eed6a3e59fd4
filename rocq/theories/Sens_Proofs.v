(** Derivatives of the observables. *)
From Coq Require Import Reals Lra Psatz.
From Coquelicot Require Import Coquelicot.
From Verif Require Import Base Arc_Model Vec3 Sens_Model Sens_Spec.
Local Open Scope R_scope.

(** Nine parameters by name. *)
Lemma nine (p : list R) : length p = 9%nat ->
  exists a b c d e f g h i, p = [a; b; c; d; e; f; g; h; i].
Proof.
  intros H. do 9 (destruct p as [|? p]; [discriminate|]). destruct p; [|discriminate].
  now do 9 eexists.
Qed.

Definition nine_cases (i : nat) : (i < 9)%nat ->
  i = 0%nat \/ i = 1%nat \/ i = 2%nat \/ i = 3%nat \/ i = 4%nat \/ i = 5%nat \/
  i = 6%nat \/ i = 7%nat \/ i = 8%nat.
Proof. lia. Qed.

Ltac each_parameter H :=
  match type of H with (?i < _)%nat =>
    destruct (nine_cases i H) as [->|[->|[->|[->|[->|[->|[->|[->| ->]]]]]]]];
    cbn [nth replace pos vel vx vy vz vsub]
  end.

Lemma range_gradient tr p : length p = 9%nat -> vsub (pos p) tr <> vzero ->
  gradient (range tr) p
    (range_row {| delta_r := vsub (pos p) tr; delta_v := vzero |} (range tr p)).
Proof.
  intros Hl Hz. pose proof (dot_pos _ Hz) as Hp. clear Hz.
  destruct (nine p Hl) as (a & b & c & d & e & f & g & h & i & ->).
  destruct tr as [x y z]. unfold range, range_row, norm, dot in *.
  cbn [nth pos vel vx vy vz vsub delta_r] in *.
  pose proof (sqrt_lt_R0 _ Hp) as Hs.
  split; [reflexivity|]. intros j Hj. cbn [length] in Hj.
  each_parameter Hj; apply is_derive_Reals; auto_derive; try exact Hp; try exact I;
    unfold Rminus in *; try (field; lra).
Qed.

Lemma doppler_gradient tr tv p : length p = 9%nat -> vsub (pos p) tr <> vzero ->
  gradient (range_rate tr tv) p
    (doppler_row {| delta_r := vsub (pos p) tr; delta_v := vsub (vel p) tv |}
       (range tr p) (range_rate tr tv p)).
Proof.
  intros Hl Hz. pose proof (dot_pos _ Hz) as Hp. clear Hz.
  destruct (nine p Hl) as (a & b & c & d & e & f & g & h & i & ->).
  destruct tr as [x y z], tv as [x' y' z']. unfold range_rate, range, doppler_row, norm, dot in *.
  cbn [nth pos vel vx vy vz vsub delta_r delta_v] in *.
  pose proof (sqrt_lt_R0 _ Hp) as Hs. pose proof (sqrt_sqrt _ (Rlt_le _ _ Hp)) as Hss.
  split; [reflexivity|]. intros j Hj. cbn [length] in Hj.
  each_parameter Hj; apply is_derive_Reals; auto_derive;
    try (split; [exact Hp|split; [lra|exact I]]); try (split; [lra|exact I]); try exact I; try lra;
    unfold Rminus in *;
    match type of Hs with 0 < sqrt ?q => set (r := sqrt q) in *; clearbody r end;
    try (field; lra); try (repeat split; try exact Hp; lra).
Qed.

Lemma asin_lim (q : R -> R) (x l : R) : -1 < q x < 1 -> is_derive q x l ->
  is_derive (fun t => asin (q t)) x (l / sqrt (1 - q x ^ 2)).
Proof.
  intros H D. evar_last.
  - apply (is_derive_comp asin q); [|exact D]. apply is_derive_Reals.
    apply (proj1 (derive_pt_eq asin (q x) _ (derivable_pt_asin (q x) H))), derive_pt_asin.
  - unfold scal; cbn [Ring.mult]; unfold mult; cbn. rewrite Rmult_1_r.
    unfold Rsqr, Rdiv. now rewrite Rmult_1_l.
Qed.

(** The cosine of the elevation. *)
Lemma cos_elevation s r z : 0 < s -> 0 < r -> r * r = s * s + z * z ->
  -1 < z / r < 1 /\ sqrt (1 - (z / r) ^ 2) = s / r.
Proof.
  intros Hs Hr E. split.
  - assert (-r < z < r).
    { split; apply Rnot_le_lt; intros H.
      - assert (0 <= (- z - r) * (- z + r)) by (apply Rmult_le_pos; lra). nra.
      - assert (0 <= (z - r) * (z + r)) by (apply Rmult_le_pos; lra). nra. }
    split; apply (Rmult_lt_reg_r r); try lra; unfold Rdiv; rewrite Rmult_assoc, Rinv_l by lra; lra.
  - replace (1 - (z / r) ^ 2) with ((s / r) * (s / r)).
    + apply sqrt_square. unfold Rdiv. apply Rmult_le_pos; [lra|]. left. now apply Rinv_0_lt_compat.
    + replace ((s / r) * (s / r)) with ((s * s) / (r * r)) by (field; lra).
      replace (s * s) with (r * r - z * z) by lra. field. lra.
Qed.

Lemma elevation_gradient tr p : length p = 9%nat ->
  0 < vx (vsub (pos p) tr) ^ 2 + vy (vsub (pos p) tr) ^ 2 ->
  gradient (elevation axis_z tr) p
    (elevation_row {| delta_r := vsub (pos p) tr; delta_v := vzero |}).
Proof.
  intros Hl Hxy.
  destruct (nine p Hl) as (a & b & c & d & e & f & g & h & i & ->).
  destruct tr as [x y z]. unfold elevation, elevation_row, norm, dot, axis_z in *.
  cbn [nth pos vel vx vy vz vsub delta_r delta_v] in *.
  assert (Hp : 0 < (a - x) * (a - x) + (b - y) * (b - y) + (c - z) * (c - z)).
  { pose proof (Rle_0_sqr (c - z)). unfold Rsqr in *. cbn [pow] in Hxy. lra. }
  set (s := sqrt ((a - x) ^ 2 + (b - y) ^ 2)).
  set (r := sqrt ((a - x) * (a - x) + (b - y) * (b - y) + (c - z) * (c - z))).
  assert (Hs : 0 < s) by now apply sqrt_lt_R0.
  assert (Hr : 0 < r) by now apply sqrt_lt_R0.
  assert (Hss : s * s = (a - x) ^ 2 + (b - y) ^ 2) by (apply sqrt_sqrt; lra).
  assert (Hrr : r * r = (a - x) * (a - x) + (b - y) * (b - y) + (c - z) * (c - z))
    by (apply sqrt_sqrt; lra).
  destruct (cos_elevation s r (c - z) Hs Hr) as (H1 & H2); [rewrite Hrr, Hss; ring|].
  assert (H3 : sqrt (r ^ 2 - (c - z) ^ 2) = s).
  { replace (r ^ 2 - (c - z) ^ 2) with (s * s) by (cbn [pow]; rewrite Rmult_1_r, Hrr, Hss; ring).
    apply sqrt_square. lra. }
  rewrite H3. clear H3.
  assert (Hq : 0 * (a - x) + 0 * (b - y) + 1 * (c - z) = c - z) by ring.
  split; [reflexivity|]. intros j Hj. cbn [length] in Hj.
  each_parameter Hj; apply is_derive_Reals; evar_last;
    try (apply (asin_lim (fun t => _ / _)); [cbv beta; fold r; rewrite Hq; exact H1|]);
    try (auto_derive; [|reflexivity]); cbv beta; try exact I;
    change (a + - x) with (a - x); change (b + - y) with (b - y); change (c + - z) with (c - z);
    fold r; try (split; [exact Hp|split; [lra|exact I]]);
    rewrite Hq, H2; try (unfold Rdiv; ring); try (field; lra).
  assert (E : (c - z) * (c - z) = r * r - s * s) by (rewrite Hrr, Hss; ring).
  clearbody r s. revert E. generalize (c - z). intros w E.
  replace (1 * 1 * / r + w * (- ((1 * w + w * 1) * / (2 * r)) * / (r * r)))
    with ((r * r - w * w) / (r * r * r)) by (field; lra).
  rewrite E. field. lra.
Qed.

Lemma azimuth_gradient tr p : length p = 9%nat -> vx (vsub (pos p) tr) < 0 ->
  gradient (azimuth (opposite axis_x) axis_y tr) p
    (map Ropp (azimuth_row {| delta_r := vsub (pos p) tr; delta_v := vzero |})).
Proof.
  intros Hl Hx.
  destruct (nine p Hl) as (a & b & c & d & e & f & g & h & i & ->).
  destruct tr as [x y z]. unfold azimuth, azimuth_row, opposite, axis_x, axis_y, vscale, dot in *.
  cbn [nth pos vel vx vy vz vsub delta_r delta_v map] in *.
  split; [reflexivity|]. intros j Hj. cbn [length] in Hj.
  assert (0 < (a - x) * (a - x)) by nra. pose proof (Rle_0_sqr (b - y)). unfold Rsqr in *.
  assert (E1 : -1 * 1 * (a - x) + -1 * 0 * (b - y) + -1 * 0 * (c - z) = - (a - x)) by ring.
  assert (E2 : 0 * (a - x) + 1 * (b - y) + 0 * (c - z) = b - y) by ring.
  each_parameter Hj; apply is_derive_Reals; auto_derive; try exact I;
    change (a + - x) with (a - x); change (b + - y) with (b - y); change (c + - z) with (c - z);
    rewrite ?E1, ?E2; try lra; try (unfold Rdiv; ring);
    generalize dependent (a - x); generalize dependent (b - y); intros;
    field; cbn [pow]; lra.
Qed.

(** Scaling an observable scales its partial derivatives. *)
Lemma gradient_scale f p g k : gradient f p g -> gradient (fun q => f q * k) p (map (Rmult k) g).
Proof.
  intros (H1 & H2). split; [now rewrite map_length|]. intros i Hi.
  apply is_derive_Reals. pose proof (proj2 (is_derive_Reals _ _ _) (H2 i Hi)) as D.
  rewrite (nth_indep (map (Rmult k) g) 0 (k * 0)) by (rewrite map_length; lia). rewrite (map_nth (Rmult k)).
  evar_last; [apply (is_derive_scal_l (fun x => f (replace i x p)) _ _ k D)|].
  unfold scal; cbn; unfold mult; cbn. ring.
Qed.

(** Partial derivatives are unique. *)
Lemma gradient_unique f p g g' : gradient f p g -> gradient f p g' -> g = g'.
Proof.
  intros (H1 & H2) (H3 & H4). apply (nth_ext _ _ 0 0); [congruence|].
  intros i Hi. apply (uniqueness_limite (fun x => f (replace i x p)) (nth i p 0)).
  - apply H2. lia.
  - apply H4. lia.
Qed.

Lemma sqrt_lim (q : R -> R) (x l : R) : 0 < q x -> is_derive q x l ->
  is_derive (fun t => sqrt (q t)) x (l / (2 * sqrt (q x))).
Proof.
  intros H D. evar_last.
  - apply (is_derive_comp sqrt q); [|exact D]. apply is_derive_Reals, derivable_pt_lim_sqrt, H.
  - unfold scal; cbn; unfold mult; cbn. field. apply Rgt_not_eq, sqrt_lt_R0, H.
Qed.

Lemma distance_rate rx tx t rv tv : moves rx t rv -> moves tx t tv ->
  vsub (rx t) (tx t) <> vzero ->
  derivable_pt_lim (fun s => norm (vsub (rx s) (tx s))) t
    (dot (vsub (rx t) (tx t)) (vsub rv tv) / norm (vsub (rx t) (tx t))).
Proof.
  intros (A1 & A2 & A3) (B1 & B2 & B3) Hz. pose proof (dot_pos _ Hz) as Hp.
  pose proof (norm_pos _ Hz) as Hn.
  apply is_derive_Reals. unfold norm in *. evar_last.
  - apply (sqrt_lim (fun s => dot (vsub (rx s) (tx s)) (vsub (rx s) (tx s)))); [exact Hp|].
    unfold dot, vsub. cbn [vx vy vz].
    apply is_derive_Reals in A1, A2, A3, B1, B2, B3.
    apply (is_derive_plus (fun s => _ + _) (fun s => _ * _));
      [apply (is_derive_plus (fun s => _ * _) (fun s => _ * _))|];
      apply (is_derive_mult (fun s => _ - _) (fun s => _ - _)); try (intros; apply Rmult_comm);
      eapply @is_derive_minus; eassumption.
  - unfold plus, minus, mult, plus, opp; cbn. unfold dot, vsub in *. cbn [vx vy vz] in *. unfold Rminus.
    field. unfold Rminus in *. lra.
Qed.

