(** The local error for time-dependent equations, from the autonomous case. *)
From Coq Require Import Reals Lra Psatz.
From Verif Require Import Base Prop_Model RK_Model RK_Spec RK_Check RK_Step RK_OrderSpec RK_BSeries RK_Local.
Local Open Scope R_scope.

(** Fewer derivatives are enough for a lower order. *)
Lemma smooth_weaken {St V F E} (e : env St V F E) norm f y0 D p q :
  vector_space e -> normed e norm ->
  smooth e norm f y0 D p -> (q <= p)%nat -> smooth e norm f y0 D q.
Proof.
  intros vs nm [M (C & rho & R0 & HT) L] Hq. constructor; [assumption| |assumption].
  clear L. revert C rho R0 HT. remember (p - q)%nat as k eqn:Ek. revert p Hq Ek.
  induction k; intros p Hq Ek C rho R0 HT.
  - assert (p = q) by lia. subst. eauto.
  - destruct p as [|p]; [lia|].
    destruct (ml_bounded _ _ _ M p) as (K & K0 & KB).
    apply (IHk p ltac:(lia) ltac:(lia) (Rabs C + K) (Rmin rho 1)).
    { apply Rmin_glb_lt; lra. }
    intros d Hd. pose proof (Rmin_l rho 1). pose proof (Rmin_r rho 1).
    specialize (HT d ltac:(lra)). cbn [vsum] in HT.
    set (a := f (vadd e y0 d)) in *. set (b := vsum e p (fun q => D (repeat d q))) in *.
    assert (Q : vsub e a b = vadd e (vsub e a (vadd e b (D (repeat d p)))) (D (repeat d p))).
    { rewrite (sub_chain e vs a (vadd e b (D (repeat d p))) b). f_equal. apply (sub_add e vs). }
    rewrite Q. eapply Rle_trans; [apply (norm_triangle _ _ nm)|].
    specialize (KB (repeat d p) (repeat_length d p)).
    rewrite norms_repeat in KB. pose proof (norm_pos _ _ nm d) as NP.
    assert (P1 : norm d ^ S p <= norm d ^ p) by (apply pow_anti; [lra|lia]).
    assert (0 <= norm d ^ p) by (apply pow_le; assumption).
    assert (0 <= norm d ^ S p) by (apply pow_le; assumption).
    pose proof (Rle_abs C). pose proof (Rabs_pos C). nra.
Qed.

Section Timed.
Context {St V F E : Type} (e : env St V F E) (vs : vector_space e).
Context (norm : V -> R) (nm : normed e norm).

Lemma timed_space : vector_space (timed e).
Proof.
  constructor; cbn; intros.
  - f_equal; [lra|apply (v_comm e vs)].
  - f_equal; [lra|apply (v_assoc e vs)].
  - destruct a. cbn. f_equal; [lra|apply (v_zero e vs)].
  - f_equal; [lra|apply (v_scale0 e vs)].
  - destruct a. cbn. f_equal; [lra|apply (v_scale1 e vs)].
  - f_equal; [lra|apply (v_scale_add e vs)].
  - f_equal; [lra|apply (v_scale_vadd e vs)].
  - f_equal; [lra|apply (v_scale_mul e vs)].
Qed.

Lemma timed_normed : normed (timed e) (timed_norm norm).
Proof.
  constructor; unfold timed_norm; cbn; intros.
  - pose proof (Rabs_pos (fst a)). pose proof (norm_pos _ _ nm (snd a)). lra.
  - pose proof (Rabs_triang (fst a) (fst b)). pose proof (norm_triangle _ _ nm (snd a) (snd b)). lra.
  - rewrite Rabs_mult, (norm_scale _ _ nm). lra.
Qed.

Lemma timed_vsum n g : vsum (timed e) n g =
  (sumR n (fun i => fst (g i)), vsum e n (fun i => snd (g i))).
Proof. induction n; cbn; [reflexivity|]. now rewrite IHn. Qed.

Lemma timed_derivative y t d : has_derivative e norm y t d ->
  has_derivative (timed e) (timed_norm norm) (fun t => (t, y t)) t (1, d).
Proof.
  intros H eps He. destruct (H eps He) as (eta & E0 & HE). exists eta. split; [assumption|].
  intros s Hs. specialize (HE s Hs). unfold timed_norm, vsub in *. cbn in *.
  replace (t + s + -1 * t + -1 * (s * 1)) with 0 by lra. rewrite Rabs_R0. lra.
Qed.

Lemma timed_local s f D p y b eps :
  well_formed (meth e) -> dynamics e s f ->
  smooth_in_time e norm f (to_vector e s) D (S p) ->
  solution_in_time e norm f (to_vector e s) y ->
  order_within (meth e) b (S p) eps ->
  exists C H, 0 < H /\ forall h k, Rabs h <= H ->
    stages_ok e f (to_vector e s) h k (stages (meth e)) ->
    norm (vsub e (vadd e (to_vector e s)
                   (vscale e h (vsum e (stages (meth e)) (fun j => vscale e (b j) (k j)))))
                 (y h)) <= C * (Rabs h ^ S (S p) + eps * Rabs h).
Proof.
  intros wf dyn sm (Y0 & T & T0 & HY) OW.
  set (f2 := fun w : R * V => (1, f (fst w) (snd w))).
  assert (sol : solution (timed e) (timed_norm norm) f2 (0, to_vector e s) (fun t => (t, y t))).
  { split; [now rewrite Y0|]. exists T. split; [assumption|]. intros t Ht.
    apply timed_derivative. cbn. apply HY, Ht. }
  destruct (local_error (timed e) timed_space (timed_norm norm) timed_normed f2
              (0, to_vector e s) D p sm (fun t => (t, y t)) sol b eps OW) as (C & H & H0 & B).
  exists C, H. split; [assumption|]. intros h k Hh HK. specialize (B h Hh).
  assert (SK : stages_ok (timed e) (fun _ w => f2 w) (0, to_vector e s) h
                 (fun i => (1, k i)) (stages (meth e))).
  { intros i Hi. unfold f2. rewrite timed_vsum. cbn. f_equal. rewrite HK by assumption.
    f_equal. unfold node_c. rewrite (sumR_ext i (fun i0 => coeff_a (meth e) i i0 * 1) (coeff_a (meth e) i)) by (intros; lra).
    lra. }
  pose proof (K_unique (timed e) f2 (0, to_vector e s) h _ _ SK) as KU.
  unfold increment in B.
  rewrite (vsum_ext (timed e) _ _ (fun j => vscale (timed e) (b j) (1, k j))) in B.
  2: { intros j Hj. now rewrite <- KU. }
  rewrite timed_vsum in B. cbn in B. unfold timed_norm, vsub in B. cbn in B.
  eapply Rle_trans; [|exact B]. unfold vsub.
  match goal with |- _ <= Rabs ?x + _ => pose proof (Rabs_pos x) end. lra.
Qed.

Lemma timed_try_step s f D p y pstar eps :
  well_formed (meth e) -> dynamics e s f ->
  smooth_in_time e norm f (to_vector e s) D (S p) ->
  solution_in_time e norm f (to_vector e s) y ->
  order_within (meth e) (coeff_b (meth e)) (S p) eps ->
  (pstar <= p)%nat -> order_within (meth e) (coeff_bstar (meth e)) (S pstar) eps ->
  exists C H, 0 < H /\ forall h fixed next err, Rabs h <= H ->
    try_step e s fixed h = Ok (next, err) ->
    norm (vsub e next (y h)) <= C * (Rabs h ^ S (S p) + eps * Rabs h) /\
    (fixed = false ->
     norm (vsub e (vsub e next err) (y h)) <= C * (Rabs h ^ S (S pstar) + eps * Rabs h)).
Proof.
  intros wf dyn sm sol OW Hle OWs.
  assert (sms : smooth_in_time e norm f (to_vector e s) D (S pstar)).
  { apply (smooth_weaken _ _ _ _ _ (S p)); [apply timed_space|apply timed_normed|assumption|lia]. }
  destruct (timed_local s f D p y _ eps wf dyn sm sol OW) as (C1 & H1 & H10 & B1).
  destruct (timed_local s f D pstar y _ eps wf dyn sms sol OWs) as (C2 & H2 & H20 & B2).
  assert (E0 : 0 <= eps).
  { specialize (OW leaf ltac:(cbn; lia)).
    pose proof (Rabs_pos (weight (meth e) (coeff_b (meth e)) leaf - 1 / INR (density leaf))). lra. }
  exists (Rabs C1 + Rabs C2), (Rmin H1 H2). split; [apply Rmin_glb_lt; assumption|].
  intros h fixed next err Hh HT. pose proof (Rmin_l H1 H2). pose proof (Rmin_r H1 H2).
  destruct (try_step_formula e vs s _ h wf dyn fixed) as (k & er & KK & KT & KE).
  rewrite KT in HT. injection HT as <- <-.
  specialize (B1 h k ltac:(lra) KK). specialize (B2 h k ltac:(lra) KK).
  assert (P1 : 0 <= Rabs h ^ S (S p) + eps * Rabs h).
  { assert (0 <= Rabs h ^ S (S p)) by (apply pow_le, Rabs_pos). pose proof (Rabs_pos h). nra. }
  assert (P2 : 0 <= Rabs h ^ S (S pstar) + eps * Rabs h).
  { assert (0 <= Rabs h ^ S (S pstar)) by (apply pow_le, Rabs_pos). pose proof (Rabs_pos h). nra. }
  pose proof (Rle_abs C1). pose proof (Rle_abs C2). pose proof (Rabs_pos C1). pose proof (Rabs_pos C2).
  split.
  - eapply Rle_trans; [exact B1|]. apply Rmult_le_compat_r; lra.
  - intros Hf. rewrite (KE Hf).
    set (a := to_vector e s) in *.
    set (b := vscale e h (vsum e (stages (meth e)) (fun j => vscale e (coeff_b (meth e) j) (k j)))) in *.
    set (b' := vscale e h (vsum e (stages (meth e)) (fun j => vscale e (coeff_bstar (meth e) j) (k j)))) in *.
    assert (I2 : vscale e h (vsum e (stages (meth e)) (fun j => vscale e (coeff_b (meth e) j - coeff_bstar (meth e) j) (k j))) = vsub e b b').
    { unfold b, b'. rewrite <- (sub_scale e vs). f_equal. unfold vsub.
      rewrite <- (vsum_scale e vs), <- (vsum_add e vs). apply vsum_ext. intros j Hj.
      rewrite <- (v_scale_mul e vs), <- (v_scale_add e vs). f_equal. lra. }
    rewrite I2.
    replace (vsub e (vadd e a b) (vsub e b b')) with (vadd e a b').
    { eapply Rle_trans; [exact B2|]. apply Rmult_le_compat_r; lra. }
    assert (Q : vadd e a b = vadd e (vadd e a b') (vsub e b b')).
    { rewrite <- (v_assoc e vs). f_equal. symmetry. apply (add_sub e vs). }
    rewrite Q. unfold vsub at 1. rewrite <- (v_assoc e vs).
    change (vadd e (vsub e b b') (vscale e (-1) (vsub e b b'))) with (vsub e (vsub e b b') (vsub e b b')).
    rewrite (sub_self e vs). symmetry. apply (v_zero e vs).
Qed.
End Timed.
