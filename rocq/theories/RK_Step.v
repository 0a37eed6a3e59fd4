(** One step of the integrator, as the textbook formula, and its values on quadratures and
    linear systems. *)
From Coq Require Import Reals Lra.
From Verif Require Import Base Prop_Model RK_Model RK_Spec RK_Check.
Local Open Scope R_scope.

Section Step.
Context {St V F E : Type} (e : env St V F E) (vs : vector_space e).
Notation "a ⊕ b" := (vadd e a b) (at level 50, left associativity).
Notation "x ⊗ a" := (vscale e x a) (at level 40, left associativity).
Notation m := (meth e).

Lemma v_zero_l a : vzero e ⊕ a = a.
Proof. rewrite (v_comm e vs). apply (v_zero e vs). Qed.

Lemma v_scale_zero x : x ⊗ vzero e = vzero e.
Proof.
  rewrite <- (v_scale0 e vs (vzero e)), <- (v_scale_mul e vs).
  now rewrite Rmult_0_r.
Qed.

Lemma vadd_swap a b c d : (a ⊕ b) ⊕ (c ⊕ d) = (a ⊕ c) ⊕ (b ⊕ d).
Proof.
  rewrite <- !(v_assoc e vs). f_equal.
  rewrite (v_assoc e vs b c d), (v_comm e vs b c), <- (v_assoc e vs). reflexivity.
Qed.

Lemma vsum_ext n f g : (forall i, (i < n)%nat -> f i = g i) -> vsum e n f = vsum e n g.
Proof. induction n; intros H; cbn; [reflexivity|]. rewrite IHn, H; auto. Qed.

Lemma vsum_add n f g : vsum e n (fun i => f i ⊕ g i) = vsum e n f ⊕ vsum e n g.
Proof.
  induction n; cbn; [now rewrite (v_zero e vs)|]. rewrite IHn. apply vadd_swap.
Qed.

Lemma vsum_scale n x f : vsum e n (fun i => x ⊗ f i) = x ⊗ vsum e n f.
Proof.
  induction n; cbn; [now rewrite v_scale_zero|]. now rewrite IHn, (v_scale_vadd e vs).
Qed.

Lemma vsum_zero n : vsum e n (fun _ => vzero e) = vzero e.
Proof. induction n; cbn; [reflexivity|]. now rewrite IHn, (v_zero e vs). Qed.

Lemma sum_scale n c a : vsum e n (fun i => c i ⊗ a) = sumR n c ⊗ a.
Proof.
  induction n; cbn; [now rewrite (v_scale0 e vs)|]. now rewrite IHn, (v_scale_add e vs).
Qed.

Lemma vsum_swap n p (g : nat -> nat -> V) :
  vsum e n (fun i => vsum e p (fun j => g i j)) =
  vsum e p (fun j => vsum e n (fun i => g i j)).
Proof.
  induction n; cbn; [now rewrite vsum_zero|]. rewrite IHn, <- vsum_add. reflexivity.
Qed.

Lemma vsum_S n f : vsum e (S n) f = f 0%nat ⊕ vsum e n (fun i => f (S i)).
Proof.
  induction n; cbn in *.
  - now rewrite (v_zero e vs), v_zero_l.
  - rewrite IHn. now rewrite <- (v_assoc e vs).
Qed.

(** The stages [k]: k_i = f(c_i h, y + h sum_j a_ij k_j). *)
Definition stages_ok (f : R -> V -> V) (y : V) (h : R) (k : nat -> V) (n : nat) : Prop :=
  forall i, (i < n)%nat ->
    k i = f (node_c m i * h) (y ⊕ h ⊗ vsum e i (fun j => coeff_a m i j ⊗ k j)).

Section Fixed.
Variables (s : St) (f : R -> V -> V) (h : R).
Hypothesis wf : well_formed m.
Hypothesis dyn : dynamics e s f.
Let y := to_vector e s.

Definition nthv (ks : list V) (i : nat) : V := nth i ks (vzero e).

Lemma tri_bound i : (i < stages m)%nat -> (i * (i - 1) / 2 + i <= length (a_coeffs m))%nat.
Proof.
  intros H. destruct wf as (_ & W & _). rewrite W. clear -H. induction H as [|q Hq IHq].
  - rewrite tri_S. lia.
  - rewrite (tri_S q). lia.
Qed.

Lemma stage_sum_spec i : (i < stages m)%nat -> forall ks j (ci : R) (wi : V) kk,
  (j + length ks = i)%nat ->
  (forall q, (q < length ks)%nat -> nthv ks q = kk (j + q)%nat) ->
  ci = sumR j (coeff_a m i) -> wi = vsum e j (fun j => coeff_a m i j ⊗ kk j) ->
  stage_sum e ks (i * (i - 1) / 2 + j) ci wi =
  Some (node_c m i, vsum e i (fun j => coeff_a m i j ⊗ kk j), (i * (i - 1) / 2 + i)%nat).
Proof.
  intros Hi. induction ks as [|k ks IH]; intros j ci wi kk Hj Hk Hc Hw.
  - cbn in Hj. rewrite Nat.add_0_r in Hj. subst j. subst ci wi. reflexivity.
  - cbn in Hj. cbn [stage_sum].
    pose proof (tri_bound i Hi).
    rewrite (nth_error_nth' _ 0) by lia.
    replace (S (i * (i - 1) / 2 + j)) with (i * (i - 1) / 2 + S j)%nat by lia.
    apply (IH (S j) _ _ kk); [lia| | |].
    + intros q Hq. specialize (Hk (S q)). cbn in Hk. rewrite Nat.add_succ_r in Hk.
      apply Hk. lia.
    + rewrite Hc. reflexivity.
    + rewrite Hw. cbn. f_equal. unfold coeff_a. f_equal.
      specialize (Hk 0%nat). cbn in Hk. rewrite Nat.add_0_r in Hk. apply Hk. lia.
Qed.

Lemma stage_loop_spec n : forall ks, (length ks + n = stages m)%nat -> (1 <= length ks)%nat ->
  stages_ok f y h (nthv ks) (length ks) ->
  exists ks', stage_loop e n (length ks * (length ks - 1) / 2) ks y s h = Ok ks' /\
    length ks' = stages m /\ stages_ok f y h (nthv ks') (stages m).
Proof.
  induction n; intros ks HL H1 HS.
  - exists ks. cbn. rewrite Nat.add_0_r in HL. rewrite <- HL. auto.
  - cbn [stage_loop].
    pose proof (stage_sum_spec (length ks) ltac:(lia) ks 0 0 (vzero e) (nthv ks)
                  eq_refl (fun _ _ => eq_refl) eq_refl eq_refl) as SS.
    rewrite Nat.add_0_r in SS. rewrite SS. rewrite dyn. cbn [bind].
    set (k := f _ _).
    assert (L : length (ks ++ [k]) = S (length ks)) by (rewrite app_length; cbn; lia).
    replace (length ks * (length ks - 1) / 2 + length ks)%nat
      with (length (ks ++ [k]) * (length (ks ++ [k]) - 1) / 2)%nat
      by (rewrite L; apply tri_S).
    apply IHn; rewrite ?L; try lia.
    assert (EQ : forall j, (j < length ks)%nat -> nthv (ks ++ [k]) j = nthv ks j).
    { intros j Hj. unfold nthv. now rewrite app_nth1. }
    intros i Hi.
    assert (EV : vsum e i (fun j => coeff_a m i j ⊗ nthv (ks ++ [k]) j) =
                 vsum e i (fun j => coeff_a m i j ⊗ nthv ks j)).
    { apply vsum_ext. intros j Hj. rewrite EQ; [reflexivity|lia]. }
    rewrite EV. destruct (Nat.eq_dec i (length ks)) as [->|].
    + unfold nthv at 1. rewrite app_nth2, Nat.sub_diag by lia. reflexivity.
    + rewrite EQ by lia. apply HS. lia.
Qed.

Lemma combine_spec fixed : forall ks i next err kk,
  (i + length ks = stages m)%nat ->
  (forall q, (q < length ks)%nat -> nthv ks q = kk (i + q)%nat) ->
  next = y ⊕ h ⊗ vsum e i (fun j => coeff_b m j ⊗ kk j) ->
  err = h ⊗ vsum e i (fun j => (coeff_b m j - coeff_bstar m j) ⊗ kk j) ->
  exists err',
  combine_stages e ks i fixed h next err =
    Some (y ⊕ h ⊗ vsum e (stages m) (fun j => coeff_b m j ⊗ kk j), err') /\
  (fixed = false ->
   err' = h ⊗ vsum e (stages m) (fun j => (coeff_b m j - coeff_bstar m j) ⊗ kk j)).
Proof.
  induction ks as [|k ks IH]; intros i next err kk Hi Hk Hn He.
  - cbn in Hi. rewrite Nat.add_0_r in Hi. subst i next err. cbn. eauto.
  - cbn in Hi. cbn [combine_stages]. destruct wf as (_ & _ & W).
    rewrite (nth_error_nth' _ 0) by lia.
    assert (K0 : k = kk i).
    { specialize (Hk 0%nat). cbn in Hk. rewrite Nat.add_0_r in Hk. apply Hk. lia. }
    assert (KS : forall q, (q < length ks)%nat -> nthv ks q = kk (S i + q)%nat).
    { intros q Hq. specialize (Hk (S q)). cbn in Hk. rewrite Nat.add_succ_r in Hk.
      apply Hk. lia. }
    assert (N' : next ⊕ (h * nth i (b_coeffs m) 0) ⊗ k =
                 y ⊕ h ⊗ vsum e (S i) (fun j => coeff_b m j ⊗ kk j)).
    { rewrite Hn, K0. cbn. rewrite (v_scale_vadd e vs), (v_assoc e vs). f_equal.
      apply (v_scale_mul e vs). }
    destruct fixed.
    + destruct (IH (S i) _ (h ⊗ vsum e (S i) (fun j => (coeff_b m j - coeff_bstar m j) ⊗ kk j)) kk ltac:(lia) KS N' eq_refl) as (err' & R1 & R2).
      clear R2 R1.
      assert (G : forall ks i next e1 e2, option_map fst (combine_stages e ks i true h next e1) = option_map fst (combine_stages e ks i true h next e2)).
      { clear. induction ks as [|k ks IH]; intros; [reflexivity|]. cbn.
        destruct (nth_error _ _); [apply IH|reflexivity]. }
      destruct (IH (S i) _ (h ⊗ vsum e (S i) (fun j => (coeff_b m j - coeff_bstar m j) ⊗ kk j)) kk ltac:(lia) KS N' eq_refl) as (err2 & R1 & _).
      specialize (G ks (S i) (next ⊕ (h * nth i (b_coeffs m) 0) ⊗ k) err (h ⊗ vsum e (S i) (fun j => (coeff_b m j - coeff_bstar m j) ⊗ kk j))).
      rewrite R1 in G.
      destruct (combine_stages e ks (S i) true h (next ⊕ (h * nth i (b_coeffs m) 0) ⊗ k) err) as [[a b]|]; cbn in G; [|discriminate].
      injection G as ->. exists b. split; [reflexivity|discriminate].
    + rewrite (nth_error_nth' _ 0) by lia.
      apply IH; try assumption; try lia.
      rewrite He, K0. cbn. rewrite (v_scale_vadd e vs). f_equal.
      rewrite <- (v_scale_mul e vs). unfold coeff_b, coeff_bstar.
      now rewrite (Nat.add_comm (stages m) i).
Qed.

Lemma try_step_formula fixed :
  exists k err, stages_ok f y h k (stages m) /\
    try_step e s fixed h =
      Ok (y ⊕ h ⊗ vsum e (stages m) (fun j => coeff_b m j ⊗ k j), err) /\
    (fixed = false ->
     err = h ⊗ vsum e (stages m) (fun j => (coeff_b m j - coeff_bstar m j) ⊗ k j)).
Proof.
  unfold try_step. rewrite dyn. cbn [bind]. fold y.
  pose proof wf as (W1 & _ & _).
  destruct (stages m) as [|n] eqn:Es; [lia|].
  assert (S0 : stages_ok f y h (nthv [f 0 y]) 1).
  { intros i Hi. assert (i = 0%nat) by lia. subst. cbn.
    f_equal; [unfold node_c; cbn; lra|].
    now rewrite v_scale_zero, (v_zero e vs). }
  destruct (stage_loop_spec n [f 0 y]) as (ks & K1 & K2 & K3).
  - cbn. rewrite Es. reflexivity.
  - cbn. lia.
  - exact S0.
  - cbn in K1. rewrite K1. cbn [bind].
    destruct (combine_spec fixed ks 0 y (vzero e) (nthv ks)) as (err & C1 & C2).
    + exact K2.
    + reflexivity.
    + cbn. now rewrite v_scale_zero, (v_zero e vs).
    + cbn. now rewrite v_scale_zero.
    + rewrite C1. rewrite Es in *. exists (nthv ks), err. split; [exact K3|]. split; [reflexivity|exact C2].
Qed.
End Fixed.
End Step.

(** * Special trees *)
Definition leaf : tree := Node [].
Definition bushy (d : nat) : tree := Node (repeat leaf d).
Fixpoint tall (k : nat) : tree := match k with O => leaf | S k' => Node [tall k'] end.

Lemma bushy_size d : size (bushy d) = S d.
Proof.
  unfold bushy. cbn. f_equal. induction d; cbn; [reflexivity|]. now rewrite IHd.
Qed.
Lemma bushy_density d : density (bushy d) = S d.
Proof.
  assert (H : density (bushy d) =
    (size (bushy d) * fold_right (fun c n => (density c * n)%nat) 1%nat (repeat leaf d))%nat)
    by reflexivity.
  rewrite H, bushy_size. clear H.
  assert (fold_right (fun c n => (density c * n)%nat) 1%nat (repeat leaf d) = 1%nat).
  { induction d; cbn; [reflexivity|]. cbn in IHd. rewrite IHd. reflexivity. }
  lia.
Qed.
Lemma bushy_weight m d i : stage_weight m (bushy d) i = node_c m i ^ d.
Proof.
  unfold bushy. cbn. induction d; cbn; [reflexivity|]. rewrite IHd. f_equal.
  unfold node_c. apply sumR_ext. intros. lra.
Qed.

Lemma tall_size k : size (tall k) = S k.
Proof. induction k; [reflexivity|]. cbn in *. rewrite IHk. lia. Qed.
Lemma tall_density k : density (tall k) = fact (S k).
Proof.
  induction k; [reflexivity|].
  assert (H : density (tall (S k)) = (size (tall (S k)) * (density (tall k) * 1))%nat)
    by reflexivity.
  rewrite H, tall_size, IHk. cbn [fact]. lia.
Qed.
Lemma tall_weight m k i :
  stage_weight m (tall (S k)) i = sumR i (fun j => coeff_a m i j * stage_weight m (tall k) j).
Proof. cbn. lra. Qed.

Lemma tall_weight_zero m : forall k i, (i < k)%nat -> stage_weight m (tall k) i = 0.
Proof.
  induction k; intros i H; [lia|]. rewrite tall_weight.
  rewrite (sumR_ext _ _ (fun _ => 0)).
  - clear. induction i; cbn; [reflexivity|]. rewrite IHi. lra.
  - intros j Hj. rewrite IHk by lia. lra.
Qed.

Section Uses.
Context {St V F E : Type} (e : env St V F E) (vs : vector_space e).
Notation "a ⊕ b" := (vadd e a b) (at level 50, left associativity).
Notation "x ⊗ a" := (vscale e x a) (at level 40, left associativity).
Notation m := (meth e).
Hypothesis wf : well_formed m.

(** Quadrature: the right-hand side depends on time only, as a polynomial. *)
Lemma try_step_quadrature s fixed h p (alpha : nat -> V) :
  dynamics e s (fun dt _ => vsum e p (fun d => dt ^ d ⊗ alpha d)) ->
  exists err, try_step e s fixed h =
    Ok (to_vector e s ⊕
        vsum e p (fun d => (h ^ S d * weight m (coeff_b m) (bushy d)) ⊗ alpha d), err).
Proof.
  intros D. destruct (try_step_formula e vs s _ h wf D fixed) as (k & err & K & T & _).
  exists err. rewrite T. repeat f_equal.
  rewrite (vsum_ext e _ _ (fun i => vsum e p (fun d => (coeff_b m i * (node_c m i * h) ^ d) ⊗ alpha d))).
  2: { intros i Hi. rewrite K by assumption. rewrite <- (vsum_scale e vs).
       apply vsum_ext. intros. now rewrite (v_scale_mul e vs). }
  rewrite (vsum_swap e vs), <- (vsum_scale e vs). apply vsum_ext. intros d Hd.
  rewrite (sum_scale e vs), <- (v_scale_mul e vs). f_equal.
  unfold weight. cbn [pow].
  rewrite (sumR_ext _ _ (fun i => h ^ d * (coeff_b m i * stage_weight m (bushy d) i))).
  2: { intros. rewrite bushy_weight, Rpow_mult_distr. ring. }
  assert (M : forall n x g, sumR n (fun i => x * g i) = x * sumR n g).
  { clear. induction n; intros; cbn; [lra|]. rewrite IHn. lra. }
  rewrite M. ring.
Qed.

Lemma linear_zero L : linear e L -> L (vzero e) = vzero e.
Proof.
  intros [_ LS]. rewrite <- (v_scale0 e vs (vzero e)) at 1. rewrite LS.
  apply (v_scale0 e vs).
Qed.

Lemma linear_vsum L n g : linear e L -> L (vsum e n g) = vsum e n (fun i => L (g i)).
Proof.
  intros HL. induction n; cbn; [now apply linear_zero|].
  destruct HL as [LA LS]. now rewrite LA, IHn.
Qed.

(** Linear systems: the stages. *)
Lemma linear_stages L y h k n : linear e L -> (n <= stages m)%nat ->
  stages_ok e (fun _ v => L v) y h k n ->
  forall i, (i < n)%nat -> forall N, (i < N)%nat ->
  k i = vsum e N (fun q => (h ^ q * stage_weight m (tall q) i) ⊗ iterate (S q) L y).
Proof.
  intros HL Hn HK. induction i as [i IH] using lt_wf_ind. intros Hi N HN.
  rewrite HK by assumption. destruct HL as [LA LS]. rewrite LA, LS.
  destruct N as [|N]; [lia|].
  rewrite (vsum_S e vs). f_equal.
  - cbn. rewrite Rmult_1_r. now rewrite (v_scale1 e vs).
  - rewrite (linear_vsum L) by (split; assumption).
    rewrite (vsum_ext e _ _ (fun j => vsum e N (fun q => (h ^ q * (coeff_a m i j * stage_weight m (tall q) j)) ⊗ iterate (S (S q)) L y))).
    2: { intros j Hj. rewrite LS. rewrite (IH j Hj ltac:(lia) N ltac:(lia)).
         rewrite (linear_vsum L) by (split; assumption). rewrite <- (vsum_scale e vs).
         apply vsum_ext. intros q Hq. rewrite LS, <- (v_scale_mul e vs). f_equal. ring. }
    rewrite (vsum_swap e vs), <- (vsum_scale e vs). apply vsum_ext. intros q Hq.
    rewrite (sum_scale e vs), <- (v_scale_mul e vs). f_equal.
    rewrite tall_weight. cbn [pow].
    assert (M : forall n x g, sumR n (fun i => x * g i) = x * sumR n g).
    { clear. induction n; intros; cbn; [lra|]. rewrite IHn. lra. }
    rewrite M. ring.
Qed.

Lemma try_step_linear s fixed h L : linear e L ->
  dynamics e s (fun _ v => L v) ->
  exists err, try_step e s fixed h =
    Ok (to_vector e s ⊕
        vsum e (stages m) (fun q => (h ^ S q * weight m (coeff_b m) (tall q))
                                      ⊗ iterate (S q) L (to_vector e s)), err).
Proof.
  intros HL D. destruct (try_step_formula e vs s _ h wf D fixed) as (k & err & K & T & _).
  exists err. rewrite T. repeat f_equal.
  rewrite (vsum_ext e _ _ (fun i => vsum e (stages m) (fun q => (coeff_b m i * (h ^ q * stage_weight m (tall q) i)) ⊗ iterate (S q) L (to_vector e s)))).
  2: { intros i Hi. rewrite (linear_stages L _ h k _ HL (le_n _) K i Hi (stages m) Hi).
       rewrite <- (vsum_scale e vs). apply vsum_ext. intros. now rewrite <- (v_scale_mul e vs). }
  rewrite (vsum_swap e vs), <- (vsum_scale e vs). apply vsum_ext. intros q Hq.
  rewrite (sum_scale e vs), <- (v_scale_mul e vs). f_equal.
  unfold weight. cbn [pow].
  rewrite (sumR_ext _ _ (fun i => h ^ q * (coeff_b m i * stage_weight m (tall q) i))).
  2: { intros. ring. }
  assert (M : forall n x g, sumR n (fun i => x * g i) = x * sumR n g).
  { clear. induction n; intros; cbn; [lra|]. rewrite IHn. lra. }
  rewrite M. ring.
Qed.
End Uses.
