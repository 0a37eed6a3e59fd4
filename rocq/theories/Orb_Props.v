(** C73: orbital dynamics (orbital.rs). *)
From Coq Require Import Reals ZArith List Lra Lia Psatz Permutation.
From Coquelicot Require Import Coquelicot.
From Verif Require Import Base Vec3 Sc_Model Dyn_Model Dual Orb_Model Orb_Spec.
Import ListNotations.
Local Open Scope R_scope.

Lemma bind_ok {E A B} (x : res E A) (f : A -> res E B) r :
  bind x f = Ok r -> exists a, x = Ok a /\ f a = Ok r.
Proof. destruct x; cbn; try discriminate. eauto. Qed.

Lemma vadd_0_r a : vadd a vzero = a.
Proof. apply v3_eq; cbn; ring. Qed.
Lemma vadd_0_l a : vadd vzero a = a.
Proof. apply v3_eq; cbn; ring. Qed.
Lemma vadd_assoc a b c : vadd a (vadd b c) = vadd (vadd a b) c.
Proof. apply v3_eq; cbn; ring. Qed.

Lemma vsum_perm l l' : Permutation l l' -> vsum l = vsum l'.
Proof.
  induction 1; cbn [vsum]; [reflexivity|now rewrite IHPermutation| |congruence].
  apply v3_eq; cbn; ring.
Qed.

Lemma moved_0 j o : moved j 0 o = o.
Proof. unfold moved. rewrite shift_0. now destruct o. Qed.

(** * Sum of models *)
Section Sum.
Context (mu_of : nat -> res dyn_error R).

Lemma add_accels_spec l o acc a : add_accels l o acc = Ok a <->
  exists xs, Forall2 (fun m x => a_eom m o = Ok x) l xs /\ a = vadd acc (vsum xs).
Proof.
  revert acc. induction l as [|m l IH]; intros acc; cbn [add_accels].
  - split.
    + intros H. exists []. split; [constructor|]. cbn. rewrite vadd_0_r. congruence.
    + intros (xs & F & ->). inversion F; subst. cbn. now rewrite vadd_0_r.
  - split.
    + intros H. apply bind_ok in H as (x & Hx & H). apply IH in H as (xs & F & ->).
      exists (x :: xs). split; [now constructor|]. cbn [vsum]. now rewrite vadd_assoc.
    + intros (xs & F & ->). inversion F as [|? x ? xs' Hx F']; subst. rewrite Hx. cbn [bind vsum].
      apply IH. exists xs'. split; [assumption|]. cbn [vsum]. now rewrite vadd_assoc.
Qed.

(** The acceleration is Newton's central one plus those of all the models. *)
Theorem C73_sum : forall models o v a,
  orb_eom mu_of models o = Ok (v, a) <->
  v = velocity_km_s o /\
  exists mu xs, mu_of (frame o) = Ok mu /\ Forall2 (fun m x => a_eom m o = Ok x) models xs /\
    a = vadd (vscale (- mu / norm (radius_km o) ^ 3) (radius_km o)) (vsum xs).
Proof.
  intros models o v a. unfold orb_eom. split.
  - intros H. apply bind_ok in H as (mu & Hm & H). apply bind_ok in H as (b & Hb & H).
    apply add_accels_spec in Hb as (xs & F & ->). split; [congruence|].
    exists mu, xs. split; [exact Hm|]. split; [exact F|]. congruence.
  - intros (-> & mu & xs & Hm & F & ->). rewrite Hm. cbn [bind].
    rewrite (proj2 (add_accels_spec _ _ _ _) (ex_intro _ xs (conj F eq_refl))). reflexivity.
Qed.

(** The order of the models does not matter. *)
Theorem C73_model_order : forall models models' o r, Permutation models models' ->
  orb_eom mu_of models o = Ok r -> orb_eom mu_of models' o = Ok r.
Proof.
  intros l l' o [v a] P H. apply C73_sum in H as (-> & mu & xs & Hm & F & ->).
  apply C73_sum. split; [reflexivity|].
  assert (G : exists ys, Forall2 (fun m x => a_eom m o = Ok x) l' ys /\ Permutation xs ys).
  { clear Hm. revert xs F. induction P; intros xs F.
    - inversion F; subst. now exists [].
    - inversion F as [|? y ? ys Hy F']; subst. destruct (IHP _ F') as (zs & G & Q).
      exists (y :: zs). split; now constructor.
    - inversion F as [|? y1 ? ys Hy F']; subst. inversion F' as [|? y2 ? zs Hz F'']; subst.
      exists (y2 :: y1 :: zs). split; [now repeat constructor|]. constructor.
    - destruct (IHP1 _ F) as (ys & G & Q). destruct (IHP2 _ G) as (zs & G' & Q').
      exists zs. split; [assumption|]. now transitivity ys. }
  destruct G as (ys & G & Q). exists mu, ys. split; [exact Hm|]. split; [exact G|].
  now rewrite (vsum_perm _ _ Q).
Qed.

(** * Two bodies: what the motion conserves *)

Lemma constant_of_derivative f a b : a <= b -> (forall t, a <= t <= b -> is_derive f t 0) -> f a = f b.
Proof.
  intros Hab H. destruct (Rle_lt_or_eq_dec _ _ Hab) as [L|E]; [|now subst].
  apply (eq_is_derive f); assumption.
Qed.

Definition solves (models : list accel_model) (f : nat) (ep : R -> Z) (r v : R -> v3) (a b : R) : Prop :=
  forall t, a <= t <= b -> exists acc,
    orb_eom mu_of models (Orbit (ep t) f (r t) (v t)) = Ok (v t, acc) /\
    derives r t (v t) /\ derives v t acc.

Lemma derive_norm r t d : r t <> vzero -> derives r t d ->
  is_derive (fun s => norm (r s)) t (dot (r t) d / norm (r t)).
Proof.
  intros N (A & B & C). unfold norm.
  assert (P : 0 < dot (r t) (r t)) by now apply dot_pos.
  assert (D : is_derive (fun s => dot (r s) (r s)) t (2 * dot (r t) d)).
  { unfold dot.
    evar_last.
    - apply (is_derive_plus (fun s => vx (r s) * vx (r s) + vy (r s) * vy (r s)) (fun s => vz (r s) * vz (r s))).
      + apply (is_derive_plus (fun s => vx (r s) * vx (r s)) (fun s => vy (r s) * vy (r s))).
        * apply (is_derive_mult (fun s => vx (r s)) (fun s => vx (r s))); [exact A|exact A|intros; apply Rmult_comm].
        * apply (is_derive_mult (fun s => vy (r s)) (fun s => vy (r s))); [exact B|exact B|intros; apply Rmult_comm].
      + apply (is_derive_mult (fun s => vz (r s)) (fun s => vz (r s))); [exact C|exact C|intros; apply Rmult_comm].
    - unfold plus, mult; cbn. ring. }
  evar_last; [apply is_derive_sqrt; [exact D|exact P]|].
  assert (0 < sqrt (dot (r t) (r t))) by now apply sqrt_lt_R0. idtac.
  cbv beta. field. lra.
Qed.

Theorem C73_energy : forall f mu ep r v a b, mu_of f = Ok mu -> a <= b ->
  (forall t, a <= t <= b -> r t <> vzero) -> solves [] f ep r v a b ->
  energy mu (r a) (v a) = energy mu (r b) (v b).
Proof.
  intros f mu ep r v a b Hm Hab Hr H.
  apply (constant_of_derivative (fun t => energy mu (r t) (v t))); [exact Hab|].
  intros t Ht. destruct (H t Ht) as (acc & He & Dr & Dv).
  apply C73_sum in He as (_ & mu' & xs & Hm' & F & ->). cbn [frame radius_km] in *.
  assert (mu' = mu) by congruence. subst mu'. inversion F; subst xs. clear F.
  pose proof (derive_norm r t (v t) (Hr t Ht) Dr) as Dn.
  assert (N0 : 0 < norm (r t)) by (apply norm_pos, Hr, Ht).
  destruct Dv as (A & B & C). unfold energy.
  evar_last.
  - apply (is_derive_minus (fun s => dot (v s) (v s) / 2) (fun s => mu / norm (r s))).
    + unfold dot. evar_last.
      * apply (is_derive_ext (fun s => / 2 * ((vx (v s) * vx (v s) + vy (v s) * vy (v s)) + vz (v s) * vz (v s)))).
        { intros s. cbn. field. }
        apply is_derive_scal.
        apply (is_derive_plus (fun s => vx (v s) * vx (v s) + vy (v s) * vy (v s)) (fun s => vz (v s) * vz (v s))).
        { apply (is_derive_plus (fun s => vx (v s) * vx (v s)) (fun s => vy (v s) * vy (v s))).
          - apply (is_derive_mult (fun s => vx (v s)) (fun s => vx (v s))); [exact A|exact A|intros; apply Rmult_comm].
          - apply (is_derive_mult (fun s => vy (v s)) (fun s => vy (v s))); [exact B|exact B|intros; apply Rmult_comm]. }
        apply (is_derive_mult (fun s => vz (v s)) (fun s => vz (v s))); [exact C|exact C|intros; apply Rmult_comm].
      * reflexivity.
    + apply (is_derive_ext (fun s => mu * / norm (r s))); [reflexivity|].
      apply is_derive_scal. apply is_derive_inv; [exact Dn|lra].
  - unfold plus, mult, minus, opp, scal; cbn. unfold mult, dot; cbn. field. lra.
Qed.

Theorem C73_angular_momentum : forall f ep r v a b, a <= b ->
  solves [] f ep r v a b -> cross (r a) (v a) = cross (r b) (v b).
Proof.
  intros f ep r v a b Hab H.
  assert (G : forall t, a <= t <= b -> exists k, derives r t (v t) /\ derives v t (vscale k (r t))).
  { intros t Ht. destruct (H t Ht) as (acc & He & Dr & Dv).
    apply C73_sum in He as (_ & mu & xs & Hm & F & ->). inversion F; subst xs. cbn [vsum radius_km] in Dv.
    rewrite vadd_0_r in Dv. eexists. split; [exact Dr|exact Dv]. }
  clear H.
  assert (X : forall p q : v3 -> R,
    (forall t d, derives r t d -> is_derive (fun s => p (r s)) t (p d)) ->
    (forall t d, derives v t d -> is_derive (fun s => p (v s)) t (p d)) ->
    (forall t d, derives r t d -> is_derive (fun s => q (r s)) t (q d)) ->
    (forall t d, derives v t d -> is_derive (fun s => q (v s)) t (q d)) ->
    (forall k u, p (vscale k u) = k * p u) -> (forall k u, q (vscale k u) = k * q u) ->
    p (r a) * q (v a) - q (r a) * p (v a) = p (r b) * q (v b) - q (r b) * p (v b)).
  { intros p q P1 P2 Q1 Q2 Sp Sq.
    apply (constant_of_derivative (fun t => p (r t) * q (v t) - q (r t) * p (v t))); [exact Hab|].
    intros t Ht. destruct (G t Ht) as (k & Dr & Dv).
    evar_last.
    - apply (is_derive_minus (fun s => p (r s) * q (v s)) (fun s => q (r s) * p (v s))).
      + apply (is_derive_mult (fun s => p (r s)) (fun s => q (v s)));
          [apply P1, Dr|apply Q2, Dv|intros; apply Rmult_comm].
      + apply (is_derive_mult (fun s => q (r s)) (fun s => p (v s)));
          [apply Q1, Dr|apply P2, Dv|intros; apply Rmult_comm].
    - unfold plus, mult, minus, opp; cbn. rewrite Sp, Sq. ring. }
  unfold cross. apply v3_eq; cbn [vx vy vz].
  - apply (X vy vz); try (intros; unfold derives in *; tauto); reflexivity.
  - apply (X vz vx); try (intros; unfold derives in *; tauto); reflexivity.
  - apply (X vx vy); try (intros; unfold derives in *; tauto); reflexivity.
Qed.

(** * The gradient *)

Lemma tracks3_d3_mul j F d g k : tracks3 j F d -> tracks j g k ->
  tracks3 j (fun h => vscale (g h) (F h)) (d3_mul d k).
Proof.
  intros (A & B & C) K. refine (conj _ (conj _ _)); cbn [vscale vx vy vz d3_mul ux uy uz].
  - eapply tracks_ext; [|apply (tracks_mul _ _ _ _ _ A K)]. intros; cbn; ring.
  - eapply tracks_ext; [|apply (tracks_mul _ _ _ _ _ B K)]. intros; cbn; ring.
  - eapply tracks_ext; [|apply (tracks_mul _ _ _ _ _ C K)]. intros; cbn; ring.
Qed.

Lemma tracks3_d3_div j F d g k : re k <> 0 -> tracks3 j F d -> tracks j g k ->
  tracks3 j (fun h => vscale (/ g h) (F h)) (d3_div d k).
Proof.
  intros N (A & B & C) K. refine (conj _ (conj _ _)); cbn [vscale vx vy vz d3_div ux uy uz].
  - eapply tracks_ext; [|apply (tracks_div _ _ _ _ _ N A K)]. intros; cbn; unfold Rdiv; ring.
  - eapply tracks_ext; [|apply (tracks_div _ _ _ _ _ N B K)]. intros; cbn; unfold Rdiv; ring.
  - eapply tracks_ext; [|apply (tracks_div _ _ _ _ _ N C K)]. intros; cbn; unfold Rdiv; ring.
Qed.

Lemma tracks3_derive j F d i : tracks3 j F d ->
  is_derive (fun h => comp (F h) i) 0 (du (dcomp d i) j).
Proof.
  intros (A & B & C). unfold comp, dcomp. destruct i as [|[|i]]; [apply A|apply B|apply C].
Qed.

Lemma reals_hyperspace p : reals (hyperspace p) = p.
Proof. now destruct p. Qed.

Lemma pow3_nz x : x <> 0 -> x ^ 3 <> 0.
Proof. intros. now apply pow_nonzero. Qed.

Lemma kepler_tracks j mu p : p <> vzero ->
  tracks3 (S j) (fun h => vscale (- mu / norm (shift (S j) h p) ^ 3) (shift (S j) h p))
    (d3_mul (hyperspace p) (ddiv (dconst (- mu)) (dpow (dnorm (hyperspace p)) 3))).
Proof.
  intros N. apply tracks3_d3_mul; [apply tracks3_var|].
  apply tracks_div.
  - cbn [re dpow]. rewrite dnorm_re, reals_hyperspace. apply pow3_nz. apply norm_pos in N. lra.
  - apply tracks_const.
  - apply tracks_pow. apply (tracks_norm (S j) (fun h => shift (S j) h p)).
    + now rewrite reals_hyperspace.
    + apply tracks3_var.
Qed.

Lemma comp_vadd a b i : comp (vadd a b) i = comp a i + comp b i.
Proof. destruct i as [|[|i]]; reflexivity. Qed.

(** If the gradient of each model is the derivative of its acceleration, so is that of the
    whole: the 6 x 6 matrix is the Jacobian of (velocity, acceleration) with respect to
    (position, velocity). *)
Theorem C73_gradient : forall models o mu, mu_of (frame o) = Ok mu -> radius_km o <> vzero ->
  (forall m, In m models -> exists a g, a_gradient m o = Ok (a, g) /\ derivative_of (a_eom m) o a g) ->
  exists a g, orb_dual mu_of models o = Ok (velocity_km_s o, a, g) /\
    orb_eom mu_of models o = Ok (velocity_km_s o, a) /\
    derivative_of (fun o' => bind (orb_eom mu_of models o') (fun va => Ok (snd va))) o a
      (fun i j => g (i + 3)%nat j) /\
    (forall i j, (i < 3)%nat -> (j < 6)%nat -> g i j = if (j =? i + 3)%nat then 1 else 0) /\
    (forall i j, (3 <= i < 6)%nat -> (3 <= j < 6)%nat -> g i j = 0).
Proof.
  intros models o mu Hm Hr HM.
  set (p := radius_km o) in *.
  set (K := d3_mul (hyperspace p) (ddiv (dconst (- mu)) (dpow (dnorm (hyperspace p)) 3))).
  set (V := D3 (dvar 3 (vx (velocity_km_s o))) (dvar 4 (vy (velocity_km_s o))) (dvar 5 (vz (velocity_km_s o)))).
  set (g0 := fun i j => if (i <? 3)%nat then du (dcomp V i) (S j) else du (dcomp K (i - 3)) (S j)).
  assert (L : forall l acc g (F : nat -> R -> v3),
    (forall m, In m l -> exists a g, a_gradient m o = Ok (a, g) /\ derivative_of (a_eom m) o a g) ->
    (forall j, (j < 3)%nat -> F j 0 = acc /\
       forall i, (i < 3)%nat -> is_derive (fun h => comp (F j h) i) 0 (g (i + 3)%nat j)) ->
    exists a g', add_accel_gradients l o acc g = Ok (a, g') /\ add_accels l o acc = Ok a /\
      (forall i j, ~ ((3 <= i < 6)%nat /\ (j < 3)%nat) -> g' i j = g i j) /\
      exists G, forall j, (j < 3)%nat -> (forall h, add_accels l (moved j h o) (F j h) = Ok (G j h)) /\
        forall i, (i < 3)%nat -> is_derive (fun h => comp (G j h) i) 0 (g' (i + 3)%nat j)).
  { induction l as [|m l IH]; intros acc g F Hl HF.
    - exists acc, g. cbn [add_accel_gradients add_accels]. split; [reflexivity|]. split; [reflexivity|].
      split; [reflexivity|]. exists F. intros j Hj. split; [reflexivity|]. apply HF, Hj.
    - destruct (Hl m (or_introl eq_refl)) as (am & gm & Ea & D1 & D2).
      cbn [add_accel_gradients add_accels]. rewrite Ea, D1. cbn [bind fst snd].
      assert (X : exists Fm : nat -> R -> v3, forall j, (j < 3)%nat ->
        (forall h, a_eom m (moved j h o) = Ok (Fm j h)) /\
        forall i, (i < 3)%nat -> is_derive (fun h => comp (Fm j h) i) 0 (gm i j)).
      { destruct (D2 0%nat ltac:(lia)) as (F0 & F0e). destruct (D2 1%nat ltac:(lia)) as (F1 & F1e).
        destruct (D2 2%nat ltac:(lia)) as (F2 & F2e).
        exists (fun j => match j with 0%nat => F0 | 1%nat => F1 | _ => F2 end).
        intros [|[|[|j]]] Hj; try assumption. lia. }
      destruct X as (Fm & HFm).
      edestruct (IH (vadd acc am)
        (fun i j => if ((3 <=? i) && (i <? 6) && (j <? 3))%nat then g i j + gm (i - 3)%nat j else g i j)
        (fun j h => vadd (F j h) (Fm j h))) as (a & g' & A & B & C & G & HG).
      + intros m' Hm'. apply Hl. now right.
      + intros j Hj. destruct (HF j Hj) as [F0 F1]. destruct (HFm j Hj) as [M0 M1]. split.
        * rewrite F0. f_equal. specialize (M0 0). rewrite moved_0, D1 in M0. congruence.
        * intros i Hi. replace ((3 <=? i + 3) && (i + 3 <? 6) && (j <? 3))%nat with true.
          2:{ symmetry. rewrite !andb_true_iff, Nat.leb_le, !Nat.ltb_lt. lia. }
          replace (i + 3 - 3)%nat with i by lia.
          apply (is_derive_ext (fun h => comp (F j h) i + comp (Fm j h) i)).
          { intros h. now rewrite comp_vadd. }
          apply (is_derive_plus (fun h => comp (F j h) i) (fun h => comp (Fm j h) i)); [now apply F1|now apply M1].
      + exists a, g'. split; [exact A|]. split; [exact B|]. split.
        * intros i j Hn. rewrite C by exact Hn.
          destruct ((3 <=? i) && (i <? 6) && (j <? 3))%nat eqn:E; [|reflexivity].
          rewrite !andb_true_iff in E. destruct E as [[E1 E2] E3]. apply Nat.leb_le in E1.
          apply Nat.ltb_lt in E2, E3. lia.
        * exists G. intros j Hj. destruct (HG j Hj) as [G1 G2]. split; [|exact G2].
          intros h. rewrite (proj1 (HFm j Hj) h). cbn [bind]. apply G1. }
  destruct (L models (reals K) g0 (fun j h => vscale (- mu / norm (shift (S j) h p) ^ 3) (shift (S j) h p)) HM)
    as (a & g & A & B & C & G & HG).
  { intros j Hj. pose proof (kepler_tracks j mu p Hr) as T. split.
    - apply (tracks3_value _ _ _ T).
    - intros i Hi. unfold g0. replace (i + 3 <? 3)%nat with false by (symmetry; apply Nat.ltb_ge; lia).
      replace (i + 3 - 3)%nat with i by lia. apply (tracks3_derive _ _ _ i T). }
  assert (KV : reals K = vscale (- mu / norm p ^ 3) p).
  { pose proof (tracks3_value _ _ _ (kepler_tracks 0 mu p Hr)) as T. cbv beta in T. rewrite shift_0 in T. symmetry. exact T. }
  assert (E0 : orb_eom mu_of models o = Ok (velocity_km_s o, a)).
  { unfold orb_eom. rewrite Hm. cbn [bind]. fold p. rewrite <- KV, B. reflexivity. }
  exists a, g. split.
  { unfold orb_dual. rewrite Hm. cbn [bind]. fold p V K g0. rewrite A. cbn [bind fst snd].
    f_equal. f_equal. f_equal. now destruct (velocity_km_s o). }
  split; [exact E0|]. split.
  { split; [now rewrite E0|]. intros j Hj. exists (G j). destruct (HG j Hj) as [G1 G2]. split; [|exact G2].
    intros h. unfold orb_eom, moved. cbn [frame radius_km velocity_km_s]. rewrite Hm. cbn [bind]. fold p.
    change (Orbit (epoch o) (frame o) (shift (S j) h p) (velocity_km_s o)) with (moved j h o).
    rewrite G1. reflexivity. }
  split.
  - intros i j Hi Hj. rewrite C by lia. unfold g0. replace (i <? 3)%nat with true by (symmetry; now apply Nat.ltb_lt).
    destruct i as [|[|[|i]]]; [| | |lia]; cbn [dcomp V ux uy uz dvar du];
      do 6 (destruct j as [|j]; [reflexivity|]); lia.
  - intros i j Hi Hj. rewrite C by lia. unfold g0.
    replace (i <? 3)%nat with false by (symmetry; apply Nat.ltb_ge; lia).
    assert (Z0 : forall k q, (3 <= j < 6)%nat -> (k < 3)%nat -> du (dvar k q) (S j) = 0).
    { intros k q H3 Hk. cbn [du dvar]. replace (S j =? S k)%nat with false; [reflexivity|].
      symmetry. apply Nat.eqb_neq. lia. }
    assert (ZN : du (dnorm (hyperspace p)) (S j) = 0).
    { unfold dnorm, dsqrt, dadd, dmul. cbn [du re hyperspace ux uy uz].
      rewrite !Z0 by lia. unfold Rdiv. ring. }
    assert (ZK : du (ddiv (dconst (- mu)) (dpow (dnorm (hyperspace p)) 3)) (S j) = 0).
    { cbn [du ddiv dconst dpow re]. rewrite ZN. unfold Rdiv. ring. }
    unfold K, d3_mul, dcomp. destruct (i - 3)%nat as [|[|k]]; cbn [ux uy uz hyperspace dmul du];
      fold (hyperspace p); rewrite ZK, Z0 by lia; ring.
Qed.
End Sum.
