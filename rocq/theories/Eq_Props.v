(** C99: tracking data arcs that compare equal. *)
From Coq Require Import Reals Lra String.
From Verif Require Import Base RustStd Traj_Spec Arc_Model Arc_Spec Arc_Proofs Eq_Model.
Local Open Scope Z_scope.

(** ** Specification *)

(** The same observables, to less than 1e-10 of their unit. *)
Definition includes (a b : measurement) : Prop :=
  forall t v, get t (obs a) = Some v -> exists w, get t (obs b) = Some w /\ (Rabs (v - w) < / 10 ^ 10)%R.
Definition same_content (a b : measurement) : Prop :=
  tracker a = tracker b /\ epoch a = epoch b /\ includes a b /\ includes b a.

(** ** Proofs *)

Lemma close_spec x y : close x y = true <-> (Rabs (x - y) < / 10 ^ 10)%R.
Proof. unfold close. destruct (Rlt_dec _ _); split; intros; auto; try discriminate; contradiction. Qed.
Lemma type_eqb_spec a b : type_eqb a b = true <-> a = b.
Proof. unfold type_eqb. destruct (msr_type_eq_dec a b); split; intros; auto; try discriminate; contradiction. Qed.
Lemma get_in t d v : get t d = Some v -> In (t, v) d.
Proof.
  unfold get. induction d as [|[k w] d IH]; cbn [im_get]; [discriminate|].
  destruct (type_eqb t k) eqn:E; [|intros H; right; auto].
  apply type_eqb_spec in E. subst k. intros H. left. congruence.
Qed.
Lemma in_get t d v : NoDup (map fst d) -> In (t, v) d -> get t d = Some v.
Proof.
  unfold get. induction d as [|[k w] d IH]; cbn [im_get map fst]; intros N H; [destruct H|].
  inversion N as [|? ? N1 N2]; subst. destruct (type_eqb t k) eqn:E.
  - apply type_eqb_spec in E. subst k. destruct H as [H|H]; [congruence|].
    exfalso. apply N1. now apply (in_map fst) in H.
  - destruct H as [H|H]; [|now apply IH]. assert (t = k) as -> by congruence.
    assert (type_eqb k k = true) by now apply type_eqb_spec. congruence.
Qed.

(** Two equal measurements are of the same tracker and epoch and the right one has the observables of
    the left one. *)
Theorem C99_measurement : forall a b, well_formed a -> well_formed b ->
  msr_eq a b = true <-> tracker a = tracker b /\ epoch a = epoch b /\ includes a b.
Proof.
  intros a b Wa Wb. unfold msr_eq. rewrite !Bool.andb_true_iff, String.eqb_eq, Z.eqb_eq, forallb_forall. split.
  - intros [[H1 H2] H3]. split; [exact H1|]. split; [exact H2|]. intros t v G. apply get_in in G.
    specialize (H3 _ G). cbn [fst snd] in H3. destruct (get t (obs b)) as [w|]; [|discriminate].
    exists w. split; [reflexivity|]. now apply close_spec.
  - intros (H1 & H2 & H3). repeat split; auto. intros [t v] I. cbn [fst snd].
    destruct (H3 t v (in_get _ _ _ Wa I)) as (w & E & C). rewrite E. now apply close_spec.
Qed.

(** With as many observables on both sides they have the same content, and compare equal in both
    orders. *)
Lemma keys_get t d : In t (map fst d) <-> exists v, get t d = Some v.
Proof.
  unfold get. induction d as [|[k w] d IH]; cbn [im_get map fst In].
  - split; [intros []|intros [v H]; discriminate].
  - destruct (type_eqb t k) eqn:E.
    + apply type_eqb_spec in E. subst k. split; eauto.
    + rewrite <- IH. split; [intros [H|H]; [|exact H]|auto]. subst k.
      assert (type_eqb t t = true) by now apply type_eqb_spec. congruence.
Qed.
Theorem C99_same_content : forall a b, well_formed a -> well_formed b ->
  List.length (obs a) = List.length (obs b) -> msr_eq a b = true -> same_content a b /\ msr_eq b a = true.
Proof.
  intros a b Wa Wb L H. apply C99_measurement in H as (H1 & H2 & H3); auto.
  assert (K : incl (map fst (obs a)) (map fst (obs b))).
  { intros t I. apply keys_get in I as [v I]. destruct (H3 t v I) as (w & E & _). apply keys_get. eauto. }
  assert (K' : incl (map fst (obs b)) (map fst (obs a))).
  { apply NoDup_length_incl; [exact Wa| |exact K]. rewrite !map_length. lia. }
  assert (I : includes b a).
  { intros t w G. assert (J : In t (map fst (obs b))) by (apply keys_get; eauto).
    apply K', keys_get in J as [v J]. exists v. split; [exact J|].
    destruct (H3 t v J) as (w' & E & C). assert (w' = w) as -> by congruence. now rewrite Rabs_minus_sym. }
  split; [split; auto|]. apply C99_measurement; auto.
Qed.

(** An arc equals itself, and an arc equal to another has as many measurements, one by one equal. *)
Theorem C99_reflexive : forall a, Forall well_formed (measurements a) -> arc_eq a a = true.
Proof.
  intros a W. unfold arc_eq. induction (measurements a) as [|m l IH]; [reflexivity|].
  inversion W; subst. cbn [list_eq]. rewrite IH by assumption. rewrite Bool.andb_true_r.
  apply C99_measurement; auto. split; [reflexivity|]. split; [reflexivity|]. intros t v G. exists v.
  split; [exact G|]. replace (v - v)%R with 0%R by ring. rewrite Rabs_R0. apply Rinv_0_lt_compat, pow_lt. lra.
Qed.
Theorem C99_arcs : forall a b, Forall well_formed (measurements a) -> Forall well_formed (measurements b) ->
  (arc_eq a b = true <->
   Forall2 (fun m m' => tracker m = tracker m' /\ epoch m = epoch m' /\ includes m m') (measurements a) (measurements b)).
Proof.
  intros a b. unfold arc_eq. generalize (measurements b). induction (measurements a) as [|m l IH]; intros [|m' l'] Wa Wb; cbn [list_eq].
  - split; [constructor|reflexivity].
  - split; [discriminate|]. intros H. inversion H.
  - split; [discriminate|]. intros H. inversion H.
  - inversion Wa; inversion Wb; subst. rewrite Bool.andb_true_iff, IH, C99_measurement by assumption. split.
    + intros [H I]. now constructor.
    + intros H. inversion H; subst. auto.
Qed.

(** ** Refutations *)
Definition observed (l : data) (r : bool) : measurement := {| tracker := "Goldstone"; epoch := 0; obs := l; rejected := r |}.
Definition arc_of (l : list measurement) (f : bool) : arc := {| measurements := l; moduli := None; force_reject := f |}.

Lemma close_range x y l r : (Rabs (x - y) < / 10 ^ 10)%R ->
  msr_eq (observed [(Range, x)] r) (observed ((Range, y) :: l) r) = true.
Proof. intros H. unfold msr_eq. cbn. rewrite (proj2 (close_spec x y) H). reflexivity. Qed.

(** Equality is not symmetric: the right arc may have more observables. *)
Theorem C99_symmetric_refuted : exists a b, Forall well_formed (measurements a) /\ Forall well_formed (measurements b) /\
  arc_eq a b = true /\ arc_eq b a = false /\ ~ Forall2 same_content (measurements a) (measurements b).
Proof.
  exists (arc_of [observed [(Range, 1%R)] false] false), (arc_of [observed [(Range, 1%R); (Doppler, 2%R)] false] false).
  assert (T : (0 < / 10 ^ 10)%R) by (apply Rinv_0_lt_compat, pow_lt; lra).
  split; [repeat constructor; cbn; intuition discriminate|].
  split; [repeat constructor; cbn; intuition discriminate|].
  split; [|split].
  - unfold arc_eq. cbn [measurements arc_of list_eq]. rewrite close_range; [reflexivity|].
    replace (1 - 1)%R with 0%R by ring. now rewrite Rabs_R0.
  - unfold arc_eq, msr_eq. cbn. now rewrite Bool.andb_false_r.
  - intros F. inversion F as [|? ? ? ? (_ & _ & _ & I) _]; subst.
    destruct (I Doppler 2%R eq_refl) as (w & E & _). discriminate.
Qed.
(** Nor transitive. *)
Theorem C99_transitive_refuted : exists a b c, Forall well_formed (measurements a) /\ Forall well_formed (measurements b) /\
  Forall well_formed (measurements c) /\ arc_eq a b = true /\ arc_eq b c = true /\ arc_eq a c = false.
Proof.
  set (d := (/ 10 ^ 10)%R).
  assert (T : (0 < d)%R) by (apply Rinv_0_lt_compat, pow_lt; lra).
  exists (arc_of [observed [(Range, 0%R)] false] false), (arc_of [observed [(Range, (d / 2)%R)] false] false),
    (arc_of [observed [(Range, d)] false] false).
  do 3 (split; [repeat constructor; cbn; intuition discriminate|]).
  split; [|split]; unfold arc_eq; cbn [measurements arc_of list_eq].
  - rewrite close_range; [reflexivity|]. fold d. rewrite Rabs_left; lra.
  - rewrite close_range; [reflexivity|]. fold d. rewrite Rabs_left; lra.
  - unfold msr_eq. cbn. unfold close. fold d. destruct (Rlt_dec _ _) as [H|_]; [|reflexivity].
    exfalso. rewrite Rabs_left in H; lra.
Qed.
(** A rejected measurement equals one that is not. *)
Theorem C99_rejected_refuted : exists a b m m', In m (measurements a) /\ In m' (measurements b) /\
  arc_eq a b = true /\ arc_eq b a = true /\ rejected m <> rejected m' /\ force_reject a <> force_reject b.
Proof.
  exists (arc_of [observed [] false] false), (arc_of [observed [] true] true), (observed [] false), (observed [] true).
  cbn. repeat split; auto; discriminate.
Qed.

Print Assumptions C99_measurement.
Print Assumptions C99_same_content.
Print Assumptions C99_reflexive.
Print Assumptions C99_arcs.
Print Assumptions C99_symmetric_refuted.
Print Assumptions C99_transitive_refuted.
Print Assumptions C99_rejected_refuted.
