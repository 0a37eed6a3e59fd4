(** Proofs about orbit determination solutions. *)
From Coq Require Import String.
From Verif Require Import Base RustStd Arc_Model Sol_Model Sol_Spec.
Local Open Scope Z_scope.

Section Filters.
Context {E V G F : Type}.
Notation upd := (update E V G F).
Notation sol := (solution E V G F).

Lemma holds_eq (s : sol) l : holds s l <-> s = solution_of l.
Proof.
  split.
  - destruct s. intros (H1 & H2 & H3 & H4). cbn in *. subst. reflexivity.
  - intros ->. repeat split.
Qed.

Lemma select_filter keep : forall (l : list upd) acc,
  select keep (map u_estimate l) (map u_residual l) (map u_gain l) (map u_ratio l)
    (solution_of acc) = solution_of (acc ++ filter (fun u => keep (u_residual u)) l).
Proof.
  induction l as [|u l IH]; intros acc; cbn [map select filter].
  - now rewrite app_nil_r.
  - destruct (keep (u_residual u)).
    + replace {| estimates := estimates (solution_of acc) ++ [u_estimate u];
                 residuals := residuals (solution_of acc) ++ [u_residual u];
                 gains := gains (solution_of acc) ++ [u_gain u];
                 fs_ratios := fs_ratios (solution_of acc) ++ [u_ratio u] |}
        with (solution_of (acc ++ [u])).
      * rewrite IH, <- app_assoc. reflexivity.
      * unfold solution_of. rewrite !map_app. reflexivity.
    + apply IH.
Qed.
Lemma selecting_filter keep (l : list upd) :
  selecting keep (solution_of l) = solution_of (filter (fun u => keep (u_residual u)) l).
Proof. exact (select_filter keep l []). Qed.

Lemma filter_keeps {A} (P : A -> Prop) p (l : list A) :
  (forall x, p x = true <-> P x) -> keeps P l (filter p l).
Proof.
  intros H. induction l as [|x l IH]; cbn; [constructor|].
  destruct (p x) eqn:Q; constructor; trivial.
  - now apply H.
  - rewrite <- H. congruence.
Qed.
Lemma keeps_filter {A} (P : A -> Prop) p (l l' : list A) :
  (forall x, p x = true <-> P x) -> keeps P l l' -> l' = filter p l.
Proof.
  intros H. induction 1; cbn; [reflexivity| |].
  - rewrite (proj2 (H x)) by assumption. now f_equal.
  - destruct (p x) eqn:Q; [exfalso; apply H0, H, Q|assumption].
Qed.

Lemma type_eqb_eq a b : type_eqb a b = true <-> a = b.
Proof. unfold type_eqb. destruct (msr_type_eq_dec a b); split; congruence. Qed.
Lemma existsb_type t l : existsb (type_eqb t) l = true <-> In t l.
Proof.
  rewrite existsb_exists. split.
  - intros (x & H & Q). apply type_eqb_eq in Q. now subst.
  - intros H. exists t. split; [assumption|]. now apply type_eqb_eq.
Qed.

Lemma drop_holds (l : list upd) :
  exists l', drop_time_updates (solution_of l) = solution_of l' /\ keeps is_measurement l l'.
Proof.
  eexists. split; [apply selecting_filter|]. apply filter_keeps. intros u.
  unfold is_measurement. destruct (u_residual u); split; congruence.
Qed.
Lemma by_type_holds (l : list upd) t :
  exists l', filter_by_msr_type (solution_of l) t = solution_of l' /\ keeps (has_type t) l l'.
Proof.
  eexists. split; [apply selecting_filter|]. apply filter_keeps. intros u.
  unfold has_type. destruct (u_residual u) as [r|].
  - rewrite existsb_type. split; [intros H; now exists r|]. intros (r' & [= ->] & H). exact H.
  - split; [discriminate|]. intros (r & H & _). discriminate.
Qed.
Lemma by_tracker_holds (l : list upd) t :
  exists l', filter_by_tracker (solution_of l) t = solution_of l' /\ keeps (from_tracker t) l l'.
Proof.
  eexists. split; [apply selecting_filter|]. apply filter_keeps. intros u.
  unfold from_tracker. destruct (u_residual u) as [r|].
  - split.
    + intros H. exists r. split; [reflexivity|]. destruct (res_tracker r); [|discriminate].
      apply String.eqb_eq in H. now subst.
    + intros (r' & Q & H). injection Q as ->. rewrite H. apply String.eqb_refl.
  - split; [discriminate|]. intros (r & H & _). discriminate.
Qed.
Lemma excluding_holds (l : list upd) t :
  exists l', exclude_tracker (solution_of l) t = solution_of l' /\ keeps (known_not_from t) l l'.
Proof.
  eexists. split; [apply selecting_filter|]. apply filter_keeps. intros u.
  unfold known_not_from. destruct (u_residual u) as [r|].
  - split.
    + intros H r' Q. injection Q as <-. destruct (res_tracker r) as [t'|]; [|discriminate].
      exists t'. split; [reflexivity|]. apply negb_true_iff, String.eqb_neq in H. exact H.
    + intros H. destruct (H r eq_refl) as (t' & -> & N). apply negb_true_iff, String.eqb_neq, N.
  - split; [intros _ r Q; discriminate|reflexivity].
Qed.

(** ** Accepted and rejected residuals *)
Lemma flatten_in {A} (l : list (option A)) a : In a (flatten l) <-> In (Some a) l.
Proof.
  induction l as [|[b|] l IH]; cbn.
  - tauto.
  - rewrite IH. split; intros [H|H]; try (now right); left; congruence.
  - rewrite IH. split; [now right|]. intros [H|H]; [discriminate|assumption].
Qed.
Lemma partition_perm {A} (p : A -> bool) (l : list A) :
  Permutation (filter (fun x => negb (p x)) l ++ filter p l) l.
Proof.
  induction l as [|x l IH]; cbn; [constructor|]. destruct (p x); cbn.
  - symmetry. apply Permutation_cons_app. now symmetry.
  - now constructor.
Qed.

(** ** Splitting *)
Lemma set_insert_in x y l : In y (set_insert x l) <-> y = x \/ In y l.
Proof.
  unfold set_insert. destruct (existsb (pair_eqb x) l) eqn:Q.
  - split; [now right|]. intros [->|H]; [|assumption].
    apply existsb_exists in Q. destruct Q as ([t k] & Hin & Q). destruct x as [t' k'].
    unfold pair_eqb in Q. cbn in Q. apply andb_true_iff in Q. destruct Q as [Q1 Q2].
    apply String.eqb_eq in Q1. apply type_eqb_eq in Q2. now subst.
  - rewrite in_app_iff. cbn. intuition congruence.
Qed.
Lemma set_insert_nodup x l : NoDup l -> NoDup (set_insert x l).
Proof.
  unfold set_insert. intros H. destruct (existsb (pair_eqb x) l) eqn:Q; [assumption|].
  assert (N : ~ In x l).
  { intros I. assert (existsb (pair_eqb x) l = true); [|congruence].
    apply existsb_exists. exists x. split; [assumption|]. unfold pair_eqb.
    rewrite String.eqb_refl. cbn. now apply type_eqb_eq. }
  apply (NoDup_Add (a := x) (l := l)); [|now split].
  replace l with (l ++ []) at 1 by apply app_nil_r. apply Add_app.
Qed.
Lemma unique_types_spec t : forall ks acc l,
  unique_types t ks acc = Some l -> NoDup acc ->
  NoDup l /\ forall x, In x l <-> (Some (fst x) = t /\ In (snd x) ks) \/ In x acc.
Proof.
  induction ks as [|k ks IH]; intros acc l; cbn [unique_types].
  - intros [= <-] N. split; [assumption|]. cbn. tauto.
  - destruct t as [t|]; [|discriminate]. intros H N.
    destruct (IH _ _ H (set_insert_nodup _ _ N)) as [N' H']. split; [assumption|].
    intros x. rewrite H', set_insert_in. destruct x as [t' k']. cbn. split.
    + intros [[A B]|[A|A]]; [left; split; [assumption|now right]| |now right].
      injection A as -> ->. left. split; [reflexivity|now left].
    + intros [[A [B|B]]|A]; [|left; now split|now right; right].
      subst k'. injection A as ->. right. now left.
Qed.
Lemma unique_loop_spec : forall (rs : list (residual V)) acc l,
  unique_loop rs acc = Some l -> NoDup acc ->
  NoDup l /\ forall x, In x l <->
    (exists r, In r rs /\ res_tracker r = Some (fst x) /\ In (snd x) (res_types r)) \/ In x acc.
Proof.
  induction rs as [|r rs IH]; intros acc l; cbn [unique_loop].
  - intros [= <-] N. split; [assumption|]. intros x. split; [now right|].
    intros [(r & [] & _)|H]; exact H.
  - destruct (unique_types (res_tracker r) (res_types r) acc) as [acc'|] eqn:Q; [|discriminate].
    intros H N. destruct (unique_types_spec _ _ _ _ Q N) as [N1 H1].
    destruct (IH _ _ H N1) as [N2 H2]. split; [assumption|].
    intros x. rewrite H2, H1. split.
    + intros [(r' & A & B)|[[A B]|A]].
      * left. exists r'. split; [now right|assumption].
      * left. exists r. split; [now left|]. now split.
      * now right.
    + intros [(r' & [<-|A] & B & C)|A].
      * right. left. split; [congruence|assumption].
      * left. now exists r'.
      * now right; right.
Qed.
Lemma unique_types_none ks acc : unique_types None ks acc = None <-> ks <> [].
Proof. destruct ks; cbn; split; congruence. Qed.
Lemma unique_types_some t : forall ks acc, unique_types (Some t) ks acc <> None.
Proof. induction ks as [|k ks IH]; intros acc; cbn; [discriminate|apply IH]. Qed.
Lemma unique_loop_none : forall (rs : list (residual V)) acc,
  unique_loop rs acc = None <-> exists r, In r rs /\ res_tracker r = None /\ res_types r <> [].
Proof.
  induction rs as [|r rs IH]; intros acc; cbn [unique_loop].
  - split; [discriminate|]. intros (r & [] & _).
  - destruct (unique_types (res_tracker r) (res_types r) acc) as [acc'|] eqn:Q.
    + rewrite IH. split.
      * intros (r' & A & B). exists r'. split; [now right|assumption].
      * intros (r' & [<-|A] & B & C); [|now exists r'].
        rewrite B in Q. apply unique_types_none with (acc := acc) in C. congruence.
    + split; [|trivial]. intros _. exists r. split; [now left|].
      destruct (res_tracker r); [now apply unique_types_some in Q|].
      split; [reflexivity|]. now apply unique_types_none in Q.
Qed.

Definition part_of (t : string) (k : msr_type) (u : upd) : Prop :=
  exists r, u_residual u = Some r /\ res_tracker r = Some t /\ In k (res_types r).

Lemma part_holds (l : list upd) t k :
  exists l', filter_by_msr_type (filter_by_tracker (solution_of l) t) k = solution_of l' /\
    keeps (part_of t k) l l'.
Proof.
  unfold filter_by_tracker, filter_by_msr_type. rewrite !selecting_filter.
  eexists. split; [reflexivity|].
  match goal with |- keeps _ _ (filter ?p (filter ?q _)) =>
    replace (filter p (filter q l)) with (filter (fun u => p u && q u) l) end.
  2: { induction l as [|u l IH]; cbn; [reflexivity|].
       match goal with |- context [if ?a && ?b then _ else _] => destruct b end; cbn.
       - rewrite andb_true_r. rewrite <- IH. reflexivity.
       - rewrite andb_false_r. assumption. }
  apply filter_keeps. intros u. unfold part_of. destruct (u_residual u) as [r|].
  - rewrite andb_true_iff, existsb_type. split.
    + intros [A B]. exists r. destruct (res_tracker r); [|discriminate].
      apply String.eqb_eq in B. subst. auto.
    + intros (r' & Q & A & B). injection Q as <-. rewrite A, String.eqb_refl. auto.
  - split; [discriminate|]. intros (r & Q & _). discriminate.
Qed.

Lemma residual_in (l : list upd) r :
  In r (flatten (residuals (solution_of l))) <-> exists u, In u l /\ u_residual u = Some r.
Proof.
  rewrite flatten_in. cbn. rewrite in_map_iff. split; intros (u & A & B); now exists u.
Qed.

Lemma split_spec (l : list upd) parts :
  split (solution_of l) = Some parts ->
  exists keys, NoDup keys /\
    (forall t k, In (t, k) keys <-> exists u, In u l /\ part_of t k u) /\
    Forall2 (fun key s => exists l', s = solution_of l' /\ keeps (part_of (fst key) (snd key)) l l')
      keys parts.
Proof.
  unfold split, unique. destruct (unique_loop _ _) as [keys|] eqn:Q; [|discriminate].
  intros [= <-]. exists keys.
  destruct (unique_loop_spec _ _ _ Q (NoDup_nil _)) as [N H]. split; [assumption|]. split.
  - intros t k. rewrite H. cbn [fst snd]. unfold part_of. split.
    + intros [(r & A & B)|[]]. apply residual_in in A. destruct A as (u & A & C).
      exists u. split; [assumption|]. now exists r.
    + intros (u & A & r & B & C). left. exists r. split; [|assumption].
      apply residual_in. now exists u.
  - clear. induction keys as [|[t k] keys IH]; cbn [map]; constructor; [|assumption].
    apply part_holds.
Qed.
Lemma split_none (l : list upd) :
  split (solution_of l) = None <->
  exists u r, In u l /\ u_residual u = Some r /\ res_tracker r = None /\ res_types r <> [].
Proof.
  unfold split, unique. pose proof (unique_loop_none (flatten (residuals (solution_of l))) []) as U.
  destruct (unique_loop _ _) as [keys|].
  - split; [discriminate|]. intros (u & r & A & B & C). enough (Some keys = None) by discriminate.
    apply U. exists r. split; [|assumption].
    apply residual_in. now exists u.
  - split; [|reflexivity]. intros _. destruct (proj1 U eq_refl) as (r & A & B).
    apply residual_in in A. destruct A as (u & A & C). now exists u, r.
Qed.
End Filters.

(** * Merging *)
Section Swap.
Context {A : Type}.
Implicit Types l : list A.

Lemma set_nth_length i x l : length (set_nth i x l) = length l.
Proof. revert i. induction l as [|y l IH]; intros [|i]; cbn; auto. Qed.
Lemma nth_set_nth_same : forall l i x, (i < length l)%nat -> nth_error (set_nth i x l) i = Some x.
Proof.
  induction l as [|y l IH]; intros [|i] x H; cbn in *; try lia; [reflexivity|]. apply IH. lia.
Qed.
Lemma nth_set_nth_other : forall l i j x, i <> j -> nth_error (set_nth i x l) j = nth_error l j.
Proof.
  induction l as [|y l IH]; intros [|i] [|j] x H; cbn; try reflexivity; try congruence.
  apply IH. congruence.
Qed.
Lemma set_nth_perm : forall l i a b, nth_error l i = Some a ->
  Permutation (b :: l) (a :: set_nth i b l).
Proof.
  induction l as [|y l IH]; intros [|i] a b H; cbn in *; try discriminate.
  - injection H as ->. apply perm_swap.
  - eapply Permutation_trans; [apply perm_swap|].
    eapply Permutation_trans; [apply perm_skip, (IH i a b H)|]. apply perm_swap.
Qed.
Lemma swap_perm l i j l' : swap i j l = Some l' -> Permutation l l'.
Proof.
  unfold swap. destruct (nth_error l i) as [a|] eqn:Qa; [|discriminate].
  destruct (nth_error l j) as [b|] eqn:Qb; [|discriminate]. intros [= <-].
  destruct (Nat.eq_dec i j) as [->|N].
  - assert (a = b) by congruence. subst b.
    apply (Permutation_cons_inv (a := a)).
    eapply Permutation_trans; [apply (set_nth_perm l j a a Qa)|]. constructor.
    apply (Permutation_cons_inv (a := a)).
    apply set_nth_perm. apply nth_set_nth_same. apply nth_error_Some. congruence.
  - apply (Permutation_cons_inv (a := b)).
    eapply Permutation_trans; [apply (set_nth_perm l i a b Qa)|].
    apply set_nth_perm. now rewrite nth_set_nth_other by congruence.
Qed.
Lemma swap_some l i j : (i < length l)%nat -> (j < length l)%nat -> exists l', swap i j l = Some l'.
Proof.
  intros Hi Hj. unfold swap.
  destruct (nth_error l i) eqn:Q; [|apply nth_error_None in Q; lia].
  destruct (nth_error l j) eqn:Q'; [|apply nth_error_None in Q'; lia]. eauto.
Qed.
End Swap.
Lemma set_nth_map {A B} (f : A -> B) : forall l i x,
  map f (set_nth i x l) = set_nth i (f x) (map f l).
Proof. induction l as [|y l IH]; intros [|i] x; cbn; [reflexivity..|]. now rewrite IH. Qed.
Lemma swap_map {A B} (f : A -> B) i j l : swap i j (map f l) = option_map (map f) (swap i j l).
Proof.
  unfold swap. rewrite !nth_error_map. destruct (nth_error l i); [|reflexivity].
  destruct (nth_error l j); [|reflexivity]. cbn. now rewrite !set_nth_map.
Qed.

Section Merge.
Context {E V G F : Type} (epoch_of : E -> Z).
Notation upd := (update E V G F).
Notation sol := (solution E V G F).

(** The positions and the updates move together. *)
Definition paired (ix : list nat) (l : list upd) (p : list (nat * upd)) : Prop :=
  ix = map fst p /\ l = map snd p.

Definition settled (j : nat) (ix : list nat) : Prop := nth_error ix j = Some j.
Fixpoint unsettled (j : nat) (ix : list nat) : nat :=
  match ix with
  | [] => 0
  | t :: ix' => (if (t =? j)%nat then 0 else 1) + unsettled (S j) ix'
  end.
Lemma unsettled_length : forall ix j, (unsettled j ix <= length ix)%nat.
Proof. induction ix as [|t ix IH]; intros j; cbn; [lia|]. specialize (IH (S j)). destruct (t =? j)%nat; lia. Qed.
Lemma unsettled_pos : forall ix j k t, nth_error ix k = Some t -> t <> (j + k)%nat ->
  (1 <= unsettled j ix)%nat.
Proof.
  induction ix as [|u ix IH]; intros j [|k] t H N; cbn in *; try discriminate.
  - injection H as ->. destruct (Nat.eqb_spec t j); lia.
  - specialize (IH (S j) k t H ltac:(lia)). lia.
Qed.
Lemma unsettled_set : forall ix j k t x, nth_error ix k = Some t -> t <> (j + k)%nat ->
  (unsettled j (set_nth k x ix) + (if (x =? j + k)%nat then 1 else 0) = unsettled j ix)%nat.
Proof.
  induction ix as [|u ix IH]; intros j [|k] t x H N; cbn [nth_error set_nth unsettled] in *;
    try discriminate.
  - injection H as ->. rewrite Nat.add_0_r in *. destruct (Nat.eqb_spec t j); [lia|].
    destruct (x =? j)%nat; lia.
  - specialize (IH (S j) k t x H ltac:(lia)). replace (j + S k)%nat with (S j + k)%nat by lia. lia.
Qed.
Lemma unsettled_set_le : forall ix j k x t, nth_error ix k = Some t ->
  (unsettled j (set_nth k x ix) <= unsettled j ix + (if (t =? j + k)%nat then 1 else 0))%nat.
Proof.
  induction ix as [|u ix IH]; intros j [|k] x t H; cbn [nth_error set_nth unsettled] in *;
    try discriminate.
  - injection H as ->. rewrite Nat.add_0_r in *. destruct (x =? j)%nat, (t =? j)%nat; lia.
  - specialize (IH (S j) k x t H). replace (j + S k)%nat with (S j + k)%nat by lia. lia.
Qed.

Lemma solution_swap i j (l l' : list upd) : swap i j l = Some l' ->
  swap i j (estimates (solution_of l)) = Some (estimates (solution_of l')) /\
  swap i j (residuals (solution_of l)) = Some (residuals (solution_of l')) /\
  swap i j (gains (solution_of l)) = Some (gains (solution_of l')) /\
  swap i j (fs_ratios (solution_of l)) = Some (fs_ratios (solution_of l')).
Proof. intros H. cbn. rewrite !swap_map, H. repeat split. Qed.

Definition is_permutation_of_positions (p : list (nat * upd)) : Prop :=
  Permutation (map fst p) (seq 0 (length p)).

Lemma settle_spec : forall fuel cur p,
  is_permutation_of_positions p -> (cur < length p)%nat ->
  (unsettled 0 (map fst p) < fuel)%nat ->
  exists p', settle fuel cur (map fst p) (solution_of (map snd p))
               = Ok (map fst p', solution_of (map snd p')) /\
    Permutation p p' /\ settled cur (map fst p') /\
    (forall j, settled j (map fst p) -> settled j (map fst p')).
Proof.
  induction fuel as [|fuel IH]; intros cur p P C U; [lia|]. cbn [settle].
  destruct (nth_error (map fst p) cur) as [t|] eqn:Q.
  2: { apply nth_error_None in Q. rewrite map_length in Q. lia. }
  destruct (Nat.eqb_spec t cur) as [->|N].
  { exists p. split; [reflexivity|]. repeat split; auto. }
  assert (T : (t < length p)%nat).
  { apply nth_error_In in Q. eapply Permutation_in in Q; [|exact P].
    apply in_seq in Q. lia. }
  destruct (swap_some p cur t C T) as [p1 S1].
  pose proof (swap_map fst cur t p) as Sf. pose proof (swap_map snd cur t p) as Ss.
  rewrite S1 in Sf, Ss. cbn [option_map] in Sf, Ss. rewrite Sf.
  destruct (solution_swap _ _ _ _ Ss) as (-> & -> & -> & ->).
  change {| estimates := estimates (solution_of (map snd p1));
            residuals := residuals (solution_of (map snd p1));
            gains := gains (solution_of (map snd p1));
            fs_ratios := fs_ratios (solution_of (map snd p1)) |} with (solution_of (map snd p1)).
  pose proof (swap_perm _ _ _ _ S1) as P1.
  assert (ND : NoDup (map fst p)) by (eapply Permutation_NoDup; [symmetry; exact P|apply seq_NoDup]).
  (* what is at the target is not its own position *)
  destruct (nth_error (map fst p) t) as [u|] eqn:Qu.
  2: { apply nth_error_None in Qu. rewrite map_length in Qu. lia. }
  assert (Nu : u <> t).
  { intros ->. apply N. pose proof (proj1 (NoDup_nth_error _) ND cur t) as D.
    rewrite map_length in D. symmetry. apply D; [assumption|congruence]. }
  assert (Sx : map fst p1 = set_nth t t (set_nth cur u (map fst p))).
  { unfold swap in Sf. rewrite Q, Qu in Sf. congruence. }
  assert (Lp : length p1 = length p) by (symmetry; now apply Permutation_length).
  destruct (IH cur p1) as (p' & R1 & R2 & R3 & R4).
  - unfold is_permutation_of_positions. rewrite Lp.
    eapply Permutation_trans; [|exact P]. apply Permutation_map. now symmetry.
  - lia.
  - rewrite Sx.
    assert (U1 : (unsettled 0 (set_nth cur u (map fst p)) <= unsettled 0 (map fst p))%nat).
    { pose proof (unsettled_set_le (map fst p) 0 cur u t Q) as L. cbn in L.
      destruct (Nat.eqb_spec t cur); [congruence|lia]. }
    pose proof (unsettled_set (set_nth cur u (map fst p)) 0 t u t) as U2.
    rewrite nth_set_nth_other in U2 by congruence. specialize (U2 Qu Nu). cbn in U2.
    rewrite Nat.eqb_refl in U2. lia.
  - exists p'. split; [assumption|]. split; [eapply Permutation_trans; eassumption|].
    split; [assumption|]. intros j Hj. apply R4. unfold settled in *. rewrite Sx.
    destruct (Nat.eq_dec j t) as [->|Nj]; [congruence|].
    rewrite nth_set_nth_other by congruence.
    destruct (Nat.eq_dec j cur) as [->|Nc]; [congruence|].
    now rewrite nth_set_nth_other by congruence.
Qed.

Lemma permute_spec : forall fuel positions p,
  is_permutation_of_positions p -> (length p < fuel)%nat ->
  (forall i, In i positions -> (i < length p)%nat) ->
  exists p', permute fuel positions (map fst p) (solution_of (map snd p))
               = Ok (solution_of (map snd p')) /\
    Permutation p p' /\
    (forall j, In j positions -> settled j (map fst p')) /\
    (forall j, settled j (map fst p) -> settled j (map fst p')).
Proof.
  intros fuel. induction positions as [|i positions IH]; intros p P L I; cbn [permute].
  - exists p. repeat split; auto. intros j [].
  - destruct (settle_spec fuel i p P) as (p1 & -> & P1 & S1 & K1).
    + apply I. now left.
    + pose proof (unsettled_length (map fst p) 0) as U. rewrite map_length in U. lia.
    + cbn [bind fst snd].
      assert (Lp : length p1 = length p) by (symmetry; now apply Permutation_length).
      destruct (IH p1) as (p' & R1 & R2 & R3 & R4).
      * unfold is_permutation_of_positions. rewrite Lp.
        eapply Permutation_trans; [|exact P]. apply Permutation_map. now symmetry.
      * lia.
      * intros j Hj. rewrite Lp. apply I. now right.
      * exists p'. split; [assumption|]. split; [eapply Permutation_trans; eassumption|].
        split; [|auto]. intros j [<-|Hj]; auto.
Qed.

Lemma all_settled : forall (ix : list nat) k,
  (forall j, (j < length ix)%nat -> nth_error ix j = Some (k + j)%nat) -> ix = seq k (length ix).
Proof.
  induction ix as [|t ix IH]; intros k H; cbn; [reflexivity|]. f_equal.
  - specialize (H 0%nat ltac:(cbn; lia)). cbn in H. rewrite Nat.add_0_r in H. congruence.
  - apply IH. intros j Hj. specialize (H (S j) ltac:(cbn; lia)). cbn in H. rewrite H.
    f_equal. lia.
Qed.

Lemma combine_fst {A B} : forall (l : list A) (m : list B), length l = length m ->
  map fst (combine l m) = l /\ map snd (combine l m) = m.
Proof.
  induction l as [|a l IH]; intros [|b m] H; cbn in *; try discriminate; [auto|].
  destruct (IH m) as [H1 H2]; [lia|]. now rewrite H1, H2.
Qed.
Lemma nth_pairs {A B} : forall (p : list (A * B)) i a b,
  nth_error (map fst p) i = Some a -> nth_error (map snd p) i = Some b ->
  nth_error p i = Some (a, b).
Proof.
  induction p as [|[x y] p IH]; intros [|i] a b H1 H2; cbn in *; try discriminate; [congruence|auto].
Qed.

(** The place where the merge puts each update: [order] lists the positions by epoch, and the
    update at position [i] ends at position [order[i]]. *)
Lemma merge_spec fuel (la lb : list upd) : (length (la ++ lb) < fuel)%nat ->
  exists l' order, merge epoch_of fuel (solution_of la) (solution_of lb) = Ok (solution_of l') /\
    Permutation (la ++ lb) l' /\
    order = sort_by (key_leb (epoch_at epoch_of (map u_estimate (la ++ lb))))
              (seq 0 (length (la ++ lb))) /\
    forall i t, nth_error order i = Some t -> nth_error l' t = nth_error (la ++ lb) i.
Proof.
  intros L. unfold merge. set (l := la ++ lb) in *.
  assert (A : append (solution_of la) (solution_of lb) = solution_of l).
  { unfold append, solution_of. subst l. now rewrite !map_app. }
  rewrite A. cbn [estimates solution_of]. rewrite map_length.
  unfold sorted_indices. rewrite map_length.
  set (order := sort_by _ (seq 0 (length l))).
  assert (Po : Permutation (seq 0 (length l)) order) by apply sort_perm.
  assert (Lo : length order = length l) by (unfold order; rewrite sort_length, seq_length; reflexivity).
  destruct (combine_fst order l Lo) as [Cf Cs]. set (p := combine order l) in *.
  assert (Lp : length p = length l) by (rewrite <- Cs; now rewrite map_length).
  destruct (permute_spec fuel (seq 0 (length l)) p) as (p' & R1 & R2 & R3 & _).
  - unfold is_permutation_of_positions. rewrite Cf, Lp. now symmetry.
  - lia.
  - intros i Hi. apply in_seq in Hi. lia.
  - rewrite Cf, Cs in R1.
    change ({| estimates := map u_estimate l; residuals := map u_residual l;
               gains := map u_gain l; fs_ratios := map u_ratio l |}) with (solution_of l).
    exists (map snd p'), order. split; [exact R1|].
    assert (Lp' : length p' = length l) by (rewrite <- Lp; symmetry; now apply Permutation_length).
    assert (Fp : map fst p' = seq 0 (length l)).
    { rewrite <- Lp', <- (map_length fst p'). apply all_settled. intros j Hj. rewrite Nat.add_0_l.
      rewrite map_length, Lp' in Hj. apply R3, in_seq. lia. }
    split; [rewrite <- Cs; now apply Permutation_map|]. split; [reflexivity|].
    intros i t Hi.
    destruct (nth_error l i) as [u|] eqn:Qu.
    2: { apply nth_error_None in Qu. assert (i < length order)%nat by (apply nth_error_Some; congruence). lia. }
    assert (I : In (t, u) p').
    { eapply Permutation_in; [exact R2|]. apply nth_error_In with i.
      apply nth_pairs; [now rewrite Cf|now rewrite Cs]. }
    apply In_nth_error in I. destruct I as [k Hk].
    assert (Kt : k = t).
    { pose proof (map_nth_error fst _ _ Hk) as M. cbn in M. rewrite Fp in M.
      assert (k < length p')%nat by (apply nth_error_Some; congruence).
      rewrite (nth_error_nth' _ 0%nat) in M by (rewrite seq_length; lia).
      rewrite seq_nth in M by lia. injection M as M. lia. }
    subst k. pose proof (map_nth_error snd _ _ Hk) as M. exact M.
Qed.

(** A sorted order exists when the appended updates are already chronological. *)
Lemma nth_key {A} (key : A -> Z) (l : list A) i : (i < length l)%nat -> exists x, nth_error l i = Some x.
Proof. intros H. destruct (nth_error l i) eqn:Q; [eauto|apply nth_error_None in Q; lia]. Qed.
Lemma sorted_nth {A} (R : A -> A -> Prop) : forall l : list A, StronglySorted R l ->
  forall i j x y, (i < j)%nat -> nth_error l i = Some x -> nth_error l j = Some y -> R x y.
Proof.
  induction 1 as [|a l H IH Fa]; intros i j x y Hij Hi Hj; [destruct i; discriminate|].
  destruct j as [|j]; [lia|]. destruct i as [|i]; cbn in *.
  - injection Hi as ->. rewrite Forall_forall in Fa. apply Fa. eapply nth_error_In; eauto.
  - eapply (IH i j); eauto. lia.
Qed.
Lemma seq_ordered (R : nat -> nat -> bool) : forall n k,
  (forall i j, (k <= i < j)%nat -> (j < k + n)%nat -> R i j = true) -> ordered R (seq k n).
Proof.
  induction n as [|n IH]; intros k H; cbn; constructor.
  - apply IH. intros i j Hi Hj. apply H; lia.
  - apply Forall_forall. intros j Hj. apply in_seq in Hj. apply H; lia.
Qed.
Lemma merge_chronological fuel (la lb : list upd) : (length (la ++ lb) < fuel)%nat ->
  chronological epoch_of (la ++ lb) ->
  merge epoch_of fuel (solution_of la) (solution_of lb) = Ok (solution_of (la ++ lb)).
Proof.
  intros L C. destruct (merge_spec fuel la lb L) as (l' & order & M & P & O & N).
  rewrite M. do 2 f_equal. set (l := la ++ lb) in *.
  assert (Q : order = seq 0 (length l)).
  { rewrite O. apply sort_id. apply seq_ordered. intros i j Hi Hj. unfold key_leb, epoch_at.
    rewrite !nth_error_map.
    destruct (nth_key (fun u => epoch_of (u_estimate u)) l i ltac:(lia)) as [x Hx].
    destruct (nth_key (fun u => epoch_of (u_estimate u)) l j ltac:(lia)) as [y Hy].
    rewrite Hx, Hy. cbn. apply Z.leb_le. eapply (sorted_nth _ l C i j); eauto. lia. }
  assert (Len : length l' = length l) by (symmetry; now apply Permutation_length).
  assert (X : forall i, nth_error l' i = nth_error l i).
  { intros i. destruct (Nat.lt_ge_cases i (length l)) as [Hi|Hi].
    - apply N. rewrite Q. rewrite (nth_error_nth' _ 0%nat) by (rewrite seq_length; lia).
      now rewrite seq_nth by lia.
    - rewrite !(proj2 (nth_error_None _ _)); [reflexivity|lia|lia]. }
  clear -X Len. revert l' X Len. induction l as [|x l IH]; intros [|y l'] X Len; cbn in Len; try discriminate; [reflexivity|].
  pose proof (X 0%nat) as X0. cbn in X0. injection X0 as ->. f_equal. apply IH; [|lia].
  intros i. apply (X (S i)).
Qed.

(** ** Sequences of operations *)
Lemma run_op_effect fuel o (l : list upd) :
  (match o with MergedWith other => length (l ++ other) < fuel | _ => True end)%nat ->
  exists l', run_op epoch_of fuel o (solution_of l) = Ok (solution_of l') /\ effect o l l'.
Proof.
  destruct o; cbn [run_op effect]; intros L.
  - eexists. split; [|reflexivity]. unfold push_measurement_update, solution_of. now rewrite !map_app.
  - eexists. split; [|reflexivity]. unfold push_time_update, solution_of. now rewrite !map_app.
  - destruct (drop_holds l) as (l' & -> & K). eauto.
  - destruct (by_type_holds l t) as (l' & -> & K). eauto.
  - destruct (by_tracker_holds l t) as (l' & -> & K). eauto.
  - destruct (excluding_holds l t) as (l' & -> & K). eauto.
  - destruct (merge_spec fuel l other L) as (l' & order & M & P & _). eauto.
Qed.

(** ** Lookup *)
Lemma search_chronological (es : list E) epoch :
  StronglySorted (fun a b => epoch_of a <= epoch_of b) es ->
  searchable (fun e => epoch_of e ?= epoch) es.
Proof.
  intros S i j Hij. unfold cmp_at.
  destruct (nth_key epoch_of es i ltac:(lia)) as [x Hx].
  destruct (nth_key epoch_of es j ltac:(lia)) as [y Hy]. rewrite Hx, Hy.
  assert (epoch_of x <= epoch_of y).
  { destruct (Nat.eq_dec i j) as [->|N]; [assert (x = y) by congruence; subst; lia|].
    eapply (sorted_nth _ es S i j); eauto. lia. }
  destruct (Z.compare_spec (epoch_of x) epoch), (Z.compare_spec (epoch_of y) epoch); cbn; lia.
Qed.
Lemma found_index (es : list E) epoch i :
  binary_search_by (fun e => epoch_of e ?= epoch) es = inl i ->
  exists e, nth_error es i = Some e /\ epoch_of e = epoch.
Proof.
  unfold binary_search_by. destruct es as [|x es]; [discriminate|].
  set (es' := x :: es). set (b := search_loop _ _ _ _ _). destruct (cmp_at _ es' b) eqn:Q; try discriminate.
  intros [= <-]. unfold cmp_at in Q. destruct (nth_error es' b) as [e|]; [|discriminate].
  exists e. split; [reflexivity|]. now apply Z.compare_eq.
Qed.
Lemma at_spec (l : list upd) epoch :
  match at_epoch epoch_of (solution_of l) epoch with
  | Ok (Some r) => exists i u, nth_error l i = Some u /\ epoch_of (u_estimate u) = epoch /\
      rec_estimate r = u_estimate u /\ rec_residual r = u_residual u /\ rec_gain r = u_gain u /\
      rec_ratio r = u_ratio u
  | Ok None => chronological epoch_of l -> forall u, In u l -> epoch_of (u_estimate u) <> epoch
  | _ => False
  end.
Proof.
  unfold at_epoch. cbn [estimates solution_of residuals gains fs_ratios].
  destruct (binary_search_by _ _) as [i|i] eqn:Q.
  - destruct (found_index _ _ _ Q) as (e & He & Hep). rewrite He.
    rewrite nth_error_map in He. destruct (nth_error l i) as [u|] eqn:Qu; [|discriminate].
    cbn in He. injection He as <-. rewrite !nth_error_map, Qu. cbn. exists i, u. auto 10.
  - intros C u Hu He. apply In_nth_error in Hu. destruct Hu as [k Hk].
    assert (S : StronglySorted (fun a b => epoch_of a <= epoch_of b) (map u_estimate l)).
    { clear -C. induction C as [|u l C IH Fu]; cbn; constructor; [assumption|].
      apply Forall_forall. intros e He. apply in_map_iff in He. destruct He as (v & <- & Hv).
      rewrite Forall_forall in Fu. now apply Fu. }
    pose proof (binary_search_spec _ _ (search_chronological _ epoch S)) as B. rewrite Q in B.
    destruct B as (_ & B1 & B2).
    assert (K : (k < length (map u_estimate l))%nat).
    { rewrite map_length. apply nth_error_Some. congruence. }
    assert (X : cmp_at (fun e => epoch_of e ?= epoch) (map u_estimate l) k = Eq).
    { unfold cmp_at. rewrite nth_error_map, Hk. cbn. rewrite He. apply Z.compare_refl. }
    destruct (Nat.lt_ge_cases k i) as [H|H].
    + rewrite B1 in X by assumption. discriminate.
    + rewrite B2 in X by lia. discriminate.
Qed.
End Merge.
