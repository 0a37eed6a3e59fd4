(** The functions of the Rust standard library and of hifitime that the modelled code calls
    on vectors and epochs.  They are part of the trusted base: the source is not in the
    repository.  Each follows its documentation ([binary_search_by] follows the library's
    algorithm, since the index it returns is only partly specified). *)
From Coq Require Export Permutation Sorted.
From Verif Require Import Base.

Section Sort.
Context {A : Type} (leb : A -> A -> bool).

(** [slice::sort_by] and [sort_by_key]: the stable sort. *)
Fixpoint insert (x : A) (l : list A) : list A :=
  match l with
  | [] => [x]
  | y :: l' => if leb x y then x :: l else y :: insert x l'
  end.
Fixpoint sort_by (l : list A) : list A :=
  match l with [] => [] | x :: l' => insert x (sort_by l') end.

Definition ordered : list A -> Prop := StronglySorted (fun a b => leb a b = true).

Lemma insert_perm x l : Permutation (x :: l) (insert x l).
Proof.
  induction l as [|y l IH]; cbn; [constructor; constructor|].
  destruct (leb x y); [apply Permutation_refl|].
  eapply Permutation_trans; [apply perm_swap|]. now constructor.
Qed.
Lemma sort_perm l : Permutation l (sort_by l).
Proof.
  induction l as [|x l IH]; cbn; [constructor|].
  eapply Permutation_trans; [|apply insert_perm]. now constructor.
Qed.
Lemma sort_in x l : In x (sort_by l) <-> In x l.
Proof.
  split; apply Permutation_in; [apply Permutation_sym|]; apply sort_perm.
Qed.
Lemma sort_length l : length (sort_by l) = length l.
Proof. symmetry. apply Permutation_length, sort_perm. Qed.

Hypothesis total : forall a b, leb a b = true \/ leb b a = true.
Hypothesis trans : forall a b c, leb a b = true -> leb b c = true -> leb a c = true.

Lemma insert_sorted x l : ordered l -> ordered (insert x l).
Proof.
  induction 1 as [|y l H IH F]; cbn; [repeat constructor|].
  destruct (leb x y) eqn:E.
  - constructor; [now constructor|]. constructor; [assumption|].
    rewrite Forall_forall in *. intros z Hz. eapply trans; eauto.
  - constructor; [assumption|]. rewrite Forall_forall in *. intros z Hz.
    apply (Permutation_in _ (Permutation_sym (insert_perm x l))) in Hz.
    destruct Hz as [<-|Hz]; [|auto]. destruct (total x y); congruence.
Qed.
Lemma sort_sorted l : ordered (sort_by l).
Proof. induction l as [|x l IH]; cbn; [constructor|]. now apply insert_sorted. Qed.

(** A sorted list is left alone. *)
Lemma sort_id l : ordered l -> sort_by l = l.
Proof.
  induction 1 as [|x l H IH F]; cbn; [reflexivity|]. rewrite IH.
  destruct l as [|y l]; [reflexivity|]. cbn. inversion F; subst.
  now replace (leb x y) with true.
Qed.

(** The relative order of equivalent elements is kept. *)
Lemma sort_stable (p : A -> bool) l :
  (forall a b, p a = true -> p b = true -> leb a b = true) ->
  filter p (sort_by l) = filter p l.
Proof.
  intros Hp. induction l as [|x l IH]; [reflexivity|]. cbn [sort_by].
  assert (I : forall m, filter p (insert x m) = if p x then x :: filter p m else filter p m).
  { clear IH. induction m as [|y m IH]; cbn; [reflexivity|].
    destruct (leb x y) eqn:E; cbn; [reflexivity|]. rewrite IH.
    destruct (p x) eqn:Px, (p y) eqn:Py; try reflexivity.
    rewrite (Hp x y) in E by assumption. discriminate. }
  rewrite I, IH. reflexivity.
Qed.

(** Without equivalent elements the result does not depend on the original order. *)
Lemma sorted_unique l : forall m,
  (forall a b, In a l -> In b l -> leb a b = true -> leb b a = true -> a = b) ->
  ordered l -> ordered m -> Permutation l m -> l = m.
Proof.
  induction l as [|x l IH]; intros m Hs Hl Hm Hp.
  - apply Permutation_nil in Hp. now subst.
  - destruct m as [|y m]; [apply Permutation_sym, Permutation_nil in Hp; discriminate|].
    inversion Hl as [|? ? Hl1 Fl]; inversion Hm as [|? ? Hm1 Fm]; subst.
    assert (x = y).
    { assert (Iy : In y (x :: l)) by (eapply Permutation_in; [apply Permutation_sym, Hp|now left]).
      assert (Ix : In x (y :: m)) by (eapply Permutation_in; [apply Hp|now left]).
      rewrite Forall_forall in Fl, Fm.
      destruct Iy as [->|Iy]; [reflexivity|]. destruct Ix as [->|Ix]; [reflexivity|].
      apply Hs; [now left|now right|auto|auto]. }
    subst y. f_equal. apply IH; auto.
    + intros a b Ha Hb. apply Hs; now right.
    + now apply Permutation_cons_inv in Hp.
Qed.

Lemma sort_permutation l m :
  (forall a b, In a l -> In b l -> leb a b = true -> leb b a = true -> a = b) ->
  Permutation l m -> sort_by l = sort_by m.
Proof.
  intros Hs Hp. apply sorted_unique.
  - intros a b. rewrite !sort_in. apply Hs.
  - apply sort_sorted.
  - apply sort_sorted.
  - eapply Permutation_trans; [apply Permutation_sym, sort_perm|].
    eapply Permutation_trans; [exact Hp|apply sort_perm].
Qed.
End Sort.

(** Order by an integer key. *)
Definition key_leb {A} (key : A -> Z) (a b : A) : bool := (key a <=? key b)%Z.
Lemma key_total {A} (key : A -> Z) a b : key_leb key a b = true \/ key_leb key b a = true.
Proof. unfold key_leb. destruct (Z.leb_spec (key a) (key b)); [auto|]. right. apply Z.leb_le. lia. Qed.
Lemma key_trans {A} (key : A -> Z) a b c :
  key_leb key a b = true -> key_leb key b c = true -> key_leb key a c = true.
Proof. unfold key_leb. rewrite !Z.leb_le. lia. Qed.

(** [Vec::dedup_by]: drops every element in the same bucket as the last one kept. *)
Section Dedup.
Context {A : Type} (same : A -> A -> bool).
Fixpoint dedup_after (last : A) (l : list A) : list A :=
  match l with
  | [] => []
  | x :: l' => if same x last then dedup_after last l' else x :: dedup_after x l'
  end.
Definition dedup_by (l : list A) : list A :=
  match l with [] => [] | x :: l' => x :: dedup_after x l' end.

Lemma dedup_after_in x l : forall last, In x (dedup_after last l) -> In x l.
Proof.
  induction l as [|y l IH]; intros last; cbn; [trivial|].
  destruct (same y last); [right; eauto|]. intros [->|H]; [now left|right; eauto].
Qed.
Lemma dedup_in x l : In x (dedup_by l) -> In x l.
Proof. destruct l; cbn; [trivial|]. intros [->|H]; [now left|right; eapply dedup_after_in; eauto]. Qed.
End Dedup.

(** [slice::binary_search_by] of the library: [base] and [size] delimit the candidates. *)
Section Search.
Context {A : Type} (f : A -> comparison).
Definition cmp_at (l : list A) (i : nat) : comparison :=
  match nth_error l i with Some x => f x | None => Gt end.

Fixpoint search_loop (fuel : nat) (l : list A) (base size : nat) : nat :=
  match fuel with
  | O => base
  | S fuel' =>
      if (size <=? 1)%nat then base
      else
        let half := (size / 2)%nat in
        let mid := (base + half)%nat in
        let base' := match cmp_at l mid with Gt => base | _ => mid end in
        search_loop fuel' l base' (size - half)
  end.

(** [inl i]: found at [i] (Rust's [Ok]); [inr i]: to be inserted at [i] (Rust's [Err]). *)
Definition binary_search_by (l : list A) : nat + nat :=
  match l with
  | [] => inr 0%nat
  | _ =>
      let base := search_loop (length l) l 0 (length l) in
      match cmp_at l base with
      | Eq => inl base
      | Lt => inr (S base)
      | Gt => inr base
      end
  end.

(** The comparisons go Less ... Less Equal ... Equal Greater ... Greater. *)
Definition rank (c : comparison) : nat := match c with Lt => 0 | Eq => 1 | Gt => 2 end.
Definition searchable (l : list A) : Prop :=
  forall i j, (i <= j < length l)%nat -> (rank (cmp_at l i) <= rank (cmp_at l j))%nat.

Lemma search_loop_inv l : searchable l -> forall fuel base size,
  (size <= fuel)%nat -> (1 <= size)%nat -> (base + size <= length l)%nat ->
  (base = 0%nat \/ cmp_at l base <> Gt) ->
  (forall i, (base + size <= i < length l)%nat -> cmp_at l i = Gt) ->
  let b := search_loop fuel l base size in
  (b < length l)%nat /\ (b = 0%nat \/ cmp_at l b <> Gt) /\
  (forall i, (b < i < length l)%nat -> cmp_at l i = Gt).
Proof.
  intros Hs. induction fuel as [|fuel IH]; intros base size Hf H1 Hb Hl Hr; [lia|].
  cbn [search_loop]. destruct (Nat.leb_spec size 1) as [Hle|Hgt].
  - cbn. split; [lia|]. split; [assumption|]. intros i Hi. apply Hr. lia.
  - set (half := (size / 2)%nat). assert (Hh : (1 <= half < size /\ 2 * half <= size)%nat).
    { unfold half. split; [split|].
      - apply Nat.div_le_lower_bound; lia.
      - apply Nat.div_lt; lia.
      - apply Nat.mul_div_le. lia. }
    cbv zeta.
    destruct (cmp_at l (base + half)) eqn:E.
    + apply IH; try lia.
      * right. rewrite E. discriminate.
      * intros i Hi. apply Hr. lia.
    + apply IH; try lia.
      * right. rewrite E. discriminate.
      * intros i Hi. apply Hr. lia.
    + apply IH; try lia; [assumption|].
      intros i Hi. destruct (Nat.le_gt_cases (base + size) i) as [G|G]; [apply Hr; lia|].
      assert (R : (rank (cmp_at l (base + half)) <= rank (cmp_at l i))%nat) by (apply Hs; lia).
      rewrite E in R. destruct (cmp_at l i); cbn in R; auto; lia.
Qed.

(** What the search returns on a searchable slice. *)
Lemma binary_search_spec l : searchable l ->
  match binary_search_by l with
  | inl i => (i < length l)%nat /\ cmp_at l i = Eq
  | inr i => (i <= length l)%nat /\ (forall j, (j < i)%nat -> cmp_at l j = Lt) /\
             (forall j, (i <= j < length l)%nat -> cmp_at l j = Gt)
  end.
Proof.
  intros Hs. unfold binary_search_by. destruct l as [|x l'].
  { split; [lia|]. split; intros j Hj; cbn in *; lia. }
  set (l := x :: l') in *.
  pose proof (search_loop_inv l Hs (length l) 0 (length l) (Nat.le_refl _)) as I.
  assert (L : (1 <= length l)%nat) by (cbn; lia).
  specialize (I L (Nat.le_refl _) (or_introl eq_refl) ltac:(lia)).
  cbv zeta in I. destruct I as (I1 & I2 & I3).
  set (b := search_loop (length l) l 0 (length l)) in *.
  destruct (cmp_at l b) eqn:E.
  - split; assumption.
  - split; [lia|]. split.
    + intros j Hj. assert (R : (rank (cmp_at l j) <= rank (cmp_at l b))%nat) by (apply Hs; lia).
      rewrite E in R. destruct (cmp_at l j); cbn in R; auto; lia.
    + intros j Hj. apply I3. lia.
  - split; [lia|]. destruct I2 as [I2|I2]; [|congruence]. split.
    + intros j Hj. lia.
    + intros j Hj. destruct (Nat.eq_dec j b) as [->|]; [assumption|]. apply I3. lia.
Qed.
End Search.

(** [slice::partition_point] *)
Definition partition_point {A} (pred : A -> bool) (l : list A) : nat :=
  match binary_search_by (fun x => if pred x then Lt else Gt) l with inl i | inr i => i end.

Lemma partition_point_spec {A} (pred : A -> bool) (l : list A) :
  (forall i j x y, (i <= j)%nat -> nth_error l i = Some x -> nth_error l j = Some y ->
     pred y = true -> pred x = true) ->
  let i := partition_point pred l in
  (i <= length l)%nat /\
  (forall j x, (j < i)%nat -> nth_error l j = Some x -> pred x = true) /\
  (forall j x, (i <= j)%nat -> nth_error l j = Some x -> pred x = false).
Proof.
  intros H. set (f := fun x => if pred x then Lt else Gt).
  assert (S : searchable f l).
  { intros i j Hij. unfold cmp_at.
    destruct (nth_error l i) as [x|] eqn:Ex; [|apply nth_error_None in Ex; lia].
    destruct (nth_error l j) as [y|] eqn:Ey; [|apply nth_error_None in Ey; lia].
    unfold f. destruct (pred y) eqn:Py.
    - rewrite (H i j x y) by (assumption || lia). lia.
    - destruct (pred x); cbn; lia. }
  pose proof (binary_search_spec f l S) as B. unfold partition_point. fold f.
  destruct (binary_search_by f l) as [i|i]; cbv zeta.
  - destruct B as [B1 B2]. unfold cmp_at in B2. destruct (nth_error l i); [|discriminate].
    unfold f in B2. destruct (pred a); discriminate.
  - destruct B as (B1 & B2 & B3). split; [assumption|]. split.
    + intros j x Hj Hx. specialize (B2 j Hj). unfold cmp_at in B2. rewrite Hx in B2.
      unfold f in B2. destruct (pred x); [reflexivity|discriminate].
    + intros j x Hj Hx. assert (j < length l)%nat by (apply nth_error_Some; congruence).
      specialize (B3 j ltac:(lia)). unfold cmp_at in B3. rewrite Hx in B3.
      unfold f in B3. destruct (pred x); [discriminate|reflexivity].
Qed.

(** [std::ops::Bound] and [RangeBounds::contains] over epochs or durations. *)
Inductive bound := Included (x : Z) | Excluded (x : Z) | Unbounded.
Definition range : Type := (bound * bound)%type.
Definition range_contains (r : range) (x : Z) : bool :=
  (match fst r with Included a => a <=? x | Excluded a => a <? x | Unbounded => true end &&
   match snd r with Included b => x <=? b | Excluded b => x <? b | Unbounded => true end)%Z.

(** hifitime [TimeSeries] (inclusive and exclusive): the [cur]-th epoch of the series. *)
Record time_series := { ts_start : Z; ts_duration : Z; ts_step : Z; ts_cur : Z; ts_incl : bool }.
Definition ts_inclusive (start stop step : Z) : time_series :=
  {| ts_start := start; ts_duration := stop - start; ts_step := step; ts_cur := 0; ts_incl := true |}.
Definition ts_exclusive (start stop step : Z) : time_series :=
  {| ts_start := start; ts_duration := stop - start; ts_step := step; ts_cur := 0; ts_incl := false |}.
Definition ts_next (t : time_series) : option (Z * time_series) :=
  let off := (ts_cur t * ts_step t)%Z in
  if (if ts_incl t then ts_duration t <? off else ts_duration t <=? off)%Z then None
  else Some ((ts_start t + off)%Z,
             {| ts_start := ts_start t; ts_duration := ts_duration t; ts_step := ts_step t;
                ts_cur := ts_cur t + 1; ts_incl := ts_incl t |}).

(** Whatever the predicate, an accepted first element is left of the partition point. *)
Lemma search_loop_range {A} (f : A -> comparison) l : forall fuel base size,
  (size <= fuel)%nat -> (1 <= size)%nat -> (base <= search_loop f fuel l base size < base + size)%nat.
Proof.
  induction fuel as [|fuel IH]; intros base size Hf H1; [lia|]. cbn [search_loop].
  destruct (Nat.leb_spec size 1) as [Hle|Hgt]; [lia|].
  assert (Hh : (1 <= size / 2 < size)%nat).
  { split; [apply Nat.div_le_lower_bound; lia|apply Nat.div_lt; lia]. }
  destruct (cmp_at f l (base + size / 2)).
  - specialize (IH (base + size / 2)%nat (size - size / 2)%nat). lia.
  - specialize (IH (base + size / 2)%nat (size - size / 2)%nat). lia.
  - specialize (IH base (size - size / 2)%nat). lia.
Qed.

Lemma partition_point_le {A} (pred : A -> bool) (l : list A) : (partition_point pred l <= length l)%nat.
Proof.
  unfold partition_point, binary_search_by. destruct l as [|x l']; [cbn; lia|].
  set (l := x :: l') in *.
  pose proof (search_loop_range (fun x => if pred x then Lt else Gt) l (length l) 0 (length l)) as H.
  assert (1 <= length l)%nat by (unfold l; cbn; lia). cbv zeta.
  destruct (cmp_at _ l _); lia.
Qed.

Lemma partition_point_head {A} (pred : A -> bool) x (l : list A) : pred x = true ->
  (1 <= partition_point pred (x :: l))%nat.
Proof.
  intros Hx. unfold partition_point, binary_search_by. set (m := x :: l). cbv zeta.
  set (f := fun x => if pred x then Lt else Gt).
  destruct (search_loop f (length m) m 0 (length m)) as [|b].
  - unfold cmp_at. cbn. unfold f. rewrite Hx. lia.
  - destruct (cmp_at f m (S b)); lia.
Qed.

(** Accepting an index range is taking the sub-list. *)
Lemma filter_range {A} (p : A -> bool) (l : list A) : forall s e,
  (forall j x, nth_error l j = Some x -> p x = true <-> (s <= j < e)%nat) ->
  filter p l = skipn s (firstn e l).
Proof.
  induction l as [|x l IH]; intros s e H; [now rewrite firstn_nil, skipn_nil|].
  pose proof (H 0%nat x eq_refl) as H0.
  assert (Ht : forall s' e', (forall j, (s' <= j < e' <-> s <= S j < e)%nat) ->
            filter p l = skipn s' (firstn e' l)).
  { intros s' e' Q. apply IH. intros j y Hy. rewrite (H (S j) y Hy). symmetry. apply Q. }
  cbn [filter]. destruct (p x) eqn:Px.
  - destruct H0 as [H0 _]. specialize (H0 eq_refl). destruct e as [|e]; [lia|].
    destruct s as [|s]; [|lia]. cbn [firstn skipn]. f_equal. apply (Ht 0%nat e). intros; lia.
  - destruct e as [|e].
    + cbn [firstn]. rewrite skipn_nil. rewrite (Ht s 0%nat); [now rewrite firstn_O, skipn_nil|].
      intros; lia.
    + destruct s as [|s].
      * exfalso. destruct H0 as [_ H0]. assert (false = true) by (apply H0; lia). discriminate.
      * cbn [firstn skipn]. apply Ht. intros; lia.
Qed.

Lemma filter_outside {A} (p : A -> bool) (l : list A) : forall s e, (s <= e)%nat ->
  (forall j x, nth_error l j = Some x -> p x = true <-> (s <= j < e)%nat) ->
  filter (fun x => negb (p x)) l = firstn s l ++ skipn e l.
Proof.
  induction l as [|x l IH]; intros s e L H; [now rewrite firstn_nil, skipn_nil|].
  pose proof (H 0%nat x eq_refl) as H0.
  assert (Ht : forall s' e', (s' <= e')%nat -> (forall j, (s' <= j < e' <-> s <= S j < e)%nat) ->
            filter (fun x => negb (p x)) l = firstn s' l ++ skipn e' l).
  { intros s' e' L' Q. apply IH; [exact L'|]. intros j y Hy. rewrite (H (S j) y Hy).
    symmetry. apply Q. }
  cbn [filter]. destruct (p x) eqn:Px; cbn [negb].
  - destruct H0 as [H0 _]. specialize (H0 eq_refl). destruct e as [|e]; [lia|].
    destruct s as [|s]; [|lia]. cbn [firstn skipn app]. apply (Ht 0%nat e); intros; lia.
  - destruct s as [|s].
    + destruct e as [|e].
      * cbn [firstn skipn app]. f_equal. rewrite (Ht 0%nat 0%nat); [reflexivity|lia|intros; lia].
      * exfalso. destruct H0 as [_ H0]. assert (false = true) by (apply H0; lia). discriminate.
    + destruct e as [|e]; [lia|]. cbn [firstn skipn app]. f_equal. apply Ht; [lia|intros; lia].
Qed.

Lemma map_range {A} (p : A -> bool) (f : A -> A) (l : list A) : forall s e, (s <= e)%nat ->
  (forall j x, nth_error l j = Some x -> p x = true <-> (s <= j < e)%nat) ->
  map (fun x => if p x then f x else x) l =
  firstn s l ++ map f (firstn (e - s) (skipn s l)) ++ skipn e l.
Proof.
  induction l as [|x l IH]; intros s e L H.
  { now rewrite firstn_nil, !skipn_nil, firstn_nil. }
  pose proof (H 0%nat x eq_refl) as H0.
  assert (Ht : forall s' e', (s' <= e')%nat -> (forall j, (s' <= j < e' <-> s <= S j < e)%nat) ->
            map (fun x => if p x then f x else x) l =
            firstn s' l ++ map f (firstn (e' - s') (skipn s' l)) ++ skipn e' l).
  { intros s' e' L' Q. apply IH; [exact L'|]. intros j y Hy. rewrite (H (S j) y Hy).
    symmetry. apply Q. }
  cbn [map]. destruct (p x) eqn:Px.
  - destruct H0 as [H0 _]. specialize (H0 eq_refl). destruct e as [|e]; [lia|].
    destruct s as [|s]; [|lia]. cbn [firstn skipn app Nat.sub map].
    f_equal. rewrite (Ht 0%nat e); [|lia|intros; lia]. cbn [firstn skipn app]. now rewrite Nat.sub_0_r.
  - destruct s as [|s].
    + destruct e as [|e].
      * cbn [firstn skipn app Nat.sub map]. f_equal.
        rewrite (Ht 0%nat 0%nat); [reflexivity|lia|intros; lia].
      * exfalso. destruct H0 as [_ H0]. assert (false = true) by (apply H0; lia). discriminate.
    + destruct e as [|e]; [lia|]. cbn [firstn skipn app Nat.sub map]. f_equal.
      apply Ht; [lia|intros; lia].
Qed.
