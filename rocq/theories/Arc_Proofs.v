(** Lemmas behind [Arc_Props]. *)
From Coq Require Import Reals Lra String Sorted Permutation OrderedTypeEx.
From Verif Require Import Base RustStd Traj_Spec Arc_Model Arc_Spec.
Local Open Scope Z_scope.

(** * Order of the keys *)
Lemma str_lt_trans a b c : String.compare a b = Lt -> String.compare b c = Lt ->
  String.compare a c = Lt.
Proof.
  intros H1 H2. apply String_as_OT.cmp_lt in H1. apply String_as_OT.cmp_lt in H2.
  apply String_as_OT.cmp_lt. eapply String_as_OT.lt_trans; eassumption.
Qed.
Lemma str_refl a : String.compare a a = Eq.
Proof. now apply String_as_OT.cmp_eq. Qed.
Lemma str_eq a b : String.compare a b = Eq -> a = b.
Proof. apply String.compare_eq_iff. Qed.

Lemma before_irrefl a : ~ before a a.
Proof. intros [H|[_ H]]; [lia|]. rewrite str_refl in H. discriminate. Qed.
Lemma before_trans a b c : before a b -> before b c -> before a c.
Proof.
  unfold before. intros [H1|[H1 H1']] [H2|[H2 H2']]; try (left; lia).
  right. split; [lia|]. eapply str_lt_trans; eassumption.
Qed.
Lemma before_tri a b : before a b \/ same a b \/ before b a.
Proof.
  unfold before, same. destruct (Z.lt_trichotomy (epoch a) (epoch b)) as [H|[H|H]]; auto.
  destruct (String.compare (tracker a) (tracker b)) eqn:E.
  - apply str_eq in E. auto.
  - auto.
  - right. right. right. split; [auto|]. rewrite String.compare_antisym, E. reflexivity.
Qed.
Lemma before_same a b c : same a b -> before b c -> before a c.
Proof. intros [H1 H2] [H|[H H']]; [left; lia|right; rewrite H2; split; [lia|auto]]. Qed.
Lemma before_same_r a b c : before a b -> same b c -> before a c.
Proof. intros [H|[H H']] [H1 H2]; [left; lia|right; rewrite <- H2; split; [lia|auto]]. Qed.
Lemma not_before_trans a b c : ~ before b a -> ~ before c b -> ~ before c a.
Proof.
  intros H1 H2 H. destruct (before_tri a b) as [T|[T|T]]; [|  |contradiction].
  - apply H2. eapply before_trans; eassumption.
  - apply H2. eapply before_same_r; eassumption.
Qed.
Lemma before_not a b c : before a b -> ~ before c b -> before a c.
Proof.
  intros H1 H2. destruct (before_tri b c) as [T|[T|T]]; [| |contradiction].
  - eapply before_trans; eassumption.
  - eapply before_same_r; eassumption.
Qed.
Lemma same_sym a b : same a b -> same b a.
Proof. intros [H1 H2]. split; congruence. Qed.
Lemma same_trans a b c : same a b -> same b c -> same a c.
Proof. intros [H1 H2] [H3 H4]. split; congruence. Qed.
Lemma same_not_before a b : same a b -> ~ before a b.
Proof. intros H B. apply (before_irrefl b). eapply before_same; [apply same_sym, H|exact B]. Qed.
Lemma same_key_spec a b : same_key a b = true <-> same a b.
Proof. unfold same_key, same. now rewrite andb_true_iff, Z.eqb_eq, String.eqb_eq. Qed.

(** * Index maps *)
Lemma type_eqb_eq a b : type_eqb a b = true <-> a = b.
Proof. unfold type_eqb. destruct (msr_type_eq_dec a b); split; congruence. Qed.
Lemma type_eqb_refl a : type_eqb a a = true.
Proof. now apply type_eqb_eq. Qed.

Section Map.
Context {V : Type}.
Implicit Types m n : list (msr_type * V).
Lemma get_insert t k v m :
  im_get type_eqb t (im_insert type_eqb k v m) =
  if type_eqb t k then Some v else im_get type_eqb t m.
Proof.
  induction m as [|[k' v'] m IH]; cbn.
  - destruct (type_eqb t k); reflexivity.
  - destruct (type_eqb k k') eqn:E; cbn.
    + apply type_eqb_eq in E. subst k'. destruct (type_eqb t k); reflexivity.
    + rewrite IH. destruct (type_eqb t k') eqn:E2; [|reflexivity].
      apply type_eqb_eq in E2. subst k'. destruct (type_eqb t k) eqn:E3; [|reflexivity].
      apply type_eqb_eq in E3. subst k. rewrite type_eqb_refl in E. discriminate.
Qed.
Lemma get_none t m : im_get type_eqb t m = None <-> ~ In t (map fst m).
Proof.
  induction m as [|[k v] m IH]; cbn; [split; auto|].
  destruct (type_eqb t k) eqn:E.
  - apply type_eqb_eq in E. subst. split; [discriminate|]. intros H. exfalso. auto.
  - rewrite IH. split; [|tauto]. intros H [->|H']; [now rewrite type_eqb_refl in E|auto].
Qed.
Lemma get_extend t n : forall m, NoDup (map fst n) ->
  im_get type_eqb t (im_extend type_eqb m n) =
  match im_get type_eqb t n with Some v => Some v | None => im_get type_eqb t m end.
Proof.
  induction n as [|[k v] n IH]; intros m H; cbn; [reflexivity|]. inversion H as [|? ? H1 H2]; subst.
  rewrite IH by assumption. rewrite get_insert.
  destruct (type_eqb t k) eqn:E; [|reflexivity]. apply type_eqb_eq in E. subst.
  apply get_none in H1. now rewrite H1.
Qed.
Lemma keys_insert k v m : forall x,
  In x (map fst (im_insert type_eqb k v m)) <-> x = k \/ In x (map fst m).
Proof.
  intros x. destruct (msr_type_eq_dec x k) as [->|N].
  - split; [auto|]. intros _.
    destruct (in_dec msr_type_eq_dec k (map fst (im_insert type_eqb k v m))) as [I|I]; [exact I|].
    apply get_none in I. rewrite get_insert, type_eqb_refl in I. discriminate.
  - split; intros H.
    + right. destruct (in_dec msr_type_eq_dec x (map fst m)) as [I|I]; [exact I|].
      apply get_none in I. exfalso. revert H. apply get_none. rewrite get_insert, I.
      destruct (type_eqb x k) eqn:E; [apply type_eqb_eq in E; contradiction|reflexivity].
    + destruct H as [->|H]; [contradiction|].
      destruct (in_dec msr_type_eq_dec x (map fst (im_insert type_eqb k v m))) as [I|I]; [exact I|].
      apply get_none in I. rewrite get_insert in I.
      destruct (type_eqb x k) eqn:E; [discriminate|]. apply get_none in I. contradiction.
Qed.
Lemma nodup_insert k v m : NoDup (map fst m) -> NoDup (map fst (im_insert type_eqb k v m)).
Proof.
  induction m as [|[k' v'] m IH]; cbn; intros H; [constructor; [auto|constructor]|].
  inversion H as [|? ? H1 H2]; subst. destruct (type_eqb k k') eqn:E; cbn.
  - constructor; assumption.
  - constructor; [|auto]. rewrite keys_insert. intros [->|I]; [|auto].
    rewrite type_eqb_refl in E. discriminate.
Qed.
Lemma nodup_extend n : forall m, NoDup (map fst m) -> NoDup (map fst (im_extend type_eqb m n)).
Proof.
  induction n as [|[k v] n IH]; intros m H; cbn; [assumption|]. apply IH. now apply nodup_insert.
Qed.
Lemma get_filter (p : msr_type -> bool) t m :
  im_get type_eqb t (filter (fun kv => p (fst kv)) m) =
  if p t then im_get type_eqb t m else None.
Proof.
  induction m as [|[k v] m IH]; cbn; [destruct (p t); reflexivity|].
  destruct (p k) eqn:Pk; cbn; destruct (type_eqb t k) eqn:E.
  - apply type_eqb_eq in E. subst. now rewrite Pk.
  - exact IH.
  - apply type_eqb_eq in E. subst. now rewrite IH, Pk.
  - exact IH.
Qed.
End Map.

(** * Sorting and merging *)
Lemma merge_same k n : same (merge k n) k.
Proof. split; reflexivity. Qed.

Lemma dedup_merge_keys l : forall kept m, In m (dedup_merge kept l) ->
  exists m', In m' (kept :: l) /\ same m m'.
Proof.
  induction l as [|n l IH]; intros kept m; cbn [dedup_merge].
  - intros [<-|[]]. exists kept. split; [now left|split; reflexivity].
  - destruct (same_key n kept) eqn:E.
    + intros H. destruct (IH _ _ H) as (m' & [<-|H1] & H2).
      * exists kept. split; [now left|]. eapply same_trans; [exact H2|apply merge_same].
      * exists m'. split; [right; now right|exact H2].
    + intros [<-|H]; [exists kept; split; [now left|split; reflexivity]|].
      destruct (IH _ _ H) as (m' & H1 & H2). exists m'. split; [now right|exact H2].
Qed.

Notation sorted := (StronglySorted (fun a b => ~ before b a)).

Lemma sorted_replace k k' l : same k' k -> sorted (k :: l) -> sorted (k' :: l).
Proof.
  intros S H. inversion H as [|? ? H1 H2]; subst. constructor; [exact H1|].
  rewrite Forall_forall in *. intros x Hx B. apply (H2 x Hx). eapply before_same_r; eassumption.
Qed.
Lemma sorted_drop k n l : sorted (k :: n :: l) -> sorted (k :: l).
Proof.
  intros H. inversion H as [|? ? H1 H2]; subst. inversion H1; subst. inversion H2; subst.
  now constructor.
Qed.

Lemma dedup_merge_sorted l : forall kept, sorted (kept :: l) ->
  StronglySorted before (dedup_merge kept l).
Proof.
  induction l as [|n l IH]; intros kept H; cbn [dedup_merge]; [repeat constructor|].
  destruct (same_key n kept) eqn:E.
  - apply IH. eapply sorted_replace; [apply merge_same|]. eapply sorted_drop; eassumption.
  - inversion H as [|? ? H1 H2]; subst. constructor; [now apply IH|].
    inversion H2 as [|? ? H3 H4]; subst. rewrite Forall_forall in *.
    assert (B : before kept n).
    { destruct (before_tri kept n) as [B|[B|B]]; [exact B| |contradiction].
      apply same_sym, same_key_spec in B. congruence. }
    intros m Hm. apply dedup_merge_keys in Hm. destruct Hm as (m' & [<-|Hm] & S).
    + eapply before_same_r; [exact B|now apply same_sym].
    + eapply before_same_r; [|apply same_sym; exact S]. apply (before_not kept n m' B).
      inversion H1 as [|? ? H5 H6]; subst. rewrite Forall_forall in H6. now apply H6.
Qed.

Lemma dedup_merge_all l : forall kept m', In m' (kept :: l) ->
  exists m, In m (dedup_merge kept l) /\ same m m'.
Proof.
  induction l as [|n l IH]; intros kept m' H; cbn [dedup_merge].
  - destruct H as [<-|[]]. exists kept. split; [now left|split; reflexivity].
  - destruct (same_key n kept) eqn:E.
    + destruct H as [<-|[<-|H]].
      * destruct (IH (merge kept n) (merge kept n) (or_introl eq_refl)) as (m & H1 & H2).
        exists m. split; [exact H1|exact H2].
      * destruct (IH (merge kept n) (merge kept n) (or_introl eq_refl)) as (m & H1 & H2).
        exists m. split; [exact H1|]. apply same_key_spec in E. eapply same_trans; [exact H2|].
        eapply same_trans; [apply merge_same|now apply same_sym].
      * destruct (IH (merge kept n) m' (or_intror H)) as (m & H1 & H2). eauto.
    + destruct H as [<-|H]; [exists kept; split; [now left|split; reflexivity]|].
      destruct (IH n m' H) as (m & H1 & H2). exists m. split; [now right|exact H2].
Qed.

(** The merged measurement in terms of the inputs with its key. *)
Definition merged_from (l : list measurement) (m : measurement) : Prop :=
  well_formed m /\
  (rejected m = true <-> exists m', In m' l /\ same m' m /\ rejected m' = true) /\
  (forall t, get t (obs m) <> None <->
     exists m', In m' l /\ same m' m /\ get t (obs m') <> None) /\
  (forall t v, get t (obs m) = Some v ->
     exists m', In m' l /\ same m' m /\ get t (obs m') = Some v).

Lemma merged_alone l m : well_formed m -> In m l ->
  (forall m', In m' l -> same m' m -> m' = m) -> merged_from l m.
Proof.
  intros W I U. split; [exact W|]. split; [|split].
  - split; [intros H; exists m; repeat split; auto|].
    intros (m' & H1 & H2 & H3). now rewrite <- (U m' H1 H2).
  - intros t. split; [intros H; exists m; repeat split; auto|].
    intros (m' & H1 & H2 & H3). now rewrite <- (U m' H1 H2).
  - intros t v H. exists m. repeat split; auto.
Qed.

Lemma dedup_merge_from l : forall kept, sorted (kept :: l) -> Forall well_formed (kept :: l) ->
  Forall (merged_from (kept :: l)) (dedup_merge kept l).
Proof.
  induction l as [|n l IH]; intros kept H W; cbn [dedup_merge].
  - constructor; [|constructor]. inversion W; subst. apply merged_alone; [assumption|now left|].
    intros m' [->|[]] _. reflexivity.
  - inversion W as [|? ? W1 W2]; subst. inversion W2 as [|? ? W3 W4]; subst.
    destruct (same_key n kept) eqn:E.
    + apply same_key_spec in E.
      assert (WM : well_formed (merge kept n)) by (apply nodup_extend, W1).
      specialize (IH (merge kept n)).
      assert (Q : sorted (merge kept n :: l)).
      { eapply sorted_replace; [apply merge_same|]. eapply sorted_drop; eassumption. }
      specialize (IH Q ltac:(constructor; assumption)).
      rewrite Forall_forall in *. intros m Hm. destruct (IH m Hm) as (I0 & I1 & I2 & I3).
      split; [exact I0|]. split; [|split].
      * rewrite I1. split.
        -- intros (m' & [<-|J1] & J2 & J3); [|exists m'; repeat split; auto; [right; now right|apply J2|apply J2]].
           cbn in J3. apply orb_true_iff in J3. destruct J3 as [J3|J3].
           ++ exists kept. repeat split; auto; [now left|apply J2|apply J2].
           ++ exists n. split; [right; now left|]. split; [|exact J3].
              eapply same_trans; [exact E|exact J2].
        -- intros (m' & [<-|[<-|J1]] & J2 & J3).
           ++ exists (merge kept n). split; [now left|]. split; [exact J2|]. cbn. now rewrite J3.
           ++ exists (merge kept n). split; [now left|]. split.
              ** eapply same_trans; [apply same_sym, E|exact J2].
              ** cbn. rewrite J3. apply orb_true_r.
           ++ exists m'. split; [now right|]. auto.
      * intros t. rewrite I2. split.
        -- intros (m' & [<-|J1] & J2 & J3); [|exists m'; split; [right; now right|auto]].
           unfold get in J3. cbn [merge obs] in J3. rewrite get_extend in J3 by exact W3.
           destruct (im_get type_eqb t (obs n)) eqn:G.
           ++ exists n. split; [right; now left|]. split; [eapply same_trans; [exact E|exact J2]|].
              unfold get. rewrite G. discriminate.
           ++ exists kept. split; [now left|]. split; [exact J2|exact J3].
        -- intros (m' & [<-|[<-|J1]] & J2 & J3).
           ++ exists (merge kept n). split; [now left|]. split; [exact J2|].
              unfold get in *. cbn [merge obs]. rewrite get_extend by exact W3.
              destruct (im_get type_eqb t (obs n)); [discriminate|exact J3].
           ++ exists (merge kept n). split; [now left|].
              split; [eapply same_trans; [apply same_sym, E|exact J2]|].
              unfold get in *. cbn [merge obs]. rewrite get_extend by exact W3.
              destruct (im_get type_eqb t (obs n)); [discriminate|congruence].
           ++ exists m'. split; [now right|]. auto.
      * intros t v Hv. destruct (I3 t v Hv) as (m' & [<-|J1] & J2 & J3);
          [|exists m'; split; [right; now right|auto]].
        unfold get in J3. cbn [merge obs] in J3. rewrite get_extend in J3 by exact W3.
        destruct (im_get type_eqb t (obs n)) eqn:G.
        -- exists n. split; [right; now left|]. split; [eapply same_trans; [exact E|exact J2]|].
           unfold get. now rewrite G.
        -- exists kept. split; [now left|]. split; [exact J2|exact J3].
    + inversion H as [|? ? H1 H2]; subst. inversion H2 as [|? ? H3 H4]; subst.
      rewrite Forall_forall in H4.
      assert (B : before kept n).
      { destruct (before_tri kept n) as [B|[B|B]]; [exact B| |contradiction].
        apply same_sym, same_key_spec in B. congruence. }
      assert (BL : forall x, In x (n :: l) -> before kept x).
      { intros x [<-|Hx]; [exact B|]. apply (before_not kept n x B).
        inversion H1 as [|? ? H5 H6]; subst. rewrite Forall_forall in H6. now apply H6. }
      constructor.
      * apply merged_alone; [assumption|now left|].
        intros m' [<-|Hm] S; [reflexivity|]. exfalso. apply same_sym in S.
        apply (same_not_before _ _ S). now apply BL.
      * specialize (IH n H1 W2). rewrite Forall_forall in *. intros m Hm.
        destruct (IH m Hm) as (I0 & I1 & I2 & I3).
        assert (NK : ~ same kept m).
        { intros S. apply dedup_merge_keys in Hm. destruct Hm as (m' & Hm & S').
          apply (same_not_before kept m' (same_trans _ _ _ S S')). now apply BL. }
        split; [exact I0|]. split; [|split].
        -- rewrite I1. split; [intros (m' & J1 & J2 & J3); exists m'; split; [now right|auto]|].
           intros (m' & [<-|J1] & J2 & J3); [contradiction|]. exists m'. auto.
        -- intros t. rewrite I2.
           split; [intros (m' & J1 & J2 & J3); exists m'; split; [now right|auto]|].
           intros (m' & [<-|J1] & J2 & J3); [contradiction|]. exists m'. auto.
        -- intros t v Hv. destruct (I3 t v Hv) as (m' & J1 & J2 & J3). exists m'.
           split; [now right|auto].
Qed.

Lemma dedup_merge_length l : forall kept, (length (dedup_merge kept l) <= S (length l))%nat.
Proof.
  induction l as [|n l IH]; intros kept; cbn [dedup_merge]; [cbn; lia|].
  destruct (same_key n kept).
  - specialize (IH (merge kept n)). cbn. lia.
  - specialize (IH n). cbn. lia.
Qed.

Lemma dedup_merge_id l : forall kept, StronglySorted before (kept :: l) -> dedup_merge kept l = kept :: l.
Proof.
  induction l as [|n l IH]; intros kept H; cbn [dedup_merge]; [reflexivity|].
  inversion H as [|? ? H1 H2]; subst. inversion H2 as [|? ? H3 H4]; subst.
  destruct (same_key n kept) eqn:E.
  - apply same_key_spec, same_sym in E. exfalso. now apply (same_not_before _ _ E).
  - f_equal. now apply IH.
Qed.

Lemma strict_time_ordered l : StronglySorted before l -> time_ordered l.
Proof.
  induction 1 as [|x l H1 H2 H3]; constructor; [assumption|].
  rewrite Forall_forall in *. intros y Hy. destruct (H3 y Hy) as [H|[H _]]; lia.
Qed.

Section Usort.
Variable usort : list measurement -> list measurement.
Hypothesis Hu : sorts usort.

Lemma sort_time_ordered l : StronglySorted before (sort_measurements usort l).
Proof.
  unfold sort_measurements. destruct (Hu l) as [_ H]. destruct (usort l); [constructor|].
  now apply dedup_merge_sorted.
Qed.

Lemma sort_keys l m : In m (sort_measurements usort l) -> exists m', In m' l /\ same m m'.
Proof.
  unfold sort_measurements. destruct (Hu l) as [P _]. destruct (usort l) as [|k r]; [intros []|].
  intros H. apply dedup_merge_keys in H. destruct H as (m' & H1 & H2). exists m'.
  split; [|exact H2]. eapply Permutation_in; [apply Permutation_sym, P|exact H1].
Qed.

Lemma sort_all l m' : In m' l -> exists m, In m (sort_measurements usort l) /\ same m m'.
Proof.
  unfold sort_measurements. destruct (Hu l) as [P _]. intros H.
  apply (Permutation_in _ P) in H. destruct (usort l) as [|k r]; [destruct H|].
  now apply dedup_merge_all.
Qed.

Lemma sort_merged l : Forall well_formed l -> Forall (merged_from l) (sort_measurements usort l).
Proof.
  intros W. unfold sort_measurements. destruct (Hu l) as [P S].
  assert (W' : Forall well_formed (usort l)).
  { rewrite Forall_forall in *. intros x Hx. apply W.
    eapply Permutation_in; [apply Permutation_sym, P|exact Hx]. }
  destruct (usort l) as [|k r] eqn:E; [constructor|].
  pose proof (dedup_merge_from r k S W') as D. rewrite Forall_forall in *.
  assert (PI : forall x, In x (k :: r) <-> In x l).
  { intros x. split; apply Permutation_in; [apply Permutation_sym, P|exact P]. }
  intros m Hm. destruct (D m Hm) as (D0 & D1 & D2 & D3). split; [exact D0|]. split; [|split].
  - rewrite D1. split; intros (m' & J1 & J2); exists m'; (split; [now apply PI|exact J2]).
  - intros t. rewrite D2. split; intros (m' & J1 & J2); exists m'; (split; [now apply PI|exact J2]).
  - intros t v Hv. destruct (D3 t v Hv) as (m' & J1 & J2). exists m'. split; [now apply PI|exact J2].
Qed.

Lemma sort_shorter l : (length (sort_measurements usort l) <= length l)%nat.
Proof.
  unfold sort_measurements. destruct (Hu l) as [P _]. rewrite (Permutation_length P).
  destruct (usort l) as [|k r]; [cbn; lia|]. apply dedup_merge_length.
Qed.

(** A strictly sorted list has only one sorted permutation. *)
Lemma strict_unique l : StronglySorted before l -> forall m, Permutation l m -> sorted m -> m = l.
Proof.
  induction 1 as [|x l H1 IH H2]; intros m P S.
  - now apply Permutation_nil in P.
  - destruct m as [|y m]; [apply Permutation_sym, Permutation_nil in P; discriminate|].
    assert (Hy : In y (x :: l)) by (eapply Permutation_in; [apply Permutation_sym, P|now left]).
    assert (Hx : In x (y :: m)) by (eapply Permutation_in; [exact P|now left]).
    rewrite Forall_forall in H2. inversion S as [|? ? S1 S2]; subst. rewrite Forall_forall in S2.
    destruct Hy as [<-|Hy].
    + f_equal. apply IH; [|exact S1]. now apply Permutation_cons_inv in P.
    + exfalso. destruct Hx as [->|Hx]; [apply (before_irrefl x), H2, Hy|].
      apply (S2 x Hx). now apply H2.
Qed.

Lemma sort_fixed l : StronglySorted before l -> sort_measurements usort l = l.
Proof.
  intros H. unfold sort_measurements. destruct (Hu l) as [P S].
  rewrite (strict_unique l H _ P S). destruct l; [reflexivity|]. now apply dedup_merge_id.
Qed.
End Usort.

(** * Bounds *)
Lemma time_ordered_nth l : time_ordered l -> forall i j x y, (i <= j)%nat ->
  nth_error l i = Some x -> nth_error l j = Some y -> epoch x <= epoch y.
Proof.
  induction 1 as [|a l H1 IH H2]; intros i j x y L Hx Hy; [destruct i; discriminate|].
  rewrite Forall_forall in H2. destruct i as [|i], j as [|j]; cbn in *.
  - injection Hx as ->. injection Hy as ->. lia.
  - injection Hx as ->. apply H2. eapply nth_error_In; eassumption.
  - lia.
  - eapply IH; [|eassumption|eassumption]. lia.
Qed.

Lemma point_lt l e : time_ordered l ->
  let i := partition_point (fun m => epoch m <? e) l in
  (i <= length l)%nat /\
  forall j x, nth_error l j = Some x -> (epoch x < e <-> (j < i)%nat).
Proof.
  intros H i.
  destruct (partition_point_spec (fun m => epoch m <? e) l) as (P1 & P2 & P3).
  - intros a b x y Hab Hx Hy Py. apply Z.ltb_lt in Py. apply Z.ltb_lt.
    pose proof (time_ordered_nth l H a b x y Hab Hx Hy). lia.
  - fold i in P1, P2, P3. split; [exact P1|]. intros j x Hx. split.
    + intros E. destruct (Nat.lt_ge_cases j i) as [|G]; [assumption|].
      specialize (P3 j x G Hx). apply Z.ltb_ge in P3. lia.
    + intros L. specialize (P2 j x L Hx). now apply Z.ltb_lt in P2.
Qed.

Lemma point_le l e : time_ordered l ->
  let i := partition_point (fun m => epoch m <=? e) l in
  (i <= length l)%nat /\
  forall j x, nth_error l j = Some x -> (epoch x <= e <-> (j < i)%nat).
Proof.
  intros H i.
  destruct (partition_point_spec (fun m => epoch m <=? e) l) as (P1 & P2 & P3).
  - intros a b x y Hab Hx Hy Py. apply Z.leb_le in Py. apply Z.leb_le.
    pose proof (time_ordered_nth l H a b x y Hab Hx Hy). lia.
  - fold i in P1, P2, P3. split; [exact P1|]. intros j x Hx. split.
    + intros E. destruct (Nat.lt_ge_cases j i) as [|G]; [assumption|].
      specialize (P3 j x G Hx). apply Z.leb_gt in P3. lia.
    + intros L. specialize (P2 j x L Hx). now apply Z.leb_le in P2.
Qed.

Lemma resolve_spec r l : time_ordered l ->
  (snd (resolve_bounds r l) <= length l)%nat /\
  forall j x, nth_error l j = Some x ->
    range_contains r (epoch x) = true <->
    (fst (resolve_bounds r l) <= j < snd (resolve_bounds r l))%nat.
Proof.
  intros H.
  assert (S : forall e, _) by (intros e; exact (point_lt l e H)).
  assert (L : forall e, _) by (intros e; exact (point_le l e H)).
  cbv zeta in S, L. unfold resolve_bounds, range_contains. cbn [fst snd].
  split; [destruct (snd r) as [e|e|]; [apply L|apply S|lia]|].
  intros j x Hx. rewrite andb_true_iff.
  assert (J : (j < length l)%nat) by (apply nth_error_Some; congruence).
  assert (A : match fst r with Included a => a <=? epoch x | Excluded a => a <? epoch x
              | Unbounded => true end = true <->
          (match fst r with
           | Included e => partition_point (fun m => (epoch m <? e)%Z) l
           | Excluded e => partition_point (fun m => (epoch m <=? e)%Z) l
           | Unbounded => 0%nat end <= j)%nat).
  { destruct (fst r) as [e|e|].
    - rewrite Z.leb_le. destruct (S e) as [_ Q]. specialize (Q j x Hx). lia.
    - rewrite Z.ltb_lt. destruct (L e) as [_ Q]. specialize (Q j x Hx). lia.
    - split; [lia|reflexivity]. }
  assert (B : match snd r with Included a => epoch x <=? a | Excluded a => epoch x <? a
              | Unbounded => true end = true <->
          (j < match snd r with
           | Included e => partition_point (fun m => (epoch m <=? e)%Z) l
           | Excluded e => partition_point (fun m => (epoch m <? e)%Z) l
           | Unbounded => length l end)%nat).
  { destruct (snd r) as [e|e|].
    - rewrite Z.leb_le. destruct (L e) as [_ Q]. specialize (Q j x Hx). lia.
    - rewrite Z.ltb_lt. destruct (S e) as [_ Q]. specialize (Q j x Hx). lia.
    - split; [lia|reflexivity]. }
  rewrite A, B. reflexivity.
Qed.

Lemma empty_range {A} (p : A -> bool) (l : list A) :
  (forall j x, nth_error l j = Some x -> p x = false) -> filter p l = [].
Proof.
  induction l as [|x l IH]; intros H; [reflexivity|]. cbn. rewrite (H 0%nat x eq_refl).
  apply IH. intros j y. apply (H (S j)).
Qed.

Lemma filter_by_epoch_exact r l : time_ordered l ->
  filter_by_epoch r l = filter (fun m => range_contains r (epoch m)) l.
Proof.
  intros H. destruct (resolve_spec r l H) as [H1 H2]. unfold filter_by_epoch.
  destruct (resolve_bounds r l) as [s e]. cbn [fst snd] in *.
  destruct ((e <=? s)%nat || (length l <=? s)%nat) eqn:Q.
  - symmetry. apply empty_range. intros j x Hx.
    destruct (range_contains r (epoch x)) eqn:R; [|reflexivity]. exfalso.
    apply (H2 j x Hx) in R. apply orb_true_iff in Q. rewrite !Nat.leb_le in Q. lia.
  - symmetry. now apply filter_range.
Qed.

Lemma exclude_by_epoch_exact r l : time_ordered l ->
  exclude_by_epoch r l = filter (fun m => negb (range_contains r (epoch m))) l.
Proof.
  intros H. destruct (resolve_spec r l H) as [H1 H2]. unfold exclude_by_epoch.
  destruct (resolve_bounds r l) as [s e]. cbn [fst snd] in *.
  destruct ((s <? e)%nat && (s <? length l)%nat) eqn:Q.
  - apply andb_true_iff in Q. rewrite !Nat.ltb_lt in Q. symmetry. apply filter_outside; [lia|exact H2].
  - assert (F : forall j x, nth_error l j = Some x -> range_contains r (epoch x) = false).
    { intros j x Hx. destruct (range_contains r (epoch x)) eqn:R; [|reflexivity]. exfalso.
      apply (H2 j x Hx) in R. apply andb_false_iff in Q. rewrite !Nat.ltb_ge in Q. lia. }
    clear -F. induction l as [|x l IH]; [reflexivity|]. cbn. rewrite (F 0%nat x eq_refl). cbn.
    f_equal. apply IH. intros j y. apply (F (S j)).
Qed.

Lemma reject_by_epoch_exact r l : time_ordered l ->
  reject_by_epoch r l = map (fun m => if range_contains r (epoch m) then reject m else m) l.
Proof.
  intros H. destruct (resolve_spec r l H) as [H1 H2]. unfold reject_by_epoch.
  destruct (resolve_bounds r l) as [s e]. cbn [fst snd] in *.
  destruct ((s <? e)%nat && (s <? length l)%nat) eqn:Q.
  - apply andb_true_iff in Q. rewrite !Nat.ltb_lt in Q. symmetry. unfold slice.
    apply (map_range (fun m => range_contains r (epoch m)) reject); [lia|exact H2].
  - assert (F : forall j x, nth_error l j = Some x -> range_contains r (epoch x) = false).
    { intros j x Hx. destruct (range_contains r (epoch x)) eqn:R; [|reflexivity]. exfalso.
      apply (H2 j x Hx) in R. apply andb_false_iff in Q. rewrite !Nat.ltb_ge in Q. lia. }
    clear -F. induction l as [|x l IH]; [reflexivity|]. cbn. rewrite (F 0%nat x eq_refl). cbn.
    f_equal. apply IH. intros j y. apply (F (S j)).
Qed.

Lemma range_within r x : range_contains r x = true <-> within r x.
Proof.
  unfold range_contains, within. rewrite andb_true_iff.
  destruct r as [[a|a|] [b|b|]]; cbn; rewrite ?Z.leb_le, ?Z.ltb_lt; tauto.
Qed.

(** * Chunks *)
Lemma slice_skip {A} (l : list A) s n : slice l s (s + n) = firstn n (skipn s l).
Proof. unfold slice. f_equal. lia. Qed.

Lemma time_ordered_skip n : forall l, time_ordered l -> time_ordered (skipn n l).
Proof.
  induction n as [|n IH]; intros l H; [exact H|]. destruct l as [|x l]; [constructor|].
  inversion H; subst. cbn. now apply IH.
Qed.

Definition chunk_ok (d : Z) (c : list measurement) : Prop :=
  exists m r, c = m :: r /\ forall x, In x c -> epoch m <= epoch x <= epoch m + d.

(** Each chunk ends where the next measurement is too late for it. *)
Fixpoint greedy (d : Z) (cs : list (list measurement)) : Prop :=
  match cs with
  | (m :: _) :: (((n :: _) :: _) as cs') => epoch m + d < epoch n /\ greedy d cs'
  | _ => True
  end.

Lemma skipn_nth {A} (l : list A) i x : nth_error l i = Some x -> skipn i l = x :: skipn (S i) l.
Proof.
  revert l. induction i as [|i IH]; intros [|y l] H; cbn in *; try discriminate.
  - now injection H as ->.
  - now apply IH.
Qed.

Lemma nth_skipn {A} (l : list A) : forall s k, nth_error (skipn s l) k = nth_error l (s + k).
Proof.
  induction l as [|x l IH]; intros [|s] k; cbn [skipn nth_error Nat.add]; try reflexivity.
  - now destruct k.
  - apply IH.
Qed.

Lemma skip_skip {A} (l : list A) : forall a b, skipn a (skipn b l) = skipn (b + a) l.
Proof.
  induction l as [|x l IH]; intros a [|b]; cbn [skipn Nat.add]; try reflexivity.
  - apply skipn_nil.
  - apply IH.
Qed.

Lemma chunk_loop_spec a d : 0 < d -> forall fuel start, (start <= length (measurements a))%nat ->
  (length (measurements a) - start < fuel)%nat ->
  exists cs, chunk_loop fuel a d start = Ok cs /\
    concat (map measurements cs) = skipn start (measurements a) /\
    Forall (fun c => measurements c <> [] /\ moduli c = moduli a /\ force_reject c = force_reject a) cs /\
    (time_ordered (measurements a) ->
       Forall (chunk_ok d) (map measurements cs) /\ greedy d (map measurements cs)).
Proof.
  intros Hd. induction fuel as [|fuel IH]; intros start Hs Hf; [lia|]. cbn [chunk_loop].
  destruct (nth_error (measurements a) start) as [m|] eqn:E.
  2: { apply nth_error_None in E. exists []. cbn. rewrite skipn_all2 by lia.
       repeat split; constructor. }
  set (p := fun x => epoch x <=? epoch m + d). set (rest := skipn start (measurements a)).
  assert (R : rest = m :: skipn (S start) (measurements a)) by now apply skipn_nth.
  assert (LR : length rest = (length (measurements a) - start)%nat) by apply skipn_length.
  set (off := partition_point p rest).
  assert (O1 : (1 <= off)%nat).
  { unfold off. rewrite R. apply partition_point_head. unfold p. apply Z.leb_le. lia. }
  assert (O2 : (off <= length rest)%nat) by apply partition_point_le.
  destruct (IH (start + off)%nat) as (cs & C1 & C2 & C3 & C4); [lia|lia|].
  rewrite C1. cbn [bind]. eexists. split; [reflexivity|].
  cbn [map concat measurements with_measurements]. rewrite C2, slice_skip. fold rest.
  split; [|split].
  - rewrite <- skip_skip. fold rest. apply firstn_skipn.
  - constructor; [|exact C3]. split; [|split; reflexivity].
    cbn [measurements with_measurements]. rewrite R.
    destruct off as [|o]; [lia|]. discriminate.
  - intros T. destruct (C4 T) as [C5 C6].
    assert (TR : time_ordered rest) by now apply time_ordered_skip.
    destruct (point_le rest (epoch m + d) TR) as [_ PL]. fold p in PL. fold off in PL.
    split.
    + constructor; [|exact C5].
      assert (FO : firstn off rest = m :: firstn (off - 1) (skipn (S start) (measurements a))).
      { rewrite R. destruct off as [|o]; [lia|]. cbn [firstn]. do 2 f_equal. lia. }
      exists m. eexists. split; [exact FO|]. intros x Hx.
      apply In_nth_error in Hx. destruct Hx as [j Hj].
      assert (Lj : (j < off)%nat).
      { assert (j < length (firstn off rest))%nat by (apply nth_error_Some; congruence).
        rewrite firstn_length in H. lia. }
      assert (Hr : nth_error rest j = Some x).
      { rewrite <- (firstn_skipn off rest), nth_error_app1; [exact Hj|]. rewrite firstn_length. lia. }
      split; [|now apply (PL j x Hr)].
      apply (time_ordered_nth rest TR 0 j m x); [lia|now rewrite R|exact Hr].
    + destruct (map measurements cs) as [|c' cs'] eqn:M.
      * destruct (firstn off rest); exact I.
      * inversion C5 as [|? ? (n & r & -> & _) _]; subst.
        assert (FO : firstn off rest = m :: firstn (off - 1) (skipn (S start) (measurements a))).
        { rewrite R. destruct off as [|o]; [lia|]. cbn [firstn]. do 2 f_equal. lia. }
        rewrite FO. split; [|exact C6].
        cbn [concat app] in C2.
        assert (Hn : nth_error rest off = Some n).
        { rewrite <- (Nat.add_0_r off), <- nth_skipn. unfold rest. rewrite skip_skip, <- C2. reflexivity. }
        pose proof (PL off n Hn). lia.
Qed.

(** * Moduli *)
Section Moduli.
Local Open Scope R_scope.

Lemma trunc_spec x : Rabs (x - IZR (trunc x)) < 1 /\ 0 <= (x - IZR (trunc x)) * x.
Proof.
  unfold trunc. destruct (Rle_dec 0 x) as [H|H].
  - destruct (base_Int_part x) as [H1 H2]. split.
    + rewrite Rabs_pos_eq; lra.
    + apply Rmult_le_pos; lra.
  - destruct (base_Int_part (- x)) as [H1 H2]. rewrite opp_IZR. split.
    + rewrite Rabs_left1; lra.
    + assert (0 <= - (x - - IZR (Int_part (- x))) * - x) by (apply Rmult_le_pos; lra). lra.
Qed.

Lemma rem_spec x m : m <> 0 ->
  whole m (x - rem x m) /\ Rabs (rem x m) < Rabs m /\ 0 <= rem x m * x.
Proof.
  intros Hm. destruct (trunc_spec (x / m)) as [T1 T2].
  assert (E : rem x m = (x / m - IZR (trunc (x / m))) * m) by (unfold rem; field; exact Hm).
  split; [|split].
  - exists (trunc (x / m)). unfold rem. ring.
  - rewrite E, Rabs_mult. pose proof (Rabs_pos_lt m Hm).
    rewrite <- (Rmult_1_l (Rabs m)) at 2. now apply Rmult_lt_compat_r.
  - replace (rem x m * x) with ((x / m - IZR (trunc (x / m))) * (x / m) * (m * m))
      by (rewrite E; field; exact Hm).
    apply Rmult_le_pos; [exact T2|]. apply Rle_0_sqr.
Qed.

Lemma rem_pos x m : m <> 0 -> 0 <= x -> 0 <= rem x m.
Proof.
  intros Hm Hx. destruct (rem_spec x m Hm) as (_ & _ & H).
  destruct (Req_dec x 0) as [->|N].
  - unfold rem. assert (T : trunc (0 / m) = 0%Z).
    { unfold Rdiv. rewrite Rmult_0_l. unfold trunc. destruct (Rle_dec 0 0); [|lra].
      destruct (base_Int_part 0) as [H1 H2]. assert (IZR (Int_part 0) < 1) by lra.
      assert (-1 < IZR (Int_part 0)) by lra. apply lt_IZR in H0. apply lt_IZR in H3. lia. }
    rewrite T. lra.
  - destruct (Rle_dec 0 (rem x m)) as [|G]; [assumption|]. exfalso.
    assert (0 < - rem x m * x) by (apply Rmult_lt_0_compat; lra). lra.
Qed.
Lemma rem_neg x m : m <> 0 -> x <= 0 -> rem x m <= 0.
Proof.
  intros Hm Hx. destruct (rem_spec x m Hm) as (_ & _ & H).
  destruct (Req_dec x 0) as [->|N].
  - unfold rem. assert (T : trunc (0 / m) = 0%Z).
    { unfold Rdiv. rewrite Rmult_0_l. unfold trunc. destruct (Rle_dec 0 0); [|lra].
      destruct (base_Int_part 0) as [H1 H2]. assert (IZR (Int_part 0) < 1) by lra.
      assert (-1 < IZR (Int_part 0)) by lra. apply lt_IZR in H0. apply lt_IZR in H3. lia. }
    rewrite T. lra.
  - destruct (Rle_dec (rem x m) 0) as [|G]; [assumption|]. exfalso.
    assert (0 < rem x m * - x) by (apply Rmult_lt_0_compat; lra). lra.
Qed.

Lemma div_euclid_spec x m : m <> 0 ->
  (exists k, div_euclid x m = IZR k) /\ 0 <= x - div_euclid x m * m < Rabs m.
Proof.
  intros Hm. destruct (rem_spec x m Hm) as ((k & Hk) & R2 & R3). unfold div_euclid.
  assert (E : x - IZR (trunc (x / m)) * m = rem x m) by reflexivity.
  destruct (Rlt_dec (rem x m) 0) as [L|L].
  - destruct (Rlt_dec 0 m) as [P|P].
    + split; [exists (trunc (x / m) - 1)%Z; now rewrite minus_IZR|].
      replace (x - (IZR (trunc (x / m)) - 1) * m) with (rem x m + m) by (rewrite <- E; ring).
      rewrite (Rabs_left _ L) in R2. rewrite (Rabs_pos_eq m) in * by lra. lra.
    + assert (m < 0) by lra.
      split; [exists (trunc (x / m) + 1)%Z; now rewrite plus_IZR|].
      replace (x - (IZR (trunc (x / m)) + 1) * m) with (rem x m - m) by (rewrite <- E; ring).
      rewrite (Rabs_left _ L) in R2. rewrite (Rabs_left m) in * by lra. lra.
  - split; [eauto|]. rewrite E. rewrite Rabs_pos_eq in R2 by lra. lra.
Qed.

Lemma int_between (k : Z) : -1 < IZR k < 1 -> k = 0%Z.
Proof. intros [H1 H2]. apply lt_IZR in H1. apply lt_IZR in H2. lia. Qed.

(** The Euclidean quotient is determined by its interval. *)
Lemma div_euclid_unique x m k : 0 < m -> 0 <= x - IZR k * m < m -> div_euclid x m = IZR k.
Proof.
  intros Hm H. destruct (div_euclid_spec x m) as ((j & Hj) & D); [lra|].
  rewrite Hj in *. rewrite (Rabs_pos_eq m) in D by lra. f_equal.
  assert (Q : -1 < IZR (j - k) < 1).
  { rewrite minus_IZR. split; apply (Rmult_lt_reg_r m); lra. }
  apply int_between in Q. lia.
Qed.

Lemma get_update t f d k : NoDup (map fst d) ->
  get k (update t f d) = if type_eqb k t then option_map f (get k d) else get k d.
Proof.
  intros _. induction d as [|[k' v] d IH]; cbn; [destruct (type_eqb k t); reflexivity|].
  destruct (type_eqb t k') eqn:E; cbn.
  - apply type_eqb_eq in E. subst k'. unfold get. cbn.
    destruct (type_eqb k t); reflexivity.
  - unfold get in *. cbn. rewrite IH. destruct (type_eqb k k') eqn:E2; [|reflexivity].
    apply type_eqb_eq in E2. subst k'. destruct (type_eqb k t) eqn:E3; [|reflexivity].
    apply type_eqb_eq in E3. subst t. rewrite type_eqb_refl in E. discriminate.
Qed.
Lemma update_keys t f d : map fst (update t f d) = map fst d.
Proof.
  induction d as [|[k v] d IH]; cbn; [reflexivity|]. destruct (type_eqb t k); cbn; [reflexivity|].
  now rewrite IH.
Qed.

Lemma get_moduli ms k : NoDup (map fst ms) -> forall d, NoDup (map fst d) ->
  get k (fold_left (fun d tm => update (fst tm) (fun v => rem v (snd tm)) d) ms d) =
  match im_get type_eqb k ms with
  | Some m => option_map (fun v => rem v m) (get k d)
  | None => get k d
  end.
Proof.
  induction ms as [|[t m] ms IH]; intros N d W; cbn [fold_left im_get fst snd]; [reflexivity|].
  inversion N as [|? ? N1 N2]; subst. rewrite IH; [|assumption|now rewrite update_keys].
  rewrite get_update by assumption. destruct (type_eqb k t) eqn:E; [|reflexivity].
  apply type_eqb_eq in E. subst t. apply get_none in N1. now rewrite N1.
Qed.
End Moduli.

(** * Downsampling *)
Lemma window_positive current target : 0 < current -> current < target ->
  0 < window_size current target.
Proof.
  intros H1 H2. unfold window_size.
  destruct (Z.eqb_spec current 0); [lia|]. destruct (Z.ltb_spec current 0); [lia|].
  apply Z.min_glb_lt; [reflexivity|]. apply Z.div_str_pos. lia.
Qed.

Lemma min_sep_nonneg l : forall prev acc, 0 <= acc -> time_ordered l ->
  (forall m, In m l -> prev <= epoch m) -> 0 <= min_sep prev acc l.
Proof.
  induction l as [|m l IH]; intros prev acc Ha T H; cbn [min_sep]; [assumption|].
  inversion T as [|? ? T1 T2]; subst. rewrite Forall_forall in T2. apply IH; [|exact T1|exact T2].
  specialize (H m (or_introl eq_refl)). lia.
Qed.

Definition window_at (l : list measurement) (w : Z) (i : nat) : list measurement :=
  slice l (Z.to_nat (Z.of_nat i - w / 2))
          (Z.to_nat (Z.min (Z.of_nat i + w / 2 + 1) (Z.of_nat (length l)))).

Lemma window_nonempty l w i : 0 < w -> (i < length l)%nat -> window_at l w i <> [].
Proof.
  intros Hw Hi. unfold window_at, slice.
  assert (0 <= w / 2) by (apply Z.div_pos; lia).
  set (a := Z.to_nat (Z.of_nat i - w / 2)). set (b := Z.to_nat _).
  assert (a <= i)%nat by (unfold a; lia). assert (i < b)%nat by (unfold b; lia).
  intros E. apply (f_equal (@length _)) in E. rewrite firstn_length, skipn_length in E.
  cbn in E. lia.
Qed.

Lemma window_in l w i m : In m (window_at l w i) -> In m l.
Proof.
  unfold window_at, slice. intros H. rewrite <- (firstn_skipn (Z.to_nat (Z.of_nat i - w / 2)) l).
  apply in_or_app. right. revert H. generalize (skipn (Z.to_nat (Z.of_nat i - w / 2)) l).
  intros r H. rewrite <- (firstn_skipn (Z.to_nat (Z.min (Z.of_nat i + w / 2 + 1)
    (Z.of_nat (length l))) - Z.to_nat (Z.of_nat i - w / 2)) r). apply in_or_app. now left.
Qed.

Definition averages (ts : list msr_type) (win : list measurement) (d : data) : data :=
  fold_left (fun d t => match average t win with
                        | Some v => im_insert type_eqb t v d
                        | None => d
                        end) ts d.

Lemma averages_nodup win ts : forall d, NoDup (map fst d) -> NoDup (map fst (averages ts win d)).
Proof.
  induction ts as [|t ts IH]; intros d H; [exact H|]. cbn. apply IH.
  destruct (average t win); [now apply nodup_insert|exact H].
Qed.

Lemma averages_get win ts t : forall d,
  get t (averages ts win d) = if existsb (type_eqb t) ts
                              then match average t win with Some v => Some v | None => get t d end
                              else get t d.
Proof.
  induction ts as [|t' ts IH]; intros d; [reflexivity|]. cbn [existsb].
  change (averages (t' :: ts) win d) with
    (averages ts win match average t' win with
                     | Some v => im_insert type_eqb t' v d
                     | None => d
                     end).
  rewrite IH. destruct (type_eqb t t') eqn:E; cbn [orb].
  - apply type_eqb_eq in E. subst t'. destruct (average t win) as [v|] eqn:A.
    + destruct (existsb (type_eqb t) ts); [reflexivity|]. unfold get.
      now rewrite get_insert, type_eqb_refl.
    + destruct (existsb (type_eqb t) ts); reflexivity.
  - destruct (average t' win) as [v'|]; [|reflexivity].
    assert (G : get t (im_insert type_eqb t' v' d) = get t d) by (unfold get; now rewrite get_insert, E).
    destruct (existsb (type_eqb t) ts); [destruct (average t win); [reflexivity|exact G]|exact G].
Qed.

(** Every type present is listed. *)
Lemma unique_types_all l t : (exists m, In m l /\ get t (obs m) <> None) ->
  existsb (type_eqb t) (unique_types l) = true.
Proof.
  assert (A : forall d acc, existsb (type_eqb t) acc = true ->
    existsb (type_eqb t) (fold_left (fun acc t => if existsb (type_eqb t) acc then acc else acc ++ [t])
                            d acc) = true).
  { induction d as [|x d IH]; intros acc H; [exact H|]. cbn. apply IH.
    destruct (existsb (type_eqb x) acc); [exact H|]. rewrite existsb_app, H. reflexivity. }
  assert (A' : forall d acc, In t d ->
    existsb (type_eqb t) (fold_left (fun acc t => if existsb (type_eqb t) acc then acc else acc ++ [t])
                            d acc) = true).
  { induction d as [|x d IH]; intros acc []; cbn; [|now apply IH]. subst x. apply A.
    destruct (existsb (type_eqb t) acc) eqn:E; [exact E|]. rewrite existsb_app. cbn.
    rewrite type_eqb_refl. apply orb_true_r. }
  unfold unique_types. match goal with |- context [fold_left ?F l []] => set (G := F) end.
  generalize (@nil msr_type) as acc.
  induction l as [|x l IH]; intros acc (m & H1 & H2); [destruct H1|]. cbn [fold_left].
  destruct H1 as [->|H1].
  - assert (K : existsb (type_eqb t) (G acc m) = true).
    { apply A'. destruct (in_dec msr_type_eq_dec t (map fst (obs m))) as [I|I]; [exact I|].
      apply get_none in I. contradiction. }
    revert K. generalize (G acc m). clear -A.
    induction l as [|y l IH]; intros acc0 H; [exact H|]. cbn [fold_left]. apply IH. now apply A.
  - apply IH. exists m. auto.
Qed.

Lemma average_some t win : average t win <> None <-> exists m, In m win /\ get t (obs m) <> None.
Proof.
  unfold average. set (vs := flat_map _ win). split.
  - destruct vs as [|v vs'] eqn:E; [contradiction|]. intros _.
    assert (H : In v vs) by (rewrite E; now left). apply in_flat_map in H.
    destruct H as (m & H1 & H2). exists m. split; [exact H1|].
    destruct (get t (obs m)); [discriminate|destruct H2].
  - intros (m & H1 & H2). destruct vs as [|v vs'] eqn:E; [|discriminate].
    destruct (get t (obs m)) as [v|] eqn:G; [|contradiction].
    assert (H : In v vs) by (apply in_flat_map; exists m; rewrite G; split; [exact H1|now left]).
    rewrite E in H. destruct H.
Qed.

Lemma average_bounds t win lo hi v :
  (forall m x, In m win -> get t (obs m) = Some x -> (lo <= x <= hi)%R) ->
  average t win = Some v -> (lo <= v <= hi)%R.
Proof.
  unfold average. set (vs := flat_map _ win). intros H A.
  assert (B : forall x, In x vs -> (lo <= x <= hi)%R).
  { intros x Hx. apply in_flat_map in Hx. destruct Hx as (m & H1 & H2).
    destruct (get t (obs m)) eqn:G; [|destruct H2]. destruct H2 as [->|[]]. eauto. }
  assert (S : forall l, (forall x, In x l -> (lo <= x <= hi)%R) ->
    (INR (length l) * lo <= fold_right Rplus 0 l <= INR (length l) * hi)%R).
  { induction l as [|x l IH]; intros Hl; [cbn; lra|].
    cbn [fold_right length]. rewrite S_INR. pose proof (Hl x (or_introl eq_refl)).
    specialize (IH (fun y Hy => Hl y (or_intror Hy))). lra. }
  specialize (S vs B). destruct vs as [|x vs']; [discriminate|]. 
  set (n := INR (length (x :: vs'))) in *. set (s := fold_right Rplus 0%R (x :: vs')) in *.
  assert (A' : (s / n)%R = v) by (injection A as A; exact A). rewrite <- A'. clearbody s.
  assert (N : (0 < n)%R) by (apply lt_0_INR; cbn; lia).
  split; apply (Rmult_le_reg_r n); try exact N; unfold Rdiv;
    rewrite Rmult_assoc, Rinv_l, Rmult_1_r by lra; lra.
Qed.

(** One filtered measurement. *)
Definition filtered (l : list measurement) (w : Z) (i : nat) (m x : measurement) : Prop :=
  epoch x = epoch m /\ rejected x = false /\ well_formed x /\
  (exists y, In y (window_at l w i) /\ tracker x = tracker y) /\
  (forall t, get t (obs x) = average t (window_at l w i)).

Lemma downsample_one_spec l w i m : 0 < w -> (i < length l)%nat ->
  exists x, downsample_one l w i m = Some x /\ filtered l w i m x.
Proof.
  intros Hw Hi. unfold downsample_one. fold (window_at l w i). cbv zeta.
  pose proof (window_nonempty l w i Hw Hi) as NE.
  destruct (window_at l w i) as [|m0 r] eqn:E; [contradiction|]. rewrite <- E.
  exists {| tracker := tracker m0; epoch := epoch m;
            obs := averages (unique_types l) (window_at l w i) []; rejected := false |}.
  split; [reflexivity|].
  split; [reflexivity|]. split; [reflexivity|]. split; [|split].
  - unfold well_formed. cbn [obs]. apply averages_nodup. constructor.
  - exists m0. rewrite E. split; [now left|reflexivity].
  - intros t. cbn [obs]. rewrite averages_get.
    destruct (existsb (type_eqb t) (unique_types l)) eqn:X; [destruct (average t _); reflexivity|].
    destruct (average t (window_at l w i)) eqn:A; [|reflexivity]. exfalso.
    assert (N : average t (window_at l w i) <> None) by congruence.
    apply average_some in N. destruct N as (y & N1 & N2).
    rewrite unique_types_all in X; [discriminate|]. exists y. split; [|exact N2].
    eapply window_in; exact N1.
Qed.

Lemma downsample_loop_spec l w : 0 < w -> forall rest i, skipn i l = rest ->
  exists out, downsample_loop l w i rest = Some out /\ (length out <= length rest)%nat /\
    (forall x, In x out -> exists j m, nth_error l j = Some m /\ (i <= j)%nat /\
       Z.of_nat j mod w = 0 /\ filtered l w j m x) /\
    (forall j m, nth_error l j = Some m -> (i <= j)%nat -> Z.of_nat j mod w = 0 ->
       exists x, In x out /\ filtered l w j m x).
Proof.
  intros Hw. induction rest as [|m rest IH]; intros i Hi; cbn [downsample_loop].
  - exists []. split; [reflexivity|]. split; [lia|]. split; [intros x []|].
    intros j m Hj L _. exfalso. assert (j < length l)%nat by (apply nth_error_Some; congruence).
    apply (f_equal (@length _)) in Hi. rewrite skipn_length in Hi. cbn in Hi. lia.
  - assert (Hm : nth_error l i = Some m).
    { rewrite <- (Nat.add_0_r i), <- nth_skipn, Hi. reflexivity. }
    assert (Li : (i < length l)%nat) by (apply nth_error_Some; congruence).
    destruct (IH (S i)) as (out & O1 & O2 & O3 & O4).
    { rewrite (skipn_nth l i m Hm) in Hi. now injection Hi. }
    destruct (Z.eqb_spec (Z.of_nat i mod w) 0) as [Z0|Z0].
    + destruct (downsample_one_spec l w i m Hw Li) as (x & X1 & X2). rewrite X1, O1.
      exists (x :: out). split; [reflexivity|]. split; [cbn; lia|]. split.
      * intros y [<-|Hy]; [exists i, m; auto|]. destruct (O3 y Hy) as (j & n & J1 & J2 & J3 & J4).
        exists j, n. repeat split; auto; try lia; apply J4.
      * intros j n Hj L J. destruct (Nat.eq_dec j i) as [->|N].
        -- rewrite Hm in Hj. injection Hj as <-. exists x. split; [now left|exact X2].
        -- destruct (O4 j n Hj ltac:(lia) J) as (y & Y1 & Y2). exists y. split; [now right|exact Y2].
    + exists out. split; [exact O1|]. split; [cbn; lia|]. split.
      * intros y Hy. destruct (O3 y Hy) as (j & n & J1 & J2 & J3 & J4).
        exists j, n. repeat split; auto; try lia; apply J4.
      * intros j n Hj L J. destruct (Nat.eq_dec j i) as [->|N]; [contradiction|].
        apply O4; auto. lia.
Qed.

Lemma nth_combine_seq {A} (l : list A) : forall i j x, nth_error (combine (seq i (length l)) l) j = Some x ->
  fst x = (i + j)%nat /\ nth_error l j = Some (snd x).
Proof.
  induction l as [|a l IH]; intros i j x H; [destruct j; discriminate|].
  destruct j as [|j]; cbn in H.
  - injection H as <-. cbn. split; [lia|reflexivity].
  - apply IH in H. destruct H as [H1 H2]. split; [lia|exact H2].
Qed.
Lemma map_snd_combine {A} (l : list A) : forall i, map snd (combine (seq i (length l)) l) = l.
Proof. induction l as [|a l IH]; intros i; cbn; [reflexivity|]. now rewrite IH. Qed.

Lemma window_near l w i : 0 < w -> (i < length l)%nat ->
  window_at l w i = near l i (Z.to_nat (w / 2)).
Proof.
  intros Hw Hi. assert (0 <= w / 2) by (apply Z.div_pos; lia). unfold window_at, near, slice.
  set (h := Z.to_nat (w / 2)).
  replace (Z.to_nat (Z.of_nat i - w / 2)) with (i - h)%nat by lia.
  set (e := Z.to_nat (Z.min (Z.of_nat i + w / 2 + 1) (Z.of_nat (length l)))).
  rewrite <- skipn_firstn_comm.
  rewrite (filter_range _ (combine (seq 0 (length l)) l) (i - h) e).
  - rewrite <- (map_snd_combine l 0) at 1. now rewrite firstn_map, skipn_map.
  - intros j x Hx. assert (Lj : (j < length l)%nat).
    { assert (j < length (combine (seq 0 (length l)) l))%nat by (apply nth_error_Some; congruence).
      rewrite combine_length, seq_length in H0. lia. }
    apply nth_combine_seq in Hx. destruct Hx as [-> _].
    rewrite andb_true_iff, !Nat.leb_le. lia.
Qed.

Lemma downsample_loop_nth l (w : nat) : (0 < w)%nat -> forall rest i d out, skipn i l = rest ->
  (Z.of_nat i + Z.of_nat d) mod Z.of_nat w = 0 -> (d < w)%nat ->
  downsample_loop l (Z.of_nat w) i rest = Some out ->
  forall k, match nth_error rest (d + k * w), nth_error out k with
            | Some m, Some x => filtered l (Z.of_nat w) (i + d + k * w) m x
            | None, None => True
            | _, _ => False
            end.
Proof.
  intros Hw. induction rest as [|m rest IH]; intros i d out Hi Hd Ld H k; cbn [downsample_loop] in H.
  - injection H as <-. destruct k, (d + _)%nat; exact I.
  - assert (Hm : nth_error l i = Some m).
    { rewrite <- (Nat.add_0_r i), <- nth_skipn, Hi. reflexivity. }
    assert (Li : (i < length l)%nat) by (apply nth_error_Some; congruence).
    assert (Hr : skipn (S i) l = rest).
    { rewrite (skipn_nth l i m Hm) in Hi. now injection Hi. }
    destruct (Z.eqb_spec (Z.of_nat i mod Z.of_nat w) 0) as [Z0|Z0].
    + assert (d = 0)%nat.
      { rewrite <- Z.add_mod_idemp_l, Z0, Z.add_0_l in Hd by lia. rewrite Z.mod_small in Hd by lia. lia. }
      subst d.
      destruct (downsample_one_spec l (Z.of_nat w) i m ltac:(lia) Li) as (x & X1 & X2).
      rewrite X1 in H. destruct (downsample_loop l (Z.of_nat w) (S i) rest) as [out'|] eqn:O; [|discriminate].
      injection H as <-. destruct k as [|k].
      * cbn. now rewrite Nat.add_0_r, Nat.add_0_r.
      * specialize (IH (S i) (w - 1)%nat out' Hr).
        assert (Q : (Z.of_nat (S i) + Z.of_nat (w - 1)) mod Z.of_nat w = 0).
        { replace (Z.of_nat (S i) + Z.of_nat (w - 1)) with (Z.of_nat i + 1 * Z.of_nat w) by lia.
          now rewrite Z.mod_add by lia. }
        specialize (IH Q ltac:(lia) O k).
        replace (0 + S k * w)%nat with (S (w - 1 + k * w)) by lia. cbn [nth_error].
        replace (i + 0 + S k * w)%nat with (S i + (w - 1) + k * w)%nat by lia. exact IH.
    + destruct d as [|d]; [rewrite Z.add_0_r in Hd; contradiction|].
      specialize (IH (S i) d out Hr).
      assert (Q : (Z.of_nat (S i) + Z.of_nat d) mod Z.of_nat w = 0).
      { rewrite <- Hd. f_equal. lia. }
      specialize (IH Q ltac:(lia) H k). cbn [Nat.add nth_error].
      replace (i + S d + k * w)%nat with (S i + d + k * w)%nat by lia. exact IH.
Qed.

Lemma spaced_min_sep d l : forall prev acc, d <= acc ->
  (forall m, nth_error l 0 = Some m -> d <= epoch m - prev) -> spaced d l ->
  d <= min_sep prev acc l.
Proof.
  induction l as [|m l IH]; intros prev acc Ha H0 S; cbn [min_sep]; [exact Ha|].
  apply IH.
  - specialize (H0 m eq_refl). lia.
  - intros n Hn. apply (S 0%nat m n eq_refl). exact Hn.
  - intros k a b Hx Hy. exact (S (Datatypes.S k) a b Hx Hy).
Qed.

Lemma mean_average t win v : average t win = Some v -> is_mean (values t win) v.
Proof.
  unfold average. fold (values t win). destruct (values t win) as [|x vs] eqn:E; [discriminate|].
  intros H. assert (A : (fold_right Rplus 0 (x :: vs) / INR (length (x :: vs)))%R = v)
    by (injection H as H; exact H).
  split; [discriminate|]. rewrite <- A. field. apply not_0_INR. discriminate.
Qed.
Lemma no_average t win : average t win = None -> values t win = [].
Proof. unfold average. fold (values t win). destruct (values t win); [reflexivity|discriminate]. Qed.

Lemma min_sep_acc l : forall prev acc, min_sep prev acc l <= acc.
Proof.
  induction l as [|m l IH]; intros prev acc; cbn [min_sep]; [lia|].
  specialize (IH (epoch m) (Z.min acc (epoch m - prev))). lia.
Qed.
Lemma min_sep_le l : forall prev acc k m n, nth_error l k = Some m -> nth_error l (S k) = Some n ->
  min_sep prev acc l <= epoch n - epoch m.
Proof.
  induction l as [|x l IH]; intros prev acc k m n Hm Hn; [destruct k; discriminate|].
  destruct k as [|k].
  - injection Hm as ->. destruct l as [|y l]; [discriminate|]. injection Hn as ->.
    cbn [min_sep]. etransitivity; [apply min_sep_acc|]. lia.
  - cbn [min_sep]. eapply IH; eassumption.
Qed.
