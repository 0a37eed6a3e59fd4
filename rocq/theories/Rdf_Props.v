(** Properties of the file of differences between two trajectories (C103). *)
From Coq Require Import Reals String Lra Permutation.
From Verif Require Import Base RustStd Vec3 Angles Util_Model Sc_Model Traj_Model Pq_Model Tpq_Model Rdf_Model.
From Verif Require Import Vec3.
Local Open Scope R_scope.

(** ** The specification *)

(** How many numbers of a list are below and above a number. *)
Definition below (m : R) (l : list R) : nat := length (filter (fun x => if Rlt_dec x m then true else false) l).
Definition above (m : R) (l : list R) : nat := length (filter (fun x => if Rlt_dec m x then true else false) l).

(** The median of a list, the upper one for an even number of numbers: a number of the list
    with at most half of the list below it and less than half above. *)
Definition upper_median (m : R) (w : list R) : Prop :=
  In m w /\ (below m w <= length w / 2)%nat /\ (above m w + length w / 2 < length w)%nat.

(** The numbers within [h] rows of row [i]: those already written before the row, and those
    to smooth from the row on. *)
Definition around (h i : nat) (written raw : list R) : list R :=
  map (fun j => if (j <? i)%nat then nth j written 0 else nth j raw 0)
    (seq (i - h) (Nat.min (i + h + 1) (length raw) - (i - h))).

(** ** Sorting and medians *)

Lemma insert_perm x l : Permutation (x :: l) (insert_real x l).
Proof.
  induction l as [|y l IH]; cbn [insert_real]; [constructor; constructor|].
  destruct (Rle_dec x y); [apply Permutation_refl|].
  eapply Permutation_trans; [apply perm_swap|]. now constructor.
Qed.
Lemma sort_perm l : Permutation l (sort_reals l).
Proof.
  induction l as [|x l IH]; cbn [sort_reals]; [constructor|].
  eapply Permutation_trans; [constructor; exact IH|]. apply insert_perm.
Qed.

Fixpoint sorted (l : list R) : Prop :=
  match l with [] => True | x :: l' => (forall y, In y l' -> x <= y) /\ sorted l' end.
Lemma insert_sorted x l : sorted l -> sorted (insert_real x l).
Proof.
  induction l as [|y l IH]; cbn [insert_real sorted]; [intros _; split; [now intros|exact I]|].
  intros [A B]. destruct (Rle_dec x y) as [L|L]; cbn [sorted].
  - split; [|split; assumption]. intros z [<-|Z]; [exact L|]. specialize (A _ Z). lra.
  - split; [|now apply IH]. intros z Z.
    apply (Permutation_in _ (Permutation_sym (insert_perm x l))) in Z as [<-|Z]; [lra|now apply A].
Qed.
Lemma sort_sorted l : sorted (sort_reals l).
Proof. induction l as [|x l IH]; [exact I|]. now apply insert_sorted. Qed.

Lemma filter_perm {A} (f : A -> bool) l l' : Permutation l l' -> length (filter f l) = length (filter f l').
Proof.
  induction 1 as [|x l l' P IH|x y l|l l' l'' P IH P' IH']; cbn [filter]; [reflexivity| | |congruence].
  - destruct (f x); cbn [length]; congruence.
  - destruct (f x), (f y); reflexivity.
Qed.
Lemma filter_none {A} (f : A -> bool) l : (forall x, In x l -> f x = false) -> filter f l = [].
Proof.
  induction l as [|x l IH]; intros H; [reflexivity|]. cbn [filter]. rewrite (H x) by now left.
  apply IH. intros y Y. apply H. now right.
Qed.
Lemma filter_le {A} (f : A -> bool) l : (length (filter f l) <= length l)%nat.
Proof. induction l as [|x l IH]; cbn [filter length]; [lia|]. destruct (f x); cbn [length]; lia. Qed.

Lemma sorted_split l1 m l2 : sorted (l1 ++ m :: l2) ->
  (forall x, In x l1 -> x <= m) /\ (forall x, In x l2 -> m <= x).
Proof.
  induction l1 as [|y l1 IH]; cbn [app sorted].
  - intros [A _]. split; [now intros x []|exact A].
  - intros [A B]. destruct (IH B) as [C D]. split; [|exact D].
    intros x [<-|X]; [|now apply C]. apply A. apply in_or_app. right. now left.
Qed.

Lemma middle_median w : w <> [] -> upper_median (middle w) w.
Proof.
  intros N. unfold middle.
  assert (L : length (sort_reals w) = length w) by (symmetry; apply Permutation_length, sort_perm).
  assert (P : (0 < length w)%nat) by (destruct w; [now destruct N|cbn; lia]).
  set (k := (length w / 2)%nat).
  assert (K : (k < length w)%nat) by (apply Nat.div_lt; lia).
  destruct (nth_split (sort_reals w) 0 (n := k)) as (l1 & l2 & E & L1); [lia|].
  set (m := nth k (sort_reals w) 0) in *.
  assert (S := sort_sorted w). rewrite E in S. apply sorted_split in S as [S1 S2].
  assert (L2 : (length w = k + S (length l2))%nat).
  { rewrite <- L, E, app_length, L1. reflexivity. }
  split; [|split].
  - apply (Permutation_in _ (Permutation_sym (sort_perm w))). rewrite E. apply in_or_app. right. now left.
  - unfold below. rewrite (filter_perm _ _ _ (sort_perm w)), E, filter_app, app_length. cbn [filter].
    destruct (Rlt_dec m m) as [X|_]; [lra|].
    rewrite (filter_none _ l2); [|intros x X; specialize (S2 _ X); destruct (Rlt_dec x m); [lra|reflexivity]].
    pose proof (filter_le (fun x => if Rlt_dec x m then true else false) l1). cbn [length]. fold k. lia.
  - unfold above. rewrite (filter_perm _ _ _ (sort_perm w)), E, filter_app, app_length. cbn [filter].
    destruct (Rlt_dec m m) as [X|_]; [lra|].
    rewrite (filter_none _ l1); [|intros x X; specialize (S1 _ X); destruct (Rlt_dec m x); [lra|reflexivity]].
    pose proof (filter_le (fun x => if Rlt_dec m x then true else false) l2). cbn [length]. fold k. lia.
Qed.

(** ** The pass over the rows *)

Lemma update_length {A} (f : A -> A) l : forall i, length (update l i f) = length l.
Proof. induction l as [|a l IH]; intros [|i]; cbn [update length]; try reflexivity. now rewrite IH. Qed.
Lemma update_nth {A} (f : A -> A) (d : A) l : forall i j, (i < length l)%nat ->
  nth j (update l i f) d = if (j =? i)%nat then f (nth j l d) else nth j l d.
Proof.
  induction l as [|a l IH]; intros i j I; [cbn in I; lia|].
  destruct i as [|i], j as [|j]; cbn [update nth Nat.eqb]; try reflexivity.
  apply IH. cbn [length] in I. lia.
Qed.
Lemma update_map {A B} (g : A -> B) (f : A -> A) (h : B -> B) l : (forall a, g (f a) = h (g a)) ->
  forall i, map g (update l i f) = update (map g l) i h.
Proof.
  intros H. induction l as [|a l IH]; intros [|i]; cbn [update map]; try reflexivity; [now rewrite H|now rewrite IH].
Qed.
Lemma update_id {A} l : forall i, @update A l i (fun a => a) = l.
Proof. induction l as [|a l IH]; intros [|i]; cbn [update]; try reflexivity. now rewrite IH. Qed.
Lemma update_ext {A} (f g : A -> A) l : (forall a, f a = g a) -> forall i, update l i f = update l i g.
Proof. intros H. induction l as [|a l IH]; intros [|i]; cbn [update]; try reflexivity; [now rewrite H|now rewrite IH]. Qed.

Lemma component_set c c' x o : (c < 6)%nat -> (c' < 6)%nat ->
  component c (set_component c' x o) = if (c =? c')%nat then x else component c o.
Proof.
  intros C C'. destruct c as [|[|[|[|[|[|c]]]]]]; try lia;
  destruct c' as [|[|[|[|[|[|c']]]]]]; try lia; reflexivity.
Qed.

Definition row (half : nat) (l : list R) (i : nat) : list R :=
  update l i (fun _ => middle (window half i l)).
Definition pass (half k : nat) (l : list R) : list R := fold_left (row half) (seq 0 k) l.

Lemma smooth_component_map half i c c' l : (c < 6)%nat -> (c' < 6)%nat ->
  map (component c) (smooth_component half i c' l)
  = if (c =? c')%nat then row half (map (component c) l) i else map (component c) l.
Proof.
  intros C C'. unfold smooth_component, row.
  destruct (Nat.eqb_spec c c') as [->|N].
  - apply update_map. intros a. rewrite component_set by lia. now rewrite Nat.eqb_refl.
  - rewrite (update_map _ _ (fun a => a)); [apply update_id|].
    intros a. rewrite component_set by lia. now rewrite (proj2 (Nat.eqb_neq _ _) N).
Qed.
Lemma smooth_row_map half i c l : (c < 6)%nat ->
  map (component c) (fold_left (fun l c => smooth_component half i c l) (seq 0 6) l)
  = row half (map (component c) l) i.
Proof.
  intros C. cbn [seq fold_left].
  destruct c as [|[|[|[|[|[|c]]]]]]; try lia;
  rewrite !smooth_component_map by lia; cbn [Nat.eqb]; reflexivity.
Qed.
Lemma smooth_pass {E} w l out c : @smooth E w l = Ok out -> (c < 6)%nat ->
  map (component c) out = pass (w / 2) (length l) (map (component c) l).
Proof.
  unfold smooth. destruct (negb _); [discriminate|]. intros H C.
  match type of H with Ok ?t = _ => assert (out = t) as -> by congruence end.
  unfold pass. clear H. generalize (seq 0 (length l)) as is. intros is. revert l.
  induction is as [|i is IH]; intros l; [reflexivity|].
  cbn [fold_left]. rewrite IH. f_equal. apply smooth_row_map. exact C.
Qed.

Lemma pass_S half k l : pass half (S k) l = row half (pass half k l) k.
Proof. unfold pass. rewrite seq_S, fold_left_app. reflexivity. Qed.
Lemma pass_length half k l : length (pass half k l) = length l.
Proof.
  induction k as [|k IH]; [reflexivity|]. rewrite pass_S. unfold row. now rewrite update_length.
Qed.
Lemma pass_later half k l : forall j, (k <= j)%nat -> (k <= length l)%nat -> nth j (pass half k l) 0 = nth j l 0.
Proof.
  induction k as [|k IH]; intros j J L; [reflexivity|]. rewrite pass_S. unfold row.
  rewrite update_nth by (rewrite pass_length; lia).
  destruct (Nat.eqb_spec j k); [lia|]. apply IH; lia.
Qed.
Lemma pass_fixed half l j : forall d, (S j + d <= length l)%nat ->
  nth j (pass half (S j + d) l) 0 = nth j (pass half (S j) l) 0.
Proof.
  induction d as [|d IH]; intros L; [now rewrite Nat.add_0_r|].
  replace (S j + S d)%nat with (S (S j + d)) by lia. rewrite pass_S. unfold row at 1.
  rewrite update_nth by (rewrite pass_length; lia).
  destruct (Nat.eqb_spec j (S j + d)); [lia|]. apply IH. lia.
Qed.
Lemma window_nth half i l : window half i l
  = map (fun j => nth j l 0) (seq (i - half) (Nat.min (i + half + 1) (length l) - (i - half))).
Proof.
  unfold window. set (s := (i - half)%nat). set (n := (Nat.min (i + half + 1) (length l) - s)%nat).
  assert (N : (n = 0 \/ s + n <= length l)%nat) by lia.
  clearbody s n. destruct N as [->|N]; [reflexivity|].
  revert l s N. induction n as [|n IH]; intros l s N; [reflexivity|].
  cbn [seq map].
  assert (E : skipn s l = nth s l 0 :: skipn (S s) l).
  { clear -N. revert l N. induction s as [|s IH]; intros [|a l] N; cbn [length] in N; try lia; [reflexivity|].
    cbn [skipn nth]. apply IH. lia. }
  rewrite E. cbn [firstn]. f_equal. apply IH. lia.
Qed.

(** What a row becomes, from the rows written before and the raw rows. *)
Lemma pass_row half l i : (i < length l)%nat ->
  nth i (pass half (length l) l) 0 = middle (around half i (pass half (length l) l) l).
Proof.
  intros I.
  replace (length l) with (S i + (length l - S i))%nat at 1 by lia.
  rewrite pass_fixed by lia. rewrite pass_S. unfold row at 1.
  rewrite update_nth by (rewrite pass_length; lia). rewrite Nat.eqb_refl.
  f_equal. rewrite window_nth, pass_length. unfold around. apply map_ext_in. intros j J.
  apply in_seq in J. destruct (Nat.ltb_spec j i) as [X|X].
  - replace (length l) with (S j + (length l - S j))%nat at 1 by lia. rewrite pass_fixed by lia.
    replace i with (S j + (i - S j))%nat by lia. rewrite pass_fixed by lia. reflexivity.
  - apply pass_later; lia.
Qed.
Lemma around_nonempty h i w raw : (i < length raw)%nat -> around h i w raw <> [].
Proof.
  intros I E. apply (f_equal (@length R)) in E. unfold around in E. rewrite map_length, seq_length in E.
  cbn [length] in E. lia.
Qed.

(** ** C103: what is smoothed *)

Notation of c l := (map (component c) l).

(** The smoothed list has as many rows as the raw one, and each number written is the median
    of those within [window_size / 2] rows of it: the numbers already written on the rows
    before, not the raw ones, and the raw ones from the row on. *)
Theorem C103_median : forall (E : Type) window_size raw out,
  @smooth E window_size raw = Ok out ->
  length out = length raw /\
  forall c i, (c < 6)%nat -> (i < length raw)%nat ->
    upper_median (nth i (of c out) 0) (around (window_size / 2) i (of c out) (of c raw)).
Proof.
  intros E w raw out H. split.
  - rewrite <- (map_length (component 0) out), (smooth_pass _ _ _ 0 H) by lia.
    now rewrite pass_length, map_length.
  - intros c i C I. rewrite (smooth_pass _ _ _ c H C).
    rewrite <- (map_length (component c) raw) in *.
    rewrite (pass_row (w / 2) (of c raw) i I) at 1.
    apply middle_median, around_nonempty. exact I.
Qed.

(** Hence every number written is the raw number of some row, any number of rows before but
    not more than [window_size / 2] rows after: it lies between the smallest and the largest
    of the differences. *)
Theorem C103_among_differences : forall (E : Type) window_size raw out c i,
  @smooth E window_size raw = Ok out -> (c < 6)%nat -> (i < length raw)%nat ->
  exists j, (j <= i + window_size / 2)%nat /\ (j < length raw)%nat /\
    nth i (of c out) 0 = nth j (of c raw) 0.
Proof.
  intros E w raw out c i H C. destruct (C103_median E w raw out H) as [_ M].
  induction i as [i IH] using lt_wf_ind. intros I.
  destruct (M c i C I) as [X _]. unfold around in X. apply in_map_iff in X as (j & X & J).
  apply in_seq in J. rewrite map_length in J. destruct (Nat.ltb_spec j i) as [L|L].
  - destruct (IH j L ltac:(lia)) as (j' & A & B & D). exists j'. split; [lia|]. split; [exact B|].
    rewrite <- X. exact D.
  - exists j. split; [lia|]. split; [lia|]. now rewrite X.
Qed.

(** A window of one changes nothing: the differences of at most five states are written as
    they are. *)
Theorem C103_unsmoothed : forall (E : Type) raw out c,
  @smooth E 1 raw = Ok out -> (c < 6)%nat -> of c out = of c raw.
Proof.
  intros E raw out c H C. destruct (C103_median E 1 raw out H) as [L M].
  apply (nth_ext _ _ 0 0); [now rewrite !map_length|]. intros i I. rewrite map_length, L in I.
  destruct (M c i C I) as [X _]. unfold around in X. apply in_map_iff in X as (j & X & J).
  change (1 / 2)%nat with 0%nat in J. apply in_seq in J.
  assert (j = i) as -> by lia. rewrite Nat.ltb_irrefl in X. now symmetry.
Qed.

(** ** C103: what smoothing distorts *)

Lemma middle3 a b c : a <= b -> b <= c -> middle [a; b; c] = b.
Proof.
  intros A B. unfold middle. change (length [a; b; c] / 2)%nat with 1%nat. cbn [sort_reals insert_real].
  repeat (destruct (Rle_dec _ _); cbn [insert_real nth]); lra.
Qed.
Lemma middle4 a b c d : a <= c -> b <= c -> c <= d -> middle [a; b; c; d] = c.
Proof.
  intros A B D. unfold middle. change (length [a; b; c; d] / 2)%nat with 2%nat. cbn [sort_reals insert_real].
  repeat (destruct (Rle_dec _ _); cbn [insert_real nth]); lra.
Qed.
Lemma middle5 a b c d e : a <= c -> b <= c -> c <= d -> c <= e -> middle [a; b; c; d; e] = c.
Proof.
  intros A B D F. unfold middle. change (length [a; b; c; d; e] / 2)%nat with 2%nat. cbn [sort_reals insert_real].
  repeat (destruct (Rle_dec _ _); cbn [insert_real nth]); lra.
Qed.

Lemma around_row (E : Type) w raw out c i : @smooth E w raw = Ok out -> (c < 6)%nat -> (i < length raw)%nat ->
  nth i (of c out) 0 = middle (around (w / 2) i (of c out) (of c raw)).
Proof.
  intros H C I. rewrite (smooth_pass _ _ _ c H C). rewrite <- (map_length (component c) raw) in *.
  now apply pass_row.
Qed.

(** For a difference that grows along the trajectories, as it does when they start together
    and drift apart, six rows or more: the first row has the difference of the second, the
    second that of the third and the last that of the one before; the other rows have
    theirs. *)
Theorem C103_drift : forall (E : Type) raw out c,
  @smooth E 5 raw = Ok out -> (c < 6)%nat -> (6 <= length raw)%nat ->
  (forall i j, (i < j < length raw)%nat -> nth i (of c raw) 0 < nth j (of c raw) 0) ->
  let n := length raw in
  nth 0 (of c out) 0 = nth 1 (of c raw) 0 /\
  nth 1 (of c out) 0 = nth 2 (of c raw) 0 /\
  (forall i, (2 <= i < n - 1)%nat -> nth i (of c out) 0 = nth i (of c raw) 0) /\
  nth (n - 1) (of c out) 0 = nth (n - 2) (of c raw) 0.
Proof.
  intros E raw out c H C N G n. subst n.
  pose proof (around_row E 5 raw out c) as A. specialize (fun i => A i H C).
  change (5 / 2)%nat with 2%nat in A.
  set (r := of c raw) in *. set (s := of c out) in *.
  assert (Lr : length r = length raw) by apply map_length.
  assert (R0 : nth 0 s 0 = nth 1 r 0).
  { rewrite A by lia. unfold around. rewrite Lr.
    replace (Nat.min (0 + 2 + 1) (length raw) - (0 - 2))%nat with 3%nat by lia.
    cbn [Nat.sub seq map]. change (0 <? 0)%nat with false. change (1 <? 0)%nat with false. change (2 <? 0)%nat with false.
    cbv iota. apply middle3; apply Rlt_le, G; lia. }
  assert (R1 : nth 1 s 0 = nth 2 r 0).
  { rewrite A by lia. unfold around. rewrite Lr.
    replace (Nat.min (1 + 2 + 1) (length raw) - (1 - 2))%nat with 4%nat by lia.
    cbn [Nat.sub seq map]. change (0 <? 1)%nat with true. change (1 <? 1)%nat with false.
    change (2 <? 1)%nat with false. change (3 <? 1)%nat with false.
    cbv iota. rewrite R0.
    pose proof (G 1 2 ltac:(lia))%nat. pose proof (G 2 3 ltac:(lia))%nat. apply middle4; lra. }
  assert (K : forall i, (2 <= i < length raw - 1)%nat ->
    nth i s 0 = nth i r 0 /\ nth (i - 1) s 0 <= nth i r 0).
  { intros i. induction i as [i IH] using lt_wf_ind. intros I.
    assert (P1 : nth (i - 1) s 0 <= nth i r 0).
    { destruct (Nat.eq_dec i 2) as [->|X]; [cbn [Nat.sub]; rewrite R1; lra|].
      destruct (IH (i - 1)%nat ltac:(lia) ltac:(lia)) as [-> _]. apply Rlt_le, G. lia. }
    assert (P2 : nth (i - 2) s 0 <= nth i r 0).
    { destruct (Nat.eq_dec i 2) as [->|X]; [cbn [Nat.sub]; rewrite R0; apply Rlt_le, G; lia|].
      destruct (Nat.eq_dec i 3) as [->|Y]; [cbn [Nat.sub]; rewrite R1; apply Rlt_le, G; lia|].
      destruct (IH (i - 2)%nat ltac:(lia) ltac:(lia)) as [-> _]. apply Rlt_le, G. lia. }
    split; [|exact P1]. rewrite A by lia. unfold around. rewrite Lr.
    assert (B1 : (i - 2 <? i)%nat = true) by (apply Nat.ltb_lt; lia).
    assert (B2 : (i - 1 <? i)%nat = true) by (apply Nat.ltb_lt; lia).
    assert (B3 : (i <? i)%nat = false) by (apply Nat.ltb_irrefl).
    assert (B4 : (S i <? i)%nat = false) by (apply Nat.ltb_ge; lia).
    assert (B5 : (S (S i) <? i)%nat = false) by (apply Nat.ltb_ge; lia).
    destruct (Nat.eq_dec i (length raw - 2)) as [L|L].
    - replace (Nat.min (i + 2 + 1) (length raw) - (i - 2))%nat with 4%nat by lia.
      cbn [seq map]. replace (S (i - 2)) with (i - 1)%nat by lia. replace (S (i - 1)) with i by lia.
      rewrite B1, B2, B3, B4. apply middle4; try assumption. apply Rlt_le, G. lia.
    - replace (Nat.min (i + 2 + 1) (length raw) - (i - 2))%nat with 5%nat by lia.
      cbn [seq map]. replace (S (i - 2)) with (i - 1)%nat by lia. replace (S (i - 1)) with i by lia.
      rewrite B1, B2, B3, B4, B5. apply middle5; try assumption; apply Rlt_le, G; lia. }
  split; [exact R0|]. split; [exact R1|]. split; [intros i I; apply K; exact I|].
  rewrite A by lia. unfold around. rewrite Lr.
  replace (Nat.min (length raw - 1 + 2 + 1) (length raw) - (length raw - 1 - 2))%nat with 3%nat by lia.
  cbn [seq map].
  replace (length raw - 1 - 2)%nat with (length raw - 3)%nat by lia.
  replace (S (length raw - 3)) with (length raw - 2)%nat by lia.
  replace (S (length raw - 2)) with (length raw - 1)%nat by lia.
  assert (B1 : (length raw - 3 <? length raw - 1)%nat = true) by (apply Nat.ltb_lt; lia).
  assert (B2 : (length raw - 2 <? length raw - 1)%nat = true) by (apply Nat.ltb_lt; lia).
  rewrite B1, B2, Nat.ltb_irrefl.
  destruct (K (length raw - 3)%nat ltac:(lia)) as [-> _]. destruct (K (length raw - 2)%nat ltac:(lia)) as [-> _].
  apply middle3; apply Rlt_le, G; lia.
Qed.

(** Differences along the first axis. *)
Definition along (x : R) : orbit := Orbit 0 0 (V3 x 0 0) vzero.
Lemma along_first l : of 0 (map along l) = l.
Proof. rewrite map_map. cbn [component along radius_km vx]. apply map_id. Qed.

Ltac median :=
  unfold middle;
  match goal with |- context [(length ?w / 2)%nat] =>
    let k := eval vm_compute in (length w / 2)%nat in change (length w / 2)%nat with k end;
  cbn [sort_reals insert_real];
  repeat (destruct (Rle_dec _ _); cbn [insert_real nth]; try lra); try lra.
Lemma smooth_ok (l : list orbit) : exists out, @smooth diff_error 5 l = Ok out.
Proof. eexists. reflexivity. Qed.

(** Two trajectories that agree but at one date: nothing of it is written. *)
Theorem C103_spike_refuted : exists raw out,
  @smooth diff_error 5 raw = Ok out /\ nth 3 (of 0 raw) 0 = 1 /\
  forall i, (i < length raw)%nat -> nth i (of 0 out) 0 = 0.
Proof.
  exists (map along [0; 0; 0; 1; 0; 0; 0]).
  destruct (smooth_ok (map along [0; 0; 0; 1; 0; 0; 0])) as [out H]. exists out.
  split; [exact H|]. rewrite along_first. split; [reflexivity|].
  pose proof (fun i => around_row _ _ _ _ 0 i H ltac:(lia)) as A. rewrite along_first in A.
  rewrite map_length in *. change (length [0; 0; 0; 1; 0; 0; 0]) with 7%nat in *.
  set (s := of 0 out) in *.
  assert (W0 : nth 0 s 0 = 0).
  { rewrite A by lia. change (around _ _ _ _) with [0; 0; 0]. median. }
  assert (W1 : nth 1 s 0 = 0).
  { rewrite A by lia. change (around _ _ _ _) with [nth 0 s 0; 0; 0; 1]. rewrite W0. median. }
  assert (W2 : nth 2 s 0 = 0).
  { rewrite A by lia. change (around _ _ _ _) with [nth 0 s 0; nth 1 s 0; 0; 1; 0]. rewrite W0, W1. median. }
  assert (W3 : nth 3 s 0 = 0).
  { rewrite A by lia. change (around _ _ _ _) with [nth 1 s 0; nth 2 s 0; 1; 0; 0]. rewrite W1, W2. median. }
  assert (W4 : nth 4 s 0 = 0).
  { rewrite A by lia. change (around _ _ _ _) with [nth 2 s 0; nth 3 s 0; 0; 0; 0]. rewrite W2, W3. median. }
  assert (W5 : nth 5 s 0 = 0).
  { rewrite A by lia. change (around _ _ _ _) with [nth 3 s 0; nth 4 s 0; 0; 0]. rewrite W3, W4. median. }
  assert (W6 : nth 6 s 0 = 0).
  { rewrite A by lia. change (around _ _ _ _) with [nth 4 s 0; nth 5 s 0; 0]. rewrite W4, W5. median. }
  intros i I. destruct i as [|[|[|[|[|[|[|i]]]]]]]; try assumption; lia.
Qed.

(** The rows written before are those smoothed already, so that the number written may not be
    the median of the differences: here four of the five differences within two rows of the
    fifth row are zero, and one is written. *)
Theorem C103_in_place_refuted : exists raw out,
  @smooth diff_error 5 raw = Ok out /\
  upper_median 0 (around 2 4 (of 0 raw) (of 0 raw)) /\ nth 4 (of 0 out) 0 = 1.
Proof.
  exists (map along [1; 1; 0; 0; 1; 0; 0]).
  destruct (smooth_ok (map along [1; 1; 0; 0; 1; 0; 0])) as [out H]. exists out.
  split; [exact H|]. rewrite along_first. split.
  { change (around _ _ _ _) with [0; 0; 1; 0; 0]. split; [now left|]. unfold below, above. cbn [filter].
    destruct (Rlt_dec 0 0) as [X|_]; [lra|]. destruct (Rlt_dec 1 0) as [X|_]; [lra|].
    destruct (Rlt_dec 0 1) as [_|X]; [|lra]. cbn [length]. change (5 / 2)%nat with 2%nat. lia. }
  pose proof (fun i => around_row _ _ _ _ 0 i H ltac:(lia)) as A. rewrite along_first in A.
  rewrite map_length in *. change (length [1; 1; 0; 0; 1; 0; 0]) with 7%nat in *.
  set (s := of 0 out) in *.
  assert (W0 : nth 0 s 0 = 1).
  { rewrite A by lia. change (around _ _ _ _) with [1; 1; 0]. median. }
  assert (W1 : nth 1 s 0 = 1).
  { rewrite A by lia. change (around _ _ _ _) with [nth 0 s 0; 1; 0; 0]. rewrite W0. median. }
  assert (W2 : nth 2 s 0 = 1).
  { rewrite A by lia. change (around _ _ _ _) with [nth 0 s 0; nth 1 s 0; 0; 0; 1]. rewrite W0, W1. median. }
  assert (W3 : nth 3 s 0 = 1).
  { rewrite A by lia. change (around _ _ _ _) with [nth 1 s 0; nth 2 s 0; 0; 1; 0]. rewrite W1, W2. median. }
  assert (W4 : nth 4 s 0 = 1).
  { rewrite A by lia. change (around _ _ _ _) with [nth 2 s 0; nth 3 s 0; 1; 0; 0]. rewrite W2, W3. median. }
  exact W4.
Qed.
