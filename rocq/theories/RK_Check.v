(** Deciding the order conditions of a table by computation: the conditions are evaluated
    for every rooted tree up to a size, in exact arithmetic or in interval arithmetic, and
    the computation is proved to cover all trees. *)
From Coq Require Import Reals QArith Qreals Lra Psatz.
From Verif Require Import Base Prop_Model RK_Model RK_Spec.

(** Tree induction with the hypothesis for all children. *)
Fixpoint tree_rect' (P : tree -> Prop)
    (H : forall l, (forall c, In c l -> P c) -> P (Node l)) (t : tree) : P t :=
  match t with
  | Node l =>
      H l ((fix go (l : list tree) : forall c, In c l -> P c :=
              match l with
              | [] => fun c (F : In c []) => match F with end
              | x :: l' => fun c (F : In c (x :: l')) =>
                  match F with
                  | or_introl e => eq_ind x P (tree_rect' P H x) c e
                  | or_intror F' => go l' c F'
                  end
              end) l)
  end.

Record ops (T : Type) := { o_zero : T; o_one : T; o_add : T -> T -> T; o_mul : T -> T -> T }.
Arguments o_zero {T}. Arguments o_one {T}. Arguments o_add {T}. Arguments o_mul {T}.

Section Generic.
Context {T : Type} (o : ops T).

Fixpoint dot (x y : list T) : T :=
  match x, y with
  | a :: x', b :: y' => o_add o (o_mul o a b) (dot x' y')
  | _, _ => o_zero o
  end.
Fixpoint vmul (x y : list T) : list T :=
  match x, y with
  | a :: x', b :: y' => o_mul o a b :: vmul x' y'
  | _, _ => []
  end.

(** Rows of a strictly lower triangular matrix stored row by row. *)
Fixpoint rows_from (n i : nat) (a : list T) : list (list T) :=
  match n with O => [] | S n' => firstn i a :: rows_from n' (S i) (skipn i a) end.

Definition mat (rows : list (list T)) (v : list T) : list T := map (fun r => dot r v) rows.

Definition forest_w (rows : list (list T)) (tw : tree -> list T) (l : list tree) : list T :=
  fold_right (fun c w => vmul (mat rows (tw c)) w) (repeat (o_one o) (length rows)) l.

Fixpoint tree_w (rows : list (list T)) (t : tree) : list T :=
  match t with
  | Node l =>
      fold_right (fun c w => vmul (mat rows (tree_w rows c)) w)
        (repeat (o_one o) (length rows)) l
  end.

(** One entry per tree, up to the order of the children: its size, its weights, the image of
    the weights by the matrix, and its density. *)
Record entry := { e_size : nat; e_w : list T; e_aw : list T; e_dens : Z }.

Definition mk_entry (rows : list (list T)) (n : nat) (wd : list T * Z) : entry :=
  {| e_size := n; e_w := fst wd; e_aw := mat rows (fst wd);
     e_dens := (Z.of_nat n * snd wd)%Z |}.

(** The weights and densities of all forests of total size [n] made of the given trees. *)
Fixpoint gen (fuel : nat) (ts : list entry) (n : nat) (w : list T) (d : Z)
  : list (list T * Z) :=
  match n with
  | O => [(w, d)]
  | _ =>
      match fuel with
      | O => []
      | S fuel' =>
          match ts with
          | [] => []
          | t :: ts' =>
              (if (e_size t <=? n)%nat
               then gen fuel' ts (n - e_size t) (vmul (e_aw t) w) (e_dens t * d) else [])
              ++ gen fuel' ts' n w d
          end
      end
  end.

Definition forests_of (rows : list (list T)) (ts : list entry) (n : nat) :=
  gen (n + length ts) ts n (repeat (o_one o) (length rows)) 1.

(** The trees of size at most [n]. *)
Fixpoint canon (rows : list (list T)) (n : nat) : list entry :=
  match n with
  | O => []
  | S n' => let ts := canon rows n' in ts ++ map (mk_entry rows n) (forests_of rows ts n')
  end.

(** The densities as integers. *)
Fixpoint zdensity (t : tree) : Z :=
  match t with
  | Node l => (Z.of_nat (size t) * fold_right (fun c n => (zdensity c * n)%Z) 1%Z l)%Z
  end.

Definition forest_size (l : list tree) : nat :=
  fold_right (fun c n => (size c + n)%nat) 0%nat l.
Definition forest_zd (l : list tree) : Z :=
  fold_right (fun c n => (zdensity c * n)%Z) 1%Z l.

Lemma size_pos t : (1 <= size t)%nat.
Proof. destruct t; cbn; lia. Qed.

(** The conditions of order [p] for the weights [b], and of order [q] for [b']. *)
Definition check_order (ok : T -> Z -> bool) (rows : list (list T)) (b b' : list T) (p q : nat)
  : bool :=
  let ts := canon rows (p - 1) in
  forallb (fun e => ok (dot b (e_w e)) (e_dens e) &&
                    ((q <? e_size e)%nat || ok (dot b' (e_w e)) (e_dens e))) ts &&
  forallb (fun wd => ok (dot b (fst wd)) (Z.of_nat p * snd wd)%Z &&
                     ((q <? p)%nat || ok (dot b' (fst wd)) (Z.of_nat p * snd wd)%Z))
    (forests_of rows ts (p - 1)).

(** Comparison with the computation over the real numbers. *)
Variable rel : T -> R -> Prop.
Definition compatible : Prop :=
  rel (o_zero o) 0%R /\ rel (o_one o) 1%R /\
  (forall x y a b, rel x a -> rel y b -> rel (o_add o x y) (a + b)%R) /\
  (forall x y a b, rel x a -> rel y b -> rel (o_mul o x y) (a * b)%R).
End Generic.

Definition real_ops : ops R := {| o_zero := 0%R; o_one := 1%R; o_add := Rplus; o_mul := Rmult |}.

Section Relation.
Context {T : Type} (o : ops T) (rel : T -> R -> Prop) (C : compatible o rel).

Lemma rel_dot x y a b : Forall2 rel x a -> Forall2 rel y b ->
  rel (dot o x y) (dot real_ops a b).
Proof.
  destruct C as (C0 & C1 & CA & CM).
  intros H. revert y b. induction H; intros y' b' H'; [exact C0|].
  destruct H'; [exact C0|]. cbn. apply CA; auto.
Qed.

Lemma rel_vmul x y a b : Forall2 rel x a -> Forall2 rel y b ->
  Forall2 rel (vmul o x y) (vmul real_ops a b).
Proof.
  destruct C as (C0 & C1 & CA & CM).
  intros H. revert y b. induction H; intros y' b' H'; cbn; [constructor|].
  destruct H'; constructor; auto.
Qed.

Lemma rel_firstn n x a : Forall2 rel x a -> Forall2 rel (firstn n x) (firstn n a).
Proof. intros H. revert n. induction H; intros [|n]; cbn; constructor; auto. Qed.
Lemma rel_skipn n x a : Forall2 rel x a -> Forall2 rel (skipn n x) (skipn n a).
Proof. intros H. revert n. induction H; intros [|n]; cbn; auto. Qed.

Lemma rel_rows n i x a : Forall2 rel x a ->
  Forall2 (Forall2 rel) (rows_from n i x) (rows_from n i a).
Proof.
  revert i x a. induction n; intros i x a H; cbn; constructor.
  - now apply rel_firstn.
  - apply IHn. now apply rel_skipn.
Qed.

Lemma rel_mat m m' x a : Forall2 (Forall2 rel) m m' -> Forall2 rel x a ->
  Forall2 rel (mat o m x) (mat real_ops m' a).
Proof. intros H Hx. induction H; cbn; constructor; auto. now apply rel_dot. Qed.

Lemma rel_tree m m' t : Forall2 (Forall2 rel) m m' ->
  Forall2 rel (tree_w o m t) (tree_w real_ops m' t).
Proof.
  intros Hm. induction t as [l IH] using tree_rect'. cbn.
  induction l as [|c l IHl]; cbn.
  - destruct C as (C0 & C1 & CA & CM). clear IH.
    induction Hm; cbn; constructor; auto.
  - apply rel_vmul.
    + apply rel_mat; [assumption|]. apply IH. now left.
    + apply IHl. intros. apply IH. now right.
Qed.

(** Entry [x] stands for the tree [t]. *)
Definition stands (m' : list (list R)) (x : entry) (t : tree) : Prop :=
  e_size x = size t /\ Forall2 rel (e_aw x) (mat real_ops m' (tree_w real_ops m' t)) /\
    e_dens x = zdensity t.

Definition prod_aw (m' : list (list R)) (l : list tree) (v : list R) : list R :=
  fold_right (fun c w => vmul real_ops (mat real_ops m' (tree_w real_ops m' c)) w) v l.

Lemma vmul_swap (a b c : list R) :
  vmul real_ops a (vmul real_ops b c) = vmul real_ops b (vmul real_ops a c).
Proof.
  revert b c. induction a as [|x a IH]; intros [|y b] [|z c]; cbn; try reflexivity.
  rewrite IH. f_equal. ring.
Qed.

Lemma prod_aw_mid m' l1 t l2 v :
  prod_aw m' (l1 ++ t :: l2) v =
  vmul real_ops (mat real_ops m' (tree_w real_ops m' t)) (prod_aw m' (l1 ++ l2) v).
Proof.
  induction l1 as [|c l1 IH]; cbn; [reflexivity|].
  fold (prod_aw m' (l1 ++ t :: l2) v) (prod_aw m' (l1 ++ l2) v).
  rewrite IH. apply vmul_swap.
Qed.

Lemma prod_aw_push m' l v x :
  prod_aw m' l (vmul real_ops x v) = vmul real_ops x (prod_aw m' l v).
Proof.
  induction l as [|c l IH]; cbn; [reflexivity|].
  fold (prod_aw m' l (vmul real_ops x v)) (prod_aw m' l v). rewrite IH. apply vmul_swap.
Qed.

Lemma forest_size_mid l1 t l2 : forest_size (l1 ++ t :: l2) = (size t + forest_size (l1 ++ l2))%nat.
Proof. induction l1 as [|c l1 IH]; cbn in *; [reflexivity|]. unfold forest_size in *. rewrite IH. lia. Qed.
Lemma forest_zd_mid l1 t l2 : forest_zd (l1 ++ t :: l2) = (zdensity t * forest_zd (l1 ++ l2))%Z.
Proof. induction l1 as [|c l1 IH]; cbn in *; [reflexivity|]. unfold forest_zd in *. rewrite IH. ring. Qed.

Lemma gen_complete m' : forall fuel ts n w d W l,
  (n + length ts <= fuel)%nat -> forest_size l = n ->
  (forall t, In t l -> exists x, In x ts /\ stands m' x t) ->
  Forall2 rel w W ->
  exists w', In (w', (forest_zd l * d)%Z) (gen o fuel ts n w d) /\
    Forall2 rel w' (prod_aw m' l W).
Proof.
  induction fuel as [|fuel IH]; intros ts n w d W l Hf Hl Hts HW.
  - assert (E0 : n = 0%nat) by lia. rewrite E0 in *. destruct l as [|c l].
    + exists w. cbn [forest_zd fold_right]. rewrite Z.mul_1_l. cbn. auto.
    + cbn in Hl. pose proof (size_pos c). lia.
  - destruct n as [|n].
    + destruct l as [|c l].
      * exists w. cbn [forest_zd fold_right]. rewrite Z.mul_1_l. cbn. auto.
      * cbn in Hl. pose proof (size_pos c). lia.
    + cbn [gen]. destruct ts as [|x ts].
      { destruct l as [|c l]; [cbn in Hl; lia|].
        destruct (Hts c (or_introl eq_refl)) as (? & [] & _). }
      (* is the first entry used? *)
      assert (dec : (exists t, In t l /\ stands m' x t) \/
                    (forall t, In t l -> exists x', In x' ts /\ stands m' x' t)).
      { clear -Hts. induction l as [|c l IHl]; [right; intros ? []|].
        destruct IHl as [(t & Ht & Hs)|Hn]; [intros; apply Hts; now right| |].
        - left. exists t. split; [now right|assumption].
        - destruct (Hts c (or_introl eq_refl)) as (x' & [->|Hin] & Hs).
          + left. exists c. split; [now left|assumption].
          + right. intros t [<-|Ht]; [eauto|auto]. }
      destruct dec as [(t & Ht & Hs)|Hn].
      * apply in_split in Ht. destruct Ht as (l1 & l2 & ->).
        pose proof Hs as (S1 & S2 & S3). rewrite forest_size_mid in Hl.
        pose proof (size_pos t).
        destruct (IH (x :: ts) (S n - e_size x)%nat (vmul o (e_aw x) w) (e_dens x * d)%Z
                    (vmul real_ops (mat real_ops m' (tree_w real_ops m' t)) W) (l1 ++ l2))
          as (w' & I1 & I2).
        -- cbn [length] in *. lia.
        -- lia.
        -- intros t' Ht'. apply Hts. rewrite in_app_iff in *. cbn. tauto.
        -- now apply rel_vmul.
        -- exists w'. split.
           ++ apply in_or_app. left. replace (e_size x <=? S n)%nat with true
                by (symmetry; apply Nat.leb_le; lia).
              rewrite forest_zd_mid.
              replace (zdensity t * forest_zd (l1 ++ l2) * d)%Z
                with (forest_zd (l1 ++ l2) * (e_dens x * d))%Z by (rewrite S3; ring).
              exact I1.
           ++ rewrite prod_aw_mid. rewrite <- prod_aw_push. exact I2.
      * destruct (IH ts (S n) w d W l) as (w' & I1 & I2); [cbn [length] in *; lia|assumption|assumption|assumption|].
        exists w'. split; [apply in_or_app; now right|assumption].
Qed.

Lemma forests_complete m m' ts n l : Forall2 (Forall2 rel) m m' ->
  forest_size l = n -> (forall t, In t l -> exists x, In x ts /\ stands m' x t) ->
  exists w, In (w, forest_zd l) (forests_of o m ts n) /\
    Forall2 rel w (tree_w real_ops m' (Node l)).
Proof.
  intros Hm Hl Hts.
  destruct (gen_complete m' (n + length ts) ts n (repeat (o_one o) (length m)) 1
              (repeat 1%R (length m')) l) as (w & I1 & I2); [lia|assumption|assumption| |].
  - destruct C as (C0 & C1 & CA & CM). clear -Hm C1. induction Hm; cbn; constructor; auto.
  - rewrite Z.mul_1_r in I1. exists w. split; [exact I1|exact I2].
Qed.

Lemma child_size l t : In t l -> (size t <= forest_size l)%nat.
Proof.
  induction l as [|c l IH]; [intros []|]. intros [->|H]; cbn; fold (forest_size l); [lia|].
  specialize (IH H). lia.
Qed.

Lemma canon_complete m m' : Forall2 (Forall2 rel) m m' ->
  forall n t, (size t <= n)%nat ->
  exists x, In x (canon o m n) /\ stands m' x t /\
    Forall2 rel (e_w x) (tree_w real_ops m' t).
Proof.
  intros Hm. induction n as [|n IH]; intros t Ht; [pose proof (size_pos t); lia|].
  cbn [canon]. destruct (Nat.eq_dec (size t) (S n)) as [E|E].
  - destruct t as [l]. cbn in E. fold (forest_size l) in E. injection E as E.
    destruct (forests_complete m m' (canon o m n) n l Hm E) as (w & I1 & I2).
    { intros t' Ht'. pose proof (child_size l t' Ht').
      destruct (IH t' ltac:(lia)) as (x & X1 & X2 & _). eauto. }
    exists (mk_entry o m (S n) (w, forest_zd l)). split; [|split].
    + apply in_or_app. right. apply in_map. exact I1.
    + split; [cbn; fold (forest_size l); lia|]. split.
      * cbn [mk_entry e_aw fst]. now apply rel_mat.
      * cbn [mk_entry e_dens snd zdensity]. fold (forest_zd l).
        replace (size (Node l)) with (S n); [reflexivity|]. cbn. fold (forest_size l). lia.
    + exact I2.
  - destruct (IH t ltac:(lia)) as (x & X1 & X2). exists x. split; [|assumption].
    apply in_or_app. now left.
Qed.

Lemma check_order_sound ok m m' b b' p q : Forall2 (Forall2 rel) m m' ->
  check_order o ok m b b' p q = true -> (q <= p)%nat ->
  forall t, (size t <= p)%nat ->
  exists w, Forall2 rel w (tree_w real_ops m' t) /\ ok (dot o b w) (zdensity t) = true /\
    ((size t <= q)%nat -> ok (dot o b' w) (zdensity t) = true).
Proof.
  intros Hm H Hq t Ht. unfold check_order in H. apply andb_prop in H. destruct H as [H1 H2].
  rewrite forallb_forall in H1, H2.
  destruct (Nat.eq_dec (size t) p) as [E|E].
  - destruct t as [l]. assert (FS : forest_size l = (p - 1)%nat).
    { cbn in E. fold (forest_size l) in E. lia. }
    destruct (forests_complete m m' (canon o m (p - 1)) (p - 1) l Hm FS) as (w & I1 & I2).
    { intros t' Ht'. pose proof (child_size l t' Ht').
      destruct (canon_complete m m' Hm (p - 1) t' ltac:(lia)) as (x & X1 & X2 & _). eauto. }
    specialize (H2 _ I1). cbn [fst snd] in H2. apply andb_prop in H2. destruct H2 as [H2 H3].
    assert (Z : zdensity (Node l) = (Z.of_nat p * forest_zd l)%Z).
    { rewrite <- E. reflexivity. }
    rewrite Z. exists w. split; [assumption|]. split; [assumption|]. intros Hs.
    apply orb_prop in H3. destruct H3 as [H3|H3]; [|assumption].
    apply Nat.ltb_lt in H3. lia.
  - destruct (canon_complete m m' Hm (p - 1) t ltac:(lia)) as (x & X1 & (S1 & S2 & S3) & X3).
    specialize (H1 _ X1). cbv beta in H1. apply andb_prop in H1. destruct H1 as [H1 H3].
    rewrite S3 in *. exists (e_w x). split; [assumption|]. split; [assumption|]. intros Hs.
    apply orb_prop in H3. destruct H3 as [H3|H3]; [|assumption].
    apply Nat.ltb_lt in H3. lia.
Qed.
End Relation.

(** The list computation over the reals is the specification's. *)
Section Reals.
Variable m : method.
Hypothesis wf : well_formed m.
Local Open Scope R_scope.

Lemma sumR_ext n f g : (forall i, (i < n)%nat -> f i = g i) -> sumR n f = sumR n g.
Proof. induction n; intros H; cbn; [reflexivity|]. rewrite IHn, H; auto. Qed.

Lemma sumR_S n f : sumR (S n) f = f 0%nat + sumR n (fun i => f (S i)).
Proof. induction n; cbn in *; [lra|]. rewrite IHn. lra. Qed.

Lemma dot_sum x y n : length x = n -> (n <= length y)%nat ->
  dot real_ops x y = sumR n (fun i => nth i x 0 * nth i y 0).
Proof.
  revert y n. induction x as [|a x IH]; intros y n Hn Hy; cbn in Hn; subst n.
  - reflexivity.
  - destruct y as [|b y]; cbn in Hy; [lia|].
    rewrite sumR_S. cbn [dot real_ops o_add o_mul nth]. rewrite (IH y (length x)); auto. lia.
Qed.

Lemma nth_skipn {A} k i (l : list A) d : nth i (skipn k l) d = nth (k + i) l d.
Proof.
  revert l. induction k; intros l; [reflexivity|].
  destruct l; cbn; [now destruct i|]. apply IHk.
Qed.

Lemma nth_firstn {A} k i (l : list A) d : (i < k)%nat -> nth i (firstn k l) d = nth i l d.
Proof.
  revert i l. induction k; intros i l H; [lia|].
  destruct l; [now destruct i|]. destruct i; cbn; [reflexivity|]. apply IHk. lia.
Qed.

Lemma skipn_skipn' {A} k i (l : list A) : skipn k (skipn i l) = skipn (i + k) l.
Proof.
  revert l. induction i; intros l; [reflexivity|].
  destruct l; cbn; [now rewrite skipn_nil|]. apply IHi.
Qed.

(** Position of row [i]. *)
Lemma tri_S i : (S i * (S i - 1) / 2 = i * (i - 1) / 2 + i)%nat.
Proof.
  replace (S i * (S i - 1))%nat with (i * (i - 1) + i * 2)%nat by (destruct i; cbn; lia).
  rewrite Nat.div_add by lia. reflexivity.
Qed.

Lemma rows_spec n i0 (a : list R) k : (k < n)%nat ->
  nth k (rows_from n i0 a) [] =
  firstn (i0 + k) (skipn ((i0 + k) * (i0 + k - 1) / 2 - i0 * (i0 - 1) / 2) a).
Proof.
  revert i0 a k. induction n; intros i0 a k H; [lia|].
  destruct k; cbn [rows_from nth].
  - rewrite Nat.add_0_r, Nat.sub_diag. reflexivity.
  - rewrite IHn by lia. replace (S i0 + k)%nat with (i0 + S k)%nat by lia.
    f_equal. rewrite tri_S.
    assert (E : (i0 * (i0 - 1) / 2 + i0 <= (i0 + S k) * (i0 + S k - 1) / 2)%nat).
    { clear. induction k.
      - replace (i0 + 1)%nat with (S i0) by lia. rewrite tri_S. lia.
      - replace (i0 + S (S k))%nat with (S (i0 + S k)) by lia. rewrite tri_S. lia. }
    rewrite skipn_skipn'. f_equal. lia.
Qed.

Lemma rows_length {A} n i0 (a : list A) : length (rows_from n i0 a) = n.
Proof. revert i0 a. induction n; intros; cbn; auto. Qed.

Definition rows := rows_from (stages m) 0 (a_coeffs m).

Lemma row_length k : (k < stages m)%nat -> length (nth k rows []) = k.
Proof.
  intros H. unfold rows. rewrite rows_spec by assumption. cbn [Nat.add].
  rewrite firstn_length, skipn_length. destruct wf as (_ & W & _). rewrite W.
  rewrite Nat.sub_0_r.
  assert (k * (k - 1) / 2 + k <= stages m * (stages m - 1) / 2)%nat; [|lia].
  clear -H. induction H.
  - rewrite tri_S. lia.
  - rewrite (tri_S m0). lia.
Qed.

Lemma row_nth k j : (k < stages m)%nat -> (j < k)%nat ->
  nth j (nth k rows []) 0 = coeff_a m k j.
Proof.
  intros H Hj. unfold rows. rewrite rows_spec by assumption. cbn [Nat.add].
  rewrite nth_firstn by lia. rewrite nth_skipn, Nat.sub_0_r. reflexivity.
Qed.

Lemma mat_length v : length (mat real_ops rows v) = stages m.
Proof. unfold mat. rewrite map_length. apply rows_length. Qed.

Lemma mat_nth v k : (k < stages m)%nat -> length v = stages m ->
  nth k (mat real_ops rows v) 0 = sumR k (fun j => coeff_a m k j * nth j v 0).
Proof.
  intros H HV. unfold mat.
  rewrite nth_indep with (d' := (fun r => dot real_ops r v) []).
  2: { rewrite map_length. unfold rows. rewrite rows_length. exact H. }
  rewrite (map_nth (fun r => dot real_ops r v)).
  rewrite (dot_sum _ _ k).
  - apply sumR_ext. intros i Hi. now rewrite row_nth.
  - now apply row_length.
  - lia.
Qed.

Lemma vmul_length (x y : list R) n : length x = n -> length y = n ->
  length (vmul real_ops x y) = n.
Proof.
  revert y n. induction x; intros y n Hx Hy; cbn in *; subst; [reflexivity|].
  destruct y; cbn in *; [lia|]. f_equal. apply IHx; lia.
Qed.

Lemma vmul_nth (x y : list R) n k : length x = n -> length y = n -> (k < n)%nat ->
  nth k (vmul real_ops x y) 0 = nth k x 0 * nth k y 0.
Proof.
  revert y n k. induction x; intros y n k Hx Hy Hk; cbn in *; subst; [lia|].
  destruct y; cbn in *; [lia|]. destruct k; [reflexivity|]. apply (IHx y (length x)); lia.
Qed.

Lemma tree_w_spec t :
  length (tree_w real_ops rows t) = stages m /\
  forall k, (k < stages m)%nat -> nth k (tree_w real_ops rows t) 0 = stage_weight m t k.
Proof.
  assert (HR : length rows = stages m) by apply rows_length.
  induction t as [l IH] using tree_rect'. cbn.
  induction l as [|c l IHl]; cbn.
  - rewrite HR. rewrite repeat_length. split; [reflexivity|]. intros k Hk.
    clear -Hk. revert k Hk. induction (stages m); intros [|k] H; cbn; try lia; auto.
    apply IHn. lia.
  - destruct IHl as [L1 L2]; [intros; apply IH; now right|].
    destruct (IH c (or_introl eq_refl)) as [W1 W2].
    pose proof (mat_length (tree_w real_ops rows c)) as ML.
    split; [now apply vmul_length|].
    intros k Hk. rewrite (vmul_nth _ _ (stages m)) by assumption.
    rewrite L2 by assumption. f_equal.
    rewrite mat_nth by assumption. apply sumR_ext. intros j Hj. rewrite W2; [reflexivity|lia].
Qed.

Lemma density_z t : INR (density t) = IZR (zdensity t).
Proof.
  rewrite INR_IZR_INZ. f_equal.
  induction t as [l IH] using tree_rect'.
  cbn [density zdensity].
  rewrite Nat2Z.inj_mul. f_equal.
  induction l as [|c l IHl]; cbn [fold_right]; [reflexivity|].
  rewrite Nat2Z.inj_mul. rewrite IH by now left. rewrite IHl; [reflexivity|].
  intros; apply IH; now right.
Qed.

Lemma density_pos t : (1 <= density t)%nat.
Proof.
  induction t as [l IH] using tree_rect'. cbn [density].
  assert (1 <= fold_right (fun c n => (density c * n)%nat) 1%nat l)%nat.
  { induction l as [|c l IHl]; cbn [fold_right]; [lia|].
    pose proof (IH c (or_introl eq_refl)).
    assert (1 <= fold_right (fun c n => (density c * n)%nat) 1%nat l)%nat
      by (apply IHl; intros; apply IH; now right). nia. }
  pose proof (size_pos (Node l)). nia.
Qed.

Lemma weight_spec (b : list R) t : length b = stages m ->
  weight m (fun i => nth i b 0) t = dot real_ops b (tree_w real_ops rows t).
Proof.
  intros Hb. destruct (tree_w_spec t) as [L W].
  rewrite (dot_sum _ _ (stages m)) by lia.
  apply sumR_ext. intros i Hi. now rewrite W.
Qed.
End Reals.

(** * Exact arithmetic in Q(sqrt 6), with one denominator *)
Definition z6 : Type := (Z * Z * positive)%type.
Definition z6_rel (x : z6) (r : R) : Prop :=
  let '(a, b, e) := x in (r * IZR (Zpos e) = IZR a + IZR b * sqrt 6)%R.
Definition z6_null (x : z6) : bool := let '(a, b, _) := x in ((a =? 0) && (b =? 0))%Z.
Definition z6_red (a b : Z) (d : positive) : z6 :=
  let g := Z.gcd (Z.gcd (Zpos d) a) b in
  if (g =? 1)%Z then (a, b, d) else (a / g, b / g, Z.to_pos (Zpos d / g))%Z.
Definition z6_add (x y : z6) : z6 :=
  if z6_null x then y else if z6_null y then x else
  let '(a, b, e) := x in let '(c, d, f) := y in
  if (e =? f)%positive then (a + c, b + d, e)%Z
  else let g := Z.gcd (Zpos e) (Zpos f) in
       let e' := (Zpos e / g)%Z in let f' := (Zpos f / g)%Z in
       (a * f' + c * e', b * f' + d * e', Z.to_pos (Zpos e * f'))%Z.
Definition z6_mul (x y : z6) : z6 :=
  if z6_null x then x else if z6_null y then y else
  let '(a, b, e) := x in let '(c, d, f) := y in
  z6_red (a * c + 6 * (b * d)) (a * d + b * c) (e * f).
Definition z6_ops : ops z6 :=
  {| o_zero := (0, 0, 1%positive)%Z; o_one := (1, 0, 1%positive)%Z;
     o_add := z6_add; o_mul := z6_mul |}.
Definition z6_of (x : q6) : z6 :=
  let '(p, q) := x in
  z6_red (Qnum p * Zpos (Qden q)) (Qnum q * Zpos (Qden p)) (Qden p * Qden q).

(** x = 1/d *)
Definition z6_ok (x : z6) (d : Z) : bool :=
  let '(a, b, e) := x in ((a * d =? Zpos e) && (b =? 0))%Z.

Lemma posR p : (0 < IZR (Zpos p))%R. Proof. apply IZR_lt. lia. Qed.

Lemma z6_null_rel x r : z6_null x = true -> z6_rel x r -> r = 0%R.
Proof.
  destruct x as [[a b] e]. unfold z6_null, z6_rel. intros H E. apply andb_prop in H.
  destruct H as [Ha Hb]. apply Z.eqb_eq in Ha, Hb. subst a b.
  pose proof (posR e) as DP. rewrite Rmult_0_l, Rplus_0_r in E.
  apply Rmult_eq_reg_r with (IZR (Zpos e)); lra.
Qed.

Lemma div_mul x g : (0 < g)%Z -> (g | x)%Z -> IZR x = (IZR (x / g) * IZR g)%R.
Proof.
  intros Hg [k ->]. rewrite Z.div_mul by lia. apply mult_IZR.
Qed.

Lemma gcd_pos d x : (0 < Z.gcd (Zpos d) x)%Z.
Proof.
  pose proof (Z.gcd_nonneg (Zpos d) x) as N.
  destruct (Z.eq_dec (Z.gcd (Zpos d) x) 0) as [E|]; [|lia].
  apply Z.gcd_eq_0_l in E. discriminate.
Qed.

Lemma div_pos_pos e g : (0 < g)%Z -> (g | Zpos e)%Z -> (0 < Zpos e / g)%Z.
Proof.
  intros Hg [k Hk]. rewrite Hk, Z.div_mul by lia. nia.
Qed.

Lemma z6_red_rel a b d r : z6_rel (a, b, d) r -> z6_rel (z6_red a b d) r.
Proof.
  unfold z6_red. set (g := Z.gcd (Z.gcd (Zpos d) a) b).
  destruct (g =? 1)%Z; [trivial|]. intros H.
  assert (Hg : (0 < g)%Z).
  { pose proof (gcd_pos d a) as P. unfold g. destruct (Z.gcd (Zpos d) a) eqn:E; try lia.
    apply gcd_pos. }
  assert (G1 : (g | Z.gcd (Zpos d) a)%Z) by apply Z.gcd_divide_l.
  assert (Gb : (g | b)%Z) by apply Z.gcd_divide_r.
  assert (Gd : (g | Zpos d)%Z) by (eapply Z.divide_trans; [exact G1|apply Z.gcd_divide_l]).
  assert (Ga : (g | a)%Z) by (eapply Z.divide_trans; [exact G1|apply Z.gcd_divide_r]).
  pose proof (div_pos_pos d g Hg Gd) as Hd.
  unfold z6_rel in *. rewrite Z2Pos.id by assumption.
  rewrite (div_mul a g Hg Ga), (div_mul b g Hg Gb), (div_mul (Zpos d) g Hg Gd) in H.
  apply IZR_lt in Hg. apply Rmult_eq_reg_r with (IZR g); lra.
Qed.

Local Open Scope R_scope.
Lemma z6_compatible : compatible z6_ops z6_rel.
Proof.
  unfold compatible. cbn [z6_ops o_zero o_one o_add o_mul]. repeat split.
  - cbn. lra.
  - cbn. lra.
  - intros x y r s Hx Hy. unfold z6_add.
    destruct (z6_null x) eqn:Nx.
    { rewrite (z6_null_rel x r Nx Hx), Rplus_0_l. assumption. }
    destruct (z6_null y) eqn:Ny.
    { rewrite (z6_null_rel y s Ny Hy), Rplus_0_r. assumption. }
    destruct x as [[a b] e], y as [[c d] f]. destruct (Pos.eqb_spec e f) as [->|Ne];
      unfold z6_rel in *.
    + rewrite !plus_IZR. lra.
    + set (g := Z.gcd (Zpos e) (Zpos f)).
      assert (Hg : (0 < g)%Z) by apply gcd_pos.
      assert (Ge : (g | Zpos e)%Z) by apply Z.gcd_divide_l.
      assert (Gf : (g | Zpos f)%Z) by apply Z.gcd_divide_r.
      pose proof (div_pos_pos e g Hg Ge). pose proof (div_pos_pos f g Hg Gf).
      rewrite Z2Pos.id by nia. rewrite !plus_IZR, !mult_IZR.
      pose proof (div_mul _ g Hg Ge) as Ee. pose proof (div_mul _ g Hg Gf) as Ef.
      apply IZR_lt in Hg.
      set (e' := IZR (Zpos e / g)) in *. set (f' := IZR (Zpos f / g)) in *.
      set (E := IZR (Zpos e)) in *. set (F := IZR (Zpos f)) in *. set (G := IZR g) in *.
      assert (EF : E * f' = F * e') by (rewrite Ee, Ef; ring).
      transitivity ((r * E) * f' + s * (E * f')); [ring|]. rewrite EF.
      transitivity ((r * E) * f' + (s * F) * e'); [ring|].
      rewrite Hx, Hy. ring.
  - intros x y r s Hx Hy. unfold z6_mul.
    destruct (z6_null x) eqn:Nx.
    { pose proof (z6_null_rel x r Nx Hx) as ->. rewrite Rmult_0_l. assumption. }
    destruct (z6_null y) eqn:Ny.
    { pose proof (z6_null_rel y s Ny Hy) as ->. rewrite Rmult_0_r. assumption. }
    destruct x as [[a b] e], y as [[c d] f]. apply z6_red_rel. unfold z6_rel in *.
    rewrite Pos2Z.inj_mul, !plus_IZR, !mult_IZR.
    transitivity ((r * IZR (Zpos e)) * (s * IZR (Zpos f))); [ring|]. rewrite Hx, Hy.
    assert (S6 : (sqrt 6 * sqrt 6 = 6)%R) by (apply sqrt_sqrt; lra).
    transitivity (IZR a * IZR c + IZR b * IZR d * (sqrt 6 * sqrt 6)
                  + (IZR a * IZR d + IZR b * IZR c) * sqrt 6)%R; [ring|].
    rewrite S6. ring.
Qed.

Lemma z6_of_rel l : Forall2 z6_rel (map z6_of l) (map q6_real l).
Proof.
  induction l as [|[p q] l IHl]; constructor; [|assumption].
  apply z6_red_rel. unfold z6_rel, q6_real, Q2R. cbn [fst snd].
  rewrite Pos2Z.inj_mul, !mult_IZR. pose proof (posR (Qden p)). pose proof (posR (Qden q)).
  field. lra.
Qed.

Lemma z6_ok_sound x t r : z6_rel x r -> z6_ok x (zdensity t) = true ->
  Rabs (r - 1 / INR (density t)) <= 0.
Proof.
  destruct x as [[a b] e]. unfold z6_rel, z6_ok. intros E OK. apply andb_prop in OK.
  destruct OK as [O1 O2]. apply Z.eqb_eq in O1, O2. subst b.
  apply (f_equal IZR) in O1. rewrite mult_IZR, <- density_z in O1.
  assert (DP : 0 < INR (density t)).
  { apply lt_0_INR. pose proof (density_pos t). lia. }
  pose proof (posR e) as PP.
  replace (r - 1 / INR (density t)) with 0; [rewrite Rabs_R0; lra|].
  apply Rmult_eq_reg_r with (IZR (Zpos e) * INR (density t)); [|nra].
  replace ((r - 1 / INR (density t)) * (IZR (Zpos e) * INR (density t)))
    with (r * IZR (Zpos e) * INR (density t) - IZR (Zpos e)) by (field; lra).
  rewrite E, <- O1. ring.
Qed.
Local Close Scope R_scope.

(** * Interval arithmetic with 80 fractional bits: centre and radius *)
Definition bits : Z := 80.
Definition scale : Z := Z.pow 2 bits.
Definition iv : Type := (Z * Z)%type.
Definition iv_rel (x : iv) (r : R) : Prop :=
  (Rabs (r * IZR scale - IZR (fst x)) <= IZR (snd x))%R.
Definition iv_null (x : iv) : bool := ((fst x =? 0) && (snd x =? 0))%Z.
Definition iv_of_Q (q : Q) : iv :=
  if (Qnum q =? 0)%Z then (0, 0)%Z else ((Qnum q * scale / Zpos (Qden q))%Z, 1%Z).
Definition iv_mul (x y : iv) : iv :=
  if iv_null x then (0, 0)%Z else if iv_null y then (0, 0)%Z else
  let '(a, u) := x in let '(c, v) := y in
  (Z.shiftr (a * c) bits, Z.shiftr (Z.abs a * v + Z.abs c * u + u * v) bits + 2)%Z.
Definition iv_ops : ops iv :=
  {| o_zero := (0, 0)%Z; o_one := (scale, 0)%Z;
     o_add := fun x y => (fst x + fst y, snd x + snd y)%Z;
     o_mul := iv_mul |}.

(** |x - 1/d| <= 1/10^17, i.e. |d*x - 1| <= d/10^17 *)
Definition iv_ok (x : iv) (d : Z) : bool :=
  ((1 <=? d) && ((Z.abs (d * fst x - scale) + d * snd x) * 10 ^ 17 <=? d * scale))%Z.

Lemma scale_pos : (0 < scale)%Z. Proof. reflexivity. Qed.
Lemma scale_posR : (0 < IZR scale)%R. Proof. apply IZR_lt, scale_pos. Qed.
Lemma shift_scale z : Z.shiftr z bits = (z / scale)%Z.
Proof. apply Z.shiftr_div_pow2. discriminate. Qed.
Global Opaque scale bits.

Lemma shift_near z :
  (IZR (Z.shiftr z bits) * IZR scale <= IZR z <= (IZR (Z.shiftr z bits) + 1) * IZR scale)%R.
Proof.
  rewrite shift_scale. rewrite <- plus_IZR, <- !mult_IZR.
  pose proof (Z.mul_div_le z scale scale_pos).
  pose proof (Z.mul_succ_div_gt z scale scale_pos). split; apply IZR_le; lia.
Qed.

Lemma iv_null_rel x r : iv_null x = true -> iv_rel x r -> r = 0%R.
Proof.
  destruct x as [a u]. unfold iv_null, iv_rel. cbn [fst snd]. intros H E. apply andb_prop in H.
  destruct H as [Ha Hb]. apply Z.eqb_eq in Ha, Hb. subst a u.
  pose proof scale_posR. pose proof (Rabs_pos (r * IZR scale - 0)) as P.
  assert (Z0 : Rabs (r * IZR scale - 0) = 0%R) by lra.
  destruct (Req_dec (r * IZR scale - 0) 0) as [Z1|Z1]; [|apply Rabs_no_R0 in Z1; contradiction].
  apply Rmult_eq_reg_r with (IZR scale); lra.
Qed.

Lemma iv_compatible : compatible iv_ops iv_rel.
Proof.
  unfold compatible. cbn [iv_ops o_zero o_one o_add o_mul]. pose proof scale_posR as SP.
  repeat split.
  - unfold iv_rel; cbn. replace (0 * IZR scale - 0)%R with 0%R by lra. rewrite Rabs_R0. lra.
  - unfold iv_rel; cbn. replace (1 * IZR scale - IZR scale)%R with 0%R by lra.
    rewrite Rabs_R0. lra.
  - intros [a u] [c v] r s Hx Hy. unfold iv_rel in *. cbn [fst snd] in *.
    rewrite !plus_IZR.
    replace ((r + s) * IZR scale - (IZR a + IZR c))%R
      with ((r * IZR scale - IZR a) + (s * IZR scale - IZR c))%R by ring.
    eapply Rle_trans; [apply Rabs_triang|]. lra.
  - intros x y r s Hx Hy. unfold iv_mul.
    destruct (iv_null x) eqn:Nx.
    { rewrite (iv_null_rel x r Nx Hx). unfold iv_rel; cbn.
      replace (0 * s * IZR scale - 0)%R with 0%R by lra. rewrite Rabs_R0. lra. }
    destruct (iv_null y) eqn:Ny.
    { rewrite (iv_null_rel y s Ny Hy). unfold iv_rel; cbn.
      replace (r * 0 * IZR scale - 0)%R with 0%R by lra. rewrite Rabs_R0. lra. }
    destruct x as [a u], y as [c v]. unfold iv_rel in *. cbn [fst snd] in *.
    pose proof (shift_near (a * c)) as N1.
    pose proof (shift_near (Z.abs a * v + Z.abs c * u + u * v)) as N2.
    rewrite !plus_IZR, !mult_IZR, !abs_IZR in N2. rewrite mult_IZR in N1.
    rewrite plus_IZR.
    set (P := IZR (Z.shiftr (a * c) bits)) in *.
    set (Q := IZR (Z.shiftr (Z.abs a * v + Z.abs c * u + u * v) bits)) in *.
    set (S := IZR scale) in *.
    set (e := (r * S - IZR a)%R) in *. set (f := (s * S - IZR c)%R) in *.
    assert (M : (Rabs (r * S * (s * S) - IZR a * IZR c) <=
                 Rabs (IZR a) * IZR v + Rabs (IZR c) * IZR u + IZR u * IZR v)%R).
    { replace (r * S * (s * S) - IZR a * IZR c)%R
        with (IZR a * f + IZR c * e + e * f)%R by (unfold e, f; ring).
      eapply Rle_trans; [apply Rabs_triang|]. apply Rplus_le_compat.
      - eapply Rle_trans; [apply Rabs_triang|]. rewrite !Rabs_mult.
        apply Rplus_le_compat; apply Rmult_le_compat_l; auto using Rabs_pos.
      - rewrite Rabs_mult. apply Rmult_le_compat; auto using Rabs_pos. }
    apply Rmult_le_reg_r with S; [assumption|].
    rewrite <- (Rabs_pos_eq S) at 2 by lra. rewrite <- Rabs_mult.
    replace ((r * s * S - P) * S)%R
      with ((r * S * (s * S) - IZR a * IZR c) + (IZR a * IZR c - P * S))%R by ring.
    eapply Rle_trans; [apply Rabs_triang|].
    assert (B : (Rabs (IZR a * IZR c - P * S) <= S)%R) by (apply Rabs_le; lra).
    change (IZR 2) with 2%R. lra.
Qed.

Lemma iv_of_Q_rel q : iv_rel (iv_of_Q q) (Q2R q).
Proof.
  unfold iv_rel, iv_of_Q, Q2R. destruct (Z.eqb_spec (Qnum q) 0) as [->|Hn]; cbn [fst snd].
  { replace (0 * / IZR (Zpos (Qden q)) * IZR scale - 0)%R with 0%R by lra.
    rewrite Rabs_R0. lra. }
  assert (DP : (0 < IZR (Zpos (Qden q)))%R) by (apply IZR_lt; lia).
  pose proof (Z.mul_div_le (Qnum q * scale) (Zpos (Qden q)) ltac:(lia)) as L.
  pose proof (Z.mul_succ_div_gt (Qnum q * scale) (Zpos (Qden q)) ltac:(lia)) as U.
  assert (U' : (Qnum q * scale <= Zpos (Qden q) * (Qnum q * scale / Zpos (Qden q) + 1))%Z) by lia.
  apply IZR_le in L, U'. rewrite !mult_IZR in L, U'. rewrite plus_IZR in U'.
  set (F := IZR (Qnum q * scale / Zpos (Qden q))) in *.
  assert (E : (IZR (Qnum q) * / IZR (Zpos (Qden q)) * IZR scale * IZR (Zpos (Qden q))
              = IZR (Qnum q) * IZR scale)%R) by (field; lra).
  set (X := (IZR (Qnum q) * / IZR (Zpos (Qden q)) * IZR scale)%R) in *.
  assert (F <= X)%R by (apply Rmult_le_reg_r with (IZR (Zpos (Qden q))); lra).
  assert (X <= F + 1)%R by (apply Rmult_le_reg_r with (IZR (Zpos (Qden q))); lra).
  apply Rabs_le. lra.
Qed.

Lemma iv_ok_sound x t' r : iv_rel x r -> iv_ok x (zdensity t') = true ->
  (Rabs (r - 1 / INR (density t')) <= / 10 ^ 17)%R.
Proof.
  intros E OK. unfold iv_rel in E. unfold iv_ok in OK. apply andb_prop in OK.
  destruct OK as [O1 O2].
  apply Z.leb_le in O1, O2. rewrite density_z.
  set (d := zdensity t') in *. pose proof scale_posR as SP.
  assert (DP : (1 <= IZR d)%R) by (apply IZR_le; assumption).
  apply IZR_le in O2.
  rewrite !mult_IZR, !plus_IZR, abs_IZR, minus_IZR, !mult_IZR in O2.
  set (T := IZR (10 ^ 17)) in *.
  assert (TP : (0 < T)%R) by (apply IZR_lt; reflexivity).
  assert (ET : (10 ^ 17 = T)%R)
    by (unfold T; change 17%Z with (Z.of_nat 17); rewrite <- (pow_IZR 10 17); reflexivity).
  rewrite ET. set (S := IZR scale) in *.
  replace (r - 1 / IZR d)%R
    with ((IZR d * (r * S - IZR (fst x)) + (IZR d * IZR (fst x) - S)) * / (IZR d * S))%R
    by (field; lra).
  assert (ID : (0 < / (IZR d * S))%R) by (apply Rinv_0_lt_compat; nra).
  rewrite Rabs_mult, (Rabs_pos_eq (/ (IZR d * S))) by lra.
  apply Rmult_le_reg_r with (IZR d * S)%R; [nra|]. rewrite Rmult_assoc, Rinv_l by nra.
  rewrite Rmult_1_r.
  eapply Rle_trans; [apply Rabs_triang|]. rewrite Rabs_mult, (Rabs_pos_eq (IZR d)) by lra.
  assert (IZR d * Rabs (r * S - IZR (fst x)) <= IZR d * IZR (snd x))%R
    by (apply Rmult_le_compat_l; lra).
  apply Rmult_le_reg_r with T; [assumption|].
  replace (/ T * (IZR d * S) * T)%R with (IZR d * S)%R by (field; lra). nra.
Qed.

Global Transparent scale bits.

(** * The six tables *)
Definition all_rat (t : table) : bool :=
  forallb (fun x => Qeq_bool (snd x) 0) (t_a t ++ t_b t).

Definition weights_part {A} (t : table) (l : list A) : list A := firstn (t_stages t) l.
Definition embedded_part {A} (t : table) (l : list A) : list A :=
  firstn (t_stages t) (skipn (t_stages t) l).

Definition exact_check (t : table) (p q : nat) : bool :=
  let zs := map z6_of in
  check_order z6_ops z6_ok (rows_from (t_stages t) 0 (zs (t_a t)))
    (weights_part t (zs (t_b t))) (embedded_part t (zs (t_b t))) p q.
Definition interval_check (t : table) (p q : nat) : bool :=
  let iv := map (fun x => iv_of_Q (fst x)) in
  check_order iv_ops iv_ok (rows_from (t_stages t) 0 (iv (t_a t)))
    (weights_part t (iv (t_b t))) (embedded_part t (iv (t_b t))) p q.

Section Tables.
Variable i : integrator.
Let t := table_of i.
Let m := method_of i.
Hypothesis wf : well_formed m.
Local Open Scope R_scope.

Lemma weight_ext b b' t' : (forall k, (k < stages m)%nat -> b k = b' k) ->
  weight m b t' = weight m b' t'.
Proof. intros H. apply sumR_ext. intros k Hk. now rewrite H. Qed.

Lemma slice_weight off t' : (off + stages m <= 2 * stages m)%nat ->
  weight m (fun k => nth (off + k) (b_coeffs m) 0) t' =
  dot real_ops (firstn (stages m) (skipn off (b_coeffs m))) (tree_w real_ops (rows m) t').
Proof.
  intros H. rewrite <- weight_spec; [|assumption|].
  - apply weight_ext. intros k Hk. now rewrite nth_firstn, nth_skipn.
  - destruct wf as (_ & _ & W). rewrite firstn_length, skipn_length, W. lia.
Qed.

Lemma weights_dot t' : weight m (coeff_b m) t' =
  dot real_ops (weights_part t (b_coeffs m)) (tree_w real_ops (rows m) t').
Proof. exact (slice_weight 0 t' ltac:(lia)). Qed.
Lemma embedded_dot t' : weight m (coeff_bstar m) t' =
  dot real_ops (embedded_part t (b_coeffs m)) (tree_w real_ops (rows m) t').
Proof. exact (slice_weight (stages m) t' ltac:(lia)). Qed.

Lemma exact_check_sound p q : exact_check t p q = true -> (q <= p)%nat ->
  order_within m (coeff_b m) p 0 /\ order_within m (coeff_bstar m) q 0.
Proof.
  intros H Hq. pose proof (z6_of_rel (t_b t)) as RB.
  assert (RA : Forall2 (Forall2 z6_rel) (rows_from (t_stages t) 0 (map z6_of (t_a t)))
     (rows m)) by apply rel_rows, z6_of_rel.
  pose proof (check_order_sound _ _ z6_compatible _ _ _ _ _ _ _ RA H Hq) as CS.
  split; intros t' Ht.
  - destruct (CS t' Ht) as (w & W & OK & _). rewrite weights_dot.
    apply (z6_ok_sound _ _ _ (rel_dot _ _ z6_compatible _ _ _ _ (rel_firstn _ _ _ _ RB) W) OK).
  - destruct (CS t' ltac:(lia)) as (w & W & _ & OK). rewrite embedded_dot.
    apply (z6_ok_sound _ _ _ (rel_dot _ _ z6_compatible _ _ _ _ (rel_firstn _ _ _ _ (rel_skipn _ _ _ _ RB)) W) (OK Ht)).
Qed.

Lemma interval_check_sound p q : all_rat t = true -> interval_check t p q = true ->
  (q <= p)%nat ->
  order_within m (coeff_b m) p (/ 10 ^ 17) /\ order_within m (coeff_bstar m) q (/ 10 ^ 17).
Proof.
  intros Hrat H Hq.
  unfold all_rat in Hrat. rewrite forallb_app in Hrat. apply andb_prop in Hrat.
  destruct Hrat as [QA QB].
  assert (RR : forall l, forallb (fun x => Qeq_bool (snd x) 0) l = true ->
     Forall2 iv_rel (map (fun x => iv_of_Q (fst x)) l) (map q6_real l)).
  { induction l as [|x l IHl]; cbn [forallb map]; intros HB; constructor.
    - apply andb_prop in HB. destruct HB as [HB _]. apply Qeq_bool_eq in HB.
      apply Qeq_eqR in HB. rewrite RMicromega.Q2R_0 in HB. unfold q6_real. rewrite HB.
      rewrite Rmult_0_l, Rplus_0_r. apply iv_of_Q_rel.
    - apply andb_prop in HB. apply IHl, HB. }
  assert (RA : Forall2 (Forall2 iv_rel)
     (rows_from (t_stages t) 0 (map (fun x => iv_of_Q (fst x)) (t_a t))) (rows m))
    by apply rel_rows, RR, QA.
  pose proof (check_order_sound _ _ iv_compatible _ _ _ _ _ _ _ RA H Hq) as CS.
  split; intros t' Ht.
  - destruct (CS t' Ht) as (w & W & OK & _). rewrite weights_dot.
    apply (iv_ok_sound _ _ _ (rel_dot _ _ iv_compatible _ _ _ _ (rel_firstn _ _ _ _ (RR (t_b t) QB)) W) OK).
  - destruct (CS t' ltac:(lia)) as (w & W & _ & OK). rewrite embedded_dot.
    apply (iv_ok_sound _ _ _ (rel_dot _ _ iv_compatible _ _ _ _ (rel_firstn _ _ _ _ (rel_skipn _ _ _ _ (RR (t_b t) QB))) W) (OK Ht)).
Qed.
End Tables.

Lemma table_well_formed i : well_formed (method_of i).
Proof.
  unfold well_formed, method_of. cbn [stages a_coeffs b_coeffs]. rewrite !map_length.
  destruct i; vm_compute; repeat split; lia.
Qed.
