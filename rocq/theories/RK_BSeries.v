(** The local error of a Runge-Kutta step: expansion of the step and of the exact solution
    in rooted trees. *)
From Coq Require Import Reals Lra Psatz.
From Verif Require Import Base Prop_Model RK_Model RK_Spec RK_Check RK_Step RK_OrderSpec.
Local Open Scope R_scope.

(** Forests by total size. *)
Fixpoint forests_f (fuel n : nat) : list (list tree) :=
  match n with
  | O => [[]]
  | S n' =>
      match fuel with
      | O => []
      | S fuel' =>
          flat_map (fun k =>
            flat_map (fun ch => map (cons (Node ch)) (forests_f fuel' (n' - k)))
                     (forests_f fuel' k)) (seq 0 (S n'))
      end
  end.
Definition forests (n : nat) := forests_f n n.

Lemma flat_map_ext_in {A B} (f g : A -> list B) l :
  (forall x, In x l -> f x = g x) -> flat_map f l = flat_map g l.
Proof.
  induction l; intros H; cbn; [reflexivity|].
  rewrite H by now left. rewrite IHl; [reflexivity|]. intros; apply H; now right.
Qed.

Lemma forests_fuel : forall n fuel, (n <= fuel)%nat -> forests_f fuel n = forests n.
Proof.
  induction n as [n IH] using lt_wf_ind. intros fuel H. unfold forests.
  destruct n as [|n]; [now destruct fuel|].
  destruct fuel as [|fuel]; [lia|]. cbn [forests_f].
  apply flat_map_ext_in. intros k Hk. apply in_seq in Hk.
  rewrite (IH k), (IH (n - k)%nat) by lia.
  rewrite (IH k) by lia. rewrite (IH (n - k)%nat) by lia. reflexivity.
Qed.

Lemma forests_S n : forests (S n) =
  flat_map (fun k => flat_map (fun ch => map (cons (Node ch)) (forests (n - k))) (forests k))
           (seq 0 (S n)).
Proof.
  unfold forests at 1. cbn [forests_f]. apply flat_map_ext_in. intros k Hk.
  apply in_seq in Hk. rewrite !forests_fuel by lia. reflexivity.
Qed.

Lemma forests_size n l : In l (forests n) -> forest_size l = n.
Proof.
  revert l. induction n as [n IH] using lt_wf_ind. intros l H.
  destruct n as [|n]; [cbn in H; destruct H as [<-|[]]; reflexivity|].
  rewrite forests_S in H. apply in_flat_map in H. destruct H as (k & Hk & H).
  apply in_seq in Hk. apply in_flat_map in H. destruct H as (ch & Hc & H).
  apply in_map_iff in H. destruct H as (r & <- & Hr).
  apply IH in Hc; [|lia]. apply IH in Hr; [|lia].
  cbn. fold (forest_size r) (forest_size ch). lia.
Qed.

Section Series.
Context {St V F E : Type} (e : env St V F E) (vs : vector_space e).
Context (norm : V -> R) (nm : normed e norm).
Notation "a ⊕ b" := (vadd e a b) (at level 50, left associativity).
Notation "x ⊗ a" := (vscale e x a) (at level 40, left associativity).

(** * Finite sums over lists *)
Fixpoint lsum {A} (g : A -> V) (l : list A) : V :=
  match l with [] => vzero e | x :: l' => g x ⊕ lsum g l' end.

Lemma lsum_app {A} (g : A -> V) l l' : lsum g (l ++ l') = lsum g l ⊕ lsum g l'.
Proof.
  induction l; cbn; [now rewrite (v_zero_l e vs)|]. rewrite IHl. now rewrite (v_assoc e vs).
Qed.
Lemma lsum_ext {A} (g g' : A -> V) l : (forall x, In x l -> g x = g' x) -> lsum g l = lsum g' l.
Proof.
  induction l; intros H; cbn; [reflexivity|]. rewrite H by now left.
  rewrite IHl; [reflexivity|]. intros; apply H; now right.
Qed.
Lemma lsum_flat_map {A B} (g : B -> V) (f : A -> list B) l :
  lsum g (flat_map f l) = lsum (fun x => lsum g (f x)) l.
Proof. induction l; cbn; [reflexivity|]. now rewrite lsum_app, IHl. Qed.
Lemma lsum_map {A B} (g : B -> V) (f : A -> B) l : lsum g (map f l) = lsum (fun x => g (f x)) l.
Proof. induction l; cbn; [reflexivity|]. now rewrite IHl. Qed.
Lemma lsum_scale {A} x (g : A -> V) l : lsum (fun a => x ⊗ g a) l = x ⊗ lsum g l.
Proof.
  induction l; cbn; [now rewrite (v_scale_zero e vs)|]. now rewrite IHl, (v_scale_vadd e vs).
Qed.
Lemma lsum_add {A} (g g' : A -> V) l : lsum (fun a => g a ⊕ g' a) l = lsum g l ⊕ lsum g' l.
Proof.
  induction l; cbn; [now rewrite (v_zero e vs)|]. rewrite IHl. apply (vadd_swap e vs).
Qed.
Lemma lsum_zero {A} (l : list A) : lsum (fun _ => vzero e) l = vzero e.
Proof. induction l; cbn; [reflexivity|]. now rewrite IHl, (v_zero e vs). Qed.
Lemma lsum_swap {A B} (g : A -> B -> V) l l' :
  lsum (fun a => lsum (g a) l') l = lsum (fun b => lsum (fun a => g a b) l) l'.
Proof.
  induction l; cbn; [now rewrite lsum_zero|]. now rewrite IHl, <- lsum_add.
Qed.
Lemma lsum_seq n (g : nat -> V) : lsum g (seq 0 n) = vsum e n g.
Proof.
  induction n; [reflexivity|]. rewrite seq_S, lsum_app, IHn. cbn.
  now rewrite (v_zero e vs).
Qed.
Lemma vsum_lsum {A} n (g : nat -> A -> V) l :
  vsum e n (fun i => lsum (g i) l) = lsum (fun a => vsum e n (fun i => g i a)) l.
Proof. rewrite <- lsum_seq. rewrite lsum_swap. apply lsum_ext. intros. apply lsum_seq. Qed.

(** * Orders of magnitude *)
Definition bigO (g : R -> V) (n : nat) : Prop :=
  exists C H, 0 <= C /\ 0 < H <= 1 /\ forall h, Rabs h <= H -> norm (g h) <= C * Rabs h ^ n.

(** [g] is [m] up to terms of order [n]. *)
Definition approx (g m : R -> V) (n : nat) : Prop :=
  exists r, bigO r n /\ forall h, g h = m h ⊕ r h.

Lemma norm_zero : norm (vzero e) = 0.
Proof.
  rewrite <- (v_scale0 e vs (vzero e)), (norm_scale _ _ nm), Rabs_R0. lra.
Qed.

Lemma pow_le1 x n : 0 <= x <= 1 -> 0 <= x ^ n <= 1.
Proof.
  intros H. split; [apply pow_le; lra|].
  induction n; cbn; [lra|]. assert (0 <= x ^ n) by (apply pow_le; lra). nra.
Qed.

Lemma pow_anti x k n : 0 <= x <= 1 -> (k <= n)%nat -> x ^ n <= x ^ k.
Proof.
  intros H Hk. replace n with (k + (n - k))%nat by lia. rewrite pow_add.
  pose proof (pow_le1 x (n - k) H). pose proof (pow_le1 x k H). nra.
Qed.

Lemma bigO_zero n : bigO (fun _ => vzero e) n.
Proof.
  exists 0, 1. split; [lra|]. split; [lra|]. intros h Hh. rewrite norm_zero. lra.
Qed.

Lemma bigO_const a : bigO (fun _ => a) 0.
Proof.
  exists (norm a), 1. split; [apply (norm_pos _ _ nm)|]. split; [lra|]. intros. cbn. lra.
Qed.

Lemma bigO_weaken g k n : bigO g n -> (k <= n)%nat -> bigO g k.
Proof.
  intros (C & H & C0 & H0 & B) Hk. exists C, H. split; [assumption|]. split; [assumption|].
  intros h Hh. eapply Rle_trans; [apply B, Hh|].
  apply Rmult_le_compat_l; [assumption|]. apply pow_anti; [|assumption].
  pose proof (Rabs_pos h). lra.
Qed.

Lemma bigO_add g g' n : bigO g n -> bigO g' n -> bigO (fun h => g h ⊕ g' h) n.
Proof.
  intros (C & H & C0 & H0 & B) (C' & H' & C0' & H0' & B').
  exists (C + C'), (Rmin H H'). split; [lra|]. split.
  - unfold Rmin. destruct (Rle_dec H H'); lra.
  - intros h Hh. pose proof (Rmin_l H H'). pose proof (Rmin_r H H').
    eapply Rle_trans; [apply (norm_triangle _ _ nm)|].
    specialize (B h ltac:(lra)). specialize (B' h ltac:(lra)). lra.
Qed.

Lemma bigO_scale g n x : bigO g n -> bigO (fun h => x ⊗ g h) n.
Proof.
  intros (C & H & C0 & H0 & B). exists (Rabs x * C), H. split.
  - pose proof (Rabs_pos x). nra.
  - split; [assumption|]. intros h Hh. rewrite (norm_scale _ _ nm), Rmult_assoc.
    apply Rmult_le_compat_l; [apply Rabs_pos|]. now apply B.
Qed.

Lemma bigO_pow g n k : bigO g n -> bigO (fun h => h ^ k ⊗ g h) (k + n).
Proof.
  intros (C & H & C0 & H0 & B). exists C, H. split; [assumption|]. split; [assumption|].
  intros h Hh. rewrite (norm_scale _ _ nm), pow_add, <- RPow_abs.
  specialize (B h Hh). assert (0 <= Rabs h ^ k) by (apply pow_le, Rabs_pos). nra.
Qed.

Lemma bigO_vsum n (g : nat -> R -> V) k :
  (forall i, (i < n)%nat -> bigO (g i) k) -> bigO (fun h => vsum e n (fun i => g i h)) k.
Proof.
  induction n; intros H; cbn; [apply bigO_zero|].
  apply bigO_add; [apply IHn; intros; apply H; lia|apply H; lia].
Qed.

Lemma bigO_lsum {A} (l : list A) (g : A -> R -> V) k :
  (forall a, In a l -> bigO (g a) k) -> bigO (fun h => lsum (fun a => g a h) l) k.
Proof.
  induction l; intros H; cbn; [apply bigO_zero|].
  apply bigO_add; [apply H; now left|apply IHl; intros; apply H; now right].
Qed.

Lemma bigO_ext g g' n : (forall h, g h = g' h) -> bigO g n -> bigO g' n.
Proof.
  intros HE (C & H & C0 & H0 & B). exists C, H. repeat split; try tauto.
  intros h Hh. rewrite <- HE. now apply B.
Qed.

Lemma approx_refl g n : approx g g n.
Proof. exists (fun _ => vzero e). split; [apply bigO_zero|]. intros. now rewrite (v_zero e vs). Qed.

Lemma approx_ext g m g' m' n : (forall h, g h = g' h) -> (forall h, m h = m' h) ->
  approx g m n -> approx g' m' n.
Proof.
  intros H1 H2 (r & B & HR). exists r. split; [assumption|]. intros. now rewrite <- H1, <- H2.
Qed.

Lemma approx_trans g m l n : approx g m n -> approx m l n -> approx g l n.
Proof.
  intros (r & B & HR) (r' & B' & HR'). exists (fun h => r' h ⊕ r h).
  split; [now apply bigO_add|]. intros h. rewrite HR, HR'. now rewrite (v_assoc e vs).
Qed.

Lemma approx_weaken g m k n : approx g m n -> (k <= n)%nat -> approx g m k.
Proof. intros (r & B & HR) H. exists r. split; [eapply bigO_weaken; eauto|assumption]. Qed.

Lemma approx_add g m g' m' n : approx g m n -> approx g' m' n ->
  approx (fun h => g h ⊕ g' h) (fun h => m h ⊕ m' h) n.
Proof.
  intros (r & B & HR) (r' & B' & HR'). exists (fun h => r h ⊕ r' h).
  split; [now apply bigO_add|]. intros h. rewrite HR, HR'. apply (vadd_swap e vs).
Qed.

Lemma approx_scale g m n x : approx g m n -> approx (fun h => x ⊗ g h) (fun h => x ⊗ m h) n.
Proof.
  intros (r & B & HR). exists (fun h => x ⊗ r h). split; [now apply bigO_scale|].
  intros. now rewrite HR, (v_scale_vadd e vs).
Qed.

Lemma approx_pow g m n k : approx g m n ->
  approx (fun h => h ^ k ⊗ g h) (fun h => h ^ k ⊗ m h) (k + n).
Proof.
  intros (r & B & HR). exists (fun h => h ^ k ⊗ r h). split; [now apply bigO_pow|].
  intros. now rewrite HR, (v_scale_vadd e vs).
Qed.

Lemma approx_drop g n (r : R -> V) : bigO r n -> approx (fun h => g h ⊕ r h) g n.
Proof. intros H. exists r. split; [assumption|reflexivity]. Qed.

Lemma approx_vsum k (g m : nat -> R -> V) n :
  (forall i, (i < k)%nat -> approx (g i) (m i) n) ->
  approx (fun h => vsum e k (fun i => g i h)) (fun h => vsum e k (fun i => m i h)) n.
Proof.
  induction k; intros H; cbn; [apply approx_refl|].
  apply approx_add; [apply IHk; intros; apply H; lia|apply H; lia].
Qed.

(** * Elementary differentials *)
Variable D : list V -> V.
Hypothesis ml : multilinear e norm D.

Fixpoint ediff (t : tree) : V :=
  match t with Node l => D (map ediff l) end.

Lemma ediff_node l : ediff (Node l) = D (map ediff l).
Proof. reflexivity. Qed.

Lemma D_zero l l' : D (l ++ vzero e :: l') = vzero e.
Proof.
  rewrite <- (v_scale0 e vs (vzero e)) at 1. rewrite (ml_scale _ _ _ ml). apply (v_scale0 e vs).
Qed.

Lemma D_vsum l l' n g : D (l ++ vsum e n g :: l') = vsum e n (fun i => D (l ++ g i :: l')).
Proof. induction n; cbn; [apply D_zero|]. now rewrite (ml_add _ _ _ ml), IHn. Qed.

Lemma D_lsum {A} l l' (g : A -> V) la :
  D (l ++ lsum g la :: l') = lsum (fun a => D (l ++ g a :: l')) la.
Proof. induction la; cbn; [apply D_zero|]. now rewrite (ml_add _ _ _ ml), IHla. Qed.

Lemma norms_app l l' : norms norm (l ++ l') = norms norm l * norms norm l'.
Proof. unfold norms. induction l; cbn [app fold_right]; [lra|]. rewrite IHl. lra. Qed.
Lemma norms_pos l : 0 <= norms norm l.
Proof.
  unfold norms. induction l; cbn [fold_right]; [lra|]. pose proof (norm_pos _ _ nm a).
  now apply Rmult_le_pos.
Qed.
Lemma norms_repeat d j : norms norm (repeat d j) = norm d ^ j.
Proof. unfold norms. induction j; cbn [repeat fold_right pow]; [reflexivity|]. now rewrite IHj. Qed.

(** The value of a multilinear map on small arguments. *)
Lemma bigO_D l (r d : R -> V) j n : bigO r n -> bigO d 0 ->
  bigO (fun h => D (l ++ r h :: repeat (d h) j)) n.
Proof.
  intros (C & H & C0 & H0 & B) (C' & H' & C0' & H0' & B').
  destruct (ml_bounded _ _ _ ml (length l + S j)) as (K & K0 & KB).
  exists (K * (norms norm l * (C * C' ^ j))), (Rmin H H').
  pose proof (norms_pos l). assert (0 <= C' ^ j) by now apply pow_le.
  split. { apply Rmult_le_pos; [assumption|]. apply Rmult_le_pos; [assumption|]. nra. }
  split. { unfold Rmin. destruct (Rle_dec H H'); lra. }
  intros h Hh. pose proof (Rmin_l H H'). pose proof (Rmin_r H H').
  specialize (B h ltac:(lra)). specialize (B' h ltac:(lra)). cbn in B'.
  eapply Rle_trans. { apply KB. rewrite app_length. cbn. rewrite repeat_length. reflexivity. }
  rewrite norms_app. cbn [norms fold_right]. fold (norms norm (repeat (d h) j)).
  rewrite norms_repeat.
  assert (P1 : norm (d h) ^ j <= C' ^ j).
  { apply pow_incr. pose proof (norm_pos _ _ nm (d h)). lra. }
  assert (0 <= norm (d h) ^ j) by (apply pow_le, (norm_pos _ _ nm)).
  pose proof (norm_pos _ _ nm (r h)).
  assert (P2 : norm (r h) * norm (d h) ^ j <= C * Rabs h ^ n * C' ^ j).
  { apply Rmult_le_compat; assumption. }
  replace (K * (norms norm l * (C * C' ^ j)) * Rabs h ^ n)
    with (K * (norms norm l * (C * Rabs h ^ n * C' ^ j))) by ring.
  apply Rmult_le_compat_l; [assumption|]. apply Rmult_le_compat_l; assumption.
Qed.

(** * Expansion of the right-hand side along a series *)
Variable c : tree -> R.
Definition cprod (l : list tree) : R := fold_right (fun t r => c t * r) 1 l.

(** The coefficient of order [n] (at least 1) of the series with coefficients [c]. *)
Definition term (n : nat) : V := lsum (fun ch => c (Node ch) ⊗ ediff (Node ch)) (forests (n - 1)).

(** The coefficient of order [n] of [D (l ++ ...)] summed over all forests. *)
Definition fterm (l : list V) (n : nat) : V :=
  lsum (fun ts => cprod ts ⊗ D (l ++ map ediff ts)) (forests n).

Lemma fterm_0 l : fterm l 0 = D l.
Proof.
  unfold fterm. cbn. rewrite app_nil_r, (v_scale1 e vs), (v_zero e vs). reflexivity.
Qed.

Lemma fterm_S l n :
  fterm l (S n) = vsum e (S n) (fun k => fterm (l ++ [term (S k)]) (n - k)).
Proof.
  unfold fterm. rewrite forests_S, lsum_flat_map, lsum_seq.
  apply vsum_ext. intros k Hk. rewrite lsum_flat_map.
  rewrite (lsum_ext _ (fun ch => lsum (fun r => (cprod r * c (Node ch)) ⊗ D (l ++ ediff (Node ch) :: map ediff r)) (forests (n - k)))).
  2: { intros ch _. rewrite lsum_map. apply lsum_ext. intros r _. cbn [cprod fold_right map].
       fold (cprod r). f_equal. ring. }
  rewrite lsum_swap. apply lsum_ext. intros r _.
  rewrite <- app_assoc. cbn [app]. unfold term. replace (S k - 1)%nat with k by lia.
  rewrite D_lsum, <- lsum_scale. apply lsum_ext. intros ch _.
  rewrite (ml_scale _ _ _ ml), <- (v_scale_mul e vs). reflexivity.
Qed.

(** Triangular rearrangement. *)
Lemma vsum_triangle N (g : nat -> nat -> V) :
  vsum e N (fun k => vsum e (N - k) (fun n => g k n)) =
  vsum e N (fun q => vsum e (S q) (fun k => g k (q - k)%nat)).
Proof.
  induction N; [reflexivity|].
  cbn [vsum]. cbn [vsum] in IHN. rewrite <- IHN.
  replace (S N - N)%nat with 1%nat by lia.
  rewrite (vsum_ext e N (fun k => vsum e (S N - k) (fun n => g k n))
             (fun k => vsum e (N - k) (fun n => g k n) ⊕ g k (N - k)%nat)).
  2: { intros k Hk. replace (S N - k)%nat with (S (N - k)) by lia. reflexivity. }
  rewrite (vsum_add e vs), <- (v_assoc e vs). f_equal. f_equal. cbn. rewrite (v_zero_l e vs).
  now rewrite Nat.sub_diag.
Qed.

Definition series (N : nat) (h : R) : V := vsum e N (fun k => h ^ S k ⊗ term (S k)).

Lemma bigO_series N : bigO (series N) 1.
Proof.
  apply bigO_vsum. intros i _. apply (bigO_weaken _ 1 (S i + 0)); [|lia].
  apply bigO_pow, bigO_const.
Qed.

Lemma approx_bigO g m n k : approx g m n -> bigO m k -> (k <= n)%nat -> bigO g k.
Proof.
  intros (r & B & HR) HM Hk. apply (bigO_ext (fun h => m h ⊕ r h)); [intros; now rewrite HR|].
  apply bigO_add; [assumption|]. eapply bigO_weaken; eauto.
Qed.

Lemma D_approx l (d m : R -> V) q N : approx d m N -> bigO m 0 ->
  approx (fun h => D (l ++ d h :: repeat (d h) q))
         (fun h => D (l ++ m h :: repeat (d h) q)) N.
Proof.
  intros (r & B & HR) HM. exists (fun h => D (l ++ r h :: repeat (d h) q)). split.
  - apply bigO_D; [assumption|]. apply (approx_bigO d m N 0); [|assumption|lia].
    exists r. auto.
  - intros h. rewrite <- (ml_add _ _ _ ml). now rewrite <- HR.
Qed.

Lemma expand : forall N q l (d : R -> V), (N <= q)%nat -> approx d (series N) (S N) ->
  approx (fun h => vsum e (S q) (fun j => D (l ++ repeat (d h) j)))
         (fun h => vsum e (S N) (fun n => h ^ n ⊗ fterm l n)) (S N).
Proof.
  induction N as [N IH] using lt_wf_ind. intros q l d Hq Hd.
  assert (HD1 : bigO d 1) by (apply (approx_bigO d (series N) (S N)); [assumption|apply bigO_series|lia]).
  apply (approx_ext (fun h => D l ⊕ vsum e q (fun j => D (l ++ d h :: repeat (d h) j)))
                    (fun h => vsum e (S N) (fun n => h ^ n ⊗ fterm l n))); [|reflexivity|].
  { intros h. rewrite (vsum_S e vs). cbn [repeat]. rewrite app_nil_r. reflexivity. }
  apply (approx_ext (fun h => D l ⊕ vsum e q (fun j => D (l ++ d h :: repeat (d h) j)))
                    (fun h => D l ⊕ vsum e N (fun n => h ^ S n ⊗ fterm l (S n)))); [reflexivity| |].
  { intros h. rewrite (vsum_S e vs). cbn [pow]. now rewrite (v_scale1 e vs), fterm_0. }
  apply approx_add; [apply approx_refl|].
  (* replace the first argument by its series *)
  apply (approx_trans _ (fun h => vsum e q (fun j => D (l ++ series N h :: repeat (d h) j)))).
  { apply approx_vsum. intros j _. apply D_approx; [assumption|].
    apply (bigO_weaken _ 0 1); [apply bigO_series|lia]. }
  apply (approx_ext (fun h => vsum e N (fun k => h ^ S k ⊗ vsum e q (fun j => D ((l ++ [term (S k)]) ++ repeat (d h) j))))
                    (fun h => vsum e N (fun k => h ^ S k ⊗ vsum e (N - k) (fun n => h ^ n ⊗ fterm (l ++ [term (S k)]) n)))).
  { intros h. rewrite (vsum_ext e q _ (fun j => vsum e N (fun k => h ^ S k ⊗ D ((l ++ [term (S k)]) ++ repeat (d h) j)))).
    2: { intros j _. unfold series. rewrite D_vsum. apply vsum_ext. intros k _.
         rewrite (ml_scale _ _ _ ml), <- app_assoc. reflexivity. }
    rewrite (vsum_swap e vs). apply vsum_ext. intros k _. now rewrite (vsum_scale e vs). }
  { intros h. transitivity (vsum e N (fun k => vsum e (N - k) (fun n => h ^ S (k + n) ⊗ fterm (l ++ [term (S k)]) n))).
    { apply vsum_ext. intros k _. rewrite <- (vsum_scale e vs). apply vsum_ext. intros n _.
      rewrite <- (v_scale_mul e vs), <- pow_add. reflexivity. }
    rewrite (vsum_triangle N (fun k n => h ^ S (k + n) ⊗ fterm (l ++ [term (S k)]) n)).
    apply vsum_ext. intros n _. rewrite fterm_S, <- (vsum_scale e vs). apply vsum_ext.
    intros k Hk. now replace (k + (n - k))%nat with n by lia. }
  apply approx_vsum. intros k Hk.
  apply (approx_weaken _ _ (S N) (S k + (N - k))); [|lia]. apply approx_pow.
  destruct q as [|q]; [lia|]. replace (N - k)%nat with (S (N - S k)) by lia.
  apply IH; [lia|lia|].
  apply (approx_trans _ (series N)); [apply (approx_weaken _ _ _ (S N)); [assumption|lia]|].
  (* dropping the high order terms of the series *)
  assert (SP : forall M P, (M <= P)%nat -> approx (series P) (series M) (S M)).
  { clear IH. intros M P H. induction H as [|m H IH]; [apply approx_refl|].
    apply (approx_trans _ (series m)); [|exact IH].
    apply approx_drop. apply (bigO_weaken _ _ (S m + 0)); [|lia].
    apply bigO_pow, bigO_const. }
  apply SP. lia.
Qed.

(** Along a series, a smooth right-hand side has the series of its forests. *)
Lemma rhs_series f y0 p d : smooth e norm f y0 D (S p) -> approx d (series p) (S p) ->
  approx (fun h => f (y0 ⊕ d h)) (fun h => vsum e (S p) (fun n => h ^ n ⊗ fterm [] n)) (S p).
Proof.
  intros SM Hd.
  assert (HD1 : bigO d 1) by (apply (approx_bigO d (series p) (S p)); [assumption|apply bigO_series|lia]).
  apply (approx_trans _ (fun h => vsum e (S p) (fun j => D ([] ++ repeat (d h) j)))).
  2: apply expand; [lia|assumption].
  destruct (sm_taylor _ _ _ _ _ _ SM) as (C & rho & R0 & HT).
  destruct HD1 as (C1 & H1 & C10 & H10 & B1).
  exists (fun h => vsub e (f (y0 ⊕ d h)) (vsum e (S p) (fun q => D (repeat (d h) q)))). split.
  - exists (Rabs C * C1 ^ S p), (Rmin H1 (rho / (C1 + 1))).
    assert (0 < rho / (C1 + 1)) by (apply Rdiv_lt_0_compat; lra).
    split. { apply Rmult_le_pos; [apply Rabs_pos|apply pow_le; assumption]. }
    split. { unfold Rmin. destruct (Rle_dec H1 (rho / (C1 + 1))); lra. }
    intros h Hh. pose proof (Rmin_l H1 (rho / (C1 + 1))). pose proof (Rmin_r H1 (rho / (C1 + 1))).
    specialize (B1 h ltac:(lra)). rewrite pow_1 in B1.
    pose proof (Rabs_pos h) as AH. pose proof (norm_pos _ _ nm (d h)) as DP.
    assert (HR : norm (d h) <= rho).
    { assert (Rabs h * (C1 + 1) <= rho).
      { replace rho with (rho / (C1 + 1) * (C1 + 1)) by (field; lra).
        apply Rmult_le_compat_r; lra. }
      nra. }
    eapply Rle_trans; [apply HT, HR|].
    assert (P : norm (d h) ^ S p <= (C1 * Rabs h) ^ S p) by (apply pow_incr; lra).
    rewrite Rpow_mult_distr in P.
    assert (0 <= norm (d h) ^ S p) by (apply pow_le; assumption).
    pose proof (Rle_abs C). pose proof (Rabs_pos C). nra.
  - intros h. unfold vsub.
    rewrite (v_assoc e vs), (v_comm e vs (vsum e (S p) _)), <- (v_assoc e vs).
    rewrite <- (v_scale1 e vs (vsum e (S p) (fun j => D ([] ++ repeat (d h) j)))) at 1.
    rewrite <- (v_scale_add e vs). replace (1 + -1) with 0 by lra.
    rewrite (v_scale0 e vs). symmetry. apply (v_zero e vs).
Qed.
End Series.
