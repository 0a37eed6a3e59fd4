(** The table of Legendre functions of gravity_field.rs. *)
From Coq Require Import Reals List Lra Lia Psatz Arith.
From Verif Require Import Base Vec3 Sc_Model Dyn_Model Dual Orb_Model Orb_Spec Grav_Legendre Grav_Model Grav_Spec.
Import ListNotations.
Local Open Scope R_scope.

Definition knm (n m : nat) : R := sqrt ((2 * INR n + 1) * INR (fact (n - m)) / INR (fact (n + m))).

Lemma fact_pos n : 0 < INR (fact n).
Proof. apply lt_0_INR, lt_O_fact. Qed.

Lemma fact_S n : INR (fact (S n)) = (INR n + 1) * INR (fact n).
Proof. rewrite <- S_INR, <- mult_INR. reflexivity. Qed.

Lemma k_arg_pos n m : 0 < (2 * INR n + 1) * INR (fact (n - m)) / INR (fact (n + m)).
Proof.
  pose proof (pos_INR n). pose proof (fact_pos (n - m)). pose proof (fact_pos (n + m)).
  apply Rdiv_lt_0_compat; [|assumption]. apply Rmult_lt_0_compat; [lra|assumption].
Qed.

(** sqrt x * sqrt y = sqrt z * q when x y = z q^2. *)
Lemma sqrt_balance x y z q : 0 <= x -> 0 <= z -> 0 <= q -> x * y = z * (q * q) ->
  sqrt x * sqrt y = sqrt z * q.
Proof.
  intros Hx Hz Hq E. rewrite <- sqrt_mult_alt by exact Hx. rewrite E.
  rewrite sqrt_mult_alt by exact Hz. now rewrite sqrt_square.
Qed.

Lemma knm_00 : knm 0 0 = 1.
Proof. unfold knm. cbn. replace ((2 * 0 + 1) * 1 / 1) with 1 by field. apply sqrt_1. Qed.

(** diagonal *)
Lemma knm_diag n : sqrt (1 + 1 / (2 * INR (S n))) * knm n n = knm (S n) (S n) * (2 * INR n + 1).
Proof.
  unfold knm. rewrite !Nat.sub_diag. pose proof (pos_INR n) as P.
  replace (S n + S n)%nat with (S (S (n + n))) by lia. rewrite !fact_S, !S_INR, plus_INR.
  pose proof (fact_pos (n + n)) as F. cbn [fact INR].
  apply sqrt_balance; [| |lra|].
  - apply Rlt_le. assert (0 < 1 / (2 * (INR n + 1))) by (apply Rdiv_lt_0_compat; lra). lra.
  - apply Rlt_le, Rdiv_lt_0_compat; [lra|].
    apply Rmult_lt_0_compat; [lra|]. apply Rmult_lt_0_compat; [lra|exact F].
  - field. repeat split; lra.
Qed.

Lemma diagonal_spec n u : diagonal n = knm n n * dlegendre n n u.
Proof.
  induction n as [|n IH]; [cbn [diagonal]; rewrite knm_00, dlegendre_diag0; ring|].
  cbn [diagonal]. rewrite IH. rewrite <- Rmult_assoc, knm_diag, dlegendre_diag. ring.
Qed.

Lemma knm_sub n : sqrt (2 * INR n + 3) * knm n n = knm (S n) n * (2 * INR n + 1).
Proof.
  unfold knm. rewrite Nat.sub_diag. replace (S n - n)%nat with 1%nat by lia.
  replace (S n + n)%nat with (S (n + n)) by lia. rewrite !fact_S, !S_INR, plus_INR.
  pose proof (pos_INR n) as P. pose proof (fact_pos (n + n)) as F. cbn [fact INR].
  apply sqrt_balance; [lra| |lra|].
  - apply Rlt_le, Rdiv_lt_0_compat; [lra|]. apply Rmult_lt_0_compat; [lra|exact F].
  - field. repeat split; lra.
Qed.

Lemma knm_b m q : let n := (m + q + 2)%nat in
  tab_b n m * knm (n - 1) m = knm n m * ((2 * INR n - 1) / (INR n - INR m)).
Proof.
  intros n. unfold tab_b, knm.
  replace (n - 1 - m)%nat with (S q) by lia. replace (n - m)%nat with (S (S q)) by lia.
  replace (n - 1 + m)%nat with (S (m + m + q)) by lia. replace (n + m)%nat with (S (S (m + m + q))) by lia.
  replace (n - 1)%nat with (m + q + 1)%nat by lia. subst n.
  rewrite !fact_S, !S_INR, !plus_INR. cbn [INR].
  pose proof (pos_INR m) as Pm. pose proof (pos_INR q) as Pq.
  pose proof (fact_pos q) as F1. pose proof (fact_pos (m + m + q)) as F2.
  apply sqrt_balance.
  - apply Rlt_le, Rdiv_lt_0_compat; apply Rmult_lt_0_compat; lra.
  - apply Rlt_le, Rdiv_lt_0_compat.
    + apply Rmult_lt_0_compat; [lra|]. apply Rmult_lt_0_compat; [lra|]. apply Rmult_lt_0_compat; lra.
    + apply Rmult_lt_0_compat; [lra|]. apply Rmult_lt_0_compat; lra.
  - apply Rlt_le, Rdiv_lt_0_compat; lra.
  - field. repeat split; lra.
Qed.

Lemma knm_c m q : let n := (m + q + 2)%nat in
  tab_c n m * knm (n - 2) m = knm n m * ((INR n + INR m - 1) / (INR n - INR m)).
Proof.
  intros n. unfold tab_c, knm.
  replace (n - 2 - m)%nat with q by lia. replace (n - m)%nat with (S (S q)) by lia.
  replace (n - 2 + m)%nat with (m + m + q)%nat by lia. replace (n + m)%nat with (S (S (m + m + q))) by lia.
  replace (n - 2)%nat with (m + q)%nat by lia. subst n.
  rewrite !fact_S, !S_INR, !plus_INR. cbn [INR].
  pose proof (pos_INR m) as Pm. pose proof (pos_INR q) as Pq.
  pose proof (fact_pos q) as F1. pose proof (fact_pos (m + m + q)) as F2.
  apply sqrt_balance.
  - apply Rlt_le, Rdiv_lt_0_compat.
    + apply Rmult_lt_0_compat; [apply Rmult_lt_0_compat; lra|lra].
    + apply Rmult_lt_0_compat; [apply Rmult_lt_0_compat; lra|lra].
  - apply Rlt_le, Rdiv_lt_0_compat.
    + apply Rmult_lt_0_compat; [lra|]. apply Rmult_lt_0_compat; [lra|]. apply Rmult_lt_0_compat; lra.
    + apply Rmult_lt_0_compat; [lra|]. apply Rmult_lt_0_compat; lra.
  - apply Rlt_le, Rdiv_lt_0_compat; lra.
  - field. repeat split; lra.
Qed.

(** Step of the recursion in the degree. *)
Lemma column_step u m q : let n := (m + q + 2)%nat in
  u * tab_b n m * (knm (n - 1) m * dlegendre (n - 1) m u) - tab_c n m * (knm (n - 2) m * dlegendre (n - 2) m u)
  = knm n m * dlegendre n m u.
Proof.
  intros n.
  pose proof (knm_b m q) as B. pose proof (knm_c m q) as C. fold n in B, C. cbv zeta in B, C.
  pose proof (degree_relation (m + q) m u) as D.
  replace (S (S (m + q))) with n in D by lia. replace (S (m + q)) with (n - 1)%nat in D by lia.
  assert (E : INR (m + q) = INR n - 2).
  { unfold n. rewrite !plus_INR. cbn [INR]. ring. }
  rewrite E in D. replace (m + q)%nat with (n - 2)%nat in D by lia.
  assert (P : 0 < INR n - INR m).
  { unfold n. rewrite !plus_INR. pose proof (pos_INR q). cbn [INR]. lra. }
  replace (u * tab_b n m * (knm (n - 1) m * dlegendre (n - 1) m u))
    with (u * dlegendre (n - 1) m u * (tab_b n m * knm (n - 1) m)) by ring.
  replace (tab_c n m * (knm (n - 2) m * dlegendre (n - 2) m u))
    with (dlegendre (n - 2) m u * (tab_c n m * knm (n - 2) m)) by ring.
  rewrite B, C.
  apply (Rmult_eq_reg_l (INR n - INR m)); [|lra].
  replace ((INR n - INR m) * (knm n m * dlegendre n m u))
    with (knm n m * ((INR n - 2 + 2 - INR m) * dlegendre n m u)) by ring.
  rewrite D. field. lra.
Qed.

(** * The loops *)
Section Table.
Context (u : R) (N M : nat).

Definition right (t : nat -> nat -> R) (n m : nat) : Prop := t n m = knm n m * dlegendre n m u.

Definition column (m : nat) (t : nat -> nat -> R) (k : nat) : nat -> nat -> R :=
  fold_left (fun t n => upd t n m (u * tab_b n m * t (n - 1)%nat m - tab_c n m * t (n - 2)%nat m))
    (seq (m + 2) k) t.

Lemma upd_same (t : nat -> nat -> R) n m v : upd t n m v n m = v.
Proof. unfold upd. now rewrite !Nat.eqb_refl. Qed.
Lemma upd_other (t : nat -> nat -> R) n m v i j : (i <> n \/ j <> m) -> upd t n m v i j = t i j.
Proof.
  intros H. unfold upd. destruct (i =? n)%nat eqn:A; [|reflexivity].
  destruct (j =? m)%nat eqn:B; [|reflexivity]. apply Nat.eqb_eq in A, B. lia.
Qed.

Lemma column_spec m t k : right t m m -> right t (m + 1) m ->
  (forall n, (m <= n <= m + 1 + k)%nat -> right (column m t k) n m) /\
  (forall i j, (j <> m \/ i < m + 2 \/ m + 1 + k < i)%nat -> column m t k i j = t i j).
Proof.
  intros H0 H1. induction k as [|k [IH1 IH2]].
  - unfold column. cbn [seq fold_left]. split; [|reflexivity].
    intros n Hn. assert (n = m \/ n = m + 1)%nat as [-> | ->] by lia; assumption.
  - unfold column in *. rewrite seq_S, fold_left_app. cbn [fold_left].
    set (t' := fold_left _ (seq (m + 2) k) t) in *. split.
    + intros n Hn. destruct (Nat.eq_dec n (m + 2 + k)) as [->|Hne].
      * unfold right. rewrite upd_same. rewrite IH1 by lia. rewrite (IH1 (m + 2 + k - 2)%nat) by lia.
        pose proof (column_step u m k) as S. cbv zeta in S.
        replace (m + 2 + k)%nat with (m + k + 2)%nat by lia. exact S.
      * unfold right. rewrite upd_other by lia. apply IH1. lia.
    + intros i j Hij. rewrite upd_other by lia. apply IH2. lia.
Qed.

Definition start : nat -> nat -> R :=
  fold_left (fun t n => upd t (n + 1) n (sqrt (2 * INR n + 3) * u * t n n)) (seq 1 (N + 1))
    (upd (fun n m => if ((n =? m) && (n <=? N + 2))%nat then diagonal n else 0) 1 0 (u * sqrt 3)).

Lemma start_spec :
  (forall n, (n <= N + 2)%nat -> right start n n) /\
  (forall n, (n <= N + 1)%nat -> right start (n + 1) n) /\
  (forall n m, (n < m)%nat -> start n m = 0).
Proof.
  assert (G : forall k, (k <= N + 1)%nat ->
    let t := fold_left (fun t n => upd t (n + 1) n (sqrt (2 * INR n + 3) * u * t n n)) (seq 1 k)
      (upd (fun n m => if ((n =? m) && (n <=? N + 2))%nat then diagonal n else 0) 1 0 (u * sqrt 3)) in
    (forall n, (n <= N + 2)%nat -> right t n n) /\
    (forall n, (n <= k)%nat -> right t (n + 1) n) /\
    (forall n m, (n < m)%nat -> t n m = 0)).
  { induction k as [|k IH]; intros Hk.
    - cbn [seq fold_left]. cbv zeta. split; [|split].
      + intros n Hn. unfold right. rewrite upd_other by lia.
        rewrite Nat.eqb_refl. replace (n <=? N + 2)%nat with true by (symmetry; now apply Nat.leb_le).
        cbn [andb]. apply diagonal_spec.
      + intros n Hn. assert (n = 0)%nat as -> by lia. unfold right. cbn [Nat.add]. rewrite upd_same.
        pose proof (knm_sub 0) as K. rewrite knm_00 in K. cbn [INR] in K.
        rewrite dlegendre_sub, dlegendre_diag0. cbn [INR].
        replace (sqrt (2 * 0 + 3)) with (sqrt 3) in K by (f_equal; ring).
        replace (knm 1 0) with (sqrt 3) by lra. ring.
      + intros n m Hnm. rewrite upd_other by lia.
        replace (n =? m)%nat with false by (symmetry; apply Nat.eqb_neq; lia). reflexivity.
    - specialize (IH ltac:(lia)). cbv zeta in IH |- *. rewrite seq_S, fold_left_app. cbn [fold_left].
      set (t' := fold_left _ (seq 1 k) _) in *. destruct IH as (A & B & C). split; [|split].
      + intros n Hn. unfold right. rewrite upd_other by lia. now apply A.
      + intros n Hn. destruct (Nat.eq_dec n (1 + k)) as [->|Hne].
        * unfold right. rewrite upd_same. rewrite A by lia.
          pose proof (knm_sub (1 + k)) as K. replace (1 + k + 1)%nat with (S (1 + k)) by lia.
          rewrite dlegendre_sub.
          replace (sqrt (2 * INR (1 + k) + 3) * u * (knm (1 + k) (1 + k) * dlegendre (1 + k) (1 + k) u))
            with (sqrt (2 * INR (1 + k) + 3) * knm (1 + k) (1 + k) * (u * dlegendre (1 + k) (1 + k) u)) by ring.
          rewrite K. ring.
        * unfold right. rewrite upd_other by lia. apply B. lia.
      + intros n m Hnm. rewrite upd_other by lia. now apply C. }
  exact (G (N + 1)%nat ltac:(lia)).
Qed.

Lemma table_spec :
  (forall n m, (m <= n <= N + 1)%nat -> (m <= M + 1)%nat -> right (legendre_table u N M) n m) /\
  (forall n m, (n < m)%nat -> legendre_table u N M n m = 0).
Proof.
  assert (G : forall k, let t := fold_left (fun t m => column m t (N - m)) (seq 0 k) start in
    (forall n m, (m <= n <= N + 1)%nat -> (m < k)%nat -> right t n m) /\
    (forall i j, (k <= j \/ i < j + 2)%nat -> t i j = start i j)).
  { induction k as [|k [IH1 IH2]].
    - cbn [seq fold_left]. cbv zeta. split; [intros; lia|reflexivity].
    - cbv zeta in *. rewrite seq_S, fold_left_app. cbn [fold_left Nat.add].
      set (t' := fold_left _ (seq 0 k) start) in *.
      destruct start_spec as (S1 & S2 & S3).
      destruct (Nat.le_gt_cases k (N + 1)) as [Hk|Hk].
      + destruct (column_spec k t' (N - k)) as [C1 C2].
        { unfold right. rewrite IH2 by lia. apply S1. lia. }
        { unfold right. rewrite IH2 by lia. apply S2. lia. }
        split.
        * intros n m Hn Hm. destruct (Nat.eq_dec m k) as [->|Hne]; [apply C1; lia|].
          unfold right. rewrite C2 by lia. apply IH1; lia.
        * intros i j Hij. rewrite C2 by lia. apply IH2. lia.
      + unfold column. replace (N - k)%nat with 0%nat by lia. cbn [seq fold_left]. split.
        * intros n m Hn Hm. apply IH1; lia.
        * intros i j Hij. apply IH2. lia. }
  destruct (G (M + 2)%nat) as [G1 G2]. cbv zeta in G1, G2.
  change (fold_left (fun t m => column m t (N - m)) (seq 0 (M + 2)) start) with (legendre_table u N M) in *.
  split.
  - intros n m H1 H2. apply G1; lia.
  - intros n m H. rewrite G2 by lia. destruct start_spec as (_ & _ & S3). now apply S3.
Qed.
End Table.

(** * The powers *)
Lemma powers_spec s t k :
  length (fst (powers s t k)) = S k /\ length (snd (powers s t k)) = S k /\
  forall m, (m <= k)%nat -> nth_error (fst (powers s t k)) m = Some (fst (cpow s t m)) /\
                           nth_error (snd (powers s t k)) m = Some (snd (cpow s t m)).
Proof.
  induction k as [|k (L1 & L2 & IH)].
  - cbn. split; [reflexivity|]. split; [reflexivity|]. intros m Hm. assert (m = 0)%nat as -> by lia. now split.
  - cbn [powers]. destruct (powers s t k) as [rs is]. cbn [fst snd] in *.
    rewrite !app_length, L1, L2. cbn [length]. split; [lia|]. split; [lia|].
    intros m Hm. destruct (Nat.eq_dec m (S k)) as [->|Hne].
    + destruct (IH k ltac:(lia)) as [E1 E2].
      rewrite !nth_error_app2 by lia. rewrite L1, L2, Nat.sub_diag. cbn [nth_error].
      rewrite (nth_error_nth _ _ 0 E1), (nth_error_nth _ _ 0 E2). cbn [cpow].
      destruct (cpow s t k) as [a b]. now split.
    + rewrite !nth_error_app1 by lia. apply IH. lia.
Qed.
