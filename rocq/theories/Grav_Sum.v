(** The acceleration of a gravity field is the gradient of its potential. *)
From Coq Require Import Reals List Lra Lia Psatz Arith.
From Coquelicot Require Import Coquelicot.
From Verif Require Import Base Vec3 Sc_Model Dyn_Model Dual Orb_Model Orb_Spec Orb_Props
  Grav_Legendre Grav_Model Grav_Spec Grav_Table.
Import ListNotations.
Local Open Scope R_scope.

(** * Normalisation *)
Lemma sqrt2_pos : 0 < sqrt 2. Proof. apply sqrt_lt_R0. lra. Qed.

Lemma norm_factor_0 n : norm_factor n 0 = knm n 0.
Proof. unfold norm_factor, knm. cbn [Nat.eqb]. f_equal. unfold Rdiv. ring. Qed.

Lemma norm_factor_S n m : norm_factor n (S m) = sqrt 2 * knm n (S m).
Proof.
  unfold norm_factor, knm. cbn [Nat.eqb]. rewrite <- sqrt_mult_alt by lra. f_equal. unfold Rdiv. ring.
Qed.

Lemma knm_vr01 n m : (m < n)%nat ->
  sqrt ((INR n - INR m) * (INR n + INR m + 1)) * knm n (m + 1) = knm n m.
Proof.
  intros H. rewrite <- (Rmult_1_r (knm n m)). unfold knm.
  replace (n - m)%nat with (S (n - (m + 1))) by lia. replace (n + (m + 1))%nat with (S (n + m)) by lia.
  rewrite !fact_S. replace (INR (n - (m + 1))) with (INR n - INR m - 1)
    by (rewrite minus_INR, plus_INR by lia; cbn [INR]; ring). rewrite plus_INR.
  pose proof (fact_pos (n - (m + 1))) as F1. pose proof (fact_pos (n + m)) as F2.
  pose proof (pos_INR m). pose proof (lt_INR _ _ H). pose proof (pos_INR n).
  assert (1 <= INR n - INR m).
  { rewrite <- minus_INR by lia. change 1 with (INR 1). apply le_INR. lia. }
  apply sqrt_balance; [| |lra|].
  - apply Rmult_le_pos; lra.
  - apply Rmult_le_pos; [|apply Rlt_le, Rinv_0_lt_compat; lra].
    apply Rmult_le_pos; [lra|]. apply Rmult_le_pos; lra.
  - field. repeat split; lra.
Qed.

Lemma knm_vr11 n m : (m <= n)%nat ->
  sqrt (((2 * INR n + 1) * (INR n + INR m + 2) * (INR n + INR m + 1)) / (2 * INR n + 3)) * knm (n + 1) (m + 1)
  = knm n m.
Proof.
  intros H. rewrite <- (Rmult_1_r (knm n m)). unfold knm.
  replace (n + 1 - (m + 1))%nat with (n - m)%nat by lia.
  replace (n + 1 + (m + 1))%nat with (S (S (n + m))) by lia.
  rewrite !fact_S, !S_INR, !plus_INR. cbn [INR].
  pose proof (fact_pos (n - m)) as F1. pose proof (fact_pos (n + m)) as F2.
  pose proof (pos_INR m). pose proof (pos_INR n).
  apply sqrt_balance; [| |lra|].
  - apply Rmult_le_pos; [|apply Rlt_le, Rinv_0_lt_compat; lra].
    apply Rmult_le_pos; [|lra]. apply Rmult_le_pos; lra.
  - apply Rmult_le_pos; [|apply Rlt_le, Rinv_0_lt_compat; lra].
    apply Rmult_le_pos; lra.
  - field. repeat split; lra.
Qed.

(** vr01 and vr11 with the factor sqrt 2 give the normalisation. *)
Lemma vr01_factor n m : (m < n)%nat -> tab_vr01 n m * knm n (m + 1) * sqrt 2 = norm_factor n m.
Proof.
  intros H. pose proof (knm_vr01 n m H) as K. pose proof sqrt2_pos. unfold tab_vr01.
  destruct m as [|m]; cbn [Nat.eqb].
  - rewrite norm_factor_0, <- K. field. lra.
  - rewrite norm_factor_S, <- K. ring.
Qed.

Lemma vr11_factor n m : (m <= n)%nat -> tab_vr11 n m * knm (n + 1) (m + 1) * sqrt 2 = norm_factor n m.
Proof.
  intros H. pose proof (knm_vr11 n m H) as K. pose proof sqrt2_pos. unfold tab_vr11.
  destruct m as [|m]; cbn [Nat.eqb].
  - rewrite norm_factor_0, <- K. field. lra.
  - rewrite norm_factor_S, <- K. ring.
Qed.

(** * The sums *)
Section Sums.
Context (d : field_data) (s t u : R).
Let N := degree d.
Let a := legendre_table u (degree d) (order d).
Let rs := fst (powers s t (Nat.min (degree d) (order d))).
Let is := snd (powers s t (Nat.min (degree d) (order d))).
Hypothesis Hsize : (degree d < size d)%nat.

Definition term_D n m := c_nm d n m * fst (cpow s t m) + s_nm d n m * snd (cpow s t m).
Definition term_E n m := c_nm d n m * fst (cpow s t (m - 1)) + s_nm d n m * snd (cpow s t (m - 1)).
Definition term_F n m := s_nm d n m * fst (cpow s t (m - 1)) - c_nm d n m * snd (cpow s t (m - 1)).

Definition x1 n m := norm_factor n m * (INR m * dlegendre n m u * term_E n m).
Definition x2 n m := norm_factor n m * (INR m * dlegendre n m u * term_F n m).
Definition x3 n m := norm_factor n m * (dlegendre n (S m) u * term_D n m).
Definition x4 n m := norm_factor n m * (dlegendre (S n) (S m) u * term_D n m).

Lemma rdv_ok {A} (l : list A) m x : nth_error l m = Some x -> rdv l m = Ok x.
Proof. unfold rdv. now intros ->. Qed.
Lemma rd_ok {A} dim (f : nat -> nat -> A) n m : (n < dim)%nat -> (m < dim)%nat -> rd dim f n m = Ok (f n m).
Proof.
  intros H1 H2. unfold rd. apply Nat.ltb_lt in H1, H2. now rewrite H1, H2.
Qed.

Lemma term_spec n m : (n <= degree d)%nat -> (m <= n)%nat -> (m <= order d)%nat ->
  term d a rs is n m = Ok (x1 n m, x2 n m, x3 n m, x4 n m).
Proof.
  intros Hn Hm Ho. unfold term.
  assert (Hcs : cs_nm d n m = Ok (c_nm d n m, s_nm d n m)).
  { unfold cs_nm. replace (n <? size d)%nat with true by (symmetry; apply Nat.ltb_lt; lia).
    replace (m <? size d)%nat with true by (symmetry; apply Nat.ltb_lt; lia). reflexivity. }
  rewrite Hcs. cbn [bind].
  destruct (powers_spec s t (Nat.min (degree d) (order d))) as (_ & _ & P). fold rs is in P.
  destruct (P m ltac:(lia)) as [P1 P2].
  rewrite (rdv_ok _ _ _ P1), (rdv_ok _ _ _ P2). cbn [bind].
  set (ef := if (m =? 0)%nat then _ else _).
  assert (Hef : exists e f, ef = Ok (e, f) /\
            INR m * e = INR m * (term_E n m * sqrt 2) /\ INR m * f = INR m * (term_F n m * sqrt 2)).
  { unfold ef. destruct m as [|m]; cbn [Nat.eqb].
    - exists 0, 0. cbn [INR]. split; [reflexivity|]. split; ring.
    - destruct (P (S m - 1)%nat ltac:(lia)) as [Q1 Q2].
      rewrite (rdv_ok _ _ _ Q1), (rdv_ok _ _ _ Q2). cbn [bind]. do 2 eexists. split; [reflexivity|].
      split; reflexivity. }
  destruct Hef as (e & f & -> & He & Hf). cbn [bind].
  rewrite !rd_ok by lia. cbn [bind].
  destruct (table_spec u (degree d) (order d)) as [T1 T2]. fold a in T1, T2.
  rewrite (T1 n m) by lia. rewrite (T1 (n + 1)%nat (m + 1)%nat) by lia.
  replace (dlegendre (n + 1) (m + 1) u) with (dlegendre (S n) (S m) u) by (f_equal; lia).
  set (G := dlegendre n m u) in *. f_equal. f_equal; [f_equal; [f_equal|]|].
  - replace (INR m * (knm n m * G) * e) with (knm n m * G * (INR m * e)) by ring. rewrite He. unfold x1.
    fold G. destruct m as [|m]; [cbn [INR]; ring|]. rewrite norm_factor_S. ring.
  - replace (INR m * (knm n m * G) * f) with (knm n m * G * (INR m * f)) by ring. rewrite Hf. unfold x2.
    fold G. destruct m as [|m]; [cbn [INR]; ring|]. rewrite norm_factor_S. ring.
  - unfold x3. fold (term_D n m). destruct (Nat.eq_dec m n) as [->|Hne].
    + rewrite T2 by lia. rewrite dlegendre_above by lia. ring.
    + rewrite (T1 n (m + 1)%nat) by lia. rewrite <- (vr01_factor n m) by lia.
      replace (m + 1)%nat with (S m) by lia. ring.
  - unfold x4. fold (term_D n m). rewrite <- (vr11_factor n m) by lia. ring.
Qed.

Lemma sum_orders_spec n ms : (n <= degree d)%nat -> Forall (fun m => (m <= n)%nat /\ (m <= order d)%nat) ms ->
  forall s1 s2 s3 s4, sum_orders d a rs is n ms (s1, s2, s3, s4) =
    Ok (s1 + rsum (map (x1 n) ms), s2 + rsum (map (x2 n) ms), s3 + rsum (map (x3 n) ms), s4 - rsum (map (x4 n) ms)).
Proof.
  intros Hn. induction ms as [|m ms IH]; intros F s1 s2 s3 s4; cbn [sum_orders map rsum].
  - now rewrite !Rplus_0_r, Rminus_0_r.
  - inversion F as [|? ? [A B] F']; subst. rewrite term_spec by assumption. cbn [bind].
    rewrite IH by assumption. f_equal. f_equal; [f_equal; [f_equal|]|]; ring.
Qed.

Definition orders n := seq 0 (S (Nat.min n (order d))).
Lemma orders_ok n : Forall (fun m => (m <= n)%nat /\ (m <= order d)%nat) (orders n).
Proof. apply Forall_forall. intros m H. apply in_seq in H. lia. Qed.

Lemma sum_degrees_spec rho eq mr : forall len k, (k + len <= S (degree d))%nat ->
  forall a1 a2 a3 a4,
  sum_degrees d a rs is rho eq (seq k len) (mr * rho ^ k) (a1, a2, a3, a4) =
    let S x := rsum (map (fun n => mr * rho ^ S n / eq * rsum (map (x n) (orders n))) (seq k len)) in
    Ok (a1 + S x1, a2 + S x2, a3 + S x3, a4 - S x4).
Proof.
  induction len as [|len IH]; intros k Hk a1 a2 a3 a4; cbv zeta; cbn [seq sum_degrees map rsum].
  - now rewrite !Rplus_0_r, Rminus_0_r.
  - fold (orders k). rewrite (sum_orders_spec k (orders k)) by (lia || apply orders_ok). cbn [bind].
    replace (mr * rho ^ k * rho) with (mr * rho ^ S k) by (cbn [pow]; ring).
    rewrite IH by lia. cbv zeta. f_equal. f_equal; [f_equal; [f_equal|]|]; unfold Rdiv; ring.
Qed.
End Sums.

(** All the reads of the tables and of the coefficients are in bounds. *)
Lemma local_accel_spec d eq mu p : (degree d < size d)%nat ->
  let r := norm p in let s := vx p / r in let t := vy p / r in let u := vz p / r in
  let S x := rsum (map (fun n => mu / r * (eq / r) ^ S n / eq * rsum (map (x n) (orders d n))) (seq 1 (degree d))) in
  local_accel d eq mu p = Ok (V3 (S (x1 d s t u) - S (x4 d s t u) * s)
                                 (S (x2 d s t u) - S (x4 d s t u) * t)
                                 (S (x3 d s t u) - S (x4 d s t u) * u)).
Proof.
  intros H r s t u S. unfold local_accel. fold r s t u.
  pose proof (sum_degrees_spec d s t u H (eq / r) eq (mu / r) (degree d) 1 ltac:(lia) 0 0 0 0) as E.
  cbv zeta in E. rewrite pow_1 in E.
  destruct (powers s t (Nat.min (degree d) (order d))) as [rs is]. cbn [fst snd] in E. rewrite E. cbn [bind].
  unfold S. f_equal. f_equal; ring.
Qed.
