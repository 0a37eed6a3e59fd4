(** The algebra of the measurement update. *)
From Verif Require Import Base.
From mathcomp Require Import all_ssreflect all_algebra.
From Verif Require Import Kf_Model Kf_Spec Kf_Linalg Kf_Abel.
Import Order.TTheory GRing.Theory Num.Theory.
Set Implicit Arguments.
Unset Strict Implicit.
Unset Printing Implicit Defensive.
Local Open Scope ring_scope.

Section Gain.
Context {R : rcfType}.

(** The covariance after an update with an arbitrary gain. *)
Definition joseph n m (P : 'M[R]_n) (H : 'M[R]_(m, n)) (Rk : 'M[R]_m) (K : 'M[R]_(n, m)) : 'M[R]_n :=
  (1%:M - K *m H) *m P *m (1%:M - K *m H)^T + K *m Rk *m K^T.
Definition innovation n m (P : 'M[R]_n) (H : 'M[R]_(m, n)) (Rk : 'M[R]_m) : 'M[R]_m :=
  H *m (P *m H^T) + Rk.

Lemma halves n (C : 'M[R]_n) : C^T = C -> (2%:R)^-1 *: (C + C^T) = C.
Proof.
move=> ->; rewrite -[X in X + X]scale1r -scalerDl scalerA.
by rewrite -[1 + 1]/(2%:R) mulVf ?scale1r // pnatr_eq0.
Qed.

Lemma joseph_covariance n m (P : 'M[R]_n) (H : 'M[R]_(m, n)) Rk K :
  covariance P -> covariance Rk -> covariance (joseph P H Rk K).
Proof. by move=> hP hR; apply: covarianceD; apply: covariance_conj. Qed.

Lemma innovation_sym n m (P : 'M[R]_n) (H : 'M[R]_(m, n)) Rk :
  P^T = P -> Rk^T = Rk -> (innovation P H Rk)^T = innovation P H Rk.
Proof. by move=> hP hR; rewrite /innovation mulmxA; apply: symD => //; apply: sym_conj. Qed.

Lemma innovation_definite n m (P : 'M[R]_n) (H : 'M[R]_(m, n)) Rk :
  covariance P -> definite Rk -> definite (innovation P H Rk).
Proof. by move=> hP hR; rewrite /innovation mulmxA; apply: definiteD => //; apply: covariance_conj. Qed.

Lemma innovation_covariance n m (P : 'M[R]_n) (H : 'M[R]_(m, n)) Rk :
  covariance P -> covariance Rk -> covariance (innovation P H Rk).
Proof. by move=> hP hR; rewrite /innovation mulmxA; apply: covarianceD => //; apply: covariance_conj. Qed.

(** Any gain, compared with the one that solves [K S = P H^T]. *)
Lemma joseph_expand n m (P : 'M[R]_n) (H : 'M[R]_(m, n)) Rk K K' :
  P^T = P -> Rk^T = Rk -> K *m innovation P H Rk = P *m H^T ->
  joseph P H Rk K' = P - K *m innovation P H Rk *m K^T
                     + (K' - K) *m innovation P H Rk *m (K' - K)^T.
Proof.
move=> hP hR hK; set S := innovation P H Rk in hK *.
have hS : S^T = S by apply: innovation_sym.
have hK' : S *m K^T = H *m P by rewrite -hS -trmx_mul hK trmx_mul trmxK hP.
have e1 : K *m S *m K^T = K *m H *m P by rewrite -mulmxA hK' mulmxA.
have e2 : K' *m S *m K^T = K' *m H *m P by rewrite -mulmxA hK' mulmxA.
have e3 : K *m S *m K'^T = P *m H^T *m K'^T by rewrite hK.
have e4 : K' *m S *m K'^T = K' *m H *m P *m H^T *m K'^T + K' *m Rk *m K'^T.
  by rewrite /S /innovation mulmxDr mulmxDl !mulmxA.
rewrite linearB /= !(mulmxBl, mulmxBr) e1 e2 e3 e4 /joseph linearB /= trmx1 trmx_mul.
rewrite !(mulmxBl, mulmxBr, mulmx1, mul1mx) !mulmxA.
abel.
Qed.

Lemma joseph_optimal n m (P : 'M[R]_n) (H : 'M[R]_(m, n)) Rk K :
  P^T = P -> Rk^T = Rk -> K *m innovation P H Rk = P *m H^T ->
  joseph P H Rk K = P - K *m innovation P H Rk *m K^T.
Proof. by move=> hP hR hK; rewrite (joseph_expand K hP hR hK) subrr mul0mx mul0mx addr0. Qed.

Lemma joseph_short n m (P : 'M[R]_n) (H : 'M[R]_(m, n)) Rk K :
  P^T = P -> Rk^T = Rk -> K *m innovation P H Rk = P *m H^T ->
  joseph P H Rk K = P - K *m H *m P.
Proof.
move=> hP hR hK; rewrite joseph_optimal // -mulmxA; congr (_ - _).
rewrite -(innovation_sym H hP hR) -trmx_mul hK trmx_mul trmxK hP.
by rewrite mulmxA.
Qed.

(** ** Two observables *)
Section Two.
Context (n m1 m2 : nat) (P : 'M[R]_n) (H1 : 'M[R]_(m1, n)) (H2 : 'M[R]_(m2, n))
        (R1 : 'M[R]_m1) (R2 : 'M[R]_m2) (K1 : 'M[R]_(n, m1)) (K2 : 'M[R]_(n, m2)).
Context (hP : P^T = P) (hR1 : R1^T = R1) (hR2 : R2^T = R2).
Let P1 := joseph P H1 R1 K1.
Context (hK1 : K1 *m innovation P H1 R1 = P *m H1^T)
        (hK2 : K2 *m innovation P1 H2 R2 = P1 *m H2^T).
Let H := col_mx H1 H2.
Let Rk : 'M[R]_(m1 + m2) := block_mx R1 0 0 R2.
Let K := row_mx ((1%:M - K2 *m H2) *m K1) K2.

Lemma two_P1 : P1 = P - K1 *m H1 *m P.
Proof. exact: joseph_short. Qed.

Lemma two_gain : K *m innovation P H Rk = P *m H^T.
Proof.
have e1 : K1 *m H1 *m P *m H1^T + K1 *m R1 = P *m H1^T.
  by rewrite -hK1 /innovation mulmxDr !mulmxA.
have e2 : K2 *m H2 *m P *m H2^T - K2 *m H2 *m K1 *m H1 *m P *m H2^T + K2 *m R2
          = P *m H2^T - K1 *m H1 *m P *m H2^T.
  have := hK2; rewrite two_P1 /innovation mulmxDr !mulmxA !mulmxBr !mulmxBl !mulmxA.
  by move=> ->.
rewrite /K /innovation /H /Rk tr_col_mx mul_mx_row mul_col_row.
rewrite add_block_mx !addr0 mul_row_block; congr row_mx.
- rewrite !(mulmxDr, mulmxDl, mulmxBl, mulmxBr, mul1mx, mulNmx, mulmxN) !mulmxA.
  rewrite -[RHS]e1 -[K2 *m H2 *m P *m H1^T]addr0 -(subrr (K2 *m H2 *m K1 *m R1)).
  have := congr1 (fun A => K2 *m H2 *m A) e1; rewrite mulmxDr !mulmxA => <-.
  abel.
- rewrite !(mulmxDr, mulmxDl, mulmxBl, mulmxBr, mul1mx, mulNmx, mulmxN) !mulmxA.
  have -> : P *m H2^T = K2 *m H2 *m P *m H2^T - K2 *m H2 *m K1 *m H1 *m P *m H2^T + K2 *m R2
                        + K1 *m H1 *m P *m H2^T by rewrite e2 subrK.
  abel.
Qed.

Lemma two_covariance : joseph P1 H2 R2 K2 = joseph P H Rk K.
Proof.
have hRk : Rk^T = Rk by rewrite /Rk tr_block_mx !trmx0 hR1 hR2.
rewrite (joseph_short hP hRk two_gain) joseph_short //; last first.
  by rewrite /P1 /joseph; apply: symD; apply: sym_conj.
rewrite two_P1 /K /H mul_row_col !(mulmxDr, mulmxDl, mulmxBl, mulmxBr, mul1mx, mulNmx, mulmxN) ?mulmxA.
abel.
Qed.

Lemma two_state (x : 'cV[R]_n) (y1 : 'cV[R]_m1) (y2 : 'cV[R]_m2) :
  let x1 := x + K1 *m (y1 - H1 *m x) in
  x1 + K2 *m (y2 - H2 *m x1) = x + K *m (col_mx y1 y2 - H *m x).
Proof.
cbv zeta; rewrite /K /H mul_col_mx opp_col_mx add_col_mx mul_row_col.
rewrite !(mulmxDr, mulmxDl, mulmxBl, mulmxBr, mul1mx, mulNmx, mulmxN) !mulmxA.
abel.
Qed.
End Two.

(** The gain of the observables taken in the other order. *)
Lemma swapped_gain n m1 m2 (P : 'M[R]_n) (H1 : 'M[R]_(m1, n)) (H2 : 'M[R]_(m2, n))
    (R1 : 'M[R]_m1) (R2 : 'M[R]_m2) (A : 'M[R]_(n, m1)) (B : 'M[R]_(n, m2)) :
  row_mx A B *m innovation P (col_mx H1 H2) (block_mx R1 0 0 R2) = P *m (col_mx H1 H2)^T ->
  row_mx B A *m innovation P (col_mx H2 H1) (block_mx R2 0 0 R1) = P *m (col_mx H2 H1)^T.
Proof.
rewrite /innovation !tr_col_mx ![P *m row_mx _ _]mul_mx_row !mul_col_row !add_block_mx !addr0.
rewrite !mul_row_block.
case/eq_row_mx=> e1 e2; congr row_mx; rewrite addrC; [exact: e2|exact: e1].
Qed.

Lemma gain_unique n m (P : 'M[R]_n) (H : 'M[R]_(m, n)) Rk K K' :
  innovation P H Rk \in unitmx ->
  K *m innovation P H Rk = P *m H^T -> K' *m innovation P H Rk = P *m H^T -> K = K'.
Proof. by move=> hU h h'; rewrite -(mulmxK hU K) h -h' mulmxK. Qed.
End Gain.
