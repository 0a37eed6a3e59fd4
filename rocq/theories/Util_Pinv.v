(** Model of the macro [pseudo_inverse!] (nyx-core/src/utils.rs:428-445) and its
    properties (C50).  Matrices have exact entries in a real closed field. *)
From Verif Require Import Base.
From mathcomp Require Import all_ssreflect all_algebra.
From Verif Require Import Kf_Model Kf_Linalg.
Import Order.TTheory GRing.Theory Num.Theory.
Set Implicit Arguments.
Unset Strict Implicit.
Unset Printing Implicit Defensive.
Local Open Scope ring_scope.

Section Pinv.
Context {R : rcfType}.

(** [TargetingError::SingularJacobian]. *)
Inductive singular := SingularJacobian.

(** utils.rs:430-443. *)
Definition pseudo_inverse rows cols (A : 'M[R]_(rows, cols)) : res singular 'M[R]_(cols, rows) :=
  if (rows < cols)%N then
    match try_inverse (A *m A^T) with
    | Some m1_inv => Ok (A^T *m m1_inv)
    | None => Err SingularJacobian
    end
  else
    match try_inverse (A^T *m A) with
    | Some m2_inv => Ok (m2_inv *m A^T)
    | None => Err SingularJacobian
    end.

Lemma pinv_right r c (A : 'M[R]_(r, c)) P :
  (r < c)%N -> pseudo_inverse A = Ok P ->
  A *m A^T \in unitmx /\ P = A^T *m invmx (A *m A^T).
Proof.
move=> rc; rewrite /pseudo_inverse rc /try_inverse; case: ifP => // U.
by move=> [= <-]; split.
Qed.

Lemma pinv_left r c (A : 'M[R]_(r, c)) P :
  (c <= r)%N -> pseudo_inverse A = Ok P ->
  A^T *m A \in unitmx /\ P = invmx (A^T *m A) *m A^T.
Proof.
move=> rc; rewrite /pseudo_inverse ltnNge rc /= /try_inverse; case: ifP => // U.
by move=> [= <-]; split.
Qed.

Lemma norm_squared_ge0 m (v : 'cV[R]_m) : 0 <= norm_squared v.
Proof. by apply: sumr_ge0 => i _; rewrite -expr2 sqr_ge0. Qed.

Lemma norm_squared_eq0 m (v : 'cV[R]_m) : norm_squared v = 0 -> v = 0.
Proof.
move=> H; apply/colP => i; rewrite mxE.
have N j : true -> 0 <= v j 0 * v j 0 by move=> _; rewrite -expr2 sqr_ge0.
have E : \sum_(j | true) v j 0 * v j 0 == 0 by apply/eqP.
move: E; rewrite psumr_eq0 // => /allP /(_ i (mem_index_enum i)) /=.
by rewrite -expr2 sqrf_eq0 => /eqP.
Qed.

Lemma norm_squaredD m (u v : 'cV[R]_m) : u^T *m v = 0 ->
  norm_squared (u + v) = norm_squared u + norm_squared v.
Proof.
move=> H; rewrite !norm_squaredE [(u + v)^T]linearD /= mulmxDl !mulmxDr H addr0.
have -> : v^T *m u = 0 by rewrite -[LHS]trmxK trmx_mul trmxK H trmx0.
by rewrite add0r mxE.
Qed.

(** ** C50: the pseudo-inverse *)

(** One-sided inverse: on the right for a wide matrix, on the left otherwise. *)
Theorem C50_pseudo_inverse_one_sided r c (A : 'M[R]_(r, c)) P :
  pseudo_inverse A = Ok P ->
  ((r < c)%N -> A *m P = 1%:M) /\ ((c <= r)%N -> P *m A = 1%:M).
Proof.
move=> H; split=> rc.
  by case: (pinv_right rc H) => U ->; rewrite mulmxA mulmxV.
by case: (pinv_left rc H) => U ->; rewrite -mulmxA mulVmx.
Qed.

(** It exists exactly when the matrix has full rank. *)
Lemma gram_unit m n (A : 'M[R]_(m, n)) : (A *m A^T \in unitmx) = row_free A.
Proof.
apply/idP/idP => [U|F].
  apply/row_freeP; exists (A^T *m invmx (A *m A^T)).
  by rewrite mulmxA mulmxV.
rewrite -row_free_unit -kermx_eq0; apply/eqP/row_matrixP => i.
set k := row i _; rewrite row0.
have K : k *m (A *m A^T) = 0.
  by apply/eqP; rewrite -sub_kermx row_sub.
have Z : k *m A = 0.
  have : norm_squared (k *m A)^T = 0.
    by rewrite norm_squaredE trmxK trmx_mul -mulmxA (mulmxA A) mulmxA K mul0mx mxE.
  by move/norm_squared_eq0 => H; rewrite -[LHS]trmxK H trmx0.
case/row_freeP: F => B AB.
by rewrite -[k]mulmx1 -AB mulmxA Z mul0mx.
Qed.

Theorem C50_pseudo_inverse_exists_iff_full_rank r c (A : 'M[R]_(r, c)) :
  (exists P, pseudo_inverse A = Ok P) <-> \rank A = minn r c.
Proof.
rewrite /pseudo_inverse /try_inverse; case: ltnP => rc.
  rewrite gram_unit /row_free; split.
    by case=> P; case: eqP.
  by move=> ->; rewrite eqxx; eexists.
have -> : (A^T *m A \in unitmx) = row_free A^T by rewrite -gram_unit trmxK.
rewrite /row_free mxrank_tr; split.
  by case=> P; case: eqP.
by move=> ->; rewrite eqxx; eexists.
Qed.

(** For a wide matrix, it gives the solution of [A x = b] of least norm. *)
Theorem C50_pseudo_inverse_least_norm r c (A : 'M[R]_(r, c)) P (b : 'cV[R]_r) (x : 'cV[R]_c) :
  (r < c)%N -> pseudo_inverse A = Ok P -> A *m x = b ->
  A *m (P *m b) = b /\ norm_squared (P *m b) <= norm_squared x.
Proof.
move=> rc H Ax; have [AP _] := C50_pseudo_inverse_one_sided H.
split; first by rewrite mulmxA AP // mul1mx.
have [U PE] := pinv_right rc H.
rewrite -[x](subrK (P *m b)) addrC norm_squaredD; last first.
  have Z : A *m (x - P *m b) = 0 by rewrite mulmxBr Ax mulmxA AP // mul1mx subrr.
  by rewrite {1}PE !trmx_mul trmxK -!mulmxA Z !mulmx0.
by rewrite ler_addl norm_squared_ge0.
Qed.

(** For a square or tall matrix, it gives the least squares solution. *)
Theorem C50_pseudo_inverse_least_squares r c (A : 'M[R]_(r, c)) P (b : 'cV[R]_r) (x : 'cV[R]_c) :
  (c <= r)%N -> pseudo_inverse A = Ok P ->
  norm_squared (A *m (P *m b) - b) <= norm_squared (A *m x - b).
Proof.
move=> rc H; have [U PE] := pinv_left rc H.
have -> : A *m x - b = (A *m (P *m b) - b) + A *m (x - P *m b).
  by rewrite mulmxBr [RHS]addrC addrA subrK.
have Z : A^T *m (A *m (P *m b) - b) = 0.
  by rewrite mulmxBr PE !mulmxA mulmxV // mul1mx subrr.
rewrite [X in _ <= X]norm_squaredD; first by rewrite ler_addl norm_squared_ge0.
by rewrite mulmxA -[_^T *m A]trmxK trmx_mul trmxK Z trmx0 mul0mx.
Qed.

End Pinv.

(** The hypotheses are met: a 1x2 and a 2x1 matrix of ones. *)
Lemma ones_full_rank (R : rcfType) :
  (exists P, pseudo_inverse (const_mx 1 : 'M[R]_(1, 2)) = Ok P)
  /\ (exists P, pseudo_inverse (const_mx 1 : 'M[R]_(2, 1)) = Ok P).
Proof.
have E : \rank (const_mx 1 : 'M[R]_(1, 2)) = 1%N.
  rewrite rank_rV; case: eqP => // /rowP /(_ 0); rewrite !mxE => /eqP.
  by rewrite oner_eq0.
split; apply/C50_pseudo_inverse_exists_iff_full_rank => //.
by rewrite -mxrank_tr trmx_const.
Qed.
Example pseudo_inverse_nonvacuous (R : rcfType) :
  exists P, pseudo_inverse (const_mx 1 : 'M[R]_(1, 2)) = Ok P.
Proof. exact: (proj1 (ones_full_rank R)). Qed.

Print Assumptions C50_pseudo_inverse_one_sided.
Print Assumptions C50_pseudo_inverse_exists_iff_full_rank.
Print Assumptions C50_pseudo_inverse_least_norm.
Print Assumptions C50_pseudo_inverse_least_squares.
