(** Linear algebra for the filter: quadratic forms, the Cholesky decomposition, and the gain. *)
From Verif Require Import Base.
From mathcomp Require Import all_ssreflect all_algebra.
From Verif Require Import Kf_Model Kf_Spec.
Import Order.TTheory GRing.Theory Num.Theory.
Set Implicit Arguments.
Unset Strict Implicit.
Unset Printing Implicit Defensive.
Local Open Scope ring_scope.

Section Linalg.
Context {R : rcfType}.

Lemma mx11_eq (A B : 'M[R]_1) : A 0 0 = B 0 0 -> A = B.
Proof. by move=> H; apply/matrixP=> i j; rewrite !ord1. Qed.

Lemma quadD n (P Q : 'M[R]_n) x : quad (P + Q) x = quad P x + quad Q x.
Proof. by rewrite /quad mulmxDr mulmxDl mxE. Qed.
Lemma quadN n (P : 'M[R]_n) x : quad (- P) x = - quad P x.
Proof. by rewrite /quad mulmxN mulNmx mxE. Qed.
Lemma quadB n (P Q : 'M[R]_n) x : quad (P - Q) x = quad P x - quad Q x.
Proof. by rewrite quadD quadN. Qed.
Lemma quadZ n c (P : 'M[R]_n) x : quad (c *: P) x = c * quad P x.
Proof. by rewrite /quad -scalemxAr -scalemxAl mxE. Qed.
Lemma quad_conj n m (A : 'M[R]_(n, m)) (P : 'M[R]_m) x : quad (A *m P *m A^T) x = quad P (A^T *m x).
Proof. by rewrite /quad trmx_mul trmxK !mulmxA. Qed.
Lemma quad_tr n (P : 'M[R]_n) x : quad P^T x = quad P x.
Proof.
rewrite /quad; set M := x^T *m P *m x; rewrite -[RHS](_ : M^T 0 0 = M 0 0); last by rewrite mxE.
by rewrite /M !trmx_mul trmxK mulmxA.
Qed.
Lemma quad0 n (P : 'M[R]_n) : quad P 0 = 0.
Proof. by rewrite /quad mulmx0 mxE. Qed.

Lemma psd0 n : psd (0 : 'M[R]_n).
Proof. by move=> x; rewrite /quad mulmx0 mul0mx mxE. Qed.
Lemma psdD n (P Q : 'M[R]_n) : psd P -> psd Q -> psd (P + Q).
Proof. by move=> hP hQ x; rewrite quadD addr_ge0. Qed.
Lemma psdZ n c (P : 'M[R]_n) : 0 <= c -> psd P -> psd (c *: P).
Proof. by move=> c0 hP x; rewrite quadZ mulr_ge0. Qed.
Lemma psd_conj n m (A : 'M[R]_(n, m)) (P : 'M[R]_m) : psd P -> psd (A *m P *m A^T).
Proof. by move=> hP x; rewrite quad_conj. Qed.
Lemma psd_tr n (P : 'M[R]_n) : psd P -> psd P^T.
Proof. by move=> hP x; rewrite quad_tr. Qed.

Lemma sym_conj n m (A : 'M[R]_(n, m)) (P : 'M[R]_m) : P^T = P -> (A *m P *m A^T)^T = A *m P *m A^T.
Proof. by move=> h; rewrite !trmx_mul trmxK h mulmxA. Qed.
Lemma symD n (P Q : 'M[R]_n) : P^T = P -> Q^T = Q -> (P + Q)^T = P + Q.
Proof. by move=> hP hQ; rewrite linearD /= hP hQ. Qed.

Lemma covariance_conj n m (A : 'M[R]_(n, m)) (P : 'M[R]_m) :
  covariance P -> covariance (A *m P *m A^T).
Proof. by case=> h1 h2; split; [exact: sym_conj|exact: psd_conj]. Qed.
Lemma covarianceD n (P Q : 'M[R]_n) : covariance P -> covariance Q -> covariance (P + Q).
Proof. by case=> h1 h2 [h3 h4]; split; [exact: symD|exact: psdD]. Qed.
Lemma covariance0 n : covariance (0 : 'M[R]_n).
Proof. by split; [rewrite trmx0|exact: psd0]. Qed.

Lemma quad_diag n (d : 'rV[R]_n) x : quad (diag_mx d) x = \sum_i d 0 i * (x i 0) ^+ 2.
Proof.
rewrite /quad mxE; apply: eq_bigr => i _; rewrite mul_mx_diag !mxE expr2.
by rewrite -mulrA mulrCA.
Qed.
Lemma covariance_diag n (d : 'rV[R]_n) : (forall i, 0 <= d 0 i) -> covariance (diag_mx d).
Proof.
move=> h; split; first exact: tr_diag_mx.
by move=> x; rewrite quad_diag sumr_ge0 // => i _; rewrite mulr_ge0 ?sqr_ge0.
Qed.

(** ** Definite matrices *)
Lemma definite_covariance n (P : 'M[R]_n) : definite P -> covariance P.
Proof.
case=> h1 h2; split=> // x; case: (x =P 0) => [->|/eqP h]; first by rewrite quad0.
exact: ltW (h2 x h).
Qed.
Lemma definiteD n (P Q : 'M[R]_n) : covariance P -> definite Q -> definite (P + Q).
Proof.
case=> h1 h2 [h3 h4]; split; first exact: symD.
by move=> x hx; rewrite quadD; apply: ltr_paddl; [exact: h2|exact: h4].
Qed.

Lemma definite_unit n (P : 'M[R]_n) : definite P -> P \in unitmx.
Proof.
case=> h1 h2; rewrite -row_free_unit -kermx_eq0; apply: contraT => /rowV0Pn[v hv v0].
have : 0 < quad P v^T by apply: h2; rewrite trmx_eq0.
move/sub_kermxP: hv => hv; by rewrite /quad trmxK hv mul0mx mxE ltxx.
Qed.

Lemma quad_block p n (s : 'M[R]_p) (S : 'M[R]_n) (x : 'cV[R]_p) (y : 'cV[R]_n) :
  quad (block_mx s 0 0 S : 'M_(p + n)) (col_mx x y) = quad s x + quad S y.
Proof.
rewrite /quad tr_col_mx mul_row_block !mulmx0 addr0 add0r mul_row_col mxE //.
Qed.

Lemma definite_block p n (A : 'M[R]_p) (B : 'M[R]_n) :
  definite A -> definite B -> definite (block_mx A 0 0 B).
Proof.
move=> hA hB; split; first by rewrite tr_block_mx !trmx0 (proj1 hA) (proj1 hB).
move=> x; rewrite -(vsubmxK x) quad_block; case: (usubmx x =P 0) => [->|/eqP h] hx.
- rewrite quad0 add0r; apply: (proj2 hB); apply: contraNneq hx => ->; by rewrite col_mx0.
- apply: ltr_paddr; last exact: (proj2 hA).
  exact: (proj2 (definite_covariance hB)).
Qed.

(** One step of the decomposition. *)
Section Step.
Context (m : nat) (A : 'M[R]_(1 + m)).
Let d := A 0 0.
Let l := Num.sqrt d.
Let c := l^-1 *: dlsubmx A.
Let S := drsubmx A - c *m c^T.
Context (hd : 0 < d) (hA : A^T = A).

Lemma step_l : l * l = d.
Proof. by rewrite /l -expr2 sqr_sqrtr // ltW. Qed.
Lemma step_l0 : l != 0.
Proof. by rewrite /l gt_eqF // sqrtr_gt0. Qed.
Lemma step_ul : ulsubmx A = d%:M.
Proof. by apply: mx11_eq; rewrite !mxE /d mulr1n; congr (A _ _); apply/val_inj. Qed.
Lemma step_ur : ursubmx A = (dlsubmx A)^T.
Proof. by rewrite trmx_dlsub hA. Qed.

Lemma step_factor :
  A = (block_mx l%:M 0 c 1%:M : 'M_(1 + m)) *m (block_mx 1%:M 0 0 S : 'M_(1 + m))
      *m (block_mx l%:M 0 c 1%:M : 'M_(1 + m))^T.
Proof.
rewrite tr_block_mx !mulmx_block !mulmx0 !mul0mx !mulmx1 !mul1mx !trmx0 !mulmx0 !addr0 !add0r.
rewrite !trmx1 !mulmx1 !tr_scalar_mx -scalar_mxM step_l.
rewrite addr0 [c *m c^T + _]addrC subrK mul_mx_scalar mul_scalar_mx.
have -> : l *: c = dlsubmx A by rewrite /c scalerA mulfV ?step_l0 // scale1r.
have -> : l *: c^T = (dlsubmx A)^T by rewrite /c linearZ /= scalerA mulfV ?step_l0 // scale1r.
by rewrite -step_ul -step_ur submxK.
Qed.

Lemma step_definite : definite A -> definite S.
Proof.
case=> _ h; split.
  rewrite /S linearB /= trmx_mul trmxK; congr (_ - _).
  by rewrite trmx_drsub hA.
move=> y hy; pose x : 'cV[R]_(1 + m) := col_mx (- (l^-1 *: (c^T *m y))) y.
have hx : x != 0.
  apply: contraNneq hy => h0.
  have : dsubmx x = 0 by rewrite h0 linear0.
  by rewrite col_mxKd => ->.
have := h x hx; rewrite {1}step_factor quad_conj.
rewrite tr_block_mx mul_block_col trmx0 !mul0mx add0r trmx1 mul1mx tr_scalar_mx mul_scalar_mx.
rewrite scalerN scalerA mulfV ?step_l0 // scale1r addNr.
by rewrite quad_block quad0 add0r.
Qed.
End Step.

Lemma definite_corner m (A : 'M[R]_(1 + m)) : definite A -> 0 < A 0 0.
Proof.
case=> _ h; have := h (delta_mx 0 0); rewrite /quad.
rewrite trmx_delta -rowE -colE !mxE; apply.
by apply/negP=> /eqP/matrixP/(_ 0 0); rewrite !mxE eqxx => /eqP; rewrite oner_eq0.
Qed.

Lemma cholesky_complete m (A : 'M[R]_m) : definite A -> exists L, cholesky A = Some L.
Proof.
elim: m A => [|m IH] A hA /=; first by exists A.
rewrite (definite_corner hA).
have [L ->] := IH _ (step_definite (definite_corner hA) (proj1 hA) hA); by eexists.
Qed.

Lemma cholesky_correct m (A L : 'M[R]_m) :
  A^T = A -> cholesky A = Some L -> L *m L^T = A /\ L \in unitmx.
Proof.
elim: m A L => [|m IH] A L hA /=.
  move=> [<-]; split; first by apply/matrixP=> -[].
  by rewrite unitmxE det_mx00 unitr1.
case: ifP => // hd; case E: cholesky => [L'|] // [<-].
have [|h1 h2] := IH _ _ _ E.
  by rewrite linearB /= trmx_mul trmxK trmx_drsub hA.
split; last first.
  rewrite unitmxE (det_lblock (_ : 'M_1)) unitrM det_scalar1 -!unitmxE h2 andbT.
  by rewrite unitfE gt_eqF // sqrtr_gt0.
rewrite [RHS](step_factor hd hA) !(tr_block_mx (_ : 'M_1)) !mulmx_block.
rewrite !trmx0 !trmx1 !mulmx0 !mul0mx !mulmx1 !mul1mx !addr0 !add0r -h1.
have H (x : 'M[R]_1) (y : 'cV[R]_m) z :
    (block_mx x 0 y z : 'M_(1 + m)) *m (block_mx x^T y^T 0 z^T : 'M_(1 + m))
    = block_mx (x *m x^T) (x *m y^T) (y *m x^T) (y *m y^T + z *m z^T).
  by rewrite mulmx_block !mulmx0 !mul0mx !addr0.
exact: H.
Qed.

Lemma cholesky_definite m (A L : 'M[R]_m) : A^T = A -> cholesky A = Some L -> definite A.
Proof.
move=> hA hL; have [h1 h2] := cholesky_correct hA hL; split=> // x hx.
rewrite -h1 -[L in L *m _]mulmx1 quad_conj.
have : L^T *m x != 0.
  apply: contraNneq hx => h0.
  by rewrite -[x](mulKmx (_ : L^T \in unitmx)) ?unitmx_tr // h0 mulmx0.
move: (L^T *m x) => y hy; rewrite /quad mulmx1 mxE.
under eq_bigr => i _ do rewrite mxE -expr2.
rewrite lt_neqAle sumr_ge0 ?andbT; last by move=> i _; exact: sqr_ge0.
apply: contra hy; rewrite eq_sym psumr_eq0; last by move=> i _; exact: sqr_ge0.
move=> /allP h; apply/eqP/matrixP=> i j; rewrite ord1 mxE.
by have := h i (mem_index_enum i); rewrite sqrf_eq0 => /eqP.
Qed.

Lemma cholesky_none m (A : 'M[R]_m) : A^T = A -> cholesky A = None -> ~ definite A.
Proof. by move=> hA h /cholesky_complete[L]; rewrite h. Qed.

Lemma invmx_mul m (A B : 'M[R]_m) :
  A \in unitmx -> B \in unitmx -> invmx (A *m B) = invmx B *m invmx A.
Proof.
move=> hA hB; have hU : A *m B \in unitmx by rewrite unitmx_mul hA.
rewrite -[RHS](mulKmx hU) -mulmxA [B *m _]mulmxA mulmxV // mul1mx mulmxV //.
by rewrite mulmx1.
Qed.

Lemma cholesky_solveE m q (A L : 'M[R]_m) (b : 'M[R]_(m, q)) :
  A^T = A -> cholesky A = Some L -> cholesky_solve L b = invmx A *m b.
Proof.
move=> hA hL; have [<- h2] := cholesky_correct hA hL.
rewrite /cholesky_solve /solve_lower_triangular mulmxA; congr (_ *m _).
by rewrite invmx_mul ?unitmx_tr.
Qed.

Lemma norm_squaredE m (v : 'cV[R]_m) : norm_squared v = (v^T *m v) 0 0.
Proof. by rewrite mxE; apply: eq_bigr => i _; rewrite mxE. Qed.

(** The squared length of the whitened vector is the squared Mahalanobis distance. *)
Lemma whitened_norm m (A L : 'M[R]_m) (b : 'cV[R]_m) :
  A^T = A -> cholesky A = Some L ->
  norm_squared (solve_lower_triangular L b) = quad (invmx A) b.
Proof.
move=> hA hL; have [<- h2] := cholesky_correct hA hL.
rewrite norm_squaredE /solve_lower_triangular /quad trmx_mul invmx_mul ?unitmx_tr //.
by rewrite trmx_inv !mulmxA.
Qed.
End Linalg.
