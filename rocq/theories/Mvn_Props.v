(** C48: the multivariate generator of spacecraft. *)
From Verif Require Import Base.
From mathcomp Require Import all_ssreflect all_algebra.
From Verif Require Import Kf_Model Kf_Spec Kf_Linalg Util_Pinv Mvn_Model.
Import Order.TTheory GRing.Theory Num.Theory.
Set Implicit Arguments.
Unset Strict Implicit.
Unset Printing Implicit Defensive.
Local Open Scope ring_scope.

(** ** Specification *)
Section Spec.
Context {R : rcfType}.

(** Mean of functions of nine draws that are uncorrelated, of mean 0 and of variance 1: nothing
    else of the normal distribution is used. *)
Record expectation (E : ('cV[R]_9 -> R) -> R) : Prop := {
  E_ext : forall f g, (forall z, f z = g z) -> E f = E g;
  E_linear : forall a b f g, E (fun z => a * f z + b * g z) = a * E f + b * E g;
  E_one : E (fun _ => 1) = 1;
  E_mean : forall i, E (fun z => z i 0) = 0;
  E_cov : forall i j, E (fun z => z i 0 * z j 0) = (i == j)%:R
}.
Definition covar (E : ('cV[R]_9 -> R) -> R) (f g : 'cV[R]_9 -> R) : R :=
  E (fun z => (f z - E f) * (g z - E g)).

(** What a singular value decomposition is. *)
Definition svd_correct (svd : 'M[R]_9 -> option ('rV[R]_9 * 'M[R]_9)) (A : 'M[R]_9) : Prop :=
  match svd A with
  | Some (s, v) => exists u : 'M[R]_9, [/\ u^T *m u = 1%:M, v^T *m v = 1%:M,
      (forall i, 0 <= s 0 i) & A = u *m diag_mx s *m v^T]
  | None => True
  end.
(** What the list of the eigenvalues is. *)
Definition eigenvalues_correct (ev : 'M[R]_9 -> option (list R)) (A : 'M[R]_9) : Prop :=
  match ev A with
  | Some l => forall a, (exists2 w : 'cV[R]_9, w != 0 & A *m w = a *: w) <-> a \in l
  | None => True
  end.
End Spec.

(** ** The root of a covariance *)
Section Root.
Context {R : rcfType}.

Lemma col_mulmx n (A B : 'M[R]_n) j : col j (A *m B) = A *m col j B.
Proof. by rewrite !colE mulmxA. Qed.

Lemma sym_svd n (A u v : 'M[R]_n) (s : 'rV[R]_n) :
  A^T = A -> (forall a (w : 'cV[R]_n), w != 0 -> A *m w = a *: w -> 0 <= a) ->
  u^T *m u = 1%:M -> v^T *m v = 1%:M -> (forall i, 0 <= s 0 i) -> A = u *m diag_mx s *m v^T ->
  v *m diag_mx s *m v^T = A.
Proof.
move=> As Ae uu vv s0 Af.
have vv' : v *m v^T = 1%:M by apply: mulmx1C.
set S := diag_mx s; pose M := v^T *m A *m v.
have Ms : M^T = M by rewrite /M !trmx_mul trmxK As mulmxA.
have St : S^T = S by rewrite /S tr_diag_mx.
have MM : M *m M = S *m S.
  have -> : M *m M = v^T *m (A *m A) *m v.
    by rewrite /M !mulmxA -(mulmxA (v^T *m A) v) vv' mulmx1.
  rewrite -{1}As {1}Af !trmx_mul trmxK -/S St Af -/S !mulmxA vv mul1mx.
  by rewrite -(mulmxA S u^T) uu mulmx1 -(mulmxA (S *m S)) vv mulmx1.
have MS : M *m S = S *m M.
  have H : M *m (S *m S) = (S *m S) *m M by rewrite -MM mulmxA.
  apply/matrixP => i j; move/matrixP: H => /(_ i j).
  have -> : S *m S = diag_mx (\row_k (s 0 k ^+ 2)).
    apply/matrixP => k l; rewrite /S mul_mx_diag !mxE.
    by case: eqP => [->|_]; rewrite ?mulr1n ?mulr0n ?mul0r // expr2.
  have rE (d : 'rV[R]_n) : (M *m diag_mx d) i j = M i j * d 0 j by rewrite mul_mx_diag mxE.
  have lE (d : 'rV[R]_n) : (diag_mx d *m M) i j = d 0 i * M i j by rewrite mul_diag_mx mxE.
  have dE k : (\row_k (s 0 k ^+ 2)) 0 k = s 0 k ^+ 2 by rewrite mxE.
  rewrite /S !rE !lE !dE => H.
  case: (eqVneq (M i j) 0) => [->|M0]; first by rewrite mul0r mulr0.
  rewrite mulrC; congr (_ * _); apply/eqP; rewrite -(@eqr_expn2 _ 2) //; apply/eqP.
  by apply: (mulfI M0); rewrite H mulrC.
pose D := M - S.
have Ds : D^T = D by rewrite /D linearB /= Ms St.
have DS : D *m S = S *m D by rewrite /D mulmxBl mulmxBr MS.
have MD : M *m D = - (S *m D).
  by rewrite /D !mulmxBr MM MS opprB.
have D0 : D = 0.
  apply/matrixP => i j; rewrite [RHS]mxE.
  pose w := col j D.
  have Sw : S *m w = s 0 j *: w.
    rewrite /w -col_mulmx -DS /S mul_mx_diag.
    by apply/colP => k; rewrite !mxE mulrC.
  have Mw : M *m w = - s 0 j *: w.
    rewrite scaleNr -Sw /w -!col_mulmx MD.
    by apply/colP => k; rewrite !mxE.
  suff W : w = 0 by move/colP: W => /(_ i); rewrite !mxE.
  apply/eqP; apply: contraT => w0.
  have vw0 : v *m w != 0.
    apply: contra w0 => /eqP H; apply/eqP.
    by rewrite -[w]mul1mx -vv -mulmxA H mulmx0.
  have Avw : A *m (v *m w) = - s 0 j *: (v *m w).
    have -> : A *m (v *m w) = v *m (M *m w).
      by rewrite /M !mulmxA vv' mul1mx.
    by rewrite Mw -scalemxAr.
  have sj : s 0 j = 0.
    apply/eqP; rewrite eq_le s0 andbT.
    by have := Ae _ _ vw0 Avw; rewrite oppr_ge0.
  have Dw : D *m w = 0.
    by rewrite /D mulmxBl Sw Mw sj oppr0 scale0r subrr.
  have : norm_squared w = 0.
    rewrite norm_squaredE.
    have -> : w^T = row j D by rewrite /w tr_col Ds.
    by rewrite -row_mul Dw row0 mxE.
  by move/norm_squared_eq0 => H; rewrite H eqxx in w0.
have SE : S = M by apply/eqP; rewrite eq_sym -subr_eq0 -/D D0.
by rewrite SE /M !mulmxA vv' mul1mx -mulmxA vv' mulmx1.
Qed.

Lemma psd_eigen n (A : 'M[R]_n) : psd A -> forall a (w : 'cV[R]_n), w != 0 -> A *m w = a *: w -> 0 <= a.
Proof.
move=> Ap a w w0 Aw; have := Ap w.
rewrite /quad -mulmxA Aw -scalemxAr mxE -norm_squaredE.
have N : 0 < norm_squared w.
  rewrite lt_neqAle norm_squared_ge0 andbT eq_sym.
  by apply: contra w0 => /eqP /norm_squared_eq0 ->.
by rewrite pmulr_lge0.
Qed.

Context (svd : 'M[R]_9 -> option ('rV[R]_9 * 'M[R]_9)) {elt : Type}.

Lemma root_spec A (l : 'M[R]_9) : A^T = A -> (forall a (w : 'cV[R]_9), w != 0 -> A *m w = a *: w -> 0 <= a) ->
  svd_correct svd A -> root_of (elt := elt) svd A = Ok l -> l *m l^T = A.
Proof.
move=> As Ae; rewrite /svd_correct /root_of; case: (svd A) => [[s v]|//] [u [uu vv s0 Af]] [= <-].
rewrite -[RHS](sym_svd As Ae uu vv s0 Af).
apply/matrixP => i j; rewrite mul_mx_diag !mxE; apply: eq_bigr => k _.
by rewrite !mxE mulrACA -expr2 sqr_sqrtr // -mulrA [X in _ * X]mulrC mulrA.
Qed.
End Root.

(** ** Moments of a sample *)
Section Moments.
Context {R : rcfType} (E : ('cV[R]_9 -> R) -> R) (HE : expectation E).

Lemma E_scale a f : E (fun z => a * f z) = a * E f.
Proof.
transitivity (E (fun z => a * f z + 0 * f z)); first by apply: (E_ext HE) => z; rewrite mul0r addr0.
by rewrite (E_linear HE) mul0r addr0.
Qed.
Lemma E_zero : E (fun _ => 0) = 0.
Proof.
transitivity (E (fun z => 0 * (fun _ => 1) z)); first by apply: (E_ext HE) => z; rewrite mul0r.
by rewrite E_scale mul0r.
Qed.
Lemma E_add f g : E (fun z => f z + g z) = E f + E g.
Proof.
transitivity (E (fun z => 1 * f z + 1 * g z)); first by apply: (E_ext HE) => z; rewrite !mul1r.
by rewrite (E_linear HE) !mul1r.
Qed.
Lemma E_sum (I : finType) (f : I -> 'cV[R]_9 -> R) : E (fun z => \sum_i f i z) = \sum_i E (f i).
Proof.
elim: (index_enum I) => [|i l IH].
  rewrite big_nil -[RHS]E_zero; apply: (E_ext HE) => z; by rewrite big_nil.
rewrite big_cons -IH -E_add; apply: (E_ext HE) => z; by rewrite big_cons.
Qed.

Lemma E_row (a : 'rV[R]_9) c : E (fun z => (a *m z) 0 0 + c) = c.
Proof.
rewrite E_add; have -> : E (fun _ : 'cV[R]_9 => c) = c.
  by rewrite -[RHS]mulr1 -(E_one HE) -E_scale; apply: (E_ext HE) => z; rewrite mulr1.
have -> : E (fun z => (a *m z) 0 0) = 0; last by rewrite add0r.
have -> : E (fun z => (a *m z) 0 0) = E (fun z => \sum_i a 0 i * z i 0).
  by apply: (E_ext HE) => z; rewrite mxE.
by rewrite E_sum big1 // => i _; rewrite E_scale (E_mean HE) mulr0.
Qed.

Lemma covar_row (a b : 'rV[R]_9) c d :
  covar E (fun z => (a *m z) 0 0 + c) (fun z => (b *m z) 0 0 + d) = (a *m b^T) 0 0.
Proof.
rewrite /covar !E_row.
have -> : E (fun z => ((a *m z) 0 0 + c - c) * ((b *m z) 0 0 + d - d)) =
          E (fun z => \sum_i \sum_j (a 0 i * b 0 j) * (z i 0 * z j 0)).
  apply: (E_ext HE) => z; rewrite !addrK !mxE big_distrl /=; apply: eq_bigr => i _.
  rewrite big_distrr /=; apply: eq_bigr => j _; exact: mulrACA.
rewrite E_sum mxE; apply: eq_bigr => i _; rewrite E_sum (bigD1 i) //= E_scale (E_cov HE) eqxx mulr1.
rewrite big1 ?addr0 ?mxE // => j ji.
by rewrite E_scale (E_cov HE) eq_sym (negbTE ji) mulr0.
Qed.

Lemma covar_ext f f' g g' : (forall z, f z = f' z) -> (forall z, g z = g' z) -> covar E f g = covar E f' g'.
Proof.
move=> Hf Hg; rewrite /covar (E_ext HE Hf) (E_ext HE Hg); apply: (E_ext HE) => z; by rewrite Hf Hg.
Qed.
End Moments.

Section Mvn.
Context {R : rcfType} {elt : Type}.
Context (svd : 'M[R]_9 -> option ('rV[R]_9 * 'M[R]_9)) (eigenvalues : 'M[R]_9 -> option (list R)).
Context (partial_for : craft R -> elt -> option 'rV[R]_6) (b_plane_ok : craft R -> bool).
Context (element : elt -> craft R -> option R) (other_value : parameter elt -> craft R -> option R).
Notation dispersion := (dispersion R elt).
Notation new := (new svd partial_for b_plane_ok).


(** Linear functions of the offset of a sample. *)
Lemma moments (g : mvn R elt) E (a b : 'rV[R]_9) : expectation E ->
  E (fun z => (a *m offset g z) 0 0) = (a *m mean g) 0 0 /\
  covar E (fun z => (a *m offset g z) 0 0) (fun z => (b *m offset g z) 0 0)
    = (a *m (sqrt_s_v g *m (sqrt_s_v g)^T) *m b^T) 0 0.
Proof.
move=> HE; have off (c : 'rV[R]_9) z : (c *m offset g z) 0 0 = (c *m sqrt_s_v g *m z) 0 0 + (c *m mean g) 0 0.
  by rewrite /offset mulmxDr mulmxA [in LHS]mxE.
split; first by rewrite -[RHS](E_row HE (a *m sqrt_s_v g)); apply: (E_ext HE) => z; apply: off.
rewrite (covar_ext HE (off a) (off b)) (covar_row HE).
by rewrite trmx_mul !mulmxA.
Qed.

Local Notation unit_row i := (delta_mx 0 i : 'rV[R]_9).
Lemma entry_delta (x : 'cV[R]_9) i : x i 0 = (unit_row i *m x) 0 0.
Proof. by rewrite -rowE mxE. Qed.
Lemma entry_delta2 (C : 'M[R]_9) i j : C i j = (unit_row i *m C *m (unit_row j)^T) 0 0.
Proof. by rewrite trmx_delta -rowE -colE !mxE. Qed.

Lemma coordinate_moments (g : mvn R elt) E i j : expectation E ->
  E (fun z => offset g z i 0) = mean g i 0 /\
  covar E (fun z => offset g z i 0) (fun z => offset g z j 0) = (sqrt_s_v g *m (sqrt_s_v g)^T) i j.
Proof.
move=> HE; have [H1 H2] := moments g (unit_row i) (unit_row j) HE.
rewrite -(entry_delta (mean g)) in H1; rewrite -entry_delta2 in H2; split.
  by rewrite -H1; apply: (E_ext HE) => z; apply: entry_delta.
by rewrite -H2; apply: (covar_ext HE) => z; apply: entry_delta.
Qed.

(** A coordinate without variance is never changed by more than its mean. *)
Lemma no_variance (g : mvn R elt) k : (sqrt_s_v g *m (sqrt_s_v g)^T) k k = 0 ->
  forall z, offset g z k 0 = mean g k 0.
Proof.
move=> H z; have Z : row k (sqrt_s_v g) = 0.
  have : norm_squared (row k (sqrt_s_v g))^T = 0.
    rewrite norm_squaredE trmxK -[RHS]H -row_mul !mxE; apply: eq_bigr => i _.
    by rewrite !mxE.
  by move/norm_squared_eq0 => T; rewrite -[LHS]trmxK T trmx0.
have -> : offset g z k 0 = (row k (sqrt_s_v g) *m z) 0 0 + mean g k 0 by rewrite -row_mul !mxE.
by rewrite Z mul0mx mxE add0r.
Qed.

(** ** Generator of a covariance *)

(** C48: a generator made from a symmetric matrix that it accepts has that covariance and that
    mean; the matrix is then positive semi-definite. *)
Theorem C48_from_covariance axis t cov m (g : mvn R elt) E :
  expectation E -> cov^T = cov -> svd_correct svd cov -> eigenvalues_correct eigenvalues cov ->
  from_spacecraft_cov svd eigenvalues axis t cov m = Ok g ->
  [/\ psd cov,
      forall i, E (fun z => offset g z i 0) = m i 0 &
      forall i j, covar E (fun z => offset g z i 0) (fun z => offset g z j 0) = cov i j].
Proof.
move=> HE Cs Hs He; rewrite /from_spacecraft_cov; move: He; rewrite /eigenvalues_correct.
case: (eigenvalues cov) => [l|//] He; case: ifP => // /negbT Hl.
case Hr: (root_of _ _) => [r| | |] //= [= <-].
have Ae a (w : 'cV[R]_9) : w != 0 -> cov *m w = a *: w -> 0 <= a.
  move=> w0 Aw; have : a \in l by apply/He; exists w.
  by move: Hl => /hasPn H /H; rewrite -leNgt.
have Rr := root_spec Cs Ae Hs Hr.
split.
- rewrite -Rr -[r *m r^T]mulmx1 -mulmxA -[r^T *m 1%:M]mulmx1 mulmxA => x.
  have -> : r *m (r^T *m 1%:M) *m 1%:M = r *m 1%:M *m r^T by rewrite !mulmx1.
  rewrite quad_conj /quad mulmx1 -norm_squaredE; exact: norm_squared_ge0.
- by move=> i; exact: (proj1 (coordinate_moments _ i i HE)).
by move=> i j; etransitivity; [exact: (proj2 (coordinate_moments _ i j HE))|rewrite /= Rr].
Qed.

(** C48: a symmetric matrix that is not positive semi-definite is refused. *)
Theorem C48_not_psd_refused axis t cov m :
  cov^T = cov -> svd_correct svd cov -> eigenvalues_correct eigenvalues cov -> ~ psd cov ->
  from_spacecraft_cov (elt := elt) svd eigenvalues axis t cov m = Err NotPsd.
Proof.
move=> Cs Hs He Np; rewrite /from_spacecraft_cov; move: He; rewrite /eigenvalues_correct.
case: (eigenvalues cov) => [l|//] He; case: ifP => // /negbT Hl.
case Hr: (root_of _ _) => [r|e| |] /=; last 3 first.
- by move: Hr; rewrite /root_of; case: (svd cov) => [[? ?] //|[<-]].
- by move: Hr; rewrite /root_of; case: (svd cov) => [[]|].
- by move: Hr; rewrite /root_of; case: (svd cov) => [[]|].
have Ae a (w : 'cV[R]_9) : w != 0 -> cov *m w = a *: w -> 0 <= a.
  move=> w0 Aw; have : a \in l by apply/He; exists w.
  by move: Hl => /hasPn H /H; rewrite -leNgt.
case: Np; rewrite -(root_spec Cs Ae Hs Hr) => x.
have -> : r *m r^T = r *m 1%:M *m r^T by rewrite mulmx1.
rewrite quad_conj /quad mulmx1 -norm_squaredE; exact: norm_squared_ge0.
Qed.

(** ** Generator of dispersions *)

Lemma jacobian_rows_spec t (l : list dispersion) rows d0 : jacobian_rows partial_for t l = Ok rows ->
  forall i, (i < size l)%N ->
  exists2 e, param (nth d0 l i) = Element e & partial_for t e = Some (nth 0 rows i).
Proof.
elim: l rows => [|d l IH] rows //=.
case Hp: (param d) => [e| | | | | | | |] //; case Hr: (partial_for t e) => [row|] //.
case Hl: (jacobian_rows _ _ _) => [rs| | |] //= [= <-] [|i] Hi; first by exists e.
exact: IH.
Qed.

Lemma square_inverse r c (A : 'M[R]_(r, c)) P : r = c -> P *m A = 1%:M -> A *m P = 1%:M.
Proof. by move=> rc; move: A P; rewrite -rc => A P; apply: mulmx1C. Qed.

(** The covariance and the mean of the orbital part, seen from the dispersed elements. *)
Lemma orbital_part_spec t (l : list dispersion) c m d0 : (size l <= 6)%N ->
  orbital_part partial_for t l = Ok (c, m) ->
  covariance c /\
  forall i j ei ej pi pj, (i < size l)%N -> (j < size l)%N ->
    param (nth d0 l i) = Element ei -> partial_for t ei = Some pi ->
    param (nth d0 l j) = Element ej -> partial_for t ej = Some pj ->
    (pi *m m) 0 0 = unwrap_or_0 (mean_of (nth d0 l i)) /\
    (pi *m c *m pj^T) 0 0 = if i == j then unwrap_or_0 (std_dev (nth d0 l i)) ^+ 2 else 0.
Proof.
move=> l6; rewrite /orbital_part; case Hr: (jacobian_rows _ _ _) => [rows| | |] //=.
set J := \matrix_(i, j) _; set P := diag_mx _; set mu := \col_i _.
case HJ: (pseudo_inverse J) => [K| | |] //= [= <- <-].
have JK : J *m K = 1%:M.
  have [H1 H2] := C50_pseudo_inverse_one_sided HJ.
  case: (ltnP (size l) 6) => l6'; first exact: H1.
  apply: square_inverse; last exact: H2.
  by apply/eqP; rewrite eqn_leq l6 l6'.
split.
  apply: covariance_conj; apply: covariance_diag => i; rewrite mxE.
  by rewrite (nth_map d0) // sqr_ge0.
move=> i j ei ej pi pj li lj Hi Pi Hj Pj.
have rowE' k (lk : (k < size l)%N) p e : param (nth d0 l k) = Element e -> partial_for t e = Some p ->
    p = row (Ordinal lk) J.
  move=> Hk Pk; have [e' He'] := jacobian_rows_spec d0 Hr lk.
  rewrite Hk in He'; case: He' => <-; rewrite Pk => -[->].
  by apply/rowP => x; rewrite !mxE.
rewrite (rowE' _ li _ _ Hi Pi) (rowE' _ lj _ _ Hj Pj); split.
  rewrite mulmxA -row_mul JK -row_mul mul1mx !mxE.
  by rewrite (nth_map d0).
have -> : row (Ordinal li) J *m (K *m P *m K^T) *m (row (Ordinal lj) J)^T
    = row (Ordinal li) (J *m K *m P *m (J *m K)^T) *m (delta_mx 0 (Ordinal lj))^T.
  by rewrite [row (Ordinal lj) J]rowE !trmx_mul !row_mul !mulmxA.
rewrite JK trmx1 mul1mx mulmx1 trmx_delta -colE !mxE (nth_map d0) //.
by rewrite -val_eqE /=; case: (i == j); rewrite ?mulr1n ?mulr0n.
Qed.

Lemma rows_of_orbital t (l : list dispersion) c m : orbital_part partial_for t l = Ok (c, m) ->
  all (fun d => is_orbital (param d)) l.
Proof.
rewrite /orbital_part; case Hr: (jacobian_rows _ _ _) => [rows| | |] //= _.
elim: l rows Hr => //= d l IH rows; case: (param d) => // e; case: (partial_for t e) => // r.
by case H: (jacobian_rows _ _ _) => [rs| | |] //= _; apply: IH H.
Qed.

(** The six first coordinates of a sample. *)
Definition orbit_part (x : 'cV[R]_9) : 'cV[R]_6 := usubmx (x : 'cV[R]_(6 + 3)).

Lemma covariance_block (c : 'M[R]_6) : covariance c -> covariance (block_mx c 0 0 0 : 'M[R]_(6 + 3)).
Proof.
move=> [Cs Cp]; split; first by rewrite tr_block_mx !trmx0 Cs.
move=> x; rewrite -[x]vsubmxK quad_block.
have -> : quad 0 (dsubmx x) = 0 by rewrite /quad mulmx0 mul0mx mxE.
by rewrite addr0; apply: Cp.
Qed.

Lemma mul_orbit (p : 'rV[R]_6) (m : 'cV[R]_6) :
  ((row_mx p 0 : 'rV[R]_(6 + 3)) *m (col_mx m 0 : 'cV[R]_(6 + 3))) 0 0 = (p *m m) 0 0.
Proof. by rewrite mul_row_col mul0mx addr0. Qed.
Lemma conj_orbit (p q : 'rV[R]_6) (c : 'M[R]_6) :
  ((row_mx p 0 : 'rV[R]_(6 + 3)) *m (block_mx c 0 0 0 : 'M[R]_(6 + 3)) *m (row_mx q 0 : 'rV[R]_(6 + 3))^T) 0 0
  = (p *m c *m q^T) 0 0.
Proof.
by rewrite mul_row_block !mulmx0 ?mul0mx !addr0 tr_row_mx trmx0 mul_row_col mulmx0 addr0.
Qed.

Lemma low_col (m : 'cV[R]_6) i : (col_mx m 0 : 'cV[R]_(6 + 3)) (rshift 6 i) 0 = 0.
Proof. by rewrite col_mxEd mxE. Qed.
Lemma low_block (c : 'M[R]_6) i : (block_mx c 0 0 0 : 'M[R]_(6 + 3)) (rshift 6 i) (rshift 6 i) = 0.
Proof. by rewrite block_mxEdr mxE. Qed.

(** C48, orbital dispersions only: to the first order, every dispersed element has the requested
    mean and standard deviation, the dispersions are uncorrelated, and the reflectivity, the drag
    and the propellant do not change.  Partial: at most six dispersions (with more the elements are
    not independent), none of another kind (refuted below), first order. *)
Theorem C48_orbital_partial t (ds : list dispersion) g E d0 :
  expectation E -> (forall A, covariance A -> svd_correct svd A) ->
  all (fun d => is_orbital (param d)) ds -> (size ds <= 6)%N ->
  new t ds = Ok g ->
  (forall i j ei ej pi pj, (i < size ds)%N -> (j < size ds)%N ->
     param (nth d0 ds i) = Element ei -> partial_for t ei = Some pi ->
     param (nth d0 ds j) = Element ej -> partial_for t ej = Some pj ->
     E (fun z => (pi *m orbit_part (offset g z)) 0 0) = unwrap_or_0 (mean_of (nth d0 ds i)) /\
     covar E (fun z => (pi *m orbit_part (offset g z)) 0 0) (fun z => (pj *m orbit_part (offset g z)) 0 0)
       = if i == j then unwrap_or_0 (std_dev (nth d0 ds i)) ^+ 2 else 0) /\
  (forall z (k : 'I_9), (6 <= k)%N -> offset g z k 0 = 0).
Proof.
move=> HE Hs Ho l6; rewrite /Mvn_Model.new; case: ifP => // _.
have -> : [seq d <- ds | is_orbital (param d)] = ds by apply/all_filterP.
rewrite ltnn.
pose C : 'M[R]_6 -> 'M[R]_9 := fun c => (block_mx c 0 0 0 : 'M[R]_(6 + 3)).
pose W : 'cV[R]_6 -> 'cV[R]_9 := fun m => (col_mx m 0 : 'cV[R]_(6 + 3)).
have main c m (g' : mvn R elt) : covariance c -> sqrt_s_v g' *m (sqrt_s_v g')^T = C c -> mean g' = W m ->
    (forall p q : 'rV[R]_6, E (fun z => (p *m orbit_part (offset g' z)) 0 0) = (p *m m) 0 0 /\
       covar E (fun z => (p *m orbit_part (offset g' z)) 0 0) (fun z => (q *m orbit_part (offset g' z)) 0 0)
         = (p *m c *m q^T) 0 0) /\
    forall z (k : 'I_9), (6 <= k)%N -> offset g' z k 0 = 0.
  move=> Cc Lc Mm; split.
    move=> p q; pose a : 'rV[R]_9 := (row_mx p 0 : 'rV[R]_(6 + 3)); pose b : 'rV[R]_9 := (row_mx q 0 : 'rV[R]_(6 + 3)).
    have [M1 M2] := moments g' a b HE.
    have top (r : 'rV[R]_6) (x : 'cV[R]_9) : (r *m orbit_part x) 0 0 = ((row_mx r 0 : 'rV[R]_(6 + 3)) *m x) 0 0.
      by rewrite /orbit_part -[x in RHS](vsubmxK (x : 'cV[R]_(6 + 3))) mul_row_col mul0mx addr0.
    split.
      transitivity (E (fun z => (a *m offset g' z) 0 0)); first by apply: (E_ext HE) => z; apply: top.
      by rewrite M1 Mm; exact: mul_orbit.
    transitivity (covar E (fun z => (a *m offset g' z) 0 0) (fun z => (b *m offset g' z) 0 0)).
      by apply: (covar_ext HE) => z; apply: top.
    by rewrite M2 Lc; exact: conj_orbit.
  move=> z k k6.
  have k3 : (k - 6 < 3)%N by rewrite ltn_subLR.
  have kE : k = rshift 6 (Ordinal k3) :> 'I_(6 + 3) by apply: val_inj; rewrite /= subnKC.
  rewrite no_variance; first by rewrite Mm kE; exact: low_col.
  by rewrite Lc kE; exact: low_block.
case: ltnP => l0.
  case Hp: (orbital_part _ _ _) => [[c m]| | |] //=.
  have [Cc Hm] := orbital_part_spec d0 l6 Hp.
  case Hr: (root_of _ _) => [r| | |] //= [= <-].
  have Cb := covariance_block Cc.
  have Lc := root_spec Cb.1 (psd_eigen Cb.2) (Hs _ Cb) Hr.
  have [H1 H2] := main c m {| template := t; dispersions := ds; mean := W m; sqrt_s_v := r |} Cc Lc erefl.
  split; last exact: H2.
  move=> i j ei ej pi pj li lj Hi Pi Hj Pj.
  have [A1 A2] := Hm i j ei ej pi pj li lj Hi Pi Hj Pj.
  have [B1 B2] := H1 pi pj.
  by rewrite -A1 -A2.
rewrite /=.
case Hr: (root_of _ _) => [r| | |] //= [= <-].
have Lc := root_spec (trmx0 _ _ _) (psd_eigen (@psd0 R 9)) (Hs _ (@covariance0 R 9)) Hr.
split; first by move=> i j ei ej pi pj li; move: l0; rewrite leqn0 => /eqP l0; rewrite l0 in li.
by move=> z k _; rewrite no_variance /=; [rewrite mxE|rewrite Lc mxE].
Qed.
(** Built with a zero mean, whatever the means of the dispersions, the offsets average to zero. *)
Theorem C48_zero_mean t (ds : list dispersion) g E d0 :
  expectation E -> (forall A, covariance A -> svd_correct svd A) ->
  all (fun d => is_orbital (param d)) ds -> (size ds <= 6)%N ->
  zero_mean svd partial_for b_plane_ok t ds = Ok g ->
  forall i j ei ej pi pj, (i < size ds)%N -> (j < size ds)%N ->
    param (nth d0 ds i) = Element ei -> partial_for t ei = Some pi ->
    param (nth d0 ds j) = Element ej -> partial_for t ej = Some pj ->
    E (fun z => (pi *m orbit_part (offset g z)) 0 0) = 0 /\
    covar E (fun z => (pi *m orbit_part (offset g z)) 0 0) (fun z => (pj *m orbit_part (offset g z)) 0 0)
      = if i == j then unwrap_or_0 (std_dev (nth d0 ds i)) ^+ 2 else 0.
Proof.
move=> HE Hs Ho l6 Hz i j ei ej pi pj hi hj.
set f := fun d : dispersion => {| param := param d; mean_of := Some 0; std_dev := std_dev d |}.
have Ho' : all (fun d => is_orbital (param d)) [seq f d | d <- ds] by rewrite all_map; exact: Ho.
have l6' : (size [seq f d | d <- ds] <= 6)%N by rewrite size_map.
have [H _] := C48_orbital_partial (f d0) HE Hs Ho' l6' Hz.
move: (H i j ei ej pi pj); rewrite size_map => /(_ hi hj).
rewrite !(nth_map d0 (f d0)) //= => H' h1 h2 h3 h4; exact: H'.
Qed.

(** ** Other dispersions *)

(** C48: no generator is made when a mass or a parameter of the B-plane is dispersed: the former
    panics (or an error comes first), the latter is said to be read-only. *)
Theorem C48_unsupported t (ds : list dispersion) d :
  List.In d ds -> (param d = PropMass \/ param d = DryMass \/ is_b_plane (param d)) ->
  forall g, new t ds <> Ok g.
Proof.
move=> Hd Hp g; rewrite /Mvn_Model.new; case: ifP => // _.
have -> : (size [seq d <- ds | is_orbital (param d)] < size ds)%N.
  rewrite size_filter -(count_predC (fun d => is_orbital (param d)) ds) -addn1 leq_add2l -has_count.
  elim: ds Hd => //= x l IH [->|/IH ->]; last by rewrite orbT.
  by case: Hp => [->|[->|]] //; case: (param d).
case: (if _ then _ else _) => [cm| | |] //=.
have N cov r : other_part ds cov <> Ok r; last by case Ho: (other_part ds cm.1) => [r| | |] //=; case: (N _ _ Ho).
elim: ds Hd cov r => //= x l IH [->|/IH {}IH] cov r.
  by case: Hp => [->|[->|]] //=; case: (param d).
by case: (param x) => /= *; try exact: IH.
Qed.

Lemma set_entry_diag k v : set_entry k v 0 = diag_mx (\row_(j < 9) if j == k :> nat then v else 0 : R).
Proof.
apply/matrixP => i j; rewrite !mxE; case: (eqVneq i j) => [->|ij].
  by rewrite mulr1n andbb.
rewrite mulr0n; case: ifP => // /andP[/eqP ik /eqP jk]; case/eqP: ij; apply: val_inj; by rewrite /= ik jk.
Qed.
Lemma set_entry_covariance k v : 0 <= v -> covariance (set_entry k v 0 : 'M[R]_9).
Proof. by move=> v0; rewrite set_entry_diag; apply: covariance_diag => i; rewrite mxE; case: ifP. Qed.

(** C48: what a dispersion of the reflectivity (coordinate 6) or of the drag (coordinate 7) does:
    it changes the next coordinate only, and its spread is the requested mean; the requested
    standard deviation is not used. *)
Theorem C48_coefficients t p m sd g E :
  expectation E -> (forall A, covariance A -> svd_correct svd A) ->
  new t [:: {| param := p; mean_of := m; std_dev := sd |}] = Ok g ->
  let changed := match p with Cr => 7%N | _ => 8%N end in
  (p = Cr \/ p = Cd) ->
  (forall z (k : 'I_9), k != changed :> nat -> offset g z k 0 = 0) /\
  forall k : 'I_9, k = changed :> nat ->
    E (fun z => offset g z k 0) = 0 /\
    covar E (fun z => offset g z k 0) (fun z => offset g z k 0) = unwrap_or_0 m ^+ 2.
Proof.
move=> HE Hs; rewrite /Mvn_Model.new; case: ifP => // _.
have main c v r : 0 <= v -> root_of (elt := elt) svd (set_entry c v 0) = Ok r ->
    let g := {| template := t; dispersions := [:: {| param := p; mean_of := m; std_dev := sd |}]; mean := 0; sqrt_s_v := r |} in
    (forall z (k : 'I_9), k != c :> nat -> offset g z k 0 = 0) /\
    forall k : 'I_9, k = c :> nat ->
      E (fun z => offset g z k 0) = 0 /\ covar E (fun z => offset g z k 0) (fun z => offset g z k 0) = v.
  move=> v0 Hr g'; have Cb := set_entry_covariance c v0.
  have Lc := root_spec Cb.1 (psd_eigen Cb.2) (Hs _ Cb) Hr.
  split=> [z k kc|k kc].
    by rewrite no_variance /=; [rewrite mxE|rewrite Lc !mxE (negbTE kc)].
  have [M1 M2] := coordinate_moments g' k k HE.
  by rewrite M1 M2 /= Lc !mxE kc eqxx.
move=> H; case=> P; subst p; move: H => /=; case Hr: (root_of _ _) => [r| | |] //= [= <-];
  exact: (main _ _ _ (sqr_ge0 _) Hr).
Qed.

(** ** Samples *)

(** C48: the number reported for a parameter is what is to be taken from the template to get the
    sample: the documentation of [actual_dispersions] has the opposite sign (refuted below). *)
Theorem C48_reported (g : mvn R elt) z s l :
  sample element other_value g z = Ok (s, l) ->
  [/\ coords s = coords (template g) + offset g z,
      map fst l = map (fun d => param d) (dispersions g) &
      forall p d, List.In (p, d) l -> exists a b,
        [/\ value element other_value p (template g) = Some a, value element other_value p s = Some b & a - d = b]].
Proof.
rewrite /sample; set s' := {| coords := _; dry_mass := _ |}.
case Hd: (deltas _ _ _ _ _) => [r| | |] //= [= <- <-]; split=> //.
  elim: (dispersions g) r Hd => [|x ds IH] r /=; first by case=> <-.
  case: (value _ _ _ _) => // a; case: (value _ _ _ _) => // b.
  by case: (deltas _ _ _ _ _) IH => [r'| | |] //= IH [= <-] /=; rewrite (IH _ erefl).
elim: (dispersions g) r Hd => [|x ds IH] r /=; first by case=> <-.
case Ha: (value _ _ _ _) => [a|] //; case Hb: (value _ _ _ _) => [b|] //.
case: (deltas _ _ _ _ _) IH => [r'| | |] //= IH [= <-] p d /= [[= <- <-]|Hi]; last exact: IH Hi.
by exists a, b; split=> //; rewrite subKr.
Qed.
End Mvn.

(** ** Cases *)
Section Cases.
Context {R : rcfType}.

(** The decomposition of a diagonal matrix. *)
Definition diagonal_svd (A : 'M[R]_9) : option ('rV[R]_9 * 'M[R]_9) :=
  if A == diag_mx (\row_i A i i) then Some (\row_i A i i, 1%:M) else None.
Lemma diagonal_svd_correct A : covariance A -> svd_correct diagonal_svd A.
Proof.
move=> [As Ap]; rewrite /svd_correct /diagonal_svd; case: eqP => // AE.
exists 1%:M; split; rewrite ?trmx1 ?mulmx1 ?mul1mx //.
move=> i; rewrite mxE; have := Ap (delta_mx i 0).
by rewrite /quad trmx_delta -rowE -colE !mxE.
Qed.

(** A template at the origin, with the six Cartesian elements. *)
Definition origin : craft R := {| coords := 0; dry_mass := 0 |}.
Definition cartesian (t : craft R) (e : 'I_6) : option 'rV[R]_6 := Some (delta_mx 0 e).
Definition new' := new diagonal_svd cartesian (fun _ => true).
Definition disp (p : parameter 'I_6) (m sd : R) := {| param := p; mean_of := Some m; std_dev := Some sd |}.

(** C48: the requested standard deviation of a reflectivity of mean 0 is lost: every sample is the
    template. *)
Theorem C48_coefficients_refuted : exists g,
  new' origin [:: zero_mean_dispersion Cr 1] = Ok g /\ forall z, offset g z = 0.
Proof.
rewrite /new' /new /= /root_of /diagonal_svd expr0n /=.
have -> : set_entry 7 0 0 = 0 :> 'M[R]_9 by apply/matrixP => i j; rewrite !mxE; case: ifP.
have -> : diag_mx (\row_i (0 : 'M[R]_9) i i) = 0.
  by apply/matrixP => i j; rewrite !mxE; case: (i == j).
rewrite eqxx /=; eexists; split; first reflexivity.
move=> z; rewrite /offset /= addr0.
have -> : (\matrix_(i, j) ((1%:M : 'M[R]_9) i j * Num.sqrt ((\row_i0 (0 : 'M[R]_9) i0 i0) 0 j))) = 0.
  by apply/matrixP => i j; rewrite !mxE sqrtr0 mulr0.
by rewrite mul0mx.
Qed.

(** C48: a dispersed propellant mass panics. *)
Theorem C48_mass_refuted sd : new' origin [:: zero_mean_dispersion PropMass sd] = Panic.
Proof. by []. Qed.

(** C48: a template plus the reported dispersion is not the sample. *)
Definition drift : mvn R 'I_6 :=
  {| template := origin; dispersions := [:: disp Cr 0 1]; mean := const_mx 1; sqrt_s_v := 0 |}.
Definition no_element (_ : 'I_6) (_ : craft R) : option R := None.
Definition no_other (_ : parameter 'I_6) (_ : craft R) : option R := None.
Theorem C48_sign_refuted : exists (g : mvn R 'I_6) z s d b,
  sample no_element no_other g z = Ok (s, [:: (Cr, d)]) /\
  value no_element no_other Cr s = Some b /\
  value no_element no_other Cr (template g) = Some 0 /\ 0 + d <> b.
Proof.
exists drift, 0; do 3 eexists; split; first reflexivity.
split; first reflexivity; split; first by rewrite /= mxE.
rewrite /= /offset /= mul0mx add0r !mxE !add0r => /eqP.
by rewrite eq_sym -subr_eq0 opprK -mulr2n pnatr_eq0.
Qed.

(** There are nine such draws: one of them is 3 or -3, the others are 0. *)
Definition nine_draws (f : 'cV[R]_9 -> R) : R :=
  (\sum_(i < 9) (f (3%:R *: delta_mx i 0) + f (- (3%:R *: delta_mx i 0)))) / 18%:R.
Lemma nine_draws_expectation : expectation nine_draws.
Proof.
have n18 : (18%:R : R) != 0 by rewrite pnatr_eq0.
split.
- by move=> f g H; rewrite /nine_draws; congr (_ / _); apply: eq_bigr => i _; rewrite !H.
- move=> a b f g; rewrite /nine_draws !mulrA -mulrDl !mulr_sumr -big_split /=; congr (_ / _).
  by apply: eq_bigr => i _; rewrite !mulrDr addrACA.
- by rewrite /nine_draws sumr_const card_ord -mulr2n -mulrnA divff.
- move=> i; rewrite /nine_draws big1 ?mul0r // => j _.
  by rewrite !mxE subrr.
move=> i j; rewrite /nine_draws.
case: (eqVneq i j) => [<-|ij].
  rewrite (bigD1 i) //= big1 => [|k ki]; last first.
    by rewrite !mxE eq_sym (negbTE ki) /= !mulr0 oppr0 mulr0 addr0.
  by rewrite !mxE !eqxx /= !mulr1 mulrNN -!natrM -natrD addr0 divff.
rewrite big1 ?mul0r // => k _; rewrite !mxE.
case: (eqVneq i k) => [ik|_]; last by rewrite /= !mulr0 oppr0 !mul0r addr0.
by rewrite -ik (eq_sym j) (negbTE ij) /= !mulr0 oppr0 !mulr0 addr0.
Qed.

(** One dispersed coordinate, of mean 1 and of standard deviation 2. *)
Example one_coordinate (e : 'I_6) : exists g, new' origin [:: disp (Element e) 1 2%:R] = Ok g.
Proof.
rewrite /new' /new /= /orbital_part /=.
set J := \matrix_(i, j) _; set P := diag_mx _; set mu := \col_i _.
have JE : J = delta_mx 0 e.
  by apply/matrixP => i j; rewrite [i]ord1 !mxE.
have JJ : J *m J^T = 1%:M.
  rewrite JE trmx_delta mul_delta_mx.
  by apply/matrixP => i j; rewrite [i]ord1 [j]ord1 !mxE.
have -> : pseudo_inverse J = Ok J^T.
  by rewrite /pseudo_inverse /= /try_inverse JJ unitmx1 invmx1 mulmx1.
rewrite /=; set cov := block_mx _ _ _ _.
have PE : P = 4%:R%:M.
  by apply/matrixP => i j; rewrite [i]ord1 [j]ord1 !mxE /= expr2 -natrM.
have CE : J^T *m P *m J = diag_mx (\row_j if j == e then 4%:R else 0).
  rewrite PE mul_mx_scalar -scalemxAl JE trmx_delta mul_delta_mx.
  apply/matrixP => i j; rewrite !mxE; case: (eqVneq i e) => [->|ie] /=.
    by rewrite eq_sym; case: eqP => /=; rewrite ?mulr1 ?mulr0 ?mulr1n ?mulr0n.
  by rewrite mulr0 mul0rn.
have DE : cov = diag_mx (\row_i cov i i).
  apply/matrixP; rewrite /cov trmxK CE => i j.
  rewrite -(splitK i) -(splitK j).
  case: (split i) => i'; case: (split j) => j' /=.
  - rewrite block_mxEul [RHS]mxE [in RHS]mxE block_mxEul !mxE eq_lshift.
    by case: (i' == j'); rewrite ?mulr1n ?mulr0n // eqxx mulr1n.
  - by rewrite block_mxEur [RHS]mxE eq_lrshift mulr0n mxE.
  - by rewrite block_mxEdl [RHS]mxE eq_rlshift mulr0n mxE.
  rewrite block_mxEdr [RHS]mxE [in RHS]mxE block_mxEdr !mxE; by case: (_ == _).
rewrite /root_of /diagonal_svd.
have -> : cov == diag_mx (\row_i cov i i) by apply/eqP; exact: DE.
by eexists.
Qed.

(** A generator of variance 4 in every coordinate. *)
Definition four (A : 'M[R]_9) : option (list R) := Some [:: 4%:R].
Lemma four_correct : eigenvalues_correct four 4%:R%:M.
Proof.
move=> a; rewrite inE; split.
  case=> w w0; rewrite mul_scalar_mx => /eqP.
  by rewrite -subr_eq0 -scalerBl scaler_eq0 (negbTE w0) orbF subr_eq0 eq_sym.
move/eqP=> ->; exists (delta_mx 0 0); last by rewrite mul_scalar_mx.
by apply/eqP => /matrixP /(_ 0 0); rewrite !mxE eqxx => /eqP; rewrite oner_eq0.
Qed.

(** C48: the standard deviations that the generator shows are the variances. *)
Theorem C48_shown_deviation_refuted : exists (g : mvn R 'I_6) E d sd,
  from_spacecraft_cov diagonal_svd four id origin 4%:R%:M 0 = Ok g /\
  expectation E /\ List.In d (dispersions g) /\ param d = Cr /\ std_dev d = Some sd /\
  covar E (fun z => offset g z 6%:R 0) (fun z => offset g z 6%:R 0) <> sd ^+ 2.
Proof.
have C4 : covariance (4%:R%:M : 'M[R]_9).
  by rewrite -diag_const_mx; apply: covariance_diag => i; rewrite mxE ler0n.
have D4 : (4%:R%:M : 'M[R]_9) == diag_mx (\row_i (4%:R%:M : 'M[R]_9) i i).
  by apply/eqP/matrixP => i j; rewrite !mxE; case: (i == j); rewrite ?mulr1n ?mulr0n ?eqxx.
have [g Hg] : exists g : mvn R 'I_6, from_spacecraft_cov diagonal_svd four id origin 4%:R%:M 0 = Ok g.
  rewrite /from_spacecraft_cov /= ltNge ler0n /= /root_of /diagonal_svd D4 /=; by eexists.
have [_ _ V] := C48_from_covariance nine_draws_expectation C4.1 (diagonal_svd_correct C4) four_correct Hg.
exists g, nine_draws, {| param := Cr; mean_of := None; std_dev := Some 4%:R |}, 4%:R.
split=> //; split; first exact: nine_draws_expectation.
split; last first.
  split=> //; split=> //; rewrite V mxE eqxx mulr1n => /eqP.
  by rewrite -natrX eqr_nat.
move: Hg; rewrite /from_spacecraft_cov /= ltNge ler0n /=; case: (root_of _ _) => [r| | |] //= [= <-] /=.
by apply: List.in_or_app; right; left; rewrite mxE eqxx mulr1n.
Qed.

(** C48: a matrix that is not symmetric is accepted, and then the samples cannot have it as
    covariance. *)
Definition skew : 'M[R]_9 := 1%:M + delta_mx 0 1.
Lemma skew_eigen a (w : 'cV[R]_9) : w != 0 -> skew *m w = a *: w -> a = 1.
Proof.
move=> w0; rewrite /skew mulmxDl mul1mx => H.
have K i : i != 0 -> w i 0 = a * w i 0.
  move=> i0; move/matrixP: H => /(_ i 0); rewrite !mxE => <-; rewrite big1 ?addr0 // => j _.
  by rewrite mxE (negbTE i0) mul0r.
case: (eqVneq a 1) => // a1.
have Z i : i != 0 -> w i 0 = 0.
  move=> /K /eqP; rewrite eq_sym -subr_eq0 -{2}[w i 0]mul1r -mulrBl mulf_eq0 subr_eq0 (negbTE a1).
  by move/eqP.
have W : (delta_mx 0 1 : 'M[R]_9) *m w = 0.
  apply/colP => i; rewrite !mxE big1 // => j _; rewrite mxE.
  case: (eqVneq j 1) => [->|]; last by rewrite andbF mul0r.
  by rewrite (Z 1) ?mulr0.
move: H; rewrite W addr0 => /eqP; rewrite eq_sym -subr_eq0 -{2}[w]scale1r -scalerBl scaler_eq0 (negbTE w0) orbF subr_eq0.
by move/eqP.
Qed.
Definition unit_eigenvalue (A : 'M[R]_9) : option (list R) := Some [:: 1].
Lemma skew_eigenvalues : eigenvalues_correct unit_eigenvalue skew.
Proof.
move=> a; rewrite inE; split; first by case=> w w0 /(skew_eigen w0) ->.
move/eqP=> ->; exists (delta_mx 0 0).
  by apply/eqP => /matrixP /(_ 0 0); rewrite !mxE eqxx => /eqP; rewrite oner_eq0.
rewrite scale1r /skew mulmxDl mul1mx mul_delta_mx_0 ?addr0 //.
Qed.
Theorem C48_asymmetric_refuted (svd : 'M[R]_9 -> option ('rV[R]_9 * 'M[R]_9)) E :
  svd skew <> None -> expectation E ->
  exists (g : mvn R 'I_6) i j,
    from_spacecraft_cov svd unit_eigenvalue id origin skew 0 = Ok g /\
    covar E (fun z => offset g z i 0) (fun z => offset g z j 0) <> skew i j.
Proof.
move=> Hs HE; rewrite /from_spacecraft_cov /= ltNge ler01 /= /root_of.
case: (svd skew) Hs => [[s v]|//] _ /=.
set g := {| template := _; dispersions := _; mean := _; sqrt_s_v := _ |}.
case: (eqVneq (covar E (fun z => offset g z 0 0) (fun z => offset g z 1 0)) (skew 0 1)) => [C01|/eqP C01];
  last by exists g, 0, 1.
exists g, 1, 0; split=> // C10.
have S : covar E (fun z => offset g z 0 0) (fun z => offset g z 1 0)
       = covar E (fun z => offset g z 1 0) (fun z => offset g z 0 0).
  by apply: (E_ext HE) => z; rewrite mulrC.
move: S; rewrite C01 C10 !mxE /= add0r addr0 => /eqP; by rewrite oner_eq0.
Qed.
End Cases.

Print Assumptions C48_from_covariance.
Print Assumptions C48_not_psd_refused.
Print Assumptions C48_orbital_partial.
Print Assumptions C48_zero_mean.
Print Assumptions C48_unsupported.
Print Assumptions C48_coefficients.
Print Assumptions C48_reported.
Print Assumptions C48_coefficients_refuted.
Print Assumptions C48_mass_refuted.
Print Assumptions C48_sign_refuted.
Print Assumptions C48_shown_deviation_refuted.
Print Assumptions C48_asymmetric_refuted.
