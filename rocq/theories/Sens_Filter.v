(** C59 continued: what the rows of absent observables do to the filter. *)
From Coq Require Import Reals.
From Verif Require Import Base.
From mathcomp Require Import all_ssreflect all_algebra.
From Verif Require Import Kf_Model Kf_Spec Kf_Linalg Kf_Gain Kf_Proofs Kf_Props Arc_Model Sens_Model.
From Verif Require Import Kf_Model.
Import Order.TTheory GRing.Theory Num.Theory.
Set Implicit Arguments.
Unset Strict Implicit.
Unset Printing Implicit Defensive.
Local Open Scope ring_scope.

Section Filter.
Context (R : rcfType).

(** The rows as a matrix. *)
Definition as_matrix m (h : list (list R)) : 'M[R]_(m, 9) :=
  \matrix_(i, j) nth 0 (nth [::] h i) j.

(** A filter of nine parameters without process noise, with identity covariance. *)
Definition nine_state : Type := Z.
Definition nine_stm (t : nine_state) : option 'M[R]_9 := Some 1%:M.
Definition nine_epoch (t : nine_state) : Z := t.
Definition nine_dcm (t : nine_state) (lf : unit) : option (DCM R) := None.
Definition nine_add (t : nine_state) (d : 'cV[R]_9) : nine_state := t.
Definition nine_filter : kalman_filter R nine_state unit 9 3 :=
  {| prev_estimate :=
       {| nominal_state := Z0; state_deviation := 0; covar := 1%:M; covar_bar := 1%:M;
          predicted := true; stm := 1%:M |};
     process_noises := [::]; variant := ReferenceUpdate; prev_used_snc := 0 |}.
Lemma nine_valid : valid nine_filter.
Proof. by split=> //; apply: definite_covariance; apply: definite_scalar; exact: ltr01. Qed.

(** Range and Doppler along the first axis, of which only the range was measured. *)
Definition along_x : list R := [:: 1; 0; 0; 0; 0; 0; 0; 0; 0].
Definition only_range (t : msr_type) : bool := type_eqb t Range.
Definition rows (t : msr_type) : res sens_error (list R) := Ok along_x.
Lemma two_rows :
  Sens_Model.h_tilde 0 1 2 rows only_range [:: Range; Doppler]
  = Ok [:: along_x; [:: 0; 1; 0; 0; 0; 0; 0; 0; 0]].
Proof. reflexivity. Qed.
Let h : 'M[R]_(2, 9) := as_matrix 2 [:: along_x; [:: 0; 1; 0; 0; 0; 0; 0; 0; 0]].

Lemma hE i j : h i j = (i == j :> nat)%:R.
Proof.
rewrite mxE; case: i => [[|[|i]] // hi]; case: j => [j hj] /=;
  by do 9 (case: j hj => [|j] hj //).
Qed.
Lemma h_square : h *m h^T = 1%:M.
Proof.
apply/matrixP=> i k; rewrite mxE [RHS]mxE.
have hi : (i < 9)%N by apply: leq_trans (ltn_ord i) _.
rewrite (bigD1 (Ordinal hi)) //= big1 ?addr0.
- by rewrite [_^T _ _]mxE !hE /= eqxx mul1r eq_sym.
- move=> j hj; rewrite hE.
  case: eqP => [e|_]; last by rewrite mul0r.
  by move: hj; rewrite -(inj_eq val_inj) /= -e eqxx.
Qed.

(** The range agrees with the prediction, and the Doppler was not measured, so its value is given
    as zero.  The second component of the position moves by half of the computed Doppler, and its
    variance is halved. *)
Theorem C59_filter_refuted (doppler : R) :
  exists h0 kf' e r g,
    [/\ Sens_Model.h_tilde 0 1 2 rows only_range [:: Range; Doppler] = Ok h0,
        measurement_update nine_stm nine_epoch nine_dcm (fun _ => 1) nine_add nine_filter Z0
          (\col_i nth 0 [:: 1000%:R; 0] i) (\col_i nth 0 [:: 1000%:R; doppler] i) 1%:M
          (as_matrix 2 h0) None = (kf', Ok (e, r, Some g)),
        state_deviation e (Ordinal (isT : (1 < 9)%N)) 0 = - (doppler / 2%:R) &
        covar e (Ordinal (isT : (1 < 9)%N)) (Ordinal (isT : (1 < 9)%N)) = 2%:R^-1].
Proof.
have he : forall x : R, 0 <= (fun _ : R => 1 : R) x by move=> x; exact: ler01.
have hd : definite (1%:M : 'M[R]_2) by apply: definite_scalar; exact: ltr01.
set real := \col_i _; set computed := \col_i nth 0 [:: 1000%:R; doppler] i.
have ht : exists kf1 e1, time_update nine_stm nine_epoch nine_dcm (fun _ => 1) nine_add nine_filter Z0
            = (kf1, Ok e1) by do 2 eexists; reflexivity.
case: ht => kf1 [e1 ht].
have [kf' [e [r [g [hu _]]]]] := C27_succeeds real computed h he nine_valid hd ht.
exists [:: along_x; [:: 0; 1; 0; 0; 0; 0; 0; 0; 0]], kf', e, r, g.
have [phi [c [hst hc _ hg [hcov _ _ _ hdev]]]] :=
  measurement_accepted he nine_valid (definite_covariance hd) hu.
have hp : prior c phi nine_filter = 1%:M.
  by case: hc hst => <- [<-]; rewrite /prior /= trmx1 !mulmx1.
rewrite hp in hg hcov; rewrite /innovation !mul1mx h_square in hg.
have e2 : (1%:M + 1%:M : 'M[R]_2) = 2%:R%:M by rewrite -raddfD.
have two0 : (2%:R : R) != 0 by rewrite pnatr_eq0.
have hg' : g = 2%:R^-1 *: h^T.
  move: hg; rewrite e2 mul_mx_scalar => <-; by rewrite scalerA mulVf // scale1r.
have l1 : (1 < 2)%N by []. have l0 : (0 < 2)%N by [].
have hT i : h^T (Ordinal (isT : (1 < 9)%N)) i = (i == 1%N :> nat)%:R by rewrite mxE hE.
split=> //.
- rewrite hdev /= hg' mxE (bigD1 (Ordinal l1)) //= big1 ?addr0.
    by rewrite [(2%:R^-1 *: h^T) _ _]mxE hT /= mulr1 !mxE /= sub0r mulrN mulrC.
  by move=> i hi; rewrite [(2%:R^-1 *: h^T) _ _]mxE hT; move: hi;
     rewrite -(inj_eq val_inj) /= => /negbTE ->; rewrite mulr0 mul0r.
- have hr1 : (1%:M : 'M[R]_2)^T = 1%:M by rewrite trmx1.
  have hp1 : (1%:M : 'M[R]_9)^T = 1%:M by rewrite trmx1.
  have hgi : g *m innovation 1%:M h 1%:M = 1%:M *m h^T by rewrite /innovation !mul1mx h_square.
  rewrite hcov (joseph_short hp1 hr1 hgi) mulmx1 hg' -scalemxAl mxE [1%:M _ _]mxE eqxx.
  rewrite [(- (_ : 'M[R]_9)) _ _]mxE [(_ *: (_ : 'M[R]_9)) _ _]mxE mxE (bigD1 (Ordinal l1)) //= big1 ?addr0.
    rewrite hT /= hE /= !mulr1; apply: (mulfI two0); rewrite mulrBr mulr1 mulfV //.
    by rewrite -addrA subrr addr0.
  by move=> i hi; rewrite hT; move: hi; rewrite -(inj_eq val_inj) /= => /negbTE ->; rewrite mul0r.
Qed.
End Filter.
Print Assumptions C59_filter_refuted.
