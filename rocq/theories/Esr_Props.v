(** Properties of the estimates with a dispersed state (Esr_Model): C109. *)
From Verif Require Import Base.
From mathcomp Require Import all_ssreflect all_algebra.
From Verif Require Import Mvn_Props Kf_Model Kf_Spec Kf_Linalg Util_Pinv Mvn_Model Est_Model Est_Props Esr_Model.
Import Order.TTheory GRing.Theory Num.Theory.
Set Implicit Arguments.
Unset Strict Implicit.
Unset Printing Implicit Defensive.
Local Open Scope ring_scope.

(** ** Specification *)

(** The decompositions of a matrix are found, and are right. *)
Definition decomposed (R : rcfType) (svd : 'M[R]_9 -> option ('rV[R]_9 * 'M[R]_9)) (eigenvalues : 'M[R]_9 -> option (list R)) (P : 'M[R]_9) : Prop :=
  [/\ svd P <> None, svd_correct svd P, eigenvalues P <> None & eigenvalues_correct eigenvalues P].

Section Props.
Context {R : rcfType} {LF elt : Type}.
Notation craft := (craft R).
Context (inertial : LF) (dcm : craft -> LF -> option (DCM R)).
Context (svd : 'M[R]_9 -> option ('rV[R]_9 * 'M[R]_9)) (eigenvalues : 'M[R]_9 -> option (list R)) (axis : 'I_6 -> elt).
Context (element : elt -> craft -> option R) (other_value : parameter elt -> craft -> option R).
Notation to_estimate := (to_estimate inertial dcm).
Notation randomized := (to_estimate_randomized inertial dcm svd eigenvalues axis element other_value).

Lemma generator (t : craft) (P : 'M[R]_9) : covariance P -> decomposed svd eigenvalues P ->
  exists2 g, from_spacecraft_cov svd eigenvalues axis t P 0 = Ok g &
    [/\ template g = t, sqrt_s_v g *m (sqrt_s_v g)^T = P, mean g = 0 &
        forall d, List.In d (dispersions g) -> (exists i, param d = Element (axis i)) \/ param d = Cr \/ param d = Cd \/ param d = PropMass].
Proof.
move=> [Ps Pp] [Hs Hc He Hv]; rewrite /from_spacecraft_cov.
case E: (eigenvalues P) He Hv => [l|//] _; rewrite /eigenvalues_correct E => Hl.
have Ae a (w : 'cV[R]_9) : w != 0 -> P *m w = a *: w -> 0 <= a.
  move=> w0 Aw; have := Pp w; rewrite /quad -mulmxA Aw -scalemxAr mxE -norm_squaredE pmulr_lge0 //.
  by rewrite lt_def norm_squared_ge0 andbT; apply: contra w0 => /eqP /norm_squared_eq0 ->.
have -> : has (fun e => e < 0) l = false.
  apply/hasPn => a /Hl [w w0 Aw]; by rewrite -leNgt; exact: Ae w0 Aw.
rewrite /root_of; case Es: (svd P) Hs => [[s v]|//] _ /=; eexists; first by [].
split=> //=.
  by apply: (root_spec (elt := elt) Ps Ae Hc); rewrite /root_of Es.
move=> d Hd; case: (List.in_app_or _ _ _ Hd); last by case=> [<-|[<-|[<-|//]]]; auto.
elim: (enum 'I_6) => [//|i l' IH] /= [<-|/IH //]; by left; exists i.
Qed.

Lemma sampled (g : mvn R elt) z : (forall i s, element (axis i) s <> None) ->
  (forall d, List.In d (dispersions g) -> (exists i, param d = Element (axis i)) \/ param d = Cr \/ param d = Cd \/ param d = PropMass) ->
  exists l, sample element other_value g z = Ok ({| coords := coords (template g) + offset g z; dry_mass := dry_mass (template g) |}, l).
Proof.
move=> He; rewrite /sample; set s := {| coords := _ |}; elim: (dispersions g) => [|d l IH] Hd /=; first by exists [::].
have V (x : craft) : exists a, value element other_value (param d) x = Some a.
  case: (Hd d (or_introl erefl)) => [[i ->]|[->|[->|->]]] /=; [|by eexists|by eexists|by eexists].
  by have := He i x; case: (element _ _) => // a _; exists a.
have [a ->] := V (template g); have [b ->] := V s.
have [l'] := IH (fun d' h => Hd d' (or_intror h)); case: (deltas _ _ _ _ _) => //= r _; by eexists.
Qed.

Lemma randomized_sample u e : to_estimate u = Ok e -> decomposed svd eigenvalues (covar e) -> (forall i s, element (axis i) s <> None) ->
  exists L : 'M[R]_9, L *m L^T = covar e /\
  forall z, randomized u z = Ok {| nominal_state := {| coords := coords (u_nominal u) + L *m z; dry_mass := dry_mass (u_nominal u) |};
    state_deviation := 0; covar := covar e; covar_bar := covar e; predicted := true; stm := 1%:M |}.
Proof.
move=> He Hd Hel; have [[h1 h2 h3 h4 h5] [hc _]] := C88_covariance He.
have [g Hg [g1 g2 g3 g4]] := generator (u_nominal u) hc Hd.
exists (sqrt_s_v g); split=> // z; rewrite /to_estimate_randomized He /= Hg.
by have [l ->] := sampled z Hel g4; rewrite /offset g3 addr0 g1 h2 h4 h5; move: h3; rewrite /is_true => ->.
Qed.

(** ** Theorems *)

(** C109: whatever the draws, a randomized estimate is the estimate of the uncertainty with another
    nominal state, whose dry mass is kept and whose other coordinates have those of the uncertainty
    as means and the covariance of the estimate as covariance; nothing stops the program. *)
Theorem C109_randomized u e : to_estimate u = Ok e -> decomposed svd eigenvalues (covar e) -> (forall i s, element (axis i) s <> None) ->
  exists f, (forall z, randomized u z = Ok (f z)) /\
    (forall z, [/\ covar (f z) = covar e, covar_bar (f z) = covar e, state_deviation (f z) = 0, predicted (f z) & stm (f z) = 1%:M] /\
               dry_mass (nominal_state (f z)) = dry_mass (u_nominal u)) /\
    forall E, expectation E ->
      (forall i, E (fun z => coords (nominal_state (f z)) i 0) = coords (u_nominal u) i 0) /\
      forall i j, Mvn_Props.covar E (fun z => coords (nominal_state (f z)) i 0) (fun z => coords (nominal_state (f z)) j 0) = covar e i j.
Proof.
move=> He Hd Hel; have [L [HL H]] := randomized_sample He Hd Hel.
eexists; split; first exact: H.
split=> //= E HE.
pose g : mvn R elt := {| template := u_nominal u; dispersions := [::]; mean := coords (u_nominal u); sqrt_s_v := L |}.
have off i z : (coords (u_nominal u) + L *m z) i 0 = offset g z i 0 by rewrite /offset /= addrC.
split=> [i|i j].
  by rewrite (E_ext HE (off i)); exact: (proj1 (coordinate_moments g i i HE)).
rewrite (covar_ext HE (off i) (off j)); by rewrite (proj2 (coordinate_moments g i j HE)) /= HL.
Qed.

(** C109: the errors are those of the uncertainty. *)
Theorem C109_refuses u z x : randomized u z = Err x <-> to_estimate u = Err x.
Proof.
rewrite /to_estimate_randomized; case: (to_estimate u) => [e|y| |] //=; split=> //.
by case: (from_spacecraft_cov _ _ _ _ _ _) => [g| | |] //; case: (sample _ _ _ _) => [[s l]| | |].
Qed.

(** C109: without the decompositions of nalgebra the program stops, though the function has errors. *)
Theorem C109_panics u e z : to_estimate u = Ok e -> svd (covar e) = None \/ eigenvalues (covar e) = None -> randomized u z = Panic.
Proof.
move=> He H; rewrite /to_estimate_randomized He /= /from_spacecraft_cov /root_of.
by case: H => H; [case: (eigenvalues _) => // l; case: ifP => // _; rewrite H|rewrite H].
Qed.

(** C109: a randomized spacecraft may not exist: if its mass is uncertain, however little, there are
    draws for which its propellant mass is negative. *)
Theorem C109_mass_refuted u e : to_estimate u = Ok e -> decomposed svd eigenvalues (covar e) -> (forall i s, element (axis i) s <> None) ->
  0 < sigma_mass u ->
  exists z e' m, randomized u z = Ok e' /\ value element other_value PropMass (nominal_state e') = Some m /\ m < 0.
Proof.
move=> He Hd Hel s0; have [L [HL H]] := randomized_sample He Hd Hel.
pose k : 'I_9 := 8%:R; pose v := covar e k k; pose m := coords (u_nominal u) k 0.
have Hv : v = sigma_mass u ^+ 2.
  have [_ [_ [P [_ Hc]]]] := C88_covariance He; rewrite /v Hc.
  have -> : k = (rshift 6 (2%:R : 'I_3) : 'I_(6 + 3)) by apply: val_inj.
  by rewrite (block_mxEdr P 0 0) /independent /three !mxE.
have v0 : 0 < v by rewrite Hv exprn_gt0.
pose z : 'cV[R]_9 := - ((m + 1) / v) *: (row k L)^T.
exists z; do 2 eexists; split; first exact: H.
split; first reflexivity; rewrite /=.
have -> : (coords (u_nominal u) + L *m z) 8%:R 0 = m + (L *m z) k 0 by rewrite mxE.
have -> : (L *m z) k 0 = - (m + 1).
  rewrite /z -scalemxAr mxE.
  have -> : (L *m (row k L)^T) k 0 = v.
    by rewrite /v -HL !mxE; apply: eq_bigr => i _; rewrite !mxE.
  by rewrite mulNr divfK // gt_eqF.
by rewrite opprD addNKr ltrN10.
Qed.
End Props.

(** ** Cases *)
Section Cases.
Context {R : rcfType}.

(** C109: the hypotheses hold of an uncertainty of 2 in every coordinate. *)
Definition two_everywhere : uncertainty R (craft R) unit :=
  {| u_nominal := origin; u_frame := None; sigmas := const_mx 2%:R; sigma_reflectivity := 2%:R; sigma_drag := 2%:R; sigma_mass := 2%:R |}.
Definition same_axes (_ : craft R) (_ : unit) : option (DCM R) := Some {| rot_mat := 1%:M; rot_mat_dt := None |}.
Example two_case : exists e, to_estimate tt same_axes two_everywhere = Ok e /\ decomposed diagonal_svd four (covar e) /\ 0 < sigma_mass two_everywhere.
Proof.
have [e He] : exists e, to_estimate tt same_axes two_everywhere = Ok e.
  apply: (proj2 (proj2 (C88_refuses tt same_axes _))); split; last by eexists.
  by case=> [[i]|[|[|]]]; rewrite /= ?mxE ltNge ler0n.
exists e; split=> //; split; last by rewrite ltr0n.
have CE : covar e = 4%:R%:M.
  move: He; rewrite /to_estimate; case: ifP => // _ [<-] /=.
  rewrite state_dcm_fixed //= two_1 trmx1 mul1mx mulmx1.
  have -> : diag_mx (squares (const_mx 2%:R : 'rV[R]_6)) = 4%:R%:M.
    by apply/matrixP => i j; rewrite !mxE -natrX.
  have -> : diag_mx (squares (three 2%:R 2%:R 2%:R : 'rV[R]_3)) = 4%:R%:M.
    apply/matrixP => i j; rewrite !mxE; have -> : (if i == 0 then 2%:R else if i == 1 then 2%:R else 2%:R) = 2%:R :> R by case: (i == 0); case: (i == 1).
    by rewrite -natrX.
  by rewrite -(scalar_mx_block 6 3).
have C4 : covariance (4%:R%:M : 'M[R]_9).
  by rewrite -diag_const_mx; apply: covariance_diag => i; rewrite mxE ler0n.
have D4 : (4%:R%:M : 'M[R]_9) == diag_mx (\row_i (4%:R%:M : 'M[R]_9) i i).
  by apply/eqP/matrixP => i j; rewrite !mxE; case: (i == j); rewrite ?mulr1n ?mulr0n ?eqxx.
rewrite CE; split=> //; [by rewrite /diagonal_svd D4|exact: diagonal_svd_correct|exact: four_correct].
Qed.
(** C109: an uncertainty that is refused. *)
Example refused_case : exists u : uncertainty R (craft R) unit, to_estimate tt same_axes u = Err NegativeUncertainty.
Proof.
exists {| u_nominal := origin; u_frame := None; sigmas := 0; sigma_reflectivity := 0; sigma_drag := -1; sigma_mass := 0 |}.
apply: (proj2 (proj1 (C88_refuses tt same_axes _))); right; left; by rewrite /= ltrN10.
Qed.
End Cases.

Print Assumptions C109_randomized.
Print Assumptions C109_refuses.
Print Assumptions C109_panics.
Print Assumptions C109_mass_refuted.
