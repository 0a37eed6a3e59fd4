(** Properties of the initial estimates of a filter and of the uncertainties read from them
    (Est_Model): C88. *)
From Verif Require Import Base.
From mathcomp Require Import all_ssreflect all_algebra.
From Verif Require Import Mvn_Props Kf_Model Kf_Spec Kf_Linalg Util_Pinv Mvn_Model Est_Model.
Import Order.TTheory GRing.Theory Num.Theory.
Set Implicit Arguments.
Unset Strict Implicit.
Unset Printing Implicit Defensive.
Local Open Scope ring_scope.

(** ** Specification *)
Section Spec.
Context {R : rcfType}.

(** A rotation that does not change with time. *)
Definition fixed_rotation (d : DCM R) : Prop :=
  [/\ (rot_mat d)^T *m rot_mat d = 1%:M, \det (rot_mat d) = 1 & rot_mat_dt d = None].
(** The covariance, in the inertial frame, of errors whose covariance in a local frame is [L]: the
    error [x] of the local frame is [state_dcm d *m x] in the inertial one, as for the maneuvers and
    the process noise. *)
Definition seen_from (d : DCM R) (L : 'M[R]_6) : 'M[R]_6 := state_dcm d *m L *m (state_dcm d)^T.
(** Independent errors of the given deviations. *)
Definition independent n (s : 'rV[R]_n) : 'M[R]_n := diag_mx (\row_i s 0 i ^+ 2).
(** The first six of nine numbers. *)
Definition first_six (x : 'cV[R]_9) : 'cV[R]_6 := usubmx (x : 'cV[R]_(6 + 3)).
End Spec.

Section Lemmas.
Context {R : rcfType}.

Lemma covariance_blocks p n (A : 'M[R]_p) (B : 'M[R]_n) :
  covariance A -> covariance B -> covariance (block_mx A 0 0 B : 'M[R]_(p + n)).
Proof.
move=> [As Ap] [Bs Bp]; split; first by rewrite tr_block_mx !trmx0 As Bs.
by move=> x; rewrite -[x]vsubmxK quad_block addr_ge0.
Qed.
Lemma covariance_corner p n (P : 'M[R]_(p + n)) : covariance P -> covariance (ulsubmx P).
Proof.
move=> [Ps Pp]; split; first by rewrite -[RHS](f_equal ulsubmx Ps) trmx_ulsub.
move=> x; have := Pp (col_mx x 0); rewrite /quad -{1}[P]submxK tr_col_mx trmx0 mul_row_block mul_row_col !mul0mx mulmx0 !addr0.
by [].
Qed.
Lemma covariance_squares n (s : 'rV[R]_n) : covariance (diag_mx (squares s)).
Proof. by apply: covariance_diag => i; rewrite mxE sqr_ge0. Qed.
(** Matrices and vectors of a position part and a velocity part. *)
Definition two (A B : 'M[R]_3) : 'M[R]_6 := (block_mx A 0 0 B : 'M[R]_(3 + 3)).
Definition pair_of (a b : 'cV[R]_3) : 'cV[R]_6 := (col_mx a b : 'cV[R]_(3 + 3)).
Lemma two_mul A B C D : two A B *m two C D = two (A *m C) (B *m D).
Proof.
rewrite /two; have := mulmx_block A 0 0 B C 0 0 D; rewrite !mulmx0 !mul0mx !addr0 !add0r; exact.
Qed.
Lemma two_tr A B : (two A B)^T = two A^T B^T.
Proof. rewrite /two; have := tr_block_mx A 0 0 B; rewrite !trmx0; exact. Qed.
Lemma two_1 : two 1%:M 1%:M = 1%:M.
Proof. by rewrite /two; have := scalar_mx_block 3 3 (1 : R); move=> <-. Qed.
Lemma two_pair A B a b : two A B *m pair_of a b = pair_of (A *m a) (B *m b).
Proof. rewrite /two /pair_of; have := mul_block_col A 0 0 B a b; rewrite !mul0mx !addr0 !add0r; exact. Qed.
Lemma pair_of_0 a b : pair_of a b 0 0 = a 0 0.
Proof. by rewrite /pair_of -(col_mxEu a b 0); congr (col_mx _ _ _ _); apply: val_inj. Qed.
Lemma state_dcm_fixed (d : DCM R) : rot_mat_dt d = None -> state_dcm d = two (rot_mat d) (rot_mat d).
Proof. by rewrite /state_dcm => ->. Qed.
Lemma fixed_orthogonal (d : DCM R) : fixed_rotation d -> (state_dcm d)^T *m state_dcm d = 1%:M /\ state_dcm d *m (state_dcm d)^T = 1%:M.
Proof.
case=> h _ hdt; rewrite (state_dcm_fixed hdt).
have h' : rot_mat d *m (rot_mat d)^T = 1%:M by apply: mulmx1C.
by rewrite two_tr !two_mul h h' two_1.
Qed.
Lemma two_independent (a b : R) : independent (row_mx (const_mx a : 'rV[R]_3) (const_mx b : 'rV[R]_3)) = two (a ^+ 2)%:M (b ^+ 2)%:M.
Proof.
apply/matrixP=> i j; rewrite /independent /two -[i](@splitK 3 3) -[j](@splitK 3 3).
case: (@split 3 3 i) => i'; case: (@split 3 3 j) => j' /=.
- by rewrite (block_mxEul _ 0 0) mxE [X in X *+ _]mxE (row_mxEl (const_mx a)) !mxE (inj_eq (@lshift_inj 3 3)).
- by rewrite (block_mxEur _ 0 0) !mxE eq_lrshift.
- by rewrite (block_mxEdl _ 0 0) !mxE eq_rlshift.
- by rewrite (block_mxEdr _ 0 0) mxE [X in X *+ _]mxE (row_mxEr (const_mx a)) !mxE (inj_eq (@rshift_inj 3 3)).
Qed.
End Lemmas.

Section Props.
Context {R : rcfType} {T LF elt : Type}.
Context (inertial : LF) (dcm : T -> LF -> option (DCM R)) (partial_for : T -> elt -> option 'rV[R]_6).
Notation estimate := (kf_estimate R T 9).
Notation to_estimate := (to_estimate inertial dcm).
Notation frame_of u := (match u_frame u with Some f => f | None => inertial end).

Definition some_negative (u : uncertainty R T LF) : Prop :=
  (exists i, sigmas u 0 i < 0) \/ sigma_drag u < 0 \/ sigma_reflectivity u < 0 \/ sigma_mass u < 0.

Lemma negative_test (u : uncertainty R T LF) :
  reflect (some_negative u) ([exists i, sigmas u 0 i < 0] || (sigma_drag u < 0) || (sigma_reflectivity u < 0) || (sigma_mass u < 0)).
Proof.
apply: (iffP idP).
- case/orP => [/orP[/orP[/existsP H|H]|H]|H]; rewrite /some_negative; by [left|right; left|right; right; left|right; right; right].
- case=> [H|[H|[H|H]]]; first by rewrite (introT existsP H).
  all: by rewrite H ?orbT.
Qed.

(** C88: an estimate is refused exactly when a deviation is negative, or the frame is not defined. *)
Theorem C88_refuses u :
  (to_estimate u = Err NegativeUncertainty <-> some_negative u) /\
  ((exists e, to_estimate u = Ok e) <-> ~ some_negative u /\ exists d, dcm (u_nominal u) (frame_of u) = Some d).
Proof.
rewrite /Est_Model.to_estimate; case: (negative_test u) => H; split; split=> //.
- by case.
- by case.
- by case: (dcm _ _).
- by case: (dcm _ _) => [d|] [e] //; split=> //; exists d.
- by case=> _ [d ->]; eexists.
Qed.

(** C88: the estimate is the nominal state, with a covariance that is symmetric and positive
    semi-definite, has the squares of the deviations of the coefficients and the mass, and no
    correlation of these. *)
Theorem C88_covariance u e : to_estimate u = Ok e ->
  [/\ nominal_state e = u_nominal u, state_deviation e = 0, predicted e, stm e = 1%:M & covar_bar e = covar e] /\
  covariance (covar e) /\
  exists P : 'M[R]_6, covariance P /\
    covar e = block_mx P 0 0 (independent (three (sigma_reflectivity u) (sigma_drag u) (sigma_mass u))).
Proof.
rewrite /Est_Model.to_estimate; case: ifP => // _; case: (dcm _ _) => // d [<-] /=; split=> //.
have hP : covariance ((state_dcm d)^T *m diag_mx (squares (sigmas u)) *m state_dcm d).
  by rewrite -{2}[state_dcm d]trmxK; apply: covariance_conj; apply: covariance_squares.
split; first exact: (covariance_blocks hP (covariance_squares (three _ _ _))).
by exists ((state_dcm d)^T *m diag_mx (squares (sigmas u)) *m state_dcm d).
Qed.

Lemma to_estimate_orbit u e d : to_estimate u = Ok e -> dcm (u_nominal u) (frame_of u) = Some d ->
  orbit_covar (covar e) = (state_dcm d)^T *m independent (sigmas u) *m state_dcm d.
Proof.
rewrite /Est_Model.to_estimate; case: ifP => // _ + Hd; rewrite Hd => -[<-].
by rewrite /orbit_covar /= block_mxKul.
Qed.

(** C88 (partial): the covariance is that of independent errors in the local frame when the three
    deviations of the position are equal and so are those of the velocity, in a frame that does not
    turn, or when the axes are those of the inertial frame.  Missing: any other deviations, for
    which it is false ([C88_local_refuted]). *)
Theorem C88_local_partial u e d a b : to_estimate u = Ok e -> dcm (u_nominal u) (frame_of u) = Some d ->
  fixed_rotation d -> sigmas u = row_mx (const_mx a : 'rV[R]_3) (const_mx b : 'rV[R]_3) \/ rot_mat d = 1%:M ->
  orbit_covar (covar e) = seen_from d (independent (sigmas u)).
Proof.
move=> He Hd Hr; rewrite (to_estimate_orbit He Hd) /seen_from.
case: Hr => hr _ hdt; have hr' := mulmx1C hr; rewrite (state_dcm_fixed hdt); case=> Hs; last by rewrite Hs two_1 trmx1 !mul1mx !mulmx1.
by rewrite Hs two_independent two_tr !two_mul !mul_mx_scalar -!scalemxAl hr hr'.
Qed.

(** C88: the covariance exported in the local frame of the uncertainty has the deviations of the
    uncertainty: the rotations of the estimate and of the export, both the wrong way
    ([C88_local_refuted], [C88_exported_refuted]), cancel out. *)
Theorem C88_exported u e d ric : to_estimate u = Ok e -> dcm (u_nominal u) (frame_of u) = Some d ->
  fixed_rotation d -> ric (u_nominal u) = Some d ->
  exported_ric_covar ric (@nominal_state _ _ _) e = Ok (independent (sigmas u)) /\
  forall i, exported_ric_sigma ric (@nominal_state _ _ _) e i = Ok (sigmas u 0 i).
Proof.
move=> He Hd Hr Hric; have [h1 h2] := fixed_orthogonal Hr.
have Hn : nominal_state e = u_nominal u by have [[->]] := C88_covariance He.
have E : exported_ric_covar ric (@nominal_state _ _ _) e = Ok (independent (sigmas u)).
  rewrite /exported_ric_covar Hn Hric (to_estimate_orbit He Hd) !mulmxA h2 mul1mx.
  by rewrite -mulmxA h2 mulmx1.
split=> // i; rewrite /exported_ric_sigma E /= !mxE eqxx mulr1n sqrtr_sqr ger0_norm //.
have := proj2 (C88_refuses u); case=> H _; have [] := H (ex_intro _ e He).
by move=> Hneg _; rewrite leNgt; apply/negP => Hi; apply: Hneg; left; exists i.
Qed.

(** ** Uncertainties of the elements *)

(** C88: the deviation of an element is that of its linear part, whatever the factor of the
    covariance and the distribution of the draws. *)
Theorem C88_sigma e p s g (L : 'M[R]_9) E : sigma_for partial_for e p = Ok s -> partial_for (nominal_state e) p = Some g ->
  L *m L^T = covar e -> expectation E ->
  0 <= s /\ Mvn_Props.covar E (fun z => (g *m first_six (L *m z)) 0 0) (fun z => (g *m first_six (L *m z)) 0 0) = s ^+ 2.
Proof.
rewrite /sigma_for => + Hg; rewrite Hg => -[<-] HL HE; split; first exact: sqrtr_ge0.
have lin z : (g *m first_six (L *m z)) 0 0 = (row_mx g 0 *m L *m z) 0 0 + 0.
  rewrite addr0 -mulmxA -{2}[L *m z](vsubmxK (L *m z : 'cV[R]_(6 + 3))).
  by rewrite (mul_row_col g) mul0mx addr0.
rewrite (covar_ext HE lin lin) (covar_row HE).
have -> : row_mx g 0 *m L *m (row_mx g 0 *m L)^T = g *m orbit_covar (covar e) *m g^T.
  rewrite trmx_mul mulmxA -(mulmxA _ L) HL /orbit_covar.
  rewrite -{1}[covar e](submxK (covar e : 'M[R]_(6 + 3))).
  by rewrite (mul_row_block g) !mul0mx !addr0 tr_row_mx trmx0 (mul_row_col (g *m _)) mulmx0 addr0.
rewrite sqr_sqrtr //.
have hc : covariance (covar e).
  rewrite -HL; have -> : L *m L^T = L *m 1%:M *m L^T by rewrite mulmx1.
  apply: covariance_conj; split; first by rewrite trmx1.
  by move=> x; rewrite /quad mulmx1 -norm_squaredE; apply: norm_squared_ge0.
have [_ hp] := covariance_corner (hc : covariance (covar e : 'M[R]_(6 + 3))).
by have := hp g^T; rewrite /quad trmxK.
Qed.

(** C88: the covariance of the elements is a covariance, and its diagonal has the squares of their
    deviations. *)
Theorem C88_elements elements e k : covariance (covar e) -> keplerian_covar partial_for elements e = Ok k ->
  covariance k /\ forall i, exists2 s, sigma_for partial_for e (elements i) = Ok s & s ^+ 2 = k i i.
Proof.
move=> hc; rewrite /keplerian_covar; case: ifP => // /negbT; rewrite negb_exists => /forallP Hall [<-].
have hc6 : covariance (orbit_covar (covar e)) by exact: (covariance_corner (hc : covariance (covar e : 'M[R]_(6 + 3)))).
split; first exact: covariance_conj.
move=> i; have := Hall i; rewrite /sigma_for; case Hg: (partial_for _ (elements i)) => [g|] // _.
exists (Num.sqrt ((g *m orbit_covar (covar e) *m g^T) 0 0)) => //.
rewrite sqr_sqrtr; last by have := proj2 hc6 g^T; rewrite /quad trmxK.
set M := (\matrix_(i, j) _ : 'M[R]_6).
have Hrow : row i M = g by apply/rowP => j; rewrite !mxE Hg.
rewrite -Hrow -row_mul [LHS]mxE [RHS]mxE; apply: eq_bigr => j _.
by congr (_ * _); rewrite [LHS]mxE // [RHS]mxE [LHS]mxE.
Qed.

(** C88: an estimate multiplied by a number has its deviations multiplied by it. *)
Theorem C88_scaled e p s k : covariance (covar e) -> sigma_for partial_for e p = Ok s ->
  covariance (covar (scale_estimate e k)) /\ sigma_for partial_for (scale_estimate e k) p = Ok (`|k| * s).
Proof.
move=> [hs hp]; rewrite /sigma_for /=; case: (partial_for _ _) => // g [<-]; split.
  split; first by rewrite linearZ /= hs.
  by apply: psdZ => //; apply: sqr_ge0.
congr Ok; rewrite -sqrtr_sqr -sqrtrM ?sqr_ge0 //; congr Num.sqrt.
have -> : orbit_covar (k ^+ 2 *: covar e) = k ^+ 2 *: orbit_covar (covar e).
  by apply/matrixP => i j; rewrite !mxE.
by rewrite -scalemxAr -scalemxAl mxE.
Qed.
End Props.

(** C88: a randomised estimate never panics: its covariance is accepted by the generator. *)
Theorem C88_randomized (R : rcfType) LF elt inertial dcm svd eigenvalues (axis : 'I_6 -> elt)
    (u : uncertainty R (craft R) LF) e l s v :
  to_estimate inertial dcm u = Ok e ->
  eigenvalues (covar e) = Some l -> eigenvalues_correct eigenvalues (covar e) -> svd (covar e) = Some (s, v) ->
  exists g, from_spacecraft_cov svd eigenvalues axis (nominal_state e) (covar e) 0 = Ok g.
Proof.
move=> He Hl Hc Hs; have [_ [[_ hp] _]] := C88_covariance He.
rewrite /from_spacecraft_cov Hl; case: ifP => [/hasP[a Ha a0]|_]; last first.
  by rewrite /root_of Hs /=; eexists.
move: Hc; rewrite /eigenvalues_correct Hl => Hc; have [w w0 Hw] := proj2 (Hc a) Ha.
by have := psd_eigen hp w0 Hw; rewrite leNgt a0.
Qed.

(** ** Cases and refutations *)
Section Cases.
Context {R : rcfType}.

(** The rotation that takes each axis to the next one. *)
Definition cycle : 'M[R]_3 := \matrix_(i, j) (i == j + 1)%:R.
Definition cycle_dcm : DCM R := {| rot_mat := cycle; rot_mat_dt := None |}.
Lemma cycle_orthogonal : cycle^T *m cycle = 1%:M.
Proof.
apply/matrixP => i j; rewrite !mxE (bigD1 (i + 1)) //= !mxE eqxx mul1r (inj_eq (addIr 1)).
rewrite big1 ?addr0 // => k hk; by rewrite !mxE (negbTE hk) mul0r.
Qed.
Lemma cycle_square : cycle *m cycle = cycle^T.
Proof.
apply/matrixP => i j; rewrite !mxE (bigD1 (j + 1)) //= !mxE eqxx mulr1.
rewrite big1 ?addr0; last by move=> k hk; rewrite !mxE (negbTE hk) mulr0.
by congr (_%:R); case: i => [[|[|[|i]]] hi]; case: j => [[|[|[|j]]] hj].
Qed.
Lemma cycle_rotation : fixed_rotation cycle_dcm.
Proof.
split=> //=; first exact: cycle_orthogonal.
have h1 : \det cycle ^+ 2 = 1 by rewrite expr2 -{1}det_tr -det_mulmx cycle_orthogonal det1.
have h2 : \det cycle * \det cycle = \det cycle by rewrite -det_mulmx cycle_square det_tr.
by rewrite -h2 -expr2.
Qed.

(** An uncertainty of one kilometer along the first axis of a local frame. *)
Definition along_first : uncertainty R unit unit :=
  {| u_nominal := tt; u_frame := Some tt; sigmas := delta_mx 0 0; sigma_reflectivity := 0; sigma_drag := 0; sigma_mass := 0 |}.
Definition cycled (_ : unit) (_ : unit) : option (DCM R) := Some cycle_dcm.
Lemma along_first_ok : exists e, to_estimate tt cycled along_first = Ok e.
Proof.
apply: (proj2 (proj2 (C88_refuses tt cycled _))); split; last by exists cycle_dcm.
case=> [[i]|[|[|]]]; rewrite /= ?ltxx // mxE.
by case: (_ && _); rewrite ?ltxx // ltr10.
Qed.

(** The first axis of the local frame is the second one of the inertial frame. *)
Definition axis6 (i : 'I_3) : 'cV[R]_6 := pair_of (delta_mx i 0) 0.
Lemma first_axis : state_dcm cycle_dcm *m axis6 0 = axis6 1.
Proof.
rewrite state_dcm_fixed // /axis6 two_pair mulmx0; congr pair_of.
by apply/colP => i; rewrite -colE !mxE eqxx andbT add0r.
Qed.
Lemma quad_independent (x : 'cV[R]_6) : quad (independent (sigmas along_first)) x = x 0 0 ^+ 2.
Proof.
rewrite /independent quad_diag (bigD1 0) //= !mxE eqxx expr1n mul1r big1 ?addr0 // => i hi.
by rewrite !mxE (negbTE hi) andbF expr0n mul0r.
Qed.

(** The deviations asked for are not those of the estimate: the covariance is rotated the wrong way.
    Here all of the uncertainty is along the first axis of the local frame, and the estimate has
    none along this axis. *)
Theorem C88_local_refuted : exists (u : uncertainty R unit unit) e d,
  [/\ to_estimate tt cycled u = Ok e, fixed_rotation d, u_frame u = Some tt & cycled tt tt = Some d] /\
  quad (seen_from d (independent (sigmas u))) (state_dcm d *m axis6 0) = 1 /\
  quad (orbit_covar (covar e)) (state_dcm d *m axis6 0) = 0.
Proof.
have [e He] := along_first_ok; exists along_first, e, cycle_dcm; split; first by split=> //; exact: cycle_rotation.
have [h1 h2] := fixed_orthogonal cycle_rotation; split.
  by rewrite /seen_from quad_conj mulmxA h1 mul1mx quad_independent pair_of_0 mxE !eqxx expr1n.
rewrite (to_estimate_orbit He (erefl _ : cycled tt tt = Some cycle_dcm)) -{2}[state_dcm cycle_dcm]trmxK quad_conj trmxK.
by rewrite first_axis quad_independent state_dcm_fixed // two_pair pair_of_0 -colE !mxE expr0n.
Qed.

(** The deviations exported in the RIC frame are not those along its axes: errors along the first
    axis are exported as none along it. *)
Definition in_first : kf_estimate R unit 9 :=
  from_covar tt (block_mx (seen_from cycle_dcm (independent (sigmas along_first))) 0 0 0 : 'M[R]_(6 + 3)).
Theorem C88_exported_refuted : exists (e : kf_estimate R unit 9) d p,
  [/\ fixed_rotation d, orbit_covar (covar e) = seen_from d (independent (sigmas along_first)) &
   exported_ric_covar (fun _ => Some d) (@nominal_state _ _ _) e = Ok p] /\
  independent (sigmas along_first) 0 0 = 1 :> R /\ p 0 0 = 0.
Proof.
exists in_first, cycle_dcm; eexists; split; first split; [exact: cycle_rotation| |reflexivity|].
  by rewrite /orbit_covar /in_first /= block_mxKul.
split; first by rewrite !mxE !eqxx expr1n mulr1n.
rewrite /orbit_covar /in_first /= block_mxKul /seen_from.
set S := state_dcm cycle_dcm; set D := independent _.
have -> : (S *m (S *m D *m S^T) *m S^T) 0 0 = quad (S *m (S *m D *m S^T) *m S^T) (axis6 0).
  have -> : axis6 0 = delta_mx 0 0.
    apply/colP => i; rewrite -[i](@splitK 3 3); case: (@split 3 3 i) => i' /=.
      by rewrite /axis6 /pair_of (col_mxEu (delta_mx 0 0 : 'cV[R]_3)) !mxE.
    by rewrite /axis6 /pair_of (col_mxEd (delta_mx 0 0 : 'cV[R]_3)) !mxE.
  by rewrite /quad trmx_delta -rowE -colE !mxE.
rewrite !quad_conj quad_independent /S (state_dcm_fixed (erefl _ : rot_mat_dt cycle_dcm = None)) two_tr !two_pair pair_of_0.
by rewrite mulmxA -trmx_mul cycle_square trmxK -colE !mxE expr0n.
Qed.

(** An estimate from dispersions is not at the state that was drawn, but at its image through the
    nominal state. *)
Theorem C88_dispersed (nominal dispersed : craft R) :
  coords (craft_state (from_sample nominal dispersed)) = coords nominal + (coords nominal - coords dispersed) /\
  covariance (covar (from_sample nominal dispersed)) /\
  forall i, `|coords nominal i 0 - coords dispersed i 0| *+ 3 = Num.sqrt (covar (from_sample nominal dispersed) i i).
Proof.
split=> //; split; first by apply: covariance_diag => i; rewrite mxE sqr_ge0.
move=> i; rewrite /from_sample /= !mxE eqxx mulr1n sqrtr_sqr normrM normr_nat normr_id mulr_natl.
by congr (`| _ | *+ _); rewrite !mxE.
Qed.
Theorem C88_dispersed_refuted : exists nominal dispersed : craft R,
  coords (craft_state (from_sample nominal dispersed)) <> coords dispersed.
Proof.
exists {| coords := 0; dry_mass := 0 |}, {| coords := const_mx 1; dry_mass := 0 |}.
rewrite /craft_state /craft_add /from_sample /=; move/matrixP/(_ 0 0); rewrite !mxE !add0r => /eqP.
by rewrite eq_sym -subr_eq0 opprK -mulr2n pnatr_eq0.
Qed.

(** C88: the hypotheses hold of an uncertainty of half a kilometer and half a meter per second. *)
Example local_case : exists (u : uncertainty R unit unit) e,
  [/\ to_estimate tt cycled u = Ok e, fixed_rotation cycle_dcm &
   sigmas u = row_mx (const_mx (2%:R^-1) : 'rV[R]_3) (const_mx (2000%:R^-1) : 'rV[R]_3)].
Proof.
pose u : uncertainty R unit unit := {| u_nominal := tt; u_frame := Some tt;
  sigmas := row_mx (const_mx (2%:R^-1) : 'rV[R]_3) (const_mx (2000%:R^-1) : 'rV[R]_3); sigma_reflectivity := 0; sigma_drag := 0; sigma_mass := 0 |}.
have [e He] : exists e, to_estimate tt cycled u = Ok e.
  apply: (proj2 (proj2 (C88_refuses tt cycled _))); split; last by exists cycle_dcm.
  have Hs i : 0 <= sigmas u 0 i by rewrite [sigmas u]/= mxE; case: (@split 3 3 i) => j; rewrite mxE invr_ge0 ler0n.
  by case=> [[i]|[|[|]]]; rewrite ?ltxx // ltNge Hs.
by exists u, e; split=> //; exact: cycle_rotation.
Qed.
End Cases.

Print Assumptions C88_covariance. Print Assumptions C88_sigma. Print Assumptions C88_local_refuted.
