(** Examples for C37 and C38, and where the batch estimator does not do what it says. *)
From Verif Require Import Base.
From mathcomp Require Import all_ssreflect all_algebra.
From Coq Require Import Lia.
From Verif Require Import Kf_Model Kf_Spec Kf_Linalg Bls_Model Bls_Proofs Bls_Props.
Import Order.TTheory GRing.Theory Num.Theory.
Set Implicit Arguments.
Unset Strict Implicit.
Unset Printing Implicit Defensive.
Local Open Scope ring_scope.
Local Opaque cholesky cholesky_solve.

(** ** Linear dynamics, one station that observes a function of the state with a unit variance *)
Section Toy.
Context (R : rcfType).
Definition toy_state := (Z * 'cV[R]_9)%type.
Definition toy_inst := (toy_state * 'M[R]_9)%type.
Definition toy_epoch (s : toy_state) : Z := s.1.
Definition toy_plus (s : toy_state) (dx : 'cV[R]_9) : toy_state := (s.1, s.2 + dx).
Definition toy_start (s : toy_state) : toy_inst := (s, 1%:M).
Definition toy_state_of (i : toy_inst) : toy_state := i.1.
Definition toy_stm (i : toy_inst) : option 'M[R]_9 := Some i.2.
Definition toy_step (i : toy_inst) : Z := 60000000000.
Definition toy_known (n : nat) := true.
Definition toy_covar (n t : nat) (e : Z) : res bls_error R := Ok 1.
Definition toy_udu (A : 'M[R]_9) : option ('M[R]_9 * 'cV[R]_9) :=
  match cholesky A with Some L => Some (L, \col_i 1) | None => None end.
Context (tr : Z -> 'M[R]_9) (f : 'cV[R]_9 -> R) (h : 'cV[R]_9 -> 'rV[R]_9).
Definition toy_for (i : toy_inst) (d : Z) : res bls_error toy_inst :=
  Ok ((Z.add i.1.1 d, tr d *m i.1.2), tr d *m i.2).
Definition toy_h (n : nat) (m : @measurement R) (t : nat) (s : toy_state) : res bls_error 'rV[R]_9 := Ok (h s.2).
Definition toy_measure (n : nat) (s : toy_state) : res bls_error (option (list (nat * R))) :=
  Ok (Some [:: (0%N, f s.2)]).
Definition toy_pass :=
  one_pass toy_epoch toy_start toy_state_of toy_stm toy_step toy_for toy_known toy_h toy_measure toy_covar.
Definition toy_to :=
  to_measurement toy_epoch toy_state_of toy_stm toy_step toy_for toy_known toy_h toy_measure toy_covar.
Definition toy_all :=
  all_measurements toy_epoch toy_state_of toy_stm toy_step toy_for toy_known toy_h toy_measure toy_covar.
Definition toy_estimate :=
  estimate toy_epoch toy_plus toy_start toy_state_of toy_stm toy_step toy_for toy_known toy_h toy_measure toy_covar toy_udu.
Definition toy_iteration :=
  iteration toy_epoch toy_plus toy_start toy_state_of toy_stm toy_step toy_for toy_known toy_h toy_measure toy_covar toy_udu.
Definition toy_iterate :=
  iterate toy_epoch toy_plus toy_start toy_state_of toy_stm toy_step toy_for toy_known toy_h toy_measure toy_covar toy_udu.
Definition toy_evaluate :=
  evaluate toy_epoch toy_start toy_state_of toy_step toy_for toy_known toy_measure toy_covar.
(** An observation [y] at epoch [t]. *)
Definition obs (t : Z) (y : R) : @measurement R :=
  {| tracker := 0; msr_epoch := t; data := [:: (0%N, y)]; rejected := false |}.
(** The default settings, in nanoseconds. *)
Definition settings (sv : bls_solver) (n : nat) : @config R :=
  {| solver := sv; tolerance_pos_km := (10%:R ^+ 4)^-1; max_iterations := n; max_step := 30000000000; epoch_precision := 1000;
     lm_lambda_init := 10%:R; lm_lambda_decrease := 10%:R; lm_lambda_increase := 10%:R;
     lm_lambda_min := (10%:R ^+ 12)^-1; lm_lambda_max := 10%:R ^+ 12; lm_use_diag_scaling := true |}.

Lemma toy_exact : exact_propagator toy_epoch toy_start toy_state_of toy_for.
Proof. by split=> [s|i d i' [<-]]. Qed.
Lemma toy_factors : udu_factors toy_udu.
Proof.
move=> A dA; have [L E] := cholesky_complete dA; exists L, (\col_i 1); rewrite /toy_udu E; split=> //.
have -> : diag_mx (\row_i (\col__ 1 : 'cV[R]_9) i 0) = 1%:M.
  by rewrite -diag_const; congr diag_mx; apply/rowP => j; rewrite !mxE.
by rewrite mulmx1; have [] := cholesky_correct (proj1 dA) E.
Qed.

(** What one observation adds. *)
Definition plus_line (a : sums) (p : 'rV[R]_9) (r : R) : sums :=
  {| info_matrix := info_matrix a + p^T *m p; normal_matrix := normal_matrix a + r *: p^T; sum_sq := sum_sq a + r ^+ 2 |}.

Lemma toy_one c fuel t y e x P phi a d : Z.lt e t -> d = Z.min (Z.min (Z.sub t e) 60000000000) (max_step c) ->
  toy_to c fuel.+1 (obs t y) ((e, x), P) e phi a =
  toy_to c fuel (obs t y) ((Z.add e d, tr d *m x), tr d *m P) (Z.add e d) (tr d *m P *m phi)
    (if Z.ltb (Z.abs (Z.sub (Z.add e d) t)) (epoch_precision c)
     then plus_line a (h (tr d *m x) *m (tr d *m P *m phi)) (y - f (tr d *m x)) else a).
Proof.
move=> lt ->; rewrite {1}/toy_to /=; case: Z.leb_spec => [|_]; first by lia.
rewrite /toy_epoch /toy_state_of /toy_known /toy_step /= andbT; case: ifP => // _.
rewrite /add_types /= ltr01 /=; congr (toy_to _ _ _ _ _ _ _).
by rewrite /plus_line invr1 !scale1r mul1r expr2.
Qed.
Lemma toy_there c fuel t y i phi a : toy_to c fuel (obs t y) i t phi a = Ok (i, t, phi, a).
Proof. by case: fuel => [|fuel]; rewrite /toy_to /= Z.sub_diag. Qed.

Local Arguments toy_all : simpl never.
Local Arguments toy_to : simpl never.
Lemma toy_all_cons c fuel t y ms i e phi a :
  toy_all c fuel (obs t y :: ms) i e phi a =
  bind (toy_to c fuel (obs t y) i e phi a) (fun '(i', epoch', stm', a') => toy_all c fuel ms i' epoch' stm' a').
Proof. by []. Qed.

(** Two observations, one and two nanoseconds after the start. *)
Definition two_sums (x : 'cV[R]_9) (y z : R) : sums :=
  plus_line (plus_line no_sums (h (tr 1 *m x) *m tr 1) (y - f (tr 1 *m x)))
    (h (tr 1 *m (tr 1 *m x)) *m (tr 1 *m tr 1 *m tr 1)) (z - f (tr 1 *m (tr 1 *m x))).
Lemma toy_two sv n fuel x y z :
  toy_pass (settings sv n) fuel.+1 (Z0, x) [:: obs 1 y; obs 2 z] = Ok (two_sums x y z).
Proof.
rewrite /toy_pass /one_pass -/toy_all /toy_start /toy_epoch toy_all_cons (@toy_one _ _ _ _ _ _ _ _ _ 1) //= toy_there /=.
rewrite toy_all_cons (@toy_one _ _ _ _ _ _ _ _ _ 1) //= toy_there /=.
by rewrite /two_sums !mulmx1.
Qed.

Lemma toy_normal c fuel ms l a L : solver c = NormalEquations -> toy_pass c fuel (current_estimate l) ms = Ok a ->
  cholesky (info_matrix a) = Some L ->
  toy_iteration c fuel ms l =
  Ok (accept toy_plus toy_udu c l (info_matrix a) (cholesky_solve L (normal_matrix a)) (lambda l) (rms_of ms (sum_sq a))).
Proof. by rewrite /toy_pass /toy_iteration /iteration => S -> /= H; rewrite S H. Qed.
Lemma toy_damped c fuel ms l a L : solver c = LevenbergMarquardt -> toy_pass c fuel (current_estimate l) ms = Ok a ->
  cholesky (info_matrix a + lambda l *: scaling c (info_matrix a)) = Some L -> rms_below (rms_of ms (sum_sq a)) (current_rms l) ->
  toy_iteration c fuel ms l =
  Ok (accept toy_plus toy_udu c l (info_matrix a) (cholesky_solve L (normal_matrix a))
        (Num.max (lambda l / lm_lambda_decrease c) (lm_lambda_min c)) (rms_of ms (sum_sq a))).
Proof. by rewrite /toy_pass /toy_iteration /iteration => S -> /= H B; rewrite S H B. Qed.
Lemma toy_estimateE c fuel guess ms l : (2 <= num_measurements ms)%N ->
  toy_iterate c fuel ms (max_iterations c) (initial_loop c guess) = Ok l ->
  toy_estimate c fuel guess ms =
  Ok {| estimated_state := current_estimate l; sol_covariance := current_covariance l; num_iterations := iter l;
        final_rms := current_rms l; final_corr_pos_km := corr_pos_km l; sol_converged := converged l |}.
Proof. by rewrite /toy_estimate /toy_iterate /estimate => n ->; rewrite ltnNge n. Qed.
Lemma toy_evaluateE c fuel x ms a : (1 <= num_measurements ms)%N -> toy_pass c fuel x ms = Ok a ->
  toy_evaluate c fuel x ms = Ok (rms_of ms (sum_sq a)).
Proof.
move=> n; rewrite /toy_pass /toy_evaluate => H; rewrite /evaluate ltnNge n /=.
by have /= -> := eval_all_sum H.
Qed.
Lemma toy_iterateS c fuel ms n l : toy_iterate c fuel ms n.+1 l =
  bind (toy_iteration c fuel ms l) (fun l' => if converged l' then Ok l' else toy_iterate c fuel ms n l').
Proof. by []. Qed.
Lemma toy_refused c fuel ms n l a : solver c = LevenbergMarquardt -> toy_pass c fuel (current_estimate l) ms = Ok a ->
  rms_below (rms_of ms (sum_sq a)) (current_rms l) = false -> converged l = false ->
  exists l', toy_iterate c fuel ms n l = Ok l'.
Proof.
move=> S; elim: n l => [|n IH] l P B C; first by exists l.
rewrite toy_iterateS.
have [l1 [E [E1 [E2 E3]]]] : exists l1, toy_iteration c fuel ms l = Ok l1 /\ current_estimate l1 = current_estimate l /\
    current_rms l1 = current_rms l /\ converged l1 = false.
  move: P; rewrite /toy_pass /toy_iteration /iteration => -> /=; rewrite S B.
  by case: (cholesky _) => [L|]; eexists; split; first reflexivity.
by rewrite E /= E3; apply: IH; rewrite ?E1 ?E2.
Qed.
End Toy.
Local Arguments toy_all : simpl never.
Local Arguments toy_to : simpl never.

Section Cases.
Context (R : rcfType).
Definition first_of (x : 'cV[R]_9) : R := x 0 0.
Definition still (d : Z) : 'M[R]_9 := 1%:M.
Definition row_of (p : 'rV[R]_9) (x : 'cV[R]_9) : 'rV[R]_9 := p.

(** The state is not moving and its first coordinate is observed twice. *)
Definition still_estimate := toy_estimate still first_of (row_of (delta_mx 0 0)).
Definition still_pass := toy_pass still first_of (row_of (delta_mx 0 0)).

Lemma outer_entry (p : 'rV[R]_9) i j : (p^T *m p) i j = p 0 i * p 0 j.
Proof. by rewrite mxE big_ord1 !mxE. Qed.
Lemma solve_unique (A : 'M[R]_9) (b x : 'cV[R]_9) : A \in unitmx -> A *m x = b -> invmx A *m b = x.
Proof. by move=> U <-; rewrite mulKmx. Qed.

(** ** Examples *)
Example C37_example : exists a,
  exact_propagator (@toy_epoch R) (@toy_start R) (@toy_state_of R) (toy_for still) /\ udu_factors (@toy_udu R) /\
  still_pass (settings R NormalEquations 10) 5 (Z0, 0) [:: obs 1 1; obs 2 1] = Ok a /\
  info_matrix a 0 0 = 3%:R /\ normal_matrix a 0 0 = 2%:R.
Proof.
exists (two_sums still first_of (row_of (delta_mx 0 0)) 0 1 1); split; first exact: toy_exact.
split; first exact: toy_factors; split; first exact: toy_two.
rewrite /two_sums /plus_line /row_of /still /first_of /= !mulmx1 !mulmx0; split.
  by rewrite 2!mxE !outer_entry !mxE !eqxx /= !mulr1 -[1]/(1%:R) -!natrD.
by rewrite !mxE !eqxx /= !subr0 !mulr1 add0r -[1]/(1%:R) -!natrD.
Qed.
(** These observations meet the conditions for being used once each: a grid of one microsecond. *)
Example C37_once_example :
  after 0 [:: obs (R := R) 1000 1; obs 2000 1] /\ Z.divide 1000 (max_step (settings R NormalEquations 10)) /\
  (forall j : toy_inst R, Z.divide 1000 (toy_step j)) /\ Z.le (epoch_precision (settings R NormalEquations 10)) 1000.
Proof.
split; first by [].
by split; [exists (Z.mul 30000 1000)|split; [move=> j; exists (Z.mul 60000 1000)|]].
Qed.

(** ** C37: the partials of the second step on are not those with respect to the estimated state: the
    state transition matrix of the propagator is not reset between two steps, but multiplied. *)
Definition doubling (d : Z) : 'M[R]_9 := (2%:R ^+ Z.to_nat d)%:M.
Definition doubling_pass := toy_pass doubling first_of (row_of (delta_mx 0 0)).
Definition true_line (t : Z) (r : R) : line :=
  {| partials := delta_mx 0 0 *m doubling t; line_weight := 1; line_residual := r |}.
Theorem C37_stm_refuted :
  [/\ (forall a b, Z.le 0 a -> Z.le 0 b -> doubling (Z.add a b) = doubling b *m doubling a),
      (forall t (x y : 'cV[R]_9), first_of (doubling t *m (x + y)) = first_of (doubling t *m x) + ((delta_mx 0 0 : 'rV[R]_9) *m doubling t *m y) 0 0) &
      exists a, doubling_pass (settings R NormalEquations 10) 5 (Z0, 0) [:: obs 1 1; obs 2 1] = Ok a /\
        info_matrix a <> 1%:M + gram [:: true_line 1 1; true_line 2 1]].
Proof.
split.
- move=> a b a0 b0; rewrite /doubling Z2Nat.inj_add // plusE addnC exprD; exact: scalar_mxM.
- move=> t x y; rewrite /first_of mulmxDr mxE; congr (_ + _).
  by rewrite -mulmxA -rowE [RHS]mxE.
exists (two_sums doubling first_of (row_of (delta_mx 0 0)) 0 1 1); split; first exact: toy_two.
rewrite /two_sums /plus_line /row_of /= /gram big_cons big_cons big_nil /true_line /= !scale1r addr0 addrA.
move=> /matrixP /(_ 0 0); rewrite mxE [RHS]mxE => /addrI; rewrite !outer_entry /doubling -!scalar_mxM.
rewrite !mul_mx_scalar !mxE !eqxx /= !mulr1 !expr1 -!natrX -!natrM => /eqP.
by rewrite eqr_nat.
Qed.

(** ** C37: of two measurements at the same epoch the second is not used, whatever it says. *)
Theorem C37_simultaneous_refuted : exists a, forall z : R,
  still_pass (settings R NormalEquations 10) 5 (Z0, 0)
    [:: obs 1 1; {| tracker := 1; msr_epoch := 1; data := [:: (0%N, z)]; rejected := false |}] = Ok a.
Proof.
exists (plus_line no_sums (delta_mx 0 0) 1) => z.
have -> : [:: obs 1 1; {| tracker := 1; msr_epoch := 1; data := [:: (0%N, z)]; rejected := false |}]
          = [:: obs 1 1] ++ {| tracker := 1; msr_epoch := 1; data := [:: (0%N, z)]; rejected := false |} :: [::] by [].
rewrite /still_pass /toy_pass (@C37_not_after _ _ _ _ _ _ _ _ _ _ _ _ _ _ _ _ _ _ (obs 1 1)) //=; try by [exact: toy_exact|left].
rewrite /one_pass -/(toy_all still first_of (row_of (delta_mx 0 0))) /toy_start /toy_epoch toy_all_cons.
rewrite (@toy_one _ _ _ _ _ _ _ _ _ _ _ _ _ 1) //= ?toy_there /toy_all /=.
by rewrite /still /row_of /first_of !mulmx1 !mulmx0 mxE subr0.
Qed.

(** ** C37: a measurement just after the end of a step of the largest size is used twice. *)
Theorem C37_twice_refuted : exists a,
  still_pass (settings R NormalEquations 10) 5 (Z0, 0) [:: obs 30000000500 1] = Ok a /\
  info_matrix a = 1%:M + gram [:: true_line 0 1; true_line 0 1].
Proof.
exists (plus_line (plus_line no_sums (delta_mx 0 0) 1) (delta_mx 0 0) 1); split; last first.
  rewrite /plus_line /gram 2!big_cons big_nil /true_line /= !scale1r addr0 addrA.
  by rewrite /doubling /= expr0 !mulmx1.
rewrite /still_pass /toy_pass /one_pass -/(toy_all still first_of (row_of (delta_mx 0 0))) /toy_start /toy_epoch toy_all_cons.
rewrite (@toy_one _ _ _ _ _ _ _ _ _ _ _ _ _ 30000000000) //=.
rewrite (@toy_one _ _ _ _ _ _ _ _ _ _ _ _ _ 500) //= ?toy_there /toy_all /=.
by rewrite /still /row_of /first_of !mulmx1 !mulmx0 mxE subr0.
Qed.

Lemma info_unit ls : @weighted R ls -> 1%:M + gram ls \in unitmx.
Proof. by move=> W; apply: definite_unit; apply: info_definite. Qed.

(** ** C37: a unit covariance is assumed: two observations of one that a state of one explains without
    any residual do not give this state, and a coordinate that was never observed gets a variance of one. *)
Theorem C37_prior_refuted : exists sol,
  [/\ still_estimate (settings R NormalEquations 1) 5 (Z0, 0) [:: obs 1 1; obs 2 1] = Ok sol,
      (estimated_state sol).2 = (2%:R / 3%:R) *: delta_mx 0 0, sol_covariance sol (inord 1) (inord 1) = 1 &
      toy_evaluate still first_of (settings R NormalEquations 1) 5 (Z0, delta_mx 0 0) [:: obs 1 1; obs 2 1] = Ok 0].
Proof.
pose ls := [:: true_line 0 1; true_line 0 1].
have T0 r : true_line 0 r = {| partials := delta_mx 0 0; line_weight := 1; line_residual := r |}.
  by rewrite /true_line /doubling /= expr0 mulmx1.
have W : weighted ls by move=> l [<-|[<-|//]] /=; exact: ltr01.
have dA := info_definite W; have uA := info_unit W; have [L EL] := cholesky_complete dA.
pose a := two_sums still first_of (row_of (delta_mx 0 0)) 0 1 1.
have EI : info_matrix a = 1%:M + gram ls.
  rewrite /a /two_sums /plus_line /gram 2!big_cons big_nil !T0 /= !scale1r addr0 addrA.
  by rewrite /still /row_of !mulmx1.
have EN : normal_matrix a = 2%:R *: (delta_mx 0 0)^T.
  rewrite /a /two_sums /plus_line /= /still /row_of /first_of !mulmx1 !mulmx0 !mxE !subr0 !scale1r add0r.
  by rewrite scaler_nat mulr2n.
have G : gram ls = 2%:R *: ((delta_mx 0 0 : 'rV[R]_9)^T *m delta_mx 0 0).
  by rewrite /gram 2!big_cons big_nil !T0 /= !scale1r addr0 scaler_nat mulr2n.
have E : still_estimate (settings R NormalEquations 1) 5 (Z0, 0) [:: obs 1 1; obs 2 1] =
  Ok {| estimated_state := (Z0, 0 + cholesky_solve L (normal_matrix a)); sol_covariance := covariance_of (@toy_udu R) (info_matrix a);
        num_iterations := 1; final_rms := Some (rms_of [:: obs 1 1; obs 2 1] (sum_sq a));
        final_corr_pos_km := Some (pos_norm (cholesky_solve L (normal_matrix a)));
        sol_converged := pos_norm (cholesky_solve L (normal_matrix a)) < (10%:R ^+ 4)^-1 |}.
  rewrite /still_estimate (@toy_estimateE _ _ _ _ _ _ _ _ (accept (@toy_plus R) (@toy_udu R) (settings R NormalEquations 1)
    (initial_loop (settings R NormalEquations 1) (Z0, 0)) (info_matrix a) (cholesky_solve L (normal_matrix a)) 10%:R
    (rms_of [:: obs 1 1; obs 2 1] (sum_sq a)))) //.
  rewrite toy_iterateS (@toy_normal _ _ _ _ _ _ _ _ a L) ?EI ?EL ?toy_two //=; first by rewrite -EI if_same.
clearbody a; eexists; split; first exact: E; rewrite /=.
- rewrite add0r (cholesky_solveE _ (proj1 dA) EL) EN; apply: solve_unique => //.
  rewrite G mulmxDl mul1mx -scalemxAr -!scalemxAl -mulmxA.
  have -> : (delta_mx 0 0 : 'rV[R]_9) *m (delta_mx 0 0 : 'cV[R]_9) = 1%:M.
    by rewrite mul_delta_mx; apply/matrixP => i j; rewrite !ord1 !mxE.
  rewrite mulmx1 trmx_delta scalerA -scalerDl; congr (_ *: _).
  have c3 : 3%:R * (2%:R / 3%:R) = 2%:R :> R by rewrite mulrCA mulfV ?mulr1 // pnatr_eq0.
  by rewrite -{1}[2%:R / 3%:R]mulr1 -mulrDr -[RHS]c3 mulrC -[1]/(1%:R) -natrD.
- rewrite EI (covariance_inverse (@toy_factors R) dA).
  have n1 : (inord 1 == 0 :> 'I_9) = false by rewrite -val_eqE /= inordK.
  have -> : invmx (1%:M + gram ls) (inord 1) (inord 1) = (invmx (1%:M + gram ls) *m (delta_mx (inord 1) 0 : 'cV[R]_9)) (inord 1) 0.
    by rewrite -colE mxE.
  rewrite (@solve_unique _ _ (delta_mx (inord 1) 0)) //; first by rewrite mxE !eqxx.
  by rewrite G mulmxDl mul1mx -scalemxAl -mulmxA mul_delta_mx_cond eq_sym n1 mulr0n mulmx0 scaler0 addr0.
have T2 := @toy_two R still first_of (row_of (delta_mx 0 0)) NormalEquations 1 4 (delta_mx 0 0) 1 1.
rewrite (toy_evaluateE _ T2) //.
rewrite /two_sums /plus_line /= /still /first_of !mul1mx mxE !eqxx subrr expr0n /= !addr0.
by rewrite /rms_of mul0r sqrtr0.
Qed.

Lemma inverse_unique (A K : 'M[R]_9) : A \in unitmx -> A *m K = 1%:M -> invmx A = K.
Proof. by move=> U E; rewrite -[RHS](mulKmx U) E mulmx1. Qed.

Lemma entryE (x : 'cV[R]_9) (i : nat) : (i < 9)%N -> entry x i 0 = x (inord i) 0.
Proof.
move=> i9; rewrite /entry; case: insubP => [u _ E|]; last by rewrite i9.
case: insubP => [v _ _|] //=; rewrite (ord1 v); congr (x _ 0).
by apply: val_inj; rewrite /= E inordK.
Qed.
Lemma pos_normE (x : 'cV[R]_9) : pos_norm x = Num.sqrt (x (inord 0) 0 ^+ 2 + x (inord 1) 0 ^+ 2 + x (inord 2) 0 ^+ 2).
Proof.
rewrite /pos_norm /norm_squared 3!big_ord_recl big_ord0 addr0 !mxE /= !entryE //.
by rewrite -!expr2 addrA.
Qed.

(** ** C37: the covariance that is handed to the filter is not a covariance: only the variances of the
    last three coordinates are removed. *)
Definition both : 'rV[R]_9 := delta_mx 0 0 + delta_mx 0 (inord 6).
Definition sum_of (x : 'cV[R]_9) : R := (both *m x) 0 0.
Theorem C37_kf_estimate_refuted : exists sol,
  toy_estimate still sum_of (row_of both) (settings R NormalEquations 10) 5 (Z0, 0) [:: obs 1 0; obs 2 0] = Ok sol /\
  sol_converged sol /\ covariance (sol_covariance sol) /\ ~ psd (kf_covariance (sol_covariance sol)).
Proof.
pose l0 : line := {| partials := both; line_weight := 1; line_residual := 0 |}.
pose ls := [:: l0; l0].
have W : weighted ls by move=> l [<-|[<-|//]] /=; exact: ltr01.
have dA := info_definite W; have uA := info_unit W; have [L EL] := cholesky_complete dA.
pose a := two_sums still sum_of (row_of both) 0 0 0.
have EI : info_matrix a = 1%:M + gram ls.
  by rewrite /a /two_sums /plus_line /gram 2!big_cons big_nil /= !scale1r addr0 addrA /still /row_of !mulmx1.
have EN : normal_matrix a = 0.
  by rewrite /a /two_sums /plus_line /= /still /row_of /sum_of !mulmx1 !mulmx0 !mxE !subr0 !scale0r !addr0.
have G : gram ls = 2%:R *: (both^T *m both).
  by rewrite /gram 2!big_cons big_nil /= !scale1r addr0 scaler_nat mulr2n.
have n6 : (inord 6 == 0 :> 'I_9) = false by rewrite -val_eqE /= inordK.
have b0 : both 0 0 = 1 by rewrite !mxE !eqxx [0 == inord 6]eq_sym n6 addr0.
have b6 : both 0 (inord 6) = 1 by rewrite !mxE !eqxx n6 add0r.
have bb : both *m both^T = 2%:R%:M.
  apply/matrixP => i j; rewrite !ord1 /both linearD /= mulmxDr !mulmxDl !trmx_delta !mul_delta_mx_cond.
  by rewrite [0 == inord 6]eq_sym n6 !eqxx !mulr1n !mulr0n addr0 add0r !mxE !eqxx -[1]/(1%:R) -natrD.
pose K : 'M[R]_9 := 1%:M - (2%:R / 5%:R) *: (both^T *m both).
have EK : invmx (1%:M + gram ls) = K.
  apply: inverse_unique => //.
  rewrite G /K mulmxBr mulmx1 mulmxDl mul1mx -!scalemxAr -!scalemxAl.
  rewrite mulmxA -[both^T *m both *m both^T]mulmxA bb mul_mx_scalar -scalemxAl !scalerA.
  rewrite -addrA -scalerDl -scalerBl -[RHS]addr0; congr (_ + _).
  have c5 : 5%:R * (2%:R / 5%:R) = 2%:R :> R by rewrite mulrCA mulfV ?mulr1 // pnatr_eq0.
  rewrite -[2%:R / 5%:R * 2%:R * 2%:R]mulrA -natrM -{1}[2%:R / 5%:R]mulr1 -mulrDr -[1]/(1%:R) -natrD [_ * 5%:R]mulrC c5 subrr; exact: scale0r.
have P0 : pos_norm (0 : 'cV[R]_9) = 0.
  by rewrite pos_normE !mxE expr0n !addr0 sqrtr0.
have S0 : cholesky_solve L (normal_matrix a) = 0 by rewrite EN (cholesky_solveE _ (proj1 dA) EL) mulmx0.
pose l1 := accept (@toy_plus R) (@toy_udu R) (settings R NormalEquations 10)
    (initial_loop (settings R NormalEquations 10) (Z0, 0)) (info_matrix a) (cholesky_solve L (normal_matrix a)) 10%:R
    (rms_of [:: obs 1 0; obs 2 0] (sum_sq a)).
have C1 : converged l1 by rewrite /= S0 P0 invr_gt0 exprn_gt0 // ltr0n.
have T1 : toy_iteration still sum_of (row_of both) (settings R NormalEquations 10) 5 [:: obs 1 0; obs 2 0]
            (initial_loop (settings R NormalEquations 10) (Z0, 0)) = Ok l1.
  by apply: toy_normal; rewrite ?EI //; exact: toy_two.
eexists; split.
  by apply: (@toy_estimateE _ _ _ _ _ _ _ _ l1) => //; rewrite toy_iterateS T1 /bind C1.
split; first exact: C1.
rewrite -[sol_covariance _]/(covariance_of (@toy_udu R) (info_matrix a)) EI (covariance_inverse (@toy_factors R) dA).
split; first exact: inverse_covariance.
rewrite EK => /(_ both^T).
rewrite /quad trmxK => H.
have Q : (both *m kf_covariance K *m both^T) 0 0 = 1 - (2%:R / 5%:R) *+ 3.
  have KE i j : K i j = (i == j)%:R - 2%:R / 5%:R * (both 0 i * both 0 j).
    by rewrite /K -outer_entry mxE [((- _) : 'M_9) _ _]mxE [((_ *: _) : 'M_9) _ _]mxE mxE.
  have D (X Y : 'M[R]_1) : (X + Y) 0 0 = X 0 0 + Y 0 0 by rewrite mxE.
  have P i j : ((delta_mx 0 i : 'rV[R]_9) *m kf_covariance K *m (delta_mx j 0 : 'cV[R]_9)) 0 0 = kf_covariance K i j.
    by rewrite -rowE -colE 2!mxE.
  rewrite /both linearD /= mulmxDr !mulmxDl !D !trmx_delta !P.
  rewrite ![kf_covariance K _ _]mxE !KE b0 b6 !eqxx [0 == inord 6]eq_sym n6 /= inordK //= !mulr1 !sub0r addr0.
  by rewrite -!addrA -!opprD.
move: H; rewrite Q subr_ge0 -mulrnAl -mulr_natr -natrM ler_pdivr_mulr ?ltr0n // mul1r ler_nat.
by [].
Qed.

(** ** C38: the first correction is applied without a look at its residuals.  When it makes them worse
    every later iteration is refused, and the solution has the worse estimate together with the
    residuals of the initial guess. *)
Definition curved (x : 'cV[R]_9) : R := x 0 0 + 20%:R * x 0 0 ^+ 2.
Definition curved_row (x : 'cV[R]_9) : 'rV[R]_9 := (1 + 40%:R * x 0 0) *: delta_mx 0 0.
Definition arc33 : seq (@measurement R) := [:: obs 1 33%:R; obs 2 33%:R].
Lemma rms_two (r : nat) : rms_of arc33 (0 + r%:R ^+ 2 + r%:R ^+ 2) = r%:R.
Proof.
rewrite /rms_of add0r -mulr2n -[_ *+ 2]mulr_natr mulfK ?pnatr_eq0 //.
by rewrite sqrtr_sqr ger0_norm ?ler0n.
Qed.
Lemma curved_pass (n : nat) (x : 'cV[R]_9) (r : nat) : (33%:R - curved x) ^+ 2 = r%:R ^+ 2 ->
  exists a, toy_pass still curved curved_row (settings R LevenbergMarquardt n) 5 (Z0, x) arc33 = Ok a /\
    rms_of arc33 (sum_sq a) = r%:R /\
    info_matrix a = 1%:M + 2%:R *: ((curved_row x)^T *m curved_row x) /\
    normal_matrix a = (2%:R * (33%:R - curved x)) *: (curved_row x)^T.
Proof.
move=> E; eexists; split; first exact: toy_two.
rewrite /two_sums /plus_line /= /still !mul1mx !mulmx1 E; split; first exact: rms_two.
split; first by rewrite scaler_nat mulr2n addrA.
by rewrite add0r -scalerA scaler_nat mulr2n.
Qed.
Theorem C38_worse_refuted (n : nat) : exists sol,
  [/\ toy_estimate still curved curved_row (settings R LevenbergMarquardt n.+1) 5 (Z0, 0) arc33 = Ok sol,
      toy_evaluate still curved (settings R LevenbergMarquardt n.+1) 5 (Z0, 0) arc33 = Ok 33%:R,
      toy_evaluate still curved (settings R LevenbergMarquardt n.+1) 5 (estimated_state sol) arc33 = Ok 49%:R &
      final_rms sol = Some 33%:R /\ num_iterations sol = n.+1 /\ sol_converged sol = false].
Proof.
set c := settings R LevenbergMarquardt n.+1.
have z0 : curved 0 = 0 by rewrite /curved mxE expr0n mulr0 addr0.
have q0 : (33%:R - curved 0) ^+ 2 = 33%:R ^+ 2 by rewrite z0 subr0.
have [a [P0 [R0 [I0 N0]]]] := @curved_pass n.+1 0 33 q0.
pose x2 : 'cV[R]_9 := 2%:R *: delta_mx 0 0.
have z2 : curved x2 = 82%:R by rewrite /curved /x2 !mxE !eqxx mulr1 -natrX -natrM -natrD.
have q2 : (33%:R - curved x2) ^+ 2 = 49%:R ^+ 2 by rewrite z2 -sqrrN opprB -natrB.
have [b [P2 [R2 _]]] := @curved_pass n.+1 x2 49 q2.
have r0 : curved_row 0 = delta_mx 0 0 by rewrite /curved_row mxE mulr0 addr0 scale1r.
pose l0 : @line R := {| partials := delta_mx 0 0; line_weight := 1; line_residual := 33%:R |}.
pose ls := [:: l0; l0].
have W : weighted ls by move=> l [<-|[<-|//]] /=; exact: ltr01.
have G : gram ls = 2%:R *: ((delta_mx 0 0 : 'rV[R]_9)^T *m delta_mx 0 0).
  by rewrite /gram 2!big_cons big_nil /= !scale1r addr0 scaler_nat mulr2n.
have EI : info_matrix a = 1%:M + gram ls by rewrite I0 r0 G.
have EN : normal_matrix a = 66%:R *: delta_mx 0 0 by rewrite N0 r0 z0 subr0 -natrM trmx_delta.
have dA : definite (info_matrix a + 10%:R *: scaling c (info_matrix a)).
  apply: definiteD; first by rewrite EI; apply/definite_covariance/info_definite.
  rewrite EI scalingE // -linearZ; apply: definite_diag => j; rewrite !mxE mulr_gt0 ?ltr0n //; exact: damping_positive.
have [L EL] := cholesky_complete dA.
have e0 : (delta_mx 0 0 : 'rV[R]_9) *m (delta_mx 0 0 : 'cV[R]_9) = 1%:M.
  by rewrite mul_delta_mx; apply/matrixP => i j; rewrite !ord1 !mxE.
have SX : cholesky_solve L (normal_matrix a) = x2.
  rewrite (cholesky_solveE _ (proj1 dA) EL) EN; apply: solve_unique; first exact: definite_unit.
  rewrite EI scalingE // !mulmxDl mul1mx G -!scalemxAl -mulmxA /x2 -!scalemxAr e0 mulmx1 trmx_delta.
  have -> : diag_mx (\row_j damping c ls j) *m (delta_mx 0 0 : 'cV[R]_9) = 3%:R *: delta_mx 0 0.
    have d0 : damping c ls 0 = 3%:R by rewrite /damping /= G mxE outer_entry !mxE !eqxx !mulr1 -[1]/(1%:R) -natrD.
    apply/colP => j; rewrite mul_diag_mx [LHS]mxE [RHS]mxE [(\row_j _) _ _]mxE; case: (eqVneq j 0) => [->|nj]; first by rewrite d0.
    by rewrite !mxE (negbTE nj) !mulr0.
  by rewrite !scalerA -!scalerDl; congr (_ *: _); rewrite -!natrM -!natrD.
pose l1 := accept (@toy_plus R) (@toy_udu R) c (initial_loop c (Z0, 0)) (info_matrix a) (cholesky_solve L (normal_matrix a))
    (Num.max (10%:R / 10%:R) (10%:R ^+ 12)^-1) (rms_of arc33 (sum_sq a)).
have T1 : toy_iteration still curved curved_row c 5 arc33 (initial_loop c (Z0, 0)) = Ok l1.
  exact: toy_damped.
have E1 : current_estimate l1 = (Z0, x2) by rewrite /= SX /toy_plus /= add0r.
have B1 : current_rms l1 = Some 33%:R by rewrite /= R0.
have C1 : converged l1 = false.
  have i0 : (inord 0 : 'I_9) = 0 by apply: val_inj; rewrite /= inordK.
  have i1 : (inord 1 == 0 :> 'I_9) = false by rewrite -val_eqE /= inordK.
  have i2 : (inord 2 == 0 :> 'I_9) = false by rewrite -val_eqE /= inordK.
  apply: negbTE; rewrite /= -leNgt SX pos_normE /x2 i0 !mxE i1 i2 !eqxx /= !mulr0 mulr1 !expr0n /= !addr0.
  rewrite sqrtr_sqr ger0_norm ?ler0n //.
  apply: (@le_trans _ _ 1); last by rewrite ler1n.
  by rewrite invf_le1 ?exprn_gt0 ?ltr0n // exprn_ege1 // ler1n.
have NB : rms_below (rms_of arc33 (sum_sq b)) (current_rms l1) = false.
  by rewrite B1 R2 /= ltr_nat.
have P1 : toy_pass still curved curved_row c 5 (current_estimate l1) arc33 = Ok b by rewrite E1.
have [l' I'] := @toy_refused _ _ _ _ c 5 arc33 n l1 b erefl P1 NB C1.
have NI : ~ improves (rms_of arc33 (sum_sq b)) (current_rms l1) by move/improvesP; rewrite NB.
have [F1 _ F3 F4 F5] := C38_refused_forever (@toy_exact R still) (erefl : solver c = LevenbergMarquardt) P1 NI C1 I'.
eexists; split.
- by apply: (@toy_estimateE _ _ _ _ _ _ _ _ l') => //; rewrite toy_iterateS T1 /bind C1.
- by rewrite (toy_evaluateE _ P0) // R0.
- by rewrite -[estimated_state _]/(current_estimate l') F1 (toy_evaluateE _ P1) // R2.
- by rewrite -[final_rms _]/(current_rms l') F3 B1 -[num_iterations _]/(iter l') F5 -[sol_converged _]/(converged l') F4 /= add1n.
Qed.
(** The default settings meet the conditions of C38. *)
Example C38_settings_example : let c := settings R LevenbergMarquardt 10 in
  [/\ 0 <= lm_lambda_min c, lm_lambda_min c <= lm_lambda_max c, 1 <= lm_lambda_decrease c, 1 <= lm_lambda_increase c &
      lm_lambda_min c <= lm_lambda_init c <= lm_lambda_max c].
Proof.
have t1 : 1 <= 10%:R :> R by rewrite ler1n.
have p1 : 1 <= 10%:R ^+ 12 :> R by rewrite exprn_ege1.
have i1 : (10%:R ^+ 12)^-1 <= 1 :> R by rewrite invf_le1 // exprn_gt0 // ltr0n.
split=> //=; first by rewrite invr_ge0 exprn_ge0 // ler0n.
  exact: le_trans p1.
by rewrite (le_trans i1 t1) /= exprS ler_pemulr ?ler0n // exprn_ege1.
Qed.
End Cases.
Print Assumptions C37_normal_equations.
Print Assumptions C37_covariance.
Print Assumptions C37_evaluate.
Print Assumptions C37_not_after.
Print Assumptions C37_solution.
Print Assumptions C37_stm_refuted.
Print Assumptions C37_twice_refuted.
Print Assumptions C37_prior_refuted.
Print Assumptions C37_kf_estimate_refuted.
Print Assumptions C38_damped_step.
Print Assumptions C38_damping_range.
Print Assumptions C38_refused_forever.
Print Assumptions C38_reported_residuals.
Print Assumptions C38_worse_refuted.
