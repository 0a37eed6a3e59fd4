(** C37, C38: batch least squares.  The propagator, the state type, the tracking devices and the
    addition of a correction are arbitrary. *)
From Verif Require Import Base.
From mathcomp Require Import all_ssreflect all_algebra.
From Coq Require Import Lia.
From Verif Require Import Kf_Model Kf_Spec Kf_Linalg Bls_Model Bls_Proofs.
Import Order.TTheory GRing.Theory Num.Theory.
Set Implicit Arguments.
Unset Strict Implicit.
Unset Printing Implicit Defensive.
Local Open Scope ring_scope.
Local Opaque cholesky cholesky_solve.

Section Props.
Context {R : rcfType}.
Context {state inst : Type}.
Context (epoch_of : state -> Z) (plus : state -> 'cV[R]_9 -> state).
Context (start : state -> inst) (state_of : inst -> state) (stm_of : inst -> option 'M[R]_9)
        (step_size : inst -> Z) (for_duration : inst -> Z -> res bls_error inst).
Context (known : nat -> bool)
        (h_tilde : nat -> @measurement R -> nat -> state -> res bls_error 'rV[R]_9)
        (measure_instantaneous : nat -> state -> res bls_error (option (list (nat * R))))
        (measurement_covar : nat -> nat -> Z -> res bls_error R)
        (udu : 'M[R]_9 -> option ('M[R]_9 * 'cV[R]_9)).
Local Notation measurement := (@measurement R).
Local Notation line := (@line R).
Local Notation to_measurement :=
  (to_measurement epoch_of state_of stm_of step_size for_duration known h_tilde measure_instantaneous measurement_covar).
Local Notation all_measurements :=
  (all_measurements epoch_of state_of stm_of step_size for_duration known h_tilde measure_instantaneous measurement_covar).
Local Notation one_pass :=
  (one_pass epoch_of start state_of stm_of step_size for_duration known h_tilde measure_instantaneous measurement_covar).
Local Notation evaluate :=
  (evaluate epoch_of start state_of step_size for_duration known measure_instantaneous measurement_covar).
Local Notation iteration :=
  (iteration epoch_of plus start state_of stm_of step_size for_duration known h_tilde measure_instantaneous measurement_covar udu).
Local Notation iterate :=
  (iterate epoch_of plus start state_of stm_of step_size for_duration known h_tilde measure_instantaneous measurement_covar udu).
Local Notation estimate :=
  (estimate epoch_of plus start state_of stm_of step_size for_duration known h_tilde measure_instantaneous measurement_covar udu).
Local Notation visit := (@visit R inst).
Local Notation visits_observed := (visits_observed state_of h_tilde measure_instantaneous measurement_covar).
Local Notation visit_valid := (visit_valid epoch_of state_of stm_of for_duration known).
Local Notation visit_exact := (visit_exact epoch_of state_of).
Local Notation usable := (usable known).
Local Notation on_path := (on_path stm_of for_duration).

(** The propagator starts from the given state and flies for the durations it is given. *)
Definition exact_propagator : Prop :=
  (forall s, epoch_of (state_of (start s)) = epoch_of s) /\
  (forall i d i', for_duration i d = Ok i' -> epoch_of (state_of i') = Z.add (epoch_of (state_of i)) d).
(** The factorization of a positive definite matrix by [udu]. *)
Definition udu_factors : Prop :=
  forall A, definite A -> exists u d, udu A = Some (u, d) /\ A = u *m diag_mx (\row_i d i 0) *m u^T.

(** [ls] are the observations made by a pass from [s] over the arc [ms], at the visits [vs]: the
    tracker of each visited measurement is configured, the measurement is not rejected and the
    propagator is at its epoch up to the precision.  If the accepted measurements are one after the
    other and after the epoch of the state, each one is used at its epoch.  If moreover the epochs
    and the steps are on a grid which is not finer than the precision, each one is used once. *)
Definition pass_over (c : @config R) (s : state) (ms : seq measurement) (vs : seq visit) (ls : seq line) : Prop :=
  [/\ (exists2 lss, visits_observed vs lss & ls = flatten lss),
      (forall v, List.In v vs -> List.In (visit_msr v) ms /\ visit_valid (epoch_precision c) (start s) v),
      (Z.lt 0 (epoch_precision c) -> after (epoch_of s) ms ->
        forall m, List.In m ms -> usable m -> exists2 v, List.In v vs & visit_msr v = m /\ visit_exact v) &
      (forall q, Z.lt 0 (epoch_precision c) -> Z.le (epoch_precision c) q -> Z.divide q (max_step c) ->
        (forall j, Z.divide q (step_size j)) -> after (epoch_of s) ms ->
        (forall m, List.In m ms -> Z.divide q (Z.sub (msr_epoch m) (epoch_of s))) ->
        [seq visit_msr v | v <- vs] = [seq m <- ms | usable m])].
(** Root mean square of the weighted residuals, over the accepted measurements. *)
Definition rms (ms : seq measurement) (ls : seq line) : R :=
  Num.sqrt (cost ls / (count (fun m => ~~ rejected m) ms)%:R).

Ltac unbind H x E := match type of H with bind ?e _ = Ok _ => case E: e H => [x| | |] //= H end.

Lemma weighted_flatten vs lss : visits_observed vs lss -> weighted (flatten lss).
Proof.
move=> O; elim: O => {vs lss} [|v ls vs lss O _ IH] l //=.
move=> I; case: (List.in_app_or _ _ _ I) => J; last exact: IH.
exact: (observed_weighted O J).
Qed.

Lemma pass_sums c fuel s ms a : exact_propagator -> one_pass c fuel s ms = Ok a ->
  exists vs ls, [/\ pass_over c s ms vs ls, weighted ls, info_matrix a = 1%:M + gram ls, normal_matrix a = moment ls &
                    rms_of ms (sum_sq a) = rms ms ls].
Proof.
move=> [E1 E2] H; rewrite /one_pass -(E1 s) in H.
have P0 : on_path (start s) (start s) 1%:M by exists [::]; constructor.
have [vs [lss [V1 [I1 I2 I3] V3 V4 V5]]] := all_measurements_visits E2 H P0.
exists vs, (flatten lss); split.
- split; first by exists lss.
  + by move=> v I; exact: (proj1 (List.Forall_forall _ _) V3 v I).
  + by rewrite -(E1 s).
  + by rewrite -(E1 s) => q p0 pq qm qs A D; have [] := V5 q p0 pq qm qs A D.
- exact: weighted_flatten V1.
- by rewrite I1.
- by rewrite I2 /= add0r.
- by rewrite /rms_of /rms I3 /= add0r.
Qed.

Lemma diag_const (x : R) : diag_mx (\row_(j < 9) x) = x%:M.
Proof. by rewrite -diag_const_mx; congr diag_mx; apply/rowP => j; rewrite !mxE. Qed.

Lemma info_definite ls : @weighted R ls -> definite (1%:M + gram ls).
Proof.
move=> W; rewrite addrC; apply: definiteD; first exact: gram_covariance.
by rewrite -diag_const; apply: definite_diag => j; rewrite mxE ltr01.
Qed.

(** ** C37: one iteration of the normal equations applies the correction that minimizes the cost left
    to first order plus the square norm of the correction; it never fails by itself. *)
Theorem C37_normal_equations (c : config) (fuel : nat) (ms : seq measurement) (l : loop_state) (a : sums) :
  exact_propagator -> solver c = NormalEquations -> one_pass c fuel (current_estimate l) ms = Ok a ->
  exists l', iteration c fuel ms l = Ok l' /\
  exists vs ls dx, pass_over c (current_estimate l) ms vs ls /\
    [/\ current_estimate l' = plus (current_estimate l) dx,
        forall y, penalized (fun _ => 1) ls dx <= penalized (fun _ => 1) ls y,
        forall y, penalized (fun _ => 1) ls y = penalized (fun _ => 1) ls dx -> y = dx,
        current_rms l' = Some (rms ms ls) &
        corr_pos_km l' = Some (pos_norm dx) /\ converged l' = (pos_norm dx < tolerance_pos_km c)].
Proof.
move=> X S H; have [vs [ls [P W EI EN ER]]] := pass_sums X H.
have dA := info_definite W; have [L EL] := cholesky_complete dA.
rewrite /iteration H /= S EI EL; eexists; split; first by [].
have EQ : (gram ls + diag_mx (\row_j 1)) *m cholesky_solve L (normal_matrix a) = moment ls.
  rewrite diag_const addrC EN (cholesky_solveE _ (proj1 dA) EL) mulmxA mulmxV ?mul1mx //.
  exact: definite_unit.
exists vs, ls, (cholesky_solve L (normal_matrix a)); split=> //; split=> //=.
- by move=> y; exact: (proj1 (penalized_minimum y W (fun _ => ltr01) EQ)).
- by move=> y; exact: (proj2 (penalized_minimum y W (fun _ => ltr01) EQ)).
- by rewrite ER.
Qed.

Lemma covariance_inverse A : udu_factors -> definite A -> covariance_of udu A = invmx A.
Proof.
move=> F dA; have [u [d [E EA]]] := F A dA.
have uA := definite_unit dA; move: (uA); rewrite {1}EA !unitmx_mul unitmx_tr => /andP [/andP [uu ud] _].
rewrite /covariance_of E /try_inverse uu.
have dd : diag_mx (\row_i (d i 0)^-1) = invmx (diag_mx (\row_i d i 0)).
  have E1 : diag_mx (\row_i (d i 0)^-1) *m diag_mx (\row_i d i 0) = 1%:M.
    rewrite mulmx_diag -diag_const; congr diag_mx; apply/rowP => j; rewrite !mxE.
    move: ud; rewrite unitmxE unitfE det_diag prodf_seq_neq0 => /allP /(_ j (mem_index_enum j)) /=.
    by rewrite mxE => /mulVf.
  by rewrite -[LHS]mulmx1 -(mulmxV ud) mulmxA E1 mul1mx.
by rewrite dd [in RHS]EA !invmx_mul ?unitmx_tr ?unitmx_mul ?uu ?ud // trmx_inv.
Qed.

Lemma inverse_covariance n (A : 'M[R]_n) : definite A -> covariance (invmx A).
Proof.
move=> dA; have uA := definite_unit dA; have sA := proj1 dA.
have sI : (invmx A)^T = invmx A by rewrite trmx_inv sA.
split=> // x; have := proj2 (definite_covariance dA) (invmx A *m x).
by rewrite /quad trmx_mul sI -!mulmxA [A *m _]mulmxA mulmxV // mul1mx mulmxA.
Qed.

(** ** C37: the covariance is the inverse of the information of the observations plus the identity. *)
Theorem C37_covariance (c : config) (fuel : nat) (ms : seq measurement) (l l' : loop_state) :
  exact_propagator -> udu_factors -> solver c = NormalEquations -> iteration c fuel ms l = Ok l' ->
  exists vs ls, [/\ pass_over c (current_estimate l) ms vs ls, current_covariance l' *m (1%:M + gram ls) = 1%:M &
                    covariance (current_covariance l')].
Proof.
move=> X U S; rewrite /iteration => H; unbind H a Ea; have [vs [ls [P W EI EN ER]]] := pass_sums X Ea.
have dA := info_definite W; have [L EL] := cholesky_complete dA.
move: H; rewrite S EI EL => -[<-]; exists vs, ls; split=> //=; rewrite covariance_inverse //.
  by rewrite mulVmx //; apply: definite_unit.
exact: inverse_covariance.
Qed.

(** ** C38: one damped iteration *)

(** The damping of each coordinate: by the diagonal of the information matrix, or one. *)
Definition damping (c : @config R) (ls : seq line) (j : 'I_9) : R :=
  if lm_use_diag_scaling c && (j < 6)%N then 1 + gram ls j j else 1.
(** [None] is the largest number. *)
Definition improves (x : R) (baseline : option R) : Prop := forall b, baseline = Some b -> x < b.

Lemma scalingE c ls : weighted ls -> scaling c (1%:M + gram ls) = diag_mx (\row_j damping c ls j).
Proof.
move=> W; congr diag_mx; apply/rowP => j; rewrite !mxE /damping; case: ifP => // _.
have n0 : (delta_mx j 0 : 'cV[R]_9) != 0.
  by apply/eqP => /matrixP /(_ j 0); rewrite !mxE !eqxx => /eqP; rewrite oner_eq0.
have := proj2 (info_definite W) _ n0.
have -> : quad (1%:M + gram ls) (delta_mx j 0) = 1 + gram ls j j.
  by rewrite /quad trmx_delta -rowE -colE !mxE eqxx.
by rewrite eqxx /= ltNge => /negbTE ->.
Qed.

Lemma improvesP x b : reflect (improves x b) (rms_below x b).
Proof.
case: b => [b|] /=; last by constructor.
by apply: (iffP idP) => [H b' [<-]|H] //; apply: H.
Qed.
Lemma damping_positive c ls j : weighted ls -> 0 < damping c ls j.
Proof.
move=> W; rewrite /damping; case: ifP => _; last exact: ltr01.
apply: (lt_le_trans ltr01); rewrite ler_addl.
have := proj2 (gram_covariance W) (delta_mx j 0).
by rewrite /quad trmx_delta -rowE -colE !mxE.
Qed.

(** If the weighted residuals of the current estimate improve on the baseline, the correction that
    minimizes the damped cost is applied, the residuals become the baseline and the damping is
    reduced; else the damping is increased and nothing else changes. *)
Theorem C38_damped_step (c : config) (fuel : nat) (ms : seq measurement) (l : loop_state) (a : sums) :
  exact_propagator -> solver c = LevenbergMarquardt -> 0 <= lambda l ->
  one_pass c fuel (current_estimate l) ms = Ok a ->
  exists l', iteration c fuel ms l = Ok l' /\
  exists vs ls, pass_over c (current_estimate l) ms vs ls /\
    (improves (rms ms ls) (current_rms l) ->
       let d := fun j => 1 + lambda l * damping c ls j in
       exists dx,
       [/\ current_estimate l' = plus (current_estimate l) dx,
           (forall y, penalized d ls dx <= penalized d ls y),
           (forall y, penalized d ls y = penalized d ls dx -> y = dx),
           current_rms l' = Some (rms ms ls) /\ lambda l' = Num.max (lambda l / lm_lambda_decrease c) (lm_lambda_min c) &
           [/\ corr_pos_km l' = Some (pos_norm dx), converged l' = (pos_norm dx < tolerance_pos_km c) &
               (udu_factors -> current_covariance l' *m (1%:M + gram ls) = 1%:M)]]) /\
    (~ improves (rms ms ls) (current_rms l) ->
       [/\ current_estimate l' = current_estimate l, current_covariance l' = current_covariance l,
           current_rms l' = current_rms l, converged l' = converged l &
           lambda l' = Num.min (lambda l * lm_lambda_increase c) (lm_lambda_max c)]).
Proof.
move=> X S l0 H; have [vs [ls [P W EI EN ER]]] := pass_sums X H.
pose d := fun j => 1 + lambda l * damping c ls j.
have d0 j : 0 < d j.
  by rewrite /d; apply: ltr_paddr; [rewrite mulr_ge0 // ltW // damping_positive|exact: ltr01].
have EA : info_matrix a + lambda l *: scaling c (info_matrix a) = gram ls + diag_mx (\row_j d j).
  rewrite EI scalingE // addrC addrA addrC; congr (_ + _).
  rewrite -diag_const -linearZ /= -linearD /=; congr diag_mx; apply/rowP => j; rewrite !mxE addrC //.
have dA : definite (gram ls + diag_mx (\row_j d j)).
  by apply: definiteD; [exact: gram_covariance|apply: definite_diag => j; rewrite mxE].
have [L EL] := cholesky_complete dA.
rewrite /iteration H /= S EA EL ER.
case: (improvesP (rms ms ls) (current_rms l)) => I.
  eexists; split; first by []; exists vs, ls; split=> //; split=> // _.
  have EQ : (gram ls + diag_mx (\row_j d j)) *m cholesky_solve L (normal_matrix a) = moment ls.
    rewrite EN (cholesky_solveE _ (proj1 dA) EL) mulmxA mulmxV ?mul1mx //; exact: definite_unit.
  exists (cholesky_solve L (normal_matrix a)); split=> //=.
  - by move=> y; exact: (proj1 (penalized_minimum y W d0 EQ)).
  - by move=> y; exact: (proj2 (penalized_minimum y W d0 EQ)).
  - split=> // U; rewrite EI covariance_inverse //; last exact: info_definite.
    by rewrite mulVmx //; apply: definite_unit; apply: info_definite.
by eexists; split; first by []; exists vs, ls; split=> //; split=> // _.
Qed.

(** ** C38: the damping stays in its range. *)
Theorem C38_damping_range (c : config) (fuel : nat) (ms : seq measurement) (left : nat) (l l' : loop_state) :
  0 <= lm_lambda_min c -> lm_lambda_min c <= lm_lambda_max c -> 1 <= lm_lambda_decrease c -> 1 <= lm_lambda_increase c ->
  lm_lambda_min c <= lambda l <= lm_lambda_max c -> iterate c fuel ms left l = Ok l' ->
  lm_lambda_min c <= lambda l' <= lm_lambda_max c.
Proof.
move=> m0 mm d1 i1; elim: left l => [|left IH] l B /=; first by move=> [<-].
have /andP [B1 B2] := B; have l0 : 0 <= lambda l by exact: le_trans B1.
move=> H; unbind H l1 E1.
have {}B : lm_lambda_min c <= lambda l1 <= lm_lambda_max c; last by case: ifP H => [_ [<-]|_ /(IH _ B)].
move: E1; rewrite /iteration => E1; unbind E1 a Ea; case: (solver c) E1 => /=.
  by case: (cholesky _) => // L [<-].
case: (cholesky _) => [L|] /=; last first.
  move=> [<-] /=; rewrite le_minr mm andbT le_minl lexx orbT andbT (le_trans B1) // ler_pemulr //.
  by apply: (le_trans i1); rewrite ler_pemulr ?ler1n // (le_trans ler01 i1).
case: ifP => _ [<-] /=.
  rewrite le_maxr lexx orbT le_maxl mm andbT (le_trans _ B2) // ler_pdivr_mulr ?(lt_le_trans ltr01) //.
  by rewrite ler_pemulr.
by rewrite le_minr mm andbT le_minl lexx orbT andbT (le_trans B1) // ler_pemulr.
Qed.

(** ** C38: a refused step is never followed by another one: the damping grows but the estimate, its
    residuals and the baseline are the same in every later iteration. *)
Theorem C38_refused_forever (c : config) (fuel : nat) (ms : seq measurement) (left : nat) (l l' : loop_state) (a : sums) :
  exact_propagator -> solver c = LevenbergMarquardt -> one_pass c fuel (current_estimate l) ms = Ok a ->
  ~ improves (rms_of ms (sum_sq a)) (current_rms l) -> converged l = false ->
  iterate c fuel ms left l = Ok l' ->
  [/\ current_estimate l' = current_estimate l, current_covariance l' = current_covariance l,
      current_rms l' = current_rms l, converged l' = false & iter l' = (iter l + left)%N].
Proof.
move=> X S H I C; elim: left l H I C => [|left IH] l H I C /=; first by move=> [<-]; rewrite addn0.
move=> E; unbind E l1 E1.
have [A1 A2 A3 A4 A5] : [/\ current_estimate l1 = current_estimate l, current_covariance l1 = current_covariance l,
      current_rms l1 = current_rms l, converged l1 = false & iter l1 = (iter l).+1].
  move: E1; rewrite /iteration H /= S; case: (cholesky _) => [L|]; last by move=> [<-].
  by case: improvesP => // _ [<-].
rewrite A4 in E; have H1 : one_pass c fuel (current_estimate l1) ms = Ok a by rewrite A1.
have I1 : ~ improves (rms_of ms (sum_sq a)) (current_rms l1) by rewrite A3.
have [B1 B2 B3 B4 B5] := IH l1 H1 I1 A4 E.
by split; rewrite ?B1 ?B2 ?B3 ?B4 ?B5 // A5 addnS.
Qed.

(** ** C38: the reported residuals are those of a state at least as good as the initial guess. *)
Lemma iterate_baseline c fuel ms left l l' b : solver c = LevenbergMarquardt -> current_rms l = Some b ->
  iterate c fuel ms left l = Ok l' -> exists2 b', current_rms l' = Some b' & b' <= b.
Proof.
move=> S; elim: left l b => [|left IH] l b B /=; first by move=> [<-]; exists b.
move=> H; unbind H l1 E1.
have [b1 B1 L1] : exists2 b1, current_rms l1 = Some b1 & b1 <= b.
  move: E1; rewrite /iteration => E1; unbind E1 a Ea; move: E1; rewrite S; case: (cholesky _) => [L|]; last by move=> [<-]; exists b.
  rewrite B /=; case: ifP => [/ltW lt|_] [<-] /=; last by exists b.
  by exists (rms_of ms (sum_sq a)).
case: ifP H => [_ [<-]|_ /(IH _ _ B1) [b' B' L']]; first by exists b1.
by exists b' => //; exact: le_trans L1.
Qed.
Theorem C38_reported_residuals (c : config) (fuel : nat) (ms : seq measurement) (guess : state) (sol : bls_solution) (a : sums) :
  exact_propagator -> solver c = LevenbergMarquardt -> 0 <= lm_lambda_init c -> (0 < max_iterations c)%N ->
  one_pass c fuel guess ms = Ok a -> estimate c fuel guess ms = Ok sol ->
  exists2 r, final_rms sol = Some r & r <= rms_of ms (sum_sq a).
Proof.
move=> X S l0 it H; rewrite /estimate; case: ifP => // _ E; unbind E l El; move: E => [<-] /=.
case: (max_iterations c) it El => // n _ /=.
have [l1 [E1 [vs [ls [P [A _]]]]]] := @C38_damped_step c fuel ms (initial_loop c guess) a X S l0 H.
have [|dx [_ _ _ [B _] _]] := A; first by [].
rewrite E1 /=; have EB : current_rms l1 = Some (rms_of ms (sum_sq a)).
  by move: E1 B; rewrite /iteration H /= S; case: (cholesky _) => [L|] [<-].
case: ifP => _; first by move=> [<-]; exists (rms_of ms (sum_sq a)).
by move=> /(iterate_baseline S EB).
Qed.

(** ** C37: what a solution says. *)
Lemma iterate_result c fuel ms left l l' : converged l = false -> iterate c fuel ms left l = Ok l' ->
  [/\ (iter l' <= iter l + left)%N,
      converged l' -> exists2 x, corr_pos_km l' = Some x & x < tolerance_pos_km c &
      ~~ converged l' -> iter l' = (iter l + left)%N].
Proof.
elim: left l => [|left IH] l C /=; first by move=> [<-]; rewrite C addn0; split.
move=> H; unbind H l1 E1.
have [I1 C1] : iter l1 = (iter l).+1 /\ (converged l1 -> exists2 x, corr_pos_km l1 = Some x & x < tolerance_pos_km c).
  move: E1; rewrite /iteration => E1; unbind E1 a Ea; case: (solver c) E1 => /=; case: (cholesky _) => [L|] //.
  - by move=> [<-] /=; split=> // lt; exists (pos_norm (cholesky_solve L (normal_matrix a))).
  - case: ifP => _ [<-] /=; last by rewrite C.
    by split=> // lt; exists (pos_norm (cholesky_solve L (normal_matrix a))).
  - by move=> [<-] /=; rewrite C.
case: ifP H => [c1 [<-]|c1 H]; first by rewrite I1 c1; split=> //; [rewrite addnS ltnS leq_addr|move=> _; exact: C1].
by have := IH l1 c1 H; rewrite I1 addSnnS.
Qed.
Theorem C37_solution (c : config) (fuel : nat) (ms : seq measurement) (guess : state) (sol : bls_solution) :
  estimate c fuel guess ms = Ok sol ->
  [/\ (2 <= count (fun m => ~~ rejected m) ms)%N, (num_iterations sol <= max_iterations c)%N,
      sol_converged sol -> exists2 x, final_corr_pos_km sol = Some x & x < tolerance_pos_km c &
      ~~ sol_converged sol -> num_iterations sol = max_iterations c].
Proof.
rewrite /estimate; case: ltnP => // n H; unbind H l El; move: H => [<-] /=.
by have [] := @iterate_result c fuel ms _ (initial_loop c guess) l erefl El; rewrite add0n; split.
Qed.

(** ** C37: [evaluate] gives the residuals that an iteration from the same state finds. *)
Theorem C37_evaluate (c : config) (fuel : nat) (ms : seq measurement) (s : state) (a : sums) :
  exact_propagator -> (0 < count (fun m => ~~ rejected m) ms)%N -> one_pass c fuel s ms = Ok a ->
  exists vs ls, pass_over c s ms vs ls /\ evaluate c fuel s ms = Ok (rms ms ls).
Proof.
move=> X n H; have [vs [ls [P W EI EN ER]]] := pass_sums X H.
exists vs, ls; split=> //; rewrite /evaluate /num_measurements ltnNge n /=.
by have := eval_all_sum H => /= ->; rewrite /= ER.
Qed.

Lemma to_measurement_epoch c fuel m i phi a i' e' phi' a' : exact_propagator ->
  to_measurement c fuel m i (epoch_of (state_of i)) phi a = Ok (i', e', phi', a') ->
  e' = epoch_of (state_of i') /\ e' = Z.max (epoch_of (state_of i)) (msr_epoch m).
Proof.
move=> [_ E2]; elim: fuel i phi a => [|fuel IH] i phi a /=; case: Z.leb_spec => D //.
- by move=> [<- <- _ _]; lia.
- by move=> [<- <- _ _]; lia.
move=> H; unbind H j Ej; case: (stm_of j) H => [M|] // H.
have [A B] : e' = epoch_of (state_of i') /\ e' = Z.max (epoch_of (state_of j)) (msr_epoch m).
  by case: ifP H => _ H; [unbind H b Eb|]; exact: IH H.
by split=> //; rewrite B (E2 _ _ _ Ej); lia.
Qed.

(** ** C37: a measurement at or before the epoch that is already reached changes nothing. *)
Theorem C37_not_after (c : config) (fuel : nat) (ms1 ms2 : seq measurement) (m m' : measurement) (s : state) :
  exact_propagator -> List.In m' ms1 -> ~~ rejected m' -> Z.le (msr_epoch m) (msr_epoch m') ->
  one_pass c fuel s (ms1 ++ m :: ms2) = one_pass c fuel s (ms1 ++ ms2).
Proof.
move=> X I r' le; rewrite /one_pass -(proj1 X s); move: (start s) (1%:M) no_sums => i phi a.
have skip ms j p b : Z.le (msr_epoch m) (epoch_of (state_of j)) ->
    all_measurements c fuel (ms ++ m :: ms2) j (epoch_of (state_of j)) p b
    = all_measurements c fuel (ms ++ ms2) j (epoch_of (state_of j)) p b.
  elim: ms j p b => [|x ms IH] j p b B /=.
    case: ifP => // _; have -> // : to_measurement c fuel m j (epoch_of (state_of j)) p b = Ok (j, epoch_of (state_of j), p, b).
    by case: fuel => [|fu] /=; case: Z.leb_spec => //; lia.
  case: ifP => _; first exact: IH.
  case Ex: (to_measurement _ _ _ _ _ _ _) => [[[[k e] p'] b']| | |] //=.
  by have [-> B'] := to_measurement_epoch X Ex; apply: IH; have [<- ->] := to_measurement_epoch X Ex; lia.
elim: ms1 i phi a I => [|x ms IH] i phi a //= I.
case rx: (rejected x).
  by apply: IH; case: I => // E; move: r'; rewrite -E rx.
case Ex: (to_measurement _ _ _ _ _ _ _) => [[[[k e] p'] b']| | |] //=.
have [E1 E2] := to_measurement_epoch X Ex; rewrite {1 2}E1.
case: I => [E|I]; last exact: IH.
by apply: skip; rewrite -E1 E2 E; lia.
Qed.
End Props.
