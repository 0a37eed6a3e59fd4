(** Model of the batch least squares estimator: nyx-core/src/od/blse/mod.rs and solution.rs.

    Matrices have exact entries in a real closed field [R]; infinite and NaN observations (lines 265-272)
    are not modelled.  The propagator, the tracking devices and [State + vector] are arguments; the
    devices are pure here (the code hands them a mutable reference and no random generator).  The
    [f64::MAX] of the initial RMS and correction is [None].  Log messages are left out. *)
From Verif Require Import Base.
From mathcomp Require Import all_ssreflect all_algebra.
From Verif Require Import Kf_Model.
Import Order.TTheory GRing.Theory Num.Theory.
Set Implicit Arguments.
Unset Strict Implicit.
Unset Printing Implicit Defensive.
Local Open Scope ring_scope.

(** mod.rs:52-57 [BLSSolver]. *)
Inductive bls_solver := NormalEquations | LevenbergMarquardt.
(** The errors of [ODError] met here; [Other] is one of the propagator or of a device. *)
Inductive bls_error := TooFewMeasurements | SingularNoiseRk | SingularInformationMatrix | Other of nat.

Section Bls.
Context {R : rcfType}.
Context {state inst : Type}.
(** [State::epoch], in nanoseconds, and [State + vector]. *)
Context (epoch_of : state -> Z) (plus : state -> 'cV[R]_9 -> state).
(** [self.prop.with(state.with_stm())]; the state, STM and step size of the instance; and
    [for_duration]. *)
Context (start : state -> inst) (state_of : inst -> state) (stm_of : inst -> option 'M[R]_9)
        (step_size : inst -> Z) (for_duration : inst -> Z -> res bls_error inst).

(** od/msr/measurement.rs:30-46 [Measurement]; trackers and measurement types are numbers. *)
Record measurement := { tracker : nat; msr_epoch : Z; data : list (nat * R); rejected : bool }.

(** The configured devices and what they compute. *)
Context (known : nat -> bool)
        (h_tilde : nat -> measurement -> nat -> state -> res bls_error 'rV[R]_9)
        (measure_instantaneous : nat -> state -> res bls_error (option (list (nat * R))))
        (measurement_covar : nat -> nat -> Z -> res bls_error R).

(** od/msr/measurement.rs:84-96 [observation] of one type. *)
Fixpoint observation (d : list (nat * R)) (t : nat) : R :=
  match d with [::] => 0 | (t', x) :: l => if t' == t then x else observation l t end.

(** mod.rs:62-120 [BatchLeastSquares]. *)
Record config := {
  solver : bls_solver; tolerance_pos_km : R; max_iterations : nat; max_step : Z; epoch_precision : Z;
  lm_lambda_init : R; lm_lambda_decrease : R; lm_lambda_increase : R; lm_lambda_min : R; lm_lambda_max : R;
  lm_use_diag_scaling : bool
}.

(** mod.rs:184-190: what an iteration accumulates. *)
Record sums := { info_matrix : 'M[R]_9; normal_matrix : 'cV[R]_9; sum_sq : R }.
Definition no_sums : sums := {| info_matrix := 1%:M; normal_matrix := 0; sum_sq := 0 |}.

(** mod.rs:240-297: the types of a measurement. *)
Fixpoint add_types (m : measurement) (s : state) (stm : 'M[R]_9) (types : list nat) (a : sums) : res bls_error sums :=
  match types with
  | [::] => Ok a
  | t :: types' =>
      bind (h_tilde (tracker m) m t s) (fun h =>
      bind (measure_instantaneous (tracker m) s) (fun computed =>
      match computed with
      | None => add_types m s stm types' a
      | Some c =>
          let residual := observation (data m) t - observation c t in
          bind (measurement_covar (tracker m) t (msr_epoch m)) (fun r =>
          if 0 < r then
            let weight := r^-1 in
            let h_matrix := h *m stm in
            add_types m s stm types'
              {| info_matrix := info_matrix a + weight *: (h_matrix^T *m h_matrix);
                 normal_matrix := normal_matrix a + weight *: (residual *: h_matrix^T);
                 sum_sq := sum_sq a + weight * residual * residual |}
          else Err SingularNoiseRk)
      end))
  end.

(** mod.rs:205-299: the steps to one measurement; [fuel] bounds their number. *)
Fixpoint to_measurement (c : config) (fuel : nat) (m : measurement) (i : inst) (epoch : Z) (stm : 'M[R]_9) (a : sums)
  : res bls_error (inst * Z * 'M[R]_9 * sums) :=
  let delta_t := Z.sub (msr_epoch m) epoch in
  if Z.leb delta_t 0 then Ok (i, epoch, stm, a) else
  match fuel with
  | 0 => NoFuel
  | fuel'.+1 =>
      let next_step := Z.min (Z.min delta_t (step_size i)) (max_step c) in
      bind (for_duration i next_step) (fun i' =>
      let epoch' := epoch_of (state_of i') in
      match stm_of i' with
      | None => Panic
      | Some step_stm =>
          let stm' := step_stm *m stm in
          if Z.ltb (Z.abs (Z.sub epoch' (msr_epoch m))) (epoch_precision c) && known (tracker m) then
            bind (add_types m (state_of i') stm' (List.map fst (data m)) a) (fun a' =>
            to_measurement c fuel' m i' epoch' stm' a')
          else to_measurement c fuel' m i' epoch' stm' a
      end)
  end.

(** mod.rs:193-300: all the measurements. *)
Fixpoint all_measurements (c : config) (fuel : nat) (ms : list measurement) (i : inst) (epoch : Z) (stm : 'M[R]_9) (a : sums)
  : res bls_error sums :=
  match ms with
  | [::] => Ok a
  | m :: ms' =>
      if rejected m then all_measurements c fuel ms' i epoch stm a else
      bind (to_measurement c fuel m i epoch stm a) (fun '(i', epoch', stm', a') =>
      all_measurements c fuel ms' i' epoch' stm' a')
  end.
(** mod.rs:186-300: one pass over the arc. *)
Definition one_pass (c : config) (fuel : nat) (s : state) (ms : list measurement) : res bls_error sums :=
  all_measurements c fuel ms (start s) (epoch_of s) 1%:M no_sums.

(** mod.rs:152, 307 *)
Definition num_measurements (ms : list measurement) : nat := count (fun m => ~~ rejected m) ms.
Definition rms_of (ms : list measurement) (ssq : R) : R := Num.sqrt (ssq / (num_measurements ms)%:R).

(** mod.rs:325-338: the scaling of the damping, on the first six coordinates. *)
Definition scaling (c : config) (info : 'M[R]_9) : 'M[R]_9 :=
  diag_mx (\row_j if lm_use_diag_scaling c && (j < 6)%N
                  then if info j j <= 0 then (10%:R ^+ 6)^-1 else info j j else 1).

(** Norm of the first three coordinates. *)
Definition pos_norm (x : 'cV[R]_9) : R := Num.sqrt (norm_squared (fixed_view 3 1 x)).

(** [udu] of nalgebra: an upper triangular matrix and a diagonal. *)
Context (udu : 'M[R]_9 -> option ('M[R]_9 * 'cV[R]_9)).
(** mod.rs:397-416: the covariance. *)
Definition covariance_of (info : 'M[R]_9) : 'M[R]_9 :=
  match udu info with
  | Some (u, d) =>
      match try_inverse u with
      | Some u_inv => u_inv^T *m (diag_mx (\row_i (d i 0)^-1) *m u_inv)
      | None => 1%:M
      end
  | None => 1%:M
  end.

(** mod.rs:169-175: the variables of the loop. *)
Record loop_state := {
  current_estimate : state; current_covariance : 'M[R]_9; converged : bool; corr_pos_km : option R;
  lambda : R; current_rms : option R; iter : nat
}.

(** solution.rs:45-57 [BLSSolution]. *)
Record bls_solution := {
  estimated_state : state; sol_covariance : 'M[R]_9; num_iterations : nat; final_rms : option R;
  final_corr_pos_km : option R; sol_converged : bool
}.

(** mod.rs:353-357, 385-423: an accepted correction. *)
Definition accept (c : config) (l : loop_state) (info : 'M[R]_9) (dx : 'cV[R]_9) (lam : R) (rms : R) : loop_state :=
  {| current_estimate := plus (current_estimate l) dx; current_covariance := covariance_of info;
     converged := pos_norm dx < tolerance_pos_km c; corr_pos_km := Some (pos_norm dx);
     lambda := lam; current_rms := Some rms; iter := (iter l).+1 |}.
(** mod.rs:358-367, 424-430: a refused one. *)
Definition refuse (c : config) (l : loop_state) : loop_state :=
  {| current_estimate := current_estimate l; current_covariance := current_covariance l;
     converged := converged l; corr_pos_km := None;
     lambda := Num.min (lambda l * lm_lambda_increase c) (lm_lambda_max c); current_rms := current_rms l; iter := (iter l).+1 |}.
(** mod.rs:369-377: a singular matrix. *)
Definition retry (c : config) (l : loop_state) : loop_state :=
  {| current_estimate := current_estimate l; current_covariance := current_covariance l;
     converged := converged l; corr_pos_km := corr_pos_km l;
     lambda := Num.min (lambda l * (lm_lambda_increase c * 10%:R)) (lm_lambda_max c); current_rms := current_rms l; iter := (iter l).+1 |}.

(** [<] against [f64::MAX] or a number. *)
Definition rms_below (x : R) (y : option R) : bool := match y with Some b => x < b | None => true end.

(** mod.rs:181-430: one iteration. *)
Definition iteration (c : config) (fuel : nat) (ms : list measurement) (l : loop_state) : res bls_error loop_state :=
  bind (one_pass c fuel (current_estimate l) ms) (fun a =>
  let rms := rms_of ms (sum_sq a) in
  match solver c with
  | NormalEquations =>
      match cholesky (info_matrix a) with
      | None => Err SingularInformationMatrix
      | Some chol => Ok (accept c l (info_matrix a) (cholesky_solve chol (normal_matrix a)) (lambda l) rms)
      end
  | LevenbergMarquardt =>
      match cholesky (info_matrix a + lambda l *: scaling c (info_matrix a)) with
      | None => Ok (retry c l)
      | Some chol =>
          if rms_below rms (current_rms l)
          then Ok (accept c l (info_matrix a) (cholesky_solve chol (normal_matrix a))
                     (Num.max (lambda l / lm_lambda_decrease c) (lm_lambda_min c)) rms)
          else Ok (refuse c l)
      end
  end).

(** mod.rs:180-431: the loop; [left] iterations remain. *)
Fixpoint iterate (c : config) (fuel : nat) (ms : list measurement) (left : nat) (l : loop_state) : res bls_error loop_state :=
  match left with
  | 0 => Ok l
  | left'.+1 =>
      bind (iteration c fuel ms l) (fun l' => if converged l' then Ok l' else iterate c fuel ms left' l')
  end.

(** mod.rs:169-175 *)
Definition initial_loop (c : config) (guess : state) : loop_state :=
  {| current_estimate := guess; current_covariance := 0; converged := false; corr_pos_km := None;
     lambda := lm_lambda_init c; current_rms := None; iter := 0 |}.

(** mod.rs:146-446 [estimate] *)
Definition estimate (c : config) (fuel : nat) (guess : state) (ms : list measurement) : res bls_error bls_solution :=
  if (num_measurements ms < 2)%N then Err TooFewMeasurements else
  bind (iterate c fuel ms (max_iterations c) (initial_loop c guess)) (fun l =>
  Ok {| estimated_state := current_estimate l; sol_covariance := current_covariance l; num_iterations := iter l;
        final_rms := current_rms l; final_corr_pos_km := corr_pos_km l; sol_converged := converged l |}).

(** ** [evaluate] *)

(** mod.rs:504-535 *)
Fixpoint eval_types (m : measurement) (s : state) (types : list nat) (ssq : R) : res bls_error R :=
  match types with
  | [::] => Ok ssq
  | t :: types' =>
      bind (measure_instantaneous (tracker m) s) (fun computed =>
      match computed with
      | None => eval_types m s types' ssq
      | Some c =>
          let residual := observation (data m) t - observation c t in
          bind (measurement_covar (tracker m) t (msr_epoch m)) (fun r =>
          if 0 < r then eval_types m s types' (ssq + r^-1 * residual * residual) else Err SingularNoiseRk)
      end)
  end.
(** mod.rs:479-537 *)
Fixpoint eval_to (c : config) (fuel : nat) (m : measurement) (i : inst) (epoch : Z) (ssq : R) : res bls_error (inst * Z * R) :=
  let delta_t := Z.sub (msr_epoch m) epoch in
  if Z.leb delta_t 0 then Ok (i, epoch, ssq) else
  match fuel with
  | 0 => NoFuel
  | fuel'.+1 =>
      let next_step := Z.min (Z.min delta_t (step_size i)) (max_step c) in
      bind (for_duration i next_step) (fun i' =>
      let epoch' := epoch_of (state_of i') in
      if Z.ltb (Z.abs (Z.sub epoch' (msr_epoch m))) (epoch_precision c) && known (tracker m) then
        bind (eval_types m (state_of i') (List.map fst (data m)) ssq) (fun ssq' => eval_to c fuel' m i' epoch' ssq')
      else eval_to c fuel' m i' epoch' ssq)
  end.
(** mod.rs:473-538 *)
Fixpoint eval_all (c : config) (fuel : nat) (ms : list measurement) (i : inst) (epoch : Z) (ssq : R) : res bls_error R :=
  match ms with
  | [::] => Ok ssq
  | m :: ms' =>
      if rejected m then eval_all c fuel ms' i epoch ssq else
      bind (eval_to c fuel m i epoch ssq) (fun '(i', epoch', ssq') => eval_all c fuel ms' i' epoch' ssq')
  end.
(** mod.rs:450-541 [evaluate] *)
Definition evaluate (c : config) (fuel : nat) (s : state) (ms : list measurement) : res bls_error R :=
  if (num_measurements ms < 1)%N then Err TooFewMeasurements else
  bind (eval_all c fuel ms (start s) (epoch_of s) 0) (fun ssq => Ok (rms_of ms ssq)).
End Bls.

(** solution.rs:85-92: the covariance of the estimate made of a solution. *)
Definition kf_covariance {R : rcfType} (cov : 'M[R]_9) : 'M[R]_9 :=
  \matrix_(i, j) if (i == j) && (6 <= i)%N then 0 else cov i j.
