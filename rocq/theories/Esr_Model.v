(** Model of nyx-core/src/od/estimate/sc_uncertainty.rs:139-162, [to_estimate_randomized]: the
    estimate of Est_Model with its nominal state replaced by a sample of Mvn_Model.  The nine draws
    of the standard normal distribution are an argument: the same seed gives the same draws. *)
From Verif Require Import Base.
From mathcomp Require Import all_ssreflect all_algebra.
From Verif Require Import Kf_Model Util_Pinv Mvn_Model Est_Model.
Import Order.TTheory GRing.Theory Num.Theory.
Set Implicit Arguments.
Unset Strict Implicit.
Unset Printing Implicit Defensive.
Local Open Scope ring_scope.

Section Randomized.
Context {R : rcfType} {LF elt : Type}.
Notation craft := (craft R).
Notation estimate := (kf_estimate R craft 9).
(** The arguments of [to_estimate] and of the generator. *)
Context (inertial : LF) (dcm_to_inertial : craft -> LF -> option (DCM R)).
Context (svd : 'M[R]_9 -> option ('rV[R]_9 * 'M[R]_9)) (eigenvalues : 'M[R]_9 -> option (list R)) (axis : 'I_6 -> elt).
Context (element : elt -> craft -> option R) (other_value : parameter elt -> craft -> option R).

(** sc_uncertainty.rs:141-162 [to_estimate_randomized]; an error of the generator is a panic
    ([expect]). *)
Definition to_estimate_randomized (u : uncertainty R craft LF) (z : 'cV[R]_9) : res estimate_error estimate :=
  bind (to_estimate inertial dcm_to_inertial u) (fun e =>
  match from_spacecraft_cov svd eigenvalues axis (u_nominal u) (covar e) 0 with
  | Ok g =>
      match sample element other_value g z with
      | Ok (s, _) =>
          Ok {| nominal_state := s; state_deviation := state_deviation e; covar := covar e; covar_bar := covar_bar e;
                predicted := predicted e; stm := stm e |}
      | _ => Panic
      end
  | _ => Panic
  end).
End Randomized.
