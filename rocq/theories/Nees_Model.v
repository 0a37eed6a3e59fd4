(** Model of the consistency of the estimates of an orbit determination with a true trajectory:
    [nees_consistency] of nyx-core/src/od/process/solution/stats.rs.

    Over a real closed field.  The symmetric eigendecomposition of nalgebra, the quantile of the normal
    law and the trajectory are oracles; the log messages are not modelled. *)
From Verif Require Import Base.
From mathcomp Require Import all_ssreflect all_algebra.
Import Order.TTheory GRing.Theory Num.Theory.
Set Implicit Arguments.
Unset Strict Implicit.
Unset Printing Implicit Defensive.
Local Open Scope ring_scope.

(** od/error.rs: the variants met here; a state that has fewer than six components panics *)
Inductive nees_error := NoResiduals | TruthError.

Section Nees.
Context {R : rcfType}.
(** [n.+1] is the size of the state *)
Context {n : nat}.
(** trajectory [at] and [to_state_vector] *)
Context (truth : Z -> option 'cV[R]_n.+1).
(** nalgebra [symmetric_eigen]: the eigenvalues and the eigenvectors *)
Context (eigen : forall m, 'M[R]_m -> 'rV[R]_m * 'M[R]_m).
(** statrs [inverse_cdf] of the normal law *)
Context (quantile : R -> R).

(** [f64::EPSILON] *)
Definition epsilon : R := 2%:R ^- 52.

(** the epoch, [state().to_state_vector()] and [covar()] of an estimate *)
Record estimate := { ep : Z; x_est : 'cV[R]_n.+1; covar : 'M[R]_n.+1 }.

(** stats.rs:38-44 *)
Record consistency := { normalized_sum : R; dof : R; lower_bound : R; upper_bound : R }.
(** stats.rs:52-70 *)
Definition has_statistical_power (c : consistency) : bool := 35%:R < dof c.
Definition is_consistent (c : consistency) : bool :=
  (normalized_sum c < upper_bound c) && (lower_bound c < normalized_sum c).
Definition is_underconfident (c : consistency) : bool := normalized_sum c < lower_bound c.
Definition is_overconfident (c : consistency) : bool := upper_bound c < normalized_sum c.

(** stats.rs:405 *)
Definition symmetrized (P : 'M[R]_n.+1) : 'M[R]_n.+1 := 2%:R^-1 *: (P + P^T).
(** stats.rs:407-425: the number of components until a variance is not positive, at least six *)
Definition active (P : 'M[R]_n.+1) : nat := find (fun i => ~~ (0 < P i i)) (enum 'I_n.+1).
Definition est_size (P : 'M[R]_n.+1) : nat := if (active P < 6)%N then 6%N else active P.
(** stats.rs:431-434: the first [m] rows and columns *)
Definition block m (P : 'M[R]_n.+1) : 'M[R]_m := \matrix_(i, j) P (inord i) (inord j).
Definition rows m (e : 'cV[R]_n.+1) : 'cV[R]_m := \col_i e (inord i) 0.

(** nalgebra [max] *)
Definition largest m (l : 'rV[R]_m) : R :=
  if [seq l 0 i | i <- enum 'I_m] is x :: s then foldl Num.max x s else 0.
(** stats.rs:438-464 *)
Definition nees m (P : 'M[R]_m) (e : 'cV[R]_m) : R :=
  let: (lambda, Q) := eigen P in
  let eps := largest lambda * m%:R * epsilon in
  let inv := \row_i (if eps < lambda 0 i then (lambda 0 i)^-1 else 0) in
  (e^T *m (Q *m diag_mx inv *m Q^T) *m e) 0 0.

(** stats.rs:392-465 *)
Definition nees_step (acc : R * option nat) (est : estimate) : res nees_error (R * option nat) :=
  match truth (ep est) with
  | None => Err TruthError
  | Some x_true =>
      let error := x_est est - x_true in
      let cov := symmetrized (covar est) in
      let m := if acc.2 is Some m then m else est_size cov in
      if (n.+1 < m)%N then Panic
      else Ok (acc.1 + nees (block m cov) (rows m error), Some m)
  end.
Fixpoint nees_loop (acc : R * option nat) (l : list estimate) : res nees_error (R * option nat) :=
  match l with [::] => Ok acc | est :: l => bind (nees_step acc est) (fun acc => nees_loop acc l) end.

(** stats.rs:358-494 [nees_consistency] *)
Definition nees_consistency (l : list estimate) (alpha : option R) : res nees_error consistency :=
  if (size l <= 1)%N then Err NoResiduals
  else
    bind (nees_loop (0, None) (behead l)) (fun acc =>
    match acc.2 with
    | None => Panic
    | Some m =>
        let k := ((size l - 1) * m)%N%:R in
        let a := if alpha is Some a then a else 5%:R / 100%:R in
        let z := quantile (1 - a / 2%:R) in
        let factor := 2%:R / (9%:R * k) in
        Ok {| normalized_sum := acc.1; dof := k;
              lower_bound := k * (1 - factor - z * Num.sqrt factor) ^+ 3;
              upper_bound := k * (1 - factor + z * Num.sqrt factor) ^+ 3 |}
    end).
End Nees.
