(** What a step error estimate is expected to satisfy, in terms of components. *)
From Coq Require Import Reals.
From Verif Require Import Base ErrCtl_Model.
Local Open Scope R_scope.

(** Every component of [x] is at most as large as that of [y]. *)
Definition no_larger (x y : list R) : Prop := Forall2 (fun a b => Rabs a <= Rabs b) x y.

Definition scaled (k : R) (x : list R) : list R := map (Rmult k) x.

(** The components for which the flag is set change sign. *)
Fixpoint mirror (flags : list bool) (x : list R) : list R :=
  match flags, x with
  | f :: flags', a :: x' => (if f then - a else a) :: mirror flags' x'
  | _, _ => x
  end.

(** The number of leading components that an estimator looks at. *)
Definition watched (c : error_control) (n : nat) : nat :=
  match c with
  | RSSCartesianState | RSSCartesianStep => if (6 <=? n)%nat then 6%nat else n
  | _ => n
  end.
