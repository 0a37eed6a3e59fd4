(** What a list of coefficients denotes: sum of [c_i x^i]. *)
From Coq Require Import Reals List.
Import ListNotations.
Local Open Scope R_scope.

(** Sum of [c_i x^(k+i)]. *)
Fixpoint terms (k : nat) (c : list R) (x : R) : R :=
  match c with [] => 0 | a :: t => a * x ^ k + terms (S k) t x end.

Definition value (c : list R) (x : R) : R := terms 0 c x.
