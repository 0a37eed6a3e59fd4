(** What noises and stations are held to, without the model's helpers. *)
From Coq Require Import Reals.
From Verif Require Import Base Arc_Model.
Local Open Scope R_scope.

(** Mean of functions of a stream whose first [n] draws are uncorrelated, of mean 0 and of
    variance 1: nothing else of the normal distribution is used. *)
Record expectation (n : nat) (E : ((nat -> R) -> R) -> R) : Prop := {
  E_ext : forall f g, (forall w, f w = g w) -> E f = E g;
  E_linear : forall a b f g, E (fun w => a * f w + b * g w) = a * E f + b * E g;
  E_one : E (fun _ => 1) = 1;
  E_mean : forall i, (i < n)%nat -> E (fun w => w i) = 0;
  E_cov : forall i j, (i < n)%nat -> (j < n)%nat ->
    E (fun w => w i * w j) = if Nat.eqb i j then 1 else 0
}.
Definition variance (E : ((nat -> R) -> R) -> R) (f : (nat -> R) -> R) : R :=
  E (fun w => (f w - E f) ^ 2).

(** The epoch before the [i]th, the first one itself for the first. *)
Definition previous (ts : list Z) (i : nat) : Z := nth (i - 1) ts 0%Z.

(** Every observable of a station is listed once, and exactly those have a noise. *)
Definition well_formed {N} (types : list msr_type) (noise_of : msr_type -> option N) : Prop :=
  NoDup types /\ forall t, In t types <-> noise_of t <> None.
