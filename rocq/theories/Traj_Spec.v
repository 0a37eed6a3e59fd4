(** What the trajectory theorems are about, in terms of lists of states and their epochs. *)
From Coq Require Import Reals.
From Verif Require Import Base RustStd.
Local Open Scope Z_scope.

Section Spec.
Context {S : Type} (ep : S -> Z).

(** Epochs never decrease along the list. *)
Fixpoint chronological (l : list S) : Prop :=
  match l with
  | [] => True
  | x :: l' => (forall y, In y l' -> ep x <= ep y) /\ chronological l'
  end.

(** Epochs strictly increase along the list. *)
Fixpoint strictly_chronological (l : list S) : Prop :=
  match l with
  | [] => True
  | x :: l' => (forall y, In y l' -> ep x < ep y) /\ strictly_chronological l'
  end.

(** Two states with the same epoch have no other epoch between them in the list. *)
Definition grouped (l : list S) : Prop :=
  forall pre x mid y post, l = pre ++ x :: mid ++ y :: post -> ep x = ep y ->
  forall z, In z mid -> ep z = ep x.

(** The [n] epochs [start], [start + step], ... *)
Fixpoint grid (start step : Z) (n : nat) : list Z :=
  match n with
  | O => []
  | Datatypes.S n' => start :: grid (start + step) step n'
  end.

(** The number of epochs of the grid that do not exceed [stop], for a positive step. *)
Definition grid_count (start stop step : Z) : nat :=
  if stop <? start then 0%nat else Z.to_nat ((stop - start) / step + 1).
End Spec.

(** Being within a pair of bounds. *)
Definition within (r : range) (x : Z) : Prop :=
  match fst r with
  | Included a => a <= x
  | Excluded a => a < x
  | Unbounded => True
  end /\
  match snd r with
  | Included b => x <= b
  | Excluded b => x < b
  | Unbounded => True
  end.

(** No bound is an excluded one. *)
Definition closed (r : range) : Prop :=
  (forall x, fst r <> Excluded x) /\ (forall x, snd r <> Excluded x).
