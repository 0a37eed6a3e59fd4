(** Model of the comparison of measurements, nyx-core/src/od/msr/measurement.rs:123-136, and of tracking
    data arcs, nyx-core/src/od/msr/trackingdata/mod.rs:541-545.  The rest of these files is in [Arc_Model].
    Values are real numbers: NaN, which equals nothing, is not modelled. *)
From Coq Require Import Reals String.
From Verif Require Import Base RustStd Arc_Model.
Local Open Scope Z_scope.

(** measurement.rs:124-136: the observables of the left one are looked for in the right one. *)
Definition close (x y : R) : bool := if Rlt_dec (Rabs (x - y)) (/ 10 ^ 10) then true else false.
Definition msr_eq (a b : measurement) : bool :=
  String.eqb (tracker a) (tracker b) && (epoch a =? epoch b) &&
  forallb (fun tv => match get (fst tv) (obs b) with Some w => close (snd tv) w | None => false end) (obs a).

(** [PartialEq] of vectors. *)
Fixpoint list_eq {A} (eqb : A -> A -> bool) (l l' : list A) : bool :=
  match l, l' with
  | [], [] => true
  | a :: l, b :: l' => eqb a b && list_eq eqb l l'
  | _, _ => false
  end.
(** trackingdata/mod.rs:541-545: neither the moduli nor the flag of rejection are compared. *)
Definition arc_eq (a b : arc) : bool := list_eq msr_eq (measurements a) (measurements b).
