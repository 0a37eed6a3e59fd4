(** What the tracking arc theorems are about. *)
From Coq Require Import Reals String Sorted Permutation.
From Verif Require Import Base RustStd Arc_Model.
Local Open Scope Z_scope.

(** Same epoch and same tracker. *)
Definition same (a b : measurement) : Prop := epoch a = epoch b /\ tracker a = tracker b.

(** Before: by epoch, then by the name of the tracker. *)
Definition before (a b : measurement) : Prop :=
  epoch a < epoch b \/
  (epoch a = epoch b /\ String.compare (tracker a) (tracker b) = Lt).

(** Any sorting function, stable or not. *)
Definition sorts (usort : list measurement -> list measurement) : Prop :=
  forall l, Permutation l (usort l) /\
            StronglySorted (fun a b => ~ before b a) (usort l).

(** Time ordered. *)
Definition time_ordered : list measurement -> Prop :=
  StronglySorted (fun a b => epoch a <= epoch b).

(** A map has one value per key. *)
Definition well_formed (m : measurement) : Prop := NoDup (map fst (obs m)).

(** Both are the same but for the observables. *)
Definition alike (a b : measurement) : Prop :=
  epoch a = epoch b /\ tracker a = tracker b /\ rejected a = rejected b.

(** [x] is a whole number of [m]. *)
Definition whole (m x : R) : Prop := exists k : Z, x = (IZR k * m)%R.

(** The values of an observable in a list of measurements, and their mean. *)
Definition values (t : msr_type) (l : list measurement) : list R :=
  flat_map (fun m => match get t (obs m) with Some v => [v] | None => [] end) l.
Definition is_mean (vs : list R) (v : R) : Prop :=
  vs <> [] /\ (v * INR (length vs) = fold_right Rplus 0 vs)%R.

(** The measurements at most [h] places away from place [c]. *)
Definition near (l : list measurement) (c h : nat) : list measurement :=
  map snd (filter (fun jm => ((c <=? fst jm + h) && (fst jm <=? c + h))%nat)
             (combine (seq 0 (length l)) l)).

(** Consecutive measurements are at least [d] apart. *)
Definition spaced (d : Z) (l : list measurement) : Prop :=
  forall k m n, nth_error l k = Some m -> nth_error l (S k) = Some n -> d <= epoch n - epoch m.
