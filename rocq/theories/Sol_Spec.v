(** What a user relies on when handling an orbit determination solution, stated on the list of
    its updates. *)
From Coq Require Import String.
From Verif Require Import Base RustStd Arc_Model Sol_Model.
Local Open Scope Z_scope.

Section Spec.
Context {E V G F : Type}.

(** One update: what the four lists hold at one index. *)
Record update := {
  u_estimate : E; u_residual : option (residual V); u_gain : option G; u_ratio : option F
}.

(** The solution holds exactly these updates, entry [i] of each list being that of update [i]. *)
Definition holds (s : solution E V G F) (l : list update) : Prop :=
  estimates s = map u_estimate l /\ residuals s = map u_residual l /\
  gains s = map u_gain l /\ fs_ratios s = map u_ratio l.

(** [l'] is [l] without the elements that do not satisfy [P]. *)
Inductive keeps {A} (P : A -> Prop) : list A -> list A -> Prop :=
| keeps_nil : keeps P [] []
| keeps_take x l l' : P x -> keeps P l l' -> keeps P (x :: l) (x :: l')
| keeps_skip x l l' : ~ P x -> keeps P l l' -> keeps P (x :: l) l'.

Definition is_measurement (u : update) : Prop := u_residual u <> None.
Definition has_type (t : msr_type) (u : update) : Prop :=
  exists r, u_residual u = Some r /\ In t (res_types r).
Definition from_tracker (t : string) (u : update) : Prop :=
  exists r, u_residual u = Some r /\ res_tracker r = Some t.
(** Measurements whose tracker is unknown or [t] are left out. *)
Definition known_not_from (t : string) (u : update) : Prop :=
  forall r, u_residual u = Some r -> exists t', res_tracker r = Some t' /\ t' <> t.

(** The operations of the API that build or change a solution. *)
Inductive op :=
| Measured (e : E) (r : residual V) (g : option G)
| Timed (e : E)
| DropTimeUpdates
| ByType (t : msr_type)
| ByTracker (t : string)
| Excluding (t : string)
| MergedWith (other : list update).

(** What each must do to the updates. *)
Definition effect (o : op) (l l' : list update) : Prop :=
  match o with
  | Measured e r g =>
      l' = l ++ [{| u_estimate := e; u_residual := Some r; u_gain := g; u_ratio := None |}]
  | Timed e =>
      l' = l ++ [{| u_estimate := e; u_residual := None; u_gain := None; u_ratio := None |}]
  | DropTimeUpdates => keeps is_measurement l l'
  | ByType t => keeps (has_type t) l l'
  | ByTracker t => keeps (from_tracker t) l l'
  | Excluding t => keeps (known_not_from t) l l'
  | MergedWith other => Permutation (l ++ other) l'
  end.
Inductive effects : list op -> list update -> list update -> Prop :=
| effects_nil l : effects [] l l
| effects_cons o os l1 l2 l3 : effect o l1 l2 -> effects os l2 l3 -> effects (o :: os) l1 l3.

(** The solution made of given updates. *)
Definition solution_of (l : list update) : solution E V G F :=
  {| estimates := map u_estimate l; residuals := map u_residual l;
     gains := map u_gain l; fs_ratios := map u_ratio l |}.

(** Running the operations of the code. *)
Section Run.
Context (epoch_of : E -> Z).
Definition run_op (fuel : nat) (o : op) (s : solution E V G F) : res unit (solution E V G F) :=
  match o with
  | Measured e r g => Ok (push_measurement_update s e r g)
  | Timed e => Ok (push_time_update s e)
  | DropTimeUpdates => Ok (drop_time_updates s)
  | ByType t => Ok (filter_by_msr_type s t)
  | ByTracker t => Ok (filter_by_tracker s t)
  | Excluding t => Ok (exclude_tracker s t)
  | MergedWith other => merge epoch_of fuel s (solution_of other)
  end.
Fixpoint run (fuel : nat) (os : list op) (s : solution E V G F)
    : res unit (solution E V G F) :=
  match os with [] => Ok s | o :: os' => bind (run_op fuel o s) (run fuel os') end.

Definition chronological (l : list update) : Prop :=
  StronglySorted (fun a b => epoch_of (u_estimate a) <= epoch_of (u_estimate b)) l.
End Run.
End Spec.
Arguments update : clear implicits.
Arguments op : clear implicits.
