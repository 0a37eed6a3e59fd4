(** What the scheduling and simulation theorems are about. *)
From Coq Require Import String Sorted Permutation.
From Verif Require Import Base RustStd Arc_Model Sched_Model.
Local Open Scope Z_scope.

(** The strand number [pos] of a tracker in a set of configurations. *)
Definition strand_at (cfgs : list (string * trkconfig)) (name : string) (pos : nat) : option strand :=
  match find name cfgs with
  | Some c => match strands c with Some l => nth_error l pos | None => None end
  | None => None
  end.

(** An instant at which a strand is tracking. *)
Definition tracks (s : strand) (t : Z) : Prop := s_start s <= t <= s_end s.
Definition overlap (a b : strand) : Prop := exists t, tracks a t /\ tracks b t.

(** Every configuration uses a scheduler, and [P] holds of it. *)
Definition all_scheduled (P : trkconfig -> scheduler -> Prop) (cfgs : list (string * trkconfig)) : Prop :=
  forall name c, find name cfgs = Some c -> exists sc, sched c = Some sc /\ strands c = None /\ P c sc.

(** Keys of a map are distinct. *)
Definition keyed {A} (m : list (string * A)) : Prop := NoDup (map fst m).

(** A rounding that moves by at most half of the alignment. *)
Definition rounds (round : Z -> Z -> Z) : Prop :=
  forall x a, 0 < a -> - a <= 2 * (round x a - x) <= a.

(** A strand is accepted: it is ordered and lasts at least one sampling. *)
Definition long_enough (d : Z) (s : strand) : Prop :=
  s_start s <= s_end s /\ s_start s + d <= s_end s.

(** * Simulated measurements *)

(** Whether a device measures, sees nothing, or fails at an epoch. *)
Inductive sight := Sees | Blind | Fails.
Section Behave.
Context {E W : Type} (measure : string -> Z -> W -> W * res E (option measurement)).
(** Whether there is a measurement depends on the device and the epoch only (not on the noise),
    and it is stamped with the name of the device and the epoch. *)
Definition behaves (sight_of : string -> Z -> sight) : Prop :=
  forall name e w,
    match sight_of name e with
    | Sees => exists m, snd (measure name e w) = Ok (Some m) /\ epoch m = e /\ tracker m = name
    | Blind => snd (measure name e w) = Ok None
    | Fails => exists x, snd (measure name e w) = Err x
    end.
End Behave.

(** The sampling instant number [k] of a strand is reached and the device sees the vehicle. *)
Definition sampled (sight_of : string -> Z -> sight) (name : string) (d : Z) (s : strand) (k : nat)
  : Prop :=
  s_start s + Z.of_nat k * d <= s_end s /\
  sight_of name (s_start s + Z.of_nat k * d) = Sees /\
  forall j, (j < k)%nat -> sight_of name (s_start s + Z.of_nat j * d) <> Fails.
