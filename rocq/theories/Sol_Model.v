(** Model of orbit determination solutions: nyx-core/src/od/process/solution/mod.rs and
    filter_data.rs.

    Estimates, gains, consistency ratios and the numerical content of a residual are of any
    type: these functions only move them.  [devices] and [measurement_types] are copied by all
    of them and left out; so are the export, import and display functions. *)
From Coq Require Import String.
From Verif Require Import Base RustStd Arc_Model.
Local Open Scope Z_scope.

(** od/estimate/residual.rs:28-58: the fields these functions look at; [values] stands for
    the numerical ones. *)
Record residual (V : Type) := {
  values : V; res_rejected : bool; res_tracker : option string; res_types : list msr_type
}.
Arguments values {V} r.
Arguments res_rejected {V} r.
Arguments res_tracker {V} r.
Arguments res_types {V} r.

(** solution/mod.rs:63-89 *)
Record solution (E V G F : Type) := {
  estimates : list E;
  residuals : list (option (residual V));
  gains : list (option G);
  fs_ratios : list (option F)
}.
Arguments estimates {E V G F} s.
Arguments residuals {E V G F} s.
Arguments gains {E V G F} s.
Arguments fs_ratios {E V G F} s.

Section Solution.
Context {E V G F : Type}.
Notation sol := (solution E V G F).

(** solution/mod.rs:106-118 *)
Definition new : sol :=
  {| estimates := []; residuals := []; gains := []; fs_ratios := [] |}.

(** solution/mod.rs:121-131 *)
Definition push_measurement_update (s : sol) (e : E) (r : residual V) (g : option G) : sol :=
  {| estimates := estimates s ++ [e]; residuals := residuals s ++ [Some r];
     gains := gains s ++ [g]; fs_ratios := fs_ratios s ++ [None] |}.

(** solution/mod.rs:134-139 *)
Definition push_time_update (s : sol) (e : E) : sol :=
  {| estimates := estimates s ++ [e]; residuals := residuals s ++ [None];
     gains := gains s ++ [None]; fs_ratios := fs_ratios s ++ [None] |}.

(** [iter().flatten()] over options *)
Fixpoint flatten {A} (l : list (option A)) : list A :=
  match l with [] => [] | Some a :: l' => a :: flatten l' | None :: l' => flatten l' end.

(** solution/mod.rs:147-154 *)
Definition is_filter_run (s : sol) : bool := (0 <? length (flatten (gains s)))%nat.
Definition is_smoother_run (s : sol) : bool := (0 <? length (flatten (fs_ratios s)))%nat.

(** solution/mod.rs:177-194 *)
Definition accepted_residuals (s : sol) : list (residual V) :=
  filter (fun r => negb (res_rejected r)) (flatten (residuals s)).
Definition rejected_residuals (s : sol) : list (residual V) :=
  filter (fun r => res_rejected r) (flatten (residuals s)).

(** The loop shared by filter_data.rs:88-115, 118-148, 151-181 and 184-213: walks the four
    lists together (the [zip]s stop with the shortest) and pushes the rows that [keep] says. *)
Fixpoint select (keep : option (residual V) -> bool)
    (es : list E) (rs : list (option (residual V))) (gs : list (option G)) (fs : list (option F))
    (acc : sol) : sol :=
  match es, rs, gs, fs with
  | e :: es', r :: rs', g :: gs', f :: fs' =>
      select keep es' rs' gs' fs'
        (if keep r
         then {| estimates := estimates acc ++ [e]; residuals := residuals acc ++ [r];
                 gains := gains acc ++ [g]; fs_ratios := fs_ratios acc ++ [f] |}
         else acc)
  | _, _, _, _ => acc
  end.
Definition selecting (keep : option (residual V) -> bool) (s : sol) : sol :=
  select keep (estimates s) (residuals s) (gains s) (fs_ratios s) new.

(** filter_data.rs:88-115 *)
Definition drop_time_updates : sol -> sol :=
  selecting (fun r => match r with None => false | Some _ => true end).

(** filter_data.rs:118-148 *)
Definition filter_by_msr_type (s : sol) (t : msr_type) : sol :=
  selecting (fun r => match r with
                      | None => false
                      | Some r => existsb (type_eqb t) (res_types r)
                      end) s.

(** filter_data.rs:151-181 *)
Definition filter_by_tracker (s : sol) (t : string) : sol :=
  selecting (fun r => match r with
                      | None => false
                      | Some r => match res_tracker r with
                                  | Some t' => String.eqb t' t
                                  | None => false
                                  end
                      end) s.

(** filter_data.rs:184-213 *)
Definition exclude_tracker (s : sol) (t : string) : sol :=
  selecting (fun r => match r with
                      | None => true
                      | Some r => match res_tracker r with
                                  | Some t' => negb (String.eqb t' t)
                                  | None => false
                                  end
                      end) s.

(** filter_data.rs:74-85: an [IndexSet] of pairs, in order of insertion; [None] when the
    tracker of a residual is not set, on which the code panics. *)
Definition pair_eqb (a b : string * msr_type) : bool :=
  String.eqb (fst a) (fst b) && type_eqb (snd a) (snd b).
Definition set_insert (x : string * msr_type) (l : list (string * msr_type)) :=
  if existsb (pair_eqb x) l then l else l ++ [x].
Fixpoint unique_types (t : option string) (ks : list msr_type) (acc : list (string * msr_type))
    : option (list (string * msr_type)) :=
  match ks with
  | [] => Some acc
  | k :: ks' => match t with
                | None => None
                | Some t' => unique_types t ks' (set_insert (t', k) acc)
                end
  end.
Fixpoint unique_loop (rs : list (residual V)) (acc : list (string * msr_type))
    : option (list (string * msr_type)) :=
  match rs with
  | [] => Some acc
  | r :: rs' => match unique_types (res_tracker r) (res_types r) acc with
                | None => None
                | Some acc' => unique_loop rs' acc'
                end
  end.
Definition unique (s : sol) : option (list (string * msr_type)) :=
  unique_loop (flatten (residuals s)) [].

(** filter_data.rs:216-227 *)
Definition split (s : sol) : option (list sol) :=
  match unique s with
  | None => None
  | Some l => Some (map (fun tk => filter_by_msr_type (filter_by_tracker s (fst tk)) (snd tk)) l)
  end.

(** [slice::swap]; [None] when an index is out of bounds, on which it panics. *)
Fixpoint set_nth {A} (i : nat) (x : A) (l : list A) : list A :=
  match l, i with
  | [], _ => []
  | _ :: l', O => x :: l'
  | y :: l', S i' => y :: set_nth i' x l'
  end.
Definition swap {A} (i j : nat) (l : list A) : option (list A) :=
  match nth_error l i, nth_error l j with
  | Some a, Some b => Some (set_nth j a (set_nth i b l))
  | _, _ => None
  end.

Context (epoch_of : E -> Z).

(** filter_data.rs:252-259: the [while] of one position. *)
Fixpoint settle (fuel current : nat) (indices : list nat) (s : sol)
    : res unit (list nat * sol) :=
  match fuel with
  | O => NoFuel
  | S fuel' =>
      match nth_error indices current with
      | None => Panic
      | Some target =>
          if (target =? current)%nat then Ok (indices, s)
          else
            match swap current target indices, swap current target (estimates s),
                  swap current target (residuals s), swap current target (gains s),
                  swap current target (fs_ratios s) with
            | Some ix, Some es, Some rs, Some gs, Some fs =>
                settle fuel' current ix
                  {| estimates := es; residuals := rs; gains := gs; fs_ratios := fs |}
            | _, _, _, _, _ => Panic
            end
      end
  end.

(** filter_data.rs:250-260: [positions] are the values of [i] still to come. *)
Fixpoint permute (fuel : nat) (positions indices : list nat) (s : sol) : res unit sol :=
  match positions with
  | [] => Ok s
  | i :: positions' =>
      bind (settle fuel i indices s) (fun p => permute fuel positions' (fst p) (snd p))
  end.

(** filter_data.rs:242-247: the stable sort of the positions by epoch. *)
Definition epoch_at (es : list E) (i : nat) : Z :=
  match nth_error es i with Some e => epoch_of e | None => 0 end.
Definition sorted_indices (es : list E) : list nat :=
  sort_by (key_leb (epoch_at es)) (seq 0 (length es)).

(** filter_data.rs:230-263 *)
Definition append (a b : sol) : sol :=
  {| estimates := estimates a ++ estimates b; residuals := residuals a ++ residuals b;
     gains := gains a ++ gains b; fs_ratios := fs_ratios a ++ fs_ratios b |}.
Definition merge (fuel : nat) (a b : sol) : res unit sol :=
  let s := append a b in
  permute fuel (seq 0 (length (estimates s))) (sorted_indices (estimates s)) s.

(** filter_data.rs:265-279 *)
Record od_record := {
  rec_estimate : E; rec_residual : option (residual V); rec_gain : option G;
  rec_ratio : option F
}.
Definition at_epoch (s : sol) (epoch : Z) : res unit (option od_record) :=
  match binary_search_by (fun e => epoch_of e ?= epoch) (estimates s) with
  | inr _ => Ok None
  | inl i =>
      match nth_error (estimates s) i, nth_error (residuals s) i, nth_error (gains s) i,
            nth_error (fs_ratios s) i with
      | Some e, Some r, Some g, Some f =>
          Ok (Some {| rec_estimate := e; rec_residual := r; rec_gain := g; rec_ratio := f |})
      | _, _, _, _ => Panic
      end
  end.
End Solution.
