(** Model of nyx-core/src/mc/montecarlo.rs and of the reports of nyx-core/src/mc/results.rs.
    The random number generator and the distribution are arbitrary: [draw] gives a dispersed
    state and the next generator.  A propagation is a function of the dispersed state: the
    propagator is shared and never written (that its trajectory does not depend on threads is
    C11).  Not modelled: the progress bar, the logs and the clock; the parquet export is in Mpq_Model. *)
From Coq Require Import Reals.
From Verif Require Import Base RustStd.
Local Open Scope nat_scope.

Section MonteCarlo.
Context {rng state param res_t error : Type}.

(** generator.rs:57-67 [DispersedState]. *)
Record dispersed := { sampled : state; actual_dispersions : list (param * R) }.

(** results.rs:47-59 [Run]. *)
Record run := { index : nat; dispersed_state : dispersed; result : error + res_t }.

Section Generate.
Context (draw : rng -> dispersed * rng).

(** [Distribution::sample_iter], [Iterator::skip] and [Iterator::take] of rand and of the standard
    library: successive draws, the first [skip] thrown away. *)
Fixpoint skip_samples (skip : nat) (g : rng) : rng :=
  match skip with O => g | S n => skip_samples n (snd (draw g)) end.
Fixpoint take_samples (num_runs : nat) (g : rng) : list dispersed :=
  match num_runs with
  | O => []
  | S n => fst (draw g) :: take_samples n (snd (draw g))
  end.
(** [Iterator::enumerate] *)
Fixpoint enumerate_from {A} (i : nat) (l : list A) : list (nat * A) :=
  match l with [] => [] | x :: l' => (i, x) :: enumerate_from (S i) l' end.

(** montecarlo.rs:277-296 [generate_states]; [seeded] is [Pcg64Mcg::new] and [system] the
    generator made from the randomness of the system. *)
Definition generate_states (seeded : Z -> rng) (system : rng) (skip num_runs : nat) (seed : option Z)
  : list (nat * dispersed) :=
  let g := match seed with Some s => seeded s | None => system end in
  enumerate_from 0 (take_samples num_runs (skip_samples skip g)).
End Generate.

(** montecarlo.rs:145-160 and 235-252: one task builds a run and sends it. *)
Definition task (propagate : state -> error + res_t) (t : nat * dispersed) : run :=
  {| index := fst t; dispersed_state := snd t; result := propagate (sampled (snd t)) |}.

(** montecarlo.rs:143-161 and 233-253: the tasks are taken by the threads and end in any order;
    [sent] are the runs in the channel, oldest first. *)
Inductive execution (propagate : state -> error + res_t) : list (nat * dispersed) -> list run -> Prop :=
| execution_end : execution propagate [] []
| execution_send before t after sent :
    execution propagate (before ++ after) sent ->
    execution propagate (before ++ t :: after) (task propagate t :: sent).

(** montecarlo.rs:173-182 and 265-272: [par_sort_by_key] is stable. *)
Definition collect_runs (sent : list run) : list run := sort_by (key_leb (fun r => Z.of_nat (index r))) sent.

(** montecarlo.rs:115-183 and 208-273: a run resumed after [skip] and its possible results. *)
Definition resume_run (draw : rng -> dispersed * rng) (seeded : Z -> rng) (system : rng)
    (propagate : state -> error + res_t) (skip num_runs : nat) (seed : option Z) (runs : list run) : Prop :=
  exists sent, execution propagate (generate_states draw seeded system skip num_runs seed) sent /\
    runs = collect_runs sent.
(** montecarlo.rs:93-110 and 188-203 *)
Definition run_all draw seeded system propagate := resume_run draw seeded system propagate 0.

(** ** Reports *)
Section Reports.
(** [traj.states] of a successful run, [State::value] and [Traj::every]. *)
Context (states : res_t -> list state) (value : param -> state -> option R)
  (every : Z -> res_t -> list state) (same_param : param -> param -> bool).

Definition or_skip (v default : option R) : list R :=
  match v with
  | Some x => [x]
  | None => match default with Some d => [d] | None => [] end
  end.

(** results.rs:128-160 [every_value_of], and 90-124 [every_value_of_between] when [every] stops at the bounds *)
Definition every_value_of (runs : list run) (p : param) (step : Z) (default : option R) : list R :=
  flat_map (fun r => match result r with
    | inr t => flat_map (fun s => or_skip (value p s) default) (every step t)
    | inl _ => or_skip None default
    end) runs.

(** results.rs:164-191 and 195-222: [first] and [last] panic on an empty trajectory. *)
Fixpoint values_of (pick : list state -> option state) (runs : list run) (p : param) (default : option R)
  : res unit (list R) :=
  match runs with
  | [] => Ok []
  | r :: runs' =>
      bind (match result r with
            | inr t => match pick (states t) with
                       | Some s => Ok (or_skip (value p s) default)
                       | None => Panic
                       end
            | inl _ => Ok (or_skip None default)
            end) (fun vs =>
      bind (values_of pick runs' p default) (fun rest => Ok (vs ++ rest)))
  end.
Definition head (l : list state) : option state := match l with [] => None | s :: _ => Some s end.
Definition first_values_of := values_of head.
Definition last_values_of := values_of (fun l => head (rev l)).

(** results.rs:225-240 [dispersion_values_of] *)
Fixpoint find_dispersion (p : param) (l : list (param * R)) : option R :=
  match l with
  | [] => None
  | (d, v) :: l' => if same_param d p then Some v else find_dispersion p l'
  end.
Inductive mc_error := Unavailable (p : param).
Fixpoint dispersion_values_of (runs : list run) (p : param) : res mc_error (list R) :=
  match runs with
  | [] => Ok []
  | r :: runs' =>
      match find_dispersion p (actual_dispersions (dispersed_state r)) with
      | Some v => bind (dispersion_values_of runs' p) (fun vs => Ok (v :: vs))
      | None => Err (Unavailable p)
      end
  end.
End Reports.
End MonteCarlo.
Arguments dispersed : clear implicits.
Arguments run : clear implicits.
Arguments mc_error : clear implicits.
