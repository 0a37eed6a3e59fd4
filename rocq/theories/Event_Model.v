(** Model of nyx-core/src/propagators/event.rs: propagation until the n-th crossing of an
    event.

    The evaluation of an event and its root finder are anise's: an event is given by its
    value on a state in the event frame and its value on the state as it is, the root finder
    by a function that is handed the function to solve and the two ends of the bracket.
    [f64] is [R].  Logs and timers are not modelled. *)
From Coq Require Import Reals ZArith.
From Verif Require Import Base Prop_Model Traj_Model.
Local Open Scope Z_scope.

(** propagators/mod.rs [PropagationError], the variants met here. *)
Inductive event_error (E : Type) :=
| Propagation (x : E)               (* of the propagation or of the evaluation of the event *)
| NthEventError (nth found : nat)
| PropAnalysis                      (* of the root finder *)
| TrajectoryEvent (x : traj_error).
Arguments Propagation {E}. Arguments NthEventError {E}. Arguments PropAnalysis {E}.
Arguments TrajectoryEvent {E}.

(** event.rs:128-141: does the step from a value [p] to a value [n] count as a crossing?
    (no negative zero, no NaN). *)
Definition counts_as_crossing (angle : bool) (p n : R) : bool :=
  if angle then
    negb (Bool.eqb (if Rlt_dec p 0 then true else false) (if Rlt_dec n 0 then true else false))
    && (if Rlt_dec (Rabs (n - p)) 180 then true else false)
  else if Rlt_dec (p * n) 0 then true else false.

Section Event.
Context {St V F E : Type} (e : env St V F E) (o : state_ops St F)
        (arrange : list St -> list St)      (* the order in which the states are received *)
        (ev : St -> res E R)                (* event.rs:116-126: in the event frame *)
        (raw : St -> res E R)               (* event.rs:192: in the frame of the state *)
        (angle : bool)                      (* [event.scalar.is_angle()] *)
        (st_eqb : St -> St -> bool)         (* [PartialEq] of the state *)
        (brent : (Z -> res unit R) -> Z -> Z -> option Z).

(** event.rs:115-145 [enough_crossings]: the captured count and previous value are the
    state of the closure. *)
Definition enough_crossings (trigger : nat) (c : nat * R) (s : St) : (nat * R) * res E bool :=
  match ev s with
  | Ok y =>
      let n := if counts_as_crossing angle (snd c) y then S (fst c) else fst c in
      ((n, y), Ok (trigger <=? n)%nat)
  | Err x => (c, Err x)
  | Panic => (c, Panic)
  | NoFuel => (c, NoFuel)
  end.

(** event.rs:185-193 [traj_at] *)
Definition traj_at (traj : list St) (t : Z) : res unit R :=
  match at_epoch o traj t with
  | Ok s => match raw s with Ok y => Ok y | Err _ => Err tt | Panic => Panic | NoFuel => NoFuel end
  | Err _ => Err tt
  | Panic => Panic
  | NoFuel => NoFuel
  end.

(** event.rs:88-211 [until_nth_event] *)
Definition until_nth_event (fuel : nat) (max_duration : Z) (trigger : nat) (i : inst (St := St))
  : res (event_error E) (St * list St) :=
  match ev (state i) with
  | Ok y0 =>
      let out := propagate e (enough_crossings trigger) fuel max_duration i (0%nat, y0) in
      match o_res out with
      | Ok end_state =>
          let traj := finalize o (arrange (o_sent out) ++ [state i]) in
          match last_state traj with
          | Some last_traj_state =>
              if st_eqb end_state last_traj_state
              then Err (NthEventError trigger (fst (o_cond out)))
              else
                let traj := traj ++ [end_state] in
                match brent (traj_at traj) (st_epoch o last_traj_state) (st_epoch o end_state) with
                | Some t =>
                    match at_epoch o traj t with
                    | Ok s => Ok (s, traj)
                    | Err x => Err (TrajectoryEvent x)
                    | Panic => Panic
                    | NoFuel => NoFuel
                    end
                | None => Err PropAnalysis
                end
          | None => Panic
          end
      | Err x => Err (Propagation x)
      | Panic => Panic
      | NoFuel => NoFuel
      end
  | Err x => Err (Propagation x)
  | Panic => Panic
  | NoFuel => NoFuel
  end.

(** event.rs:48-59 [until_event] *)
Definition until_event (fuel : nat) (max_duration : Z) (i : inst (St := St)) :=
  until_nth_event fuel max_duration 1 i.
End Event.
