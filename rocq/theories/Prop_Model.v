(** Model of [nyx-core/src/propagators/instance.rs]: the propagation loop, one step, the
    Runge-Kutta evaluation and the step controller.

    Epochs and durations are integers (nanoseconds).  Seconds ([f64]) are real numbers.
    The spacecraft dynamics, frames, vectors and the error estimator are arbitrary. *)
From Coq Require Import Reals.
From Verif Require Import Base.
Local Open Scope Z_scope.

(** The Runge-Kutta table: trait [RK], rk_methods/mod.rs:40-60.  [b_coeffs] holds the
    weights followed by the weights of the embedded (comparison) solution. *)
Record method := {
  stages : nat;
  order : nat;
  a_coeffs : list R;
  b_coeffs : list R
}.

(** [IntegratorOptions], options.rs:42-60, without [init_step] (only read once, in
    [Propagator::with]) and with the [error_ctrl] choice replaced by the function
    [estimate] below. *)
Record options (F : Type) := {
  tolerance : R;
  min_step : Z;
  max_step : Z;
  attempts : nat;
  integration_frame : option F
}.
Arguments tolerance {F}. Arguments min_step {F}. Arguments max_step {F}.
Arguments attempts {F}. Arguments integration_frame {F}.

(** Everything a [PropInstance] (instance.rs:41-60) refers to but does not own: state and
    vector operations (trait [State], cosmic/mod.rs), the dynamics (trait [Dynamics],
    dynamics/mod.rs), the almanac's frame transformations, the error estimator, the
    conversion of [f64] seconds to a duration, the method and the options. *)
Record env (St V F E : Type) := {
  epoch : St -> Z;                          (* State::epoch *)
  set_state : St -> Z -> V -> St;           (* State::set *)
  to_vector : St -> V;                      (* State::to_vector *)
  finally : St -> res E St;                 (* Dynamics::finally *)
  eom : R -> V -> St -> res E V;            (* Dynamics::eom: delta_t [s], vector, context *)
  vadd : V -> V -> V;
  vscale : R -> V -> V;
  vzero : V;
  has_nan : V -> bool;
  estimate : V -> V -> V -> R;              (* ErrorControl::estimate *)
  frame_of : St -> F;                       (* state.orbit().frame *)
  frame_eqb : F -> F -> bool;
  enter_frame : St -> F -> res E St;        (* instance.rs:122-141 *)
  leave_frame : St -> F -> res E St;        (* instance.rs:168-175 and 212-219 *)
  of_secs : R -> Z;                         (* f64 * Unit::Second *)
  nan_error : E;                            (* instance.rs:433-438 *)
  meth : method;
  opts : options F
}.
Arguments epoch {St V F E}. Arguments set_state {St V F E}. Arguments to_vector {St V F E}.
Arguments finally {St V F E}. Arguments eom {St V F E}. Arguments vadd {St V F E}.
Arguments vscale {St V F E}. Arguments vzero {St V F E}. Arguments has_nan {St V F E}.
Arguments estimate {St V F E}. Arguments frame_of {St V F E}. Arguments frame_eqb {St V F E}.
Arguments enter_frame {St V F E}. Arguments leave_frame {St V F E}.
Arguments of_secs {St V F E}. Arguments nan_error {St V F E}. Arguments meth {St V F E}.
Arguments opts {St V F E}.

(** [Duration::to_seconds] (hifitime), without rounding. *)
Definition to_secs (d : Z) : R := (IZR d / 1000000000)%R.

(** [f64::powf] on the arguments met here (base [tolerance / error], non-negative).
    A zero base gives zero. *)
Definition powf (x y : R) : R := if Rle_dec x 0 then 0%R else Rpower x y.

(** [f64::signum] for the arguments met here (not NaN, no negative zero). *)
Definition signum (x : R) : R := if Rlt_dec x 0 then (-1)%R else 1%R.

Section Model.
Context {St V F E : Type} (e : env St V F E).

(** [IntegrationDetails], propagators/mod.rs. *)
Record details := { d_step : Z; d_error : R; d_attempts : nat }.

(** The mutable part of [PropInstance], instance.rs:47-57.  The pre-allocated [k] vectors
    are not part of it: [derive] overwrites all of them before reading them. *)
Record inst := {
  state : St;
  step_size : Z;
  fixed_step : bool;
  det : details
}.

Definition with_state (i : inst) (s : St) : inst :=
  {| state := s; step_size := step_size i; fixed_step := fixed_step i; det := det i |}.
Definition with_details (i : inst) (d : details) : inst :=
  {| state := state i; step_size := step_size i; fixed_step := fixed_step i; det := d |}.

(** instance.rs:81-84 *)
Definition set_step (i : inst) (step : Z) (fixed : bool) : inst :=
  {| state := state i; step_size := step; fixed_step := fixed; det := det i |}.

(** instance.rs:379-387: c_i and w_i of one stage; [None] is an index out of bounds in
    [a_coeffs]. *)
Fixpoint stage_sum (ks : list V) (a_idx : nat) (ci : R) (wi : V) : option (R * V * nat) :=
  match ks with
  | [] => Some (ci, wi, a_idx)
  | kj :: ks' =>
      match nth_error (a_coeffs (meth e)) a_idx with
      | None => None
      | Some aij =>
          stage_sum ks' (S a_idx) (ci + aij)%R (vadd e wi (vscale e aij kj))
      end
  end.

(** instance.rs:376-400: the remaining [n] stages; [ks] are the stages computed so far. *)
Fixpoint stage_loop (n : nat) (a_idx : nat) (ks : list V) (sv : V) (ctx : St) (h : R)
  : res E (list V) :=
  match n with
  | O => Ok ks
  | S n' =>
      match stage_sum ks a_idx 0%R (vzero e) with
      | None => Panic
      | Some (ci, wi, a_idx') =>
          bind (eom e (ci * h)%R (vadd e sv (vscale e h wi)) ctx)
               (fun k => stage_loop n' a_idx' (ks ++ [k]) sv ctx h)
      end
  end.

(** instance.rs:407-414: next state and error estimate vectors. *)
Fixpoint combine_stages (ks : list V) (i : nat) (fixed : bool) (h : R) (next err : V)
  : option (V * V) :=
  match ks with
  | [] => Some (next, err)
  | ki :: ks' =>
      match nth_error (b_coeffs (meth e)) i with
      | None => None
      | Some b =>
          let next' := vadd e next (vscale e (h * b)%R ki) in
          if fixed then combine_stages ks' (S i) fixed h next' err
          else
            match nth_error (b_coeffs (meth e)) (i + stages (meth e)) with
            | None => None
            | Some bstar =>
                combine_stages ks' (S i) fixed h next'
                  (vadd e err (vscale e (h * (b - bstar))%R ki))
            end
      end
  end.

(** instance.rs:369-414: one evaluation of the method with a step of [h] seconds. *)
Definition try_step (s : St) (fixed : bool) (h : R) : res E (V * V) :=
  let sv := to_vector e s in
  bind (eom e 0%R sv s) (fun k0 =>
  match stages (meth e) with
  | O => Panic (* usize underflow of [stages() - 1] *)
  | S n =>
      bind (stage_loop n 0 [k0] sv s h) (fun ks =>
      match combine_stages ks 0 fixed h sv (vzero e) with
      | None => Panic
      | Some r => Ok r
      end)
  end).

(** instance.rs:451-461: the step proposed after a success.  A zero error makes the
    quotient infinite, so the proposal exceeds any maximum. *)
Definition grow (h err : R) : R :=
  let o := opts e in
  if Req_EM_T err 0 then (to_secs (max_step o) * signum h)%R
  else
    let p := (9/10 * h * powf (tolerance o / err) (1 / INR (order (meth e))))%R in
    if Rlt_dec (Rabs (to_secs (max_step o))) (Rabs p)
    then (to_secs (max_step o) * signum p)%R else p.

(** instance.rs:479-488: the step tried after a failure. *)
Definition shrink (h err : R) : R :=
  let o := opts e in
  let p := (9/10 * h * powf (tolerance o / err) (1 / INR (order (meth e) - 1)))%R in
  if Rlt_dec p (to_secs (min_step o)) then to_secs (min_step o) else p.

(** instance.rs:464-473: the step remembered for the next call. *)
Definition next_step (h : R) : Z :=
  let d := of_secs e h in
  if Z.abs d <? min_step (opts e)
  then (if d <? 0 then - min_step (opts e) else min_step (opts e)) else d.

(** instance.rs:428-430 *)
Definition accepts (err h : R) (att : nat) : bool :=
  (if Rle_dec err (tolerance (opts e)) then true else false)
  || (if Rle_dec h (to_secs (min_step (opts e))) then true else false)
  || (attempts (opts e) <=? att)%nat.

(** instance.rs:368-492: the retry loop of [derive]; [att] is [details.attempts]. *)
Fixpoint derive_loop (fuel : nat) (i : inst) (h : R) (att : nat) : inst * res E (Z * V) :=
  match fuel with
  | O => (i, NoFuel)
  | S fuel' =>
      match try_step (state i) (fixed_step i) h with
      | Err x => (i, Err x)
      | Panic => (i, Panic)
      | NoFuel => (i, NoFuel)
      | Ok (next, errv) =>
          if fixed_step i then
            (with_details i {| d_step := step_size i; d_error := d_error (det i);
                               d_attempts := att |}, Ok (step_size i, next))
          else
            let err := estimate e errv next (to_vector e (state i)) in
            let i1 := with_details i {| d_step := d_step (det i); d_error := err;
                                        d_attempts := att |} in
            if accepts err h att then
              if has_nan e next then (i1, Err (nan_error e))
              else
                let t := of_secs e h in
                let h' := if Rlt_dec err (tolerance (opts e)) then grow h err else h in
                ({| state := state i; step_size := next_step h'; fixed_step := false;
                    det := {| d_step := t; d_error := err; d_attempts := att |} |},
                 Ok (t, next))
            else
              derive_loop fuel'
                (with_details i1 {| d_step := d_step (det i1); d_error := err;
                                    d_attempts := S att |})
                (shrink h err) (S att)
      end
  end.

(** instance.rs:358-493.  One more evaluation than the configured attempts is given as a
    bound (it is never used up: see [derive_no_fuel]). *)
Definition derive (i : inst) : inst * res E (Z * V) :=
  derive_loop (S (attempts (opts e)))
    (with_details i {| d_step := d_step (det i); d_error := d_error (det i);
                       d_attempts := 1 |})
    (to_secs (step_size i)) 1.

(** instance.rs:343-352 *)
Definition single_step (i : inst) : inst * res E unit :=
  match derive i with
  | (i1, Ok (t, v)) =>
      let s := set_state e (state i1) (epoch e (state i1) + t) v in
      match finally e s with
      | Ok s' => (with_state i1 s', Ok tt)
      | Err x => (with_state i1 s, Err x)
      | Panic => (with_state i1 s, Panic)
      | NoFuel => (with_state i1 s, NoFuel)
      end
  | (i1, Err x) => (i1, Err x)
  | (i1, Panic) => (i1, Panic)
  | (i1, NoFuel) => (i1, NoFuel)
  end.

(** What a call to [propagate] leaves behind: the instance, the states sent on the
    channel (in order), the state [C] of the stop condition closure, and the result. *)
Record outcome (C : Type) := {
  o_inst : inst;
  o_cond : C;
  o_sent : list St;
  o_res : res E St
}.

(** instance.rs:167-178 and 211-222: rotate back to the original frame and return. *)
Definition rotate_back {C} (orig : option F) (i : inst) (c : C) (sent : list St)
  : outcome C :=
  match orig with
  | None => {| o_inst := i; o_cond := c; o_sent := sent; o_res := Ok (state i) |}
  | Some f =>
      match leave_frame e (state i) f with
      | Ok s => {| o_inst := with_state i s; o_cond := c; o_sent := sent; o_res := Ok s |}
      | Err x => {| o_inst := i; o_cond := c; o_sent := sent; o_res := Err x |}
      | Panic => {| o_inst := i; o_cond := c; o_sent := sent; o_res := Panic |}
      | NoFuel => {| o_inst := i; o_cond := c; o_sent := sent; o_res := NoFuel |}
      end
  end.

(** instance.rs:149-261.  A missing stop condition is a condition that is always false;
    a missing channel only means that nobody looks at [o_sent].  Sending never fails as
    long as the receiver lives, and a failure is only logged. *)
Fixpoint prop_loop {C} (cond : C -> St -> C * res E bool) (backprop : bool)
    (stop_time : Z) (orig : option F) (fuel : nat) (i : inst) (c : C) (sent : list St)
  : outcome C :=
  match fuel with
  | O => {| o_inst := i; o_cond := c; o_sent := sent; o_res := NoFuel |}
  | S fuel' =>
      let ep := epoch e (state i) in
      if (negb backprop && (stop_time <? ep + step_size i))
         || (backprop && (ep + step_size i <=? stop_time))
      then
        if stop_time =? ep then rotate_back orig i c sent
        else
          let prev_step := step_size i in
          let prev_kind := fixed_step i in
          match single_step (set_step i (stop_time - ep) true) with
          | (i1, Ok tt) =>
              let i2 := set_step i1 prev_step prev_kind in
              let i3 := if backprop then set_step i2 (- step_size i2) (fixed_step i2)
                        else i2 in
              rotate_back orig i3 c (sent ++ [state i1])
          | (i1, Err x) =>
              {| o_inst := i1; o_cond := c; o_sent := sent; o_res := Err x |}
          | (i1, Panic) =>
              {| o_inst := i1; o_cond := c; o_sent := sent; o_res := Panic |}
          | (i1, NoFuel) =>
              {| o_inst := i1; o_cond := c; o_sent := sent; o_res := NoFuel |}
          end
      else
        match single_step i with
        | (i1, Ok tt) =>
            match cond c (state i1) with
            | (c1, Ok true) =>
                {| o_inst := i1; o_cond := c1; o_sent := sent; o_res := Ok (state i1) |}
            | (c1, Ok false) =>
                prop_loop cond backprop stop_time orig fuel' i1 c1 (sent ++ [state i1])
            | (c1, Err x) =>
                {| o_inst := i1; o_cond := c1; o_sent := sent; o_res := Err x |}
            | (c1, Panic) =>
                {| o_inst := i1; o_cond := c1; o_sent := sent; o_res := Panic |}
            | (c1, NoFuel) =>
                {| o_inst := i1; o_cond := c1; o_sent := sent; o_res := NoFuel |}
            end
        | (i1, Err x) =>
            {| o_inst := i1; o_cond := c; o_sent := sent; o_res := Err x |}
        | (i1, Panic) =>
            {| o_inst := i1; o_cond := c; o_sent := sent; o_res := Panic |}
        | (i1, NoFuel) =>
            {| o_inst := i1; o_cond := c; o_sent := sent; o_res := NoFuel |}
        end
  end.

(** instance.rs:87-262 *)
Definition propagate {C} (cond : C -> St -> C * res E bool) (fuel : nat) (duration : Z)
    (i : inst) (c : C) : outcome C :=
  if duration =? 0 then
    {| o_inst := i; o_cond := c; o_sent := []; o_res := Ok (state i) |}
  else
    let stop_time := epoch e (state i) + duration in
    match finally e (state i) with
    | Err x => {| o_inst := i; o_cond := c; o_sent := []; o_res := Err x |}
    | Panic => {| o_inst := i; o_cond := c; o_sent := []; o_res := Panic |}
    | NoFuel => {| o_inst := i; o_cond := c; o_sent := []; o_res := NoFuel |}
    | Ok s =>
        let i1 := with_state i s in
        let backprop := duration <? 0 in
        let i2 := if backprop then set_step i1 (- step_size i1) (fixed_step i1) else i1 in
        match integration_frame (opts e) with
        | Some f =>
            if frame_eqb e f (frame_of e (state i2)) then
              prop_loop cond backprop stop_time None fuel i2 c []
            else
              match enter_frame e (state i2) f with
              | Ok s' =>
                  prop_loop cond backprop stop_time (Some (frame_of e (state i2))) fuel
                    (with_state i2 s') c []
              | Err x => {| o_inst := i2; o_cond := c; o_sent := []; o_res := Err x |}
              | Panic => {| o_inst := i2; o_cond := c; o_sent := []; o_res := Panic |}
              | NoFuel => {| o_inst := i2; o_cond := c; o_sent := []; o_res := NoFuel |}
              end
        | None => prop_loop cond backprop stop_time None fuel i2 c []
        end
    end.

(** The condition used by [for_duration] and [for_duration_with_channel]: |_| Ok(false). *)
Definition never (c : unit) (s : St) : unit * res E bool := (tt, Ok false).

(** instance.rs:265-276: with and without a channel. *)
Definition for_duration (fuel : nat) (duration : Z) (i : inst) : outcome unit :=
  propagate never fuel duration i tt.

(** instance.rs:279-292 *)
Definition until_epoch (fuel : nat) (end_time : Z) (i : inst) : outcome unit :=
  for_duration fuel (end_time - epoch e (state i)) i.

End Model.
Arguments state {St}. Arguments step_size {St}. Arguments fixed_step {St}. Arguments det {St}.
Arguments o_inst {St E C}. Arguments o_cond {St E C}. Arguments o_sent {St E C}.
Arguments o_res {St E C}.
Arguments set_step {St}. Arguments with_state {St}. Arguments with_details {St}.
