(** Model of the sequential orbit determination process: nyx-core/src/od/process/mod.rs,
    [KalmanODProcess::process_arc], [predict_until] and [predict_for].

    The propagator is that of [Prop_Model].  The filter (od/kalman, see [Kf_Model]) and the
    tracking devices (trait [TrackerSensitivity]) are arbitrary functions.  Values are real
    numbers, so the check that an observation is finite (lines 303-311) always passes.  Log
    messages, progress reports and the elapsed time are left out. *)
From Coq Require Import Reals String.
From Verif Require Import Base Arc_Model Sched_Model Sol_Model Prop_Model Traj_Model.
From Verif Require Import Prop_Model.
Local Open Scope Z_scope.

(** od/mod.rs: the errors met here. *)
Inductive odp_error (E Fe De : Type) :=
| TooFewMeasurements | StepSizeError (step : Z) | PropError (x : E) | FilterError (x : Fe)
| DeviceError (x : De).
Arguments TooFewMeasurements {E Fe De}. Arguments StepSizeError {E Fe De}.
Arguments PropError {E Fe De}. Arguments FilterError {E Fe De}. Arguments DeviceError {E Fe De}.

Definition lift {E E' A} (f : E -> E') (x : res E A) : res E' A :=
  match x with Ok a => Ok a | Err y => Err (f y) | Panic => Panic | NoFuel => NoFuel end.

(** The filter: od/kalman/filtering.rs, [C] and [H] are the measurement noise and sensitivity
    matrices, [RV] the numerical part of a residual. *)
Record filter_ops (St K Est RV G C H Fe : Type) := {
  start_filter : Est -> K;            (* lines 192-197 and 456-461 *)
  initialize_noises : K -> K;         (* initialize_process_noises *)
  time_update : K -> St -> K * res Fe Est;
  measurement_update : K -> St -> list R -> list R -> C -> H -> option R ->
                       K * res Fe (Est * residual RV * option G);
  replace_state : K -> bool;
  nominal_of : Est -> St;             (* Estimate::nominal_state *)
  state_of : Est -> St                (* Estimate::state *)
}.
Arguments start_filter {St K Est RV G C H Fe}. Arguments initialize_noises {St K Est RV G C H Fe}.
Arguments time_update {St K Est RV G C H Fe}. Arguments measurement_update {St K Est RV G C H Fe}.
Arguments replace_state {St K Est RV G C H Fe}. Arguments nominal_of {St K Est RV G C H Fe}.
Arguments state_of {St K Est RV G C H Fe}.

(** A tracking device: od/ground_station, od/msr/sensitivity.rs. *)
Record device_ops (St D C H De : Type) := {
  name_of : D -> string;
  types_of : D -> list msr_type;
  h_tilde : D -> measurement -> list msr_type -> St -> res De H;
  covar_of : D -> list msr_type -> Z -> res De C;
  measure : D -> Z -> list St -> D * res De (option data);
  bias_of : D -> list msr_type -> Z -> res De (list R)
}.
Arguments name_of {St D C H De}. Arguments types_of {St D C H De}. Arguments h_tilde {St D C H De}. Arguments covar_of {St D C H De}.
Arguments measure {St D C H De}. Arguments bias_of {St D C H De}.

(** Trait [State]: the state transition matrix and the epoch of a state. *)
Record stm_ops (St : Type) := {
  with_stm : St -> St; reset_stm : St -> St; set_epoch : St -> Z -> St
}.
Arguments with_stm {St}. Arguments reset_stm {St}. Arguments set_epoch {St}.

(** measurement.rs:84-98: a row per type, zero where there is no value, [n] rows in all. *)
Definition observation (n : nat) (types : list msr_type) (d : data) : list R :=
  firstn n (map (fun t => match get t d with Some v => v | None => 0%R end) types
            ++ repeat 0%R n).

(** measurement.rs:101-109 and process/mod.rs:291-294 *)
Definition any_available (types : list msr_type) (d : data) : bool :=
  existsb (fun t => match get t d with Some _ => true | None => false end) types.

(** process/mod.rs:336-348 *)
Fixpoint resolve_all (ms : option (list (msr_type * R))) (types : list msr_type)
    (measured computed : list R) : list R :=
  match types, measured, computed with
  | t :: types', m :: measured', c :: computed' =>
      resolve_ambiguity ms t m c :: resolve_all ms types' measured' computed'
  | _, _, _ => measured
  end.

(** process/mod.rs:48-97 *)
Record odp (D : Type) := {
  devices : list (string * D);
  sigma_reject : option R;
  odp_max_step : Z;
  epoch_precision : Z;
  init_step : Z;          (* prop.opts *)
  opts_fixed : bool       (* prop.opts *)
}.
Arguments devices {D}. Arguments sigma_reject {D}. Arguments odp_max_step {D}.
Arguments epoch_precision {D}. Arguments init_step {D}. Arguments opts_fixed {D}.

Section Process.
Context {St V F E : Type} (e : env St V F E) (o : state_ops St F) (arrange : list St -> list St)
        (so : stm_ops St).
Context {K Est RV G C H Fe FS : Type} (fo : filter_ops St K Est RV G C H Fe).
Context {D De : Type} (dv : device_ops St D C H De).
(** [MsrSize::DIM] *)
Context (n : nat).
Notation err := (odp_error E Fe De).
Notation sol := (solution Est RV G FS).

(** [Propagator::with], propagator.rs:88-108 *)
Definition prop_with (p : odp D) (s : St) : inst (St := St) :=
  {| state := s; step_size := init_step p; fixed_step := opts_fixed p;
     det := {| d_step := init_step p; d_error := 0; d_attempts := 1 |} |}.

(** The variables of the loop over measurements. *)
Record run := {
  r_inst : inst (St := St);
  r_epoch : Z;
  r_kf : K;
  r_devices : list (string * D);
  r_traj : list St;
  r_sol : sol;
  r_accepted : nat;
  r_rejected : nat
}.

(** process/mod.rs:221-230: the last index whose epoch is not before [ep], or 0. *)
Fixpoint keep_from (ep : Z) (index : nat) (l : list St) : nat :=
  match index with
  | O => O
  | S i => match nth_error l i with
           | Some s => if ep <=? epoch e s then i else keep_from ep i l
           | None => i
           end
  end.
Definition truncate_traj (ep : Z) (l : list St) : list St := firstn (keep_from ep (length l) l) l.

(** process/mod.rs:364-365 *)
Definition label (name : string) (types : list msr_type) (r : residual RV) : residual RV :=
  {| values := values r; res_rejected := res_rejected r; res_tracker := Some name;
     res_types := types |}.

(** process/mod.rs:300-388: one group of observables of a measurement. *)
Definition process_window (a : arc) (crit : option R) (m : measurement) (d : D)
    (types : list msr_type) (r : run) : res err run :=
  let nominal := state (r_inst r) in
  let real := observation n types (obs m) in
  bind (lift DeviceError (h_tilde dv d m types nominal)) (fun h =>
  bind (lift DeviceError (covar_of dv d types (r_epoch r))) (fun c =>
  let (d', out) := measure dv d (r_epoch r) (r_traj r) in
  let r := {| r_inst := r_inst r; r_epoch := r_epoch r; r_kf := r_kf r;
              r_devices := modify (tracker m) (fun _ => d') (r_devices r); r_traj := r_traj r;
              r_sol := r_sol r; r_accepted := r_accepted r; r_rejected := r_rejected r |} in
  bind (lift DeviceError out) (fun out =>
  match out with
  | None => Ok {| r_inst := r_inst r; r_epoch := r_epoch r; r_kf := r_kf r;
                  r_devices := r_devices r; r_traj := r_traj r; r_sol := r_sol r;
                  r_accepted := r_accepted r; r_rejected := S (r_rejected r) |}
  | Some computed =>
      bind (lift DeviceError (bias_of dv d' types (r_epoch r))) (fun bias =>
      let computed := map (fun xy => fst xy - snd xy)%R
                        (combine (observation n types computed) bias) in
      let real := resolve_all (moduli a) types real computed in
      let (kf, upd) := measurement_update fo (r_kf r) nominal real computed c h crit in
      bind (lift FilterError upd) (fun upd =>
      let '(est, resid, gain) := upd in
      let replaced := replace_state fo kf && negb (res_rejected resid) in
      let state1 := if replaced then state_of fo est else state (r_inst r) in
      Ok {| r_inst := with_state (r_inst r) (reset_stm so state1);
            r_epoch := r_epoch r; r_kf := kf; r_devices := r_devices r;
            r_traj := if replaced then removelast (r_traj r) ++ [state1] else r_traj r;
            r_sol := push_measurement_update (r_sol r) est (label (name_of dv d') types resid) gain;
            r_accepted := if res_rejected resid then r_accepted r else S (r_accepted r);
            r_rejected := if res_rejected resid then S (r_rejected r) else r_rejected r |}))
  end))).

(** process/mod.rs:271-297 *)
Fixpoint process_windows (a : arc) (crit : option R) (m : measurement) (all : list msr_type)
    (wnos : list nat) (r : run) : res err run :=
  match wnos with
  | [] => Ok r
  | wno :: wnos' =>
      match firstn n (skipn (wno * n) all) with
      | [] => Ok r
      | types =>
          if any_available types (obs m) then
            match find (tracker m) (r_devices r) with
            | Some d => bind (process_window a crit m d types r)
                             (process_windows a crit m all wnos')
            | None => Panic
            end
          else process_windows a crit m all wnos' r
      end
  end.

(** process/mod.rs:258-261 and 421-423; the result holds the state before the reset. *)
Definition do_time_update (r : run) (nominal : St) (rejected : nat) : res err run :=
  let (kf, upd) := time_update fo (r_kf r) nominal in
  bind (lift FilterError upd) (fun est =>
  Ok {| r_inst := with_state (r_inst r) (reset_stm so (state (r_inst r)));
        r_epoch := r_epoch r; r_kf := kf; r_devices := r_devices r; r_traj := r_traj r;
        r_sol := push_time_update (r_sol r) est; r_accepted := r_accepted r;
        r_rejected := rejected + r_rejected r |}).

(** process/mod.rs:216-248: one propagation. *)
Definition step_toward (p : odp D) (fuel : nat) (target : Z) (r : run) : res err run :=
  let delta_t := target - r_epoch r in
  let next := Z.min (Z.min delta_t (step_size (r_inst r))) (odp_max_step p) in
  let out := for_duration e fuel next (r_inst r) in
  bind (lift PropError (o_res out)) (fun _ =>
  Ok {| r_inst := o_inst out; r_epoch := epoch e (state (o_inst out)); r_kf := r_kf r;
        r_devices := r_devices r;
        r_traj := truncate_traj (r_epoch r) (r_traj r)
                  ++ finalize o (arrange (o_sent out) ++ [state (r_inst r)]);
        r_sol := r_sol r; r_accepted := r_accepted r; r_rejected := r_rejected r |}).

(** process/mod.rs:251-401: at the measurement. *)
Definition at_measurement (a : arc) (crit : option R) (m : measurement) (r : run)
  : res err run :=
  let nominal := state (r_inst r) in
  let r := {| r_inst := with_state (r_inst r) (set_epoch so nominal (Arc_Model.epoch m));
              r_epoch := r_epoch r; r_kf := r_kf r; r_devices := r_devices r;
              r_traj := r_traj r; r_sol := r_sol r; r_accepted := r_accepted r;
              r_rejected := r_rejected r |} in
  if rejected m then do_time_update r nominal 1
  else
    match find (tracker m) (r_devices r) with
    | None => Ok r
    | Some d =>
        let all := types_of dv d in
        match n with
        | O => Panic
        | _ => process_windows a crit m all (seq 0 (S (length all / n))) r
        end
    end.

(** process/mod.rs:215-425 *)
Fixpoint advance (p : odp D) (a : arc) (crit : option R) (pfuel fuel : nat) (m : measurement)
    (r : run) : res err run :=
  match fuel with
  | O => NoFuel
  | S fuel' =>
      bind (step_toward p pfuel (Arc_Model.epoch m) r) (fun r =>
      if Z.abs (epoch e (state (r_inst r)) - Arc_Model.epoch m) <? epoch_precision p
      then at_measurement a crit m r
      else bind (do_time_update r (state (r_inst r)) 0) (advance p a crit pfuel fuel' m))
  end.

(** process/mod.rs:211-426 *)
Fixpoint process_measurements (p : odp D) (a : arc) (crit : option R) (pfuel fuel : nat)
    (l : list measurement) (r : run) : res err run :=
  match l with
  | [] => Ok r
  | m :: l' => bind (advance p a crit pfuel fuel m r)
                    (process_measurements p a crit pfuel fuel l')
  end.

(** process/mod.rs:160-206: the variables before the loop. *)
Definition start_run (p : odp D) (initial : Est) : run :=
  let i0 := prop_with p (with_stm so (nominal_of fo initial)) in
  let i := if fixed_step i0 then i0 else set_step i0 (odp_max_step p) false in
  {| r_inst := i; r_epoch := epoch e (state i);
     r_kf := initialize_noises fo (start_filter fo initial); r_devices := devices p;
     r_traj := []; r_sol := new; r_accepted := 0; r_rejected := 0 |}.

(** process/mod.rs:175-180 *)
Definition criterion (p : odp D) (a : arc) : option R :=
  if force_reject a then Some 0%R else sigma_reject p.

(** process/mod.rs:126-437 *)
Definition process_arc (p : odp D) (pfuel fuel : nat) (initial : Est) (a : arc) : res err sol :=
  if (length (measurements a) <? 2)%nat then Err TooFewMeasurements
  else if odp_max_step p <=? 0 then Err (StepSizeError (odp_max_step p))
  else bind (process_measurements p a (criterion p a) pfuel fuel (measurements a)
               (start_run p initial)) (fun r => Ok (r_sol r)).

(** process/mod.rs:466-483 *)
Fixpoint predict_loop (p : odp D) (pfuel fuel : nat) (end_epoch : Z) (i : inst (St := St))
    (kf : K) (s : sol) : res err sol :=
  match fuel with
  | O => NoFuel
  | S fuel' =>
      let out := for_duration e pfuel (odp_max_step p) i in
      bind (lift PropError (o_res out)) (fun nominal =>
      let (kf', upd) := time_update fo kf nominal in
      bind (lift FilterError upd) (fun est =>
      let s' := push_time_update s est in
      if end_epoch <=? epoch e nominal then Ok s'
      else
        let i' := o_inst out in
        predict_loop p pfuel fuel' end_epoch (with_state i' (reset_stm so (state i'))) kf' s'))
  end.

(** process/mod.rs:440-486; the process noises are not initialized. *)
Definition predict_until (p : odp D) (pfuel fuel : nat) (initial : Est) (end_epoch : Z)
  : res err sol :=
  predict_loop p pfuel fuel end_epoch (prop_with p (with_stm so (nominal_of fo initial)))
    (start_filter fo initial) (push_time_update new initial).

(** process/mod.rs:489-496 *)
Definition predict_for (p : odp D) (pfuel fuel : nat) (initial : Est) (duration : Z)
  : res err sol :=
  predict_until p pfuel fuel initial (epoch e (nominal_of fo initial) + duration).
End Process.
