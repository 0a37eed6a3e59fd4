(** Model of the tracking schedules and of the measurement simulator:
    nyx-core/src/od/simulator/{scheduler,trkconfig,arc}.rs.

    Epochs and durations are integers (nanoseconds).  The [BTreeMap]s keyed by tracker name are
    association lists.  Log messages are not modelled, nor are the time series of [with_rng]
    (only displayed) and the location data set of [generate_schedule]. *)
From Coq Require Import String.
From Verif Require Import Base RustStd Arc_Model.
Local Open Scope Z_scope.

(** scheduler.rs:37-45 *)
Inductive handoff_policy := Eager | Greedy | Overlap.
(** scheduler.rs:85-101 *)
Inductive cadence_policy := Continuous | Intermittent (on off : Z).
(** scheduler.rs:63-81 *)
Record scheduler := {
  handoff : handoff_policy; cadence : cadence_policy; min_samples : Z;
  sample_alignment : option Z
}.
(** trkconfig.rs:263-268 *)
Record strand := { s_start : Z; s_end : Z }.
(** trkconfig.rs:327-329 *)
Definition strand_duration (s : strand) : Z := s_end s - s_start s.
(** trkconfig.rs:41-56 *)
Record trkconfig := {
  sched : option scheduler; sampling : Z; strands : option (list strand)
}.

Definition MINUTE : Z := 60000000000.
Definition SECOND : Z := 1000000000.

(** The builder's defaults, scheduler.rs:64-80 *)
Definition default_scheduler : scheduler :=
  {| handoff := Eager; cadence := Continuous; min_samples := 10; sample_alignment := Some SECOND |}.
(** trkconfig.rs:248-257 *)
Definition default_config : trkconfig :=
  {| sched := Some default_scheduler; sampling := MINUTE; strands := None |}.
(** trkconfig.rs:174-180 *)
Definition from_sample_rate (d : Z) : trkconfig :=
  {| sched := Some {| handoff := Eager; cadence := Continuous; min_samples := 10;
                      sample_alignment := Some d |};
     sampling := d; strands := None |}.

(** The messages of trkconfig.rs:183-220 *)
Inductive config_error := BothConfigured | EmptyStrands | TooShort (ii : nat)
  | AntiChronological (ii : nat) | NeitherConfigured | NoValidDevice | NotScheduled.

(** trkconfig.rs:197-212 *)
Fixpoint check_strands (d : Z) (ii : nat) (l : list strand) : res config_error unit :=
  match l with
  | [] => Ok tt
  | s :: l' =>
      if strand_duration s <? d then Err (TooShort ii)
      else if strand_duration s <? 0 then Err (AntiChronological ii)
      else check_strands d (S ii) l'
  end.
(** [TrkConfig::sanity_check], trkconfig.rs:183-220 *)
Definition sanity_check (c : trkconfig) : res config_error unit :=
  match strands c, sched c with
  | Some _, Some _ => Err BothConfigured
  | Some [], None => Err EmptyStrands
  | Some l, None => check_strands (sampling c) 0 l
  | None, None => Err NeitherConfigured
  | None, Some _ => Ok tt
  end.

(** Maps keyed by the name of the tracker. *)
Definition find {A} (name : string) (m : list (string * A)) : option A :=
  im_get String.eqb name m.
(** [*map.get_mut(name).unwrap() = f(..)] on a key known to be there *)
Fixpoint modify {A} (name : string) (f : A -> A) (m : list (string * A)) : list (string * A) :=
  match m with
  | [] => []
  | (k, v) :: m' => if String.eqb name k then (k, f v) :: m' else (k, v) :: modify name f m'
  end.

(** [with_rng], arc.rs:89-109: the configured sampling rates, or the error. *)
Definition valid_samplings (devices : list string) (configs : list (string * trkconfig)) : list Z :=
  flat_map (fun name =>
    match find name configs with
    | Some cfg => match sanity_check cfg with Ok _ => [sampling cfg] | _ => [] end
    | None => []
    end) devices.
Definition with_rng (devices : list string) (configs : list (string * trkconfig))
  : res config_error (list Z) :=
  match valid_samplings devices configs with
  | [] => Err NoValidDevice
  | l => Ok l
  end.

(** arc.rs:401-408: name, position among the strands of that tracker, strand. *)
Notation flat_entry := (string * nat * strand)%type.

(** * [generate_schedule], arc.rs:293-440 *)
Section Schedule.
Context {E : Type}.
(** hifitime's [Epoch::round] *)
Variable round : Z -> Z -> Z.
(** anise's [report_visibility_arcs] (arc.rs:329-336): the rise and fall epochs seen from a
    tracker, given its sampling. *)
Variable visibility : string -> Z -> res E (list (Z * Z)).

(** arc.rs:338-392: one visibility arc; [built] are the strands of this tracker so far. *)
Definition build_one (cfg : trkconfig) (sc : scheduler) (built : list strand) (w : Z * Z)
  : list strand :=
  let (rise, fall) := w in
  if fall - rise <? sampling cfg * min_samples sc then built
  else
    let (start, stop) := match sample_alignment sc with
                         | Some a => (round rise a, round fall a)
                         | None => (rise, fall)
                         end in
    match cadence sc with
    | Continuous => built ++ [{| s_start := start; s_end := stop |}]
    | Intermittent on off =>
        let start' := match last (map Some built) None with
                      | Some prev => if start <? s_end prev + off then Some (s_end prev + off) else None
                      | None => None
                      end in
        match start' with
        | Some s =>
            if fall <? s then built
            else built ++ [{| s_start := s; s_end := if on <? stop - s then s + on else stop |}]
        | None =>
            built ++ [{| s_start := start; s_end := if on <? stop - start then start + on else stop |}]
        end
    end.
Fixpoint build_strands (cfg : trkconfig) (sc : scheduler) (built : list strand) (ws : list (Z * Z))
  : list strand :=
  match ws with
  | [] => built
  | w :: ws' => build_strands cfg sc (build_one cfg sc built w) ws'
  end.

(** arc.rs:318-399; [devices] are the names in [loc_ids]. *)
Fixpoint build_all (configs built_cfg : list (string * trkconfig)) (devices : list string)
  : res E (list (string * trkconfig)) :=
  match devices with
  | [] => Ok built_cfg
  | name :: devices' =>
      match find name configs with
      | Some cfg =>
          match sched cfg with
          | Some sc =>
              bind (visibility name (sampling cfg)) (fun ws =>
                build_all configs
                  (modify name (fun c => {| sched := None; sampling := sampling c;
                                            strands := Some (build_strands cfg sc [] ws) |}) built_cfg)
                  devices')
          | None => build_all configs built_cfg devices'
          end
      | None => build_all configs built_cfg devices'
      end
  end.

(** arc.rs:401-408 *)
Fixpoint enumerate {A} (i : nat) (l : list A) : list (nat * A) :=
  match l with [] => [] | x :: l' => (i, x) :: enumerate (S i) l' end.
Definition flatten (cfgs : list (string * trkconfig)) : list flat_entry :=
  flat_map (fun nc => match strands (snd nc) with
                      | Some l => map (fun js => (fst nc, fst js, snd js)) (enumerate 0 l)
                      | None => []
                      end) cfgs.
Definition entry_start (x : flat_entry) : Z := s_start (snd x).

Fixpoint set_nth {A} (n : nat) (f : A -> A) (l : list A) : list A :=
  match l, n with
  | [], _ => []
  | x :: l', O => f x :: l'
  | x :: l', S n' => x :: set_nth n' f l'
  end.
Definition change_strand (name : string) (pos : nat) (f : strand -> strand)
  (cfgs : list (string * trkconfig)) : list (string * trkconfig) :=
  modify name (fun c => {| sched := sched c; sampling := sampling c;
                           strands := option_map (set_nth pos f) (strands c) |}) cfgs.

Definition sampling_of (name : string) (cfgs : list (string * trkconfig)) : Z :=
  match find name cfgs with Some c => sampling c | None => 0 end.

(** arc.rs:414-436: one pair of consecutive strands of the sorted snapshot. *)
Definition hand_over (configs : list (string * trkconfig)) (this next : flat_entry)
  (built : list (string * trkconfig)) : list (string * trkconfig) :=
  let '(this_name, this_pos, this_strand) := this in
  let '(next_name, next_pos, next_strand) := next in
  match find this_name configs with
  | Some {| sched := Some sc |} =>
      if s_start next_strand <=? s_end this_strand then
        match handoff sc with
        | Greedy =>
            let new_start := s_end this_strand + sampling_of next_name built in
            change_strand next_name next_pos (fun s => {| s_start := new_start; s_end := s_end s |}) built
        | Eager =>
            let new_end := s_start next_strand - sampling_of this_name built in
            change_strand this_name this_pos (fun s => {| s_start := s_start s; s_end := new_end |}) built
        | Overlap => built
        end
      else built
  | _ => built
  end.
(** arc.rs:411-437 *)
Fixpoint hand_overs (configs : list (string * trkconfig)) (l : list flat_entry)
  (built : list (string * trkconfig)) : list (string * trkconfig) :=
  match l with
  | this :: ((next :: _) as l') => hand_overs configs l' (hand_over configs this next built)
  | _ => built
  end.

(** arc.rs:293-440.  [cfg_as_vec.len() - 1] underflows on an empty vector: a panic when
    overflow checks are on (debug builds), otherwise it wraps and the loop does nothing. *)
Definition generate_schedule (overflow_checks : bool) (devices : list string)
  (configs : list (string * trkconfig)) : res E (list (string * trkconfig)) :=
  bind (build_all configs configs devices) (fun built =>
    let cfg_as_vec := sort_by (key_leb entry_start) (flatten built) in
    match cfg_as_vec with
    | [] => if overflow_checks then Panic else Ok built
    | _ => Ok (hand_overs configs cfg_as_vec built)
    end).
End Schedule.

(** * [generate_measurements], arc.rs:174-256 *)
Section Simulate.
Context {E : Type}.
(** What a call of [device.measure] may change: the devices (their noise processes) and the
    random number generator. *)
Variable W : Type.
(** [device.measure(epoch, ..)], arc.rs:207-212 *)
Variable measure : string -> Z -> W -> W * res E (option measurement).

(** arc.rs:204-228: one strand; [inl] is the state and the measurements so far. *)
Fixpoint measure_strand (fuel : nat) (name : string) (ts : time_series) (w : W)
  (msrs : list measurement) : res config_error (W * list measurement) :=
  match fuel with
  | O => NoFuel
  | S fuel' =>
      match ts_next ts with
      | None => Ok (w, msrs)
      | Some (e, ts') =>
          let (w', r) := measure name e w in
          match r with
          | Ok (Some m) => measure_strand fuel' name ts' w' (msrs ++ [m])
          | Ok None => measure_strand fuel' name ts' w' msrs
          | Err _ => Ok (w', msrs)
          | Panic => Panic
          | NoFuel => NoFuel
          end
      end
  end.
(** arc.rs:202-229 *)
Fixpoint measure_strands (fuel : nat) (name : string) (d : Z) (l : list strand) (w : W)
  (msrs : list measurement) : res config_error (W * list measurement) :=
  match l with
  | [] => Ok (w, msrs)
  | s :: l' =>
      bind (measure_strand fuel name (ts_inclusive (s_start s) (s_end s) d) w msrs) (fun wm =>
        measure_strands fuel name d l' (fst wm) (snd wm))
  end.
(** arc.rs:180-243 *)
Fixpoint measure_devices (fuel : nat) (configs : list (string * trkconfig)) (devices : list string)
  (w : W) (msrs : list measurement) : res config_error (W * list measurement) :=
  match devices with
  | [] => Ok (w, msrs)
  | name :: devices' =>
      match find name configs with
      | None => measure_devices fuel configs devices' w msrs
      | Some cfg =>
          match sched cfg, strands cfg with
          | Some _, None => Err NotScheduled
          | _, None => measure_devices fuel configs devices' w msrs
          | _, Some l =>
              bind (measure_strands fuel name (sampling cfg) l w msrs) (fun wm =>
                measure_devices fuel configs devices' (fst wm) (snd wm))
          end
      end
  end.
(** arc.rs:174-256 *)
Definition generate_measurements (usort : list measurement -> list measurement) (fuel : nat)
  (configs : list (string * trkconfig)) (devices : list string) (w : W)
  : res config_error (W * arc) :=
  bind (measure_devices fuel configs devices w []) (fun wm =>
    Ok (fst wm, Arc_Model.sort usort
          {| measurements := snd wm; moduli := None; force_reject := false |})).
End Simulate.
