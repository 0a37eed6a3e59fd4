(** Model of the file of differences between two trajectories: [ric_diff_to_parquet] of
    nyx-core/src/md/trajectory/traj.rs and [smooth_state_diff_in_place] of mod.rs.

    [f64] is [R], so that [partial_cmp] never fails.  The file, its path, its metadata and the
    log messages are not modelled. *)
From Coq Require Import Reals String.
From Verif Require Import Base RustStd Vec3 Angles Util_Model Sc_Model Traj_Model Pq_Model Tpq_Model.
From Verif Require Import Vec3.
Local Open Scope string_scope.

(** traj.rs and errors.rs: the variants of [TrajError] that are returned here *)
Inductive diff_error := TrajPhysics | TrajGeneric.

(** ** mod.rs:77-123: a median in place *)

(** mod.rs:96-104 and 112-120: the components of a difference (anise [CartesianState]) *)
Definition component (c : nat) (o : orbit) : R :=
  match c with
  | 0 => vx (radius_km o) | 1 => vy (radius_km o) | 2 => vz (radius_km o)
  | 3 => vx (velocity_km_s o) | 4 => vy (velocity_km_s o) | _ => vz (velocity_km_s o)
  end%nat.
Definition set_component (c : nat) (x : R) (o : orbit) : orbit :=
  let r := radius_km o in
  let v := velocity_km_s o in
  match c with
  | 0 => Orbit (epoch o) (frame o) (V3 x (vy r) (vz r)) v
  | 1 => Orbit (epoch o) (frame o) (V3 (vx r) x (vz r)) v
  | 2 => Orbit (epoch o) (frame o) (V3 (vx r) (vy r) x) v
  | 3 => Orbit (epoch o) (frame o) r (V3 x (vy v) (vz v))
  | 4 => Orbit (epoch o) (frame o) r (V3 (vx v) x (vz v))
  | _ => Orbit (epoch o) (frame o) r (V3 (vx v) (vy v) x)
  end%nat.

(** [sort_unstable_by(partial_cmp)]: the order of equal numbers does not show *)
Fixpoint insert_real (x : R) (l : list R) : list R :=
  match l with
  | [] => [x]
  | y :: l' => if Rle_dec x y then x :: l else y :: insert_real x l'
  end.
Fixpoint sort_reals (l : list R) : list R :=
  match l with [] => [] | x :: l' => insert_real x (sort_reals l') end.

(** [ric_diff[i] = ...] *)
Fixpoint update {A} (l : list A) (i : nat) (f : A -> A) : list A :=
  match l, i with
  | [], _ => []
  | a :: l', O => f a :: l'
  | a :: l', S i' => a :: update l' i' f
  end.

(** mod.rs:89-90, 94-105: the values of the window around [i] *)
Definition window (half i : nat) (l : list R) : list R :=
  let start := (i - half)%nat in
  let stop := Nat.min (i + half + 1) (length l) in
  firstn (stop - start) (skipn start l).

(** mod.rs:107-111 *)
Definition middle (w : list R) : R := nth (length w / 2) (sort_reals w) 0%R.

(** mod.rs:93-121, for one component of the state [i] *)
Definition smooth_component (half i c : nat) (l : list orbit) : list orbit :=
  update l i (set_component c (middle (window half i (map (component c) l)))).

(** mod.rs:77-123 [smooth_state_diff_in_place]; an even window panics (78-81) *)
Definition smooth {E} (window_size : nat) (l : list orbit) : res E (list orbit) :=
  if negb (window_size mod 2 =? 1)%nat then Panic
  else
    let half := (window_size / 2)%nat in
    Ok (fold_left (fun l i => fold_left (fun l c => smooth_component half i c l) (seq 0 6) l)
          (seq 0 (length l)) l).

(** ** traj.rs:411-598 *)
Section Export.
(** anise: see [Tpq_Model]; [ric_difference] of an orbit from another *)
Context (evaluate : element -> orbit -> option R)
        (bplane : orbit -> option (R * R * R)) (dcm_to_inertial : nat -> orbit -> option m3)
        (element_name : element -> string) (frame_name : nat -> string)
        (ric_difference : orbit -> orbit -> option orbit).
(** hifitime and serde_dhall: see [Tpq_Model] *)
Context (show : Z -> string) (show_frame : nat -> string).
(** The trajectories of spacecraft (interpolatable.rs, see [Traj_Model]) *)
Context (ops : state_ops spacecraft nat).

Notation value := (value evaluate bplane dcm_to_inertial).
Notation name := (name element_name frame_name).

(** io/mod.rs:64-71 [ExportCfg]: the fields, start, end and step asked for *)
Record export_cfg := {
  cfg_fields : option (list parameter); cfg_start : option Z; cfg_end : option Z; cfg_step : option Z
}.

(** traj.rs:425-453 *)
Definition ric_headers : list field :=
  map (fun c => {| f_name := "Delta " ++ c ++ " (RIC) (km)"; f_type := Float64; f_nullable := false;
                   f_meta := [("unit", "km")] |}) ["X"; "Y"; "Z"]
  ++ map (fun c => {| f_name := "Delta V" ++ c ++ " (RIC) (km/s)"; f_type := Float64; f_nullable := false;
                      f_meta := [("unit", "km/s")] |}) ["x"; "y"; "z"].

(** traj.rs:466-478 *)
Definition diff_fields (cfg : export_cfg) (first : spacecraft) : list parameter :=
  filter (fun p => negb (param_eqb p GuidanceModeP)
                   && match value first p with Ok _ => true | _ => false end)
    (match cfg_fields cfg with Some l => l | None => export_params end).

(** param.rs:138-170 [to_field]; the unit is not modelled *)
Definition diff_header (text : string) (p : parameter) : field :=
  {| f_name := name p; f_type := Float64; f_nullable := false; f_meta := [("Frame", text)] |}.

Definition MINUTE : Z := 60000000000.

(** traj.rs:506-518: one difference, from the pair (other, self) *)
Definition one_difference (p : spacecraft * spacecraft) : res diff_error orbit :=
  match ric_difference (sc_orbit (snd p)) (sc_orbit (fst p)) with
  | Some o => Ok o
  | None => Err TrajPhysics
  end.

(** traj.rs:541-560: one number of the column of a field, from the pair (other, self) *)
Definition one_value (f : parameter) (p : spacecraft * spacecraft) : res diff_error (option R) :=
  match value (snd p) f, value (fst p) f with
  | Ok a, Ok b => Ok (Some (a - b)%R)
  | _, _ => Err TrajGeneric
  end.

(** traj.rs:487-504: the states of a trajectory between the dates; [collect] *)
Definition sampled (fuel : nat) (l : list spacecraft) (step start stop : Z) : res diff_error (list spacecraft) :=
  match every_between ops fuel l step start stop with
  | Ok s => Ok s
  | Err _ => Err TrajGeneric
  | Panic => Panic
  | NoFuel => NoFuel
  end.

(** traj.rs:411-598 [ric_diff_to_parquet].  [self.states[0]], [first] and [last] panic without
    states (455, 473, 487). *)
Definition ric_diff_to_parquet (fuel : nat) (self other : list spacecraft) (cfg : export_cfg)
  : res diff_error table :=
  match first self, last_state self, first other, last_state other with
  | Some a, Some b, Some a', Some b' =>
      let fields := diff_fields cfg a in
      let hdrs := plain "Epoch (UTC)" Utf8 false
                  :: ric_headers ++ map (diff_header (show_frame (frame (sc_orbit a)))) fields in
      let ep s := st_epoch ops s in
      let start := if (ep a' <? ep a)%Z then ep a else ep a' in
      let stop := if (ep b' <? ep b)%Z then ep b' else ep b in
      let step := match cfg_step cfg with Some s => s | None => MINUTE end in
      bind (sampled fuel self step start stop) (fun self_states =>
      bind (sampled fuel other step start stop) (fun other_states =>
      let pairs := combine other_states self_states in
      bind (traverse one_difference pairs) (fun raw =>
      bind (smooth (if (5 <? length other_states)%nat then 5 else 1)%nat raw) (fun diffs =>
      bind (traverse (fun f => traverse (one_value f) pairs) fields) (fun cols =>
      let columns :=
        Text (map (fun s => Some (show (ep s))) self_states)
        :: map (fun c => Floats (map (fun o => Some (component c o)) diffs)) (seq 0 6)
        ++ map Floats cols in
      match record_batch hdrs columns with Some t => Ok t | None => Err TrajGeneric end)))))
  | _, _, _, _ => Panic
  end.
End Export.
