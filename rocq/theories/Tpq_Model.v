(** Model of spacecraft trajectories in parquet files: [to_parquet] of
    nyx-core/src/md/trajectory/traj.rs and [from_parquet] of sc_traj.rs.

    The states to write are given: without start, end and step they are those of the trajectory, and
    otherwise those of [every_between] (see [Traj_Model]); the fields are given as well.  The file, its path, its metadata and the
    log messages are not modelled. *)
From Coq Require Import Reals String.
From Verif Require Import Base RustStd Vec3 Angles Util_Model Sc_Model Traj_Model Pq_Model.
Local Open Scope string_scope.

(** io/mod.rs: the variants of [InputOutputError] that are returned here *)
Inductive io_error := MissingData (which : string) | Inconsistency | ParseDhall | ArrowError.

Definition parameter_eq_dec (p q : parameter) : {p = q} + {p <> q}.
Proof. repeat decide equality. Defined.
Definition param_eqb (p q : parameter) : bool := if parameter_eq_dec p q then true else false.

(** interpolatable.rs:118-147 [export_params]; AoL, TrueLongitude and RCN are numbered *)
Definition AoL : element := OtherElement 0.
Definition TrueLongitude : element := OtherElement 1.
Definition RCN : nat := 0.
Definition export_params : list parameter :=
  [Element X; Element Y; Element Z_; Element VX; Element VY; Element VZ; Element SemiMajorAxis;
   Element Eccentricity; Element Inclination; Element RAAN; Element AoP; Element TrueAnomaly;
   Element AoL; Element TrueLongitude; DryMass; PropMass; Cr; Cd; Isp; GuidanceModeP; ThrustP;
   ThrustX; ThrustY; ThrustZ; ThrustInPlane RCN; ThrustOutOfPlane RCN].

(** sc_traj.rs:236-250: the parameters that are read *)
Definition read_params : list parameter :=
  [Element X; Element Y; Element Z_; Element VX; Element VY; Element VZ; DryMass; Isp; PropMass;
   ThrustP; ThrustX; ThrustY; ThrustZ].

(** spacecraft.rs:51, the derived [Debug] of [GuidanceMode]; sc_traj.rs:398-402 *)
Definition show_mode (m : guidance_mode) : string :=
  match m with Coast => "Coast" | Thrust => "Thrust" | Inhibit => "Inhibit" end.
Definition parse_mode (s : string) : guidance_mode :=
  if String.eqb s "Thrust" then Thrust else if String.eqb s "Inhibit" then Inhibit else Coast.

Section Parquet.
(** anise: the elements, and their [Display] with the unit; the [Debug] of a local frame *)
Context (evaluate : element -> orbit -> option R)
        (set_kepler : element -> orbit -> R -> option orbit)
        (bplane : orbit -> option (R * R * R)) (dcm_to_inertial : nat -> orbit -> option m3).
Context (element_name : element -> string) (frame_name : nat -> string).
(** hifitime: [to_time_scale(UTC)] then [to_isoformat], and [Epoch::from_gregorian_str];
    serde_dhall: a frame to and from its text *)
Context (show : Z -> string) (parse : string -> option Z).
Context (show_frame : nat -> string) (parse_frame : string -> option nat).
(** anise: the default orbit, masses, areas and coefficients *)
Context (orbit0 : orbit) (dry0 prop0 extra0 srp0 cr0 drag0 cd0 : R).

(** spacecraft.rs:145-158 [Default], 445-447 [zeros] *)
Definition zeros : spacecraft :=
  Spacecraft orbit0 dry0 prop0 extra0 srp0 cr0 drag0 cd0 None Coast None None.

Notation value := (value evaluate bplane dcm_to_inertial).

(** param.rs:118-132 [unit] and 173-204 [Display] *)
Definition name (p : parameter) : string :=
  match p with
  | Element e => element_name e
  | BLTOF => "BLToF" | BdotR => "BdotR (km)" | BdotT => "BdotT (km)" | Cd => "cd" | Cr => "cr"
  | DryMass => "dry_mass (kg)" | EpochP => "epoch" | GuidanceModeP => "guidance_mode" | Isp => "isp (isp)"
  | PropMass => "prop_mass (kg)" | ThrustX => "thrust_x (unitless)" | ThrustY => "thrust_y (unitless)"
  | ThrustZ => "thrust_z (unitless)"
  | ThrustInPlane f => "thrust_in_plane (" ++ frame_name f ++ ") (deg)"
  | ThrustOutOfPlane f => "thrust_out_of_plane (" ++ frame_name f ++ ") (deg)"
  | ThrustP => "thrust (N)" | TotalMass => "total_mass"
  end.

(** traj.rs:263-281 *)
Definition available (p : parameter) (s : spacecraft) : bool :=
  match value s p with Ok _ => true | _ => false end.
Definition kept (states : list spacecraft) (p : parameter) : bool := existsb (available p) states.
Definition nullable (states : list spacecraft) (p : parameter) : bool :=
  existsb (fun s => negb (available p s)) states.

(** traj.rs:283-285; param.rs:137-170 [to_field] *)
Definition to_field (frame_text : string) (states : list spacecraft) (p : parameter) : field :=
  {| f_name := name p; f_type := if param_eqb p GuidanceModeP then Utf8 else Float64;
     f_nullable := nullable states p; f_meta := [("Frame", frame_text)] |}.

(** traj.rs:300-326 *)
Definition cells (states : list spacecraft) (p : parameter) : column :=
  let ok s := match value s p with Ok x => Some x | _ => None end in
  if param_eqb p GuidanceModeP
  then Text (map (fun s => option_map (fun x => show_mode (mode_of_f64 x)) (ok s)) states)
  else Floats (map ok states).

(** traj.rs:226-363 [to_parquet] of the trajectory [own]: the given states are written;
    [self.states[0]] panics without states (line 249) *)
Definition to_parquet (requested : list parameter) (own states : list spacecraft) : res io_error table :=
  match own with
  | [] => Panic
  | first :: _ =>
      let text := show_frame (frame (sc_orbit first)) in
      let fields := filter (kept states) requested in
      let hdrs := plain "Epoch (UTC)" Utf8 false :: map (to_field text states) fields in
      let cols := Text (map (fun s => Some (show (epoch (sc_orbit s)))) states)
                  :: map (cells states) fields in
      match record_batch hdrs cols with Some t => Ok t | None => Err ArrowError end
  end.

(** sc_traj.rs:231-282: what the fields of the file tell *)
Record schema := { has_epoch : bool; has_guidance : bool; found : list parameter; the_frame : option nat }.
Fixpoint meta (k : string) (l : list (string * string)) : option string :=
  match l with [] => None | (k', v) :: l' => if String.eqb k' k then Some v else meta k l' end.
Definition scan_field (f : field) (s : schema) : res io_error schema :=
  if String.eqb (f_name f) "Epoch (UTC)"
  then Ok {| has_epoch := true; has_guidance := has_guidance s; found := found s; the_frame := the_frame s |}
  else if String.eqb (f_name f) "guidance_mode"
  then Ok {| has_epoch := has_epoch s; has_guidance := true; found := found s; the_frame := the_frame s |}
  else
    match find (fun p => String.eqb (f_name f) (name p)) read_params with
    | None => Ok s
    | Some p =>
        let s' fr := {| has_epoch := has_epoch s; has_guidance := has_guidance s;
                        found := p :: found s; the_frame := fr |} in
        if param_eqb p PropMass then Ok (s' (the_frame s))
        else match meta "Frame" (f_meta f) with
             | None => Ok (s' (the_frame s))
             | Some text => match parse_frame text with
                            | None => Err ParseDhall
                            | Some fr => Ok (s' (Some fr))
                            end
             end
    end.
Fixpoint scan (t : table) (s : schema) : res io_error schema :=
  match t with [] => Ok s | (f, _) :: t' => bind (scan_field f s) (scan t') end.

Definition exists_in (s : schema) (p : parameter) : bool := existsb (param_eqb p) (found s).

(** sc_traj.rs:299-306 *)
Definition first_missing (s : schema) : option parameter :=
  find (fun p => negb (exists_in s p)) (firstn 6 read_params).

(** sc_traj.rs:360-374 *)
Definition read_column (t : table) (p : parameter) : res io_error (parameter * list (option R)) :=
  match column_by_name (name p) t with Some (Floats l) => Ok (p, l) | _ => Panic end.

(** sc_traj.rs:404-408, with its [unwrap] *)
Fixpoint set_all (i : nat) (shared : list (parameter * list (option R))) (s : spacecraft) : res io_error spacecraft :=
  match shared with
  | [] => Ok s
  | (p, l) :: shared' =>
      match valid_at l i with
      | None => set_all i shared' s
      | Some x => match set_value set_kepler s p x with
                  | Ok s' => set_all i shared' s'
                  | _ => Panic
                  end
      end
  end.

(** sc_traj.rs:380-412: one row *)
Definition read_row (sch : schema) (fr : nat) (epochs : list (option string))
    (modes : option (list (option string))) (shared : list (parameter * list (option R))) (i : nat)
    : res io_error spacecraft :=
  match parse (text_at epochs i) with
  | None => Err Inconsistency
  | Some e =>
      let o := sc_orbit zeros in
      let s0 := unset_stm (with_orbit zeros (Orbit e fr (radius_km o) (velocity_km_s o))) in
      let s1 := if exists_in sch Isp || exists_in sch ThrustP
                then with_thruster s0 (Some (Thruster 0%R 0%R)) else s0 in
      let s2 := match modes with Some l => mut_mode s1 (parse_mode (text_at l i)) | None => s1 end in
      set_all i shared s2
  end.

(** [Traj::finalize] of spacecraft *)
Definition sc_ops : state_ops spacecraft nat :=
  {| st_epoch := fun s => epoch (sc_orbit s); st_frame := fun s => frame (sc_orbit s);
     st_frame_eqb := Nat.eqb; st_interpolate := fun _ _ _ => Panic |}.

(** sc_traj.rs:212-424 [from_parquet]; the states are spacecraft (lines 313-334) *)
Definition from_parquet (t : table) : res io_error (list spacecraft) :=
  bind (scan t {| has_epoch := false; has_guidance := false; found := []; the_frame := None |}) (fun sch =>
  if negb (has_epoch sch) then Err (MissingData "Epoch (UTC)")
  else match the_frame sch with
  | None => Err (MissingData "Frame in metadata")
  | Some fr =>
      match first_missing sch with
      | Some p => Err (MissingData ("Missing `" ++ name p ++ "` field"))
      | None =>
          if negb (exists_in sch PropMass) then Err (MissingData ("Missing `" ++ name ThrustZ ++ "` field"))
          else
            bind (match column_by_name "Epoch (UTC)" t with Some (Text l) => Ok l | _ => Panic end) (fun epochs =>
            bind (if has_guidance sch
                  then match column_by_name (name GuidanceModeP) t with Some (Text l) => Ok (Some l) | _ => Panic end
                  else Ok None) (fun modes =>
            bind (traverse (read_column t) (filter (exists_in sch) read_params)) (fun shared =>
            bind (traverse (read_row sch fr epochs modes shared) (seq 0 (num_rows t)))
              (fun l => Ok (finalize sc_ops l)))))
      end
  end).
End Parquet.
