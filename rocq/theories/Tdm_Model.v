(** Model of the CCSDS TDM export and import of tracking arcs:
    nyx-core/src/od/msr/trackingdata/io_ccsds_tdm.rs, with [correct] of measurement.rs:53-59
    and the names of types.rs:73-85 and 156-169.

    A file is its text.  Text is ASCII here: [trim] and [split_whitespace] of the Rust
    library know other white space characters.  The file system, the log messages, the time
    spent and the [source] of the imported arc are not modelled.  Values are real numbers.
    The maps of aliases and of metadata are lists: a hash map iterates in any order, and the
    order of the list is arbitrary. *)
From Coq Require Import Reals String Ascii.
From Verif Require Import Base RustStd Arc_Model.
Local Open Scope string_scope.
Local Open Scope Z_scope.

(** * The Rust library's functions on strings *)
Definition LF : ascii := "010"%char.
Definition CR : ascii := "013"%char.
Definition TAB : ascii := "009"%char.
Definition EQS : ascii := "="%char.
Definition COMMA : ascii := ","%char.

(** [char::is_whitespace] on ASCII. *)
Definition is_ws (c : ascii) : bool :=
  let n := nat_of_ascii c in ((n =? 32) || ((9 <=? n) && (n <=? 13)))%nat.

(** [str::split] at a character. *)
Fixpoint split (c : ascii) (s : string) : list string :=
  match s with
  | EmptyString => [""]
  | String a s' =>
      if Ascii.eqb a c then "" :: split c s'
      else match split c s' with
           | [] => [String a ""]
           | p :: ps => String a p :: ps
           end
  end.

(** [str::trim] *)
Fixpoint trim_start (s : string) : string :=
  match s with
  | EmptyString => ""
  | String a s' => if is_ws a then trim_start s' else s
  end.
Fixpoint trim_end (s : string) : string :=
  match s with
  | EmptyString => ""
  | String a s' =>
      match trim_end s' with
      | EmptyString => if is_ws a then "" else String a ""
      | r => String a r
      end
  end.
Definition trim (s : string) : string := trim_end (trim_start s).

(** [str::split_whitespace] *)
Fixpoint split_ws (s : string) : list string :=
  match s with
  | EmptyString => [""]
  | String a s' =>
      if is_ws a then "" :: split_ws s'
      else match split_ws s' with
           | [] => [String a ""]
           | p :: ps => String a p :: ps
           end
  end.
Definition split_whitespace (s : string) : list string :=
  filter (fun p => negb (String.eqb p "")) (split_ws s).

(** [BufRead::lines]: the lines without their ends, with no empty line after the last end. *)
Fixpoint drop_cr (s : string) : string :=
  match s with
  | EmptyString => ""
  | String a EmptyString => if Ascii.eqb a CR then "" else s
  | String a s' => String a (drop_cr s')
  end.
Fixpoint drop_last_empty (l : list string) : list string :=
  match l with
  | [] => []
  | [EmptyString] => []
  | s :: l' => s :: drop_last_empty l'
  end.
Definition lines (s : string) : list string := map drop_cr (drop_last_empty (split LF s)).

(** [{:<n}] on a string. *)
Fixpoint blanks (n : nat) : string :=
  match n with O => "" | S n' => String " " (blanks n') end.
Definition pad (n : nat) (s : string) : string := s ++ blanks (n - String.length s).

(** [to_lowercase] on ASCII. *)
Definition lower_char (c : ascii) : ascii :=
  let n := nat_of_ascii c in
  if ((65 <=? n) && (n <=? 90))%nat then ascii_of_nat (n + 32) else c.
Fixpoint to_lowercase (s : string) : string :=
  match s with
  | EmptyString => ""
  | String a s' => String (lower_char a) (to_lowercase s')
  end.

(** [writeln!]: the text and a line end. *)
Definition ln (s : string) : string := s ++ String LF "".
Fixpoint concat_all (l : list string) : string :=
  match l with [] => "" | s :: l' => s ++ concat_all l' end.

(** * Names *)
(** types.rs:73-85 *)
Definition may_be_two_way (t : msr_type) : bool :=
  match t with Range | Doppler => true | _ => false end.

(** types.rs:156-169 *)
Definition ccsds_name (t : msr_type) : string :=
  match t with
  | Range => "RANGE"
  | Doppler => "DOPPLER_INTEGRATED"
  | Azimuth => "ANGLE_1"
  | Elevation => "ANGLE_2"
  | ReceiveFrequency => "RECEIVE_FREQ"
  | TransmitFrequency => "TRANSMIT_FREQ"
  | TransmitFrequencyRate => "TRANSMIT_FREQ_RATE"
  | MX => "X"
  | MY => "Y"
  | MZ => "Z"
  end.

(** io_ccsds_tdm.rs:627-647: the keyword of a data line; anything else is an error. *)
Definition type_of_name (s : string) : option msr_type :=
  if String.eqb s "RANGE" then Some Range
  else if (String.eqb s "DOPPLER_INSTANTANEOUS" || String.eqb s "DOPPLER_INTEGRATED")%bool
  then Some Doppler
  else if String.eqb s "ANGLE_1" then Some Azimuth
  else if String.eqb s "ANGLE_2" then Some Elevation
  else if existsb (String.eqb s) ["RECEIVE_FREQ"; "RECEIVE_FREQ_1"; "RECEIVE_FREQ_2";
                                  "RECEIVE_FREQ_3"; "RECEIVE_FREQ_4"; "RECEIVE_FREQ_5"]
  then Some ReceiveFrequency
  else if existsb (String.eqb s) ["TRANSMIT_FREQ"; "TRANSMIT_FREQ_1"; "TRANSMIT_FREQ_2";
                                  "TRANSMIT_FREQ_3"; "TRANSMIT_FREQ_4"; "TRANSMIT_FREQ_5"]
  then Some TransmitFrequency
  else if existsb (String.eqb s) ["TRANSMIT_FREQ_RATE"; "TRANSMIT_FREQ_RATE_1";
                                  "TRANSMIT_FREQ_RATE_2"; "TRANSMIT_FREQ_RATE_3";
                                  "TRANSMIT_FREQ_RATE_4"; "TRANSMIT_FREQ_RATE_5"]
  then Some TransmitFrequencyRate
  else None.

(** [InputOutputError] *)
Inductive tdm_err :=
| MissingData            (* io_ccsds_tdm.rs:426 *)
| BadTimeScale           (* io_ccsds_tdm.rs:136 *)
| BadPath                (* io_ccsds_tdm.rs:145 *)
| BadKeyword (s : string) (* io_ccsds_tdm.rs:643 *)
| BadEpoch               (* io_ccsds_tdm.rs:656 *)
| BadFloat               (* io_ccsds_tdm.rs:663 *)
| EmptyDataset.          (* io_ccsds_tdm.rs:409 *)

(** [Option<HashMap<String, String>>]: the alias of a name, if any.
    io_ccsds_tdm.rs:125-129 and 540-548. *)
Definition aliases := option (list (string * string)).
Definition alias (al : aliases) (s : string) : string :=
  match al with
  | Some m => match im_get String.eqb s m with Some a => a | None => s end
  | None => s
  end.

(** [IndexMap::swap_remove]: the last entry takes the place of the removed one. *)
Fixpoint replace_key (t : msr_type) (e : msr_type * R) (d : data) : data :=
  match d with
  | [] => []
  | (k, v) :: d' => if type_eqb t k then e :: d' else (k, v) :: replace_key t e d'
  end.
Definition swap_remove (t : msr_type) (d : data) : data :=
  match get t d with
  | None => d
  | Some _ =>
      let e := last d (t, 0%R) in
      let front := removelast d in
      if type_eqb t (fst e) then front else replace_key t e front
  end.

(** [Measurement::correct], measurement.rs:53-59 *)
Fixpoint add_to (t : msr_type) (c : R) (d : data) : data :=
  match d with
  | [] => []
  | (k, v) :: d' => if type_eqb t k then (k, (v + c)%R) :: d' else (k, v) :: add_to t c d'
  end.
Definition with_obs (m : measurement) (d : data) : measurement :=
  {| tracker := tracker m; epoch := epoch m; obs := d; rejected := rejected m |}.
Definition correct (t : msr_type) (c : R) (m : measurement) : measurement :=
  with_obs m (add_to t c (obs m)).

(** anise's constant, in km/s. *)
Definition SPEED_OF_LIGHT : R := 299792.458%R.

(** [unique_aliases], trackingdata/mod.rs:341-362: the trackers in the order of first
    occurrence. *)
Definition unique_trackers (l : list measurement) : list string :=
  fold_left (fun acc m => if existsb (String.eqb (tracker m)) acc then acc
                          else List.app acc [tracker m]) l [].

Section Oracles.
(** hifitime: the time scales, their names, the calendar date of an epoch stored in a time
    scale, and the epoch of a calendar date in a time scale. *)
Context {scale : Type} (UTC : scale) (scale_of_str : string -> option scale).
Context (fmt_epoch : scale -> Z -> string) (parse_epoch : string -> scale -> option Z).
(** The Rust library: [{:.12}], [{:E}] and [str::parse]. *)
Context (fmt_fixed fmt_exp : R -> string) (parse_f64 : string -> option R)
        (parse_i32 : string -> option Z).
(** [sort_unstable_by] *)
Context (usort : list measurement -> list measurement).

(** * Export *)
(** [ExportCfg], io/mod.rs:58-72, what matters here. *)
Record export_cfg := {
  start_epoch : option Z; end_epoch : option Z;
  metadata : list (string * string)
}.

(** io_ccsds_tdm.rs:432-440 *)
Definition select (cfg : export_cfg) (l : list measurement) : list measurement :=
  match start_epoch cfg, end_epoch cfg with
  | Some s, Some e => filter_by_epoch (Included s, Excluded e) l
  | Some s, None => filter_by_epoch (Included s, Unbounded) l
  | None, Some e => filter_by_epoch (Unbounded, Excluded e) l
  | None, None => l
  end.

Definition tab (s : string) : string := String TAB s.

(** io_ccsds_tdm.rs:592-599.  The width of the epoch may or may not be honored by hifitime:
    the blanks do not matter. *)
Definition data_line (stored : scale) (multiplier : R) (e : Z) (kv : msr_type * R) : string :=
  tab (pad 20 (ccsds_name (fst kv)) ++ " = " ++ pad 23 (fmt_epoch stored e) ++ String TAB
       (fmt_fixed (snd kv * multiplier))).

(** io_ccsds_tdm.rs:586-601 *)
Definition data_lines (stored : scale) (multiplier : R) (types : list msr_type)
    (l : list measurement) : list string :=
  flat_map (fun m =>
    flat_map (fun kv => if existsb (type_eqb (fst kv)) types
                        then [data_line stored multiplier (epoch m) kv] else []) (obs m)) l.

(** io_ccsds_tdm.rs:514-603: the lines of one section.  All epochs of the arc are stored in
    one time scale here. *)
Definition section_lines (stored : scale) (al : aliases) (spacecraft : string)
    (meta : list (string * string)) (mods : option (list (msr_type * R))) (tracker : string)
    (first last_ : Z) (two_way : bool) (types : list msr_type) (l : list measurement)
    : list string :=
  (["META_START";
    tab "TIME_SYSTEM = UTC";
    tab ("START_TIME = " ++ fmt_epoch stored first);
    tab ("STOP_TIME = " ++ fmt_epoch stored last_);
    tab (if two_way then "PATH = 1,2,1" else "PATH = 1,2");
    tab ("PARTICIPANT_1 = " ++ alias al tracker);
    tab ("PARTICIPANT_2 = " ++ spacecraft);
    tab "MODE = SEQUENTIAL"] ++
   flat_map (fun kv => if String.eqb (fst kv) "originator" then []
                       else [tab (fst kv ++ " = " ++ snd kv)%string]) meta ++
   (if existsb (type_eqb Range) types
    then tab "RANGE_UNITS = km" ::
         match mods with
         | Some ms => match im_get type_eqb Range ms with
                      | Some x => [tab ("RANGE_MODULUS = " ++ fmt_exp x)]
                      | None => []
                      end
         | None => []
         end
    else []) ++
   (if (existsb (type_eqb Azimuth) types || existsb (type_eqb Elevation) types)%bool
    then [tab "ANGLE_TYPE = AZEL"] else []) ++
   ["META_STOP"; ""; "DATA_START"] ++
   data_lines stored (if two_way then 2%R else 1%R) types l ++
   ["DATA_STOP"; ""])%list.

(** io_ccsds_tdm.rs:495-605: both sections of one tracker. *)
Definition tracker_lines (stored : scale) (al : aliases) (spacecraft : string)
    (meta : list (string * string)) (mods : option (list (msr_type * R)))
    (l : list measurement) (tracker : string) : res tdm_err (list string) :=
  let td := filter_by_tracker tracker l in
  let types := unique_types td in
  match td with
  | [] => Panic (* [start_epoch().unwrap()], io_ccsds_tdm.rs:519 *)
  | m :: _ =>
      let section := section_lines stored al spacecraft meta mods tracker
                       (epoch m) (epoch (last td m)) in
      Ok (section true (filter may_be_two_way types) td ++
          section false (filter (fun t => negb (may_be_two_way t)) types) td)%list
  end.

Fixpoint all_trackers (one : string -> res tdm_err (list string)) (l : list string)
    : res tdm_err (list string) :=
  match l with
  | [] => Ok []
  | t :: l' => bind (one t) (fun x => bind (all_trackers one l') (fun y => Ok (x ++ y)%list))
  end.

(** [to_tdm_file], io_ccsds_tdm.rs:418-614.  [version] and [now] are the name of the program
    and the current date. *)
Definition to_tdm (version now : string) (stored : scale) (spacecraft : string) (al : aliases)
    (cfg : export_cfg) (a : arc) : res tdm_err string :=
  match measurements a with
  | [] => Err MissingData
  | _ =>
      let l := select cfg (measurements a) in
      let meta := metadata cfg in
      bind (all_trackers (tracker_lines stored al spacecraft meta (moduli a) l)
              (unique_trackers l)) (fun body =>
      Ok (concat_all (map ln
           (["CCSDS_TDM_VERS = 2.0"; "";
             ("COMMENT Build by " ++ version ++ " -- https://nyxspace.com")%string;
             "COMMENT Nyx Space provided under the AGPL v3 open source license -- https://nyxspace.com/pricing";
             "";
             ("CREATION_DATE = " ++ now)%string;
             ("ORIGINATOR = " ++ match im_get String.eqb "originator" meta with
                                 | Some o => o | None => "Nyx Space" end)%string;
             ""] ++ body ++ [""])%list)))
  end.

(** * Import *)
(** [parse_measurement_line], io_ccsds_tdm.rs:617-668 *)
Definition parse_line (line : string) (ts : scale)
    : res tdm_err (option (msr_type * Z * R)) :=
  match split EQS line with
  | [p0; p1] =>
      match type_of_name (trim p0) with
      | None => Err (BadKeyword (trim p0))
      | Some t =>
          match split_whitespace (trim p1) with
          | [e; v] =>
              match parse_epoch e ts with
              | None => Err BadEpoch
              | Some e' => match parse_f64 v with
                           | None => Err BadFloat
                           | Some v' => Ok (Some (t, e', v'))
                           end
              end
          | _ => Ok None
          end
      end
  | _ => Ok None
  end.

(** io_ccsds_tdm.rs:97-106.  [msrs] is last first. *)
Record reader := {
  in_data : bool; current : string; time_system : scale; has_freq : bool; divider : R;
  msrs : list measurement; meta : list (string * string)
}.
Definition start_reader : reader :=
  {| in_data := false; current := ""; time_system := UTC; has_freq := false; divider := 1;
     msrs := []; meta := [] |}.

(** io_ccsds_tdm.rs:168-174 *)
Definition is_freq (t : msr_type) : bool :=
  match t with
  | ReceiveFrequency | TransmitFrequency | TransmitFrequencyRate => true
  | _ => false
  end.

(** io_ccsds_tdm.rs:183-206 *)
Definition push_value (tr : string) (e : Z) (t : msr_type) (v : R) (l : list measurement)
    : list measurement :=
  let fresh := {| tracker := tr; epoch := e; obs := [(t, v)]; rejected := false |} in
  match l with
  | last :: l' =>
      if ((epoch last =? e) && String.eqb (tracker last) tr)%bool
      then with_obs last (im_insert type_eqb t v (obs last)) :: l'
      else fresh :: l
  | [] => [fresh]
  end.

(** io_ccsds_tdm.rs:122-152 *)
Definition read_meta (al : aliases) (r : reader) (line : string) : res tdm_err reader :=
  let value d := match split EQS line with _ :: v :: _ => trim v | _ => d end in
  if prefix "PARTICIPANT_1" line then
    Ok {| in_data := in_data r; current := alias al (value ""); time_system := time_system r;
          has_freq := has_freq r; divider := divider r; msrs := msrs r; meta := meta r |}
  else if prefix "TIME_SYSTEM" line then
    match scale_of_str (value "UTC") with
    | Some ts => Ok {| in_data := in_data r; current := current r; time_system := ts;
                       has_freq := has_freq r; divider := divider r; msrs := msrs r;
                       meta := meta r |}
    | None => Err BadTimeScale
    end
  else if prefix "PATH" line then
    let set d := Ok {| in_data := in_data r; current := current r;
                       time_system := time_system r; has_freq := has_freq r; divider := d;
                       msrs := msrs r; meta := meta r |} in
    match length (split COMMA line) with
    | 2%nat => set 1%R
    | 3%nat => set 2%R
    | _ => Err BadPath
    end
  else Ok r.

(** io_ccsds_tdm.rs:154-160 *)
Definition insert_meta (r : reader) (line : string) : reader :=
  match split EQS line with
  | k :: v :: _ =>
      {| in_data := in_data r; current := current r; time_system := time_system r;
         has_freq := has_freq r; divider := divider r; msrs := msrs r;
         meta := im_insert String.eqb (trim k) (trim v) (meta r) |}
  | _ => r
  end.

Definition set_in_data (r : reader) (b : bool) : reader :=
  {| in_data := b; current := current r; time_system := time_system r;
     has_freq := has_freq r; divider := divider r; msrs := msrs r; meta := meta r |}.

(** io_ccsds_tdm.rs:108-208, one line *)
Definition read_line (al : aliases) (r : reader) (raw : string) : res tdm_err reader :=
  let line := trim raw in
  if String.eqb line "DATA_START" then Ok (set_in_data r true)
  else
    let r := if String.eqb line "DATA_STOP" then set_in_data r false else r in
    if negb (in_data r) then
      bind (read_meta al r line) (fun r => Ok (insert_meta r line))
    else
      bind (parse_line line (time_system r)) (fun p =>
      match p with
      | None => Ok r
      | Some (t, e, v) =>
          let d := if is_freq t then 1%R else divider r in
          Ok {| in_data := in_data r; current := current r; time_system := time_system r;
                has_freq := (has_freq r || is_freq t)%bool; divider := divider r;
                msrs := push_value (current r) e t (v / d) (msrs r); meta := meta r |}
      end).

Fixpoint read_lines (al : aliases) (r : reader) (l : list string) : res tdm_err reader :=
  match l with
  | [] => Ok r
  | s :: l' => bind (read_line al r s) (fun r => read_lines al r l')
  end.

(** io_ccsds_tdm.rs:210-246: the turn-around ratio; without one frequency data is dropped.
    Over the reals: a zero denominator gives an infinity or a NaN in the code. *)
Definition turnaround (r : reader) : option R :=
  if has_freq r then
    match im_get String.eqb "TURNAROUND_NUMERATOR" (meta r),
          im_get String.eqb "TURNAROUND_DENOMINATOR" (meta r) with
    | Some n, Some d =>
        match parse_i32 n, parse_i32 d with
        | Some n, Some d => Some (IZR n / IZR d)%R
        | _, _ => None
        end
    | _, _ => None
    end
  else None.

(** io_ccsds_tdm.rs:248-259 *)
Definition corrections_applied (r : reader) : bool :=
  match im_get String.eqb "CORRECTIONS_APPLIED" (meta r) with
  | Some f => negb (String.eqb (to_lowercase (trim f)) "no")
  | None => true
  end.

(** io_ccsds_tdm.rs:277-297 *)
Definition apply_corrections (md : list (string * string)) (m : measurement) : measurement :=
  fold_left (fun m t =>
      match im_get String.eqb ("CORRECTION_" ++ ccsds_name t) md with
      | Some c => match parse_f64 c with Some x => correct t x m | None => m end
      | None => m
      end)
    [Range; Doppler; Azimuth; Elevation; ReceiveFrequency; TransmitFrequency;
     TransmitFrequencyRate] m.

(** io_ccsds_tdm.rs:263-266 and 300-302 *)
Definition drop_freqs (m : measurement) : measurement :=
  with_obs m (fold_left (fun d t => swap_remove t d)
                [ReceiveFrequency; TransmitFrequency; TransmitFrequencyRate] (obs m)).

(** [Duration::to_seconds] *)
Definition to_seconds (d : Z) : R := (IZR d / 1000000000)%R.

(** io_ccsds_tdm.rs:268-270 *)
Record carrier := { freq : option R; since : option Z; rate : R }.
Definition start_carrier : carrier := {| freq := None; since := None; rate := 0 |}.

(** io_ccsds_tdm.rs:306-323 *)
Definition update_carrier (c : carrier) (m : measurement) : carrier :=
  let c := match get TransmitFrequencyRate (obs m) with
           | Some r =>
               {| freq := match freq c, since c with
                          | Some f, Some e => Some (f + rate c * to_seconds (epoch m - e))%R
                          | f, _ => f
                          end;
                  since := Some (epoch m); rate := r |}
           | None => c
           end in
  match get TransmitFrequency (obs m) with
  | Some f => {| freq := Some f; since := Some (epoch m); rate := rate c |}
  | None => c
  end.

(** io_ccsds_tdm.rs:348-369, given a turn-around ratio *)
Definition convert_freq (ratio : R) (c : carrier) (m : measurement)
    : res tdm_err (carrier * measurement) :=
  let c := update_carrier c m in
  match get ReceiveFrequency (obs m), freq c with
  | Some fr, Some f =>
      match since c with
      | None => Panic (* [latest_transmit_epoch.unwrap()], io_ccsds_tdm.rs:348 *)
      | Some e =>
          let ft := (f + rate c * to_seconds (epoch m - e))%R in
          let shift := (ft * ratio - fr)%R in
          let rho_dot := (shift * SPEED_OF_LIGHT / (2 * ft * ratio))%R in
          let m' := drop_freqs m in
          Ok (c, with_obs m' (im_insert type_eqb Doppler rho_dot (obs m')))
      end
  | _, _ => Ok (c, drop_freqs m)
  end.

(** io_ccsds_tdm.rs:274-370, in the order of the file *)
Fixpoint process (corr : bool) (md : list (string * string)) (ratio : option R) (c : carrier)
    (l : list measurement) : res tdm_err (list measurement) :=
  match l with
  | [] => Ok []
  | m :: l' =>
      let m := if corr then m else apply_corrections md m in
      match ratio with
      | None => bind (process corr md ratio c l') (fun l'' => Ok (drop_freqs m :: l''))
      | Some q =>
          bind (convert_freq q c m) (fun cm =>
          bind (process corr md ratio (fst cm) l') (fun l'' => Ok (snd cm :: l'')))
      end
  end.

(** io_ccsds_tdm.rs:376-393 *)
Definition imported_moduli (md : list (string * string)) : option (list (msr_type * R)) :=
  match im_get String.eqb "RANGE_MODULUS" md with
  | Some s => match parse_f64 s with
              | Some x => if Rlt_dec 0 x then Some [(Range, x)] else None
              | None => None
              end
  | None => None
  end.

(** io_ccsds_tdm.rs:210-414: from the lines read to the arc. *)
Definition finish (r : reader) : res tdm_err arc :=
  bind (process (corrections_applied r) (meta r) (turnaround r) start_carrier (rev (msrs r)))
    (fun l =>
    let kept := filter (fun m => match obs m with [] => false | _ => true end) l in
    let trk := sort_measurements usort kept in
    match unique_types trk with
    | [] => Err EmptyDataset
    | _ => Ok {| measurements := trk; moduli := imported_moduli (meta r);
                 force_reject := false |}
    end).

(** [from_tdm], io_ccsds_tdm.rs:86-415 *)
Definition from_tdm (al : aliases) (file : string) : res tdm_err arc :=
  bind (read_lines al start_reader (lines file)) finish.
End Oracles.
