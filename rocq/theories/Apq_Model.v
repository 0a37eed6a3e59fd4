(** Model of tracking arcs in parquet files: nyx-core/src/od/msr/trackingdata/io_parquet.rs.
    The path, the log messages and the metadata of the file are not modelled: the metadata, among
    which the moduli, are not read (lines 44-46). *)
From Coq Require Import Reals String.
From Verif Require Import Base RustStd Arc_Model Pq_Model.
Local Open Scope string_scope.
Local Open Scope Z_scope.

(** io/mod.rs: the variants of [InputOutputError] that are returned here *)
Inductive io_error := EmptyDataset | MissingData (which : string) | Inconsistency | ArrowError.

(** types.rs:34-57, the derived [Debug]; 60-71 [unit]; 89-99 [to_field] *)
Definition debug_name (t : msr_type) : string :=
  match t with
  | Range => "Range" | Doppler => "Doppler" | Azimuth => "Azimuth" | Elevation => "Elevation"
  | ReceiveFrequency => "ReceiveFrequency" | TransmitFrequency => "TransmitFrequency"
  | TransmitFrequencyRate => "TransmitFrequencyRate" | MX => "X" | MY => "Y" | MZ => "Z"
  end.
Definition unit_of (t : msr_type) : string :=
  match t with
  | Range => "km" | Doppler => "km/s" | Azimuth | Elevation => "deg"
  | ReceiveFrequency | TransmitFrequency => "Hz" | TransmitFrequencyRate => "Hz/s"
  | MX | MY | MZ => "km"
  end.
Definition column_name (t : msr_type) : string := debug_name t ++ " (" ++ unit_of t ++ ")".
Definition to_field (t : msr_type) : field :=
  {| f_name := column_name t; f_type := Float64; f_nullable := true; f_meta := [("unit", unit_of t)] |}.

(** io/mod.rs:45-58: the part of [ExportCfg] that is used *)
Record export_cfg := { start_epoch : option Z; end_epoch : option Z; step : option Z }.
Definition default_cfg : export_cfg := {| start_epoch := None; end_epoch := None; step := None |}.

Section Parquet.
(** hifitime: [to_time_scale(UTC)] then [to_isoformat], and [Epoch::from_gregorian_str] *)
Context (show : Z -> string) (parse : string -> option Z).
(** arrow: what the buffer of a column of numbers holds where it is null *)
Context (null_slot : R).

(** io_parquet.rs:270-284 *)
Definition selected (cfg : export_cfg) (first : measurement) (l : list measurement) : list measurement :=
  match start_epoch cfg, end_epoch cfg, step cfg with
  | None, None, None => l
  | s, e, _ =>
      let start := match s with Some t => t | None => epoch first end in
      let stop := match e with Some t => t | None => epoch (last l first) end in
      filter_by_epoch (Included start, Excluded stop) l
  end.

(** io_parquet.rs:227-353 [to_parquet] *)
Definition to_parquet (cfg : export_cfg) (a : arc) : res io_error table :=
  match measurements a with
  | [] => Err EmptyDataset
  | first :: _ =>
      let types := unique_types (measurements a) in
      let hdrs := plain "Epoch (UTC)" Utf8 false :: plain "Tracking device" Utf8 false
                  :: map to_field types in
      let l := selected cfg first (measurements a) in
      let cols := Text (map (fun m => Some (show (epoch m))) l)
                  :: Text (map (fun m => Some (tracker m)) l)
                  :: map (fun t => Floats (map (fun m => get t (obs m)) l)) types in
      match record_batch hdrs cols with Some t => Ok t | None => Err ArrowError end
  end.

(** io_parquet.rs:100-158: a column, after [unwrap] of its downcast *)
Definition texts (name : string) (t : table) : res io_error (list (option string)) :=
  match column_by_name name t with Some (Text l) => Ok l | _ => Panic end.
Definition floats (t : table) (k : msr_type) : res io_error (option (list (option R))) :=
  if has_field (column_name k) t then
    match column_by_name (column_name k) t with Some (Floats l) => Ok (Some l) | _ => Panic end
  else Ok None.

(** io_parquet.rs:176-199 *)
Definition insert_at (i : nat) (k : msr_type) (c : option (list (option R))) (d : data) : data :=
  match c with Some l => im_insert type_eqb k (float_at null_slot l i) d | None => d end.

(** io_parquet.rs:47-216 [from_parquet]; the names of the columns that are read are in 63-73 *)
Definition from_parquet (t : table) : res io_error arc :=
  if negb (has_field "Epoch (UTC)" t) then Err (MissingData "Epoch (UTC)")
  else if negb (has_field "Tracking device" t) then Err (MissingData "Tracking device")
  else if negb (has_field "Range (km)" t || has_field "Doppler (km/s)" t
                || has_field "Azimuth (deg)" t || has_field "Elevation (deg)" t)
  then Err (MissingData "`Range (km)` or `Doppler (km/s)` or `Azimuth (deg)` or `Elevation (deg)`")
  else
    bind (texts "Tracking device" t) (fun devices =>
    bind (texts "Epoch (UTC)" t) (fun epochs =>
    bind (floats t Range) (fun range =>
    bind (floats t Doppler) (fun doppler =>
    bind (floats t Azimuth) (fun azimuth =>
    bind (floats t Elevation) (fun elevation =>
    bind (traverse (fun i =>
            match parse (text_at epochs i) with
            | None => Err Inconsistency
            | Some e =>
                Ok {| tracker := text_at devices i; epoch := e;
                      obs := insert_at i Elevation elevation (insert_at i Azimuth azimuth
                               (insert_at i Doppler doppler (insert_at i Range range [])));
                      rejected := false |}
            end) (seq 0 (num_rows t)))
      (fun l => Ok {| measurements := l; moduli := None; force_reject := false |}))))))).
End Parquet.
