(** Model of the exchange of orbits with other formats: [from_bsp], [to_ephemeris] and [from_oem_file]
    of nyx-core/src/md/trajectory/sc_traj.rs, and [to_ephemeris] of
    nyx-core/src/od/process/solution/export.rs.

    anise: an [Ephemeris] keeps its records in a map ordered by epoch, a record replacing the previous one
    of its epoch.  The text of CCSDS OEM files and the SPK files are not modelled: what is read from a file
    is an ephemeris, a domain and an orbit for each epoch, or a failure.  Not modelled either: the log
    messages; [to_groundtrack_parquet] is in Gtk_Model. *)
From Coq Require Import Reals String.
From Verif Require Import Base RustStd Sc_Model Traj_Model Spq_Model.
Local Open Scope Z_scope.

(** ** anise: [Ephemeris], [EphemerisRecord] and [Covariance] (the local frame is always the inertial one) *)
Record eph_record := { er_orbit : orbit; er_covar : option (nat -> nat -> R) }.
Record ephemeris := { object_id : string; records : list eph_record }.
Definition er_epoch (r : eph_record) : Z := Sc_Model.epoch (er_orbit r).
(** anise: [insert] *)
Fixpoint eph_insert (l : list eph_record) (r : eph_record) : list eph_record :=
  match l with
  | [] => [r]
  | x :: l' => if er_epoch r <? er_epoch x then r :: l
               else if er_epoch r =? er_epoch x then r :: l'
               else x :: eph_insert l' r
  end.
(** anise: [insert_orbit] *)
Definition of_orbit (o : orbit) : eph_record := {| er_orbit := o; er_covar := None |}.

(** traj.rs:48-55 [Traj] *)
Record traj := { t_name : option string; t_states : list spacecraft }.
(** io/mod.rs:58-72 [ExportCfg], what matters here *)
Record eph_cfg := { cfg_start : option Z; cfg_end : option Z; cfg_step : option Z }.
Definition MINUTE : Z := 60000000000.

Section Exchange.
Context (ops : state_ops spacecraft nat).

(** [unwrap_or_else]; [first] and [last] panic without states *)
Definition epoch_or (given : option Z) (s : option spacecraft) : res traj_error Z :=
  match given, s with
  | Some e, _ => Ok e
  | None, Some s => Ok (st_epoch ops s)
  | None, None => Panic
  end.

(** sc_traj.rs:158-177 [to_ephemeris] *)
Definition to_ephemeris (fuel : nat) (id : string) (cfg : eph_cfg) (t : traj) : res traj_error ephemeris :=
  bind (match cfg_start cfg, cfg_end cfg, cfg_step cfg with
        | None, None, None => Ok (t_states t)
        | _, _, _ =>
            bind (epoch_or (cfg_start cfg) (first (t_states t))) (fun start =>
            bind (epoch_or (cfg_end cfg) (last_state (t_states t))) (fun stop =>
            every_between ops fuel (t_states t) (match cfg_step cfg with Some s => s | None => MINUTE end) start stop))
        end) (fun states =>
  Ok {| object_id := id; records := fold_left (fun l s => eph_insert l (of_orbit (sc_orbit s))) states [] |}).

(** sc_traj.rs:183-200 [from_oem_file], of the ephemeris read *)
Definition from_oem (default : spacecraft) (template : option spacecraft) (e : ephemeris) : traj :=
  let tpl := match template with Some s => s | None => default end in
  {| t_name := Some (object_id e); t_states := map (fun r => with_orbit tpl (er_orbit r)) (records e) |}.

(** sc_traj.rs:56-87 [from_bsp]: the domain in the almanac, and the orbit at an epoch *)
Inductive bsp_error := NoDomain | NoOrbit (epoch : Z).
Context (domain : option (Z * Z)) (orbit_at : Z -> option orbit).
Fixpoint bsp_states (fuel : nat) (template : spacecraft) (ts : time_series) : res bsp_error (list spacecraft) :=
  match fuel with
  | O => NoFuel
  | S fuel' =>
      match ts_next ts with
      | None => Ok []
      | Some (e, ts') =>
          match orbit_at e with
          | None => Err (NoOrbit e)
          | Some o => bind (bsp_states fuel' template ts') (fun l => Ok (with_orbit template o :: l))
          end
      end
  end.
Definition from_bsp (fuel : nat) (template : spacecraft) (step : Z) (start stop : option Z) (name : option string)
  : res bsp_error traj :=
  match domain with
  | None => Err NoDomain
  | Some (d0, d1) =>
      let start := match start with Some e => e | None => d0 end in
      let stop := match stop with Some e => e | None => d1 end in
      bind (bsp_states fuel template (ts_inclusive start stop step)) (fun l => Ok {| t_name := name; t_states := l |})
  end.
End Exchange.

(** export.rs:671-688 [to_ephemeris] of a solution; od/estimate/mod.rs:105-108 [orbital_state] *)
Definition of_estimate (e : estimate) : eph_record :=
  {| er_orbit := sc_orbit (state e); er_covar := Some (fun i j => if ((i <? 6) && (j <? 6))%nat then covar e i j else 0%R) |}.
Definition solution_ephemeris (id : string) (l : list estimate) : ephemeris :=
  {| object_id := id; records := fold_left (fun acc e => eph_insert acc (of_estimate e)) l [] |}.
