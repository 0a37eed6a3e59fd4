(** Model of nyx-core/src/md/trajectory/sc_traj.rs:133-156, [to_groundtrack_parquet]: the trajectory in
    the body fixed frame (Traj_Model), a state per minute, and the file of Tpq_Model.  Not modelled: the
    metadata, the path, the [unwrap] of a log message when there is no state to write. *)
From Coq Require Import Reals String.
From Verif Require Import Base RustStd Vec3 Angles Sc_Model Traj_Model Pq_Model Tpq_Model.
Local Open Scope Z_scope.

Inductive track_error := TrackFrame (e : traj_error) | TrackFile (e : io_error).
Definition in_track {E A} (f : E -> track_error) (x : res E A) : res track_error A :=
  match x with Ok a => Ok a | Err e => Err (f e) | Panic => Panic | NoFuel => NoFuel end.

(** anise: elements without a number of their own in Sc_Model *)
Definition Latitude : element := OtherElement 5.
Definition Longitude : element := OtherElement 6.
Definition Height : element := OtherElement 7.
(** sc_traj.rs:145-151 *)
Definition track_fields : list parameter := [Element Latitude; Element Longitude; Element Height; Element Rmag].
Definition one_minute : Z := 60000000000.

Section Track.
Context (ops : state_ops spacecraft nat).
(** The arguments of Tpq_Model. *)
Context (evaluate : element -> orbit -> option R) (bplane : orbit -> option (R * R * R)) (dcm_to_inertial : nat -> orbit -> option m3)
        (element_name : element -> string) (frame_name : nat -> string) (show : Z -> string) (show_frame : nat -> string).
(** anise: [transform_to] the body fixed frame, then [with_orbit] *)
Context (transform : spacecraft -> res unit spacecraft).

(** sc_traj.rs:136-156 [to_groundtrack_parquet], with traj.rs:238-242 *)
Definition to_groundtrack_parquet (fuel : nat) (states : list spacecraft) : res track_error table :=
  bind (in_track TrackFrame (to_frame ops transform states)) (fun own =>
  match first own, last_state own with
  | Some a, Some z =>
      bind (in_track TrackFrame (every_between ops fuel own one_minute (st_epoch ops a) (st_epoch ops z))) (fun rows =>
      in_track TrackFile (to_parquet evaluate bplane dcm_to_inertial element_name frame_name show show_frame track_fields own rows))
  | _, _ => Panic
  end).
End Track.
