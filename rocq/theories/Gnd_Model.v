(** Model of ground assets: nyx-core/src/od/groundpnt/mod.rs, ground_dynamics.rs, sensitivity.rs and
    trk_device.rs.  Reals in place of f64.  Not modelled: [Display], [interpolate] (the Hermite
    interpolation is anise's), [location] and the parquet export of solution.rs. *)
From Coq Require Import String Reals.
From Verif Require Import Base Vec3 Angles Dual Arc_Model Sens_Model.
From Verif Require Import Prop_Model.
Local Open Scope R_scope.

(** anise's [Frame]: an identifier and the shape, of equatorial and polar radii. *)
Record gframe := { frame_id : Z; shape : option (R * R) }.

(** mod.rs:44-60; the STM is its 36 entries by columns. *)
Record asset := {
  lat_deg : R; lon_deg : R; height_km : R; lat_rate : R; lon_rate : R; height_rate : R;
  asset_epoch : Z; asset_frame : gframe; asset_stm : option (nat -> R)
}.

Inductive gnd_error := MissingFrameData | OutOfTrajectory | AlmanacFails | UnsupportedType (t : msr_type)
  | NoNoise.

(** [Frame::mean_equatorial_radius_km] then the polar radius of its shape *)
Definition radii (f : gframe) : res gnd_error (R * R) :=
  match shape f with Some ab => Ok ab | None => Err MissingFrameData end.

(** mod.rs:63-78 with [Default] (229-243) *)
Definition from_fixed (lat lon h : R) (t : Z) (f : gframe) : asset :=
  {| lat_deg := lat; lon_deg := lon; height_km := h; lat_rate := 0; lon_rate := 0; height_rate := 0;
     asset_epoch := t; asset_frame := f; asset_stm := None |}.

(** [f64::to_radians] and [to_degrees] *)
Definition to_radians (x : R) : R := x * (PI / 180).
Definition to_degrees (x : R) : R := x * (180 / PI).

(** * State: mod.rs:279-384 *)

(** mod.rs:284-303 *)
Definition to_vector42 (s : asset) (i : nat) : R :=
  match i with
  | 0%nat => lat_deg s | 1%nat => lon_deg s | 2%nat => height_km s
  | 3%nat => lat_rate s | 4%nat => lon_rate s | 5%nat => height_rate s
  | S (S (S (S (S (S k))))) => match asset_stm s with
                               | Some m => if (k <? 36)%nat then m k else 0
                               | None => 0
                               end
  end.
(** mod.rs:326-348 *)
Definition set42 (s : asset) (t : Z) (v : nat -> R) : asset :=
  {| lat_deg := v 0%nat; lon_deg := v 1%nat; height_km := v 2%nat;
     lat_rate := v 3%nat; lon_rate := v 4%nat; height_rate := v 5%nat;
     asset_epoch := t; asset_frame := asset_frame s;
     asset_stm := match asset_stm s with Some _ => Some (fun k => v (6 + k)%nat) | None => None end |}.
(** mod.rs:350-368: entry [i + 6 j] of the columns is row [i] and column [j]. *)
Definition identity36 (k : nat) : R :=
  if (k <? 36)%nat then (if (k mod 6 =? k / 6)%nat then 1 else 0) else 0.
Definition reset_stm (s : asset) : asset :=
  {| lat_deg := lat_deg s; lon_deg := lon_deg s; height_km := height_km s; lat_rate := lat_rate s;
     lon_rate := lon_rate s; height_rate := height_rate s; asset_epoch := asset_epoch s;
     asset_frame := asset_frame s; asset_stm := Some identity36 |}.
(** mod.rs:455-471 *)
Definition add6 (s : asset) (v : nat -> R) : asset :=
  {| lat_deg := lat_deg s + v 0%nat; lon_deg := lon_deg s + v 1%nat; height_km := height_km s + v 2%nat;
     lat_rate := lat_rate s + v 3%nat; lon_rate := lon_rate s + v 4%nat;
     height_rate := height_rate s + v 5%nat; asset_epoch := asset_epoch s;
     asset_frame := asset_frame s; asset_stm := asset_stm s |}.

(** * Dynamics: ground_dynamics.rs *)

(** ground_dynamics.rs:32-58: neither the time nor the vector is read; the STM has a zero
    derivative. *)
Definition ground_eom (s : asset) (i : nat) : R :=
  match i with 0%nat => lat_rate s | 1%nat => lon_rate s | 2%nat => height_rate s | _ => 0 end.
(** ground_dynamics.rs:60-101 *)
Definition ground_grad (i j : nat) : R :=
  match i, j with 0%nat, 3%nat => 1 | 1%nat, 4%nat => 1 | 2%nat, 5%nat => 1 | _, _ => 0 end.

(** The propagator of an asset: [finally] is the default of dynamics/mod.rs:131-137 and
    [set_orbit] that of cosmic/mod.rs:132, which does nothing, so a change of frame that succeeds
    leaves the asset as it is. *)
Definition ground_env (m : method) (o : options gframe) (est : (nat -> R) -> (nat -> R) -> (nat -> R) -> R)
    (secs : R -> Z) (same : gframe -> gframe -> bool) (nan : (nat -> R) -> bool)
    (transforms : asset -> gframe -> bool) : env asset (nat -> R) gframe gnd_error :=
  {| epoch := asset_epoch; set_state := set42; to_vector := to_vector42; finally := fun s => Ok s;
     eom := fun _ _ s => Ok (ground_eom s);
     Prop_Model.vadd := fun a b i => a i + b i; Prop_Model.vscale := fun k a i => k * a i;
     Prop_Model.vzero := fun _ => 0; has_nan := nan; estimate := est; frame_of := asset_frame;
     frame_eqb := same;
     enter_frame := fun s f => if transforms s f then Ok s else Err AlmanacFails;
     leave_frame := fun s f => if transforms s f then Ok s else Err AlmanacFails;
     of_secs := secs; nan_error := AlmanacFails; meth := m; opts := o |}.

(** * Geodesy *)

Definition dsin (a : dual) : dual := Dual (sin (re a)) (fun j => cos (re a) * du a j).
Definition dcos (a : dual) : dual := Dual (cos (re a)) (fun j => - sin (re a) * du a j).
Definition dneg (a : dual) : dual := Dual (- re a) (fun j => - du a j).
(** product by an f64 *)
Definition dscal (a : dual) (k : R) : dual := Dual (re a * k) (fun j => du a j * k).

(** mod.rs:153-203: the six dual numbers of the Cartesian state *)
Definition geodetic_duals (a e2 : R) (s : asset) : list dual :=
  let lat := dscal (dvar 0 (lat_deg s)) (PI / 180) in
  let lon := dscal (dvar 1 (lon_deg s)) (PI / 180) in
  let alt := dvar 2 (height_km s) in
  let latr := dscal (dvar 3 (lat_rate s)) (PI / 180) in
  let lonr := dscal (dvar 4 (lon_rate s)) (PI / 180) in
  let altr := dvar 5 (height_rate s) in
  let sin_lat := dsin lat in let cos_lat := dcos lat in
  let sin_lon := dsin lon in let cos_lon := dcos lon in
  let one := dconst 1 in let e2d := dconst e2 in
  let w := dsub one (dmul (dmul e2d sin_lat) sin_lat) in
  let n := ddiv (dconst a) (dsqrt w) in
  let x := dmul (dmul (dadd n alt) cos_lat) cos_lon in
  let y := dmul (dmul (dadd n alt) cos_lat) sin_lon in
  let z := dmul (dadd (dmul n (dconst (1 - e2))) alt) sin_lat in
  let term1 := ddiv (dmul n (dconst (1 - e2))) w in
  let dx_dlat := dmul (dmul (dneg (dadd term1 alt)) sin_lat) cos_lon in
  let dy_dlat := dmul (dmul (dneg (dadd term1 alt)) sin_lat) sin_lon in
  let dz_dlat := dadd (dmul term1 cos_lat) (dmul alt cos_lat) in
  let dx_dlon := dmul (dmul (dneg (dadd n alt)) cos_lat) sin_lon in
  let dy_dlon := dmul (dmul (dadd n alt) cos_lat) cos_lon in
  let dz_dlon := dconst 0 in
  let dx_dalt := dmul cos_lat cos_lon in
  let dy_dalt := dmul cos_lat sin_lon in
  let dz_dalt := sin_lat in
  [x; y; z;
   dadd (dadd (dmul dx_dlat latr) (dmul dx_dlon lonr)) (dmul dx_dalt altr);
   dadd (dadd (dmul dy_dlat latr) (dmul dy_dlon lonr)) (dmul dy_dalt altr);
   dadd (dadd (dmul dz_dlat latr) (dmul dz_dlon lonr)) (dmul dz_dalt altr)].

(** mod.rs:128-216: entry [i], [j] of the Jacobian. *)
Definition jacobian (s : asset) : res gnd_error (nat -> nat -> R) :=
  bind (radii (asset_frame s)) (fun '(a, b) =>
  let e2 := (a * a - b * b) / (a * a) in
  Ok (fun i j => du (nth i (geodetic_duals a e2 s) (dconst 0)) (S j))).

(** mod.rs:218-241 *)
Definition great_circle_distance_km (s o : asset) : res gnd_error R :=
  let lat1 := to_radians (lat_deg s) in let lon1 := to_radians (lon_deg s) in
  let lat2 := to_radians (lat_deg o) in let lon2 := to_radians (lon_deg o) in
  let dlat := lat2 - lat1 in let dlon := lon2 - lon1 in
  let a := sin (dlat / 2) ^ 2 + cos lat1 * cos lat2 * sin (dlon / 2) ^ 2 in
  let c := 2 * atan2 (sqrt a) (sqrt (1 - a)) in
  bind (radii (asset_frame s)) (fun '(radius, _) => Ok (radius * c)).

(** anise's [Orbit]: position, velocity, epoch and frame.  Oracles: [try_latlongalt], which fails
    without a shape, and [latlongalt]. *)
Record orbit := { o_pos : v3; o_vel : v3; o_epoch : Z; o_frame : gframe }.

Section Oracles.
Context (try_latlongalt : R -> R -> R -> Z -> gframe -> res gnd_error orbit)
        (latlongalt : orbit -> res gnd_error (R * R * R)).

(** [powf(1.5)] of a positive number *)
Definition powf_3_2 (x : R) : R := Rpower x (3 / 2).

(** mod.rs:473-514 *)
Definition latlongalt_rate (o : orbit) (v : v3) : res gnd_error (R * R * R) :=
  bind (latlongalt o) (fun '(lat, _, alt) =>
  let lat_rad := to_radians lat in
  bind (radii (o_frame o)) (fun '(a, b) =>
  let e2 := (a ^ 2 - b ^ 2) / a ^ 2 in
  let n := a / sqrt (1 - e2 * sin lat_rad ^ 2) in
  let m := a * (1 - e2) / powf_3_2 (1 - e2 * sin lat_rad ^ 2) in
  let lat_rate_rad := - vx v / (m + alt) in
  let lon_rate_rad := if Rlt_dec (1 / 10000000000) (Rabs (cos lat_rad))
                      then vy v / ((n + alt) * cos lat_rad) else 0 in
  Ok (to_degrees lat_rate_rad, to_degrees lon_rate_rad, vz v))).

(** mod.rs:516-547 *)
Definition velocity_sez_from_rates (o : orbit) (latr lonr altr : R) : res gnd_error v3 :=
  bind (latlongalt o) (fun '(lat, _, alt) =>
  let lat_rad := to_radians lat in
  bind (radii (o_frame o)) (fun '(a, b) =>
  let e2 := (a ^ 2 - b ^ 2) / a ^ 2 in
  let m := a * (1 - e2) / powf_3_2 (1 - e2 * sin lat_rad ^ 2) in
  let n := a / sqrt (1 - e2 * sin lat_rad ^ 2) in
  Ok (V3 (- to_radians latr * (m + alt)) (to_radians lonr * (n + alt) * cos lat_rad) altr))).

(** mod.rs:305-314, a panic if the frame does not allow it *)
Definition orbit_of (s : asset) : res gnd_error orbit :=
  match try_latlongalt (lat_deg s) (lon_deg s) (height_km s) (asset_epoch s) (asset_frame s) with
  | Ok o => Ok o
  | _ => Panic
  end.

(** mod.rs:80-96 *)
Definition with_velocity_sez_m_s (s : asset) (vs ve vz : R) : res gnd_error asset :=
  bind (orbit_of s) (fun o =>
  bind (latlongalt_rate o (V3 (vs / 1000) (ve / 1000) (vz / 1000))) (fun '(a, b, c) =>
  Ok {| lat_deg := lat_deg s; lon_deg := lon_deg s; height_km := height_km s; lat_rate := a;
        lon_rate := b; height_rate := c; asset_epoch := asset_epoch s;
        asset_frame := asset_frame s; asset_stm := asset_stm s |})).

(** mod.rs:108-126 *)
Definition velocity_sez_m_s (s : asset) : res gnd_error v3 :=
  bind (try_latlongalt (lat_deg s) (lon_deg s) (height_km s) (asset_epoch s) (asset_frame s)) (fun o =>
  bind (velocity_sez_from_rates o (lat_rate s) (lon_rate s) (height_rate s)) (fun v =>
  Ok (Vec3.vscale 1000 v))).

(** * Measurements: trk_device.rs and sensitivity.rs *)

(** The transmitter: [self.traj.at(epoch)] and, from anise, the azimuth, elevation, range and range
    rate of an orbit seen from the location of an asset, which has no velocity. *)
Context (tx_at : Z -> option orbit) (look : orbit -> R -> R -> R -> gframe -> res gnd_error aer).

Definition dot6 (row : list R) (m : nat -> nat -> R) (j : nat) : R :=
  fold_right Rplus 0 (map (fun i => nth i row 0 * m i j) (seq 0 6)).
Definition times_jacobian (row : list R) (m : nat -> nat -> R) : list R :=
  map (dot6 row m) (seq 0 6).

(** sensitivity.rs:75-165 *)
Definition ground_row (d : data) (rx : asset) (t : msr_type) : res gnd_error (list R) :=
  bind (orbit_of rx) (fun receiver =>
  match tx_at (o_epoch receiver) with
  | None => Err OutOfTrajectory
  | Some transmitter =>
      bind (jacobian rx) (fun jac =>
      let delta_r := vsub (o_pos receiver) (o_pos transmitter) in
      let delta_v := vsub (o_vel receiver) (o_vel transmitter) in
      match t with
      | Doppler =>
          bind (match get Range d with
                | Some rho => Ok rho
                | None => bind (look transmitter (lat_deg rx) (lon_deg rx) (height_km rx) (asset_frame rx))
                               (fun a => Ok (range_km a))
                end) (fun rho =>
          match get Doppler d with
          | None => Panic
          | Some rho_dot =>
              Ok (times_jacobian
                [vx delta_v / rho - rho_dot * vx delta_r / rho ^ 2;
                 vy delta_v / rho - rho_dot * vy delta_r / rho ^ 2;
                 vz delta_v / rho - rho_dot * vz delta_r / rho ^ 2;
                 vx delta_r / rho; vy delta_r / rho; vz delta_r / rho] jac)
          end)
      | Range =>
          match get Range d with
          | None => Panic
          | Some rho => Ok (times_jacobian [vx delta_r / rho; vy delta_r / rho; vz delta_r / rho; 0; 0; 0] jac)
          end
      | _ => Err (UnsupportedType t)
      end)
  end).

(** sensitivity.rs:40-66 [h_tilde], for six parameters: from the identity. *)
Definition ground_identity (m : nat) : list (list R) :=
  map (fun i => map (fun j => if Nat.eqb i j then 1 else 0) (seq 0 6)) (seq 0 m).
Definition ground_h_tilde (m : nat) (d : data) (types : list msr_type) (rx : asset) : res gnd_error (list (list R)) :=
  h_rows (ground_row d rx) (fun t => match get t d with Some _ => true | None => false end) 0 types (ground_identity m).

(** What a measurement holds, with the name of its tracker. *)
Record gmsr := { m_tracker : string; m_epoch : Z; m_data : data }.

(** trk_device.rs:157-163: [None] is the unreachable. *)
Definition ground_value (t : msr_type) (a : aer) : option R :=
  match t with Range => Some (range_km a) | Doppler => Some (rate_km_s a) | _ => None end.
Fixpoint ground_data (types : list msr_type) (a : aer) (noises : list R) : res gnd_error data :=
  match types, noises with
  | [], _ => Ok []
  | t :: types', w :: noises' =>
      match ground_value t a with
      | None => Panic
      | Some x => bind (ground_data types' a noises') (fun d => Ok ((t, x + w) :: d))
      end
  | _, [] => Panic
  end.
(** trk_device.rs:124-170, given the noises (that on the time tag first, in nanoseconds) *)
Definition measure_instantaneous (types : list msr_type) (stamp : Z) (noises : list R) (rx : asset)
    : res gnd_error (option gmsr) :=
  match tx_at (asset_epoch rx) with
  | None => Err OutOfTrajectory
  | Some tx =>
      bind (look tx (lat_deg rx) (lon_deg rx) (height_km rx) (asset_frame rx)) (fun a =>
      if Rlt_dec (el_deg a) 0 then Ok None
      else bind (ground_data types a noises) (fun d =>
           Ok (Some {| m_tracker := "GroundAsset"%string; m_epoch := (asset_epoch rx + stamp)%Z;
                       m_data := d |})))
  end.

(** trk_device.rs:56-122: the asset at the start and the end of the integration time, if both are in
    its trajectory; the values at both ends have no noise. *)
Fixpoint averaged_data (types : list msr_type) (d0 d1 : data) (noises : list R) : res gnd_error data :=
  match types, noises with
  | [], _ => Ok []
  | t :: types', w :: noises' =>
      match get t d0, get t d1 with
      | Some x0, Some x1 =>
          bind (averaged_data types' d0 d1 noises') (fun d =>
          Ok ((t, (x1 + x0) * (1 / 2) + w / sqrt 2) :: d))
      | _, _ => Panic
      end
  | _, [] => Panic
  end.
Definition measure_averaged (types : list msr_type) (epoch stamp : Z) (noises : list R)
    (ends : option (asset * asset)) : res gnd_error (option gmsr) :=
  match ends with
  | None => Ok None
  | Some (rx0, rx1) =>
      let zeros := map (fun _ => 0) types in
      bind (measure_instantaneous types 0 zeros rx0) (fun m0 =>
      bind (measure_instantaneous types 0 zeros rx1) (fun m1 =>
      match m0, m1 with
      | Some m0, Some m1 =>
          bind (averaged_data types (m_data m0) (m_data m1) noises) (fun d =>
          Ok (Some {| m_tracker := "GroundAsset"%string; m_epoch := (epoch + stamp)%Z; m_data := d |}))
      | _, _ => Ok None
      end))
  end.
End Oracles.

(** trk_device.rs:37-39 *)
Definition device_name (traj_name : option string) : string :=
  match traj_name with Some n => n | None => "unnamed"%string end.
