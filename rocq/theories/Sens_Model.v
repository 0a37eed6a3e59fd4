(** Model of the observables of tracking devices and of their sensitivities:
    nyx-core/src/od/msr/types.rs, od/msr/sensitivity.rs, od/interlink/sensitivity.rs,
    od/interlink/trk_device.rs and od/simulator/trackdata.rs.

    Numbers are reals.  The positions and velocities of device and receiver in a common frame,
    and the azimuth, elevation, range and range rate of the receiver, come from anise and are
    arguments here. *)
From Coq Require Import Reals.
From Verif Require Import Base Arc_Model Vec3.
Local Open Scope R_scope.

Inductive sens_error := Unsupported (t : msr_type) | Missing (t : msr_type) | NotConfigured (t : msr_type).

(** * The sensitivity matrix, over any type of numbers *)
Section Matrix.
Context {A : Type} (zero one : A) {De : Type}.
(** [Spacecraft::Size]: position, velocity, Cr, Cd, propellant mass. *)
Definition SIZE : nat := 9.

(** [OMatrix::identity], a row. *)
Definition identity_row (i : nat) : list A :=
  map (fun j => if Nat.eqb i j then one else zero) (seq 0 SIZE).
Definition identity_matrix (m : nat) : list (list A) := map identity_row (seq 0 m).

(** [set_row], which panics when there is no such row. *)
Fixpoint set_row (i : nat) (row : list A) (mat : list (list A)) : option (list (list A)) :=
  match mat, i with
  | [], _ => None
  | _ :: mat', O => Some (row :: mat')
  | r :: mat', S i' => option_map (cons r) (set_row i' row mat')
  end.

(** msr/sensitivity.rs:99-114 and interlink/sensitivity.rs:61-76, from row [i] on.  [row] is
    [ScalarSensitivity::new], [available] is [msr.data.contains_key]. *)
Fixpoint h_rows (row : msr_type -> res De (list A)) (available : msr_type -> bool) (i : nat)
    (types : list msr_type) (mat : list (list A)) : res De (list (list A)) :=
  match types with
  | [] => Ok mat
  | t :: types' =>
      if available t then
        bind (row t) (fun r =>
        match set_row i r mat with
        | Some mat' => h_rows row available (S i) types' mat'
        | None => Panic
        end)
      else h_rows row available (S i) types' mat
  end.
Definition h_tilde (m : nat) (row : msr_type -> res De (list A)) (available : msr_type -> bool)
    (types : list msr_type) : res De (list (list A)) :=
  h_rows row available 0 types (identity_matrix m).

(** [measurement_covar_matrix] (its diagonal) and [measurement_bias_vector],
    simulator/trackdata.rs:84-102 and 104-122. *)
Fixpoint fill (value : msr_type -> res De A) (known : msr_type -> bool) (m : nat)
    (types : list msr_type) : res De (list A) :=
  match types, m with
  | [], _ => Ok (repeat zero m)
  | t :: types', O => if known t then Panic else fill value known O types'
  | t :: types', S m' =>
      bind (if known t then value t else Ok zero) (fun v =>
      bind (fill value known m' types') (fun l => Ok (v :: l)))
  end.
End Matrix.

Definition available (d : data) (t : msr_type) : bool :=
  match get t d with Some _ => true | None => false end.

(** * Sensitivity rows *)

(** Orbit of the receiver relative to the device, in the frame of the receiver:
    msr/sensitivity.rs:139-140. *)
Record link := { delta_r : v3; delta_v : v3 }.

(** msr/sensitivity.rs:152-163 and 172-180 *)
Definition doppler_row (l : link) (rho rho_dot : R) : list R :=
  let r := delta_r l in let v := delta_v l in
  [vx v / rho - rho_dot * vx r / rho ^ 2;
   vy v / rho - rho_dot * vy r / rho ^ 2;
   vz v / rho - rho_dot * vz r / rho ^ 2;
   vx r / rho; vy r / rho; vz r / rho; 0; 0; 0].
Definition range_row (l : link) (rho : R) : list R :=
  let r := delta_r l in [vx r / rho; vy r / rho; vz r / rho; 0; 0; 0; 0; 0; 0].
(** msr/sensitivity.rs:189-199 *)
Definition azimuth_row (l : link) : list R :=
  let r := delta_r l in
  let denom := vx r ^ 2 + vy r ^ 2 in [- vy r / denom; vx r / denom; 0; 0; 0; 0; 0; 0; 0].
(** msr/sensitivity.rs:208-219 *)
Definition elevation_row (l : link) : list R :=
  let r := delta_r l in
  let r2 := norm r ^ 2 in
  let z2 := vz r ^ 2 in
  [- (vx r * vz r) / (r2 * sqrt (r2 - z2)); - (vy r * vz r) / (r2 * sqrt (r2 - z2));
   sqrt (vx r ^ 2 + vy r ^ 2) / r2; 0; 0; 0; 0; 0; 0].

(** msr/sensitivity.rs:121-238; [range_km] is the range given by [azimuth_elevation_of]. *)
Definition gs_row (l : link) (range_km : R) (d : data) (t : msr_type) : res sens_error (list R) :=
  match t with
  | Doppler => match get Doppler d with
               | Some rho_dot => Ok (doppler_row l range_km rho_dot)
               | None => Panic
               end
  | Range => match get Range d with Some rho => Ok (range_row l rho) | None => Panic end
  | Azimuth => Ok (azimuth_row l)
  | Elevation => Ok (elevation_row l)
  | _ => Err (Unsupported t)
  end.

(** interlink/sensitivity.rs:83-171 *)
Definition il_row (l : link) (d : data) (t : msr_type) : res sens_error (list R) :=
  match t with
  | Doppler =>
      match get Range d with
      | None => Err (Missing Range)
      | Some rho =>
          match get Doppler d with
          | None => Err (Missing Doppler)
          | Some rho_dot => Ok (doppler_row l rho rho_dot)
          end
      end
  | Range => match get Range d with Some rho => Ok (range_row l rho) | None => Err (Missing Range) end
  | _ => Err (Unsupported t)
  end.

(** * Observables *)

(** anise's [AzElRange] *)
Record aer := { az_deg : R; el_deg : R; range_km : R; rate_km_s : R }.

(** types.rs:102-117 *)
Definition compute_one_way (t : msr_type) (a : aer) (noise : R) : res sens_error R :=
  match t with
  | Range => Ok (range_km a + noise)
  | Doppler => Ok (rate_km_s a + noise)
  | Azimuth => Ok (az_deg a + noise)
  | Elevation => Ok (el_deg a + noise)
  | _ => Err (Unsupported t)
  end.

(** types.rs:121-153 *)
Definition compute_two_way (t : msr_type) (a0 a1 : aer) (noise : R) : res sens_error R :=
  match t with
  | Range => Ok ((range_km a1 + range_km a0) * / 2 + noise / sqrt 2)
  | Doppler => Ok ((rate_km_s a1 + rate_km_s a0) * / 2 + noise / sqrt 2)
  | Azimuth => Ok ((az_deg a1 + az_deg a0) * / 2 + noise / sqrt 2)
  | Elevation => Ok ((el_deg a1 + el_deg a0) * / 2 + noise / sqrt 2)
  | _ => Err (Unsupported t)
  end.

(** interlink/trk_device.rs:206-225: an instantaneous observable without noise.  [rx] is the
    receiver's position and velocity in the frame of the observer, of position [tx]. *)
Definition il_value (rx_r rx_v tx_r : v3) (t : msr_type) : res sens_error R :=
  let rho := vsub rx_r tx_r in
  match t with
  | Range => Ok (norm rho)
  | Doppler => Ok (dot rho rx_v / norm rho)
  | _ => Panic
  end.

(** ground_station/trk_device.rs:128-137, 190-195: the observables of one measurement. *)
Fixpoint observe (value : msr_type -> R -> res sens_error R) (types : list msr_type)
    (noises : list R) : res sens_error data :=
  match types, noises with
  | [], _ => Ok []
  | t :: types', w :: noises' =>
      bind (value t w) (fun x => bind (observe value types' noises') (fun d => Ok ((t, x) :: d)))
  | _, [] => Panic
  end.
