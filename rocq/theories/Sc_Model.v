(** Model of nyx-core/src/cosmic/spacecraft.rs: the spacecraft state, its integration vector
    and its parameters.  Epochs are integers (nanoseconds), [f64] is [R].  Not modelled:
    the [Display] family, the Python bindings, [Default] and the constructors, which only
    fill fields, and the DER codec. *)
From Coq Require Import Reals ZArith.
From Verif Require Import Base Vec3 Angles Util_Model.
Local Open Scope R_scope.

(** anise: [Orbit], the fields used here; a frame is identified by a number. *)
Record orbit := Orbit { epoch : Z; frame : nat; radius_km : v3; velocity_km_s : v3 }.

(** spacecraft.rs:49-60 [GuidanceMode]. *)
Inductive guidance_mode := Coast | Thrust | Inhibit.

Definition mode_eqb (a b : guidance_mode) : bool :=
  match a, b with Coast, Coast | Thrust, Thrust | Inhibit, Inhibit => true | _, _ => false end.

(** spacecraft.rs:62-72 [From<f64> for GuidanceMode]. *)
Definition mode_of_f64 (value : R) : guidance_mode :=
  if Rle_dec 1 value then Thrust else if Rlt_dec value 0 then Inhibit else Coast.

(** spacecraft.rs:74-82 [From<GuidanceMode> for f64]. *)
Definition f64_of_mode (m : guidance_mode) : R :=
  match m with Coast => 0 | Thrust => 1 | Inhibit => -1 end.

(** guidance/mod.rs:51-56 [Thruster]. *)
Record thruster := Thruster { thrust_N : R; isp_s : R }.

(** spacecraft.rs:115-143 [Spacecraft].  [stm] is the column by column list of the entries
    of the matrix, which is what [as_slice] and [from_column_slice] exchange. *)
Record spacecraft := Spacecraft {
  sc_orbit : orbit;
  dry_mass_kg : R; prop_mass_kg : R; extra_mass_kg : R;
  srp_area_m2 : R; coeff_reflectivity : R;
  drag_area_m2 : R; coeff_drag : R;
  sc_thruster : option thruster;
  mode : guidance_mode;
  thrust_direction : option v3;
  stm : option (list R)
}.

(** anise: [Mass::total_mass_kg]; spacecraft.rs:301-303 [mass_kg]. *)
Definition mass_kg (sc : spacecraft) : R := dry_mass_kg sc + prop_mass_kg sc + extra_mass_kg sc.

Definition with_orbit (sc : spacecraft) (o : orbit) : spacecraft :=
  Spacecraft o (dry_mass_kg sc) (prop_mass_kg sc) (extra_mass_kg sc) (srp_area_m2 sc)
    (coeff_reflectivity sc) (drag_area_m2 sc) (coeff_drag sc) (sc_thruster sc) (mode sc)
    (thrust_direction sc) (stm sc).
Definition with_dry (sc : spacecraft) (m : R) : spacecraft :=
  Spacecraft (sc_orbit sc) m (prop_mass_kg sc) (extra_mass_kg sc) (srp_area_m2 sc)
    (coeff_reflectivity sc) (drag_area_m2 sc) (coeff_drag sc) (sc_thruster sc) (mode sc)
    (thrust_direction sc) (stm sc).
Definition with_prop (sc : spacecraft) (m : R) : spacecraft :=
  Spacecraft (sc_orbit sc) (dry_mass_kg sc) m (extra_mass_kg sc) (srp_area_m2 sc)
    (coeff_reflectivity sc) (drag_area_m2 sc) (coeff_drag sc) (sc_thruster sc) (mode sc)
    (thrust_direction sc) (stm sc).
Definition with_cr (sc : spacecraft) (c : R) : spacecraft :=
  Spacecraft (sc_orbit sc) (dry_mass_kg sc) (prop_mass_kg sc) (extra_mass_kg sc)
    (srp_area_m2 sc) c (drag_area_m2 sc) (coeff_drag sc) (sc_thruster sc) (mode sc)
    (thrust_direction sc) (stm sc).
Definition with_cd (sc : spacecraft) (c : R) : spacecraft :=
  Spacecraft (sc_orbit sc) (dry_mass_kg sc) (prop_mass_kg sc) (extra_mass_kg sc)
    (srp_area_m2 sc) (coeff_reflectivity sc) (drag_area_m2 sc) c (sc_thruster sc) (mode sc)
    (thrust_direction sc) (stm sc).
Definition with_thruster (sc : spacecraft) (t : option thruster) : spacecraft :=
  Spacecraft (sc_orbit sc) (dry_mass_kg sc) (prop_mass_kg sc) (extra_mass_kg sc)
    (srp_area_m2 sc) (coeff_reflectivity sc) (drag_area_m2 sc) (coeff_drag sc) t (mode sc)
    (thrust_direction sc) (stm sc).
(** spacecraft.rs:315-317 [mut_mode]. *)
Definition mut_mode (sc : spacecraft) (m : guidance_mode) : spacecraft :=
  Spacecraft (sc_orbit sc) (dry_mass_kg sc) (prop_mass_kg sc) (extra_mass_kg sc)
    (srp_area_m2 sc) (coeff_reflectivity sc) (drag_area_m2 sc) (coeff_drag sc)
    (sc_thruster sc) m (thrust_direction sc) (stm sc).
Definition with_direction (sc : spacecraft) (d : option v3) : spacecraft :=
  Spacecraft (sc_orbit sc) (dry_mass_kg sc) (prop_mass_kg sc) (extra_mass_kg sc)
    (srp_area_m2 sc) (coeff_reflectivity sc) (drag_area_m2 sc) (coeff_drag sc)
    (sc_thruster sc) (mode sc) d (stm sc).
Definition with_stm_value (sc : spacecraft) (s : option (list R)) : spacecraft :=
  Spacecraft (sc_orbit sc) (dry_mass_kg sc) (prop_mass_kg sc) (extra_mass_kg sc)
    (srp_area_m2 sc) (coeff_reflectivity sc) (drag_area_m2 sc) (coeff_drag sc)
    (sc_thruster sc) (mode sc) (thrust_direction sc) s.

(** spacecraft.rs:93-102 and 325-327 [mut_thrust_direction]: the direction is divided by
    its norm.  A zero direction becomes NaN in the code; here the quotient is the total
    real division, and no statement relies on that case. *)
Definition mut_thrust_direction (sc : spacecraft) (d : option v3) : spacecraft :=
  with_direction sc (option_map (fun v => vscale (/ norm v) v) d).

(** nalgebra: the 9x9 identity, column by column. *)
Definition identity9 : list R :=
  map (fun k => if Nat.eqb (Nat.div k 9) (Nat.modulo k 9) then 1 else 0) (seq 0 81).

(** spacecraft.rs:296-298 [enable_stm], 436-443 [with_stm] and [reset_stm], 685-687
    [unset_stm]. *)
Definition with_stm (sc : spacecraft) : spacecraft := with_stm_value sc (Some identity9).
Definition unset_stm (sc : spacecraft) : spacecraft := with_stm_value sc None.

(** spacecraft.rs:451-473 [to_vector]. *)
Definition to_vector (sc : spacecraft) : list R :=
  [vx (radius_km (sc_orbit sc)); vy (radius_km (sc_orbit sc)); vz (radius_km (sc_orbit sc));
   vx (velocity_km_s (sc_orbit sc)); vy (velocity_km_s (sc_orbit sc));
   vz (velocity_km_s (sc_orbit sc));
   coeff_reflectivity sc; coeff_drag sc; prop_mass_kg sc]
  ++ match stm sc with Some m => m | None => repeat 0 81 end.

(** cosmic/mod.rs:66-70 [to_state_vector]. *)
Definition to_state_vector (sc : spacecraft) : list R := firstn 9 (to_vector sc).

(** [f64::clamp(lo, hi)]. *)
Definition clamp (x lo hi : R) : R :=
  if Rlt_dec x lo then lo else if Rlt_dec hi x then hi else x.

(** spacecraft.rs:477-497 [set]. *)
Definition set (sc : spacecraft) (ep : Z) (v : list R) : spacecraft :=
  let c i := nth i v 0 in
  Spacecraft
    (Orbit ep (frame (sc_orbit sc)) (V3 (c 0%nat) (c 1%nat) (c 2%nat))
       (V3 (c 3%nat) (c 4%nat) (c 5%nat)))
    (dry_mass_kg sc) (c 8%nat) (extra_mass_kg sc)
    (srp_area_m2 sc) (clamp (c 6%nat) 0 2) (drag_area_m2 sc) (c 7%nat)
    (sc_thruster sc) (mode sc) (thrust_direction sc)
    (match stm sc with Some _ => Some (skipn 9 v) | None => None end).

(** spacecraft.rs:698-711 [Add<Vector6>]. *)
Definition add6 (sc : spacecraft) (d : list R) : spacecraft :=
  let c i := nth i d 0 in
  let o := sc_orbit sc in
  with_orbit sc
    (Orbit (epoch o) (frame o) (vadd (radius_km o) (V3 (c 0%nat) (c 1%nat) (c 2%nat)))
       (vadd (velocity_km_s o) (V3 (c 3%nat) (c 4%nat) (c 5%nat)))).

(** spacecraft.rs:713-729 [Add<Vector9>]. *)
Definition add9 (sc : spacecraft) (d : list R) : spacecraft :=
  let c i := nth i d 0 in
  let sc1 := add6 sc d in
  let sc2 := with_cr sc1 (clamp (coeff_reflectivity sc1 + c 6%nat) 0 2) in
  let sc3 := with_cd sc2 (coeff_drag sc2 + c 7%nat) in
  with_prop sc3 (prop_mass_kg sc3 + c 8%nat).

(** anise: [OrbitalElement]; those that nyx treats by itself are named, the others are
    numbered. *)
Inductive element :=
| X | Y | Z_ | VX | VY | VZ | Rmag | Vmag
| AoP | Eccentricity | Inclination | RAAN | SemiMajorAxis | TrueAnomaly
| OtherElement (n : nat).

(** md/param.rs:34-70 [StateParameter]; the local frame of the thrust angles is a number. *)
Inductive parameter :=
| Element (e : element) | BdotR | BdotT | BLTOF | Cd | Cr | DryMass | EpochP
| GuidanceModeP | Isp | PropMass | ThrustX | ThrustY | ThrustZ
| ThrustInPlane (f : nat) | ThrustOutOfPlane (f : nat) | ThrustP | TotalMass.

(** [StateError], the variants met here; [Astro] wraps an error of anise. *)
Inductive state_error :=
| NoThrusterAvail | Unavailable (p : parameter) | ReadOnly (p : parameter)
| Astro (p : parameter).

(** guidance/mod.rs:129-156: the angle conversions. *)
Definition unit_vector_from_plane_angles (alpha beta : R) : v3 :=
  V3 (sin alpha * cos beta) (cos alpha * cos beta) (sin beta).
Definition plane_angles_from_unit_vector (v : v3) : R * R :=
  (atan2 (vy v) (vx v), asin (vz v)).
Definition unit_vector_from_ra_dec (alpha delta : R) : v3 :=
  V3 (cos delta * cos alpha) (cos delta * sin alpha) (sin delta).
Definition ra_dec_from_unit_vector (v : v3) : R * R :=
  (atan2 (vy v) (vx v), asin (vz v)).

Definition to_degrees (x : R) : R := x * (180 / PI).

Section Parameters.
(** anise, trusted: [OrbitalElement::evaluate] for the elements other than the Cartesian
    ones, the Keplerian setters, the B-plane, and [dcm_to_inertial]. *)
Context (evaluate : element -> orbit -> option R)
        (set_kepler : element -> orbit -> R -> option orbit)
        (bplane : orbit -> option (R * R * R))
        (dcm_to_inertial : nat -> orbit -> option m3).

(** anise: [OrbitalElement::evaluate]. *)
Definition element_value (e : element) (o : orbit) : option R :=
  match e with
  | X => Some (vx (radius_km o)) | Y => Some (vy (radius_km o)) | Z_ => Some (vz (radius_km o))
  | VX => Some (vx (velocity_km_s o)) | VY => Some (vy (velocity_km_s o))
  | VZ => Some (vz (velocity_km_s o))
  | Rmag => Some (norm (radius_km o)) | Vmag => Some (norm (velocity_km_s o))
  | _ => evaluate e o
  end.

(** spacecraft.rs:331-344 [thrust_angles_deg]. *)
Definition thrust_angles_deg (sc : spacecraft) (f : nat) : option (option (R * R)) :=
  match thrust_direction sc with
  | Some d =>
      match dcm_to_inertial f (sc_orbit sc) with
      | Some dcm =>
          let '(a, b) := plane_angles_from_unit_vector (mv (transpose dcm) d) in
          Some (Some (to_degrees a, to_degrees b))
      | None => None
      end
  | None => Some None
  end.

Definition ok_or {A} (x : option A) (e : state_error) : res state_error A :=
  match x with Some a => Ok a | None => Err e end.

(** spacecraft.rs:520-578 [value]. *)
Definition value (sc : spacecraft) (p : parameter) : res state_error R :=
  match p with
  | Cd => Ok (coeff_drag sc)
  | Cr => Ok (coeff_reflectivity sc)
  | DryMass => Ok (dry_mass_kg sc)
  | PropMass => Ok (prop_mass_kg sc)
  | TotalMass => Ok (mass_kg sc)
  | Isp => match sc_thruster sc with Some t => Ok (isp_s t) | None => Err NoThrusterAvail end
  | ThrustX => ok_or (option_map vx (thrust_direction sc)) (Unavailable p)
  | ThrustY => ok_or (option_map vy (thrust_direction sc)) (Unavailable p)
  | ThrustZ => ok_or (option_map vz (thrust_direction sc)) (Unavailable p)
  | ThrustInPlane f =>
      bind (ok_or (thrust_angles_deg sc f) (Astro p))
        (fun a => ok_or (option_map fst a) (Unavailable p))
  | ThrustOutOfPlane f =>
      bind (ok_or (thrust_angles_deg sc f) (Astro p))
        (fun a => ok_or (option_map snd a) (Unavailable p))
  | ThrustP => match sc_thruster sc with Some t => Ok (thrust_N t) | None => Err NoThrusterAvail end
  | GuidanceModeP => Ok (f64_of_mode (mode sc))
  | Element e => ok_or (element_value e (sc_orbit sc)) (Astro p)
  | BdotR => ok_or (option_map (fun b => fst (fst b)) (bplane (sc_orbit sc))) (Astro p)
  | BdotT => ok_or (option_map (fun b => snd (fst b)) (bplane (sc_orbit sc))) (Astro p)
  | BLTOF => ok_or (option_map snd (bplane (sc_orbit sc))) (Astro p)
  | EpochP => Err (Unavailable p)
  end.

Definition with_radius (o : orbit) (r : v3) : orbit := Orbit (epoch o) (frame o) r (velocity_km_s o).
Definition with_velocity (o : orbit) (v : v3) : orbit := Orbit (epoch o) (frame o) (radius_km o) v.

(** The Cartesian cases of 659-676. *)
Definition set_range (v : v3) (val : R) : v3 :=
  let '(_, theta, phi) := cartesian_to_spherical v in spherical_to_cartesian val theta phi.

Definition current_direction (sc : spacecraft) : v3 :=
  match thrust_direction sc with Some d => d | None => vzero end.

(** spacecraft.rs:580-683 [set_value]: the updated state, or the error (the state is then
    unchanged). *)
Definition set_value (sc : spacecraft) (p : parameter) (val : R) : res state_error spacecraft :=
  let o := sc_orbit sc in
  let r := radius_km o in
  let v := velocity_km_s o in
  let d := current_direction sc in
  match p with
  | Cd => Ok (with_cd sc val)
  | Cr => Ok (with_cr sc val)
  | PropMass => Ok (with_prop sc val)
  | DryMass => Ok (with_dry sc val)
  | Isp =>
      match sc_thruster sc with
      | Some t => Ok (with_thruster sc (Some (Thruster (thrust_N t) val)))
      | None => Err NoThrusterAvail
      end
  | ThrustX => Ok (mut_thrust_direction sc (Some (V3 val (vy d) (vz d))))
  | ThrustY => Ok (mut_thrust_direction sc (Some (V3 (vx d) val (vz d))))
  | ThrustZ => Ok (mut_thrust_direction sc (Some (V3 (vx d) (vy d) val)))
  | ThrustInPlane _ | ThrustOutOfPlane _ => Err (ReadOnly p)
  | ThrustP =>
      match sc_thruster sc with
      | Some t => Ok (with_thruster sc (Some (Thruster val (isp_s t))))
      | None => Err NoThrusterAvail
      end
  | Element e =>
      match e with
      | AoP | Eccentricity | Inclination | RAAN | SemiMajorAxis | TrueAnomaly =>
          match set_kepler e o val with
          | Some o' => Ok (with_orbit sc o')
          | None => Err (Astro p)
          end
      | X => Ok (with_orbit sc (with_radius o (V3 val (vy r) (vz r))))
      | Y => Ok (with_orbit sc (with_radius o (V3 (vx r) val (vz r))))
      | Z_ => Ok (with_orbit sc (with_radius o (V3 (vx r) (vy r) val)))
      | Rmag => Ok (with_orbit sc (with_radius o (set_range r val)))
      | VX => Ok (with_orbit sc (with_velocity o (V3 val (vy v) (vz v))))
      | VY => Ok (with_orbit sc (with_velocity o (V3 (vx v) val (vz v))))
      | VZ => Ok (with_orbit sc (with_velocity o (V3 (vx v) (vy v) val)))
      | Vmag => Ok (with_orbit sc (with_velocity o (set_range v val)))
      | OtherElement _ => Err (ReadOnly p)
      end
  | _ => Err (ReadOnly p)
  end.
End Parameters.
