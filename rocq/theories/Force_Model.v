(** Model of the force models: nyx-core/src/dynamics/solarpressure.rs, drag.rs and
    nyx-core/src/cosmic/eclipse.rs.

    [f64] is [R]; the divisions whose result is not a number in the code are the error
    [NotANumber] here.  An [Occultation] of anise is its percentage.  Not modelled:
    [Display], Dhall types, Python bindings, [Arc]; [ShadowModel::to_umbra_events] and
    [to_penumbra_events], which map the bodies to events. *)
From Coq Require Import Reals ZArith List.
From Verif Require Import Base Vec3 Sc_Model Dyn_Model Dual.
Import ListNotations.
Local Open Scope R_scope.

(** cosmic/mod.rs:179-183, and anise's speed of light in km/s *)
Definition SPEED_OF_LIGHT_KM_S : R := 299792458 / 1000.
Definition SPEED_OF_LIGHT_M_S : R := SPEED_OF_LIGHT_KM_S * 1000.
Definition AU : R := 1495978707 / 10.
(** solarpressure.rs:35 *)
Definition SOLAR_FLUX_W_m2 : R := 1367.

(** eclipse.rs:35-38 [ShadowModel] *)
Record shadow_model := ShadowModel { light_source : nat; shadow_bodies : list nat }.

(** solarpressure.rs:43-49 [SolarPressure] *)
Record solar_pressure := SolarPressure { phi : R; shadow : shadow_model; srp_estimate : bool }.

(** drag.rs:41-45 [AtmDensity] *)
Inductive atm_density :=
| Constant (rho : R) | Exponential (rho0 r0 ref_alt_m : R) | StdAtm (max_alt_m : R).

(** drag.rs:123-130 [Drag]; drag.rs:66-73 [ConstantDrag] *)
Record drag := Drag { density : atm_density; drag_frame : nat; drag_estimate : bool }.
Record constant_drag := ConstantDrag { cd_rho : R; cd_frame : nat; cd_estimate : bool }.

Section Forces.
(** anise: the state in another frame; the percentage of the Sun that a body hides from a
    state ([solar_eclipsing]); whether the data of a frame are loaded, and the loaded
    frame; the mean equatorial radius of a frame. *)
Context (transform_to : orbit -> nat -> res dyn_error orbit)
        (solar_eclipsing : nat -> orbit -> res dyn_error R)
        (frame_info : nat -> res dyn_error nat)
        (mean_equatorial_radius_km : nat -> res dyn_error R).

(** eclipse.rs:75-81: the loop over the bodies. *)
Fixpoint worst_shadow (bodies : list nat) (o : orbit) (percentage : R) : res dyn_error R :=
  match bodies with
  | [] => Ok percentage
  | b :: bodies' =>
      bind (solar_eclipsing b o) (fun p =>
      worst_shadow bodies' o (if Rlt_dec percentage p then p else percentage))
  end.
(** eclipse.rs:67-83 [ShadowModel::compute] and anise's [Occultation::factor] *)
Definition shadow_compute (m : shadow_model) (o : orbit) : res dyn_error R :=
  worst_shadow (shadow_bodies m) o 0.
Definition factor (percentage : R) : R := percentage / 100.

(** solarpressure.rs:77-86: the shadow bodies whose data are loaded. *)
Fixpoint loaded (bodies : list nat) : list nat :=
  match bodies with
  | [] => []
  | b :: bodies' => match frame_info b with Ok f => f :: loaded bodies' | _ => loaded bodies' end
  end.

(** solarpressure.rs:67-93 [default_flux_raw]; [sun] is SUN_J2000. *)
Definition default_flux_raw (sun : nat) (bodies : list nat) : res dyn_error solar_pressure :=
  bind (frame_info sun) (fun s =>
  Ok (SolarPressure SOLAR_FLUX_W_m2 (ShadowModel s (loaded bodies)) true)).
(** solarpressure.rs:95-101 [default_flux], 103-111 [default_no_estimation],
    113-122 [with_flux], 124-127 [new] *)
Definition default_flux (sun body : nat) : res dyn_error solar_pressure :=
  default_flux_raw sun [body].
Definition default_no_estimation (sun : nat) (bodies : list nat) : res dyn_error solar_pressure :=
  bind (default_flux_raw sun bodies) (fun s => Ok (SolarPressure (phi s) (shadow s) false)).
Definition with_flux (flux : R) (sun : nat) (bodies : list nat) : res dyn_error solar_pressure :=
  bind (default_flux_raw sun bodies) (fun s => Ok (SolarPressure flux (shadow s) (srp_estimate s))).
Definition srp_new (sun : nat) (bodies : list nat) : res dyn_error solar_pressure :=
  default_flux_raw sun bodies.

(** solarpressure.rs:131-133 *)
Definition srp_index (s : solar_pressure) : option nat :=
  if srp_estimate s then Some 6%nat else None.

(** solarpressure.rs:135-165 [eom] *)
Definition srp_eom (s : solar_pressure) (ctx : spacecraft) : res dyn_error v3 :=
  bind (transform_to (sc_orbit ctx) (light_source (shadow s))) (fun o =>
  let r_sun := radius_km o in
  bind (shadow_compute (shadow s) (sc_orbit ctx)) (fun p =>
  if Req_EM_T (norm r_sun) 0 then Err NotANumber
  else
    let r_sun_unit := vscale (/ norm r_sun) r_sun in
    let k := Rabs (factor p - 1) in
    let r_sun_au := norm r_sun / AU in
    let flux_pressure := (k * phi s / SPEED_OF_LIGHT_M_S) * (1 / r_sun_au) ^ 2 in
    Ok (vscale (/ 1000 * coeff_reflectivity ctx * srp_area_m2 ctx * flux_pressure) r_sun_unit))).

(** solarpressure.rs:167-232 [gradient] *)
Definition srp_gradient (s : solar_pressure) (ctx : spacecraft) : res dyn_error (v3 * matrix9) :=
  bind (transform_to (sc_orbit ctx) (light_source (shadow s))) (fun o =>
  let r_sun_d := hyperspace (radius_km o) in
  bind (shadow_compute (shadow s) (sc_orbit ctx)) (fun p =>
  if Req_EM_T (norm (radius_km o)) 0 then Err NotANumber
  else
    let r_sun_unit := d3_div r_sun_d (dnorm r_sun_d) in
    let k := Rabs (factor p - 1) in
    let r_sun_au := ddiv (dnorm r_sun_d) (dconst AU) in
    let inv_r_sun_au_p2 := dpow (ddiv (dconst 1) r_sun_au) 2 in
    let flux_pressure := dmul (dconst (k * phi s / SPEED_OF_LIGHT_M_S)) inv_r_sun_au_p2 in
    let dual_force_scalar := dconst (/ 1000 * coeff_reflectivity ctx * srp_area_m2 ctx) in
    let scalar := dmul dual_force_scalar flux_pressure in
    let dual_force := D3 (dmul scalar (ux r_sun_unit)) (dmul scalar (uy r_sun_unit))
                         (dmul scalar (uz r_sun_unit)) in
    bind (srp_eom s ctx) (fun f =>
    if Req_EM_T (coeff_reflectivity ctx) 0 then Err NotANumber
    else
      let wrt_cr := vscale (/ coeff_reflectivity ctx) f in
      Ok (reals dual_force,
          fun i j => if (i <? 3)%nat then du (dcomp dual_force i) (S j) else comp wrt_cr j)))).

Definition srp_force (s : solar_pressure) : force_model :=
  {| f_eom := srp_eom s; f_gradient := srp_gradient s; estimation_index := srp_index s |}.

(** drag.rs:100-106, 195-201, 232-238, 275-281: the same expression four times. *)
Definition drag_law (rho : R) (ctx : spacecraft) (velocity : v3) : v3 :=
  vscale (- / 2 * 1000 * rho * coeff_drag ctx * drag_area_m2 ctx * norm velocity) velocity.

(** drag.rs:85-118 [ForceModel for ConstantDrag] *)
Definition constant_drag_eom (d : constant_drag) (ctx : spacecraft) : res dyn_error v3 :=
  bind (transform_to (sc_orbit ctx) (cd_frame d)) (fun osc =>
  Ok (drag_law (cd_rho d) ctx (velocity_km_s osc))).

Definition constant_drag_force (d : constant_drag) : force_model :=
  {| f_eom := constant_drag_eom d; f_gradient := fun _ => Err PartialsUndefined;
     estimation_index := if cd_estimate d then Some 7%nat else None |}.

(** drag.rs:210-219: the density, with the radius in kilometers *)
Definition exponential_density (rho0 r0 ref_alt_m rmag_km radius_km : R) : R :=
  rho0 * exp (- (rmag_km - (r0 + radius_km)) / ref_alt_m).

(** drag.rs:248-264 *)
Definition std_density (max_alt_m altitude_km : R) : R :=
  if Rlt_dec (max_alt_m / 1000) altitude_km
  then Rpower 10 (- (7 / 100000) * altitude_km - 14464 / 1000)
  else
    let scale := (altitude_km - 5268 / 10) / (2928563 / 10000) in
    let logdensity :=
      34047 / 100000 * scale ^ 6 - 5889 / 10000 * scale ^ 5 - 5269 / 10000 * scale ^ 4
      + 10036 / 10000 * scale ^ 3 + 60713 / 100000 * scale ^ 2 - 23024 / 10000 * scale
      - 12575 / 1000 in
    Rpower 10 logdensity.

(** drag.rs:181-284 [eom] *)
Definition drag_eom (d : drag) (ctx : spacecraft) : res dyn_error v3 :=
  let integration_frame := frame (sc_orbit ctx) in
  bind (transform_to (sc_orbit ctx) (drag_frame d)) (fun osc_drag_frame =>
  match density d with
  | Constant rho => Ok (drag_law rho ctx (velocity_km_s osc_drag_frame))
  | Exponential rho0 r0 ref_alt_m =>
      bind (mean_equatorial_radius_km (drag_frame d)) (fun radius =>
      if Req_EM_T ref_alt_m 0 then Err NotANumber
      else
        let rho := exponential_density rho0 r0 ref_alt_m (norm (radius_km osc_drag_frame)) radius in
        bind (transform_to osc_drag_frame integration_frame) (fun o =>
        let velocity := vsub (velocity_km_s o) (velocity_km_s osc_drag_frame) in
        Ok (drag_law rho ctx velocity)))
  | StdAtm max_alt_m =>
      bind (mean_equatorial_radius_km (drag_frame d)) (fun radius =>
      let altitude_km := norm (radius_km osc_drag_frame) - radius in
      let rho := std_density max_alt_m altitude_km in
      bind (transform_to osc_drag_frame integration_frame) (fun o =>
      let velocity := vsub (velocity_km_s o) (velocity_km_s osc_drag_frame) in
      Ok (drag_law rho ctx velocity)))
  end).

(** drag.rs:176-179, 286-294 *)
Definition drag_force (d : drag) : force_model :=
  {| f_eom := drag_eom d; f_gradient := fun _ => Err PartialsUndefined;
     estimation_index := if drag_estimate d then Some 7%nat else None |}.

(** drag.rs:134-148 [earth_exp] and 151-163 [std_atm1976]; [iau_earth] is IAU_EARTH_FRAME. *)
Definition earth_exp (iau_earth : nat) : res dyn_error drag :=
  bind (frame_info iau_earth) (fun f =>
  Ok (Drag (Exponential (3614 / 10 ^ 16) 700000 88667) f false)).
Definition std_atm1976 (iau_earth : nat) : res dyn_error drag :=
  bind (frame_info iau_earth) (fun f => Ok (Drag (StdAtm 1000000) f false)).
End Forces.
