(** Model of nyx-core/src/dynamics/orbital.rs: two body gravity, the sum of acceleration
    models, and the gravity of other point masses, each with the partial derivatives that
    the code computes with dual numbers.

    [f64] is [R]; divisions by a null distance are not modelled (they are the total division
    of [R]).  The 36 zeros that [eom] appends to its result (dynamics/spacecraft.rs drops
    them) are not modelled.  Not modelled: constructors (they fill the records below),
    [Display], Dhall types and Python bindings. *)
From Coq Require Import Reals ZArith.
From Verif Require Import Base Vec3 Sc_Model Dyn_Model Dual.
Local Open Scope R_scope.

(** A matrix of three rows and columns by its entries. *)
Definition matrix := nat -> nat -> R.

(** dynamics/mod.rs:163-174 [AccelModel] *)
Record accel_model := {
  a_eom : orbit -> res dyn_error v3;
  a_gradient : orbit -> res dyn_error (v3 * matrix)
}.

Section Orbital.
(** anise: the gravitational parameter of a frame, an error when it has none. *)
Context (mu_km3_s2 : nat -> res dyn_error R).

(** orbital.rs:96-104: the models in turn. *)
Fixpoint add_accels (l : list accel_model) (osc : orbit) (acc : v3) : res dyn_error v3 :=
  match l with
  | [] => Ok acc
  | m :: l' => bind (a_eom m osc) (fun a => add_accels l' osc (vadd acc a))
  end.

(** orbital.rs:78-111 [OrbitalDynamics::eom]: velocity and acceleration. *)
Definition orb_eom (models : list accel_model) (osc : orbit) : res dyn_error (v3 * v3) :=
  bind (mu_km3_s2 (frame osc)) (fun mu =>
  let body_acceleration := vscale (- mu / norm (radius_km osc) ^ 3) (radius_km osc) in
  bind (add_accels models osc body_acceleration) (fun a => Ok (velocity_km_s osc, a))).

(** orbital.rs:153-162: the accelerations, and their gradients in the lower left block. *)
Fixpoint add_accel_gradients (l : list accel_model) (osc : orbit) (acc : v3) (g : matrix)
  : res dyn_error (v3 * matrix) :=
  match l with
  | [] => Ok (acc, g)
  | m :: l' =>
      bind (a_gradient m osc) (fun ag =>
      add_accel_gradients l' osc (vadd acc (fst ag))
        (fun i j => if ((3 <=? i) && (i <? 6) && (j <? 3))%nat then g i j + snd ag (i - 3)%nat j
                    else g i j))
  end.

(** orbital.rs:113-167 [OrbitalDynamics::dual_eom]; the state is a vector of six dual
    numbers ([hyperspace_from_vector]). *)
Definition orb_dual (models : list accel_model) (osc : orbit) : res dyn_error (v3 * v3 * matrix) :=
  let radius := hyperspace (radius_km osc) in
  let v := velocity_km_s osc in
  let velocity := D3 (dvar 3 (vx v)) (dvar 4 (vy v)) (dvar 5 (vz v)) in
  let rmag := dnorm radius in
  bind (mu_km3_s2 (frame osc)) (fun mu =>
  let body_acceleration := d3_mul radius (ddiv (dconst (- mu)) (dpow rmag 3)) in
  let grad := fun i j => if (i <? 3)%nat then du (dcomp velocity i) (S j)
                         else du (dcomp body_acceleration (i - 3)) (S j) in
  bind (add_accel_gradients models osc (reals body_acceleration) grad) (fun ag =>
  Ok (reals velocity, fst ag, snd ag))).
End Orbital.

Section PointMasses.
(** anise: gravitational parameter of a frame; whether a frame is centered on a body; the
    frame of a body with the orientation of another frame; the position of the origin of a
    frame (first) in another one (second) at an epoch. *)
Context (mu_km3_s2 : nat -> res dyn_error R)
        (ephem_origin_id_match : nat -> Z -> bool)
        (frame_info : nat -> Z -> res dyn_error nat)
        (position_of : nat -> nat -> Z -> res dyn_error v3).

(** orbital.rs:209-247 [PointMasses::eom] *)
Fixpoint pm_eom (bodies : list Z) (osc : orbit) (d_x : v3) : res dyn_error v3 :=
  match bodies with
  | [] => Ok d_x
  | b :: bodies' =>
      if ephem_origin_id_match (frame osc) b then pm_eom bodies' osc d_x
      else
        bind (frame_info (frame osc) b) (fun f =>
        bind (position_of f (frame osc) (epoch osc)) (fun r_ij =>
        let r_ij3 := norm r_ij ^ 3 in
        let r_j := vsub (radius_km osc) r_ij in
        let r_j3 := norm r_j ^ 3 in
        bind (mu_km3_s2 f) (fun mu =>
        pm_eom bodies' osc
          (vadd d_x (vscale (- mu) (vadd (vscale (/ r_j3) r_j) (vscale (/ r_ij3) r_ij)))))))
  end.

(** orbital.rs:282-286: [r_j[i][i + 1] = 1.0], which only writes one partial. *)
Definition set_partial (k : nat) (d : dual) : dual :=
  Dual (re d) (fun j => if (j =? k)%nat then 1 else du d j).

(** orbital.rs:249-301 [PointMasses::gradient] *)
Fixpoint pm_gradient (bodies : list Z) (osc : orbit) (fx : v3) (grad : matrix)
  : res dyn_error (v3 * matrix) :=
  match bodies with
  | [] => Ok (fx, grad)
  | b :: bodies' =>
      if ephem_origin_id_match (frame osc) b then pm_gradient bodies' osc fx grad
      else
        let radius := hyperspace (radius_km osc) in
        bind (frame_info (frame osc) b) (fun f =>
        bind (mu_km3_s2 f) (fun mu =>
        let gm_d := dconst (- mu) in
        bind (position_of f (frame osc) (epoch osc)) (fun pos =>
        let r_ij := hyperspace pos in
        let r_ij3 := dpow (dnorm r_ij) 3 in
        let r_j0 := d3_sub radius r_ij in
        let r_j := D3 (set_partial 1 (ux r_j0)) (set_partial 2 (uy r_j0)) (set_partial 3 (uz r_j0)) in
        let r_j3 := dpow (dnorm r_j) 3 in
        let acc := d3_mul (d3_add (d3_div r_j r_j3) (d3_div r_ij r_ij3)) gm_d in
        pm_gradient bodies' osc (vadd fx (reals acc))
          (fun i j => grad i j + du (dcomp acc i) (S j)))))
  end.

Definition point_masses (bodies : list Z) : accel_model :=
  {| a_eom := fun o => pm_eom bodies o vzero;
     a_gradient := fun o => pm_gradient bodies o vzero (fun _ _ => 0) |}.
End PointMasses.
