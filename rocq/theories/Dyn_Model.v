(** Model of nyx-core/src/dynamics/spacecraft.rs: the equations of motion of a spacecraft
    and the hook run after each step, plugged into the propagator of [Prop_Model].

    The orbital dynamics and the force models are arbitrary functions.  [f64] is [R], so the
    test that a direction has a normal norm (279) always passes once its norm is close to
    one.  Not modelled: the constructors (they fill the record below) and [Display]. *)
From Coq Require Import Reals ZArith.
From Verif Require Import Base Vec3 Sc_Model Guid_Model.
From Verif Require Prop_Model.
Local Open Scope R_scope.

(** [DynamicsError], the variants met here; the errors of the oracles carry a number. *)
Inductive dyn_error :=
| FuelExhausted (sc : spacecraft) | MasslessSpacecraft | PartialsUndefined
| DynamicsGuidance (e : guid_error) | OtherDynamics (n : nat) | NotANumber.

(** spacecraft.rs:38 *)
Definition NORM_ERR : R := / 10000.
(** cosmic/mod.rs:186 *)
Definition STD_GRAVITY : R := 980665 / 100000.

(** A 9x9 matrix by its entries (row, column). *)
Definition matrix9 := nat -> nat -> R.

(** dynamics/mod.rs [ForceModel]: the force in kN (kg km/s2), its gradient (rows 0 to 2: the
    partials of the force with respect to the position; row 3: with respect to the
    estimated parameter) and the index of that parameter in the state. *)
Record force_model := {
  f_eom : spacecraft -> res dyn_error v3;
  f_gradient : spacecraft -> res dyn_error (v3 * matrix9);
  estimation_index : option nat
}.

(** spacecraft.rs:44-49 [SpacecraftDynamics]; dynamics/orbital.rs is given by its [eom]
    (velocity and acceleration) and its [dual_eom]. *)
Record dynamics := {
  orbital_eom : orbit -> res dyn_error (v3 * v3);
  orbital_dual : orbit -> res dyn_error (v3 * v3 * matrix9);
  force_models : list force_model;
  guid_law : option law;
  decrement_mass : bool
}.

(** spacecraft.rs:158-189 [finally] *)
Definition finally (d : dynamics) (s : spacecraft) : res dyn_error spacecraft :=
  if Rlt_dec (prop_mass_kg s) 0 then Err (FuelExhausted s)
  else
    match guid_law d with
    | Some g =>
        let dir :=
          match throttle g s with
          | Ok t =>
              if Rlt_dec 0 t then
                match direction g s with Ok u => Ok (Some u) | Err _ => Ok None
                                       | Panic => Panic | NoFuel => NoFuel end
              else Ok None
          | Err _ => Ok None
          | Panic => Panic
          | NoFuel => NoFuel
          end in
        match dir with
        | Ok td =>
            match next g (mut_thrust_direction s td) with
            | Ok s' => Ok s'
            | Err x => Err (DynamicsGuidance x)
            | Panic => Panic
            | NoFuel => NoFuel
            end
        | Err x => Err x
        | Panic => Panic
        | NoFuel => NoFuel
        end
    | None => Ok (mut_thrust_direction s None)
    end.

Section Eom.
(** hifitime: [Epoch + f64] seconds. *)
Context (of_secs : R -> Z).

(** spacecraft.rs:237-243: the accelerations of the force models added in turn. *)
Fixpoint add_forces (l : list force_model) (sc : spacecraft) (acc : v3) : res dyn_error v3 :=
  match l with
  | [] => Ok acc
  | m :: l' =>
      bind (f_eom m sc) (fun f => add_forces l' sc (vadd acc (vscale (/ mass_kg sc) f)))
  end.

Definition comp (v : v3) (i : nat) : R :=
  match i with 0%nat => vx v | 1%nat => vy v | _ => vz v end.

(** spacecraft.rs:344-360: the force models in the gradient. *)
Definition add_gradient (g : matrix9) (mg : matrix9) (mass : R) (idx : option nat) : matrix9 :=
  fun i j =>
    let base := if ((3 <=? i) && (i <? 6) && (j <? 3))%nat then g i j + mg (i - 3)%nat j / mass
                else g i j in
    match idx with
    | Some k => if ((3 <=? i) && (i <? 6) && (j =? k))%nat then base + mg 3%nat (i - 3)%nat / mass
                else base
    | None => base
    end.

Fixpoint add_gradients (l : list force_model) (sc : spacecraft) (acc : v3) (g : matrix9)
  : res dyn_error (v3 * matrix9) :=
  match l with
  | [] => Ok (acc, g)
  | m :: l' =>
      bind (f_gradient m sc) (fun fg =>
      add_gradients l' sc (vadd acc (vscale (/ mass_kg sc) (fst fg)))
        (add_gradient g (snd fg) (mass_kg sc) (estimation_index m)))
  end.

(** spacecraft.rs:330-334: the orbital gradient in the upper left corner. *)
Definition corner6 (g : matrix9) : matrix9 :=
  fun i j => if ((i <? 6) && (j <? 6))%nat then g i j else 0.

(** spacecraft.rs:312-363 [dual_eom]: velocity, acceleration (the six first components of
    the derivative, the other three are zero) and gradient. *)
Definition dual_eom (d : dynamics) (osc : spacecraft) : res dyn_error (v3 * v3 * matrix9) :=
  bind (orbital_dual d (sc_orbit osc)) (fun o =>
  let '(v, a, g) := o in
  match guid_law d with
  | Some _ => Err PartialsUndefined
  | None =>
      bind (add_gradients (force_models d) osc a (corner6 g)) (fun ag =>
      Ok (v, fst ag, snd ag))
  end).

(** nalgebra: the product of the 9x9 matrix stored column by column in [m] by [g], column by
    column. *)
Definition entry (m : list R) (i j : nat) : R := nth (9 * j + i) m 0.
Definition sum9 (f : nat -> R) : R := fold_right (fun k acc => f k + acc) 0 (seq 0 9).
Definition times (m : list R) (g : matrix9) : list R :=
  map (fun k => sum9 (fun l => entry m (k mod 9) l * g l (k / 9)%nat)) (seq 0 81).

(** spacecraft.rs:248-302: the thrust force (kN) and the propellant rate (kg/s). *)
Definition thrust_command (d : dynamics) (g : law) (osc : spacecraft) : res dyn_error (v3 * R) :=
  match sc_thruster osc with
  | None => Err (DynamicsGuidance NoThrustersDefined)
  | Some t =>
      match throttle g osc with
      | Ok lvl =>
          if Rle_dec 0 lvl then
            if Rle_dec lvl 1 then
              if Rlt_dec 0 lvl then
                match direction g osc with
                | Ok u =>
                    if Rlt_dec NORM_ERR (Rabs (norm u - 1))
                    then Err (DynamicsGuidance (InvalidDirection u))
                    else
                      Ok (vscale (lvl * thrust_N t * / 1000) u,
                          if decrement_mass d
                          then - (lvl * thrust_N t / (isp_s t * STD_GRAVITY)) else 0)
                | Err x => Err (DynamicsGuidance x)
                | Panic => Panic
                | NoFuel => NoFuel
                end
              else Ok (vzero, 0)
            else Err (DynamicsGuidance (ThrottleRatio lvl))
          else Err (DynamicsGuidance (ThrottleRatio lvl))
      | Err x => Err (DynamicsGuidance x)
      | Panic => Panic
      | NoFuel => NoFuel
      end
  end.

(** spacecraft.rs:205-245: the derivative without the control: velocity, acceleration and
    the derivative of the 81 entries of the state transition matrix. *)
Definition natural_eom (d : dynamics) (ctx osc : spacecraft) : res dyn_error (v3 * v3 * list R) :=
  match stm ctx with
  | Some m =>
      bind (dual_eom d osc) (fun o => let '(v, a, g) := o in Ok (v, a, times m g))
  | None =>
      bind (orbital_eom d (sc_orbit osc)) (fun o =>
      bind (add_forces (force_models d) osc (snd o)) (fun a => Ok (fst o, a, repeat 0 81)))
  end.

(** spacecraft.rs:191-310 [eom] (and cosmic/mod.rs:94-104 [set_with_delta_seconds]). *)
Definition eom (d : dynamics) (delta_t : R) (v : list R) (ctx : spacecraft)
  : res dyn_error (list R) :=
  let osc := set ctx (epoch (sc_orbit ctx) + of_secs delta_t)%Z v in
  if (match force_models d with [] => true | _ => false end)
     || (if Rlt_dec 0 (mass_kg osc) then true else false)
  then
    bind (natural_eom d ctx osc) (fun o =>
    let '(dr, dv, dstm) := o in
    bind (match guid_law d with
          | Some g => thrust_command d g osc
          | None => Ok (vzero, 0)
          end) (fun c =>
    let dv' := vadd dv (vscale (/ mass_kg osc) (fst c)) in
    Ok ([vx dr; vy dr; vz dr; vx dv'; vy dv'; vz dv'; 0; 0; snd c] ++ dstm)))
  else Err MasslessSpacecraft.
End Eom.

(** nalgebra: vectors of 90 components. *)
Definition vec90_add (a b : list R) : list R := map (fun i => nth i a 0 + nth i b 0) (seq 0 90).
Definition vec90_scale (x : R) (a : list R) : list R := map (fun i => x * nth i a 0) (seq 0 90).

(** The propagator of spacecraft: [transform] is the almanac's [transform_to], which changes
    the orbit only (instance.rs:122-141, 167-176). *)
Section Env.
Context (d : dynamics) (of_secs : R -> Z)
        (transform : orbit -> nat -> res dyn_error orbit)
        (estimate : list R -> list R -> list R -> R)
        (m : Prop_Model.method) (o : Prop_Model.options nat).

Definition change_frame (sc : spacecraft) (f : nat) : res dyn_error spacecraft :=
  bind (transform (sc_orbit sc) f) (fun orb => Ok (with_orbit sc orb)).

Definition sc_env : Prop_Model.env spacecraft (list R) nat dyn_error :=
  {| Prop_Model.epoch := fun s => epoch (sc_orbit s);
     Prop_Model.set_state := set;
     Prop_Model.to_vector := to_vector;
     Prop_Model.finally := finally d;
     Prop_Model.eom := eom of_secs d;
     Prop_Model.vadd := vec90_add;
     Prop_Model.vscale := vec90_scale;
     Prop_Model.vzero := repeat 0 90;
     Prop_Model.has_nan := fun _ => false;
     Prop_Model.estimate := estimate;
     Prop_Model.frame_of := fun s => frame (sc_orbit s);
     Prop_Model.frame_eqb := Nat.eqb;
     Prop_Model.enter_frame := change_frame;
     Prop_Model.leave_frame := change_frame;
     Prop_Model.of_secs := of_secs;
     Prop_Model.nan_error := NotANumber;
     Prop_Model.meth := m;
     Prop_Model.opts := o |}.
End Env.
