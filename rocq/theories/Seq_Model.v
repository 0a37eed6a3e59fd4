(** Model of nyx-core/src/dynamics/sequence: phases of a mission executed one after the
    other.  Not modelled: the serialisation helpers, the Dhall types, the Python bindings,
    the logs and the wall clock. *)
From Coq Require Import Reals ZArith String.
From Verif Require Import Base Vec3 Angles Sc_Model Guid_Model Dyn_Model.
From Verif Require Prop_Model Traj_Model.
Local Open Scope R_scope.

(** config.rs:180-194 [SteeringLaw]. *)
Inductive steering :=
| FiniteBurn (m : maneuver)
| SteerKluever (objectives : list (objective * R)) (max_eclipse_prct : option R)
| SteerRuggiero (objectives : list (objective * R)) (max_eclipse_prct : option R).

(** config.rs:172-176 [GuidanceConfig]. *)
Record guidance_config := {
  thruster_model : string;
  disable_prop_mass : bool;
  steer : steering
}.

(** discrete_event.rs:43-48 [PhysicalProperties]: masses (dry, propellant, extra), solar
    pressure (area, coefficient) and drag (area, coefficient). *)
Record properties := {
  p_mass : option (R * R * R);
  p_srp : option (R * R);
  p_drag : option (R * R)
}.

(** mnvr.rs:39-42 [ImpulsiveManeuver]. *)
Record impulse := { local_frame : nat; dv_km_s : v3 }.

(** discrete_event.rs:28-40 [DiscreteEvent]. *)
Inductive discrete_event :=
| Staging (mnvr : option impulse) (decrement : option properties)
| Docking (mnvr : option impulse) (increment : option properties)
| FrameSwap (new_frame : nat).

(** config.rs:44-55 [Phase]. *)
Inductive phase :=
| Terminate
| Activity (name propagator : string) (guidance : option guidance_config)
    (on_entry : option discrete_event) (disabled : bool).

(** A map by its list of bindings, looked up by key. *)
Fixpoint lookup {A} (k : string) (l : list (string * A)) : option A :=
  match l with
  | [] => None
  | (k', a) :: l' => if String.eqb k k' then Some a else lookup k l'
  end.

(** propagators/propagator.rs:32-40 [Propagator] of spacecraft dynamics. *)
Record setup := {
  su_dynamics : dynamics;
  su_method : Prop_Model.method;
  su_options : Prop_Model.options nat;
  su_init_step : Z;
  su_fixed_step : bool
}.

(** mod.rs:48-55 [SpacecraftSequence]; [seq], a [BTreeMap], is the list of its bindings in
    the order of their epochs. *)
Record sequence {config : Type} := {
  seq : list (Z * phase);
  thruster_sets : list (string * thruster);
  propagators : list (string * config);
  prop_setups : list (string * setup)
}.
Arguments sequence : clear implicits.

Inductive seq_error :=
| FinalPhaseNotTerminate
| NoPropagator (epoch : Z) (name : string)
| NoThrusterSet (epoch : Z) (name : string)
| BuildError (name : string).

Section Validation.
Context {config : Type}.
(** config.rs:144-152 and 101-133: gravity data are read from files. *)
Context (build : config -> option setup).

(** mod.rs:65-85, the checks of one phase. *)
Definition check_phase (s : sequence config) (e : Z * phase) : res seq_error unit :=
  match snd e with
  | Terminate => Ok tt
  | Activity _ propagator guidance _ _ =>
      match lookup propagator (propagators s) with
      | None => Err (NoPropagator (fst e) propagator)
      | Some _ =>
          match guidance with
          | None => Ok tt
          | Some g =>
              match lookup (thruster_model g) (thruster_sets s) with
              | None => Err (NoThrusterSet (fst e) (thruster_model g))
              | Some _ => Ok tt
              end
          end
      end
  end.

Fixpoint check_all (s : sequence config) (l : list (Z * phase)) : res seq_error unit :=
  match l with
  | [] => Ok tt
  | e :: l' => bind (check_phase s e) (fun _ => check_all s l')
  end.

(** mod.rs:58-88 [validate] *)
Definition validate (s : sequence config) : res seq_error unit :=
  match last (map snd (seq s)) Terminate with
  | Activity _ _ _ _ _ => Err FinalPhaseNotTerminate
  | Terminate => check_all s (seq s)
  end.

(** mod.rs:95-114, the setups built for the phases [l]. *)
Fixpoint build_all (cfgs : list (string * config)) (l : list (Z * phase))
    (setups : list (string * setup)) : res seq_error (list (string * setup)) :=
  match l with
  | [] => Ok setups
  | (_, Activity _ propagator _ _ false) :: l' =>
      match lookup propagator setups with
      | Some _ => build_all cfgs l' setups
      | None =>
          match lookup propagator cfgs with
          | None => Panic
          | Some cfg =>
              match build cfg with
              | None => Err (BuildError propagator)
              | Some su => build_all cfgs l' (setups ++ [(propagator, su)])
              end
          end
      end
  | _ :: l' => build_all cfgs l' setups
  end.

(** mod.rs:91-117 [setup] *)
Definition setup_sequence (s : sequence config) : res seq_error (sequence config) :=
  bind (validate s) (fun _ =>
  bind (build_all (propagators s) (seq s) (prop_setups s)) (fun setups =>
  Ok {| seq := seq s; thruster_sets := thruster_sets s; propagators := propagators s;
        prop_setups := setups |})).
End Validation.

(** ** Discrete events *)

(** anise: [Orbit::with_dv_km_s]. *)
Definition with_dv (o : orbit) (dv : v3) : orbit :=
  Orbit (epoch o) (frame o) (radius_km o) (vadd (velocity_km_s o) dv).

(** mod.rs:183-187 and 208-212: the change of velocity is added as it is, its local frame
    is not used. *)
Definition apply_impulse (m : option impulse) (sc : spacecraft) : spacecraft :=
  match m with
  | Some m => with_orbit sc (with_dv (sc_orbit sc) (dv_km_s m))
  | None => sc
  end.

(** mod.rs:188-202 ([op] is the subtraction) and 213-227 (the addition). *)
Definition change_properties (op : R -> R -> R) (p : option properties) (sc : spacecraft) : spacecraft :=
  match p with
  | None => sc
  | Some p =>
      let '(dry, prop, extra) :=
        match p_mass p with
        | Some (a, b, c) => (op (dry_mass_kg sc) a, op (prop_mass_kg sc) b, op (extra_mass_kg sc) c)
        | None => (dry_mass_kg sc, prop_mass_kg sc, extra_mass_kg sc)
        end in
      let '(area, cr) :=
        match p_srp p with
        | Some (a, b) => (op (srp_area_m2 sc) a, op (coeff_reflectivity sc) b)
        | None => (srp_area_m2 sc, coeff_reflectivity sc)
        end in
      let '(darea, cd) :=
        match p_drag p with
        | Some (a, b) => (op (drag_area_m2 sc) a, op (coeff_drag sc) b)
        | None => (drag_area_m2 sc, coeff_drag sc)
        end in
      Spacecraft (sc_orbit sc) dry prop extra area cr darea cd (sc_thruster sc) (mode sc)
        (thrust_direction sc) (stm sc)
  end.

(** ** Execution *)
Inductive run_error := FromAlmanac | FromProp (e : dyn_error).

(** A trajectory: its name and its states. *)
Record named_traj := { t_name : string; t_states : list spacecraft }.

Section Run.
(** anise: [orient_origin_match] and [ephem_origin_match] of two frames, and [translate_to],
    which moves the origin of the frame. *)
Context (same_orientation same_origin : nat -> nat -> bool)
        (translate : orbit -> nat -> option orbit).
(** mod.rs:243-267: the guidance law of a configuration, given the state at the entry of the
    phase. *)
Context (law_of : steering -> spacecraft -> law).
(** [setup.with(state, almanac).until_epoch_with_traj(end_time)] *)
Context (fly : setup -> spacecraft -> Z -> res dyn_error (spacecraft * list spacecraft)).

(** mod.rs:157-230 *)
Definition enter (ev : option discrete_event) (sc : spacecraft) : res run_error spacecraft :=
  match ev with
  | None => Ok sc
  | Some (FrameSwap f) =>
      if negb (same_orientation f (frame (sc_orbit sc))) || negb (same_origin f (frame (sc_orbit sc)))
      then match translate (sc_orbit sc) f with
           | Some o => Ok (with_orbit sc o)
           | None => Err FromAlmanac
           end
      else Ok sc
  | Some (Staging m p) => Ok (change_properties Rminus p (apply_impulse m sc))
  | Some (Docking m p) => Ok (change_properties Rplus p (apply_impulse m sc))
  end.

(** mod.rs:240-246 *)
Definition with_guidance (su : setup) (g : guidance_config) (l : law) : setup :=
  {| su_dynamics :=
       {| orbital_eom := orbital_eom (su_dynamics su); orbital_dual := orbital_dual (su_dynamics su);
          force_models := force_models (su_dynamics su); guid_law := Some l;
          decrement_mass := negb (disable_prop_mass g) |};
     su_method := su_method su; su_options := su_options su; su_init_step := su_init_step su;
     su_fixed_step := su_fixed_step su |}.

Context {config : Type} (s : sequence config) (until_phase : option string).

(** mod.rs:238-278; indexing a map by an absent key panics. *)
Definition execute (propagator : string) (guidance : option guidance_config) (sc : spacecraft)
    (end_time : Z) : res run_error (spacecraft * list spacecraft) :=
  match lookup propagator (prop_setups s) with
  | None => Panic
  | Some su =>
      let r :=
        match guidance with
        | Some g =>
            match lookup (thruster_model g) (thruster_sets s) with
            | None => Panic
            | Some th =>
                let sc1 := with_thruster sc (Some th) in
                fly (with_guidance su g (law_of (steer g) sc1)) sc1 end_time
            end
        | None => fly su sc end_time
        end in
      match r with
      | Ok x => Ok x
      | Err e => Err (FromProp e)
      | Panic => Panic
      | NoFuel => NoFuel
      end
  end.

(** mod.rs:132-287, the loop over the phases left. *)
Fixpoint run_phases (l : list (Z * phase)) (sc : spacecraft) (trajs : list named_traj)
  : res run_error (list named_traj) :=
  match l with
  | [] => Panic                                   (* unreachable!, mod.rs:287 *)
  | (_, Terminate) :: _ => Ok trajs
  | (_, Activity name propagator guidance on_entry disabled) :: l' =>
      if match until_phase with Some target => String.eqb target name | None => false end
      then Ok trajs
      else if disabled then run_phases l' sc trajs
      else
        bind (enter on_entry sc) (fun sc1 =>
        match l' with
        | [] => Panic                             (* expect, mod.rs:234 *)
        | (end_time, _) :: _ =>
            bind (execute propagator guidance sc1 end_time) (fun r =>
            run_phases l' (fst r) (trajs ++ [{| t_name := name; t_states := snd r |}]))
        end)
  end.

(** mod.rs:121-288 [propagate] *)
Definition propagate (sc : spacecraft) : res run_error (list named_traj) :=
  run_phases (filter (fun e => Z.leb (epoch (sc_orbit sc)) (fst e)) (seq s)) sc [].
End Run.

(** ** The pieces of the execution *)

(** mod.rs:243-267 *)
Definition law_of (evaluate : element -> orbit -> option R)
    (bplane : orbit -> option (R * R * R)) (dcm : nat -> orbit -> option m3)
    (kepler : orbit -> option keplerian) (shadows : orbit -> list (option R))
    (st : steering) (sc : spacecraft) : law :=
  match st with
  | FiniteBurn m => mnvr_law dcm m
  | SteerRuggiero objs ecl => ruggiero_law evaluate bplane dcm kepler shadows (Ruggiero objs ecl sc)
  | SteerKluever objs ecl => kluever_law evaluate bplane dcm kepler shadows (Kluever objs ecl)
  end.

(** [Propagator::with], propagator.rs:88-108 *)
Definition prop_with (su : setup) (sc : spacecraft) : Prop_Model.inst (St := spacecraft) :=
  {| Prop_Model.state := sc; Prop_Model.step_size := su_init_step su;
     Prop_Model.fixed_step := su_fixed_step su;
     Prop_Model.det := {| Prop_Model.d_step := su_init_step su; Prop_Model.d_error := 0;
                          Prop_Model.d_attempts := 1 |} |}.

(** instance.rs:330-340 [until_epoch_with_traj] *)
Definition fly_until (of_secs : R -> Z) (transform : orbit -> nat -> res dyn_error orbit)
    (estimate : list R -> list R -> list R -> R) (ops : Traj_Model.state_ops spacecraft nat)
    (arrange : list spacecraft -> list spacecraft) (fuel : nat)
    (su : setup) (sc : spacecraft) (end_time : Z) : res dyn_error (spacecraft * list spacecraft) :=
  Traj_Model.for_duration_with_traj
    (sc_env (su_dynamics su) of_secs transform estimate (su_method su) (su_options su)) ops arrange
    fuel (end_time - epoch (sc_orbit sc)) (prop_with su sc).
