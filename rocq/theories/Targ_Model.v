(** Model of nyx-core/src/md/opti: the variables (target_variable.rs), the targeter with finite
    differences (raphson_finite_diff.rs), its solution (solution.rs) and the check of a solution
    (targeter.rs).  The spacecraft and the maneuvers are those of Sc_Model and Guid_Model.  The
    propagations, the change of frame, the partials and the pseudo-inverse (C50) are arguments.
    Numbers are reals: a division by a null perturbation is 0 here, infinite in the code.  Not
    modelled: the logs, the width of their columns (202-219), the durations. *)
From Coq Require Import Reals.
From Verif Require Import Base Vec3 Angles Poly_Model Sc_Model Guid_Model.
Local Open Scope R_scope.

(** target_variable.rs:28-79 [Vary]. *)
Inductive vary :=
| PositionX | PositionY | PositionZ | VelocityX | VelocityY | VelocityZ
| MnvrAlpha | MnvrAlphaDot | MnvrAlphaDDot | MnvrDelta | MnvrDeltaDot | MnvrDeltaDDot
| StartEpoch | Duration | EndEpoch
| VThrustX | VThrustY | VThrustZ | ThrustLevel
| ThrustRateX | ThrustRateY | ThrustRateZ | ThrustAccelX | ThrustAccelY | ThrustAccelZ.

(** target_variable.rs:83-103: the rates of the two angles are not in the list. *)
Definition is_finite_burn (v : vary) : bool :=
  match v with
  | MnvrAlpha | MnvrAlphaDDot | MnvrDelta | MnvrDeltaDDot | StartEpoch | Duration | EndEpoch
  | VThrustX | VThrustY | VThrustZ | ThrustLevel
  | ThrustRateX | ThrustRateY | ThrustRateZ | ThrustAccelX | ThrustAccelY | ThrustAccelZ => true
  | _ => false
  end.

(** raphson_finite_diff.rs and its errors; [TargetingError]. *)
Inductive targ_error :=
| UnderdeterminedProblem | PropFailed | VariableError | FrameError | GuidanceFailed (e : guid_error)
| AstroFailed | SingularJacobian | CorrectionIneffective | TooManyIterations | NotFinite | Verification.

(** target_variable.rs:106-119 [vec_index]. *)
Definition vec_index (v : vary) : res targ_error nat :=
  match v with
  | PositionX | VThrustX | MnvrAlphaDDot | MnvrDeltaDDot => Ok 0
  | PositionY | VThrustY | MnvrAlphaDot | MnvrDeltaDot => Ok 1
  | PositionZ | VThrustZ | MnvrAlpha | MnvrDelta => Ok 2
  | VelocityX | ThrustRateX => Ok 3
  | VelocityY | ThrustRateY => Ok 4
  | VelocityZ | ThrustRateZ => Ok 5
  | StartEpoch | ThrustAccelX => Ok 6
  | Duration | EndEpoch | ThrustAccelY => Ok 7
  | ThrustAccelZ => Ok 8
  | ThrustLevel => Panic
  end%nat.

(** target_variable.rs:123-138 [Variable]; the frame of a variable is never read. *)
Record variable := MkVariable {
  component : vary; perturbation : R; init_guess : R; max_step : R; max_value : R; min_value : R
}.

(** target_variable.rs:143-169 [valid]. *)
Definition valid (v : variable) : bool :=
  if Rlt_dec (max_step v) 0 then false
  else if Rlt_dec (max_value v) 0 then false
  else if Rlt_dec (max_value v) (min_value v) then false else true.

(** target_variable.rs:192-216 [apply_bounds], [check_bounds] and [ensure_bounds]. *)
Definition apply_bounds (v : variable) (val : R) : R :=
  if Rlt_dec (max_value v) val then max_value v
  else if Rlt_dec val (min_value v) then min_value v else val.
Definition check_bounds (v : variable) (val : R) : R * bool :=
  if Rlt_dec (max_value v) val then (max_value v, false)
  else if Rlt_dec val (min_value v) then (min_value v, false) else (val, true).
Definition ensure_bounds (v : variable) (val : R) : R := fst (check_bounds v val).

(** target_variable.rs:219-307 [Default] and [From<Vary>]. *)
Definition variable_of (c : vary) : variable :=
  let default := MkVariable c (1 / 10000) 0 (2 / 10) 5 (-5) in
  match c with
  | PositionX | PositionY | PositionZ | VelocityX | VelocityY | VelocityZ => default
  | MnvrAlpha | MnvrAlphaDot | MnvrAlphaDDot => MkVariable c (1 / 10 * PI) 0 (PI / 8) PI 0
  | MnvrDelta | MnvrDeltaDot | MnvrDeltaDDot => MkVariable c (1 / 10 * PI) 0 (PI / 8) (PI / 2) (- (PI / 2))
  | StartEpoch | EndEpoch => MkVariable c (5 / 10) 0 60 600 (-600)
  | Duration => MkVariable c 1 0 60 600 0
  | VThrustX | VThrustY | VThrustZ => MkVariable c (1 / 10000) 0 (2 / 10) 1 (-1)
  | ThrustRateX | ThrustRateY | ThrustRateZ => MkVariable c (/ 10 ^ 10) 0 (2 / 10) 1 (-1)
  | ThrustAccelX | ThrustAccelY | ThrustAccelZ => MkVariable c (/ 10 ^ 15) 0 (2 / 10) 1 (-1)
  | ThrustLevel => MkVariable c (- (1 / 10000)) 1 (2 / 10) 1 (1 / 10000)
  end.

(** targeter.rs:37-51 [Targeter]; the propagator is given below. *)
Record targeter := Targeter {
  objectives : list objective; objective_frame : option nat;
  variables : list variable; correction_frame : option nat; iterations : nat
}.

(** solution.rs:33-50 [TargeterSolution] *)
Record solution := Solution {
  corrected_state : spacecraft; achieved_state : spacecraft; correction : list R;
  sol_variables : list variable; achieved_errors : list R; sol_iterations : nat
}.

(** A correction of the position and of the velocity ([Vector6]). *)
Definition vec6 : Type := v3 * v3.
Definition zero6 : vec6 := (vzero, vzero).
Definition add_comp (v : v3) (i : nat) (x : R) : res targ_error v3 :=
  match i with
  | 0 => Ok (V3 (vx v + x) (vy v) (vz v))
  | 1 => Ok (V3 (vx v) (vy v + x) (vz v))
  | 2 => Ok (V3 (vx v) (vy v) (vz v + x))
  | _ => Panic
  end%nat.
Definition add_at (c : vec6) (i : nat) (x : R) : res targ_error vec6 :=
  if (i <? 3)%nat then bind (add_comp (fst c) i x) (fun r => Ok (r, snd c))
  else bind (add_comp (snd c) (i - 3) x) (fun v => Ok (fst c, v)).
Definition comp_of (v : v3) (i : nat) : R := match i with 0 => vx v | 1 => vy v | _ => vz v end%nat.
Definition bound_comp (var : variable) (v : v3) (i : nat) : v3 :=
  match i with
  | 0 => V3 (ensure_bounds var (vx v)) (vy v) (vz v)
  | 1 => V3 (vx v) (ensure_bounds var (vy v)) (vz v)
  | _ => V3 (vx v) (vy v) (ensure_bounds var (vz v))
  end%nat.

(** spacecraft.rs:698-711 and [Orbit::apply_dv_km_s] of anise. *)
Definition move (sc : spacecraft) (c : vec6) : spacecraft :=
  let o := sc_orbit sc in
  with_orbit sc (Orbit (epoch o) (frame o) (vadd (radius_km o) (fst c)) (vadd (velocity_km_s o) (snd c))).

Definition lift_guid {A} (x : res guid_error A) : res targ_error A :=
  match x with Ok a => Ok a | Err e => Err (GuidanceFailed e) | Panic => Panic | NoFuel => NoFuel end.
Definition or_fail {A} (x : option A) : res targ_error A := match x with Some a => Ok a | None => Err AstroFailed end.
(** [unwrap] *)
Definition unwrap {A} (x : res targ_error A) : res targ_error A := match x with Ok a => Ok a | _ => Panic end.

Definition with_end (m : maneuver) (e : Z) : maneuver := Maneuver (m_start m) e (thrust_prct m) (representation m) (m_frame m).
Definition with_start (m : maneuver) (s : Z) : maneuver := Maneuver s (m_end m) (thrust_prct m) (representation m) (m_frame m).
Definition with_level (m : maneuver) (l : R) : maneuver := Maneuver (m_start m) (m_end m) l (representation m) (m_frame m).

(** The angle of the maneuver whose coefficient [i] is changed. *)
Definition add_azimuth (m : maneuver) (x : R) (i : nat) : res targ_error maneuver :=
  match representation m with
  | Angles az el => match add_val_in_order az x i with Ok az' => Ok (with_repr m (Angles az' el)) | _ => Panic end
  | Vector _ => Panic
  end.
Definition add_elevation (m : maneuver) (x : R) (i : nat) : res targ_error maneuver :=
  match representation m with
  | Angles az el => match add_val_in_order el x i with Ok el' => Ok (with_repr m (Angles az el')) | _ => Panic end
  | Vector _ => Panic
  end.

Section Targeter.
(** [self.prop.with(state).until_epoch(epoch)]; the same with the maneuver as guidance law, and, in
    addition, with the maximum step set to the duration of the maneuver. *)
Context (coast : spacecraft -> Z -> res targ_error spacecraft)
        (guided guided_capped : maneuver -> spacecraft -> Z -> res targ_error spacecraft).
(** anise: [transform_to], [partial_for], the B-plane and [dcm_to_inertial]. *)
Context (transform_to : orbit -> nat -> option orbit)
        (partial_for : element -> orbit -> option R)
        (bplane : orbit -> option (R * R * R))
        (dcm_to_inertial : nat -> orbit -> option m3).
(** [pseudo_inverse!(jac)? * err_vector] *)
Context (solve : list (list R) -> list R -> option (list R)).
(** [f64.seconds()] of hifitime, to nanoseconds. *)
Context (of_secs : R -> Z).

(** raphson_finite_diff.rs:182-195, 431-446 and 723-735: a correction of a state. *)
Definition correct (t : targeter) (sc : spacecraft) (c : vec6) : res targ_error spacecraft :=
  match correction_frame t with
  | Some f => bind (or_fail (dcm_to_inertial f (sc_orbit sc))) (fun dcm => Ok (move sc (vzero, mv dcm (snd c))))
  | None => Ok (move sc c)
  end.

(** ** Changes of the maneuver *)

(** raphson_finite_diff.rs:125-171: the initial guess (the perturbation, for thrusts). *)
Definition guess_maneuver (m : maneuver) (v : variable) : res targ_error maneuver :=
  match component v with
  | Duration => Ok (with_end m (m_start m + of_secs (init_guess v)))
  | EndEpoch => Ok (with_end m (m_end m + of_secs (init_guess v)))
  | StartEpoch => Ok (with_start m (m_start m + of_secs (init_guess v)))
  | MnvrAlpha | MnvrAlphaDot | MnvrAlphaDDot =>
      bind (vec_index (component v)) (fun i => add_azimuth m (init_guess v) i)
  | MnvrDelta | MnvrDeltaDot | MnvrDeltaDDot =>
      bind (vec_index (component v)) (fun i => add_elevation m (init_guess v) i)
  | VThrustX | VThrustY | VThrustZ =>
      bind (vec_index (component v)) (fun i => bind (lift_guid (m_direction m)) (fun d =>
      bind (add_comp d i (perturbation v)) (fun d' => lift_guid (set_direction m d'))))
  | ThrustRateX | ThrustRateY | ThrustRateZ =>
      bind (vec_index (component v)) (fun i => bind (lift_guid (m_rate m)) (fun d =>
      bind (add_comp d ((i - 1) mod 3) (perturbation v)) (fun d' => lift_guid (set_rate m d'))))
  | ThrustAccelX | ThrustAccelY | ThrustAccelZ =>
      bind (vec_index (component v)) (fun i => bind (lift_guid (m_accel m)) (fun d =>
      bind (add_comp d ((i - 1) mod 3) (perturbation v)) (fun d' => lift_guid (set_accel m d'))))
  | ThrustLevel => Ok (with_level m (clamp (thrust_prct m + perturbation v) 0 1))
  | _ => Panic
  end.

(** 383-420: a perturbed vector, the other way when a bound is hit. *)
Definition perturb_vector (v : variable) (d : v3) (i : nat) : res targ_error (v3 * bool) :=
  bind (add_comp d i (perturbation v)) (fun d' =>
  if snd (check_bounds v (comp_of d' i)) then Ok (d', false)
  else bind (add_comp d' i (- (2 * perturbation v))) (fun d'' => Ok (d'', true))).

(** raphson_finite_diff.rs:339-426: the perturbed maneuver, and whether the perturbation is opposed. *)
Definition perturb_maneuver (m : maneuver) (v : variable) : res targ_error (maneuver * bool) :=
  let p := perturbation v in
  let large := if Rlt_dec (1 / 1000) (Rabs p) then true else false in
  match component v with
  | Duration => Ok (if large then with_end m (m_start m + of_secs p) else m, false)
  | EndEpoch => Ok (if large then with_end m (m_end m + of_secs p) else m, false)
  | StartEpoch => Ok (if large then with_start m (m_start m + of_secs p) else m, false)
  | MnvrAlpha | MnvrAlphaDot | MnvrAlphaDDot =>
      bind (vec_index (component v)) (fun i => bind (add_azimuth m p i) (fun m' => Ok (m', false)))
  | MnvrDelta | MnvrDeltaDot | MnvrDeltaDDot =>
      bind (vec_index (component v)) (fun i => bind (add_elevation m p i) (fun m' => Ok (m', false)))
  | VThrustX | VThrustY | VThrustZ =>
      bind (vec_index (component v)) (fun i => bind (lift_guid (m_direction m)) (fun d =>
      bind (perturb_vector v d i) (fun db => bind (lift_guid (set_direction m (fst db))) (fun m' => Ok (m', snd db)))))
  | ThrustRateX | ThrustRateY | ThrustRateZ =>
      bind (vec_index (component v)) (fun i => bind (lift_guid (m_rate m)) (fun d =>
      bind (perturb_vector v d ((i - 1) mod 3)) (fun db => bind (lift_guid (set_rate m (fst db))) (fun m' => Ok (m', snd db)))))
  | ThrustAccelX | ThrustAccelY | ThrustAccelZ =>
      bind (vec_index (component v)) (fun i => bind (lift_guid (m_accel m)) (fun d =>
      bind (perturb_vector v d ((i - 1) mod 3)) (fun db => bind (lift_guid (set_accel m (fst db))) (fun m' => Ok (m', snd db)))))
  | ThrustLevel => Ok (with_level m (clamp (thrust_prct m + p) 0 1), false)
  | _ => Panic
  end.

(** raphson_finite_diff.rs:631-708 and solution.rs:92-168: a correction of the maneuver. *)
Definition correct_maneuver (correction_epoch achievement_epoch : Z) (m : maneuver) (v : variable) (corr : R)
  : res targ_error maneuver :=
  let large := if Rlt_dec (1 / 1000) (Rabs corr) then true else false in
  match component v with
  | Duration =>
      Ok (if large then with_end m (m_start m + of_secs (apply_bounds v (seconds (correction_epoch - achievement_epoch)))) else m)
  | EndEpoch =>
      Ok (if large then with_end m (m_end m + of_secs (apply_bounds v (seconds (m_end m + of_secs corr - achievement_epoch)))) else m)
  | StartEpoch =>
      Ok (if large then
            with_start (with_end m (m_end m + of_secs (apply_bounds v (seconds (m_start m + of_secs corr - correction_epoch)))))
              (m_start m + of_secs corr)
          else m)
  | MnvrAlpha | MnvrAlphaDot | MnvrAlphaDDot =>
      bind (vec_index (component v)) (fun i => add_azimuth m corr i)
  | MnvrDelta | MnvrDeltaDot | MnvrDeltaDDot =>
      bind (vec_index (component v)) (fun i => add_elevation m corr i)
  | VThrustX | VThrustY | VThrustZ =>
      bind (vec_index (component v)) (fun i => bind (lift_guid (m_direction m)) (fun d =>
      bind (add_comp d i corr) (fun d' => lift_guid (set_direction m (bound_comp v d' i)))))
  | ThrustRateX | ThrustRateY | ThrustRateZ =>
      bind (vec_index (component v)) (fun i => bind (lift_guid (m_rate m)) (fun d =>
      bind (add_comp d ((i - 1) mod 3) corr) (fun d' => lift_guid (set_rate m (bound_comp v d' ((i - 1) mod 3))))))
  | ThrustAccelX | ThrustAccelY | ThrustAccelZ =>
      bind (vec_index (component v)) (fun i => bind (lift_guid (m_accel m)) (fun d =>
      bind (add_comp d ((i - 1) mod 3) corr) (fun d' => lift_guid (set_accel m (bound_comp v d' ((i - 1) mod 3))))))
  | ThrustLevel => Ok (with_level m (ensure_bounds v (thrust_prct m + corr)))
  | _ => Panic
  end.

(** ** Initial guess *)

Record guess := Guess { g_mnvr : maneuver; g_burn : bool; g_correction : vec6 }.

(** raphson_finite_diff.rs:76-93 and solution.rs:69-86. *)
Definition initial_maneuver (correction_epoch achievement_epoch : Z) : maneuver :=
  Maneuver correction_epoch achievement_epoch 1 (Angles (Quadratic 0 0 0) (Quadratic 0 0 0)) RCN.

(** raphson_finite_diff.rs:99-178 *)
Fixpoint initial_guess (t : targeter) (start : spacecraft) (vars : list variable) (g : guess) : res targ_error guess :=
  match vars with
  | [] => Ok g
  | v :: vars' =>
      if negb (valid v) then Err VariableError else
      bind (match correction_frame t with
            | Some _ => bind (vec_index (component v)) (fun i => Ok (i <? 3)%nat)
            | None => Ok false
            end) (fun position =>
      if (position : bool) then Err FrameError else
      if is_finite_burn (component v) then
        match sc_thruster start with
        | None => Err (GuidanceFailed NoThrustersDefined)
        | Some _ =>
            bind (guess_maneuver (g_mnvr g) v) (fun m =>
            initial_guess t start vars' (Guess m true (g_correction g)))
        end
      else
        bind (vec_index (component v)) (fun i => bind (add_at (g_correction g) i (init_guess v)) (fun c =>
        initial_guess t start vars' (Guess (g_mnvr g) (g_burn g) c))))
  end.

(** ** Propagation and objectives *)

(** raphson_finite_diff.rs:229-259 and 449-481. *)
Definition final_state (burn : bool) (m : maneuver) (sc : spacecraft) (achievement_epoch : Z) : res targ_error spacecraft :=
  if burn then
    bind (coast sc (m_start m)) (fun pre =>
    bind (guided_capped m (mut_mode pre Thrust) (m_end m)) (fun post => guided m post achievement_epoch))
  else coast sc achievement_epoch.

Definition is_b_plane (p : parameter) : bool := match p with BdotR | BdotT | BLTOF => true | _ => false end.
Definition b_plane_target (t : targeter) : bool := existsb (fun o => is_b_plane (obj_parameter o)) (objectives t).

(** 261-282, 291-308: the orbit in which the objectives are read, the B-plane, and a value. *)
Definition objective_orbit (t : targeter) (o : orbit) : res targ_error orbit :=
  match objective_frame t with Some f => or_fail (transform_to o f) | None => Ok o end.
Definition b_plane_of (wanted : bool) (o : orbit) : res targ_error (option (R * R * R)) :=
  if wanted then bind (or_fail (bplane o)) (fun b => Ok (Some b)) else Ok None.
Definition achieved_value (o : orbit) (b : option (R * R * R)) (p : parameter) : res targ_error R :=
  match p, b with
  | Element e, _ => or_fail (partial_for e o)
  | BdotR, Some (br, _, _) => Ok br
  | BdotT, Some (_, bt, _) => Ok bt
  | BLTOF, Some (_, _, lt) => Ok lt
  | _, _ => Panic
  end.

(** raphson_finite_diff.rs:331-530: one entry of the Jacobian. *)
Definition jacobian_entry (t : targeter) (burn : bool) (xi : spacecraft) (m : maneuver) (achievement_epoch : Z)
    (p : parameter) (achieved : R) (v : variable) : res targ_error R :=
  unwrap (
  bind (if is_finite_burn (component v) then bind (perturb_maneuver m v) (fun mb => Ok (xi, fst mb, snd mb))
        else bind (vec_index (component v)) (fun i => bind (add_at zero6 i (perturbation v)) (fun c =>
             bind (correct t xi c) (fun xi' => Ok (xi', m, false))))) (fun '(xi', m', opposed) =>
  bind (final_state burn m' (if burn then xi else xi') achievement_epoch) (fun xf =>
  bind (objective_orbit t (sc_orbit xf)) (fun o =>
  bind (b_plane_of (b_plane_target t) o) (fun b =>
  bind (achieved_value o b p) (fun this_achieved =>
  let jac_val := (this_achieved - achieved) / perturbation v in
  let jac_val := if (opposed : bool) then - jac_val else jac_val in
  Ok (match component v with ThrustLevel => - jac_val | _ => jac_val end))))))).

Fixpoint jacobian_row (t : targeter) burn xi m achievement_epoch p achieved (vars : list variable) : res targ_error (list R) :=
  match vars with
  | [] => Ok []
  | v :: vars' =>
      bind (jacobian_entry t burn xi m achievement_epoch p achieved v) (fun x =>
      bind (jacobian_row t burn xi m achievement_epoch p achieved vars') (fun r => Ok (x :: r)))
  end.

(** 291-531: the errors, whether all are small enough, and the Jacobian. *)
Fixpoint assess_all (t : targeter) burn xi m achievement_epoch (o : orbit) b (objs : list objective)
  : res targ_error (bool * list R * list (list R)) :=
  match objs with
  | [] => Ok (true, [], [])
  | ob :: objs' =>
      bind (achieved_value o b (obj_parameter ob)) (fun achieved =>
      bind (jacobian_row t burn xi m achievement_epoch (obj_parameter ob) achieved (variables t)) (fun row =>
      bind (assess_all t burn xi m achievement_epoch o b objs') (fun '(ok, errs, rows) =>
      Ok (fst (assess_value ob achieved) && ok, snd (assess_value ob achieved) :: errs, row :: rows))))
  end.

(** ** Corrections *)

(** 711-717: the step of a variable that is not one of a burn. *)
Definition limit_step (v : variable) (d : R) : R :=
  if Rlt_dec (Rabs (max_step v)) (Rabs d) then Rabs (max_step v) * fsignum d
  else if Rlt_dec (max_value v) d then max_value v
  else if Rlt_dec d (min_value v) then min_value v else d.

(** raphson_finite_diff.rs:614-720 *)
Fixpoint corrections (correction_epoch achievement_epoch : Z) (vars : list variable) (delta : list R)
    (m : maneuver) (c : vec6) : res targ_error (maneuver * vec6 * list R) :=
  match vars, delta with
  | [], _ => Ok (m, c, delta)
  | v :: vars', d :: delta' =>
      if is_finite_burn (component v) then
        bind (correct_maneuver correction_epoch achievement_epoch m v d) (fun m' =>
        bind (corrections correction_epoch achievement_epoch vars' delta' m' c) (fun '(m2, c2, ds) => Ok (m2, c2, d :: ds)))
      else
        let d' := limit_step v d in
        bind (vec_index (component v)) (fun i => bind (add_at c i d') (fun c' =>
        bind (corrections correction_epoch achievement_epoch vars' delta' m c') (fun '(m2, c2, ds) => Ok (m2, c2, d' :: ds))))
  | _ :: _, [] => Panic
  end.

Fixpoint add_lists (a b : list R) : list R :=
  match a, b with x :: a', y :: b' => (x + y) :: add_lists a' b' | _, _ => [] end.
Definition list_norm (l : list R) : R := sqrt (fold_right (fun x acc => x * x + acc) 0 l).

(** raphson_finite_diff.rs:540-545 *)
Fixpoint total_of (vars : list variable) (total : list R) (c : vec6) : res targ_error vec6 :=
  match vars, total with
  | v :: vars', x :: total' =>
      bind (vec_index (component v)) (fun i => bind (add_at c i x) (fun c' => total_of vars' total' c'))
  | _, _ => Ok c
  end.

(** raphson_finite_diff.rs:224-746: the iterations; [left] of them remain after this one. *)
Fixpoint iterate (t : targeter) (burn : bool) (start : spacecraft) (correction_epoch achievement_epoch : Z)
    (left it : nat) (xi : spacecraft) (m : maneuver) (total : list R) (prev : option R) : res targ_error solution :=
  bind (final_state burn m xi achievement_epoch) (fun xf =>
  bind (objective_orbit t (sc_orbit xf)) (fun o =>
  bind (b_plane_of (b_plane_target t) o) (fun b =>
  bind (assess_all t burn xi m achievement_epoch o b (objectives t)) (fun '(converged, errs, jac) =>
  if (converged : bool) then
    bind (if burn then Ok zero6 else total_of (variables t) total zero6) (fun c =>
    bind (correct t start c) (fun corrected =>
    Ok (Solution corrected (with_orbit start (sc_orbit xf)) total (variables t) errs it)))
  else
  if match prev with Some p => if Rlt_dec (Rabs (list_norm errs - p)) (/ 10 ^ 10) then true else false | None => false end
  then Err CorrectionIneffective else
  match solve jac errs with
  | None => Err SingularJacobian
  | Some delta =>
      bind (corrections correction_epoch achievement_epoch (variables t) delta m zero6) (fun '(m', c, delta') =>
      bind (correct t xi c) (fun xi' =>
      match left with
      | O => Err TooManyIterations
      | S left' =>
          iterate t burn start correction_epoch achievement_epoch left' (S it) xi' m' (add_lists total delta') (Some (list_norm errs))
      end))
  end)))).

(** raphson_finite_diff.rs:41-747 [try_achieve_fd] *)
Definition try_achieve_fd (t : targeter) (initial : spacecraft) (correction_epoch achievement_epoch : Z)
  : res targ_error solution :=
  match objectives t with
  | [] => Err UnderdeterminedProblem
  | _ =>
      bind (coast initial correction_epoch) (fun start =>
      bind (initial_guess t start (variables t) (Guess (initial_maneuver correction_epoch achievement_epoch) false zero6)) (fun g =>
      bind (if g_burn g then Ok start else correct t start (g_correction g)) (fun xi =>
      iterate t (g_burn g) start correction_epoch achievement_epoch (iterations t) 0 xi (g_mnvr g)
        (map init_guess (variables t)) None)))
  end.

(** ** The solution *)

(** solution.rs:54-172 [is_finite_burn] and [to_mnvr]. *)
Fixpoint rebuild (correction_epoch achievement_epoch : Z) (vars : list variable) (corr : list R) (m : maneuver) : res targ_error maneuver :=
  match vars, corr with
  | [], _ => Ok m
  | v :: vars', x :: corr' =>
      bind (correct_maneuver correction_epoch achievement_epoch m v x) (fun m' => rebuild correction_epoch achievement_epoch vars' corr' m')
  | _ :: _, [] => Panic
  end.
Definition to_mnvr (s : solution) : res targ_error maneuver :=
  if existsb (fun v => is_finite_burn (component v)) (sol_variables s) then
    let ce := epoch (sc_orbit (corrected_state s)) in
    let ae := epoch (sc_orbit (achieved_state s)) in
    rebuild ce ae (sol_variables s) (correction s) (initial_maneuver ce ae)
  else Err NotFinite.

(** targeter.rs:309-334: the objectives, in the frame of the propagation and without the factors. *)
Fixpoint verified (o : orbit) b (objs : list objective) : res targ_error bool :=
  match objs with
  | [] => Ok true
  | ob :: objs' =>
      bind (achieved_value o b (obj_parameter ob)) (fun a =>
      bind (verified o b objs') (fun rest =>
      Ok ((if Rlt_dec (obj_tolerance ob) (Rabs (desired_value ob - a)) then false else true) && rest)))
  end.

(** targeter.rs:257-351 [apply] (the trajectory is not modelled). *)
Definition apply (t : targeter) (s : solution) : res targ_error spacecraft :=
  bind (match to_mnvr s with
        | Ok m => guided m (corrected_state s) (epoch (sc_orbit (achieved_state s)))
        | Err _ => coast (corrected_state s) (epoch (sc_orbit (achieved_state s)))
        | Panic => Panic
        | NoFuel => NoFuel
        end) (fun xf =>
  bind (b_plane_of (b_plane_target t) (sc_orbit xf)) (fun b =>
  bind (verified (sc_orbit xf) b (objectives t)) (fun ok =>
  if (ok : bool) then Ok xf else Err Verification))).
End Targeter.
