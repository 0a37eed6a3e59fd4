(** Model of nyx-core/src/md/opti/raphson_hyperdual.rs: the targeter whose Jacobian is made of the
    partials of the objectives and of the state transition matrix.  The targeter, its variables and
    its solution are those of Targ_Model.  The propagation, the change of frame, the partials and
    the pseudo-inverse (C50) are arguments; numbers are reals.  Not modelled: the logs, the width of
    their columns (102-121), the durations, the warning on the eigenvalues (138-143). *)
From Coq Require Import Reals.
From Verif Require Import Base Vec3 Angles Poly_Model Sc_Model Guid_Model Targ_Model.
Local Open Scope R_scope.

(** [TargetingError], the variants met here. *)
Inductive dual_error :=
| NoObjective | DualProp | UnsupportedVariable (v : vary) | DualAstro | DualSingular | DualIneffective | DualTooMany.

(** A value and its partials with respect to the position and velocity (anise: [OrbitalElement]
    partials, [wrt_x] to [wrt_vz]). *)
Definition dual6 : Type := R * vec6.
Definition dot6 (a b : vec6) : R := dot (fst a) (fst b) + dot (snd a) (snd b).

(** raphson_hyperdual.rs:228-232: a column of the upper left block of six rows and columns of the
    transition matrix, which has nine and is stored by columns. *)
Definition stm_column (phi : list R) (j : nat) : vec6 :=
  let at_row i := nth (9 * j + i) phi 0 in
  (V3 (at_row 0%nat) (at_row 1%nat) (at_row 2%nat), V3 (at_row 3%nat) (at_row 4%nat) (at_row 5%nat)).

(** raphson_hyperdual.rs:72-96, 245-257 and 314-338: a change of a component of the state. *)
Definition shift (sc : spacecraft) (v : vary) (x : R) : res dual_error spacecraft :=
  let o := sc_orbit sc in
  let r := radius_km o in
  let w := velocity_km_s o in
  let put r w := Ok (with_orbit sc (Orbit (epoch o) (frame o) r w)) in
  match v with
  | PositionX => put (V3 (vx r + x) (vy r) (vz r)) w
  | PositionY => put (V3 (vx r) (vy r + x) (vz r)) w
  | PositionZ => put (V3 (vx r) (vy r) (vz r + x)) w
  | VelocityX => put r (V3 (vx w + x) (vy w) (vz w))
  | VelocityY => put r (V3 (vx w) (vy w + x) (vz w))
  | VelocityZ => put r (V3 (vx w) (vy w) (vz w + x))
  | _ => Err (UnsupportedVariable v)
  end.
Fixpoint shift_all (sc : spacecraft) (vars : list variable) (xs : list R) : res dual_error spacecraft :=
  match vars, xs with
  | [], _ => Ok sc
  | v :: vars', x :: xs' => bind (shift sc (component v) x) (fun sc' => shift_all sc' vars' xs')
  | _ :: _, [] => Panic
  end.

(** raphson_hyperdual.rs:300-307: the step of a variable; its maximum is not made positive. *)
Definition limit_dual (v : variable) (d : R) : R :=
  if Rlt_dec (max_step v) (Rabs d) then max_step v * fsignum d
  else if Rlt_dec (max_value v) d then max_value v
  else if Rlt_dec d (min_value v) then min_value v else d.
Fixpoint limit_all (vars : list variable) (delta : list R) : res dual_error (list R) :=
  match vars, delta with
  | [], _ => Ok []
  | v :: vars', d :: delta' => bind (limit_all vars' delta') (fun ds => Ok (limit_dual v d :: ds))
  | _ :: _, [] => Panic
  end.

Section Dual.
(** [self.prop.with(state).until_epoch(epoch)]; anise: [transform_to], [partial_for] and the
    B-plane with their partials; [pseudo_inverse!(jac)? * err_vector]. *)
Context (coast : spacecraft -> Z -> res dual_error spacecraft)
        (transform_to : orbit -> nat -> option orbit)
        (partial_for : element -> orbit -> option dual6)
        (bplane : orbit -> option (dual6 * dual6 * dual6))
        (solve : list (list R) -> list R -> option (list R)).

Definition or_astro {A} (x : option A) : res dual_error A := match x with Some a => Ok a | None => Err DualAstro end.

(** raphson_hyperdual.rs:145-166: the orbit in which the objectives are read, and its B-plane. *)
Definition dual_orbit (t : targeter) (o : orbit) : res dual_error orbit :=
  match objective_frame t with Some f => or_astro (transform_to o f) | None => Ok o end.
Definition dual_bplane (t : targeter) (o : orbit) : res dual_error (option (dual6 * dual6 * dual6)) :=
  if b_plane_target t then bind (or_astro (bplane o)) (fun b => Ok (Some b)) else Ok None.

(** raphson_hyperdual.rs:176-190; other parameters are [unreachable!]. *)
Definition dual_value (o : orbit) (b : option (dual6 * dual6 * dual6)) (p : parameter) : res dual_error dual6 :=
  match p, b with
  | Element e, _ => or_astro (partial_for e o)
  | BdotR, Some (br, _, _) => Ok br
  | BdotT, Some (_, bt, _) => Ok bt
  | BLTOF, Some (_, _, lt) => Ok lt
  | _, _ => Panic
  end.

(** raphson_hyperdual.rs:226-234: a row of the Jacobian. *)
Fixpoint dual_row (phi : list R) (g : vec6) (vars : list variable) : res dual_error (list R) :=
  match vars with
  | [] => Ok []
  | v :: vars' =>
      match vec_index (component v) with
      | Ok i => bind (dual_row phi g vars') (fun r => Ok (dot6 g (stm_column phi i) :: r))
      | _ => Panic
      end
  end.

(** raphson_hyperdual.rs:175-235: the errors, whether all are small enough, and the Jacobian. *)
Fixpoint dual_assess (t : targeter) (phi : list R) (o : orbit) b (objs : list objective)
  : res dual_error (bool * list R * list (list R)) :=
  match objs with
  | [] => Ok (true, [], [])
  | ob :: objs' =>
      bind (dual_value o b (obj_parameter ob)) (fun x =>
      bind (dual_row phi (snd x) (variables t)) (fun row =>
      bind (dual_assess t phi o b objs') (fun '(ok, errs, rows) =>
      Ok (fst (assess_value ob (fst x)) && ok, snd (assess_value ob (fst x)) :: errs, row :: rows))))
  end.

(** raphson_hyperdual.rs:126-350: the iterations; [left] of them remain after this one. *)
Fixpoint dual_iterate (t : targeter) (start : spacecraft) (achievement_epoch : Z)
    (left it : nat) (xi : spacecraft) (total : list R) (prev : option R) : res dual_error solution :=
  let xi := with_stm xi in
  bind (coast xi achievement_epoch) (fun xf =>
  match stm xf with
  | None => Panic
  | Some phi =>
  bind (dual_orbit t (sc_orbit xf)) (fun o =>
  bind (dual_bplane t o) (fun b =>
  bind (dual_assess t phi o b (objectives t)) (fun '(converged, errs, jac) =>
  if (converged : bool) then
    bind (shift_all start (variables t) total) (fun corrected =>
    Ok (Solution corrected xf total (variables t) errs it))
  else
  if match prev with Some p => if Rlt_dec (Rabs (list_norm errs - p)) (/ 10 ^ 10) then true else false | None => false end
  then Err DualIneffective else
  match solve jac errs with
  | None => Err DualSingular
  | Some delta =>
      bind (limit_all (variables t) delta) (fun delta' =>
      bind (shift_all xi (variables t) delta') (fun xi' =>
      match left with
      | O => Err DualTooMany
      | S left' => dual_iterate t start achievement_epoch left' (S it) xi' (add_lists total delta') (Some (list_norm errs))
      end))
  end)))
  end).

(** raphson_hyperdual.rs:37-351 [try_achieve_dual] *)
Definition try_achieve_dual (t : targeter) (initial : spacecraft) (correction_epoch achievement_epoch : Z)
  : res dual_error solution :=
  match objectives t with
  | [] => Err NoObjective
  | _ =>
      bind (coast initial correction_epoch) (fun start =>
      bind (shift_all start (variables t) (map init_guess (variables t))) (fun xi =>
      dual_iterate t start achievement_epoch (iterations t) 0 xi (map init_guess (variables t)) None))
  end.
End Dual.

(** ** Targeters *)

(** targeter.rs:71-117 [delta_v], [delta_r] and [vnc]; [vnc_frame] is the number of this frame. *)
Definition delta_v (objs : list objective) : targeter :=
  Targeter objs None [variable_of VelocityX; variable_of VelocityY; variable_of VelocityZ] None 100.
Definition delta_r (objs : list objective) : targeter :=
  Targeter objs None [variable_of PositionX; variable_of PositionY; variable_of PositionZ] None 100.
Definition vnc (vnc_frame : nat) (objs : list objective) : targeter :=
  Targeter objs None [variable_of VelocityX; variable_of VelocityY; variable_of VelocityZ] (Some vnc_frame) 100.
