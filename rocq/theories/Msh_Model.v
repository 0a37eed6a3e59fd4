(** Model of nyx-core/src/md/opti/multipleshooting: the nodes (ctrlnodes.rs), the multiple shooting
    (multishoot.rs) and the two heuristics that make the nodes (equidistant_heuristic.rs,
    altitude_heuristic.rs).  The targeter (C84), the pseudo-inverse (C50), the propagation, the
    changes of frame and the geodesy are arguments; numbers are reals, epochs are nanoseconds.  Not
    modelled: the logs, [Display].  The files of nodes and [build_trajectories] are in Mst_Model. *)
From Coq Require Import Reals.
From Verif Require Import Base Vec3 Angles Poly_Model Sc_Model Guid_Model Targ_Model Hyp_Model.
Local Open Scope R_scope.

(** ctrlnodes.rs:70-78 [Node] *)
Record node := Node { n_x : R; n_y : R; n_z : R; n_vmag : R; n_epoch : Z; n_frame : nat }.

(** The two sizes for which ctrlnodes.rs:86-139 makes a node one of a multiple shooting. *)
Inductive size := Three | Four.
Definition ot (s : size) : nat := match s with Three => 3 | Four => 4 end%nat.

(** ctrlnodes.rs:103-111 and 130-139, with objective.rs:43-50 and param.rs:74-82. *)
Definition node_objectives (s : size) (n : node) : list objective :=
  let new e v := within_tolerance (Element e) v (1 / 1000) in
  [new X (n_x n); new Y (n_y n); new Z_ (n_z n)] ++ match s with Three => [] | Four => [new Vmag (n_vmag n)] end.

(** ctrlnodes.rs:91-99 and 118-126 [update_component] *)
Definition update_component {E} (n : node) (c : nat) (v : R) : res E node :=
  match c with
  | 0 => Ok (Node (n_x n + v) (n_y n) (n_z n) (n_vmag n) (n_epoch n) (n_frame n))
  | 1 => Ok (Node (n_x n) (n_y n + v) (n_z n) (n_vmag n) (n_epoch n) (n_frame n))
  | 2 => Ok (Node (n_x n) (n_y n) (n_z n + v) (n_vmag n) (n_epoch n) (n_frame n))
  | 3 => Ok (Node (n_x n) (n_y n) (n_z n) (n_vmag n + v) (n_epoch n) (n_frame n))
  | _ => Panic
  end%nat.

(** mod.rs:30-36 [CostFunction] and 38-56 [MultipleShootingError]: the segment and its error. *)
Inductive cost_function := MinimumEnergy | MinimumFuel.
Inductive ms_error := Segment (i : nat) (e : dual_error).
Definition at_segment {A} (i : nat) (x : res dual_error A) : res ms_error A :=
  match x with Ok a => Ok a | Err e => Err (Segment i e) | Panic => Panic | NoFuel => NoFuel end.
(** An index out of the bounds of a list. *)
Definition index {E A} (l : list A) (i : nat) : res E A := match nth_error l i with Some a => Ok a | None => Panic end.

(** multishoot.rs:122-123: the objectives of a node, one of them moved by its tolerance. *)
Definition perturbed (objs : list objective) (axis : nat) : list objective :=
  map (fun p => if (fst p =? axis)%nat
                then Objective (obj_parameter (snd p)) (desired_value (snd p) + obj_tolerance (snd p)) (obj_tolerance (snd p))
                       (multiplicative_factor (snd p)) (additive_factor (snd p))
                else snd p)
      (combine (seq 0 (length objs)) objs).

(** multishoot.rs:139-150, 166-177: the change of three components, per unit of the tolerance. *)
Definition difference (a b : list R) (tol : R) : res ms_error (list R) :=
  bind (index a 0) (fun a0 => bind (index b 0) (fun b0 => bind (index a 1) (fun a1 => bind (index b 1) (fun b1 =>
  bind (index a 2) (fun a2 => bind (index b 2) (fun b2 =>
  Ok [(a0 - b0) / tol; (a1 - b1) / tol; (a2 - b2) / tol])))))).

(** multishoot.rs:140-193: a column of the Jacobian, from its blocks of three rows; zeros elsewhere. *)
Definition column (n i : nat) (a b : list R) (c : option (list R)) : list R :=
  flat_map (fun k => if (k =? i)%nat then a else if (k =? i + 1)%nat then b
                     else match c with
                          | Some c => if (k =? i + 2)%nat then c else [0; 0; 0]
                          | None => [0; 0; 0]
                          end) (seq 0 n).

(** multishoot.rs:198-209: the cost vector and the cost. *)
Fixpoint cost_vec (dvs : list (list R)) : res ms_error (list R) :=
  match dvs with
  | [] => Ok []
  | d :: dvs' =>
      bind (index d 0) (fun x => bind (index d 1) (fun y => bind (index d 2) (fun z =>
      bind (cost_vec dvs') (fun v => Ok (x :: y :: z :: v)))))
  end.
Definition cost_of (c : cost_function) (v : list R) : R :=
  let d := fold_right (fun x acc => x * x + acc) 0 v in
  match c with MinimumEnergy => d | MinimumFuel => sqrt d end.

(** multishoot.rs:211-228: whether the improvement is small; with a null cost it is infinite, or not
    a number. *)
Definition small_improvement (prev new threshold : R) : bool :=
  if Req_EM_T new 0 then false
  else if Rlt_dec (Rabs ((prev - new) / Rabs new)) threshold then true else false.

(** multishoot.rs:266-272: the nodes move along the opposite of the step. *)
Fixpoint replace {A} (l : list A) (i : nat) (x : A) : list A :=
  match l, i with
  | [], _ => []
  | _ :: l', O => x :: l'
  | y :: l', S i' => y :: replace l' i' x
  end.
Fixpoint move_nodes (s : size) (nodes : list node) (i : nat) (step : list R) : res ms_error (list node) :=
  match step with
  | [] => Ok nodes
  | d :: step' =>
      bind (index nodes (i / 3)) (fun n =>
      bind (update_component n (i mod ot s) (- d)) (fun n' =>
      move_nodes s (replace nodes (i / 3) n') (S i) step'))
  end.

(** multishoot.rs:42-61 and 332-338 [MultipleShooting] and [MultipleShootingSolution], the parts that
    the computation reads. *)
Record shooting := Shooting {
  targets : list node; ms_x0 : spacecraft; ms_xf : orbit; max_iterations : nat; improvement_threshold : R; ms_variables : list variable
}.
Record ms_solution := MsSolution { ms_nodes : list node; ms_solutions : list solution }.

Section Solve.
(** [try_achieve_dual] of a targeter, a state, a correction epoch and an achievement epoch;
    [pseudo_inverse!(jacobian)? * cost_vec], the matrix being given by columns. *)
Context (achieve : targeter -> spacecraft -> Z -> Z -> res dual_error solution)
        (pinv : list (list R) -> list R -> option (list R)).

(** multishoot.rs:81-107 and 240-256: the targeter from each node to the next. *)
Fixpoint shoot (to : node -> targeter) (i : nat) (state : spacecraft) (nodes : list node) : res ms_error (list solution) :=
  match nodes with
  | [] => Ok []
  | n :: nodes' =>
      bind (at_segment i (achieve (to n) state (epoch (sc_orbit state)) (n_epoch n))) (fun sol =>
      bind (shoot to (S i) (achieved_state sol) nodes') (fun sols => Ok (sol :: sols)))
  end.
(** 85-92 and 245 *)
Definition outer_targeter (s : size) (vars : list variable) (n : node) : targeter :=
  Targeter (node_objectives s n) None vars None 100.
Definition inner_targeter (s : size) (n : node) : targeter := delta_v (node_objectives s n).

(** multishoot.rs:118-195: a column of the Jacobian.  [states] are the states from which the nodes
    are aimed at, [dvs] the corrections.  [targets.len() - 3] is negative with less than three nodes. *)
Definition jacobian_column (s : size) (nodes : list node) (states : list spacecraft) (dvs : list (list R)) (i axis : nat)
  : res ms_error (list R) :=
  bind (index nodes i) (fun ni =>
  bind (index nodes (i + 1)) (fun nj =>
  bind (index states i) (fun st =>
  bind (index (node_objectives s ni) axis) (fun ob =>
  let tol := obj_tolerance ob in
  bind (at_segment i (achieve (delta_v (perturbed (node_objectives s ni) axis)) st (epoch (sc_orbit st)) (n_epoch ni))) (fun sol_a =>
  bind (index dvs i) (fun dvi => bind (difference (correction sol_a) dvi tol) (fun a =>
  let sta := achieved_state sol_a in
  bind (at_segment i (achieve (inner_targeter s nj) sta (epoch (sc_orbit sta)) (n_epoch nj))) (fun sol_b =>
  bind (index dvs (i + 1)) (fun dvj => bind (difference (correction sol_b) dvj tol) (fun b =>
  if (length nodes <? 3)%nat then Panic else
  bind (if (i <? length nodes - 3)%nat then
          bind (index states (i + 2)) (fun st2 =>
          let dv := vsub (velocity_km_s (sc_orbit (achieved_state sol_b))) (velocity_km_s (sc_orbit st2)) in
          Ok (Some [vx dv / tol; vy dv / tol; vz dv / tol]))
        else Ok None) (fun c =>
  Ok (column (length nodes) i a b c)))))))))))).

Fixpoint columns_of {A} (f : A -> res ms_error (list R)) (l : list A) : res ms_error (list (list R)) :=
  match l with
  | [] => Ok []
  | x :: l' => bind (f x) (fun c => bind (columns_of f l') (fun cs => Ok (c :: cs)))
  end.
(** 110-196 *)
Definition outer_jacobian (s : size) nodes states dvs : res ms_error (list (list R)) :=
  columns_of (fun p => jacobian_column s nodes states dvs (fst p) (snd p))
    (list_prod (seq 0 (length nodes - 1)) (seq 0 (ot s))).

(** multishoot.rs:71-278: the iterations. *)
Fixpoint ms_iterate (s : size) (cost : cost_function) (x0 : spacecraft) (threshold : R) (vars : list variable)
    (left : nat) (nodes : list node) (prev : R) : res ms_error ms_solution :=
  match left with
  | O => Err (Segment 0 DualTooMany)
  | S left' =>
      if (length nodes =? 0)%nat then Panic else
      bind (shoot (outer_targeter s vars) 0 x0 nodes) (fun sols =>
      let states := x0 :: map achieved_state sols in
      let dvs := map correction sols in
      bind (outer_jacobian s nodes states dvs) (fun jac =>
      bind (cost_vec dvs) (fun v =>
      let new := cost_of cost v in
      if small_improvement prev new threshold then
        bind (shoot (inner_targeter s) 0 x0 nodes) (fun final => Ok (MsSolution nodes final))
      else
      match pinv jac v with
      | None => Err (Segment 0 DualSingular)
      | Some step =>
          bind (move_nodes s nodes 0 step) (fun nodes' => ms_iterate s cost x0 threshold vars left' nodes' new)
      end)))
  end.

(** multishoot.rs:65-279 [solve] *)
Definition ms_solve (s : size) (cost : cost_function) (m : shooting) : res ms_error ms_solution :=
  ms_iterate s cost (ms_x0 m) (improvement_threshold m) (ms_variables m) (max_iterations m) (targets m) (10 ^ 12).
End Solve.

(** ** Heuristics *)

Inductive heuristic_error := Underdetermined | TooClose | HProp | HTraj | HAlmanac | HPhysics.
Definition velocity_variables : list variable := [variable_of VelocityX; variable_of VelocityY; variable_of VelocityZ].

Section Heuristics.
(** [Duration / f64] of hifitime. *)
Context (div : Z -> nat -> Z).

(** equidistant_heuristic.rs:52-71: [count] nodes from a previous position and epoch. *)
Fixpoint equidistant (count : nat) (step : v3) (dt : Z) (f : nat) (r : v3) (e : Z) : list node :=
  match count with
  | O => []
  | S count' =>
      let r' := vadd r step in
      let e' := (e + dt)%Z in
      Node (vx r') (vy r') (vz r') 0 e' f :: equidistant count' step dt f r' e'
  end.

(** equidistant_heuristic.rs:32-87 [equidistant_nodes]; [f64::EPSILON] is 2^-52. *)
Definition equidistant_nodes (x0 : spacecraft) (xf : orbit) (count : nat) : res heuristic_error shooting :=
  if (count <? 3)%nat then Err Underdetermined else
  let o := sc_orbit x0 in
  let direction := vsub (radius_km xf) (radius_km o) in
  if Rlt_dec (norm direction) (/ 2 ^ 52) then Err TooClose else
  let increment := norm direction / INR count in
  let dt := div (epoch xf - epoch o)%Z count in
  let unit := vscale (/ norm direction) direction in
  Ok (Shooting (equidistant count (vscale increment unit) dt (frame o) (radius_km o) (epoch o)) x0 xf 50 (1 / 100) velocity_variables).

(** The ballistic trajectory ([for_duration_with_traj], then [at]); anise: [transform_to],
    [height_km], [latitude_deg], [longitude_deg] and [try_latlongalt]. *)
Context (trajectory : spacecraft -> Z -> option (Z -> option orbit))
        (transform_to : orbit -> nat -> option orbit)
        (height latitude : orbit -> option R) (longitude : orbit -> R)
        (latlongalt : R -> R -> R -> Z -> nat -> option orbit).
Definition or_error {A} (e : heuristic_error) (x : option A) : res heuristic_error A :=
  match x with Some a => Ok a | None => Err e end.

(** altitude_heuristic.rs:74-119: the node number [i] and those after it, [left] of them. *)
Fixpoint altitude_nodes (count : nat) (xf_bf : orbit) (body : nat) (at_epoch : Z -> option orbit) (dt : Z) (f : nat)
    (left i : nat) (prev : Z) : res heuristic_error (list node) :=
  match left with
  | O => Ok []
  | S left' =>
      let e := (prev + dt)%Z in
      bind (or_error HTraj (at_epoch e)) (fun point =>
      bind (or_error HAlmanac (transform_to point body)) (fun pbf =>
      bind (or_error HPhysics (height xf_bf)) (fun hf =>
      bind (or_error HPhysics (height pbf)) (fun h =>
      let alt := (hf - h) / sqrt (INR (count - i)) in
      bind (or_error HPhysics (latitude pbf)) (fun lat =>
      bind (or_error HPhysics (latlongalt lat (longitude pbf) (h + alt) e body)) (fun nbf =>
      bind (or_error HAlmanac (transform_to nbf f)) (fun o =>
      let r := radius_km o in
      bind (altitude_nodes count xf_bf body at_epoch dt f left' (S i) e) (fun nodes =>
      Ok (Node (vx r) (vy r) (vz r) 0 e f :: nodes)))))))))
  end.

(** altitude_heuristic.rs:38-135 [linear_altitude_heuristic] *)
Definition linear_altitude_heuristic (x0 : spacecraft) (xf : orbit) (count body : nat) : res heuristic_error shooting :=
  if (count <? 3)%nat then Err Underdetermined else
  let o := sc_orbit x0 in
  bind (or_error HAlmanac (transform_to xf body)) (fun xf_bf =>
  let dt := div (epoch xf - epoch o)%Z count in
  bind (or_error HProp (trajectory x0 (epoch xf - epoch o)%Z)) (fun traj =>
  bind (altitude_nodes count xf_bf body traj dt (frame o) count 0 (epoch o)) (fun nodes =>
  Ok (Shooting nodes x0 xf 100 (1 / 100) velocity_variables)))).
End Heuristics.
