(** Model of the rest of nyx-core/src/md/opti/multipleshooting: the trajectories of a solution
    (multishoot.rs:347-371) and the nodes of a file (ctrlnodes.rs:30-68, 141-167).  The targeters are
    those of Targ_Model; a trajectory is shown by its first and last orbits (the states of
    [until_epoch_with_traj] are those of C11 and C13).  The text of an epoch is an argument.  Not
    modelled: serde, the text of the frame. *)
From Coq Require Import Reals String.
From Verif Require Import Base Vec3 Angles Poly_Model Sc_Model Guid_Model Targ_Model Hyp_Model Msh_Model.
Local Open Scope R_scope.

(** mod.rs:38-56 [MultipleShootingError::TargetingError], here with the error of [apply]. *)
Inductive rebuild_error := RebuildSegment (i : nat) (e : targ_error).

Section Rebuild.
(** The arguments of [apply] (Targ_Model). *)
Context (coast : spacecraft -> Z -> res targ_error spacecraft)
        (guided : maneuver -> spacecraft -> Z -> res targ_error spacecraft)
        (partial_for : element -> orbit -> option R)
        (bplane : orbit -> option (R * R * R))
        (of_secs : R -> Z).

(** targeter.rs:268-351 [apply_with_traj]: the final state, the ends of the trajectory. *)
Definition apply_with_traj (t : targeter) (s : solution) : res targ_error (spacecraft * (orbit * orbit)) :=
  bind (apply coast guided partial_for bplane of_secs t s) (fun xf =>
  Ok (xf, (sc_orbit (corrected_state s), sc_orbit xf))).

(** multishoot.rs:357-369: the nodes from number [i] on; [self.solutions[i]] may be out of bounds. *)
Fixpoint trajectories_from (s : size) (sols : list solution) (i : nat) (nodes : list node) : res rebuild_error (list (orbit * orbit)) :=
  match nodes with
  | [] => Ok []
  | n :: nodes' =>
      bind (index sols i) (fun sol =>
      match apply_with_traj (delta_v (node_objectives s n)) sol with
      | Ok (_, traj) => bind (trajectories_from s sols (S i) nodes') (fun trajs => Ok (traj :: trajs))
      | Err e => Err (RebuildSegment i e)
      | Panic => Panic
      | NoFuel => NoFuel
      end)
  end.
(** multishoot.rs:350-370 [build_trajectories] *)
Definition build_trajectories (s : size) (r : ms_solution) : res rebuild_error (list (orbit * orbit)) :=
  trajectories_from s (ms_solutions r) 0 (ms_nodes r).
End Rebuild.

(** ** Files *)

(** ctrlnodes.rs:45-53 [NodeSerde] *)
Record node_serde := NodeSerde { s_x : R; s_y : R; s_z : R; s_vmag : option R; s_epoch : string; s_frame : nat }.

Section Files.
(** hifitime: [Epoch::from_str], [to_string]. *)
Context (parse : string -> option Z) (show : Z -> string).

(** ctrlnodes.rs:56-67 [to_node]: the epoch is unwrapped, there is no error. *)
Definition to_node (n : node_serde) : res unit node :=
  match parse (s_epoch n) with
  | Some e => Ok (Node (s_x n) (s_y n) (s_z n) (match s_vmag n with Some v => v | None => 0 end) e (s_frame n))
  | None => Panic
  end.
(** ctrlnodes.rs:36-42 [to_node_vec] *)
Fixpoint to_node_vec (l : list node_serde) : res unit (list node) :=
  match l with
  | [] => Ok []
  | n :: l' => bind (to_node n) (fun m => bind (to_node_vec l') (fun ms => Ok (m :: ms)))
  end.
(** ctrlnodes.rs:141-167 [Into<NodeSerde>], for a node and a reference to one. *)
Definition of_node (n : node) : node_serde :=
  NodeSerde (n_x n) (n_y n) (n_z n) (Some (n_vmag n)) (show (n_epoch n)) (n_frame n).
End Files.
