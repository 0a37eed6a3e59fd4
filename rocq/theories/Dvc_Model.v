(** Model of nyx-core/src/dynamics/deltavctrl.rs: schedules of impulsive burns. *)
From Coq Require Import Reals ZArith.
From Verif Require Import Base Vec3 Angles Poly_Model Sc_Model Guid_Model.

(** deltavctrl.rs:37-42 [ImpulsiveBurns] *)
Record burns := Burns { mnvrs : list maneuver; mnvr_no : nat }.

(** deltavctrl.rs:46-48 [from_mnvrs] *)
Definition from_mnvrs (l : list maneuver) : burns := Burns l 0.

Section Control.
(** anise: [dcm_from_vnc_to_inertial], which fails on an orbit without a plane. *)
Context (vnc_to_inertial : orbit -> option m3).

(** deltavctrl.rs:52-63 [ctrl_vector]; the [unwrap] is a panic. *)
Definition ctrl_vector (b : burns) (o : orbit) : res guid_error v3 :=
  match nth_error (mnvrs b) (mnvr_no b) with
  | None => Ok vzero
  | Some m =>
      if (m_start m <=? epoch o)%Z && (epoch o <=? m_end m)%Z then
        match vnc_to_inertial o with
        | None => Panic
        | Some d => bind (m_vector m (epoch o)) (fun v => Ok (mv d v))
        end
      else Ok vzero
  end.
End Control.

(** deltavctrl.rs:65-72 [next] *)
Definition next_burn (b : burns) (o : orbit) : burns :=
  match nth_error (mnvrs b) (mnvr_no b) with
  | None => b
  | Some m => if (m_end m <=? epoch o)%Z then Burns (mnvrs b) (S (mnvr_no b)) else b
  end.
