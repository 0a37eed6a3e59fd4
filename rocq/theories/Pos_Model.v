(** Model of position devices: nyx-core/src/od/position/{mod,trk_device,sensitivity}.rs.

    The noises and the numbers drawn are those of Noise_Model.  The trajectory gives the position
    of the spacecraft at an epoch, or fails. *)
From Coq Require Import Reals String.
From Verif Require Import Base Arc_Model Vec3 Sens_Model Noise_Model.
Local Open Scope R_scope.

Inductive position_error := NoNoises | NoNoiseOf (t : msr_type) | NotACoordinate (t : msr_type) | NoState.

(** position/mod.rs:14-19 [PositionDevice]. *)
Record pos_device := {
  pd_name : string; pd_noises : option (list (msr_type * noise)); pd_types : list msr_type
}.
(** position/mod.rs:22-28 [new]. *)
Definition pd_new (name : string) : pos_device := {| pd_name := name; pd_noises := None; pd_types := [] |}.
(** position/mod.rs:30-40 [with_noise]. *)
Definition pd_with_noise (t : msr_type) (n : noise) (d : pos_device) : pos_device :=
  {| pd_name := pd_name d;
     pd_noises := Some (im_insert type_eqb t n (match pd_noises d with Some l => l | None => [] end));
     pd_types := set_insert t (pd_types d) |}.

(** trk_device.rs:101-117 [measurement_bias]. *)
Definition pd_bias (d : pos_device) (t : msr_type) : res position_error R :=
  match pd_noises d with
  | Some l => match im_get type_eqb t l with
              | None => Err (NoNoiseOf t)
              | Some n => Ok (match bias n with Some g => or_zero (constant g) | None => 0 end)
              end
  | None => Ok 0
  end.
(** trk_device.rs:88-99 [measurement_covar]. *)
Definition pd_covar (d : pos_device) (t : msr_type) : res position_error R :=
  match pd_noises d with
  | Some l => match im_get type_eqb t l with
              | None => Err (NoNoiseOf t)
              | Some n => Ok (covariance n)
              end
  | None => Ok 0
  end.

(** trk_device.rs:60-71: the noises of all observables, in their order. *)
Definition pd_sample (w : stream) (t : Z) (rng : option nat) (d : pos_device)
  : pos_device * option nat * res position_error (list (msr_type * R)) :=
  match rng with
  | None => (d, None, Ok [])
  | Some k =>
      match pd_noises d with
      | None => (d, Some k, Err NoNoises)
      | Some l =>
          let '(l', k', out) := sample_all w t (pd_types d) l k in
          ({| pd_name := pd_name d; pd_noises := Some l'; pd_types := pd_types d |}, Some k',
           match out with
           | Ok xs => Ok (combine (pd_types d) xs)
           | Err (Device (NotConfigured ty)) => Err (NoNoiseOf ty)
           | Err _ => Err NoNoises
           | Panic => Panic
           | NoFuel => NoFuel
           end)
      end
  end.

(** [radius_km[ii]], which panics past the third coordinate. *)
Definition component (r : v3) (i : nat) : res position_error R :=
  match i with O => Ok (vx r) | 1%nat => Ok (vy r) | 2%nat => Ok (vz r) | _ => Panic end.

(** trk_device.rs:74-81: the coordinate is that of the place [i] of the observable in the list. *)
Fixpoint pd_push (d : pos_device) (r : v3) (noises : list (msr_type * R)) (i : nat) (types : list msr_type)
    (out : data) : res position_error data :=
  match types with
  | [] => Ok out
  | t :: types' =>
      bind (component r i) (fun x =>
      bind (pd_bias d t) (fun b =>
      pd_push d r noises (S i) types'
        (im_insert type_eqb t (x + match im_get type_eqb t noises with Some v => v | None => 0 end + b) out)))
  end.

(** trk_device.rs:44-86 [measure_instantaneous]. *)
Definition pd_instantaneous (w : stream) (t : Z) (r : v3) (rng : option nat) (d : pos_device)
  : pos_device * option nat * res position_error (option measurement) :=
  let '(d', rng', noises) := pd_sample w t rng d in
  (d', rng', bind noises (fun ns =>
             bind (pd_push d' r ns 0 (pd_types d') []) (fun out =>
             Ok (Some {| tracker := pd_name d'; epoch := t; obs := out; rejected := false |})))).
(** trk_device.rs:22-33 [measure], with the position as a function of the epoch. *)
Definition pd_measure (w : stream) (position : Z -> option v3) (t : Z) (rng : option nat) (d : pos_device)
  : pos_device * option nat * res position_error (option measurement) :=
  match position t with
  | None => (d, rng, Err NoState)
  | Some r => pd_instantaneous w t r rng d
  end.

(** simulator/trackdata.rs:84-122 for [m] rows. *)
Definition pd_known (d : pos_device) (t : msr_type) : bool := existsb (type_eqb t) (pd_types d).
Definition pd_bias_vector (m : nat) (d : pos_device) (types : list msr_type) : res position_error (list R) :=
  fill 0 (pd_bias d) (pd_known d) m types.
Definition pd_covar_diagonal (m : nat) (d : pos_device) (types : list msr_type) : res position_error (list R) :=
  fill 0 (pd_covar d) (pd_known d) m types.

(** sensitivity.rs:51-81 [ScalarSensitivity::new]. *)
Definition pd_row (t : msr_type) : res position_error (list R) :=
  match t with
  | MX => Ok (identity_row 0 1 0)
  | MY => Ok (identity_row 0 1 1)
  | MZ => Ok (identity_row 0 1 2)
  | _ => Err (NotACoordinate t)
  end.
(** sensitivity.rs:21-48 [h_tilde]: from a matrix of zeros. *)
Definition pd_h_tilde (m : nat) (measured : data) (types : list msr_type) : res position_error (list (list R)) :=
  h_rows pd_row (fun t => match get t measured with Some _ => true | None => false end) 0 types
    (repeat (repeat 0 SIZE) m).
