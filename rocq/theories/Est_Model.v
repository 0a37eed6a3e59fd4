(** Model of the initial estimates of a filter and of the uncertainties read from an estimate:
    nyx-core/src/od/estimate/sc_uncertainty.rs and kfestimate.rs, and the covariances in the RIC
    frame of nyx-core/src/od/process/solution/export.rs, lines 428-455.  Matrices have exact entries
    in a real closed field. *)
From Verif Require Import Base.
From mathcomp Require Import all_ssreflect all_algebra.
From Verif Require Import Kf_Model Util_Pinv Mvn_Model.
Import Order.TTheory GRing.Theory Num.Theory.
Set Implicit Arguments.
Unset Strict Implicit.
Unset Printing Implicit Defensive.
Local Open Scope ring_scope.

Inductive estimate_error := NegativeUncertainty | EstPhysics.

Section Estimates.
Context {R : rcfType} {T LF elt : Type}.
Notation estimate := (kf_estimate R T 9).

(** sc_uncertainty.rs:39-61 [SpacecraftUncertainty]: the deviations of the position and the velocity
    are [sigmas]. *)
Record uncertainty := {
  u_nominal : T; u_frame : option LF; sigmas : 'rV[R]_6;
  sigma_reflectivity : R; sigma_drag : R; sigma_mass : R
}.

(** kfestimate.rs:75-87 [from_covar], 90-100 [from_diag] *)
Definition from_covar (nominal : T) (p : 'M[R]_9) : estimate :=
  {| nominal_state := nominal; state_deviation := 0; covar := p; covar_bar := p; predicted := true; stm := 1%:M |}.
Definition from_diag (nominal : T) (d : 'rV[R]_9) : estimate := from_covar nominal (diag_mx d).

(** anise: [dcm_to_inertial]; [inertial] is [LocalFrame::Inertial]. *)
Context (inertial : LF) (dcm_to_inertial : T -> LF -> option (DCM R)).

Definition squares n (s : 'rV[R]_n) : 'rV[R]_n := \row_i s 0 i ^+ 2.
Definition three (a b c : R) : 'rV[R]_3 := \row_i (if i == 0 then a else if i == 1 then b else c).

(** sc_uncertainty.rs:68-137 [to_estimate] *)
Definition to_estimate (u : uncertainty) : res estimate_error estimate :=
  if [exists i, sigmas u 0 i < 0] || (sigma_drag u < 0) || (sigma_reflectivity u < 0) || (sigma_mass u < 0)
  then Err NegativeUncertainty else
  match dcm_to_inertial (u_nominal u) (match u_frame u with Some f => f | None => inertial end) with
  | None => Err EstPhysics
  | Some d =>
      let other_cov := diag_mx (squares (sigmas u)) in
      let rot_covar := (state_dcm d)^T *m other_cov *m state_dcm d in
      Ok (from_covar (u_nominal u)
           (block_mx rot_covar 0 0 (diag_mx (squares (three (sigma_reflectivity u) (sigma_drag u) (sigma_mass u)))) : 'M[R]_(6 + 3)))
  end.

(** [covar.fixed_view::<6, 6>(0, 0)] *)
Definition orbit_covar (p : 'M[R]_9) : 'M[R]_6 := ulsubmx (p : 'M[R]_(6 + 3)).

(** anise: [OrbitGrad::partial_for], the partials of an element in the position and the velocity. *)
Context (partial_for : T -> elt -> option 'rV[R]_6).

(** kfestimate.rs:165-190 [sigma_for] *)
Definition sigma_for (e : estimate) (p : elt) : res estimate_error R :=
  match partial_for (nominal_state e) p with
  | None => Err EstPhysics
  | Some g => Ok (Num.sqrt ((g *m orbit_covar (covar e) *m g^T) 0 0))
  end.

(** kfestimate.rs:193-230 [keplerian_covar]; [elements] are the six elements, in order.  The
    [unwrap] is a panic. *)
Definition keplerian_covar (elements : 'I_6 -> elt) (e : estimate) : res estimate_error 'M[R]_6 :=
  let rows := fun i => partial_for (nominal_state e) (elements i) in
  if [exists i, match rows i with None => true | Some _ => false end] then Panic else
  let rotmat := \matrix_(i < 6, j < 6) match rows i with Some g => g 0 j | None => 0 end in
  Ok (rotmat *m orbit_covar (covar e) *m rotmat^T).

(** kfestimate.rs:371-374 [mul] *)
Definition scale_estimate (e : estimate) (k : R) : estimate :=
  {| nominal_state := nominal_state e; state_deviation := state_deviation e; covar := k ^+ 2 *: covar e;
     covar_bar := covar_bar e; predicted := predicted e; stm := stm e |}.

(** process/solution/export.rs:431-446: the covariance exported in the RIC frame of the estimated
    state, and 449-455: its deviations; [ric] is anise's [dcm_from_ric_to_inertial]. *)
Definition exported_ric_covar (ric : T -> option (DCM R)) (state : estimate -> T) (e : estimate) : res estimate_error 'M[R]_6 :=
  match ric (state e) with
  | None => Panic
  | Some d => Ok (state_dcm d *m orbit_covar (covar e) *m (state_dcm d)^T)
  end.
Definition exported_ric_sigma ric state (e : estimate) (i : 'I_6) : res estimate_error R :=
  bind (exported_ric_covar ric state e) (fun p => Ok (Num.sqrt (p i i))).
End Estimates.
Arguments uncertainty : clear implicits.

(** kfestimate.rs:104-160 [from_dispersions]: the estimate from the sample that was drawn; the state
    is the nine numbers of Mvn_Model.  [delta_orbit] is a difference of states of the same frame. *)
Definition from_sample (R : rcfType) (nominal dispersed : craft R) : kf_estimate R (craft R) 9 :=
  let dev := coords nominal - coords dispersed in
  let p := diag_mx (\row_(i < 9) (3%:R * `|dev i 0|) ^+ 2) in
  {| nominal_state := nominal; state_deviation := dev; covar := p; covar_bar := p; predicted := true; stm := 1%:M |}.
(** [State::add] of a spacecraft: cosmic/spacecraft.rs [Add<OVector<f64, Const<9>>>], the coefficients
    being within their bounds and the mass positive. *)
Definition craft_add (R : rcfType) (t : craft R) (x : 'cV[R]_9) : craft R :=
  {| coords := coords t + x; dry_mass := dry_mass t |}.
(** estimate/mod.rs:54-56 [state] *)
Definition craft_state (R : rcfType) (e : kf_estimate R (craft R) 9) : craft R := craft_add (nominal_state e) (state_deviation e).
