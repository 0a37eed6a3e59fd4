(** Model of [nyx-core/src/propagators/options.rs] and of the constructors of
    [nyx-core/src/propagators/propagator.rs]: the options of an integrator and the instance they start.

    Durations are nanoseconds.  The choice of [error_ctrl] is the function [estimate] of the environment, as
    in [Prop_Model].  The variants in seconds ([with_adaptive_step_s], [with_fixed_step_s]) are these after
    the conversion of hifitime.  Not modelled: [Display], Dhall types, Python bindings. *)
From Coq Require Import Reals.
From Verif Require Import Base Prop_Model.
Local Open Scope Z_scope.

Section Options.
Context {F : Type}.

(** options.rs:42-60 *)
Record integrator_options := {
  io_init : Z; io_min : Z; io_max : Z; io_tolerance : R; io_attempts : nat; io_fixed : bool;
  io_frame : option F
}.

Definition milliseconds : Z := 1000000.
Definition seconds : Z := 1000000000.

(** options.rs:172-186 [default] *)
Definition default_options : integrator_options :=
  {| io_init := 60 * seconds; io_min := milliseconds; io_max := 2700 * seconds;
     io_tolerance := (/ 10 ^ 12)%R; io_attempts := 50; io_fixed := false; io_frame := None |}.
(** options.rs:66-82 *)
Definition with_adaptive_step (min max : Z) (tol : R) : integrator_options :=
  {| io_init := max; io_min := min; io_max := max; io_tolerance := tol; io_attempts := 50;
     io_fixed := false; io_frame := None |}.
(** options.rs:100-111 *)
Definition with_fixed_step (step : Z) : integrator_options :=
  {| io_init := step; io_min := step; io_max := step; io_tolerance := 0; io_attempts := 0;
     io_fixed := true; io_frame := None |}.

(** options.rs:142-147 *)
Definition set_max_step (o : integrator_options) (m : Z) : integrator_options :=
  {| io_init := if m <? io_init o then m else io_init o; io_min := io_min o; io_max := m;
     io_tolerance := io_tolerance o; io_attempts := io_attempts o; io_fixed := io_fixed o;
     io_frame := io_frame o |}.
(** options.rs:150-155 *)
Definition set_min_step (o : integrator_options) (m : Z) : integrator_options :=
  {| io_init := if io_init o <? m then m else io_init o; io_min := m; io_max := io_max o;
     io_tolerance := io_tolerance o; io_attempts := io_attempts o; io_fixed := io_fixed o;
     io_frame := io_frame o |}.
(** propagator.rs:64-66 [set_tolerance]; the other setters of the propagator (69-75) are those above. *)
Definition set_tolerance (o : integrator_options) (t : R) : integrator_options :=
  {| io_init := io_init o; io_min := io_min o; io_max := io_max o;
     io_tolerance := t; io_attempts := io_attempts o; io_fixed := io_fixed o; io_frame := io_frame o |}.

(** options.rs:118-131 *)
Definition with_tolerance (t : R) : integrator_options := set_tolerance default_options t.
Definition with_max_step (m : Z) : integrator_options := set_max_step default_options m.

(** The part of the options that the steps read. *)
Definition step_options (o : integrator_options) : options F :=
  {| tolerance := io_tolerance o; min_step := io_min o; max_step := io_max o; attempts := io_attempts o;
     integration_frame := io_frame o |}.

(** propagator.rs:88-108 [with] *)
Definition start {St} (o : integrator_options) (s : St) : inst (St := St) :=
  {| state := s; step_size := io_init o; fixed_step := io_fixed o;
     det := {| d_step := io_init o; d_error := 0%R; d_attempts := 1 |} |}.
End Options.
Arguments integrator_options : clear implicits.
