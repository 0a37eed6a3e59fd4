(** Model of the process noise built from velocity errors, nyx-core/src/od/snc.rs:295-318, and of the
    replacement of the noises of a filter, nyx-core/src/od/kalman/filtering.rs:322-325.  The rest of
    these files is in [Kf_Model]. *)
From Verif Require Import Base.
From mathcomp Require Import all_ssreflect all_algebra.
From Verif Require Import Kf_Model.
Import GRing.Theory Num.Theory.
Set Implicit Arguments.
Unset Strict Implicit.
Unset Printing Implicit Defensive.
Local Open Scope ring_scope.

Section Snc.
Context {R : rcfType} {T LF : Type} {n : nat}.

(** snc.rs:297-318: [velocity_noise] is an array of three. *)
Definition from_velocity_km_s (velocity_noise : 'rV[R]_3) (noise_duration dis : Z) (lf : option LF)
    : process_noise R LF 3 :=
  {| diag := \row_i (velocity_noise 0 i / to_seconds noise_duration); disable_time := dis;
     start_time := None; local_frame := lf; decay_diag := None; init_epoch := None; prev_epoch := None |}.

(** filtering.rs:323-325: unlike [with_process_noise], the epoch of the estimate is not recorded. *)
Definition set_process_noise a (kf : kalman_filter R T LF n a) (s : process_noise R LF a) : kalman_filter R T LF n a :=
  {| prev_estimate := prev_estimate kf; process_noises := [:: s]; variant := variant kf;
     prev_used_snc := prev_used_snc kf |}.
End Snc.
