(** The orbit determination process with its Kalman filter: the process of [Odp_Model]
    (nyx-core/src/od/process/mod.rs) given the filter of [Kf_Model] (nyx-core/src/od/kalman).

    The process holds observations as Coq reals and the filter as elements of a real closed field;
    [embed] is any function from the former to the latter.  Of [MsrSize::DIM] rows, those beyond the
    types of a measurement are zero in both. *)
From Verif Require Import Base.
From mathcomp Require Import all_ssreflect all_algebra.
From Coq Require Reals.
From Verif Require Odp_Model Sol_Model.
From Verif Require Import Kf_Model.
Set Implicit Arguments.
Unset Strict Implicit.
Unset Printing Implicit Defensive.
Local Open Scope ring_scope.

Section Ops.
Context {R : rcfType} {T LF : Type} {n a m : nat}.
Context (stm_of : T -> option 'M[R]_n) (epoch_of : T -> Z)
        (dcm_to_inertial : T -> LF -> option (DCM R)) (exp : R -> R) (add : T -> 'cV[R]_n -> T).
Context (embed : Rdefinitions.R -> R).
(** process/mod.rs:60-62: the process noises and the variant of the process *)
Context (noises : list (process_noise R LF a)) (var : kalman_variant).

Definition column (l : list Rdefinitions.R) : 'cV[R]_m := \col_i nth 0 (List.map embed l) i.

(** process/mod.rs:191-199 and 453-461 ([start_filter]); estimate/mod.rs:54-56 ([state_of]);
    filtering.rs:318-320 ([replace_state]) *)
Definition kalman_ops : Odp_Model.filter_ops T (kalman_filter R T LF n a) (kf_estimate R T n)
    (residual R m) 'M[R]_(n, m) 'M[R]_m 'M[R]_(m, n) od_error :=
  {| Odp_Model.start_filter e :=
       {| prev_estimate := e; process_noises := noises; variant := var; prev_used_snc := 0 |};
     Odp_Model.initialize_noises := initialize_process_noises epoch_of add;
     Odp_Model.time_update kf s := time_update stm_of epoch_of dcm_to_inertial exp add kf s;
     Odp_Model.measurement_update kf s real computed c h crit :=
       match measurement_update stm_of epoch_of dcm_to_inertial exp add kf s (column real)
               (column computed) c h (option_map embed crit) with
       | (kf', Ok (e, r, g)) =>
           (kf', Ok (e, {| Sol_Model.values := r; Sol_Model.res_rejected := rejected r;
                           Sol_Model.res_tracker := None; Sol_Model.res_types := [::] |}, g))
       | (kf', Err x) => (kf', Err x)
       | (kf', Panic) => (kf', Panic)
       | (kf', NoFuel) => (kf', NoFuel)
       end;
     Odp_Model.replace_state kf := match variant kf with ReferenceUpdate => true | DeviationTracking => false end;
     Odp_Model.nominal_of e := nominal_state e;
     Odp_Model.state_of e := add (nominal_state e) (state_deviation e) |}.
End Ops.
