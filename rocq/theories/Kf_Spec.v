(** What the properties of the filter refer to: covariance matrices. *)
From Verif Require Import Base.
From mathcomp Require Import all_ssreflect all_algebra.
Set Implicit Arguments.
Unset Strict Implicit.
Unset Printing Implicit Defensive.
Local Open Scope ring_scope.

Section Spec.
Context {R : rcfType}.

(** The quadratic form of a matrix. *)
Definition quad n (P : 'M[R]_n) (x : 'cV[R]_n) : R := (x^T *m P *m x) 0 0.
Definition psd n (P : 'M[R]_n) : Prop := forall x, 0 <= quad P x.
(** Symmetric positive semi-definite, and symmetric positive definite. *)
Definition covariance n (P : 'M[R]_n) : Prop := P^T = P /\ psd P.
Definition definite n (P : 'M[R]_n) : Prop := P^T = P /\ forall x, x != 0 -> 0 < quad P x.
(** [P] is at most as uncertain as [Q], in every direction. *)
Definition below n (P Q : 'M[R]_n) : Prop := forall x, quad P x <= quad Q x.
End Spec.

(** Sequences of updates of a filter. *)
From Verif Require Import Kf_Model.
Section Runs.
Context {R : rcfType} {T LF : Type} {n a : nat}.
Context (stm_of : T -> option 'M[R]_n) (epoch_of : T -> Z)
        (dcm_to_inertial : T -> LF -> option (DCM R)) (exp : R -> R) (add : T -> 'cV[R]_n -> T).

Inductive update :=
| Time (nominal : T)
| Measurement (m : nat) (nominal : T) (real computed : 'cV[R]_m) (r_k : 'M[R]_m)
    (h_tilde : 'M[R]_(m, n)) (rejection : option R).

Definition apply (kf : kalman_filter R T LF n a) (u : update) : kalman_filter R T LF n a :=
  match u with
  | Time t => (time_update stm_of epoch_of dcm_to_inertial exp add kf t).1
  | Measurement _ t z c r h rej =>
      (measurement_update stm_of epoch_of dcm_to_inertial exp add kf t z c r h rej).1
  end.
Definition run := foldl apply.

(** The measurement noise of an update is a covariance. *)
Definition noise_is_covariance (u : update) : Prop :=
  match u with Time _ => True | Measurement _ _ _ _ r _ _ => covariance r end.

(** No negative variance in a process noise. *)
Definition nonnegative_noise (s : process_noise R LF a) : Prop := forall i, 0 <= diag s 0 i.

(** A filter that holds a covariance, and no negative variance. *)
Definition valid (kf : kalman_filter R T LF n a) : Prop :=
  covariance (covar (prev_estimate kf)) /\
  forall s, List.In s (process_noises kf) -> nonnegative_noise s.

(** A process noise applies at an epoch, some time after the previous estimate. *)
Definition applicable (s : process_noise R LF a) (epoch gap : Z) : Prop :=
  (forall t, start_time s = Some t -> Z.le t epoch) /\
  (forall t, prev_epoch s = Some t -> Z.le (Z.sub epoch t) (disable_time s)) /\
  Z.le gap (disable_time s).

(** The variance along each axis, with its decay since the filter was set up. *)
Definition axis_variance (s : process_noise R LF a) (epoch : Z) (v : 'rV[R]_a) : Prop :=
  match decay_diag s, init_epoch s with
  | None, _ => v = diag s
  | Some rates, Some start =>
      forall i, v 0 i = diag s 0 i * exp (- (nth 0 rates i * to_seconds (Z.sub epoch start)))
  | Some _, None => False
  end.
End Runs.
Arguments update : clear implicits.

(** The effect after a time [dt] of a constant acceleration along axis [k], one per unit, on
    component [i] of a state that starts with position and velocity. *)
Definition effect {R : rcfType} (dt : R) (k i : nat) : R :=
  if i == k then dt ^+ 2 / 2%:R else if i == (k + 3)%N then dt else 0.
