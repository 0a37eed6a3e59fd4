(** Model of the smoother: nyx-core/src/od/process/solution/smooth.rs, lines 104-249. *)
From Verif Require Import Base.
From mathcomp Require Import all_ssreflect all_algebra.
From Verif Require Import Kf_Model.
Import GRing.Theory Num.Theory.
Set Implicit Arguments.
Unset Strict Implicit.
Unset Printing Implicit Defensive.
Local Open Scope ring_scope.

(** estimate/kfestimate.rs:270-275 *)
Definition set_deviation_covar (R : rcfType) T n (e : kf_estimate R T n) (x : 'cV[R]_n) (p : 'M[R]_n)
    : kf_estimate R T n :=
  {| nominal_state := nominal_state e; state_deviation := x; covar := p;
     covar_bar := covar_bar e; predicted := predicted e; stm := stm e |}.

(** The lists of a solution (process/solution/mod.rs).  A gain is present or not; a consistency
    ratio is, per component, a number or [None] for a NaN or an infinity. *)
Record od_solution (R : rcfType) (T : Type) (n : nat) (Res : Type) := {
  estimates : seq (kf_estimate R T n);
  residuals : seq (option Res);
  gains : seq bool;
  fs_ratios : seq (option (seq (option R)))
}.

Section Smooth.
Context {R : rcfType} {T Res : Type} {n : nat}.
Notation estimate := (kf_estimate R T n).
Notation solution := (od_solution R T n Res).
(** [State::add] and [State::to_state_vector] *)
Context (add : T -> 'cV[R]_n -> T) (to_vector : T -> 'cV[R]_n).
(** smooth.rs:165-194: the residual recomputed with the device that made it, from a state;
    [Panic] if it has no tracker or the tracker is unknown. *)
Context (recompute : Res -> T -> res od_error (option Res)).

(** estimate/mod.rs:54-56 *)
Definition est_state (e : estimate) : T := add (nominal_state e) (state_deviation e).

(** smooth.rs:200-209 *)
Definition fs_ratio (est_k smoothed_k : estimate) : seq (option R) :=
  let delta_covar := covar est_k - covar smoothed_k in
  let delta_state := to_vector (est_state est_k) - to_vector (est_state smoothed_k) in
  [seq (if 0 < delta_covar i i then Some (delta_state i 0 / Num.sqrt (delta_covar i i)) else None)
     | i <- enum 'I_n].

(** smooth.rs:131-214: one turn of the loop, the smoothed lists being in pushing order. *)
Definition smooth_step (s : solution) (k : nat) (sm : solution) : res od_error solution :=
  match nth_error (estimates s) k.+1, nth_error (estimates s) k, nth_error (residuals s) k.+1 with
  | Some est_kp1, Some est_k, Some r =>
      let x_kp1 := state_deviation est_kp1 in
      let p_kp1 := covar est_kp1 in
      match try_inverse (stm est_kp1) with
      | None => Err SingularStateTransitionMatrix
      | Some phi =>
          let sm_k := set_deviation_covar est_k (phi *m x_kp1) (phi *m p_kp1 *m phi^T) in
          bind (match r with
                | None => Ok None
                | Some r => recompute r (est_state sm_k)
                end) (fun r' =>
          Ok {| estimates := rcons (estimates sm) sm_k;
                residuals := rcons (residuals sm) r';
                gains := rcons (gains sm) false;
                fs_ratios := rcons (fs_ratios sm) (Some (fs_ratio est_k sm_k)) |})
      end
  | _, _, _ => Panic
  end.

(** smooth.rs:130-219: [k] counts down to 0, when both lists have the same length. *)
Fixpoint smooth_loop (s : solution) (k : nat) (sm : solution) : res od_error solution :=
  bind (smooth_step s k sm) (fun sm =>
  match k with 0 => Ok sm | k'.+1 => smooth_loop s k' sm end).

(** smooth.rs:104-249; with less than two estimates [l] or the first [k] underflows. *)
Definition smooth (s : solution) : res od_error solution :=
  match rev (estimates s), rev (residuals s) with
  | e :: _ :: _, r :: _ =>
      bind (smooth_loop s (size (estimates s)).-2
              {| estimates := [:: e]; residuals := [:: r]; gains := [:: false];
                 fs_ratios := [:: None] |}) (fun sm =>
      Ok {| estimates := rev (estimates sm); residuals := rev (residuals sm);
            gains := gains sm; fs_ratios := rev (fs_ratios sm) |})
  | _, _ => Panic
  end.
End Smooth.
