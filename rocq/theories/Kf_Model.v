(** Model of the sequential orbit determination filter: nyx-core/src/od/kalman/filtering.rs,
    kalman/mod.rs, kalman/initializers.rs and od/snc.rs.

    Matrices have exact entries in an arbitrary real closed field [R] (the reals are one), not
    floating point numbers.  Epochs and durations are in nanoseconds.  Log messages are left out.
    Of nalgebra: a triangular solve is the product with the inverse of the triangular factor, and
    [try_inverse] is the inverse of an invertible matrix and [None] otherwise. *)
From Verif Require Import Base.
From mathcomp Require Import all_ssreflect all_algebra.
Import Order.TTheory GRing.Theory Num.Theory.
Set Implicit Arguments.
Unset Strict Implicit.
Unset Printing Implicit Defensive.
Local Open Scope ring_scope.

Section Linear_algebra.
Context {R : rcfType}.

(** nalgebra: [Cholesky::new], which reads the lower triangle only and fails on a diagonal
    entry that is not positive. *)
Fixpoint cholesky (m : nat) : 'M[R]_m -> option 'M[R]_m :=
  match m with
  | 0 => fun A => Some A
  | m'.+1 => fun A : 'M[R]_(1 + m') =>
      let d := A 0 0 in
      if 0 < d then
        let c := (Num.sqrt d)^-1 *: dlsubmx A in
        match cholesky (drsubmx A - c *m c^T) with
        | Some L => Some (block_mx (Num.sqrt d)%:M 0 c L : 'M[R]_(1 + m'))
        | None => None
        end
      else None
  end.

(** nalgebra: [solve_lower_triangular] and [Cholesky::solve] *)
Definition solve_lower_triangular m q (L : 'M[R]_m) (b : 'M[R]_(m, q)) : 'M[R]_(m, q) :=
  invmx L *m b.
Definition cholesky_solve m q (L : 'M[R]_m) (b : 'M[R]_(m, q)) : 'M[R]_(m, q) :=
  invmx L^T *m solve_lower_triangular L b.

(** nalgebra: [try_inverse] *)
Definition try_inverse m (A : 'M[R]_m) : option 'M[R]_m :=
  if A \in unitmx then Some (invmx A) else None.

(** nalgebra: [norm_squared] *)
Definition norm_squared m (v : 'cV[R]_m) : R := \sum_i v i 0 * v i 0.

(** Entry at indices given as numbers, 0 outside. *)
Definition entry p q (A : 'M[R]_(p, q)) (i j : nat) : R :=
  match insub i, insub j with Some i', Some j' => A i' j' | _, _ => 0 end.
(** nalgebra: [fixed_view::<p', q'>(0, 0)] *)
Definition fixed_view p' q' p q (A : 'M[R]_(p, q)) : 'M[R]_(p', q') :=
  \matrix_(i, j) entry A i j.
(** [A[(i, j)] = x], which panics out of bounds. *)
Definition set_entry {E} p q (A : 'M[R]_(p, q)) (i j : nat) (x : R) : res E 'M[R]_(p, q) :=
  if (i < p)%N && (j < q)%N
  then Ok (\matrix_(k, l) if (k == i :> nat) && (l == j :> nat) then x else A k l)
  else Panic.

(** hifitime: [Duration::to_seconds] *)
Definition of_Z (z : Z) : R :=
  match z with Z0 => 0 | Zpos p => (Pos.to_nat p)%:R | Zneg p => - (Pos.to_nat p)%:R end.
Definition to_seconds (d : Z) : R := of_Z d / 10%:R ^+ 9.
End Linear_algebra.

(** anise: [DCM], a rotation matrix and perhaps its time derivative; [state_dcm] and
    [transpose]. *)
Record DCM (R : rcfType) := { rot_mat : 'M[R]_3; rot_mat_dt : option 'M[R]_3 }.
Definition state_dcm (R : rcfType) (d : DCM R) : 'M[R]_6 :=
  block_mx (rot_mat d) 0 (match rot_mat_dt d with Some m => m | None => 0 end) (rot_mat d)
  : 'M[R]_(3 + 3).
Definition dcm_transpose (R : rcfType) (d : DCM R) : DCM R :=
  {| rot_mat := (rot_mat d)^T;
     rot_mat_dt := match rot_mat_dt d with Some m => Some m^T | None => None end |}.

(** od/mod.rs: the errors the filter returns. *)
Inductive od_error := Dynamics | Astro | Limitation | SingularNoiseRk | SingularKalmanGain
  | SingularStateTransitionMatrix.

(** kalman/mod.rs:58-70 *)
Inductive kalman_variant := ReferenceUpdate | DeviationTracking.

(** snc.rs:40-56 *)
Record process_noise (R : rcfType) (LF : Type) (a : nat) := {
  start_time : option Z;
  local_frame : option LF;
  disable_time : Z;
  init_epoch : option Z;
  diag : 'rV[R]_a;
  decay_diag : option (list R);
  prev_epoch : option Z
}.

(** estimate/kfestimate.rs:41-62 *)
Record kf_estimate (R : rcfType) (T : Type) (n : nat) := {
  nominal_state : T;
  state_deviation : 'cV[R]_n;
  covar : 'M[R]_n;
  covar_bar : 'M[R]_n;
  predicted : bool;
  stm : 'M[R]_n
}.

(** estimate/residual.rs:28-58; a rejected residual has a NaN postfit, here [None]. *)
Record residual (R : rcfType) (m : nat) := {
  res_epoch : Z;
  prefit : 'cV[R]_m;
  postfit : option 'cV[R]_m;
  whitened : 'cV[R]_m;
  ratio : R;
  innovation_trend : 'cV[R]_m;
  rejected : bool;
  real_obs : 'cV[R]_m;
  computed_obs : 'cV[R]_m
}.

(** kalman/mod.rs:39-56 *)
Record kalman_filter (R : rcfType) (T LF : Type) (n a : nat) := {
  prev_estimate : kf_estimate R T n;
  process_noises : list (process_noise R LF a);
  variant : kalman_variant;
  prev_used_snc : nat
}.

Section Filter.
Context {R : rcfType} {T LF : Type} {n a : nat}.
(** The [State] trait: the state transition matrix (an error if it is not computed) and the
    epoch.  anise: the rotation from a local frame to the inertial frame of an orbit. *)
Context (stm_of : T -> option 'M[R]_n) (epoch_of : T -> Z)
        (dcm_to_inertial : T -> LF -> option (DCM R)).
(** [f64::exp] *)
Context (exp : R -> R).

Notation noise := (process_noise R LF a).
Notation estimate := (kf_estimate R T n).
Notation filter := (kalman_filter R T LF n a).

(** snc.rs:111-136 *)
Definition from_diagonal (values : list R) (dis : Z) (lf : option LF)
    : res od_error noise :=
  if length values == a then
    Ok {| diag := \row_i nth 0 values i; disable_time := dis; start_time := None;
          local_frame := lf; decay_diag := None; init_epoch := None; prev_epoch := None |}
  else Panic.
(** snc.rs:139-143 *)
Definition with_start_time (dis : Z) (values : list R) (start : Z) : res od_error noise :=
  bind (from_diagonal values dis None) (fun me =>
    Ok {| diag := diag me; disable_time := disable_time me; start_time := Some start;
          local_frame := local_frame me; decay_diag := decay_diag me;
          init_epoch := init_epoch me; prev_epoch := prev_epoch me |}).
(** snc.rs:147-162 *)
Definition with_decay (values : list R) (dis : Z) (decay_constants : list R) (lf : option LF)
    : res od_error noise :=
  if length decay_constants == a then
    bind (from_diagonal values dis lf) (fun me =>
      Ok {| diag := diag me; disable_time := disable_time me; start_time := start_time me;
            local_frame := local_frame me; decay_diag := Some decay_constants;
            init_epoch := init_epoch me; prev_epoch := prev_epoch me |})
  else Panic.

(** snc.rs:168-208; the decay constants are a public vector of any length. *)
Definition to_matrix (s : noise) (epoch : Z) : res od_error (option 'M[R]_a) :=
  if match start_time s with Some t => Z.ltb epoch t | None => false end then Ok None
  else if match prev_epoch s with
          | Some p => Z.ltb (disable_time s) (Z.sub epoch p)
          | None => false
          end then Ok None
  else match decay_diag s with
       | None => Ok (Some (diag_mx (diag s)))
       | Some decay =>
           match init_epoch s with
           | None => Panic
           | Some t0 =>
               let total_delta_t := to_seconds (Z.sub epoch t0) in
               if (a <= length decay)%N
               then Ok (Some (diag_mx (\row_i (diag s 0 i
                                               * exp (- nth 0 decay i * total_delta_t)))))
               else Panic
           end
       end.

(** snc.rs:232-254: only the diagonal of the rotated matrix is kept. *)
Definition with_diagonal p (snc : 'M[R]_a) (new_snc : 'M[R]_p) : 'M[R]_a :=
  \matrix_(i, j) if i == j then entry new_snc i i else snc i j.
Definition rotate_snc (d : DCM R) (snc : 'M[R]_a) : res od_error 'M[R]_a :=
  match a with
  | 3 => Ok (with_diagonal snc (rot_mat d *m fixed_view 3 3 snc *m (rot_mat d)^T))
  | 6 => Ok (with_diagonal snc
               (state_dcm d *m fixed_view 6 6 snc *m state_dcm (dcm_transpose d)))
  | _ => Err Limitation
  end.

(** snc.rs:263-287: the entries written, in order. *)
Definition gamma_writes (dt : R) : list (nat * nat * R) :=
  flatten (map (fun blk => flatten (map (fun i =>
    [:: ((i + a * blk)%N, (i + 3 * blk)%N, dt ^+ 2 / 2%:R); ((i + 3 + a * blk)%N, (i + 3 * blk)%N, dt)])
    (iota 0 3))) (iota 0 (a %/ 3))).
Fixpoint write_all (l : list (nat * nat * R)) (g : 'M[R]_(n, a)) : res od_error 'M[R]_(n, a) :=
  match l with
  | [::] => Ok g
  | (i, j, x) :: l' => bind (set_entry g i j x) (write_all l')
  end.

(** snc.rs:210-292 *)
Definition propagate (s : noise) (nominal : T) (delta_t : Z) : res od_error (option 'M[R]_n) :=
  bind (to_matrix s (epoch_of nominal)) (fun o =>
  match o with
  | None => Ok None
  | Some snc =>
      bind (match local_frame s with
            | None => Ok snc
            | Some lf =>
                match dcm_to_inertial nominal lf with
                | None => Err Astro
                | Some d => rotate_snc d snc
                end
            end) (fun snc =>
      if Z.ltb (disable_time s) delta_t then Ok None
      else
        bind (write_all (gamma_writes (to_seconds delta_t)) 0) (fun gamma =>
        Ok (Some (gamma *m snc *m gamma^T))))
  end).

(** kalman/initializers.rs:45-52, 70-82, 85-90, 93-97, 99-103 *)
Definition est_epoch (add : T -> 'cV[R]_n -> T) (e : estimate) : Z :=
  epoch_of (add (nominal_state e) (state_deviation e)).
Definition init_noise (t : Z) (s : noise) : noise :=
  {| start_time := start_time s; local_frame := local_frame s; disable_time := disable_time s;
     init_epoch := Some t; diag := diag s; decay_diag := decay_diag s;
     prev_epoch := prev_epoch s |}.
Definition set_prev_epoch (t : Z) (s : noise) : noise :=
  {| start_time := start_time s; local_frame := local_frame s; disable_time := disable_time s;
     init_epoch := init_epoch s; diag := diag s; decay_diag := decay_diag s;
     prev_epoch := Some t |}.
Definition new (e : estimate) (v : kalman_variant) : filter :=
  {| prev_estimate := e; process_noises := [::]; variant := v; prev_used_snc := 0 |}.

(** [State::add]: the epoch of an estimate is that of its nominal state plus its deviation. *)
Context (add : T -> 'cV[R]_n -> T).

Definition and_with_process_noise (kf : filter) (s : noise) : filter :=
  {| prev_estimate := prev_estimate kf;
     process_noises :=
       process_noises kf ++ [:: init_noise (est_epoch add (prev_estimate kf)) s];
     variant := variant kf; prev_used_snc := prev_used_snc kf |}.
Definition with_process_noise (kf : filter) (s : noise) : filter :=
  {| prev_estimate := prev_estimate kf;
     process_noises := [:: init_noise (est_epoch add (prev_estimate kf)) s];
     variant := variant kf; prev_used_snc := prev_used_snc kf |}.
Definition initialize_process_noises (kf : filter) : filter :=
  {| prev_estimate := prev_estimate kf;
     process_noises :=
       map (init_noise (est_epoch add (prev_estimate kf))) (process_noises kf);
     variant := variant kf; prev_used_snc := prev_used_snc kf |}.

(** filtering.rs:64-78 and 136-150: the noises from the last one on. *)
Fixpoint first_noise (nominal : T) (delta_t : Z) (l : list (nat * noise))
    : res od_error (option (nat * 'M[R]_n)) :=
  match l with
  | [::] => Ok None
  | (i, s) :: l' =>
      bind (propagate s nominal delta_t) (fun o =>
      match o with
      | Some c => Ok (Some (i, c))
      | None => first_noise nominal delta_t l'
      end)
  end.
Definition noise_contribution (kf : filter) (nominal : T) : res od_error (option (nat * 'M[R]_n)) :=
  first_noise nominal (Z.sub (epoch_of nominal) (est_epoch add (prev_estimate kf)))
    (rev (zip (iota 0 (size (process_noises kf))) (process_noises kf))).
Definition add_noise (c : option (nat * 'M[R]_n)) (p : 'M[R]_n) : 'M[R]_n :=
  match c with Some (_, q) => p + q | None => p end.
Definition use_noise (c : option (nat * 'M[R]_n)) (kf : filter) : filter :=
  match c with
  | Some (i, _) =>
      {| prev_estimate := prev_estimate kf; process_noises := process_noises kf;
         variant := variant kf; prev_used_snc := i |}
  | None => kf
  end.
(** filtering.rs:93-97 and 309-313 *)
Definition set_estimate (e : estimate) (kf : filter) : filter :=
  {| prev_estimate := e;
     process_noises := map (set_prev_epoch (est_epoch add e)) (process_noises kf);
     variant := variant kf; prev_used_snc := prev_used_snc kf |}.

(** filtering.rs:59-99: the filter afterwards and the result. *)
Definition time_update (kf : filter) (nominal : T) : filter * res od_error estimate :=
  match stm_of nominal with
  | None => (kf, Err Dynamics)
  | Some phi =>
      let p := phi *m covar (prev_estimate kf) *m phi^T in
      match noise_contribution kf nominal with
      | Err e => (kf, Err e)
      | Panic => (kf, Panic)
      | NoFuel => (kf, NoFuel)
      | Ok c =>
          let cb := add_noise c p in
          let e := {| nominal_state := nominal;
                      state_deviation :=
                        match variant kf with
                        | DeviationTracking => phi *m state_deviation (prev_estimate kf)
                        | ReferenceUpdate => 0
                        end;
                      covar := cb; covar_bar := cb; stm := phi; predicted := true |} in
          (set_estimate e (use_noise c kf), Ok e)
      end
  end.

(** filtering.rs:104-316: the filter afterwards and the estimate, residual and gain. *)
Definition measurement_update m (kf : filter) (nominal : T) (real computed : 'cV[R]_m)
    (r_k : 'M[R]_m) (h_tilde : 'M[R]_(m, n)) (rejection : option R)
    : filter * res od_error (estimate * residual R m * option 'M[R]_(n, m)) :=
  match stm_of nominal with
  | None => (kf, Err Dynamics)
  | Some phi =>
      let p := phi *m covar (prev_estimate kf) *m phi^T in
      match noise_contribution kf nominal with
      | Err e => (kf, Err e)
      | Panic => (kf, Panic)
      | NoFuel => (kf, NoFuel)
      | Ok c =>
          let kf' := use_noise c kf in
          let cb := add_noise c p in
          let p_ht := cb *m h_tilde^T in
          let s_k := h_tilde *m p_ht + r_k in
          let pre := real - computed in
          match (match cholesky s_k with Some l => Some l | None => cholesky r_k end) with
          | None => (kf', Err SingularNoiseRk)
          | Some l =>
              let w := solve_lower_triangular l pre in
              let rt := Num.sqrt (norm_squared w / m%:R) in
              let trend := \col_i Num.sqrt (s_k i i) in
              if match rejection with Some sigmas => sigmas < rt | None => false end then
                match time_update kf' nominal with
                | (kf'', Ok e) =>
                    (kf'', Ok (e, {| res_epoch := epoch_of nominal; prefit := pre;
                                     postfit := None; whitened := w; ratio := rt;
                                     innovation_trend := trend; rejected := true;
                                     real_obs := real; computed_obs := computed |}, None))
                | (kf'', Err e) => (kf'', Err e)
                | (kf'', Panic) => (kf'', Panic)
                | (kf'', NoFuel) => (kf'', NoFuel)
                end
              else
                match (match cholesky s_k with
                       | Some l' => Some (cholesky_solve l' p_ht^T)^T
                       | None =>
                           match try_inverse s_k with
                           | Some s_inv => Some (cb *m h_tilde^T *m s_inv)
                           | None => None
                           end
                       end) with
                | None => (kf', Err SingularKalmanGain)
                | Some gain =>
                    let '(state_hat, post) :=
                      match variant kf with
                      | ReferenceUpdate =>
                          let x := gain *m pre in (x, pre - h_tilde *m x)
                      | DeviationTracking =>
                          let x := phi *m state_deviation (prev_estimate kf) in
                          let y := pre - h_tilde *m x in (x + gain *m y, y)
                      end in
                    let first_term := 1%:M - gain *m h_tilde in
                    let cov := first_term *m cb *m first_term^T + gain *m r_k *m gain^T in
                    let cov := (2%:R)^-1 *: (cov + cov^T) in
                    let e := {| nominal_state := nominal; state_deviation := state_hat;
                                covar := cov; covar_bar := cb; stm := phi;
                                predicted := false |} in
                    (set_estimate e kf',
                     Ok (e, {| res_epoch := epoch_of nominal; prefit := pre;
                               postfit := Some post; whitened := w; ratio := rt;
                               innovation_trend := trend; rejected := false;
                               real_obs := real; computed_obs := computed |}, Some gain))
                end
          end
      end
  end.
End Filter.
