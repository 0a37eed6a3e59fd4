(** Model of nyx-core/src/tools/lambert: the solvers of Gooding and of Izzo.  [f64] is
    modelled by [R]; a square root of a negative number or a division by zero where it can
    happen is made explicit ([None], velocities that are not finite). *)
From Coq Require Import Reals ZArith.
From Verif Require Import Base Vec3 Angles Sc_Model.
From Verif Require Prop_Model.
Local Open Scope R_scope.

(** errors.rs:136-147 *)
Inductive lambert_error :=
| TargetsTooClose | NotReasonablePhi | MultiRevNotSupported
| MultiRevNotFeasible (m m_max : Z) | SolverMaxIter.

(** mod.rs:41-46 *)
Inductive transfer_kind := Auto | ShortWay | LongWay | NRevs (n : nat).

(** mod.rs:33-38 *)
Definition LAMBERT_EPSILON : R := 1 / 10000.
Definition LAMBERT_EPSILON_TIME : R := 1 / 10000.
Definition LAMBERT_EPSILON_RAD : R := (5 / 100000 / 180) * PI.
Definition MAX_ITERATIONS : nat := 1000.

(** mod.rs:59-81 *)
Definition direction_of_motion (kind : transfer_kind) (r_final r_init : v3) : res lambert_error R :=
  match kind with
  | Auto =>
      let dnu := atan2 (vy r_final) (vx r_final) - atan2 (vy r_init) (vx r_init) in
      let dnu := if Rlt_dec dnu 0 then dnu + 2 * PI else dnu in
      if Rlt_dec PI dnu then Ok (-1) else Ok 1
  | ShortWay => Ok 1
  | LongWay => Ok (-1)
  | NRevs _ => Err MultiRevNotSupported
  end.

(** mod.rs:84-88 and 90-114; the gravitational parameter of a frame is looked up by [mu_of]. *)
Record lambert_input := { initial_state : orbit; final_state : orbit }.
Inductive input_error := FrameMismatch | MissingMu.
Definition from_planetary_states (mu_of : nat -> option R) (initial final : orbit)
  : res input_error lambert_input :=
  if Nat.eqb (frame final) (frame initial) then
    match mu_of (frame initial) with
    | Some _ => Ok {| initial_state := initial; final_state := final |}
    | None => Err MissingMu
    end
  else Err FrameMismatch.

(** mod.rs:123-130 [LambertSolution]; velocities that are not finite are [None]. *)
Record lambert_solution := { velocities : option (v3 * v3); phi_rad : R; input : lambert_input }.

(** mod.rs:144-153 *)
Definition with_velocity (o : orbit) (v : v3) : orbit :=
  {| epoch := epoch o; frame := frame o; radius_km := radius_km o; velocity_km_s := v |}.
Definition transfer_orbit (s : lambert_solution) : option orbit :=
  option_map (fun v => with_velocity (initial_state (input s)) (fst v)) (velocities s).
Definition arrival_orbit (s : lambert_solution) : option orbit :=
  option_map (fun v => with_velocity (final_state (input s)) (snd v)) (velocities s).
(** mod.rs:134-141 and 170-172 *)
Definition v_inf_outgoing (s : lambert_solution) : option v3 :=
  option_map (fun v => vsub (velocity_km_s (initial_state (input s))) (fst v)) (velocities s).
Definition v_inf_incoming (s : lambert_solution) : option v3 :=
  option_map (fun v => vsub (velocity_km_s (final_state (input s))) (snd v)) (velocities s).
Definition c3_km2_s2 (s : lambert_solution) : option R :=
  option_map (fun v => dot v v) (v_inf_outgoing s).
(** mod.rs:155-160 and 162-167; [asin] of a division by zero is not a number, [None]. *)
Definition v_inf_outgoing_declination_deg (s : lambert_solution) : option R :=
  match v_inf_outgoing s with
  | Some u => let v := vscale (-1) u in
      if Req_EM_T (norm v) 0 then None else Some (asin (vz v / norm v) * (180 / PI))
  | None => None
  end.
Definition v_inf_outgoing_right_ascension_deg (s : lambert_solution) : option R :=
  option_map (fun u => let v := vscale (-1) u in atan2 (vy v) (vx v) * (180 / PI)) (v_inf_outgoing s).

(** ** Gooding *)

(** godding.rs:109-121 *)
Definition stumpff (phi : R) : R * R :=
  if Rlt_dec LAMBERT_EPSILON phi then
    let sqrt_phi := sqrt phi in
    ((1 - cos sqrt_phi) / phi, (sqrt_phi - sin sqrt_phi) / sqrt (phi ^ 3))
  else if Rlt_dec phi (- LAMBERT_EPSILON) then
    let sqrt_phi := sqrt (- phi) in
    ((1 - cosh sqrt_phi) / phi, (sinh sqrt_phi - sqrt_phi) / sqrt ((- phi) ^ 3))
  else (1 / 2, 1 / 6).

(** The variables of the loop of godding.rs:66-74. *)
Record gooding_state := {
  phi_upper : R; phi_lower : R; phi : R; c2 : R; c3 : R; cur_tof : R; y : R
}.
Definition gooding_start : gooding_state :=
  {| phi_upper := 4 * PI ^ 2; phi_lower := - 4 * PI ^ 2; phi := 0; c2 := 1 / 2; c3 := 1 / 6;
     cur_tof := 0; y := 0 |}.

Section Gooding.
Context (r1 r2 a mu tof : R).

(** godding.rs:84 and 88 *)
Definition y_of (phi c2 c3 : R) : R := r1 + r2 + a * (phi * c3 - 1) / sqrt c2.

(** godding.rs:86-92: [n] more attempts; the phi and the y reached. *)
Fixpoint bump (n : nat) (phi y c2 c3 : R) : R * R :=
  match n with
  | O => (phi, y)
  | S n' =>
      let phi' := phi + 1 / 10 in
      let y' := y_of phi' c2 c3 in
      if Rle_dec 0 y' then (phi', y') else bump n' phi' y' c2 c3
  end.

(** godding.rs:84-121, one pass; [Ok None] where [c2] or [y] make the square roots meaningless
    (the comparison of the loop is then false and the loop ends). *)
Definition pass (s : gooding_state) : res lambert_error (option gooding_state) :=
  if Rle_dec (c2 s) 0 then Ok None else
  let y0 := y_of (phi s) (c2 s) (c3 s) in
  let '(phi1, y1) :=
    if Rlt_dec 0 a then (if Rlt_dec y0 0 then bump 500 (phi s) y0 (c2 s) (c3 s) else (phi s, y0))
    else (phi s, y0) in
  if Rlt_dec y1 0 then (if Rlt_dec 0 a then Err NotReasonablePhi else Ok None) else
  let chi := sqrt (y1 / c2 s) in
  let tof1 := (chi ^ 3 * c3 s + a * sqrt y1) / sqrt mu in
  let lower := if Rlt_dec tof1 tof then phi1 else phi_lower s in
  let upper := if Rlt_dec tof1 tof then phi_upper s else phi1 in
  let phi2 := (upper + lower) / 2 in
  Ok (Some {| phi_upper := upper; phi_lower := lower; phi := phi2;
              c2 := fst (stumpff phi2); c3 := snd (stumpff phi2); cur_tof := tof1; y := y1 |}).

(** godding.rs:76-122; [left] passes are left before the error. *)
Fixpoint search (left : nat) (s : gooding_state) : res lambert_error (option gooding_state) :=
  if Rlt_dec LAMBERT_EPSILON_TIME (Rabs (cur_tof s - tof)) then
    match left with
    | O => Err SolverMaxIter
    | S left' =>
        bind (pass s) (fun o => match o with None => Ok None | Some s' => search left' s' end)
    end
  else Ok (Some s).
End Gooding.

(** godding.rs:50-60 *)
Definition cos_dnu (r_init r_final : v3) : R := dot r_init r_final / (norm r_init * norm r_final).
Definition a_of (dm : R) (r_init r_final : v3) : R :=
  dm * sqrt (norm r_init * norm r_final * (1 + cos_dnu r_init r_final)).

(** godding.rs:124-130 *)
Definition gooding_velocities (r_init r_final : v3) (a mu y : R) : option (v3 * v3) :=
  let f := 1 - y / norm r_init in
  let g_dot := 1 - y / norm r_final in
  let g := a * sqrt (y / mu) in
  if Req_EM_T g 0 then None
  else Some (vscale (/ g) (vsub r_final (vscale f r_init)),
             vscale (1 / g) (vsub (vscale g_dot r_final) r_init)).

(** godding.rs:44-134 *)
Definition gooding (mu_of : nat -> R) (i : lambert_input) (kind : transfer_kind)
  : res lambert_error lambert_solution :=
  let r_init := radius_km (initial_state i) in
  let r_final := radius_km (final_state i) in
  let tof := Prop_Model.to_secs (epoch (final_state i) - epoch (initial_state i))%Z in
  let mu := mu_of (frame (initial_state i)) in
  bind (direction_of_motion kind r_final r_init) (fun dm =>
  let nu_init := atan2 (vy r_init) (vx r_init) in
  let nu_final := atan2 (vy r_final) (vx r_final) in
  let a := a_of dm r_init r_final in
  if (if Rlt_dec (nu_final - nu_init) LAMBERT_EPSILON_RAD then true else false) &&
     (if Rlt_dec (Rabs a) LAMBERT_EPSILON then true else false)
  then Err TargetsTooClose
  else bind (search (norm r_init) (norm r_final) a mu tof (S MAX_ITERATIONS) gooding_start) (fun o =>
    Ok match o with
       | None => {| velocities := None; phi_rad := 0; input := i |}
       | Some s => {| velocities := gooding_velocities r_init r_final a mu (y s);
                      phi_rad := phi s; input := i |}
       end)).

(** ** Izzo *)
Section Izzo.
(** izzo.rs:347-366: the sum of a series until it no longer changes; infinite from one on. *)
Context (hyp2f1b : R -> R).

(** izzo.rs:202-204 *)
Definition compute_y (x ll : R) : R := sqrt (1 - ll ^ 2 * (1 - x ^ 2)).

(** izzo.rs:209-221 *)
Definition compute_psi (x y ll : R) : R :=
  if Rlt_dec 1 x then arcsinh ((y - x * ll) * sqrt (x ^ 2 - 1))
  else if Rlt_dec x 1 then acos (x * y + ll * (1 - x ^ 2))
  else 0.

(** izzo.rs:230-247 *)
Definition tof_equation_y (x y t0 ll : R) (m : nat) : R :=
  (if (match m with O => true | _ => false end) &&
      (if Rlt_dec (6 / 10) (x ^ 2) then true else false) &&
      (if Rlt_dec (x ^ 2) (14 / 10) then true else false)
   then
     let eta := y - ll * x in
     let s_1 := (1 - ll - x * eta) / 2 in
     let q := 4 / 3 * hyp2f1b s_1 in
     (eta ^ 3 * q + 4 * ll * eta) / 2
   else
     let psi := compute_psi x y ll in
     let den := 1 - x ^ 2 in
     ((psi + INR m * PI) / sqrt (Rabs den) - x + ll * y) / den) - t0.
(** izzo.rs:224-227 *)
Definition tof_equation (x t0 ll : R) (m : nat) : R := tof_equation_y x (compute_y x ll) t0 ll m.

(** izzo.rs:250-263 *)
Definition tof_equation_p (x y t ll : R) : R := (3 * t * x - 2 + 2 * ll ^ 3 * x / y) / (1 - x ^ 2).
Definition tof_equation_p2 (x y t dt ll : R) : R :=
  (3 * t + 5 * x * dt + 2 * (1 - ll ^ 2) * ll ^ 3 / y ^ 3) / (1 - x ^ 2).
Definition tof_equation_p3 (x y dt ddt ll : R) : R :=
  (7 * x * ddt + 8 * dt - 6 * (1 - ll ^ 2) * ll ^ 5 * x / y ^ 5) / (1 - x ^ 2).

(** izzo.rs:372-402 [halley] *)
Fixpoint halley (maxiter : nat) (p0 t0 ll atol rtol : R) : res lambert_error R :=
  match maxiter with
  | O => Err SolverMaxIter
  | S n =>
      let y := compute_y p0 ll in
      let fder := tof_equation_p p0 y t0 ll in
      let fder2 := tof_equation_p2 p0 y t0 fder ll in
      if Rlt_dec (Rabs fder2) (1 / 10 ^ 14) then Err TargetsTooClose else
      let fder3 := tof_equation_p3 p0 y fder fder2 ll in
      let p := p0 - 2 * fder * fder2 / (2 * fder2 ^ 2 - fder * fder3) in
      if Rlt_dec (Rabs (p - p0)) (rtol * Rabs p0 + atol) then Ok p
      else halley n p t0 ll atol rtol
  end.

(** izzo.rs:406-439 [householder] *)
Fixpoint householder (maxiter : nat) (p0 t0 ll : R) (m : nat) (atol rtol : R) : res lambert_error R :=
  match maxiter with
  | O => Err SolverMaxIter
  | S n =>
      let y := compute_y p0 ll in
      let fval := tof_equation_y p0 y t0 ll m in
      let t := fval + t0 in
      let fder := tof_equation_p p0 y t ll in
      let fder2 := tof_equation_p2 p0 y t fder ll in
      let fder3 := tof_equation_p3 p0 y fder fder2 ll in
      let num := fder ^ 2 - fval * fder2 / 2 in
      let den := fder * (fder ^ 2 - fval * fder2) + fder3 * fval ^ 2 / 6 in
      if Rlt_dec (Rabs den) (1 / 10 ^ 14) then Err TargetsTooClose else
      let p := p0 - fval * (num / den) in
      if Rlt_dec (Rabs (p - p0)) (rtol * Rabs p0 + atol) then Ok p
      else householder n p t0 ll m atol rtol
  end.

(** izzo.rs:267-291 [compute_t_min], of which the caller uses the time only. *)
Definition compute_t_min (ll : R) (m maxiter : nat) (atol rtol : R) : res lambert_error R :=
  if Rlt_dec (Rabs (ll - 1)) (1 / 10 ^ 9) then Ok (tof_equation 0 0 ll m)
  else match m with
  | O => Ok 0
  | S _ =>
      let t_i := tof_equation (1 / 10) 0 ll m in
      bind (halley maxiter (1 / 10) t_i ll atol rtol) (fun x => Ok (tof_equation x 0 ll m))
  end.

(** izzo.rs:309-344 [initial_guess] *)
Definition initial_guess (tof ll : R) (m : nat) (low_path : bool) : R :=
  match m with
  | O =>
      let t_0 := acos ll + ll * sqrt (1 - ll ^ 2) in
      let t_1 := 2 * (1 - ll ^ 3) / 3 in
      if Rle_dec t_0 tof then Rpower (t_0 / tof) (2 / 3) - 1
      else if Rlt_dec tof t_1 then 5 / 2 * t_1 / tof * (t_1 - tof) / (1 - ll ^ 5) + 1
      else exp (ln 2 * ln (tof / t_0) / ln (t_1 / t_0)) - 1
  | S _ =>
      let term_l := Rpower ((INR m * PI + PI) / (8 * tof)) (2 / 3) in
      let x_0l := (term_l - 1) / (term_l + 1) in
      let term_r := Rpower (8 * tof / (INR m * PI)) (2 / 3) in
      let x_0r := (term_r - 1) / (term_r + 1) in
      if low_path then Rmax x_0l x_0r else Rmin x_0l x_0r
  end.

(** A float cast to [u32]: truncated, zero below zero (the upper bound is not modelled). *)
Definition as_u32 (x : R) : nat := Z.to_nat (Int_part x).

(** izzo.rs:162-200 [find_xy] *)
Definition find_xy (ll t : R) (m maxiter : nat) (atol rtol : R) (low_path : bool)
  : res lambert_error (R * R) :=
  if Rlt_dec (Rabs ll) 1 then
    let m_max := as_u32 (t / PI) in
    let t_00 := acos ll + ll * sqrt (1 - ll ^ 2) in
    bind (if (if Rlt_dec t (t_00 + INR m_max * PI) then true else false) && Nat.ltb 0 m_max
          then bind (compute_t_min ll m_max maxiter atol rtol) (fun t_min =>
                 Ok (if Rlt_dec t t_min then (m_max - 1)%nat else m_max))
          else Ok m_max) (fun m_max =>
    if Nat.ltb m_max m then Err (MultiRevNotFeasible (Z.of_nat m) (Z.of_nat m_max)) else
    bind (householder maxiter (initial_guess t ll m low_path) t ll m atol rtol) (fun x =>
    Ok (x, compute_y x ll)))
  else Panic.

(** izzo.rs:139-155 [reconstruct] *)
Definition reconstruct (x y r1 r2 ll gamma rho sigma : R) : R * R * R * R :=
  (gamma * ((ll * y - x) - rho * (ll * y + x)) / r1,
   - gamma * ((ll * y - x) + rho * (ll * y + x)) / r2,
   gamma * sigma * (y + ll * x) / r1,
   gamma * sigma * (y + ll * x) / r2).

(** izzo.rs:50-60: the geometry of the problem. *)
Definition chord_norm (r_init r_final : v3) : R := norm (vsub r_final r_init).
Definition semi_parameter (r_init r_final : v3) : R :=
  (norm r_init + norm r_final + chord_norm r_init r_final) / 2.
Definition versor (r : v3) : v3 := vscale (/ norm r) r.
(** izzo.rs:62-72; not finite when the positions are aligned. *)
Definition plane_normal (r_init r_final : v3) : v3 :=
  let i_h := versor (cross (versor r_init) (versor r_final)) in
  if Rlt_dec (vz i_h) 0 then vscale (-1) i_h else i_h.

(** izzo.rs:44-135 [izzo] *)
Definition izzo (mu_of : nat -> R) (i : lambert_input) (kind : transfer_kind)
  : res lambert_error lambert_solution :=
  let r_init := radius_km (initial_state i) in
  let r_final := radius_km (final_state i) in
  let tof := Prop_Model.to_secs (epoch (final_state i) - epoch (initial_state i))%Z in
  let mu := mu_of (frame (initial_state i)) in
  let ri := norm r_init in
  let rf := norm r_final in
  let c_norm := chord_norm r_init r_final in
  let s := semi_parameter r_init r_final in
  let i_r1 := versor r_init in
  let i_r2 := versor r_final in
  let i_h := plane_normal r_init r_final in
  let lambda := 1 - c_norm / s in
  let revs := match kind with NRevs n => n | _ => O end in
  bind (match kind with NRevs _ => Ok 1 | _ => direction_of_motion kind r_final r_init end) (fun dm =>
  let retrograde := if Rlt_dec dm 0 then true else false in
  let m_lambda := if retrograde then - sqrt lambda else sqrt lambda in
  let i_t1 := versor (if retrograde then cross i_r1 i_h else cross i_h i_r1) in
  let i_t2 := versor (if retrograde then cross i_r2 i_h else cross i_h i_r2) in
  let t := sqrt (2 * mu / s ^ 3) * tof in
  bind (find_xy m_lambda t revs MAX_ITERATIONS LAMBERT_EPSILON LAMBERT_EPSILON true) (fun xy =>
  let gamma := sqrt (mu * s / 2) in
  let rho := (ri - rf) / c_norm in
  let sigma := sqrt (1 - rho ^ 2) in
  let '(v_r1, v_r2, v_t1, v_t2) := reconstruct (fst xy) (snd xy) ri rf m_lambda gamma rho sigma in
  Ok {| velocities :=
          if Req_EM_T (norm (cross i_r1 i_r2)) 0 then None
          else Some (vadd (vscale v_r1 (versor r_init)) (vscale v_t1 i_t1),
                     vadd (vscale v_r2 (versor r_final)) (vscale v_t2 i_t2));
        phi_rad := 0; input := i |})).
End Izzo.
