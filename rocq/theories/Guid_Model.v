(** Model of nyx-core/src/dynamics/guidance: finite burns (mnvr.rs), replayed thrust
    directions (replay.rs), the Ruggiero and Kluever steering laws, and
    nyx-core/src/md/objective.rs.  Not modelled: [Display], serialisation, the logs. *)
From Coq Require Import Reals ZArith.
From Verif Require Import Base RustStd Vec3 Angles Poly_Model Sc_Model.
Local Open Scope R_scope.

(** guidance/mod.rs:158-217 [GuidanceError], the variants met here. *)
Inductive guid_error :=
| NoThrustersDefined | NoGuidanceObjectiveDefined | ThrottleRatio (ratio : R)
| InvalidDirection (dir : v3) | InvalidControl (p : parameter)
| GuidancePhysics | GuidState (e : state_error).

(** guidance/mod.rs:111-126 [GuidanceLaw].  [next] mutates the state in the code; its
    panics are explicit. *)
Record law := {
  direction : spacecraft -> res guid_error v3;
  throttle : spacecraft -> res guid_error R;
  next : spacecraft -> res guid_error spacecraft;
  achieved : spacecraft -> res guid_error bool
}.

(** [f64::signum] (no negative zero, no NaN). *)
Definition fsignum (x : R) : R := if Rlt_dec x 0 then -1 else 1.

(** [f64::copysign] (no negative zero, no NaN). *)
Definition copysign (x y : R) : R := if Rlt_dec y 0 then - Rabs x else Rabs x.

(** ** md/objective.rs *)

(** objective.rs:27-38 [Objective]. *)
Record objective := Objective {
  obj_parameter : parameter;
  desired_value : R;
  obj_tolerance : R;
  multiplicative_factor : R;
  additive_factor : R
}.

(** objective.rs:53-61 [within_tolerance]. *)
Definition within_tolerance (p : parameter) (desired tol : R) : objective :=
  Objective p desired tol 1 0.

(** objective.rs:70-75 [assess_value]. *)
Definition assess_value (o : objective) (val : R) : bool * R :=
  let err := multiplicative_factor o * (desired_value o - val) + additive_factor o in
  ((if Rle_dec (Rabs err) (obj_tolerance o) then true else false), err).

Section Laws.
(** anise, trusted (see Sc_Model), and the values the laws read from it. *)
Context (evaluate : element -> orbit -> option R)
        (bplane : orbit -> option (R * R * R))
        (dcm_to_inertial : nat -> orbit -> option m3).
Notation value := (value evaluate bplane dcm_to_inertial).

(** [LocalFrame::Inertial] and [LocalFrame::RCN]; the other local frames are any number. *)
Definition INERTIAL : nat := 0.
Definition RCN : nat := 1.

(** ** mnvr.rs *)

(** mnvr.rs:131-139 [MnvrRepr]. *)
Inductive mnvr_repr := Vector (v : v3) | Angles (azimuth elevation : common).

(** mnvr.rs:69-82 [Maneuver]. *)
Record maneuver := Maneuver {
  m_start : Z; m_end : Z; thrust_prct : R; representation : mnvr_repr; m_frame : nat
}.

Definition MILLISECOND : Z := 1000000.
Definition MICROSECOND : Z := 1000.

(** mnvr.rs:189-203 [from_time_invariant]. *)
Definition from_time_invariant (start stop : Z) (lvl : R) (v : v3) (f : nat) : maneuver :=
  Maneuver start stop lvl (Vector v) f.

(** mnvr.rs:184-186 [from_impulsive]. *)
Definition from_impulsive (dt : Z) (v : v3) (f : nat) : maneuver :=
  from_time_invariant dt (dt + MILLISECOND) 1 v f.

(** [Duration::to_seconds]. *)
Definition seconds (d : Z) : R := IZR d / 1000000000.

(** mnvr.rs:206-216 [vector]. *)
Definition m_vector (m : maneuver) (ep : Z) : res guid_error v3 :=
  match representation m with
  | Vector v => Ok v
  | Angles az el =>
      let t := seconds (ep - m_start m) in
      match common_eval az t, common_eval el t with
      | Ok alpha, Ok delta => Ok (unit_vector_from_ra_dec alpha delta)
      | _, _ => Panic
      end
  end.

(** mnvr.rs:219-221 [duration], 224-226 [antichronological]. *)
Definition m_duration (m : maneuver) : Z := (m_end m - m_start m)%Z.
Definition antichronological (m : maneuver) : bool :=
  (MICROSECOND <? Z.abs (m_duration m))%Z && (m_duration m <? MICROSECOND)%Z.

(** mnvr.rs:229-238 [direction]. *)
Definition m_direction (m : maneuver) : res guid_error v3 :=
  match representation m with
  | Vector v => Ok (vscale (/ norm v) v)
  | Angles az el =>
      match coeff_in_order az 0, coeff_in_order el 0 with
      | Ok alpha, Ok delta => Ok (unit_vector_from_ra_dec alpha delta)
      | _, _ => Panic
      end
  end.

(** mnvr.rs:246-257 [rate] and 265-276 [accel]: the coefficient of order [n] of the two
    angles, turned into a vector as if it were a direction. *)
Definition m_coeff (m : maneuver) (n : nat) : res guid_error v3 :=
  match representation m with
  | Vector _ => Ok vzero
  | Angles az el =>
      match coeff_in_order az n with
      | Ok alpha =>
          match coeff_in_order el n with
          | Ok delta => Ok (unit_vector_from_ra_dec alpha delta)
          | _ => Panic
          end
      | _ => Ok vzero
      end
  end.
Definition m_rate (m : maneuver) := m_coeff m 1.
Definition m_accel (m : maneuver) := m_coeff m 2.

Definition with_repr (m : maneuver) (r : mnvr_repr) : maneuver :=
  Maneuver (m_start m) (m_end m) (thrust_prct m) r (m_frame m).

Definition tiny (v : v3) : bool := if Rlt_dec (norm v) EPSILON then true else false.
(** The angles of a vector whose last component is outside [-1, 1] are NaN. *)
Definition nan_angles (v : v3) : bool := if Rle_dec (Rabs (vz v)) 1 then false else true.

(** mnvr.rs:284-359 [set_direction_and_rates] (the second test for tiny rates, 304-308, can
    not succeed after the first one). *)
Definition set_direction_and_rates (m : maneuver) (dir rate accel : v3)
  : res guid_error maneuver :=
  if tiny rate && tiny accel then Ok (with_repr m (Vector dir))
  else if nan_angles dir then Err (InvalidDirection dir)
  else
    let '(alpha, delta) := ra_dec_from_unit_vector dir in
    if nan_angles rate then Err (InvalidDirection rate)
    else
      let '(alpha_dt, delta_dt) := ra_dec_from_unit_vector rate in
      if tiny accel then
        Ok (with_repr m (Angles (Linear alpha_dt alpha) (Linear delta_dt delta)))
      else if nan_angles accel then Err (InvalidDirection accel)
      else
        let '(alpha_ddt, delta_ddt) := ra_dec_from_unit_vector accel in
        Ok (with_repr m (Angles (Quadratic alpha_ddt alpha_dt alpha)
                                (Quadratic delta_ddt delta_dt delta))).

(** mnvr.rs:241-243 [set_direction], 260-262 [set_rate], 279-281 [set_accel]. *)
Definition set_direction (m : maneuver) (v : v3) : res guid_error maneuver :=
  bind (m_rate m) (fun r => bind (m_accel m) (fun a => set_direction_and_rates m v r a)).
Definition set_rate (m : maneuver) (v : v3) : res guid_error maneuver :=
  bind (m_direction m) (fun d => bind (m_accel m) (fun a => set_direction_and_rates m d v a)).
Definition set_accel (m : maneuver) (v : v3) : res guid_error maneuver :=
  bind (m_direction m) (fun d => bind (m_rate m) (fun r => set_direction_and_rates m d r v)).

(** mnvr.rs:363-375 *)
Definition mnvr_direction (m : maneuver) (osc : spacecraft) : res guid_error v3 :=
  match mode osc with
  | Thrust =>
      if Nat.eqb (m_frame m) INERTIAL then m_vector m (epoch (sc_orbit osc))
      else
        match dcm_to_inertial (m_frame m) (sc_orbit osc) with
        | None => Err GuidancePhysics
        | Some dcm => bind (m_vector m (epoch (sc_orbit osc))) (fun v => Ok (mv dcm v))
        end
  | _ => Ok vzero
  end.

(** mnvr.rs:377-386 *)
Definition mnvr_throttle (m : maneuver) (osc : spacecraft) : res guid_error R :=
  match mode osc with Thrust => Ok (thrust_prct m) | _ => Ok 0 end.

(** mnvr.rs:388-395 *)
Definition mnvr_next (m : maneuver) (sc : spacecraft) : res guid_error spacecraft :=
  let ep := epoch (sc_orbit sc) in
  Ok (mut_mode sc (if (m_start m <=? ep)%Z && (ep <=? m_end m)%Z then Thrust else Coast)).

Definition mnvr_law (m : maneuver) : law :=
  {| direction := mnvr_direction m; throttle := mnvr_throttle m; next := mnvr_next m;
     achieved := fun _ => Err NoGuidanceObjectiveDefined |}.

(** ** replay.rs *)

Definition is_some {A} (x : option A) : bool := match x with Some _ => true | None => false end.

(** replay.rs:41-76 [command_at_or_before]; [first] and [last] of an empty profile are not
    reached. *)
Definition command_at_or_before (profile : list spacecraft) (ep : Z) : option spacecraft :=
  match profile with
  | [] => None
  | first :: _ =>
      let last := List.last profile first in
      if (ep <? epoch (sc_orbit first))%Z || (epoch (sc_orbit last) <? ep)%Z then None
      else
        let command :=
          match binary_search_by (fun s => (epoch (sc_orbit s) ?= ep)%Z) profile with
          | inl idx => nth_error profile idx
          | inr O => None
          | inr (S idx) => nth_error profile idx
          end in
        match command with
        | Some c =>
            if is_some (thrust_direction c) || negb (mode_eqb (mode c) Thrust) then command
            else if mode_eqb (mode first) Thrust
            then find (fun s => (ep <=? epoch (sc_orbit s))%Z && is_some (thrust_direction s)) profile
            else command
        | None =>
            if mode_eqb (mode first) Thrust
            then find (fun s => (ep <=? epoch (sc_orbit s))%Z && is_some (thrust_direction s)) profile
            else command
        end
  end.

Definition replayed (profile : list spacecraft) (ep : Z) : option v3 :=
  match command_at_or_before profile ep with Some c => thrust_direction c | None => None end.

(** replay.rs:92-97, 99-111, 113-123 *)
Definition replay_direction (profile : list spacecraft) (osc : spacecraft) : res guid_error v3 :=
  Ok (match replayed profile (epoch (sc_orbit osc)) with Some d => d | None => vzero end).
Definition replay_throttle (profile : list spacecraft) (osc : spacecraft) : res guid_error R :=
  Ok (if is_some (replayed profile (epoch (sc_orbit osc))) then 1 else 0).
Definition replay_next (profile : list spacecraft) (sc : spacecraft) : res guid_error spacecraft :=
  let d := replayed profile (epoch (sc_orbit sc)) in
  Ok (mut_mode (mut_thrust_direction sc d) (if is_some d then Thrust else Coast)).
(** replay.rs:125-127; [last] of an empty profile panics. *)
Definition replay_achieved (profile : list spacecraft) (osc : spacecraft) : res guid_error bool :=
  match profile with
  | [] => Panic
  | first :: _ => Ok (epoch (sc_orbit (List.last profile first)) <? epoch (sc_orbit osc))%Z
  end.

Definition replay_law (profile : list spacecraft) : law :=
  {| direction := replay_direction profile; throttle := replay_throttle profile;
     next := replay_next profile; achieved := replay_achieved profile |}.

(** ** The closed-loop laws *)

(** anise, trusted: the Keplerian elements of an orbit (angles in radians), the
    gravitational parameter of its frame and its semi-parameter.  The code asks for them
    one by one; here they are available or not all together. *)
Record keplerian := {
  k_ecc : R; k_ta : R; k_aop : R; k_raan : R; k_inc : R; k_ea : R; k_sma : R; k_mu : R;
  k_semi_parameter : R
}.
Context (kepler : orbit -> option keplerian).
(** eclipse.rs:69-83: anise's [solar_eclipsing] for each shadow body (percentage). *)
Context (shadows : orbit -> list (option R)).

(** eclipse.rs:69-83 [compute] with the bodies of [cislunar]: the largest percentage. *)
Fixpoint eclipse_over (l : list (option R)) (pct : R) : option R :=
  match l with
  | [] => Some pct
  | None :: _ => None
  | Some p :: l' => eclipse_over l' (if Rlt_dec pct p then p else pct)
  end.
Definition eclipse_percentage (o : orbit) : option R := eclipse_over (shadows o) 0.

(** ruggiero.rs:279-294 and kluever.rs:126-141 [achieved]. *)
Fixpoint all_achieved (l : list objective) (sc : spacecraft) : res guid_error bool :=
  match l with
  | [] => Ok true
  | o :: l' =>
      match value sc (obj_parameter o) with
      | Ok v => if fst (assess_value o v) then all_achieved l' sc else Ok false
      | Err x => Err (GuidState x)
      | Panic => Panic
      | NoFuel => NoFuel
      end
  end.

(** [EquinoctialH], [K], [P], [Q] and [Lambda] of anise. *)
Definition EQ_H : element := OtherElement 0.
Definition EQ_K : element := OtherElement 1.
Definition EQ_P : element := OtherElement 2.
Definition EQ_Q : element := OtherElement 3.
Definition EQ_LAMBDA : element := OtherElement 4.

Definition lift {A} (x : res state_error A) : res guid_error A :=
  match x with Ok a => Ok a | Err e => Err (GuidState e) | Panic => Panic | NoFuel => NoFuel end.

(** ** kluever.rs *)

(** kluever.rs:39-44 [Kluever], guidance/mod.rs:103-106 [ObjectiveWeight]. *)
Record kluever := Kluever { kl_objectives : list (objective * R); kl_max_eclipse : option R }.

(** kluever.rs:48-61 [new] and 64-81 [from_max_eclipse]. *)
Definition kluever_new (objs : list objective) (weights : list R) : kluever :=
  Kluever (combine objs weights) None.
Definition kluever_from_max_eclipse (objs : list objective) (weights : list R) (m : R) : kluever :=
  Kluever (combine objs weights) (Some m).

Definition sign_of (x : R) : R := if Rle_dec 0 x then 1 else -1.

(** kluever.rs:194-265: what one objective adds to the three sums. *)
Definition kluever_term (k : keplerian) (sc : spacecraft) (p : parameter) (w : R)
  : res guid_error (R * R * R) :=
  let ecc := k_ecc k in
  let ta := k_ta k in
  let u := ta + k_aop k in
  let l := u + k_raan k in
  match p with
  | Element SemiMajorAxis => Ok (w * (ecc * sin ta), w * (1 + ecc * cos ta), 0)
  | Element Eccentricity =>
      Ok (w * sin ta, w * (cos ta + (ecc + cos ta) / (1 + ecc * cos ta)), 0)
  | Element Inclination => Ok (0, 0, w * sign_of (cos u))
  | Element RAAN => Ok (0, 0, w * sign_of (sin u))
  | Element (OtherElement 0) =>
      bind (lift (value sc (Element EQ_H))) (fun h =>
      bind (lift (value sc (Element EQ_K))) (fun kk =>
      Ok (w * cos l, w * (sin l + (h + sin l) / (1 + h * sin l + kk * cos l)), 0)))
  | Element (OtherElement 1) =>
      bind (lift (value sc (Element EQ_H))) (fun h =>
      bind (lift (value sc (Element EQ_K))) (fun kk =>
      Ok (w * - sin l, w * (cos l + (kk + cos l) / (1 + h * sin l + kk * cos l)), 0)))
  | Element (OtherElement 2) => Ok (0, 0, w * sign_of (sin l))
  | Element (OtherElement 3) => Ok (0, 0, w * sign_of (cos l))
  | Element (OtherElement 4) => Ok (0, w * 1, 0)
  | _ => Err (InvalidControl p)
  end.

(** kluever.rs:180-266: the loop over the objectives. *)
Fixpoint kluever_sums (k : keplerian) (sc : spacecraft) (l : list (objective * R))
    (acc : R * R * R) : res guid_error (R * R * R) :=
  match l with
  | [] => Ok acc
  | (o, w) :: l' =>
      if Req_EM_T w 0 then kluever_sums k sc l' acc
      else
        bind (lift (value sc (obj_parameter o))) (fun osc =>
        let error := desired_value o - osc in
        if Rlt_dec (Rabs error) (obj_tolerance o) then kluever_sums k sc l' acc
        else
          bind (kluever_term k sc (obj_parameter o) (w * fsignum error)) (fun t =>
          let '(na, da, nb) := acc in
          let '(ta, tb, tc) := t in
          kluever_sums k sc l' (na + ta, da + tb, nb + tc)))
  end.

(** kluever.rs:268-278: the blended steering. *)
Definition kluever_steering (s : R * R * R) : v3 :=
  let '(na, da, nb) := s in
  let alpha := atan2 na da in
  let denom_beta := sqrt (na ^ 2 + da ^ 2) in
  let beta := atan2 nb denom_beta in
  V3 (sin alpha * cos beta) (cos alpha * cos beta) (sin beta).

(** kluever.rs:143-287 [direction] *)
Definition kluever_direction (kl : kluever) (sc : spacecraft) : res guid_error v3 :=
  match mode sc with
  | Thrust =>
      match kepler (sc_orbit sc) with
      | None => Err GuidancePhysics
      | Some k =>
          bind (kluever_sums k sc (kl_objectives kl) (0, 0, 0)) (fun s =>
          match dcm_to_inertial RCN (sc_orbit sc) with
          | None => Err GuidancePhysics
          | Some dcm => Ok (mv dcm (kluever_steering s))
          end)
      end
  | _ => Ok vzero
  end.

(** kluever.rs:290-296 [throttle] *)
Definition kluever_throttle (kl : kluever) (sc : spacecraft) : res guid_error R :=
  match mode sc with Thrust => Ok 1 | _ => Ok 0 end.

(** kluever.rs:299-329 [next] *)
Definition kluever_next (kl : kluever) (sc : spacecraft) : res guid_error spacecraft :=
  match mode sc with
  | Inhibit => Ok sc
  | _ =>
      match all_achieved (map fst (kl_objectives kl)) sc with
      | Ok false =>
          match kl_max_eclipse kl with
          | Some max_eclipse =>
              match eclipse_percentage (sc_orbit sc) with
              | None => Panic
              | Some pct =>
                  if Rlt_dec max_eclipse pct then Ok (mut_mode sc Coast)
                  else Ok (mut_mode sc Thrust)
              end
          | None => Ok (mut_mode sc Thrust)
          end
      | Ok true => Ok (mut_mode sc Coast)
      | _ => Panic
      end
  end.

Definition kluever_law (kl : kluever) : law :=
  {| direction := kluever_direction kl; throttle := kluever_throttle kl;
     next := kluever_next kl; achieved := all_achieved (map fst (kl_objectives kl)) |}.

(** ** ruggiero.rs *)

(** ruggiero.rs:40-46 [Ruggiero], guidance/mod.rs:97-100 [ObjectiveEfficiency]. *)
Record ruggiero := Ruggiero {
  ru_objectives : list (objective * R); ru_max_eclipse : option R; ru_init : spacecraft
}.

Definition supported (p : parameter) : bool :=
  match p with
  | Element SemiMajorAxis | Element Eccentricity | Element Inclination | Element RAAN
  | Element AoP => true
  | _ => false
  end.

(** ruggiero.rs:61-109 [from_eta_thresholds]; the error carries no data here. *)
Definition ruggiero_from_thresholds (objs : list objective) (thresholds : list R)
    (initial : spacecraft) : res unit ruggiero :=
  if (5 <? length objs)%nat || (length objs =? 0)%nat then Err tt
  else if (length thresholds <? length objs)%nat then Err tt
  else if forallb (fun o => supported (obj_parameter o)) objs
  then Ok (Ruggiero (combine objs thresholds) None initial)
  else Err tt.

(** ruggiero.rs:54-56 [simple] *)
Definition ruggiero_simple (objs : list objective) (initial : spacecraft) : res unit ruggiero :=
  ruggiero_from_thresholds objs (repeat 0 5) initial.

(** ruggiero.rs:113-152 [from_max_eclipse] *)
Definition ruggiero_from_max_eclipse (objs : list objective) (initial : spacecraft) (m : R)
  : res unit ruggiero :=
  if (5 <? length objs)%nat || (length objs =? 0)%nat then Err tt
  else if forallb (fun o => supported (obj_parameter o)) objs
  then Ok (Ruggiero (map (fun o => (o, 0)) objs) (Some m) initial)
  else Err tt.

(** ruggiero.rs:160-213 [efficiency] *)
Definition efficiency (p : parameter) (o : orbit) : res guid_error R :=
  match kepler o with
  | None => Err GuidancePhysics
  | Some k =>
      let e := k_ecc k in
      let nu := k_ta k in
      let w := k_aop k in
      match p with
      | Element SemiMajorAxis =>
          Ok (norm (velocity_km_s o) * sqrt ((k_sma k * (1 - e)) / (k_mu k * (1 + e))))
      | Element Eccentricity =>
          Ok ((1 + 2 * e * cos nu + (cos nu) ^ 2) / (2 * (1 + e * cos nu)))
      | Element Inclination =>
          Ok (Rabs (cos (w + nu)) * (sqrt (1 - e ^ 2 * (sin w) ^ 2) - e * Rabs (cos w))
              / (1 + e * cos nu))
      | Element RAAN =>
          Ok (Rabs (sin (w + nu)) * (sqrt (1 - e ^ 2 * (cos w) ^ 2) - e * Rabs (sin w))
              / (1 + e * cos nu))
      | Element AoP => Ok 1
      | _ => Err (InvalidControl p)
      end
  end.

(** ruggiero.rs:216-238 [weighting]; the three [unwrap] panic. *)
Definition weighting (ru : ruggiero) (o : objective) (sc : spacecraft) (threshold : R)
  : res guid_error R :=
  match value (ru_init ru) (obj_parameter o), value sc (obj_parameter o),
        efficiency (obj_parameter o) (sc_orbit sc) with
  | Ok init, Ok osc, Ok eta =>
      let target := desired_value o in
      let tol := obj_tolerance o in
      if Rlt_dec (Rabs (osc - target)) tol then Ok 0
      else if Rlt_dec eta threshold then Ok 0
      else
        Ok ((target - osc)
            / Rabs (target - if Rlt_dec (Rabs (init - target)) tol then init + tol else init))
  | _, _, _ => Panic
  end.

(** ruggiero.rs:341-389: the direction for one element.  [acos] of an argument outside
    [-1, 1] is NaN in the code, which selects the out of plane branch; the model uses the
    total [acos] there. *)
Definition ruggiero_term (k : keplerian) (o : orbit) (p : parameter) : res guid_error v3 :=
  let ecc := k_ecc k in
  let ta := k_ta k in
  let aop := k_aop k in
  match p with
  | Element SemiMajorAxis =>
      Ok (unit_vector_from_plane_angles (atan2 (ecc * sin ta) (1 + ecc * cos ta)) 0)
  | Element Eccentricity =>
      Ok (unit_vector_from_plane_angles (atan2 (sin ta) (cos ta + cos (k_ea k))) 0)
  | Element Inclination =>
      Ok (unit_vector_from_plane_angles 0 (copysign (PI / 2) (cos (ta + aop))))
  | Element RAAN =>
      Ok (unit_vector_from_plane_angles 0 (copysign (PI / 2) (sin (ta + aop))))
  | Element AoP =>
      let oe2 := 1 - ecc ^ 2 in
      let e3 := ecc ^ 3 in
      let sqrt_val := sqrt (1 / 4 * (oe2 / e3) ^ 2 + 1 / 27) in
      let opti_ta_alpha :=
        acos (Rpower (oe2 / (2 * e3) + sqrt_val) (1 / 3)
              - Rpower (- oe2 / (2 * e3) + sqrt_val) (1 / 3) - 1 / ecc) in
      let opti_ta_beta := acos (- ecc * cos aop) - aop in
      if Rlt_dec (Rabs (ta - opti_ta_alpha)) (Rabs (ta - opti_ta_beta)) then
        let p := k_semi_parameter k in
        Ok (unit_vector_from_plane_angles
              (atan2 (- p * cos ta) ((p + norm (radius_km o)) * sin ta)) 0)
      else
        Ok (unit_vector_from_plane_angles 0
              (copysign (PI / 2) (- sin (ta + aop)) * cos (k_inc k)))
  | _ => Panic
  end.

(** ruggiero.rs:300-390: the loop over the objectives. *)
Fixpoint ruggiero_sum (ru : ruggiero) (sc : spacecraft) (l : list (objective * R)) (acc : v3)
  : res guid_error v3 :=
  match l with
  | [] => Ok acc
  | (o, threshold) :: l' =>
      bind (weighting ru o sc threshold) (fun w =>
      if Rle_dec (Rabs w) 0 then ruggiero_sum ru sc l' acc
      else
        match kepler (sc_orbit sc) with
        | None => Err GuidancePhysics
        | Some k =>
            bind (ruggiero_term k (sc_orbit sc) (obj_parameter o)) (fun t =>
            ruggiero_sum ru sc l' (vadd acc (vscale w t)))
        end)
  end.

(** ruggiero.rs:393-397 *)
Definition normalized (v : v3) : v3 :=
  if Rlt_dec 0 (norm v) then vscale (/ norm v) v else v.

(** ruggiero.rs:296-409 [direction] *)
Definition ruggiero_direction (ru : ruggiero) (sc : spacecraft) : res guid_error v3 :=
  match mode sc with
  | Thrust =>
      bind (ruggiero_sum ru sc (ru_objectives ru) vzero) (fun s =>
      match dcm_to_inertial RCN (sc_orbit sc) with
      | None => Err GuidancePhysics
      | Some dcm => Ok (mv dcm (normalized s))
      end)
  | _ => Ok vzero
  end.

(** ruggiero.rs:412-422 [throttle] *)
Definition ruggiero_throttle (ru : ruggiero) (sc : spacecraft) : res guid_error R :=
  match mode sc with
  | Thrust =>
      bind (ruggiero_direction ru sc) (fun d => Ok (if Rlt_dec 0 (norm d) then 1 else 0))
  | _ => Ok 0
  end.

(** ruggiero.rs:425-453 [next]: line 445 sets the mode whatever the eclipse branch did. *)
Definition ruggiero_next (ru : ruggiero) (sc : spacecraft) : res guid_error spacecraft :=
  match mode sc with
  | Inhibit => Ok sc
  | _ =>
      match all_achieved (map fst (ru_objectives ru)) sc with
      | Ok false =>
          let eclipsed : res guid_error spacecraft :=
            match ru_max_eclipse ru with
            | Some max_eclipse =>
                match eclipse_percentage (sc_orbit sc) with
                | None => Panic
                | Some pct =>
                    if Rlt_dec max_eclipse pct then Ok (mut_mode sc Coast)
                    else Ok (mut_mode sc Thrust)
                end
            | None => Ok sc
            end in
          bind eclipsed (fun sc => Ok (mut_mode sc Thrust))
      | Ok true => Ok (mut_mode sc Coast)
      | _ => Panic
      end
  end.

Definition ruggiero_law (ru : ruggiero) : law :=
  {| direction := ruggiero_direction ru; throttle := ruggiero_throttle ru;
     next := ruggiero_next ru; achieved := all_achieved (map fst (ru_objectives ru)) |}.
End Laws.
