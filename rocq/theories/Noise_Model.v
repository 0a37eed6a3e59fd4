(** Model of the measurement noises and of the ground stations that carry them:
    nyx-core/src/od/noise/{white,gauss_markov,mod,link_specific}.rs,
    od/ground_station/mod.rs and od/ground_station/trk_device.rs.

    Numbers are reals, epochs and durations are integers (nanoseconds).  A random number
    generator is a stream of draws of the standard normal distribution and the number of draws
    made so far; [Normal::new(mean, std_dev)] is then the draw scaled and shifted, as in rand_distr,
    which accepts any finite standard deviation. *)
From Coq Require Import Reals String.
From Verif Require Import Base Arc_Model Sens_Model.
Local Open Scope R_scope.

Definition seconds (d : Z) : R := IZR d / IZR 1000000000.

Definition stream := nat -> R.
Definition draw (w : stream) (k : nat) (mean std_dev : R) : R * nat :=
  (mean + std_dev * w k, S k).

Inductive config_error := NegativeNoise (q : R) | NotPositive (d : Z).

(** * White noise *)

(** white.rs:37-42 *)
Record white := { mean : R; sigma : R }.
(** white.rs:47-62; the sign test on the zero of a real number is [q < 0]. *)
Definition white_new (q : R) (integration : Z) : res config_error white :=
  if Rlt_dec q 0 then Err (NegativeNoise q)
  else if Rle_dec (seconds integration) 0 then Err (NotPositive integration)
  else Ok {| mean := 0; sigma := q / seconds integration |}.
(** white.rs:66-71 *)
Definition constant_white_noise (q : R) : white := {| mean := 0; sigma := q |}.
(** white.rs:80-85; [SPEED_OF_LIGHT_KM_S] is anise's. *)
Definition SPEED_OF_LIGHT_KM_S : R := IZR 299792458 / 1000.
Definition from_pr_n0 (pr_n0 bandwidth : R) : white :=
  {| mean := 0; sigma := SPEED_OF_LIGHT_KM_S / (2 * bandwidth * sqrt pr_n0) |}.
(** white.rs:106-112 *)
Definition white_covariance (n : white) : R := sigma n ^ 2.
Definition white_sample (w : stream) (n : white) (k : nat) : R * nat :=
  draw w k (mean n) (sigma n).
(** white.rs:115-123 *)
Definition white_mul (n : white) (x : R) : white := {| mean := mean n; sigma := sigma n * x |}.

(** * First order Gauss-Markov process *)

(** gauss_markov.rs:52-64 *)
Record gm := {
  tau : Z; process_noise : R; constant : option R; prev_epoch : option Z; init_sample : option R
}.
(** gauss_markov.rs:81-95 *)
Definition gm_new (tau : Z) (q : R) : res config_error gm :=
  if (tau <=? 0)%Z then Err (NotPositive tau)
  else Ok {| tau := tau; process_noise := q; constant := None; prev_epoch := None;
             init_sample := None |}.
(** gauss_markov.rs:98-104 *)
Definition gm_ZERO : gm :=
  {| tau := DURATION_MAX; process_noise := 0; constant := None; prev_epoch := None;
     init_sample := None |}.
(** gauss_markov.rs:132-134 *)
Definition gm_covariance (g : gm) : R := process_noise g ^ 2.
Definition or_zero (x : option R) : R := match x with Some v => v | None => 0 end.
(** gauss_markov.rs:137-159 *)
Definition gm_sample (w : stream) (t : Z) (g : gm) (k : nat) : R * gm * nat :=
  let dt := seconds (match prev_epoch g with None => 0 | Some p => t - p end) in
  let '(init, k) := match init_sample g with
                    | Some x => (x, k)
                    | None => draw w k 0 (process_noise g)
                    end in
  let g' := {| tau := tau g; process_noise := process_noise g; constant := constant g;
               prev_epoch := Some t; init_sample := Some init |} in
  let decay := exp (- dt / seconds (tau g)) in
  let anti_decay := 1 - decay in
  let steady := / 2 * process_noise g * seconds (tau g) * anti_decay in
  let '(ss, k) := draw w k 0 steady in
  (init * decay + ss + or_zero (constant g), g', k).
(** gauss_markov.rs:162-173 *)
Definition gm_mul (g : gm) (x : R) : gm :=
  {| tau := tau g; process_noise := process_noise g * x; constant := None; prev_epoch := None;
     init_sample := None |}.
(** Successive samples of one process, as the loop of mod.rs:179-192. *)
Fixpoint gm_samples (w : stream) (ts : list Z) (g : gm) (k : nat) : list R :=
  match ts with
  | [] => []
  | t :: ts' => let '(x, g', k') := gm_sample w t g k in x :: gm_samples w ts' g' k'
  end.

(** * Both *)

(** noise/mod.rs:68-71 *)
Record noise := { white_noise : option white; bias : option gm }.
(** noise/mod.rs:131-140 *)
Definition sample (w : stream) (t : Z) (n : noise) (k : nat) : R * noise * nat :=
  let '(x, k) := match white_noise n with Some wn => white_sample w wn k | None => (0, k) end in
  match bias n with
  | Some g => let '(y, g', k) := gm_sample w t g k in
              (x + y, {| white_noise := white_noise n; bias := Some g' |}, k)
  | None => (x, n, k)
  end.
(** noise/mod.rs:276-285 *)
Definition covariance (n : noise) : R :=
  match white_noise n with Some wn => white_covariance wn | None => 0 end
  + match bias n with Some g => gm_covariance g | None => 0 end.
(** noise/mod.rs:381-394 *)
Definition noise_mul (n : noise) (x : R) : noise :=
  {| white_noise := option_map (fun wn => white_mul wn x) (white_noise n);
     bias := option_map (fun g => gm_mul g x) (bias n) |}.

(** link_specific.rs:179-222, in terms of the numerical values of the chip rate, the carrier
    frequency and the signal to noise densities. *)
Definition TAU : R := 2 * PI.
Definition from_hardware_range (allan : R) (integration : Z) (chip_rate s_n0 : R) : noise :=
  let thermal := SPEED_OF_LIGHT_KM_S / (TAU * chip_rate * sqrt (2 * s_n0)) in
  let clock := SPEED_OF_LIGHT_KM_S * allan * seconds integration / sqrt 3 in
  {| white_noise := Some (constant_white_noise (sqrt (clock ^ 2 + thermal ^ 2))); bias := None |}.
Definition from_hardware_doppler (allan : R) (integration : Z) (carrier c_n0 : R) : noise :=
  let thermal := SPEED_OF_LIGHT_KM_S / (TAU * carrier * sqrt (2 * c_n0 * seconds integration)) in
  let clock := SPEED_OF_LIGHT_KM_S * allan in
  {| white_noise := Some (constant_white_noise (sqrt (clock ^ 2 + thermal ^ 2))); bias := None |}.

(** * Ground stations *)

Inductive station_error := NoStochastics | Device (e : sens_error).

(** ground_station/mod.rs:52-63, without its location and light time flag, which the geometry
    given by anise depends on. *)
Record station := {
  st_name : string; st_types : list msr_type; integration_time : option Z;
  timestamp_noise : option noise; st_noises : option (list (msr_type * noise))
}.
(** ground_station/mod.rs:111-134 *)
Definition from_point (name : string) : station :=
  {| st_name := name; st_types := []; integration_time := None; timestamp_noise := None;
     st_noises := None |}.
(** [IndexSet::insert] *)
Definition set_insert (t : msr_type) (l : list msr_type) : list msr_type :=
  if existsb (type_eqb t) l then l else l ++ [t].
(** [swap_remove] of indexmap: the last entry takes the place of the removed one. *)
Fixpoint swap_remove {A} (p : A -> bool) (l : list A) : list A :=
  match l with
  | [] => []
  | x :: l' =>
      if p x then match l' with [] => [] | y :: _ => last l' y :: removelast l' end
      else x :: swap_remove p l'
  end.
Definition noises_or_empty (s : station) : list (msr_type * noise) :=
  match st_noises s with Some l => l | None => [] end.
(** ground_station/mod.rs:137-150 *)
Definition with_msr_type (t : msr_type) (n : noise) (s : station) : station :=
  {| st_name := st_name s; st_types := set_insert t (st_types s);
     integration_time := integration_time s; timestamp_noise := timestamp_noise s;
     st_noises := Some (im_insert type_eqb t n (noises_or_empty s)) |}.
(** ground_station/mod.rs:153-161 *)
Definition without_msr_type (t : msr_type) (s : station) : station :=
  {| st_name := st_name s; st_types := swap_remove (type_eqb t) (st_types s);
     integration_time := integration_time s; timestamp_noise := timestamp_noise s;
     st_noises := option_map (swap_remove (fun tn => type_eqb t (fst tn))) (st_noises s) |}.
(** ground_station/mod.rs:163-167 *)
Definition with_integration_time (d : option Z) (s : station) : station :=
  {| st_name := st_name s; st_types := st_types s; integration_time := d;
     timestamp_noise := timestamp_noise s; st_noises := st_noises s |}.
(** ground_station/mod.rs:170-195.  Line 192 assigns to a field of [this_noise.bias.unwrap()],
    that is of a copy, since [Option::unwrap] takes its argument by value and [GaussMarkov] is
    [Copy]: nothing is changed by it. *)
Definition with_msr_bias_constant (t : msr_type) (b : R) (s : station) : res station_error station :=
  let l := noises_or_empty s in
  match im_get type_eqb t l with
  | None => Panic
  | Some n =>
      let n := match bias n with
               | None => {| white_noise := white_noise n; bias := Some gm_ZERO |}
               | Some _ => n
               end in
      Ok {| st_name := st_name s; st_types := st_types s; integration_time := integration_time s;
            timestamp_noise := timestamp_noise s; st_noises := Some (im_insert type_eqb t n l) |}
  end.

(** The loop of ground_station/mod.rs:216-223. *)
Fixpoint sample_all (w : stream) (t : Z) (types : list msr_type) (l : list (msr_type * noise))
    (k : nat) : list (msr_type * noise) * nat * res station_error (list R) :=
  match types with
  | [] => (l, k, Ok [])
  | ty :: types' =>
      match im_get type_eqb ty l with
      | None => (l, k, Err (Device (NotConfigured ty)))
      | Some n =>
          let '(x, n', k) := sample w t n k in
          let '(l', k', out) := sample_all w t types' (im_insert type_eqb ty n' l) k in
          (l', k', bind out (fun xs => Ok (x :: xs)))
      end
  end.
Definition with_noises (s : station) (l : list (msr_type * noise)) : station :=
  {| st_name := st_name s; st_types := st_types s; integration_time := integration_time s;
     timestamp_noise := timestamp_noise s; st_noises := Some l |}.
(** ground_station/mod.rs:198-227; no generator is [rng = None]. *)
Definition noises (w : stream) (t : Z) (rng : option nat) (s : station)
  : station * option nat * res station_error (list R) :=
  match rng with
  | None => (s, None, Ok (repeat 0 (S (length (st_types s)))))
  | Some k =>
      match st_noises s with
      | None => (s, Some k, Err NoStochastics)
      | Some l =>
          let '(x0, k) := match timestamp_noise s with
                          | Some n => let '(x, _, k) := sample w t n k in (x, k)
                          | None => (0, k)
                          end in
          let '(l', k', out) := sample_all w t (st_types s) l k in
          (with_noises s l', Some k', bind out (fun xs => Ok (x0 :: xs)))
      end
  end.

Definition lift_sens {A} (x : res sens_error A) : res station_error A :=
  match x with Ok a => Ok a | Err e => Err (Device e) | Panic => Panic | NoFuel => NoFuel end.

(** trk_device.rs:187-207: [geometry] is what anise says of the receiver, [None] when it is not
    in view.  The noise on the time tag (the first of the noises) is returned beside the
    observables. *)
Definition instantaneous (w : stream) (t : Z) (geometry : option aer) (rng : option nat)
    (s : station) : station * option nat * res station_error (option (R * data)) :=
  match geometry with
  | None => (s, rng, Ok None)
  | Some a =>
      let '(s', rng', out) := noises w t rng s in
      (s', rng', bind out (fun ns =>
         match ns with
         | [] => Panic
         | n0 :: ns' => bind (lift_sens (observe (fun ty x => compute_one_way ty a x) (st_types s) ns'))
                             (fun d => Ok (Some (n0, d)))
         end))
  end.
(** trk_device.rs:106-138, from the geometry at both ends of the integration time [d]; the
    noises are those of its middle (to the nanosecond). *)
Definition averaged (w : stream) (t d : Z) (geometry : option (aer * aer)) (rng : option nat)
    (s : station) : station * option nat * res station_error (option (R * data)) :=
  match geometry with
  | None => (s, rng, Ok None)
  | Some (a0, a1) =>
      let '(s', rng', out) := noises w (t - d / 2)%Z rng s in
      (s', rng', bind out (fun ns =>
         match ns with
         | [] => Panic
         | n0 :: ns' => bind (lift_sens (observe (fun ty x => compute_two_way ty a0 a1 x) (st_types s) ns'))
                             (fun d => Ok (Some (n0, d)))
         end))
  end.
(** trk_device.rs:42-148, with the geometry as a function of the epoch; outside of the
    trajectory there is none (an error of an instantaneous measurement, not modelled here). *)
Definition measure (w : stream) (geometry : Z -> option aer) (t : Z) (rng : option nat)
    (s : station) : station * option nat * res station_error (option (R * data)) :=
  match integration_time s with
  | None => instantaneous w t (geometry t) rng s
  | Some d =>
      averaged w t d
        (match geometry (t - d)%Z, geometry t with Some a0, Some a1 => Some (a0, a1) | _, _ => None end)
        rng s
  end.

(** trk_device.rs:217-226 *)
Definition measurement_covar (s : station) (ty : msr_type) : res station_error R :=
  match st_noises s with
  | None => Panic
  | Some l => match im_get type_eqb ty l with
              | None => Err (Device (NotConfigured ty))
              | Some n => Ok (covariance n)
              end
  end.
(** trk_device.rs:228-242 *)
Definition measurement_bias (s : station) (ty : msr_type) : res station_error R :=
  match st_noises s with
  | None => Panic
  | Some l => match im_get type_eqb ty l with
              | None => Err (Device (NotConfigured ty))
              | Some n => Ok (match bias n with Some g => or_zero (constant g) | None => 0 end)
              end
  end.
(** simulator/trackdata.rs:84-122 for [m] rows *)
Definition known (s : station) (ty : msr_type) : bool := existsb (type_eqb ty) (st_types s).
Definition bias_vector (m : nat) (s : station) (types : list msr_type) : res station_error (list R) :=
  fill 0 (measurement_bias s) (known s) m types.
Definition covar_diagonal (m : nat) (s : station) (types : list msr_type) : res station_error (list R) :=
  fill 0 (measurement_covar s) (known s) m types.
