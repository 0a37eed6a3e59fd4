(** ASN.1 DER encoding and decoding of configurations:
    nyx-core/src/od/simulator/scheduler.rs, od/simulator/trkconfig.rs, od/noise/{mod,white,
    gauss_markov}.rs, od/ground_station/mod.rs, od/msr/types.rs, dynamics/guidance/mod.rs,
    cosmic/spacecraft.rs.

    The [der] crate (0.7) is external: its headers, integers, booleans, enumerations and sequences
    are modelled from its documentation (X.690), its REAL values are an oracle.  Octets are
    integers from 0 to 255. *)
From Verif Require Import Base RustStd.
From Verif Require Arc_Model Sc_Model Sched_Model.
Local Open Scope Z_scope.

Definition bytes := list Z.

Inductive der_err :=
| Incomplete | TagUnexpected | BadLength | BadValue | Noncanonical | TrailingData | Overflow.

(** * The [der] crate *)
(** Big endian octets, and back. *)
Fixpoint be (k : nat) (z : Z) : bytes :=
  match k with O => [] | S k' => be k' (z / 256) ++ [z mod 256] end.
Definition of_be (l : bytes) : Z := fold_left (fun a b => a * 256 + b) l 0.

Definition size (l : bytes) : Z := Z.of_nat (length l).

(** [Length]: at most 2^28 - 1, short form below 128, shortest long form otherwise. *)
Definition MAX_LEN : Z := 268435455.
Definition octets (n : Z) : nat :=
  if n <? 256 then 1%nat else if n <? 65536 then 2%nat else if n <? 16777216 then 3%nat else 4%nat.
Definition enc_len (n : Z) : bytes :=
  if n <? 128 then [n] else (128 + Z.of_nat (octets n)) :: be (octets n) n.

Definition take (k : nat) (l : bytes) : res der_err (bytes * bytes) :=
  if (length l <? k)%nat then Err Incomplete else Ok (firstn k l, skipn k l).

Definition dec_len (l : bytes) : res der_err (Z * bytes) :=
  match l with
  | [] => Err Incomplete
  | b :: l' =>
      if b <? 128 then Ok (b, l')
      else if (b =? 128) || (132 <? b) then Err BadLength
      else bind (take (Z.to_nat (b - 128)) l') (fun p =>
           let n := of_be (fst p) in
           if MAX_LEN <? n then Err BadLength
           else if (n <? 128) || negb (128 + Z.of_nat (octets n) =? b) then Err BadLength
           else Ok (n, snd p))
  end.

(** A header and a value. *)
Definition enc_tlv (tag : Z) (v : bytes) : bytes := tag :: enc_len (size v) ++ v.
Definition tlv_len (n : Z) : Z := 1 + size (enc_len n) + n.
Definition dec_tlv (tag : Z) (l : bytes) : res der_err (bytes * bytes) :=
  match l with
  | [] => Err Incomplete
  | t :: l' =>
      if negb (t =? tag) then Err TagUnexpected
      else bind (dec_len l') (fun p => take (Z.to_nat (fst p)) (snd p))
  end.

Definition BOOLEAN : Z := 1.
Definition INTEGER : Z := 2.
Definition REAL : Z := 9.
Definition ENUMERATED : Z := 10.
Definition UTF8STRING : Z := 12.
Definition SEQUENCE : Z := 48.

(** Two's complement on as few octets as possible. *)
Definition fits (k : nat) (z : Z) : bool :=
  (- 2 ^ (8 * Z.of_nat k - 1) <=? z) && (z <? 2 ^ (8 * Z.of_nat k - 1)).
Fixpoint int_octets_from (fuel k : nat) (z : Z) : nat :=
  match fuel with
  | O => k
  | S f => if fits k z then k else int_octets_from f (S k) z
  end.
Definition int_octets (z : Z) : nat := int_octets_from 16 1 z.
Definition signed (v : bytes) : Z :=
  let n := of_be v in
  let m := 2 ^ (8 * size v) in
  if n <? m / 2 then n else n - m.

Definition int_value (z : Z) : bytes := be (int_octets z) z.
Definition enc_int (z : Z) : bytes := enc_tlv INTEGER (int_value z).
Definition len_int (z : Z) : Z := tlv_len (Z.of_nat (int_octets z)).
(** The decoder of an integer type with values from [lo] to [hi]. *)
Definition int_of_value (lo hi : Z) (v : bytes) : res der_err Z :=
  match v with
  | [] => Err BadLength
  | _ => let z := signed v in
         if (z <? lo) || (hi <? z) then Err BadValue
         else if (int_octets z =? length v)%nat then Ok z else Err Noncanonical
  end.
Definition dec_int (lo hi : Z) (l : bytes) : res der_err (Z * bytes) :=
  bind (dec_tlv INTEGER l) (fun p =>
  bind (int_of_value lo hi (fst p)) (fun z => Ok (z, snd p))).
Definition dec_u8 := dec_int 0 255.
Definition dec_u32 := dec_int 0 4294967295.
Definition dec_i128 := dec_int (- 2 ^ 127) (2 ^ 127 - 1).

Definition enc_bool (b : bool) : bytes := enc_tlv BOOLEAN [if b then 255 else 0].
Definition len_bool (b : bool) : Z := tlv_len 1.
Definition dec_bool (l : bytes) : res der_err (bool * bytes) :=
  bind (dec_tlv BOOLEAN l) (fun p =>
  match fst p with
  | [b] => if b =? 0 then Ok (false, snd p)
           else if b =? 255 then Ok (true, snd p) else Err Noncanonical
  | _ => Err BadLength
  end).

(** [#[derive(Enumerated)]] on a [repr(u8)] type, given its codes. *)
Definition enc_enum (code : Z) : bytes := enc_tlv ENUMERATED (int_value code).
Definition len_enum (code : Z) : Z := tlv_len (Z.of_nat (int_octets code)).
Definition dec_enum {A : Type} (of_code : Z -> option A) (l : bytes) : res der_err (A * bytes) :=
  bind (dec_tlv ENUMERATED l) (fun p =>
  bind (int_of_value 0 255 (fst p)) (fun z =>
  match of_code z with Some a => Ok (a, snd p) | None => Err BadValue end)).

(** [Vec<T>]: the length of the header is the sum of the announced lengths. *)
Definition sum_len {A : Type} (len : A -> Z) (l : list A) : Z := fold_right (fun a n => len a + n) 0 l.
Definition enc_vec {A : Type} (len : A -> Z) (enc : A -> bytes) (l : list A) : bytes :=
  SEQUENCE :: enc_len (sum_len len l) ++ concat (map enc l).
Definition len_vec {A : Type} (len : A -> Z) (l : list A) : Z := tlv_len (sum_len len l).
Fixpoint dec_all {A : Type} (dec : bytes -> res der_err (A * bytes)) (fuel : nat) (v : bytes)
    : res der_err (list A) :=
  match v with
  | [] => Ok []
  | _ => match fuel with
         | O => NoFuel
         | S f => bind (dec v) (fun p => bind (dec_all dec f (snd p)) (fun l => Ok (fst p :: l)))
         end
  end.
Definition dec_vec {A : Type} (dec : bytes -> res der_err (A * bytes)) (l : bytes)
    : res der_err (list A * bytes) :=
  bind (dec_tlv SEQUENCE l) (fun p =>
  bind (dec_all dec (length (fst p)) (fst p)) (fun x => Ok (x, snd p))).

(** [#[derive(Sequence)]]: fields within a header; the nested reader must be used up. *)
Definition enc_fields (n : Z) (v : bytes) : bytes := SEQUENCE :: enc_len n ++ v.
Definition dec_fields {A : Type} (dec : bytes -> res der_err (A * bytes)) (l : bytes)
    : res der_err (A * bytes) :=
  bind (dec_tlv SEQUENCE l) (fun p =>
  bind (dec (fst p)) (fun q =>
  match snd q with [] => Ok (fst q, snd p) | _ => Err TrailingData end)).

(** [Encode for Option<T>]: nothing for [None]. *)
Definition enc_opt {A : Type} (enc : A -> bytes) (o : option A) : bytes :=
  match o with Some a => enc a | None => [] end.
Definition len_opt {A : Type} (len : A -> Z) (o : option A) : Z :=
  match o with Some a => len a | None => 0 end.

(** [Encode::encode_to_vec] and [Decode::from_der]. *)
Definition to_der {A : Type} (len : A -> Z) (enc : A -> bytes) (a : A) : res der_err bytes :=
  if MAX_LEN <? len a then Err Overflow
  else if len a =? size (enc a) then Ok (enc a) else Err Incomplete.
Definition from_der {A : Type} (dec : bytes -> res der_err (A * bytes)) (l : bytes) : res der_err A :=
  bind (dec l) (fun p => match snd p with [] => Ok (fst p) | _ => Err TrailingData end).

(** The codec of an external type. *)
Record codec (A : Type) := {
  c_len : A -> Z; c_enc : A -> bytes; c_dec : bytes -> res der_err (A * bytes)
}.
Arguments c_len {A}.  Arguments c_enc {A}.  Arguments c_dec {A}.

(** * hifitime *)
Definition CENTURY : Z := 3155760000000000000.
Definition MIN_DURATION : Z := -32768 * CENTURY.
Definition MAX_DURATION : Z := 32768 * CENTURY.
(** [Duration::from_total_nanoseconds] saturates. *)
Definition from_total_nanoseconds (n : Z) : Z := Z.max MIN_DURATION (Z.min MAX_DURATION n).
Definition dec_duration (l : bytes) : res der_err (Z * bytes) :=
  bind (dec_i128 l) (fun p => Ok (from_total_nanoseconds (fst p), snd p)).

(** * Enumerations *)
Import Sched_Model Sc_Model Arc_Model.
(** scheduler.rs:34-45 *)
Definition handoff_code (h : handoff_policy) : Z :=
  match h with Eager => 0 | Greedy => 1 | Overlap => 2 end.
Definition handoff_of (z : Z) : option handoff_policy :=
  if z =? 0 then Some Eager else if z =? 1 then Some Greedy else if z =? 2 then Some Overlap else None.
(** spacecraft.rs:49-60 *)
Definition mode_code (m : guidance_mode) : Z :=
  match m with Coast => 0 | Thrust => 1 | Inhibit => 2 end.
Definition mode_of (z : Z) : option guidance_mode :=
  if z =? 0 then Some Coast else if z =? 1 then Some Thrust else if z =? 2 then Some Inhibit else None.
(** msr/types.rs:34-57 *)
Definition type_code (t : msr_type) : Z :=
  match t with
  | Range => 0 | Doppler => 1 | Azimuth => 2 | Elevation => 3 | ReceiveFrequency => 4
  | TransmitFrequency => 5 | TransmitFrequencyRate => 9 | MX => 6 | MY => 7 | MZ => 8
  end.
Definition type_of (z : Z) : option msr_type :=
  if z =? 0 then Some Range else if z =? 1 then Some Doppler else if z =? 2 then Some Azimuth
  else if z =? 3 then Some Elevation else if z =? 4 then Some ReceiveFrequency
  else if z =? 5 then Some TransmitFrequency else if z =? 9 then Some TransmitFrequencyRate
  else if z =? 6 then Some MX else if z =? 7 then Some MY else if z =? 8 then Some MZ else None.

Definition enc_handoff h := enc_enum (handoff_code h).
Definition len_handoff h := len_enum (handoff_code h).
Definition dec_handoff := dec_enum handoff_of.
Definition enc_mode m := enc_enum (mode_code m).
Definition len_mode m := len_enum (mode_code m).
Definition dec_mode := dec_enum mode_of.
Definition enc_type t := enc_enum (type_code t).
Definition len_type t := len_enum (type_code t).
Definition dec_type := dec_enum type_of.

(** * Scheduler *)
(** [Encode for Cadence], scheduler.rs:124-146 *)
Definition len_cadence (c : cadence_policy) : Z :=
  match c with
  | Continuous => len_int 0
  | Intermittent on off => len_int 1 + len_int on + len_int off
  end.
Definition enc_cadence (c : cadence_policy) : bytes :=
  match c with
  | Continuous => enc_int 0
  | Intermittent on off => enc_int 1 ++ enc_int on ++ enc_int off
  end.
(** [Decode for Cadence], scheduler.rs:103-122 *)
Definition dec_cadence (l : bytes) : res der_err (cadence_policy * bytes) :=
  bind (dec_u8 l) (fun p =>
  if fst p =? 0 then Ok (Continuous, snd p)
  else if fst p =? 1 then
    bind (dec_duration (snd p)) (fun q =>
    bind (dec_duration (snd q)) (fun r => Ok (Intermittent (fst q) (fst r), snd r)))
  else Err BadValue).

(** [Encode for Scheduler], scheduler.rs:237-262 *)
Definition len_scheduler (s : scheduler) : Z :=
  let n := len_handoff (handoff s) + len_cadence (cadence s) + len_int (min_samples s) +
           len_bool (match sample_alignment s with Some _ => true | None => false end) in
  match sample_alignment s with Some sa => n + len_int sa | None => n end.
Definition enc_scheduler (s : scheduler) : bytes :=
  enc_handoff (handoff s) ++ enc_cadence (cadence s) ++ enc_int (min_samples s) ++
  match sample_alignment s with
  | Some sa => enc_bool true ++ enc_int sa
  | None => enc_bool false
  end.
(** [Decode for Scheduler], scheduler.rs:217-235 *)
Definition dec_scheduler (l : bytes) : res der_err (scheduler * bytes) :=
  bind (dec_handoff l) (fun a =>
  bind (dec_cadence (snd a)) (fun b =>
  bind (dec_u32 (snd b)) (fun c =>
  bind (dec_bool (snd c)) (fun d =>
  let make sa := {| handoff := fst a; cadence := fst b; min_samples := fst c;
                    sample_alignment := sa |} in
  if fst d then bind (dec_i128 (snd d)) (fun e => Ok (make (Some (from_total_nanoseconds (fst e))), snd e))
  else Ok (make None, snd d))))).

Section Scales.
(** hifitime's time scales: [as u8] and [TimeScale::from(u8)]. *)
Context {scale : Type} (scale_code : scale -> Z) (scale_of : Z -> scale).

(** An [Epoch] is a duration in a time scale; [Strand], trkconfig.rs:263-268. *)
Record der_strand := {
  d_start : Z; d_start_scale : scale; d_end : Z; d_end_scale : scale
}.
(** [Encode for Strand], trkconfig.rs:299-314 *)
Definition len_strand (s : der_strand) : Z :=
  let ts := len_int 1 in (len_int (d_start s) + ts) + (len_int (d_end s) + ts).
Definition enc_strand (s : der_strand) : bytes :=
  enc_int (d_start s) ++ enc_int (scale_code (d_start_scale s)) ++
  enc_int (d_end s) ++ enc_int (scale_code (d_end_scale s)).
(** [Decode for Strand], trkconfig.rs:282-297 *)
Definition dec_strand (l : bytes) : res der_err (der_strand * bytes) :=
  bind (dec_i128 l) (fun a =>
  bind (dec_u8 (snd a)) (fun b =>
  bind (dec_i128 (snd b)) (fun c =>
  bind (dec_u8 (snd c)) (fun d =>
  Ok ({| d_start := from_total_nanoseconds (fst a); d_start_scale := scale_of (fst b);
         d_end := from_total_nanoseconds (fst c); d_end_scale := scale_of (fst d) |}, snd d))))).

(** [TrkConfig], trkconfig.rs:41-56 *)
Record der_trkconfig := {
  t_scheduler : option scheduler; t_sampling : Z; t_strands : option (list der_strand)
}.
(** [Encode for TrkConfig], trkconfig.rs:80-110 *)
Definition len_trkconfig (t : der_trkconfig) : Z :=
  let n := len_bool (match t_scheduler t with Some _ => true | None => false end) in
  let n := match t_scheduler t with Some s => n + len_scheduler s | None => n end in
  let n := n + len_int (t_sampling t) in
  let n := n + len_bool (match t_strands t with Some _ => true | None => false end) in
  match t_strands t with Some l => n + len_vec len_strand l | None => n end.
Definition enc_trkconfig (t : der_trkconfig) : bytes :=
  match t_scheduler t with
  | Some s => enc_bool true ++ enc_scheduler s
  | None => enc_bool false
  end ++ enc_int (t_sampling t) ++
  match t_strands t with
  | Some l => enc_bool true ++ enc_vec len_strand enc_strand l
  | None => enc_bool false
  end.
(** [Decode for TrkConfig], trkconfig.rs:58-78 *)
Definition dec_trkconfig (l : bytes) : res der_err (der_trkconfig * bytes) :=
  bind (dec_bool l) (fun a =>
  bind (if fst a then bind (dec_scheduler (snd a)) (fun s => Ok (Some (fst s), snd s))
        else Ok (None, snd a)) (fun b =>
  bind (dec_i128 (snd b)) (fun c =>
  bind (dec_bool (snd c)) (fun d =>
  bind (if fst d then bind (dec_vec dec_strand (snd d)) (fun s => Ok (Some (fst s), snd s))
        else Ok (None, snd d)) (fun e =>
  Ok ({| t_scheduler := fst b; t_sampling := from_total_nanoseconds (fst c); t_strands := fst e |},
      snd e)))))).
End Scales.

Section Reals.
(** The [der] crate's REAL: the octets of the value. *)
Context {F : Type} (real_value : F -> bytes) (of_real_value : bytes -> option F).

Definition enc_f64 (x : F) : bytes := enc_tlv REAL (real_value x).
Definition len_f64 (x : F) : Z := tlv_len (size (real_value x)).
Definition dec_f64 (l : bytes) : res der_err (F * bytes) :=
  bind (dec_tlv REAL l) (fun p =>
  match of_real_value (fst p) with Some x => Ok (x, snd p) | None => Err BadValue end).

(** * Thruster, guidance/mod.rs:76-94 *)
Record der_thruster := { th_thrust : F; th_isp : F }.
Definition len_thruster (t : der_thruster) : Z := len_f64 (th_thrust t) + len_f64 (th_isp t).
Definition enc_thruster (t : der_thruster) : bytes := enc_f64 (th_thrust t) ++ enc_f64 (th_isp t).
Definition dec_thruster (l : bytes) : res der_err (der_thruster * bytes) :=
  bind (dec_f64 l) (fun a => bind (dec_f64 (snd a)) (fun b =>
  Ok ({| th_thrust := fst a; th_isp := fst b |}, snd b))).

(** * Noises *)
(** white.rs:35-42 [#[derive(Sequence)]] *)
Record der_white := { w_mean : F; w_sigma : F }.
Definition white_fields_len (w : der_white) : Z := len_f64 (w_mean w) + len_f64 (w_sigma w).
Definition len_white (w : der_white) : Z := tlv_len (white_fields_len w).
Definition enc_white (w : der_white) : bytes :=
  enc_fields (white_fields_len w) (enc_f64 (w_mean w) ++ enc_f64 (w_sigma w)).
Definition dec_white : bytes -> res der_err (der_white * bytes) :=
  dec_fields (fun l => bind (dec_f64 l) (fun a => bind (dec_f64 (snd a)) (fun b =>
    Ok ({| w_mean := fst a; w_sigma := fst b |}, snd b)))).

(** gauss_markov.rs:52-66 *)
Record der_gm := {
  g_tau : Z; g_noise : F; g_constant : option F; g_prev : option Z; g_init : option F
}.
(** [Encode for GaussMarkov], gauss_markov.rs:181-202 *)
Definition len_gm (g : der_gm) : Z :=
  len_int (g_tau g) + len_f64 (g_noise g) +
  match g_constant g with
  | Some c => len_bool true + len_f64 c
  | None => len_bool false
  end.
Definition enc_gm (g : der_gm) : bytes :=
  enc_int (g_tau g) ++ enc_f64 (g_noise g) ++
  match g_constant g with
  | Some c => enc_bool true ++ enc_f64 c
  | None => enc_bool false
  end.
(** [Decode for GaussMarkov], gauss_markov.rs:204-222 *)
Definition dec_gm (l : bytes) : res der_err (der_gm * bytes) :=
  bind (dec_duration l) (fun a =>
  bind (dec_f64 (snd a)) (fun b =>
  bind (dec_bool (snd b)) (fun c =>
  bind (if fst c then bind (dec_f64 (snd c)) (fun d => Ok (Some (fst d), snd d))
        else Ok (None, snd c)) (fun d =>
  Ok ({| g_tau := fst a; g_noise := fst b; g_constant := fst d; g_prev := None; g_init := None |},
      snd d))))).

(** noise/mod.rs:55-63 *)
Record der_noise := { n_white : option der_white; n_bias : option der_gm }.
(** [available_data], noise/mod.rs:236-248 *)
Definition noise_flags (n : der_noise) : Z :=
  Z.lor (match n_white n with Some _ => 1 | None => 0 end)
        (match n_bias n with Some _ => 2 | None => 0 end).
(** [Encode for StochasticNoise], noise/mod.rs:402-415 *)
Definition len_noise (n : der_noise) : Z :=
  len_int (noise_flags n) + len_opt len_white (n_white n) + len_opt len_gm (n_bias n).
Definition enc_noise (n : der_noise) : bytes :=
  enc_int (noise_flags n) ++ enc_opt enc_white (n_white n) ++ enc_opt enc_gm (n_bias n).
(** [Decode for StochasticNoise], noise/mod.rs:417-435 *)
Definition dec_noise (l : bytes) : res der_err (der_noise * bytes) :=
  bind (dec_u8 l) (fun a =>
  bind (if Z.testbit (fst a) 0 then bind (dec_white (snd a)) (fun w => Ok (Some (fst w), snd w))
        else Ok (None, snd a)) (fun b =>
  bind (if Z.testbit (fst a) 1 then bind (dec_gm (snd b)) (fun g => Ok (Some (fst g), snd g))
        else Ok (None, snd b)) (fun c =>
  Ok ({| n_white := fst b; n_bias := fst c |}, snd c)))).

(** * Ground station *)
Section Station.
(** anise's [Location], and the UTF-8 check of strings. *)
Context {loc : Type} (location : codec loc) (utf8 : bytes -> bool).

Definition enc_string (s : bytes) : bytes := enc_tlv UTF8STRING s.
Definition len_string (s : bytes) : Z := tlv_len (size s).
Definition dec_string (l : bytes) : res der_err (bytes * bytes) :=
  bind (dec_tlv UTF8STRING l) (fun p => if utf8 (fst p) then Ok p else Err BadValue).

(** [MsrNoisePair], ground_station/mod.rs:291-295 [#[derive(der::Sequence)]] *)
Definition pair_fields_len (p : msr_type * der_noise) : Z := len_type (fst p) + len_noise (snd p).
Definition len_pair (p : msr_type * der_noise) : Z := tlv_len (pair_fields_len p).
Definition enc_pair (p : msr_type * der_noise) : bytes :=
  enc_fields (pair_fields_len p) (enc_type (fst p) ++ enc_noise (snd p)).
Definition dec_pair : bytes -> res der_err ((msr_type * der_noise) * bytes) :=
  dec_fields (fun l => bind (dec_type l) (fun a => bind (dec_noise (snd a)) (fun b =>
    Ok ((fst a, fst b), snd b)))).

(** ground_station/mod.rs:49-63 *)
Record der_station := {
  gs_name : bytes; gs_location : loc; gs_types : list msr_type; gs_integration : option Z;
  gs_light_time : bool; gs_timestamp_noise : option der_noise;
  gs_noises : option (list (msr_type * der_noise))
}.
(** [available_data], ground_station/mod.rs:229-242 *)
Definition station_flags (g : der_station) : Z :=
  Z.lor (Z.lor (match gs_integration g with Some _ => 1 | None => 0 end)
               (match gs_timestamp_noise g with Some _ => 2 | None => 0 end))
        (match gs_noises g with Some _ => 4 | None => 0 end).
(** [Encode for GroundStation], ground_station/mod.rs:348-400 *)
Definition len_station (g : der_station) : Z :=
  len_string (gs_name g) + c_len location (gs_location g) + len_vec len_type (gs_types g) +
  len_bool (gs_light_time g) + len_int (station_flags g) + len_opt len_int (gs_integration g) +
  len_opt len_noise (gs_timestamp_noise g) + len_opt (len_vec len_pair) (gs_noises g).
Definition enc_station (g : der_station) : bytes :=
  enc_string (gs_name g) ++ c_enc location (gs_location g) ++ enc_vec len_type enc_type (gs_types g) ++
  enc_bool (gs_light_time g) ++ enc_int (station_flags g) ++ enc_opt enc_int (gs_integration g) ++
  enc_opt enc_noise (gs_timestamp_noise g) ++ enc_opt (enc_vec len_pair enc_pair) (gs_noises g).
(** [IndexSet::from_iter]: the first of equal elements stays. *)
Definition index_set (l : list msr_type) : list msr_type :=
  fold_left (fun s t => if existsb (type_eqb t) s then s else s ++ [t]) l [].
(** [Decode for GroundStation], ground_station/mod.rs:297-346 *)
Definition dec_station (l : bytes) : res der_err (der_station * bytes) :=
  bind (dec_string l) (fun a =>
  bind (c_dec location (snd a)) (fun b =>
  bind (dec_vec dec_type (snd b)) (fun c =>
  bind (dec_bool (snd c)) (fun d =>
  bind (dec_u8 (snd d)) (fun e =>
  bind (if Z.testbit (fst e) 0 then bind (dec_duration (snd e)) (fun x => Ok (Some (fst x), snd x))
        else Ok (None, snd e)) (fun f =>
  bind (if Z.testbit (fst e) 1 then bind (dec_noise (snd f)) (fun x => Ok (Some (fst x), snd x))
        else Ok (None, snd f)) (fun g =>
  bind (if Z.testbit (fst e) 2 then
          bind (dec_vec dec_pair (snd g)) (fun x =>
          Ok (Some (fold_left (fun m p => im_insert type_eqb (fst p) (snd p) m) (fst x) []), snd x))
        else Ok (None, snd g)) (fun h =>
  Ok ({| gs_name := fst a; gs_location := fst b; gs_types := index_set (fst c);
         gs_integration := fst f; gs_light_time := fst d; gs_timestamp_noise := fst g;
         gs_noises := fst h |}, snd h))))))))).
End Station.

(** * Spacecraft *)
Section Spacecraft.
(** anise's [Orbit], [Mass], [SRPData] and [DragData]; the direction of thrust and the STM. *)
Context {orb mas srp_t drag_t dir stm_t : Type}.
Context (orbit_c : codec orb) (mass_c : codec mas) (srp_c : codec srp_t) (drag_c : codec drag_t).
(** spacecraft.rs:115-143 *)
Record der_spacecraft := {
  v_orbit : orb; v_mass : mas; v_srp : srp_t; v_drag : drag_t; v_thruster : option der_thruster;
  v_mode : guidance_mode; v_direction : option dir; v_stm : option stm_t
}.
(** [Encode for Spacecraft], spacecraft.rs:758-784 *)
Definition len_spacecraft (v : der_spacecraft) : Z :=
  c_len orbit_c (v_orbit v) + c_len mass_c (v_mass v) + c_len srp_c (v_srp v) +
  c_len drag_c (v_drag v) + len_mode (v_mode v) +
  len_bool (match v_thruster v with Some _ => true | None => false end) +
  len_opt len_thruster (v_thruster v).
Definition enc_spacecraft (v : der_spacecraft) : bytes :=
  c_enc orbit_c (v_orbit v) ++ c_enc mass_c (v_mass v) ++ c_enc srp_c (v_srp v) ++
  c_enc drag_c (v_drag v) ++ enc_mode (v_mode v) ++
  match v_thruster v with
  | Some t => enc_bool true ++ enc_thruster t
  | None => enc_bool false
  end.
(** [Decode for Spacecraft], spacecraft.rs:731-756 *)
Definition dec_spacecraft (l : bytes) : res der_err (der_spacecraft * bytes) :=
  bind (c_dec orbit_c l) (fun a =>
  bind (c_dec mass_c (snd a)) (fun b =>
  bind (c_dec srp_c (snd b)) (fun c =>
  bind (c_dec drag_c (snd c)) (fun d =>
  bind (dec_mode (snd d)) (fun e =>
  bind (dec_bool (snd e)) (fun f =>
  bind (if fst f then bind (dec_thruster (snd f)) (fun x => Ok (Some (fst x), snd x))
        else Ok (None, snd f)) (fun g =>
  Ok ({| v_orbit := fst a; v_mass := fst b; v_srp := fst c; v_drag := fst d;
         v_thruster := fst g; v_mode := fst e; v_direction := None; v_stm := None |},
      snd g)))))))).
End Spacecraft.
End Reals.
