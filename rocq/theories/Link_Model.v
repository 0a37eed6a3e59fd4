(** Model of the named levels of nyx-core/src/od/noise/link_specific.rs: signal and carrier to noise
    densities, carriers and chip rates, and the noises built from them.  The noises themselves are in
    [Noise_Model].  Values are real numbers; [powf] and [powi] of ten are [Rpower] and [^]. *)
From Coq Require Import Reals.
From Verif Require Import Base Noise_Model.
Local Open Scope R_scope.

(** link_specific.rs:40-66 [SN0] *)
Inductive sn0 := SnStrong | SnAverage | SnPoor | SnManualDbHz (value : R).
Definition sn0_hz (l : sn0) : R :=
  match l with
  | SnStrong => Rpower 10 (65 / 10) | SnAverage => 10 ^ 5 | SnPoor => 10 ^ 4
  | SnManualDbHz v => Rpower 10 (v / 10)
  end.
(** link_specific.rs:78-107 [CN0] *)
Inductive cn0 := CnStrong | CnAverage | CnPoor | CnManualDbHz (value : R).
Definition cn0_hz (l : cn0) : R :=
  match l with
  | CnStrong => 10 ^ 7 | CnAverage => Rpower 10 (55 / 10) | CnPoor => Rpower 10 (45 / 10)
  | CnManualDbHz v => Rpower 10 (v / 10)
  end.
(** link_specific.rs:111-131 [CarrierFreq] *)
Inductive carrier := SBand | XBand | KaBand | CarrierHz (value : R).
Definition carrier_hz (c : carrier) : R :=
  match c with SBand => 22 * 10 ^ 8 | XBand => 84 * 10 ^ 8 | KaBand => 32 * 10 ^ 9 | CarrierHz v => v end.
(** link_specific.rs:134-168 [ChipRate] *)
Inductive chip_rate := Lowest | Low | StandardT4B | High | VeryHigh | ChipHz (value : R).
Definition chip_s (c : chip_rate) : R :=
  match c with
  | Lowest => 10 ^ 3 | Low => 10 ^ 5 | StandardT4B => 10 ^ 6 | High => 10 ^ 7 | VeryHigh => 25 * 10 ^ 6
  | ChipHz v => v
  end.
(** link_specific.rs:63-67, 91-95 and 151-155 [default] *)
Definition sn0_default : sn0 := SnAverage.
Definition cn0_default : cn0 := CnAverage.
Definition chip_default : chip_rate := StandardT4B.

(** link_specific.rs:179-223 *)
Definition from_hardware_range_km (allan : R) (integration : Z) (c : chip_rate) (l : sn0) : noise :=
  from_hardware_range allan integration (chip_s c) (sn0_hz l).
Definition from_hardware_doppler_km_s (allan : R) (integration : Z) (c : carrier) (l : cn0) : noise :=
  from_hardware_doppler allan integration (carrier_hz c) (cn0_hz l).
