(** Model of nyx-core/src/od/ground_station/builtin.rs: the three stations of the Deep Space Network.  The station
    proper is that of Noise_Model; the frame ([IAU_EARTH_FRAME]) is not represented. *)
From Coq Require Import Reals String.
From Verif Require Import Base Arc_Model Sens_Model Noise_Model.
Local Open Scope R_scope.

(** anise: [Location], with the mask of [TerrainMask::from_flat_terrain]; ground_station/mod.rs:59 [light_time_correction]. *)
Record site := Site { latitude_deg : R; longitude_deg : R; height_km : R; mask_deg : R; mask_ignored : bool; light_time : bool }.

(** builtin.rs:30-36 and 37-51, the same for the three of them: two types, each with its noise. *)
Definition dsn_station (name : string) (range_noise doppler_noise : noise) : station :=
  {| st_name := name; st_types := set_insert Doppler (set_insert Range []); integration_time := None; timestamp_noise := None;
     st_noises := Some (im_insert type_eqb Doppler doppler_noise (im_insert type_eqb Range range_noise [])) |}.

(** builtin.rs:25-54 [dss65_madrid] *)
Definition dss65_madrid (mask : R) (rn dn : noise) : station * site :=
  (dsn_station "Madrid" rn dn, Site (40427222 / 1000000) (4250556 / 1000000) (834939 / 1000000) mask false false).
(** builtin.rs:56-85 [dss34_canberra] *)
Definition dss34_canberra (mask : R) (rn dn : noise) : station * site :=
  (dsn_station "Canberra" rn dn, Site (-35398333 / 1000000) (148981944 / 1000000) (691750 / 1000000) mask false false).
(** builtin.rs:87-116 [dss13_goldstone] *)
Definition dss13_goldstone (mask : R) (rn dn : noise) : station * site :=
  (dsn_station "Goldstone" rn dn, Site (35247164 / 1000000) (243205 / 1000) (107114904 / 100000000) mask false false).
