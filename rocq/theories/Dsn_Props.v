(** The built-in stations of the Deep Space Network (C114). *)
From Coq Require Import Reals Lra Lia String.
From Verif Require Import Base Arc_Model Sens_Model Noise_Model Dsn_Model.
Local Open Scope R_scope.

(** ** Specification *)

(** Where the antennas are, to a hundredth of a degree and a hundredth of a kilometre: geodetic latitude, longitude
    to the east and height, as published by the DSN (810-005, module 301).  Written from memory: the document is
    not in the repository and could not be consulted. *)
Definition DSS_65 : R * R * R := (4043 / 100, 35575 / 100, 83 / 100).
Definition DSS_34 : R * R * R := (-3540 / 100, 14898 / 100, 69 / 100).
Definition DSS_13 : R * R * R := (3525 / 100, 24321 / 100, 107 / 100).

(** At the same place, to [d] degrees, longitudes being counted modulo a turn, and a hundredth of a kilometre. *)
Definition located (d : R) (s : site) (p : R * R * R) : Prop :=
  let '(lat, lon, h) := p in
  Rabs (latitude_deg s - lat) <= d /\ (exists k : Z, Rabs (longitude_deg s - lon - 360 * IZR k) <= d) /\ Rabs (height_km s - h) <= 1 / 100.

Definition built_in : list (R -> noise -> noise -> station * site) := [dss65_madrid; dss34_canberra; dss13_goldstone].

(** ** Proofs *)

(** C114: a built-in station that sees the spacecraft measures its range and its range rate at this instant, with one
    sample of each of the noises given, in this order, and nothing on the time tag; the filter is told the variances
    of these noises. *)
Theorem C114_measures : forall make mask rn dn w geometry t k a, In make built_in -> geometry t = Some a ->
  let s := fst (make mask rn dn) in
  let '(x, rn', k1) := sample w t rn k in
  let '(y, dn', k2) := sample w t dn k1 in
  (exists s', measure w geometry t (Some k) s =
     (s', Some k2, Ok (Some (0, [(Range, range_km a + x); (Doppler, rate_km_s a + y)]))) /\ st_noises s' = Some [(Range, rn'); (Doppler, dn')]) /\
  covar_diagonal 2 s [Range; Doppler] = Ok [covariance rn; covariance dn].
Proof.
  intros make mask rn dn w geometry t k a Hin Ha.
  assert (E : exists name, fst (make mask rn dn) = dsn_station name rn dn).
  { destruct Hin as [<-|[<-|[<-|[]]]]; eexists; reflexivity. }
  destruct E as [name ->]. cbv zeta.
  destruct (sample w t rn k) as [[x rn'] k1] eqn:E1. destruct (sample w t dn k1) as [[y dn'] k2] eqn:E2. split.
  - unfold measure. cbn [integration_time dsn_station]. rewrite Ha. unfold instantaneous, noises.
    cbn [st_noises timestamp_noise st_types dsn_station]. change (set_insert Doppler (set_insert Range [])) with [Range; Doppler].
    change (im_insert type_eqb Doppler dn (im_insert type_eqb Range rn [])) with [(Range, rn); (Doppler, dn)].
    cbn [sample_all]. change (im_get type_eqb Range [(Range, rn); (Doppler, dn)]) with (Some rn). cbv iota beta. rewrite E1.
    change (im_insert type_eqb Range rn' [(Range, rn); (Doppler, dn)]) with [(Range, rn'); (Doppler, dn)].
    change (im_get type_eqb Doppler [(Range, rn'); (Doppler, dn)]) with (Some dn). cbv iota beta. rewrite E2.
    change (im_insert type_eqb Doppler dn' [(Range, rn'); (Doppler, dn)]) with [(Range, rn'); (Doppler, dn')].
    cbn [bind lift_sens observe compute_one_way]. eexists. split; reflexivity.
  - reflexivity.
Qed.

(** C114: the stations of Canberra and Goldstone are where these antennas are, for any mask and noises; the mask is
    applied, and the light time is not corrected. *)
Theorem C114_sites_partial : forall mask rn dn,
  located (1 / 100) (snd (dss34_canberra mask rn dn)) DSS_34 /\ located (1 / 100) (snd (dss13_goldstone mask rn dn)) DSS_13 /\
  forall make, In make built_in -> let s := snd (make mask rn dn) in mask_deg s = mask /\ mask_ignored s = false /\ light_time s = false.
Proof.
  intros mask rn dn. split; [|split].
  - cbn [located DSS_34 snd dss34_canberra latitude_deg longitude_deg height_km]. split; [apply Rabs_le; lra|]. split; [exists 0%Z|]; apply Rabs_le; lra.
  - cbn [located DSS_13 snd dss13_goldstone latitude_deg longitude_deg height_km]. split; [apply Rabs_le; lra|]. split; [exists 0%Z|]; apply Rabs_le; lra.
  - intros make [<-|[<-|[<-|[]]]]; repeat split.
Qed.

(** C114: the station of Madrid is not: its longitude is counted to the east while the antenna is as far to the west of
    Greenwich, more than eight degrees away. *)
Theorem C114_madrid_refuted : forall mask rn dn, let s := snd (dss65_madrid mask rn dn) in
  ~ located 8 s DSS_65 /\ located (1 / 100) (Site (latitude_deg s) (- longitude_deg s) (height_km s) mask false false) DSS_65.
Proof.
  intros mask rn dn s. unfold s. clear s.
  cbn [located DSS_65 snd dss65_madrid latitude_deg longitude_deg height_km]. split.
  - intros (_ & (k & H) & _). assert (H1 := Rle_abs (4250556 / 1000000 - 35575 / 100 - 360 * IZR k)). assert (H2 := Rle_abs (- (4250556 / 1000000 - 35575 / 100 - 360 * IZR k))). rewrite Rabs_Ropp in H2.
    assert (A : (-2 < k)%Z) by (apply lt_IZR; lra). assert (B : (k < 0)%Z) by (apply lt_IZR; lra).
    assert (k = (-1)%Z) by lia. subst k. lra.
  - split; [apply Rabs_le; lra|]. split; [exists (-1)%Z|]; apply Rabs_le; lra.
Qed.

(** A case: no noise, a spacecraft in view. *)
Example measures_case : exists make a, In make built_in /\ (fun _ : Z => Some a) 0%Z = Some {| az_deg := 0; el_deg := 30; range_km := 1000; rate_km_s := 1 |}
  /\ sample (fun _ => 1) 0 {| white_noise := Some {| mean := 0; sigma := 2 |}; bias := None |} 0 =
     (0 + 2 * 1, {| white_noise := Some {| mean := 0; sigma := 2 |}; bias := None |}, 1%nat).
Proof. exists dss65_madrid. eexists. split; [now left|]. split; reflexivity. Qed.

Print Assumptions C114_measures.
Print Assumptions C114_sites_partial.
Print Assumptions C114_madrid_refuted.
