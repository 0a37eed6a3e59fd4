(** Properties of the spacecraft state (C46). *)
From Coq Require Import Reals ZArith Lra Lia.
From Verif Require Import Base Vec3 Angles Util_Model Util_Props Sc_Model.
Local Open Scope R_scope.

Definition in_range (c : R) : Prop := 0 <= c <= 2.

(** A state as the code can hold it: the matrix, when there is one, has 81 entries. *)
Definition sized (sc : spacecraft) : Prop :=
  match stm sc with Some m => length m = 81%nat | None => True end.

Lemma clamp_in_range x : in_range (clamp x 0 2).
Proof. unfold in_range, clamp. destruct (Rlt_dec x 0); [lra|]. destruct (Rlt_dec 2 x); lra. Qed.

Lemma clamp_fixed x : in_range x -> clamp x 0 2 = x.
Proof. unfold in_range, clamp. intros. destruct (Rlt_dec x 0); [lra|]. destruct (Rlt_dec 2 x); lra. Qed.

Lemma clamp_not_fixed x : ~ in_range x -> clamp x 0 2 <> x.
Proof. unfold in_range, clamp. intros. destruct (Rlt_dec x 0); [lra|]. destruct (Rlt_dec 2 x); lra. Qed.

(** The integration vector has always 90 entries. *)
Theorem C46_vector_length : forall sc, sized sc -> length (to_vector sc) = 90%nat.
Proof.
  intros sc H. unfold to_vector, sized in *. rewrite app_length.
  destruct (stm sc) as [m|]; [rewrite H|rewrite repeat_length]; reflexivity.
Qed.

(** Reading back the integration vector at the same epoch gives the same spacecraft, as soon
    as its reflectivity coefficient is in range. *)
Theorem C46_vector_roundtrip : forall sc,
  in_range (coeff_reflectivity sc) ->
  set sc (epoch (sc_orbit sc)) (to_vector sc) = sc.
Proof.
  intros [[e f [x y z] [u v w]] d p xm sa cr da cd th md td st] H. cbn in H.
  unfold set, to_vector. cbn [sc_orbit radius_km velocity_km_s vx vy vz coeff_reflectivity
    coeff_drag prop_mass_kg nth app epoch frame stm skipn].
  rewrite (clamp_fixed _ H).
  destruct st; reflexivity.
Qed.

(** In general everything but the reflectivity coefficient is read back. *)
Theorem C46_vector_roundtrip_but_reflectivity : forall sc ep,
  let sc' := set sc ep (to_vector sc) in
  radius_km (sc_orbit sc') = radius_km (sc_orbit sc)
  /\ velocity_km_s (sc_orbit sc') = velocity_km_s (sc_orbit sc)
  /\ epoch (sc_orbit sc') = ep
  /\ frame (sc_orbit sc') = frame (sc_orbit sc)
  /\ coeff_drag sc' = coeff_drag sc
  /\ prop_mass_kg sc' = prop_mass_kg sc
  /\ mass_kg sc' = mass_kg sc
  /\ mode sc' = mode sc
  /\ stm sc' = stm sc.
Proof.
  intros [[e f [x y z] [u v w]] d p xm sa cr da cd th md td st] ep. cbn zeta.
  unfold set, to_vector, mass_kg. cbn [sc_orbit radius_km velocity_km_s vx vy vz
    coeff_reflectivity coeff_drag prop_mass_kg extra_mass_kg dry_mass_kg nth app epoch frame stm
    skipn mode]. repeat split. destruct st; reflexivity.
Qed.

(** The vectors of two spacecraft differ when what they stand for differs. *)
Theorem C46_vector_injective : forall a b,
  (stm a = None <-> stm b = None) ->
  to_vector a = to_vector b ->
  radius_km (sc_orbit a) = radius_km (sc_orbit b)
  /\ velocity_km_s (sc_orbit a) = velocity_km_s (sc_orbit b)
  /\ coeff_reflectivity a = coeff_reflectivity b
  /\ coeff_drag a = coeff_drag b
  /\ prop_mass_kg a = prop_mass_kg b
  /\ stm a = stm b.
Proof.
  intros [[e f [x y z] [u v w]] d p xm sa cr da cd th md td st]
         [[e' f' [x' y' z'] [u' v' w']] d' p' xm' sa' cr' da' cd' th' md' td' st'] Hn H.
  unfold to_vector in H. cbn [sc_orbit radius_km velocity_km_s vx vy vz
    coeff_reflectivity coeff_drag prop_mass_kg app stm] in *.
  injection H as -> -> -> -> -> -> -> -> -> H. repeat split.
  destruct st, st'; try congruence; exfalso; destruct Hn as [H1 H2];
    (discriminate (H1 eq_refl) || discriminate (H2 eq_refl)).
Qed.

(** The reflectivity coefficient read back is within [0, 2], whatever the vector. *)
Theorem C46_reflectivity_after_set : forall sc ep v,
  in_range (coeff_reflectivity (set sc ep v)).
Proof. intros. apply clamp_in_range. Qed.

(** The same holds of a spacecraft to which a deviation is added ... *)
Theorem C46_reflectivity_after_add : forall sc d,
  in_range (coeff_reflectivity (add9 sc d)).
Proof. intros. apply clamp_in_range. Qed.

(** ... and the deviation is applied exactly to everything else; adding none changes
    nothing exactly when the coefficient is in range. *)
Theorem C46_add_deviation : forall sc d,
  let sc' := add9 sc d in
  radius_km (sc_orbit sc') = vadd (radius_km (sc_orbit sc)) (V3 (nth 0 d 0) (nth 1 d 0) (nth 2 d 0))
  /\ velocity_km_s (sc_orbit sc') = vadd (velocity_km_s (sc_orbit sc)) (V3 (nth 3 d 0) (nth 4 d 0) (nth 5 d 0))
  /\ coeff_drag sc' = coeff_drag sc + nth 7 d 0
  /\ prop_mass_kg sc' = prop_mass_kg sc + nth 8 d 0
  /\ dry_mass_kg sc' = dry_mass_kg sc
  /\ epoch (sc_orbit sc') = epoch (sc_orbit sc)
  /\ mode sc' = mode sc /\ stm sc' = stm sc
  /\ (in_range (coeff_reflectivity sc + nth 6 d 0) ->
      coeff_reflectivity sc' = coeff_reflectivity sc + nth 6 d 0).
Proof. intros. repeat split. intros H. exact (clamp_fixed _ H). Qed.

Theorem C46_add_zero : forall sc,
  add9 sc (repeat 0 9) = sc <-> in_range (coeff_reflectivity sc).
Proof.
  intros [[e f [x y z] [u v w]] d p xm sa cr da cd th md td st].
  unfold add9, add6, with_prop, with_cd, with_cr, with_orbit, vadd.
  cbn [sc_orbit radius_km velocity_km_s vx vy vz coeff_reflectivity coeff_drag prop_mass_kg
       extra_mass_kg dry_mass_kg nth repeat epoch frame stm mode srp_area_m2 drag_area_m2
       sc_thruster thrust_direction].
  rewrite !Rplus_0_r. split.
  - intros H. apply (f_equal coeff_reflectivity) in H. cbn [coeff_reflectivity] in H.
    rewrite <- H. apply clamp_in_range.
  - intros H. rewrite (clamp_fixed _ H). reflexivity.
Qed.

(** Without the range hypothesis the round trip is false: a coefficient of 3 set by the user
    comes back as 2. *)
Definition bare (cr : R) : spacecraft :=
  Spacecraft (Orbit 0 0 (V3 7000 0 0) (V3 0 7 1)) 100 50 0 1 cr 2 (22/10)
    (Some (Thruster 10 300)) Coast None (Some identity9).

Theorem C46_vector_roundtrip_refuted : exists sc,
  sized sc /\ set sc (epoch (sc_orbit sc)) (to_vector sc) <> sc.
Proof.
  exists (bare 3). split; [reflexivity|].
  intros H. apply (f_equal coeff_reflectivity) in H.
  change (clamp 3 0 2 = 3) in H. revert H. apply clamp_not_fixed. unfold in_range. lra.
Qed.

(** The guidance mode survives its conversion to a number and back. *)
Theorem C46_mode_roundtrip : forall m, mode_of_f64 (f64_of_mode m) = m.
Proof.
  intros []; unfold mode_of_f64, f64_of_mode.
  - destruct (Rle_dec 1 0); [lra|]. destruct (Rlt_dec 0 0); [lra|reflexivity].
  - destruct (Rle_dec 1 1); [reflexivity|lra].
  - destruct (Rle_dec 1 (-1)); [lra|]. destruct (Rlt_dec (-1) 0); [reflexivity|lra].
Qed.

(** ** Parameters *)

Lemma trig_one a : sin a * sin a + cos a * cos a = 1.
Proof. pose proof (sin2_cos2 a) as H. unfold Rsqr in H. exact H. Qed.

Lemma spherical_norm rho theta phi : EPSILON <= rho -> norm (spherical_to_cartesian rho theta phi) = rho.
Proof.
  intros H. unfold spherical_to_cartesian. destruct (Rlt_dec rho EPSILON); [lra|].
  pose proof EPSILON_pos. unfold norm, dot. cbn [vx vy vz].
  replace (rho * sin phi * cos theta * (rho * sin phi * cos theta)
           + rho * sin phi * sin theta * (rho * sin phi * sin theta)
           + rho * cos phi * (rho * cos phi)) with (rho * rho).
  - apply sqrt_square. lra.
  - transitivity (rho * rho * (sin phi * sin phi * (sin theta * sin theta + cos theta * cos theta)
                   + cos phi * cos phi)).
    + rewrite (trig_one theta), Rmult_1_r, (trig_one phi). ring.
    + ring.
Qed.

Section Params.
Context (evaluate : element -> orbit -> option R)
        (set_kepler : element -> orbit -> R -> option orbit)
        (bplane : orbit -> option (R * R * R))
        (dcm_to_inertial : nat -> orbit -> option m3).
Notation value := (value evaluate bplane dcm_to_inertial).
Notation set_value := (set_value set_kepler).

(** The parameters whose setter stores the number as it is given. *)
Definition stored (p : parameter) : Prop :=
  match p with
  | Cd | Cr | PropMass | DryMass | Isp | ThrustP
  | Element X | Element Y | Element Z_ | Element VX | Element VY | Element VZ => True
  | _ => False
  end.

Lemma set_then_value sc p val sc' :
  stored p -> set_value sc p val = Ok sc' -> value sc' p = Ok val.
Proof.
  intros Hp H. destruct p as [e| | | | | | | | | | | | | | | | |]; cbn in Hp; try contradiction;
    try (destruct e; cbn in Hp; try contradiction);
    cbn [Sc_Model.set_value] in H;
    try (destruct (sc_thruster sc); [|discriminate H]);
    (assert (E : forall a b : spacecraft, Ok (E := state_error) a = Ok b -> a = b) by congruence;
     apply E in H; subst sc'; reflexivity).
Qed.

Lemma set_range_norm v val : EPSILON <= val -> norm (set_range v val) = val.
Proof.
  intros H. unfold set_range. destruct (cartesian_to_spherical v) as [[r t] p].
  apply spherical_norm, H.
Qed.

Lemma set_mag_then_value sc p val sc' :
  p = Element Rmag \/ p = Element Vmag -> EPSILON <= val ->
  set_value sc p val = Ok sc' -> value sc' p = Ok val.
Proof.
  intros [-> | ->] Hv H; cbn [Sc_Model.set_value] in H;
    (assert (E : forall a b : spacecraft, Ok (E := state_error) a = Ok b -> a = b) by congruence;
     apply E in H; subst sc'; cbn [Sc_Model.value element_value]; unfold with_orbit, with_radius, with_velocity;
     cbn [sc_orbit radius_km velocity_km_s ok_or]; rewrite set_range_norm by exact Hv; reflexivity).
Qed.

(** Changing one parameter leaves the others alone. *)
Lemma set_leaves_others sc p q val sc' :
  stored p -> stored q -> p <> q -> set_value sc p val = Ok sc' -> value sc' q = value sc q.
Proof.
  intros Hp Hq Hne H.
  destruct p as [e| | | | | | | | | | | | | | | | |]; cbn in Hp; try contradiction;
    try (destruct e; cbn in Hp; try contradiction);
    cbn [Sc_Model.set_value] in H;
    try (destruct (sc_thruster sc) as [t|] eqn:Et; [|discriminate H]);
    (assert (E : forall a b : spacecraft, Ok (E := state_error) a = Ok b -> a = b) by congruence;
     apply E in H; subst sc';
     destruct q as [e'| | | | | | | | | | | | | | | | |]; cbn in Hq; try contradiction;
     try (destruct e'; cbn in Hq; try contradiction);
     try (exfalso; apply Hne; reflexivity);
     cbn [Sc_Model.value element_value]; unfold with_orbit, with_radius, with_velocity,
       with_cd, with_cr, with_prop, with_dry, with_thruster;
     cbn [sc_orbit radius_km velocity_km_s sc_thruster coeff_drag coeff_reflectivity prop_mass_kg
          dry_mass_kg vx vy vz isp_s thrust_N]; try rewrite Et; reflexivity).
Qed.

(** What can be set fails only for want of a thruster, and leaves the epoch alone. *)
Lemma set_succeeds sc p val :
  stored p ->
  (p = Isp \/ p = ThrustP -> sc_thruster sc <> None) ->
  exists sc', set_value sc p val = Ok sc' /\ epoch (sc_orbit sc') = epoch (sc_orbit sc)
    /\ frame (sc_orbit sc') = frame (sc_orbit sc) /\ stm sc' = stm sc /\ mode sc' = mode sc.
Proof.
  intros Hp Ht. destruct p as [e| | | | | | | | | | | | | | | | |]; cbn in Hp; try contradiction;
    try (destruct e; cbn in Hp; try contradiction); cbn [Sc_Model.set_value];
    try (destruct (sc_thruster sc) as [t|]; [|solve [exfalso; apply Ht; auto]]);
    eexists; repeat split.
Qed.
End Params.

(** Reading a parameter just set gives the value set: the coefficients, the masses, the
    thruster, the Cartesian components ... *)
Theorem C46_value_after_set_value : forall evaluate set_kepler bplane dcm sc p val sc',
  stored p -> set_value set_kepler sc p val = Ok sc' ->
  value evaluate bplane dcm sc' p = Ok val.
Proof. intros. eapply set_then_value; eassumption. Qed.

(** ... and the range and speed when they are not tiny; *)
Theorem C46_value_after_set_magnitude : forall evaluate set_kepler bplane dcm sc p val sc',
  p = Element Rmag \/ p = Element Vmag -> EPSILON <= val ->
  set_value set_kepler sc p val = Ok sc' ->
  value evaluate bplane dcm sc' p = Ok val.
Proof. intros evaluate set_kepler bplane dcm sc p val sc' Hp He H. exact (set_mag_then_value evaluate set_kepler bplane dcm sc p val sc' Hp He H). Qed.

(** setting one of them leaves the others as they were; *)
Theorem C46_set_value_leaves_others : forall evaluate set_kepler bplane dcm sc p q val sc',
  stored p -> stored q -> p <> q ->
  set_value set_kepler sc p val = Ok sc' ->
  value evaluate bplane dcm sc' q = value evaluate bplane dcm sc q.
Proof. intros. apply (set_leaves_others evaluate set_kepler bplane dcm sc p q val); assumption. Qed.

(** and it succeeds whenever there is a thruster to set. *)
Theorem C46_set_value_succeeds : forall set_kepler sc p val,
  stored p -> (p = Isp \/ p = ThrustP -> sc_thruster sc <> None) ->
  exists sc', set_value set_kepler sc p val = Ok sc' /\ epoch (sc_orbit sc') = epoch (sc_orbit sc)
    /\ frame (sc_orbit sc') = frame (sc_orbit sc) /\ stm sc' = stm sc /\ mode sc' = mode sc.
Proof. intros. apply set_succeeds; auto. Qed.

(** The total mass is the sum of the dry, propellant and extra masses, and setting the propellant
    or the dry mass changes it by as much. *)
Theorem C46_total_mass : forall evaluate set_kepler bplane dcm sc,
  value evaluate bplane dcm sc TotalMass = Ok (dry_mass_kg sc + (prop_mass_kg sc + extra_mass_kg sc)) /\
  forall p old new sc', p = DryMass \/ p = PropMass -> value evaluate bplane dcm sc p = Ok old ->
    set_value set_kepler sc p new = Ok sc' -> exists m m', value evaluate bplane dcm sc TotalMass = Ok m /\
      value evaluate bplane dcm sc' TotalMass = Ok m' /\ m' - m = new - old.
Proof.
  intros evaluate set_kepler bplane dcm sc. split.
  - unfold value, mass_kg. f_equal. ring.
  - intros p old new sc' [->| ->] H S; cbn in H, S; injection H as <-; injection S as <-;
      (eexists; eexists; split; [reflexivity|split; [reflexivity|]]); unfold mass_kg, with_dry, with_prop; cbn; ring.
Qed.

(** Setting the range keeps the direction of the position. *)
Theorem C46_set_range_direction : forall v val,
  EPSILON <= norm v -> EPSILON <= val -> set_range v val = vscale (val / norm v) v.
Proof.
  intros v val Hv Hval. unfold set_range.
  destruct (cartesian_to_spherical v) as [[rho theta] phi] eqn:E.
  destruct (C50_spherical_roundtrip v rho theta phi E) as (_ & _ & _ & R & _).
  destruct (R Hv) as [Hrho H].
  pose proof EPSILON_pos. unfold spherical_to_cartesian in *.
  destruct (Rlt_dec val EPSILON); [lra|]. destruct (Rlt_dec rho EPSILON); [lra|].
  rewrite <- Hrho. assert (Hne : rho <> 0) by lra. clear E R Hrho.
  destruct v as [x y z]. injection H as Hx Hy Hz. subst x y z. unfold vscale. cbn [vx vy vz].
  f_equal; field; exact Hne.
Qed.

(** The claim fails for the thrust direction, whose components are rescaled after being set,
    and for a negative range, which gives the zero vector. *)
Theorem C46_value_after_set_direction_refuted : forall evaluate set_kepler bplane dcm,
  exists sc sc',
    set_value set_kepler sc ThrustX 2 = Ok sc'
    /\ value evaluate bplane dcm sc' ThrustX = Ok 1.
Proof.
  intros. exists (bare 1). eexists. split; [reflexivity|].
  cbn [value]. unfold mut_thrust_direction, with_direction. cbn [thrust_direction option_map ok_or].
  f_equal. unfold current_direction, bare, vzero, vscale, norm, dot.
  cbn [thrust_direction vx vy vz].
  replace (2 * 2 + 0 * 0 + 0 * 0) with (2 * 2) by ring. rewrite sqrt_square by lra. lra.
Qed.

Theorem C46_value_after_negative_range_refuted : forall evaluate set_kepler bplane dcm,
  exists sc sc',
    set_value set_kepler sc (Element Rmag) (-1) = Ok sc'
    /\ radius_km (sc_orbit sc') = vzero
    /\ value evaluate bplane dcm sc' (Element Rmag) = Ok 0.
Proof.
  intros. exists (bare 1). eexists. split; [reflexivity|].
  assert (E : set_range (radius_km (sc_orbit (bare 1))) (-1) = vzero).
  { unfold set_range. destruct (cartesian_to_spherical _) as [[r t] p].
    unfold spherical_to_cartesian. pose proof EPSILON_pos.
    destruct (Rlt_dec (-1) EPSILON); [reflexivity|lra]. }
  cbn [value element_value]. unfold with_orbit, with_radius. cbn [sc_orbit radius_km ok_or].
  rewrite E. split; [reflexivity|]. f_equal. unfold norm, vzero, dot. cbn [vx vy vz].
  replace (0 * 0 + 0 * 0 + 0 * 0) with 0 by ring. apply sqrt_0.
Qed.

(** The direction kept in a spacecraft is a unit vector whatever is stored in it, except the
    zero vector. *)
Theorem C46_direction_unit : forall sc d d',
  d <> vzero -> thrust_direction (mut_thrust_direction sc (Some d)) = Some d' -> norm d' = 1.
Proof.
  intros sc d d' Hd H. unfold mut_thrust_direction, with_direction in H.
  cbn [thrust_direction option_map] in H.
  assert (d' = vscale (/ norm d) d) as -> by congruence.
  rewrite norm_scale. assert (norm d <> 0) by (intros E; apply Hd, norm_zero_iff, E).
  pose proof (norm_pos d Hd). rewrite Rabs_right.
  - field. assumption.
  - apply Rle_ge. left. apply Rinv_0_lt_compat. lra.
Qed.

(** Concrete cases. *)
Example C46_roundtrip_example :
  set (bare 1) (epoch (sc_orbit (bare 1))) (to_vector (bare 1)) = bare 1.
Proof. apply C46_vector_roundtrip. unfold in_range, bare. cbn. lra. Qed.

Example C46_set_value_example : forall evaluate set_kepler bplane dcm,
  exists sc', set_value set_kepler (bare 1) Isp 250 = Ok sc'
    /\ value evaluate bplane dcm sc' Isp = Ok 250
    /\ value evaluate bplane dcm sc' ThrustP = Ok 10.
Proof. intros. eexists. repeat split. Qed.

Example C46_no_thruster_example : forall set_kepler,
  set_value set_kepler (with_thruster (bare 1) None) Isp 250 = Err NoThrusterAvail.
Proof. reflexivity. Qed.

Print Assumptions C46_total_mass.
Print Assumptions C46_vector_length.
Print Assumptions C46_vector_roundtrip.
Print Assumptions C46_vector_roundtrip_but_reflectivity.
Print Assumptions C46_vector_injective.
Print Assumptions C46_reflectivity_after_set.
Print Assumptions C46_reflectivity_after_add.
Print Assumptions C46_add_deviation.
Print Assumptions C46_add_zero.
Print Assumptions C46_vector_roundtrip_refuted.
Print Assumptions C46_mode_roundtrip.
Print Assumptions C46_value_after_set_value.
Print Assumptions C46_value_after_set_magnitude.
Print Assumptions C46_set_value_leaves_others.
Print Assumptions C46_set_value_succeeds.
Print Assumptions C46_set_range_direction.
Print Assumptions C46_value_after_set_direction_refuted.
Print Assumptions C46_value_after_negative_range_refuted.
Print Assumptions C46_direction_unit.

(** The state vector is the nine numbers of the estimate: position, velocity, reflectivity, drag and
    propellant, without the transition matrix. *)
Theorem C46_state_vector : forall sc,
  length (to_state_vector sc) = 9%nat /\
  V3 (nth 0 (to_state_vector sc) 0) (nth 1 (to_state_vector sc) 0) (nth 2 (to_state_vector sc) 0) = radius_km (sc_orbit sc) /\
  V3 (nth 3 (to_state_vector sc) 0) (nth 4 (to_state_vector sc) 0) (nth 5 (to_state_vector sc) 0) = velocity_km_s (sc_orbit sc) /\
  nth 6 (to_state_vector sc) 0 = coeff_reflectivity sc /\ nth 7 (to_state_vector sc) 0 = coeff_drag sc /\
  nth 8 (to_state_vector sc) 0 = prop_mass_kg sc.
Proof. intros [[e f [x y z] [u v w]] d p xm sa cr da cd th md td st]. repeat split. Qed.
Print Assumptions C46_state_vector.
