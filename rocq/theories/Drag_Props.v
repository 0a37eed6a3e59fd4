(** C77: the drag of the atmosphere. *)
From Coq Require Import Reals ZArith List Lra Psatz Lia.
From Verif Require Import Base Vec3 Sc_Model Dyn_Model Force_Model Force_Spec.
Import ListNotations.
Local Open Scope R_scope.

Lemma vscale_1 v : vscale 1 v = v.
Proof. apply v3_eq; unfold vscale; cbn; ring. Qed.

Section Laws.
Context (transform_to : orbit -> nat -> res dyn_error orbit)
        (mean_equatorial_radius_km : nat -> res dyn_error R).

(** With a constant density, in a frame whose axes are those of the orbit at this epoch: the
    drag opposes the velocity with respect to the air, and takes from it the power of the
    usual law (the velocity in km/s, the force in kN). *)
Theorem C77_constant : forall f g q' omega rho est ctx,
  turns transform_to f g (fun a => a) q' omega -> frame (sc_orbit ctx) = f ->
  0 <= rho -> 0 <= coeff_drag ctx -> 0 <= drag_area_m2 ctx ->
  exists F, drag_eom transform_to mean_equatorial_radius_km (Drag (Constant rho) g est) ctx = Ok F /\
    constant_drag_eom transform_to (ConstantDrag rho g est) ctx = Ok F /\
    (let u := airspeed omega (sc_orbit ctx) in
     (exists k, 0 <= k /\ F = vscale (- k) u) /\
     dot F u = - (1000 * (/ 2 * rho * coeff_drag ctx * drag_area_m2 ctx * norm u ^ 3))).
Proof.
  intros f g q' omega rho est ctx (T & _) Ef Hr Hc Ha.
  exists (drag_law rho ctx (airspeed omega (sc_orbit ctx))).
  unfold drag_eom, constant_drag_eom. cbn [density drag_frame cd_frame cd_rho].
  rewrite (T _ Ef). cbn [bind velocity_km_s]. split; [reflexivity|]. split; [reflexivity|].
  cbv zeta. set (u := airspeed omega (sc_orbit ctx)).
  change (vsub (velocity_km_s (sc_orbit ctx)) (cross omega (radius_km (sc_orbit ctx)))) with u.
  pose proof (norm_nonneg u). split.
  - exists (/ 2 * 1000 * rho * coeff_drag ctx * drag_area_m2 ctx * norm u). split.
    + repeat apply Rmult_le_pos; trivial; lra.
    + unfold drag_law. f_equal. ring.
  - unfold drag_law. rewrite dot_scale, <- norm_sqr. ring.
Qed.

(** With the exponential and standard atmospheres, in the same situation, the force does not
    depend on the velocity of the spacecraft at all: it is that of a body at rest, in the
    wind of the atmosphere, with the wrong sign. *)
Theorem C77_velocity_ignored : forall f g q' omega d ctx ctx',
  turns transform_to f g (fun a => a) q' omega -> drag_frame d = g ->
  (forall rho, density d <> Constant rho) ->
  frame (sc_orbit ctx) = f -> frame (sc_orbit ctx') = f ->
  radius_km (sc_orbit ctx) = radius_km (sc_orbit ctx') ->
  coeff_drag ctx = coeff_drag ctx' -> drag_area_m2 ctx = drag_area_m2 ctx' ->
  drag_eom transform_to mean_equatorial_radius_km d ctx
  = drag_eom transform_to mean_equatorial_radius_km d ctx'.
Proof.
  intros f g q' omega d ctx ctx' (T1 & T2 & _ & Q) Eg Nc Ef Ef' Er Ec Ea.
  assert (X : forall a b, vsub (vadd (vsub a b) b) (vsub a b) = b)
    by (intros; apply v3_eq; unfold vsub, vadd; cbn; ring).
  unfold drag_eom. rewrite Eg, Ef, Ef', (T1 _ Ef), (T1 _ Ef'). cbn [bind velocity_km_s radius_km].
  rewrite !T2 by reflexivity. cbn [bind velocity_km_s radius_km].
  rewrite !Q, !X, Er.
  destruct (density d) as [rho|rho0 r0 ref|m]; [now destruct (Nc rho)| |];
    destruct (mean_equatorial_radius_km g); cbn [bind]; trivial;
    unfold drag_law; rewrite Ec, Ea; reflexivity.
Qed.

(** The force of the exponential atmosphere in that situation. *)
Lemma exponential_force f g q' omega rho0 r0 ref est ctx radius :
  turns transform_to f g (fun a => a) q' omega -> frame (sc_orbit ctx) = f ->
  mean_equatorial_radius_km g = Ok radius -> ref <> 0 ->
  drag_eom transform_to mean_equatorial_radius_km (Drag (Exponential rho0 r0 ref) g est) ctx
  = Ok (drag_law (exponential_density rho0 r0 ref (norm (radius_km (sc_orbit ctx))) radius) ctx
          (cross omega (radius_km (sc_orbit ctx)))).
Proof.
  intros (T1 & T2 & _ & Q) Ef M N.
  assert (X : forall a b, vsub (vadd (vsub a b) b) (vsub a b) = b)
    by (intros; apply v3_eq; unfold vsub, vadd; cbn; ring).
  unfold drag_eom. cbn [drag_frame density]. rewrite Ef, (T1 _ Ef). cbn [bind velocity_km_s radius_km].
  rewrite M. cbn [bind]. destruct (Req_EM_T ref 0); [contradiction|].
  rewrite T2 by reflexivity. cbn [bind velocity_km_s radius_km]. now rewrite !Q, X.
Qed.

(** No drag model has partial derivatives: with one of them in the dynamics, no state that
    carries a state transition matrix can be propagated, so that no coefficient of drag can be
    estimated. *)
Definition is_drag (m : force_model) : Prop :=
  (exists d, m = drag_force transform_to mean_equatorial_radius_km d)
  \/ exists d, m = constant_drag_force transform_to d.

Theorem C77_no_partials : forall of_secs d m dt v ctx phi0,
  In m (force_models d) -> is_drag m -> stm ctx = Some phi0 ->
  forall x, Dyn_Model.eom of_secs d dt v ctx <> Ok x.
Proof.
  intros of_secs d m dt v ctx phi0 I D S x E.
  assert (G : forall sc, f_gradient m sc = Err PartialsUndefined).
  { intros sc. destruct D as [(d' & ->)|(d' & ->)]; reflexivity. }
  assert (A : forall l sc acc g y, In m l -> add_gradients l sc acc g <> Ok y).
  { induction l as [|m' l IH]; intros sc acc g y J; [destruct J|]. destruct J as [->|J].
    - cbn. rewrite G. discriminate.
    - cbn. destruct (f_gradient m' sc); cbn; try discriminate. now apply IH. }
  unfold Dyn_Model.eom in E. destruct (orb _ _) in E; [|discriminate].
  unfold natural_eom in E. rewrite S in E.
  unfold dual_eom in E at 1.
  destruct (orbital_dual d _) as [[[v0 a0] g0]| | |]; cbn [bind] in E; try discriminate.
  destruct (guid_law d); cbn [bind] in E; try discriminate.
  destruct (add_gradients _ _ _ _) eqn:EA; cbn [bind] in E; try discriminate.
  now apply A in EA.
Qed.
End Laws.

(** The exponential atmosphere: a positive density, that decreases with the altitude, and has
    the reference value at the reference altitude (in km, see below). *)
Theorem C77_exponential_density : forall rho0 r0 ref r r' radius,
  0 < rho0 -> 0 < ref ->
  0 < exponential_density rho0 r0 ref r radius /\
  exponential_density rho0 r0 ref (r0 + radius) radius = rho0 /\
  (r < r' -> exponential_density rho0 r0 ref r' radius < exponential_density rho0 r0 ref r radius) /\
  exponential_density rho0 r0 ref (r + ref) radius = exp (- 1) * exponential_density rho0 r0 ref r radius.
Proof.
  intros rho0 r0 ref r r' radius H0 Hr. unfold exponential_density.
  refine (conj _ (conj _ (conj _ _))).
  - apply Rmult_lt_0_compat; trivial. apply exp_pos.
  - replace (- (r0 + radius - (r0 + radius)) / ref) with 0 by (field; lra). rewrite exp_0. ring.
  - intros L. apply Rmult_lt_compat_l; trivial. apply exp_increasing.
    apply Rmult_lt_compat_r; [now apply Rinv_0_lt_compat|lra].
  - replace (- (r + ref - (r0 + radius)) / ref) with (- 1 + - (r - (r0 + radius)) / ref) by (field; lra).
    rewrite exp_plus. ring.
Qed.

(** The atmosphere of the Earth is given in meters (drag.rs:38) and read in kilometers: the
    density at the altitude of reference, 700 km, is more than eight times that of reference, and there is
    less than one percent between the densities at 200 and 1000 km. *)
Theorem C77_units_refuted : forall frame_info iau f radius d,
  frame_info iau = Ok f -> earth_exp frame_info iau = Ok d ->
  exists rho0 r0 ref, density d = Exponential rho0 r0 ref /\
    r0 = 700 * 1000 /\
    8 * rho0 < exponential_density rho0 r0 ref (radius + 700) radius /\
    exponential_density rho0 r0 ref (radius + 200) radius
    < 101 / 100 * exponential_density rho0 r0 ref (radius + 1000) radius.
Proof.
  intros fi iau f radius d Ef E. unfold earth_exp in E. rewrite Ef in E. cbn [bind] in E.
  assert (d = Drag (Exponential (3614 / 10 ^ 16) 700000 88667) f false) by congruence. subst d.
  exists (3614 / 10 ^ 16), 700000, 88667.
  assert (R0 : 0 < 3614 / 10 ^ 16) by (apply Rdiv_lt_0_compat; [lra|apply pow_lt; lra]).
  refine (conj eq_refl (conj _ (conj _ _))).
  - lra.
  - unfold exponential_density. rewrite (Rmult_comm 8). apply Rmult_lt_compat_l; trivial.
    replace (- (radius + 700 - (700000 + radius)) / 88667) with (699300 / 88667) by field.
    eapply Rlt_trans; [|apply exp_ineq1; lra]. lra.
  - unfold exponential_density.
    replace (- (radius + 200 - (700000 + radius)) / 88667)
      with (800 / 88667 + - (radius + 1000 - (700000 + radius)) / 88667) by field.
    rewrite exp_plus. set (e := exp (- (radius + 1000 - (700000 + radius)) / 88667)).
    assert (0 < e) by apply exp_pos.
    assert (X : exp (800 / 88667) < 101 / 100).
    { assert (Y : 1 + - (800 / 88667) < exp (- (800 / 88667))) by (apply exp_ineq1; lra).
      rewrite exp_Ropp in Y. pose proof (exp_pos (800 / 88667)) as P.
      apply (Rmult_lt_compat_r (exp (800 / 88667))) in Y; trivial.
      rewrite Rinv_l in Y by lra. nra. }
    replace (3614 / 10 ^ 16 * (exp (800 / 88667) * e)) with (exp (800 / 88667) * (3614 / 10 ^ 16 * e)) by ring.
    apply Rmult_lt_compat_r; trivial. now apply Rmult_lt_0_compat.
Qed.

(** The standard atmosphere. *)
Lemma rpower_10_pos x : 0 < Rpower 10 x.
Proof. unfold Rpower. apply exp_pos. Qed.

Theorem C77_std_density : forall max_alt_m a b,
  0 < std_density max_alt_m a /\
  (max_alt_m / 1000 < a -> a < b -> std_density max_alt_m b < std_density max_alt_m a).
Proof.
  intros m a b. split.
  - unfold std_density. destruct (Rlt_dec _ _); apply rpower_10_pos.
  - intros H1 H2. unfold std_density.
    destruct (Rlt_dec (m / 1000) a); [|contradiction]. destruct (Rlt_dec (m / 1000) b); [|lra].
    apply Rpower_lt; lra.
Qed.

(** Below: the density increases with the altitude between 980 and 1000 km, and is that of
    no air at the ground (more than ten tons per cubic meter). *)
Theorem C77_std_density_refuted :
  std_density 1000000 980 < std_density 1000000 1000 /\ 10000 < std_density 1000000 0.
Proof.
  unfold std_density. cbv zeta. split.
  - destruct (Rlt_dec (1000000 / 1000) 980); [lra|]. destruct (Rlt_dec (1000000 / 1000) 1000); [lra|].
    apply Rpower_lt; [lra|]. lra.
  - destruct (Rlt_dec (1000000 / 1000) 0); [lra|].
    apply (Rle_lt_trans _ (Rpower 10 4)).
    + replace 4 with (INR 4) by (cbn; ring). rewrite Rpower_pow by lra. lra.
    + apply Rpower_lt; [lra|]. lra.
Qed.

(** Witnesses: a frame that turns around the z axis, and an orbit in its equator. *)
Definition spin : v3 := V3 0 0 (7 / 100000).
Definition by_spin (q q' : v3 -> v3) : orbit -> nat -> res dyn_error orbit :=
  fun o g => if (frame o =? g)%nat then Ok o else
    if (g =? 1)%nat
    then Ok (Orbit (epoch o) 1 (q (radius_km o)) (q (vsub (velocity_km_s o) (cross spin (radius_km o)))))
    else Ok (Orbit (epoch o) 0 (q' (radius_km o)) (vadd (q' (velocity_km_s o)) (cross spin (q' (radius_km o))))).
Definition earth_radius : nat -> res dyn_error R := fun _ => Ok 6378.
Definition in_orbit (v : v3) : spacecraft :=
  Spacecraft (Orbit 0 0 (V3 7000 0 0) v) 100 0 0 0 0 2 (22 / 10) None Coast None None.

Lemma id_rotation : rotation (fun a => a).
Proof. repeat split. Qed.

Lemma by_spin_turns q q' : rotation q -> (forall a, q' (q a) = a) ->
  turns (by_spin q q') 0 1 q q' spin.
Proof.
  intros R Q. refine (conj _ (conj _ (conj R Q))); intros o E; unfold by_spin; rewrite E; reflexivity.
Qed.

Example C77_constant_case : exists F,
  drag_eom (by_spin (fun a => a) (fun a => a)) earth_radius (Drag (Constant (/ 1000000000000)) 1 false)
    (in_orbit (V3 0 (75 / 10) 0)) = Ok F /\ dot F (V3 0 (75 / 10 - 49 / 100) 0) < 0.
Proof.
  destruct (C77_constant (by_spin (fun a => a) (fun a => a)) earth_radius 0 1 (fun a => a) spin
    (/ 1000000000000) false (in_orbit (V3 0 (75 / 10) 0))) as (F & E & _ & _ & P).
  - now apply by_spin_turns; [apply id_rotation|].
  - reflexivity.
  - lra.
  - cbn. lra.
  - cbn. lra.
  - exists F. split; [exact E|].
    replace (V3 0 (75 / 10 - 49 / 100) 0) with (airspeed spin (sc_orbit (in_orbit (V3 0 (75 / 10) 0))))
      by (apply v3_eq; unfold airspeed, spin; cbn; field).
    rewrite P.
    assert (N : airspeed spin (sc_orbit (in_orbit (V3 0 (75 / 10) 0))) <> vzero).
    { intros Z. apply (f_equal vy) in Z. unfold airspeed, spin in Z. cbn in Z. lra. }
    pose proof (norm_pos _ N) as NP. apply (pow_lt _ 3) in NP. cbn [in_orbit coeff_drag drag_area_m2].
    assert (0 < / 2 * / 1000000000000 * (22 / 10) * 2) by lra. nra.
Qed.

Example C77_velocity_case :
  drag_eom (by_spin (fun a => a) (fun a => a)) earth_radius (Drag (StdAtm 1000000) 1 false) (in_orbit (V3 0 (75 / 10) 0))
  = drag_eom (by_spin (fun a => a) (fun a => a)) earth_radius (Drag (StdAtm 1000000) 1 false) (in_orbit (V3 0 (- (75 / 10)) 0)).
Proof.
  apply (C77_velocity_ignored _ _ 0 1 (fun a => a) spin); try reflexivity; [|discriminate].
  now apply by_spin_turns; [apply id_rotation|].
Qed.

Example C77_partials_case : exists d m ctx phi0, In m (force_models d)
  /\ is_drag (by_spin (fun a => a) (fun a => a)) earth_radius m /\ stm ctx = Some phi0.
Proof.
  set (m := drag_force (by_spin (fun a => a) (fun a => a)) earth_radius (Drag (StdAtm 1000000) 1 true)).
  exists {| orbital_eom := fun o => Ok (velocity_km_s o, vzero);
            orbital_dual := fun o => Ok (velocity_km_s o, vzero, fun _ _ => 0);
            force_models := [m]; guid_law := None; decrement_mass := false |}, m.
  exists (Spacecraft (Orbit 0 0 (V3 7000 0 0) vzero) 100 0 0 0 0 2 2 None Coast None (Some [])), [].
  refine (conj (or_introl eq_refl) (conj (or_introl (ex_intro _ _ eq_refl)) eq_refl)).
Qed.

(** A constant density in a frame that is turned with respect to the axes of the orbit: the
    force is returned in the axes of the frame of the drag.  After half a turn, it pushes the
    spacecraft forward. *)
Definition half_turn (v : v3) : v3 := V3 (- vx v) (- vy v) (vz v).

Lemma half_turn_rotation : rotation half_turn.
Proof.
  unfold rotation, half_turn. repeat split; intros; try apply v3_eq;
    unfold vadd, vscale, dot, cross; cbn; ring.
Qed.

Theorem C77_orientation_refuted : exists transform_to f g q q' omega rho ctx F,
  turns transform_to f g q q' omega /\ frame (sc_orbit ctx) = f /\
  0 < rho /\ 0 < coeff_drag ctx /\ 0 < drag_area_m2 ctx /\
  drag_eom transform_to earth_radius (Drag (Constant rho) g false) ctx = Ok F /\
  0 < dot F (airspeed omega (sc_orbit ctx)).
Proof.
  exists (by_spin half_turn half_turn), 0%nat, 1%nat, half_turn, half_turn, spin, 1, (in_orbit (V3 0 (75 / 10) 0)).
  eexists. refine (conj _ (conj eq_refl (conj _ (conj _ (conj _ (conj eq_refl _)))))).
  - apply by_spin_turns; [apply half_turn_rotation|]. intros a. unfold half_turn. apply v3_eq; cbn; ring.
  - lra.
  - cbn. lra.
  - cbn. lra.
  - cbn [velocity_km_s in_orbit sc_orbit radius_km].
    set (u := airspeed spin (Orbit 0 0 (V3 7000 0 0) (V3 0 (75 / 10) 0))).
    change (vsub (V3 0 (75 / 10) 0) (cross spin (V3 7000 0 0))) with u.
    assert (Eu : u = V3 0 (75 / 10 - 49 / 100) 0) by (apply v3_eq; unfold u, airspeed, spin; cbn; field).
    assert (Hu : half_turn u = vscale (- 1) u) by (rewrite Eu; apply v3_eq; unfold half_turn; cbn; ring).
    rewrite Hu. unfold drag_law. rewrite dot_scale, dot_scale, norm_scale, <- norm_sqr.
    rewrite Rabs_left by lra. cbn [in_orbit coeff_drag drag_area_m2].
    assert (N : u <> vzero) by (rewrite Eu; intros Z; apply (f_equal vy) in Z; cbn in Z; lra).
    pose proof (norm_pos _ N) as NP. apply (pow_lt _ 3) in NP.
    apply (Rlt_le_trans _ (2200 * norm u ^ 3)); [lra|]. right. field.
Qed.

(** The exponential atmosphere, in the axes of the orbit: a retrograde spacecraft is pushed
    forward, one that turns with the air is slowed down, and there is no drag at all in a frame
    that does not turn. *)
Theorem C77_exponential_refuted : exists transform_to f g q' omega d ctx F,
  turns transform_to f g (fun a => a) q' omega /\ frame (sc_orbit ctx) = f /\ drag_frame d = g /\
  earth_exp (fun f => Ok f) g = Ok d /\ 0 < coeff_drag ctx /\ 0 < drag_area_m2 ctx /\
  drag_eom transform_to earth_radius d ctx = Ok F /\
  0 < dot F (airspeed omega (sc_orbit ctx)).
Proof.
  exists (by_spin (fun a => a) (fun a => a)), 0%nat, 1%nat, (fun a => a), spin.
  exists (Drag (Exponential (3614 / 10 ^ 16) 700000 88667) 1 false), (in_orbit (V3 0 (- (75 / 10)) 0)).
  assert (T : turns (by_spin (fun a => a) (fun a => a)) 0 1 (fun a => a) (fun a => a) spin)
    by (now apply by_spin_turns; [apply id_rotation|]).
  eexists. refine (conj T (conj eq_refl (conj eq_refl (conj eq_refl (conj _ (conj _ (conj _ _))))))).
  - cbn. lra.
  - cbn. lra.
  - apply (exponential_force _ earth_radius 0 1 _ _ _ _ _ _ (in_orbit (V3 0 (- (75 / 10)) 0)) 6378 T eq_refl eq_refl).
    lra.
  - cbn [in_orbit sc_orbit radius_km]. set (w := cross spin (V3 7000 0 0)).
    assert (Ew : w = V3 0 (49 / 100) 0) by (apply v3_eq; unfold w, spin; cbn; field).
    set (rho := exponential_density _ _ _ _ _).
    assert (RP : 0 < rho).
    { apply Rmult_lt_0_compat; [apply Rdiv_lt_0_compat; [lra|apply pow_lt; lra]|apply exp_pos]. }
    assert (N : w <> vzero) by (rewrite Ew; intros Z; apply (f_equal vy) in Z; cbn in Z; lra).
    pose proof (norm_pos _ N) as NP.
    unfold drag_law. rewrite dot_scale. cbn [in_orbit coeff_drag drag_area_m2].
    assert (D : dot w (airspeed spin (Orbit 0 0 (V3 7000 0 0) (V3 0 (- (75 / 10)) 0))) < 0)
      by (rewrite Ew; unfold dot, airspeed, spin; cbn; lra).
    set (x := dot w _) in *. clearbody x rho. clear N. set (n := norm w) in *. clearbody n.
    replace (- / 2 * 1000 * rho * (22 / 10) * 2 * n * x) with (2200 * ((rho * n) * - x)) by field.
    assert (0 < rho * n) by now apply Rmult_lt_0_compat. nra.
Qed.

Theorem C77_inertial_refuted : exists transform_to d ctx,
  (forall o, transform_to o (frame o) = Ok (E := dyn_error) o) /\ drag_frame d = frame (sc_orbit ctx) /\
  density d = Exponential (3614 / 10 ^ 16) 700000 88667 /\
  0 < coeff_drag ctx /\ 0 < drag_area_m2 ctx /\ 7 < norm (velocity_km_s (sc_orbit ctx)) /\
  drag_eom transform_to earth_radius d ctx = Ok vzero.
Proof.
  exists (by_spin (fun a => a) (fun a => a)).
  exists (Drag (Exponential (3614 / 10 ^ 16) 700000 88667) 0 false), (in_orbit (V3 0 (75 / 10) 0)).
  refine (conj _ (conj eq_refl (conj eq_refl (conj _ (conj _ (conj _ _)))))).
  - intros o. unfold by_spin. now rewrite Nat.eqb_refl.
  - cbn. lra.
  - cbn. lra.
  - cbn [in_orbit sc_orbit velocity_km_s]. unfold norm, dot. cbn [vx vy vz].
    replace (0 * 0 + 75 / 10 * (75 / 10) + 0 * 0) with (75 / 10 * (75 / 10)) by ring.
    rewrite sqrt_square; lra.
  - unfold drag_eom. cbn [drag_frame density in_orbit sc_orbit frame].
    unfold by_spin. cbn [frame Nat.eqb bind earth_radius].
    destruct (Req_EM_T 88667 0); [lra|]. cbn [frame Nat.eqb bind velocity_km_s]. f_equal.
    unfold drag_law, vsub. apply v3_eq; cbn; ring.
Qed.

Print Assumptions C77_constant.
Print Assumptions C77_velocity_ignored.
Print Assumptions C77_no_partials.
Print Assumptions C77_exponential_density.
Print Assumptions C77_units_refuted.
Print Assumptions C77_std_density.
Print Assumptions C77_std_density_refuted.
Print Assumptions C77_orientation_refuted.
Print Assumptions C77_exponential_refuted.
Print Assumptions C77_inertial_refuted.

(** That atmosphere is the one built for the Earth: its limit is at a thousand kilometers, around which
    the density is not monotone; the drag coefficient is not estimated. *)
Theorem C77_std_built_refuted : forall frame_info iau f d,
  frame_info iau = Ok f -> std_atm1976 frame_info iau = Ok d ->
  drag_frame d = f /\ drag_estimate d = false /\
  exists m, density d = StdAtm m /\ std_density m 980 < std_density m 1000.
Proof.
  intros fi iau f d Ef E. unfold std_atm1976 in E. rewrite Ef in E. cbn [bind] in E.
  assert (d = Drag (StdAtm 1000000) f false) as -> by congruence.
  split; [reflexivity|]. split; [reflexivity|]. exists 1000000. split; [reflexivity|]. apply C77_std_density_refuted.
Qed.
Print Assumptions C77_std_built_refuted.
