(** C76, continued: solar radiation pressure in the dynamics of the spacecraft, how the
    models are built, and the cases in which the force is not what it should be. *)
From Coq Require Import Reals ZArith List Lra Psatz Lia.
From Coquelicot Require Import Coquelicot.
From Verif Require Import Base Vec3 Util_Model Sc_Model Dyn_Model Dual Orb_Model Orb_Spec Force_Model Force_Spec Srp_Props.
Import ListNotations.
Local Open Scope R_scope.

(** In the dynamics of a spacecraft, the column of the coefficient of reflectivity (6) of
    the gradient is the derivative of the acceleration with respect to it when it is
    estimated, and zero otherwise; the columns of the position add the derivatives of the
    force per unit of mass to the orbital ones. *)
Theorem C76_dynamics : forall transform_to solar_eclipsing s d ctx v0 a0 g0 f sun (eps : posreal),
  force_models d = [srp_force transform_to solar_eclipsing s] -> guid_law d = None ->
  orbital_eom d (sc_orbit ctx) = Ok (v0, a0) -> orbital_dual d (sc_orbit ctx) = Ok (v0, a0, g0) ->
  frame (sc_orbit ctx) = f -> same_axes transform_to f (light_source (shadow s)) sun ->
  radius_km (sc_orbit ctx) <> sun (epoch (sc_orbit ctx)) ->
  (forall b, In b (shadow_bodies (shadow s)) -> exists p, forall j h, Rabs h < eps ->
     solar_eclipsing b (moved j h (sc_orbit ctx)) = Ok p) ->
  coeff_reflectivity ctx <> 0 -> 0 < mass_kg ctx ->
  exists g F A, dual_eom d ctx = Ok (v0, vadd a0 (vscale (/ mass_kg ctx) F), g) /\
    srp_eom transform_to solar_eclipsing s ctx = Ok F /\
    (forall c, add_forces (force_models d) (with_cr ctx c) a0 = Ok (A c)) /\
    (forall i, (i < 3)%nat ->
       if srp_estimate s
       then is_derive (fun c => comp (A c) i) (coeff_reflectivity ctx) (g (3 + i)%nat 6%nat)
       else g (3 + i)%nat 6%nat = 0) /\
    forall j, (j < 3)%nat -> exists G,
       locally 0 (fun h => srp_eom transform_to solar_eclipsing s
                             (with_orbit ctx (moved j h (sc_orbit ctx))) = Ok (G h)) /\
       forall i, (i < 3)%nat ->
         is_derive (fun h => comp (G h) i / mass_kg ctx) 0 (g (3 + i)%nat j - g0 (3 + i)%nat j).
Proof.
  intros t e s d ctx v0 a0 g0 f sun eps FM GL OE OD Ef SA N SH CR M.
  destruct (C76_gradient t e s ctx f sun eps Ef SA N SH CR) as (F & g & E1 & E2 & P & C & EC & DC).
  exists (add_gradient (corner6 g0) g (mass_kg ctx) (srp_index s)), F.
  exists (fun c => vadd a0 (vscale (/ mass_kg ctx) (C c))).
  refine (conj _ (conj E2 (conj _ (conj _ _)))).
  - unfold dual_eom. rewrite OD. cbn [bind]. rewrite GL, FM. cbn [add_gradients f_gradient srp_force].
    rewrite E1. reflexivity.
  - intros c. rewrite FM. cbn [add_forces f_eom srp_force]. rewrite EC. reflexivity.
  - intros i I. pose proof (DC i I) as D.
    assert (X : forall x : R, is_derive (fun c => comp (C c) i) (coeff_reflectivity ctx) x ->
      is_derive (fun c => comp (vadd a0 (vscale (/ mass_kg ctx) (C c))) i) (coeff_reflectivity ctx)
        (x / mass_kg ctx)).
    { intros x Dx. apply (is_derive_ext (fun c => comp a0 i + / mass_kg ctx * comp (C c) i)).
      - intros c. destruct i as [|[|i]]; reflexivity.
      - evar_last; [apply (is_derive_plus (fun _ : R => comp a0 i) (fun c => / mass_kg ctx * comp (C c) i));
          [apply is_derive_const|apply (is_derive_scal (fun c => comp (C c) i)); exact Dx]|].
        change (0 + / mass_kg ctx * x = x / mass_kg ctx). unfold Rdiv. ring. }
    unfold srp_index. destruct (srp_estimate s).
    + replace (add_gradient (corner6 g0) g (mass_kg ctx) (Some 6%nat) (3 + i)%nat 6%nat)
        with (g 3%nat i / mass_kg ctx); [now apply X|].
      destruct i as [|[|[|i]]]; [| | |lia]; unfold add_gradient, corner6; cbn [Nat.leb Nat.ltb andb Nat.eqb Nat.add Nat.sub];
        unfold Rdiv; ring.
    + destruct i as [|[|[|i]]]; [| | |lia]; reflexivity.
  - intros j J. destruct (P j J) as (G & L & DG). exists G. split; [exact L|].
    intros i I. apply (is_derive_ext (fun h => / mass_kg ctx * comp (G h) i)).
    { intros h. change (/ mass_kg ctx * comp (G h) i = comp (G h) i / mass_kg ctx). unfold Rdiv. ring. }
    evar_last; [apply (is_derive_scal (fun h => comp (G h) i)); exact (DG i I)|].
    change (/ mass_kg ctx * g i j
      = add_gradient (corner6 g0) g (mass_kg ctx) (srp_index s) (3 + i)%nat j - g0 (3 + i)%nat j).
    destruct i as [|[|[|i]]]; [| | |lia]; (destruct j as [|[|[|j]]]; [| | |lia]);
      unfold add_gradient, corner6, srp_index; destruct (srp_estimate s);
      cbn [Nat.leb Nat.ltb andb Nat.eqb Nat.add Nat.sub]; unfold Rdiv; ring.
Qed.

(** A model built for bodies whose data are all loaded casts the shadows of these bodies, and
    of them only. *)
Theorem C76_built : forall frame_info sun sun' bodies bodies' flux,
  frame_info sun = Ok sun' -> Forall2 (fun b f => frame_info b = Ok f) bodies bodies' ->
  srp_new frame_info sun bodies = Ok (SolarPressure 1367 (ShadowModel sun' bodies') true) /\
  with_flux frame_info flux sun bodies = Ok (SolarPressure flux (ShadowModel sun' bodies') true) /\
  default_no_estimation frame_info sun bodies
    = Ok (SolarPressure 1367 (ShadowModel sun' bodies') false).
Proof.
  intros fi sun sun' bodies bodies' flux E F2.
  assert (L : loaded fi bodies = bodies').
  { induction F2 as [|b f l l' H _ IH]; [reflexivity|]. cbn. now rewrite H, IH. }
  unfold srp_new, with_flux, default_no_estimation, default_flux_raw. rewrite E. cbn [bind].
  rewrite L. cbn [phi shadow srp_estimate]. unfold SOLAR_FLUX_W_m2. now repeat split.
Qed.

Theorem C76_default_built : forall frame_info sun sun' body body',
  frame_info sun = Ok sun' -> frame_info body = Ok body' ->
  default_flux frame_info sun body = Ok (SolarPressure 1367 (ShadowModel sun' [body']) true).
Proof.
  intros fi sun sun' body body' E F. destruct (C76_built fi sun sun' [body] [body'] 0 E) as [H _]; [now constructor|]. exact H.
Qed.
Print Assumptions C76_default_built.

(** Witnesses: one spacecraft at an astronomical unit of a light source at the origin. *)
Definition at_au : spacecraft :=
  Spacecraft (Orbit 0 0 (V3 AU 0 0) (V3 0 30 0)) 100 0 0 2 (18 / 10) 0 0 None Coast None None.
Definition by_translation : orbit -> nat -> res dyn_error orbit :=
  fun o g => Ok (Orbit (epoch o) g (radius_km o) (velocity_km_s o)).
Definition clear_sky : nat -> orbit -> res dyn_error R := fun _ _ => Ok 0.
Definition sun_model (bodies : list nat) : solar_pressure :=
  SolarPressure 1367 (ShadowModel 1 bodies) true.

Lemma vsub_0 v : vsub v vzero = v.
Proof. apply v3_eq; unfold vsub, vzero; cbn; ring. Qed.

Lemma by_translation_axes f g : same_axes by_translation f g (fun _ => vzero).
Proof.
  intros o _. exists (velocity_km_s o). unfold by_translation. now rewrite vsub_0.
Qed.

Lemma au_nonzero : V3 AU 0 0 <> vzero.
Proof. intros E. injection E as E. pose proof au_pos. lra. Qed.

Lemma norm_au : norm (V3 AU 0 0) = AU.
Proof.
  unfold norm, dot. cbn [vx vy vz]. replace (AU * AU + 0 * 0 + 0 * 0) with (AU * AU) by ring.
  apply sqrt_square. pose proof au_pos. lra.
Qed.

Lemma norm_y k : 0 <= k -> norm (V3 0 k 0) = k.
Proof.
  intros H. unfold norm, dot. cbn [vx vy vz]. replace (0 * 0 + k * k + 0 * 0) with (k * k) by ring.
  now apply sqrt_square.
Qed.

(** The hypotheses of the theorems hold for a spacecraft with a body that hides half of the Sun. *)
Example C76_case : exists F g,
  srp_gradient by_translation (fun _ _ => Ok 50) (sun_model [2%nat]) at_au = Ok (F, g) /\
  norm F * 1000 = 18 / 10 * 2 * (1367 / SPEED_OF_LIGHT_M_S) * (1 - 50 / 100) * (AU / AU) ^ 2 /\
  0 < norm F.
Proof.
  destruct (C76_gradient by_translation (fun _ _ => Ok 50) (sun_model [2%nat]) at_au 0 (fun _ => vzero)
    (mkposreal 1 Rlt_0_1) eq_refl (by_translation_axes _ _) au_nonzero) as (F & g & E1 & E2 & _).
  { intros b _. exists 50. reflexivity. }
  { cbn. lra. }
  exists F, g. split; [exact E1|].
  destruct (C76_force by_translation (fun _ _ => Ok 50) (sun_model [2%nat]) at_au (V3 AU 0 0) [50] 50)
    as (F' & E & _ & N); cbn [at_au coeff_reflectivity srp_area_m2 sun_model phi]; try lra.
  - eexists. reflexivity.
  - exact au_nonzero.
  - repeat constructor.
  - unfold is_worst. cbn. split; [lra|split; [auto|]]. intros q [<-|[]]. lra.
  - assert (F' = F) by congruence. subst F'.
    cbn [at_au coeff_reflectivity srp_area_m2 sun_model phi] in N. rewrite norm_au in N.
    split; [exact N|]. pose proof c_pos. pose proof au_pos.
    assert (0 < 1367 / SPEED_OF_LIGHT_M_S) by (apply Rdiv_lt_0_compat; lra).
    replace (AU / AU) with 1 in N by (field; lra). nra.
Qed.

Example C76_umbra_case :
  srp_eom by_translation (fun b _ => Ok (if (b =? 2)%nat then 100 else 30)) (sun_model [3%nat; 2%nat]) at_au
  = Ok vzero.
Proof.
  apply (C76_umbra _ _ _ _ (V3 AU 0 0) [30; 100]).
  - eexists. reflexivity.
  - exact au_nonzero.
  - repeat constructor.
  - cbn. auto.
  - cbn. intros q [<-|[<-|[]]]; lra.
Qed.

Example C76_dynamics_case : exists d g F a, force_models d = [srp_force by_translation clear_sky (sun_model [2%nat])]
  /\ dual_eom d at_au = Ok (V3 0 30 0, a, g) /\ srp_eom by_translation clear_sky (sun_model [2%nat]) at_au = Ok F
  /\ a = vadd vzero (vscale (/ 100) F).
Proof.
  set (d := {| orbital_eom := fun o => Ok (velocity_km_s o, vzero);
               orbital_dual := fun o => Ok (velocity_km_s o, vzero, fun _ _ => 0);
               force_models := [srp_force by_translation clear_sky (sun_model [2%nat])];
               guid_law := None; decrement_mass := false |}).
  destruct (C76_dynamics by_translation clear_sky (sun_model [2%nat]) d at_au (V3 0 30 0) vzero (fun _ _ => 0)
    0 (fun _ => vzero) (mkposreal 1 Rlt_0_1) eq_refl eq_refl eq_refl eq_refl eq_refl
    (by_translation_axes _ _) au_nonzero) as (g & F & A & E1 & E2 & _).
  - intros b _. exists 0. reflexivity.
  - cbn. lra.
  - unfold mass_kg. cbn. lra.
  - exists d, g, F. eexists. refine (conj eq_refl (conj E1 (conj E2 _))).
    do 3 f_equal. unfold mass_kg. cbn. ring.
Qed.

(** The axes of the light source are not those of the orbit: the force is perpendicular to
    the direction of the Sun.  [eom] returns it in the frame of the light source. *)
Definition quarter_turn (v : v3) : v3 := V3 (- vy v) (vx v) (vz v).
Definition by_quarter_turn : orbit -> nat -> res dyn_error orbit :=
  fun o g => Ok (Orbit (epoch o) g (quarter_turn (radius_km o)) (quarter_turn (velocity_km_s o))).

Lemma quarter_turn_rotation : rotation quarter_turn.
Proof.
  unfold rotation, quarter_turn. repeat split; intros; try apply v3_eq;
    unfold vadd, vscale, dot, cross; cbn; ring.
Qed.

Theorem C76_orientation_refuted : exists transform_to q s ctx F,
  rotation q /\
  (forall o g, transform_to o g = Ok (Orbit (epoch o) g (q (radius_km o)) (q (velocity_km_s o)))) /\
  srp_eom transform_to clear_sky s ctx = Ok F /\ 0 < norm F /\
  dot F (radius_km (sc_orbit ctx)) = 0.
Proof.
  exists by_quarter_turn, quarter_turn, (sun_model []), at_au.
  assert (Nz : V3 0 AU 0 <> vzero) by (intros E; injection E as E; pose proof au_pos; lra).
  eexists. refine (conj quarter_turn_rotation (conj (fun _ _ => eq_refl) (conj _ _))).
  - apply (srp_eom_value _ _ _ _ (V3 0 AU 0) 0).
    + eexists. unfold by_quarter_turn. cbn [at_au sc_orbit radius_km]. unfold quarter_turn at 1.
      cbn [vx vy vz]. replace (- 0) with 0 by ring. reflexivity.
    + exact Nz.
    + reflexivity.
  - pose proof au_pos as AP. pose proof c_pos. unfold srp_value. rewrite (norm_y AU) by lra. split.
    + rewrite vscale_vscale, norm_scale. rewrite (norm_y AU) by lra.
      cbn [at_au coeff_reflectivity srp_area_m2 sun_model phi]. unfold factor.
      replace (0 / 100 - 1) with (- 1) by field. rewrite (Rabs_left (- 1)) by lra.
      assert (0 < 1367 / SPEED_OF_LIGHT_M_S) by (apply Rdiv_lt_0_compat; lra).
      rewrite Rabs_pos_eq; [|]; replace (/ 1000 * (18 / 10) * 2 * (- - 1 * 1367 / SPEED_OF_LIGHT_M_S * (1 / (AU / AU)) ^ 2) * / AU)
        with (/ 1000 * (18 / 10) * 2 * (1367 / SPEED_OF_LIGHT_M_S) * / AU) by (field; lra).
      * assert (0 < / AU) by now apply Rinv_0_lt_compat. repeat apply Rmult_lt_0_compat; lra.
      * assert (0 < / AU) by now apply Rinv_0_lt_compat. left. repeat apply Rmult_lt_0_compat; lra.
    + unfold dot, vscale. cbn. ring.
Qed.

(** In the penumbra the part of the Sun that is hidden depends on the position; the gradient
    ignores it. *)
Theorem C76_penumbra_refuted : exists solar_eclipsing s ctx F g G,
  (forall o, exists p, solar_eclipsing 2%nat o = Ok p) /\
  srp_gradient by_translation solar_eclipsing s ctx = Ok (F, g) /\
  locally 0 (fun h => srp_eom by_translation solar_eclipsing s
                        (with_orbit ctx (moved 1 h (sc_orbit ctx))) = Ok (G h)) /\
  (exists d, is_derive (fun h => comp (G h) 0) 0 d /\ d <> 0) /\ g 0%nat 1%nat = 0.
Proof.
  set (ecl := fun (b : nat) (o : orbit) => Ok (E := dyn_error) (50 + vy (radius_km o))).
  pose proof au_pos as AP. pose proof c_pos as CP.
  set (G := fun h => srp_value (sun_model [2%nat]) (18 / 10) 2 (50 + (0 + h)) (V3 (AU + 0) (0 + h) (0 + 0))).
  assert (NZ : forall h, V3 (AU + 0) (0 + h) (0 + 0) <> vzero).
  { intros h E. injection E as E1 E2. lra. }
  assert (L : locally 0 (fun h => srp_eom by_translation ecl (sun_model [2%nat])
                        (with_orbit at_au (moved 1 h (sc_orbit at_au))) = Ok (G h))).
  { exists (mkposreal 1 Rlt_0_1). intros h Hh. change (Rabs (h - 0) < 1) in Hh.
    rewrite Rminus_0_r in Hh. apply Rabs_def2 in Hh.
    apply (srp_eom_value by_translation ecl (sun_model [2%nat])
             (with_orbit at_au (moved 1 h (sc_orbit at_au)))).
    - eexists. reflexivity.
    - apply NZ.
    - unfold shadow_compute. cbn [shadow sun_model shadow_bodies worst_shadow]. unfold ecl. cbn [bind].
      destruct (Rlt_dec 0 _) as [_|N]; [reflexivity|].
      exfalso. apply N. cbn. lra. }
  set (w := / 1000 * (18 / 10) * 2).
  assert (exists F g, srp_gradient by_translation ecl (sun_model [2%nat]) at_au = Ok (F, g)) as (F & g & EG).
  { unfold srp_gradient.
    rewrite (srp_eom_value by_translation ecl (sun_model [2%nat]) at_au (V3 AU 0 0) (50 + 0)).
    - unfold by_translation, shadow_compute, ecl.
      cbn [sun_model shadow light_source shadow_bodies worst_shadow bind at_au sc_orbit radius_km coeff_reflectivity].
      destruct (Req_EM_T (norm (V3 AU 0 0)) 0) as [Z|_]; [rewrite norm_au in Z; lra|].
      destruct (Req_EM_T (18 / 10) 0); [lra|]. eexists. eexists. reflexivity.
    - eexists. reflexivity.
    - exact au_nonzero.
    - unfold shadow_compute, ecl. cbn [sun_model shadow shadow_bodies worst_shadow bind at_au sc_orbit radius_km vy].
      destruct (Rlt_dec 0 (50 + 0)); [reflexivity|lra]. }
  { exists ecl, (sun_model [2%nat]), at_au, F, g, G.
    refine (conj (fun o => ex_intro _ _ eq_refl) (conj EG (conj L (conj _ _)))).
    + (* the derivative *)
      exists (w * (- (/ 100) * 1367 / SPEED_OF_LIGHT_M_S)). split.
      * apply (is_derive_ext_loc (fun h => w * ((1 - (50 + h) / 100) * 1367 / SPEED_OF_LIGHT_M_S)
                 * (AU ^ 3 / (sqrt (AU * AU + h * h)) ^ 3))).
        { exists (mkposreal 1 Rlt_0_1). intros h Hh. change (Rabs (h - 0) < 1) in Hh.
          rewrite Rminus_0_r in Hh. apply Rabs_def2 in Hh.
          assert (SQ : norm (V3 (AU + 0) (0 + h) (0 + 0)) = sqrt (AU * AU + h * h))
            by (unfold norm, dot; cbn [vx vy vz]; f_equal; ring).
          assert (SP : 0 < sqrt (AU * AU + h * h)) by (apply sqrt_lt_R0; nra).
          unfold G, srp_value, factor. rewrite SQ. cbn [comp vscale vx sun_model phi].
          replace ((50 + (0 + h)) / 100 - 1) with (- (1 - (50 + h) / 100)) by field.
          rewrite Rabs_Ropp, Rabs_pos_eq by lra.
          match goal with |- @eq _ ?x ?y => change (@eq R x y) end.
          unfold w. field. lra. }
        auto_derive.
        { assert (0 < AU * AU + 0 * 0) by nra. assert (0 < sqrt (AU * AU + 0 * 0)) by now apply sqrt_lt_R0.
          repeat split; trivial. apply Rgt_not_eq. repeat apply Rmult_lt_0_compat; lra. }
        replace (AU * AU + 0 * 0) with (AU * AU) by ring. rewrite (sqrt_square AU) by lra.
        cbn [pow Init.Nat.pred INR]. field. lra.
      * unfold w. assert (0 < / SPEED_OF_LIGHT_M_S) by now apply Rinv_0_lt_compat. unfold Rdiv. nra.
    + unfold srp_gradient in EG.
      cbn [sun_model shadow light_source shadow_bodies at_au sc_orbit] in EG. unfold by_translation at 1 in EG.
      cbn [bind radius_km] in EG.
      destruct (shadow_compute _ _ _) as [p| | |]; cbn [bind] in EG; try discriminate.
      destruct (Req_EM_T _ 0) as [|Nn]; [discriminate|].
      destruct (srp_eom _ _ _ _) as [f| | |]; cbn [bind] in EG; try discriminate.
      destruct (Req_EM_T _ 0); [discriminate|]. injection EG as _ <-.
      cbn [Nat.ltb Nat.leb dcomp ux uy uz du dmul d3_div ddiv hyperspace dvar dconst dpow dnorm dsqrt dadd re Nat.eqb].
      cbn [vx vy vz]. unfold Rdiv. ring. }
Qed.

(** A correction of the filter that lowers the coefficient of reflectivity to its bound, zero:
    the force is defined, its gradient is not a number. *)
Theorem C76_cr_refuted : exists s ctx correction,
  0 < coeff_reflectivity ctx /\
  srp_eom by_translation clear_sky s (add9 ctx correction) = Ok vzero /\
  srp_gradient by_translation clear_sky s (add9 ctx correction) = Err NotANumber.
Proof.
  exists (sun_model []), at_au, [0; 0; 0; 0; 0; 0; - 2; 0; 0].
  assert (Cz : coeff_reflectivity (add9 at_au [0; 0; 0; 0; 0; 0; - 2; 0; 0]) = 0).
  { cbn. unfold clamp. destruct (Rlt_dec _ 0); [reflexivity|lra]. }
  assert (S : seen_at by_translation (sc_orbit (add9 at_au [0; 0; 0; 0; 0; 0; - 2; 0; 0])) 1 (V3 AU 0 0)).
  { exists (V3 0 30 0). unfold by_translation. cbn. do 2 f_equal; apply v3_eq; cbn; ring. }
  refine (conj _ (conj _ _)).
  - cbn. lra.
  - rewrite (srp_eom_value by_translation clear_sky (sun_model []) (add9 at_au [0; 0; 0; 0; 0; 0; - 2; 0; 0])
      (V3 AU 0 0) 0 S au_nonzero eq_refl). f_equal.
    unfold srp_value. rewrite Cz. apply v3_eq; cbn; ring.
  - unfold srp_gradient. rewrite (srp_eom_value by_translation clear_sky (sun_model []) (add9 at_au [0; 0; 0; 0; 0; 0; - 2; 0; 0])
      (V3 AU 0 0) 0 S au_nonzero eq_refl).
    destruct S as (v & E).
    change (light_source (shadow (sun_model []))) with 1%nat. rewrite E. cbn [bind radius_km].
    change (shadow_compute clear_sky (shadow (sun_model []))
      (sc_orbit (add9 at_au [0; 0; 0; 0; 0; 0; - 2; 0; 0]))) with (Ok (E := dyn_error) 0).
    cbn [bind]. destruct (Req_EM_T (norm (V3 AU 0 0)) 0) as [Z|_];
      [rewrite norm_au in Z; pose proof au_pos; lra|].
    rewrite Cz. destruct (Req_EM_T 0 0) as [_|X]; [reflexivity|now destruct X].
Qed.

(** Two bodies that each hide one half of the Sun, and together all of it: the code takes one half of
    it as lit. *)
Theorem C76_two_bodies_refuted : exists (disk : list bool) hides solar_eclipsing m o p,
  disk <> [] /\
  (forall b o, solar_eclipsing b o = Ok (E := dyn_error) (100 * share disk (hides b))) /\
  shadow_compute solar_eclipsing m o = Ok p /\
  share disk (fun a => negb (existsb (fun b => hides b a) (shadow_bodies m))) = 0 /\
  1 - factor p = / 2.
Proof.
  exists [true; false], (fun (b : nat) (a : bool) => if (b =? 2)%nat then a else negb a).
  exists (fun b o => Ok (100 * share [true; false] (fun a => if (b =? 2)%nat then a else negb a))).
  exists (ShadowModel 1 [2%nat; 3%nat]), (sc_orbit at_au), 50.
  assert (S1 : share [true; false] (fun a => a) = / 2) by (unfold share; cbn; field).
  assert (S2 : share [true; false] negb = / 2) by (unfold share; cbn; field).
  refine (conj _ (conj (fun _ _ => eq_refl) (conj _ (conj _ _)))).
  - discriminate.
  - unfold shadow_compute. cbn [shadow_bodies worst_shadow bind Nat.eqb].
    change (fun a : bool => negb a) with negb. rewrite S1, S2.
    destruct (Rlt_dec 0 (100 * / 2)); [|lra].
    destruct (Rlt_dec (100 * / 2) (100 * / 2)); [lra|]. f_equal. field.
  - unfold share. cbn. unfold Rdiv. ring.
  - unfold factor. field.
Qed.

(** A body whose data are not loaded: the model is built without it, and the Sun is never
    hidden. *)
Theorem C76_dropped_refuted : exists frame_info solar_eclipsing s F,
  srp_new frame_info 1 [2%nat] = Ok s /\
  solar_eclipsing 2%nat (sc_orbit at_au) = Ok 100 /\
  srp_eom by_translation solar_eclipsing s at_au = Ok F /\ 0 < norm F.
Proof.
  exists (fun f => if (f =? 1)%nat then Ok 1%nat else Err (OtherDynamics 0)).
  exists (fun _ _ => Ok 100), (sun_model []).
  destruct (C76_force by_translation (fun _ _ => Ok 100) (sun_model []) at_au (V3 AU 0 0) [] 0)
    as (F & E & _ & N); cbn [at_au coeff_reflectivity srp_area_m2 sun_model phi]; try lra.
  - eexists. reflexivity.
  - exact au_nonzero.
  - constructor.
  - unfold is_worst. cbn. split; [lra|split; [auto|easy]].
  - exists F. refine (conj _ (conj eq_refl (conj E _))).
    + reflexivity.
    + cbn [at_au coeff_reflectivity srp_area_m2 sun_model phi] in N. rewrite norm_au in N.
      pose proof c_pos. pose proof au_pos.
      assert (0 < 1367 / SPEED_OF_LIGHT_M_S) by (apply Rdiv_lt_0_compat; lra).
      replace (AU / AU) with 1 in N by (field; lra). nra.
Qed.

Print Assumptions C76_shadow.
Print Assumptions C76_lit.
Print Assumptions C76_force.
Print Assumptions C76_umbra.
Print Assumptions C76_gradient.
Print Assumptions C76_dynamics.
Print Assumptions C76_built.
Print Assumptions C76_orientation_refuted.
Print Assumptions C76_penumbra_refuted.
Print Assumptions C76_cr_refuted.
Print Assumptions C76_two_bodies_refuted.
Print Assumptions C76_dropped_refuted.
