(** Concrete propagations: where the transition matrix (C53), the propellant mass (C41) and
    the recorded directions (C67) are not what one expects. *)
From Coq Require Import Reals ZArith Lra.
From Verif Require Import Base Vec3 Angles Sc_Model Guid_Model Guid_Props Guid_Mnvr Dyn_Model Dyn_Proofs Dyn_Step Dyn_Props.
From Verif Require Prop_Model Prop_Spec Prop_Inv Prop_Examples RK_Spec RK_Model RK_Check RK_Props.
Local Open Scope R_scope.

(** ** C53 *)

(** A spring of squared pulsation [w] at each epoch: x'' = - w x on each axis. *)
Definition spring_gradient (w : R) : matrix9 := fun r c =>
  if (r <? 3)%nat then delta9 (r + 3) c
  else if (r <? 6)%nat then - w * delta9 (r - 3) c else 0.
Definition spring (w : Z -> R) : dynamics :=
  {| orbital_eom := fun o => Ok (velocity_km_s o, vscale (- w (epoch o)) (radius_km o));
     orbital_dual := fun o =>
       Ok (velocity_km_s o, vscale (- w (epoch o)) (radius_km o), spring_gradient (w (epoch o)));
     force_models := []; guid_law := None; decrement_mass := true |}.

Lemma spring_dual w sc dr dv g : dual_eom (spring w) sc = Ok (dr, dv, g) ->
  g = corner6 (spring_gradient (w (epoch (sc_orbit sc)))).
Proof.
  unfold dual_eom. cbn [spring orbital_dual bind guid_law force_models add_gradients fst snd].
  intros H. congruence.
Qed.

Lemma spring_product w M r c : (c < 9)%nat ->
  sum9 (fun l => entry M r l * corner6 (spring_gradient w) l c)
  = if (c <? 3)%nat then - w * entry M r (c + 3)
    else if (c <? 6)%nat then entry M r (c - 3) else 0.
Proof.
  intros H. unfold sum9, corner6, spring_gradient, delta9.
  do 9 (destruct c as [|c]; [cbn [seq fold_right Nat.ltb Nat.leb andb Nat.eqb plus Nat.sub]; ring|]). lia.
Qed.

Lemma spring_step i w ins M : Prop_Model.fixed_step ins = true ->
  stm (Prop_Model.state ins) = Some M -> prop_mass_kg (Prop_Model.state ins) = 50 ->
  let s := Prop_Model.state ins in
  let step := Prop_Model.step_size ins in
  let h := Prop_Model.to_secs step in
  let e := demo_env (spring w) i in
  let at_ dt := w (epoch (sc_orbit s) + Prop_Examples.trunc_secs dt)%Z in
  exists i' M', Prop_Model.single_step e ins = (i', Ok tt) /\
    stm (Prop_Model.state i') = Some M' /\ prop_mass_kg (Prop_Model.state i') = 50 /\
    epoch (sc_orbit (Prop_Model.state i')) = (epoch (sc_orbit s) + step)%Z /\
    Prop_Model.fixed_step i' = true /\ Prop_Model.step_size i' = step /\
    forall r c, (r < 9)%nat -> (c < 9)%nat ->
      entry M' r c = entry M r c + h * Prop_Inv.weighted e
        (map (fun dt => if (c <? 3)%nat then - at_ dt * entry M r (c + 3)
                        else if (c <? 6)%nat then entry M r (c - 3) else 0)
             (0 :: Prop_Inv.stage_times e h (Prop_Model.stages (RK_Model.method_of i) - 1) 0 1)) 0.
Proof.
  intros Hf Hs Hp s step h e at_. fold s in Hs, Hp.
  assert (He : forall dt v, exists k, Prop_Model.eom e dt v s = Ok k).
  { intros dt v. cbn [e demo_env sc_env Prop_Model.eom]. unfold eom, natural_eom. rewrite Hs.
    cbn [spring force_models orb]. unfold dual_eom.
    cbn [spring orbital_dual bind guid_law force_models add_gradients fst snd]. eauto. }
  destruct (try_step_total e s true h He) as (v & err & Hv).
  { apply RK_Props.C08_order_conditions. }
  assert (P : prop_of v = 50).
  { rewrite (Prop_Inv.try_step_constant e prop_of (prop_add _ _ _ _ _ _) (prop_scale _ _ _ _ _ _) 0 s true h v err);
      [|intros dt u k Hk|exact Hv].
    - cbn [e demo_env sc_env Prop_Model.to_vector]. change (prop_of (to_vector s)) with (prop_mass_kg s). rewrite Hp. ring.
    - cbn [e demo_env sc_env Prop_Model.eom] in Hk. destruct (eom_stm _ _ _ _ _ _ _ Hs Hk) as (_ & dr & dv & g & _ & -> & _).
      reflexivity. }
  set (u := set s (epoch (sc_orbit s) + step)%Z v).
  assert (F : finally (spring w) u = Ok (mut_thrust_direction u None)).
  { unfold finally. destruct (Rlt_dec (prop_mass_kg u) 0) as [N|_]; [|reflexivity].
    unfold u in N. cbn [set prop_mass_kg] in N. unfold prop_of in P. lra. }
  destruct (fixed_step_result e ins v err _ Hf Hv F) as (i' & R1 & R2 & R3 & R4).
  destruct (step_stm_timed (spring w) Prop_Examples.trunc_secs same_frame no_error (RK_Model.method_of i) demo_options
    ins i' M (fun dt => corner6 (spring_gradient (at_ dt))) Hf Hs) as (M' & Q1 & Q2 & Q3).
  - intros dt v0 dr dv g' Hg. apply spring_dual in Hg. rewrite Hg. reflexivity.
  - exact R1.
  - exists i', M'. split; [exact R1|]. split; [exact Q1|]. split; [rewrite R2; exact P|]. split; [exact Q2|].
    split; [exact R3|]. split; [exact R4|].
    intros r c Hr Hc. rewrite (Q3 r c Hr Hc). cbv zeta. fold step h.
    f_equal. f_equal. f_equal. apply map_ext. intros dt. now rewrite spring_product.
Qed.

(** A method of order 2 or more leaves a local error of the third order of h w or more on
    the exact transition cos (h w): here, over one second, no constant C bounds the error by
    C w^3, whatever the integrator (their orders are 4 to 8). *)
Theorem C53_order_refuted : forall i C, exists w inst inst' P,
  0 < w <= 1 /\ stm (Prop_Model.state inst) = Some identity9 /\
  Prop_Model.step_size inst = SECOND /\
  Prop_Model.single_step (demo_env (spring (fun _ => w * w)) i) inst = (inst', Ok tt) /\
  stm (Prop_Model.state inst') = Some P /\
  Rabs (entry P 0 0 - cos w) > C * w ^ 3.
Proof.
  intros i C. set (K := Rmax C 1). assert (K1 : 1 <= K) by apply Rmax_r. assert (KC : C <= K) by apply Rmax_l.
  set (w := / (4 * K)).
  assert (W : 0 < w <= 1 / 4).
  { unfold w. split; [apply Rinv_0_lt_compat; lra|]. replace (1/4) with (/ 4) by lra. apply Rinv_le_contravar; lra. }
  assert (KW : K * w = 1 / 4) by (unfold w; field; lra).
  destruct (spring_step i (fun _ => w * w) (demo_inst (with_stm (tug 0 Coast None)) SECOND) identity9 eq_refl eq_refl eq_refl)
    as (i' & P & H1 & H2 & _ & _ & _ & _ & H3).
  exists w, (demo_inst (with_stm (tug 0 Coast None)) SECOND), i', P.
  split; [lra|]. split; [reflexivity|]. split; [reflexivity|]. split; [exact H1|]. split; [exact H2|].
  assert (E : entry P 0 0 = 1).
  { rewrite H3 by lia. rewrite entry_identity by lia. change (delta9 0 0) with 1.
    rewrite (Prop_Inv.weighted_const _ 0); [ring|]. apply Forall_forall. intros x Hx.
    apply in_map_iff in Hx as (dt & <- & _). cbn [Nat.ltb Nat.leb plus]. rewrite entry_identity by lia.
    change (delta9 0 3) with 0. ring. }
  rewrite E. pose proof (pre_cos_bound w 0 ltac:(lra) ltac:(lra)) as [_ B].
  unfold cos_approx, cos_term in B. cbn [mult plus sum_f_R0 fact INR pow] in B.
  assert (B' : cos w <= 1 - w * w / 2 + w * w * w * w / 24).
  { eapply Rle_trans; [exact B|]. right. field. }
  assert (L : w * w * w * w / 24 <= w * w / 24).
  { assert (w * w <= 1) by nra. assert (0 <= w * w) by nra. nra. }
  assert (S : C * w ^ 3 <= w * w / 4).
  { replace (w * w / 4) with (K * w * (w * w)) by (rewrite KW; field).
    replace (C * w ^ 3) with (C * w * (w * w)) by ring. apply Rmult_le_compat_r; [nra|].
    apply Rmult_le_compat_r; lra. }
  assert (0 < w * w) by nra. rewrite Rabs_pos_eq by lra. lra.
Qed.

(** Two steps multiply the matrix of the first by the matrix of the second on the right,
    and not on the left. *)
Definition late (ep : Z) : R := if (ep <=? SECOND)%Z then 0 else 1.

Lemma rk4_weighted e x0 x1 x2 x3 : Prop_Model.meth e = RK_Model.method_of RK_Model.RungeKutta4 ->
  Prop_Inv.weighted (St := spacecraft) (V := list R) (F := nat) (E := dyn_error) e [x0; x1; x2; x3] 0 = x0 / 6 + x1 / 3 + x2 / 3 + x3 / 6.
Proof.
  intros H. cbn [Prop_Inv.weighted]. rewrite H.
  cbn [RK_Model.method_of RK_Model.table_of RK_Model.rk4 RK_Model.t_b Prop_Model.b_coeffs map nth].
  unfold RK_Model.q6_real, RK_Model.rat, Q2R. cbn [fst snd QArith_base.Qnum QArith_base.Qden]. field.
Qed.

Lemma rk4_times e h : Prop_Model.meth e = RK_Model.method_of RK_Model.RungeKutta4 ->
  Prop_Inv.stage_times (St := spacecraft) (V := list R) (F := nat) (E := dyn_error) e h 3 0 1 = [h / 2; h / 2; h].
Proof.
  intros H. cbn [Prop_Inv.stage_times Prop_Inv.coeff_sum plus]. rewrite H.
  cbn [RK_Model.method_of RK_Model.table_of RK_Model.rk4 RK_Model.t_a Prop_Model.a_coeffs map nth].
  unfold RK_Model.q6_real, RK_Model.rat, Q2R. cbn [fst snd QArith_base.Qnum QArith_base.Qden].
  f_equal; [field|]. f_equal; [field|]. f_equal. field.
Qed.

Lemma late_weight a k : 
  (Prop_Examples.trunc_secs 0 = 0 /\ Prop_Examples.trunc_secs (1 / 2) = 500000000 /\
   Prop_Examples.trunc_secs 1 = SECOND)%Z /\
  (Prop_Inv.weighted (demo_env (spring late) RK_Model.RungeKutta4)
    (map (fun dt => - late (a + Prop_Examples.trunc_secs dt) * k) [0; 1 / 2; 1 / 2; 1]) 0
   = - k * (late a / 6 + 2 * (late (a + 500000000) / 3) + late (a + SECOND) / 6)) /\
  Prop_Inv.weighted (demo_env (spring late) RK_Model.RungeKutta4)
    (map (fun _ => k) [0; 1 / 2; 1 / 2; 1]) 0 = k.
Proof.
  assert (T0 : Prop_Examples.trunc_secs 0 = 0%Z) by (apply trunc_at; [unfold Prop_Model.to_secs; lra|lia]).
  assert (T1 : Prop_Examples.trunc_secs (1 / 2) = 500000000%Z)
    by (apply trunc_at; [unfold Prop_Model.to_secs; lra|lia]).
  assert (T2 : Prop_Examples.trunc_secs 1 = SECOND)
    by (apply trunc_at; [unfold Prop_Model.to_secs, SECOND; lra|unfold SECOND; lia]).
  split; [auto|]. split.
  - cbn [map]. rewrite rk4_weighted by reflexivity. rewrite T0, T1, T2, Z.add_0_r. field.
  - cbn [map]. rewrite rk4_weighted by reflexivity. field.
Qed.

Theorem C53_left_composition_refuted : exists d i0 i1 i2 i2' P1 P2 M,
  let e := demo_env d RK_Model.RungeKutta4 in
  stm (Prop_Model.state i0) = Some identity9 /\
  Prop_Model.single_step e i0 = (i1, Ok tt) /\ stm (Prop_Model.state i1) = Some P1 /\
  Prop_Model.single_step e i1 = (i2, Ok tt) /\ stm (Prop_Model.state i2) = Some M /\
  Prop_Model.single_step e (Prop_Model.with_state i1 (with_stm (Prop_Model.state i1))) = (i2', Ok tt) /\
  stm (Prop_Model.state i2') = Some P2 /\
  sum9 (fun l => entry P2 0 l * entry P1 l 0) = 1 /\ entry M 0 0 = 1 / 6.
Proof.
  set (i0 := demo_inst (with_stm (tug 0 Coast None)) SECOND).
  destruct (spring_step RK_Model.RungeKutta4 late i0 identity9 eq_refl eq_refl eq_refl)
    as (i1 & P1 & H1 & H2 & H3 & H4 & H5 & H6 & H7).
  destruct (spring_step RK_Model.RungeKutta4 late i1 P1 H5 H2 H3)
    as (i2 & M & K1 & K2 & _ & _ & _ & _ & K7).
  destruct (spring_step RK_Model.RungeKutta4 late (Prop_Model.with_state i1 (with_stm (Prop_Model.state i1))) identity9
    H5 eq_refl H3) as (i2' & P2 & L1 & L2 & _ & _ & _ & _ & L7).
  set (e := demo_env (spring late) RK_Model.RungeKutta4) in *.
  assert (E0 : epoch (sc_orbit (Prop_Model.state i1)) = SECOND) by (rewrite H4; reflexivity).
  exists (spring late), i0, i1, i2, i2', P1, P2, M. cbv zeta. fold e.
  split; [reflexivity|]. split; [exact H1|]. split; [exact H2|]. split; [exact K1|]. split; [exact K2|].
  split; [exact L1|]. split; [exact L2|].
  assert (Hh : Prop_Model.to_secs SECOND = 1) by (unfold Prop_Model.to_secs, SECOND; lra).
  assert (TT : 0 :: Prop_Inv.stage_times e 1 (Prop_Model.stages (RK_Model.method_of RK_Model.RungeKutta4) - 1) 0 1
               = [0; 1 / 2; 1 / 2; 1])
    by (change (Prop_Model.stages _ - 1)%nat with 3%nat; rewrite rk4_times by reflexivity; reflexivity).
  cbn [i0 demo_inst Prop_Model.state Prop_Model.step_size] in H7.
  cbn [Prop_Model.with_state Prop_Model.state Prop_Model.step_size] in L7.
  change (epoch (sc_orbit (with_stm (tug 0 Coast None)))) with 0%Z in H7.
  change (epoch (sc_orbit (with_stm (Prop_Model.state i1)))) with (epoch (sc_orbit (Prop_Model.state i1))) in L7.
  assert (S1 : Prop_Model.step_size i1 = SECOND) by exact H6.
  rewrite Hh, TT in H7. rewrite S1, Hh, TT, E0 in K7, L7.
  unfold e in H7, K7, L7.
  assert (LB : late SECOND = 0 /\ late (SECOND + 500000000) = 1 /\ late (SECOND + SECOND) = 1 /\
               late 0 = 0 /\ late (0 + 500000000) = 0 /\ late (0 + SECOND) = 0) by (repeat split; reflexivity).
  destruct LB as (LB1 & LB2 & LB3 & LB4 & LB5 & LB6).
  assert (A00 : entry P1 0 0 = 1).
  { rewrite H7 by lia. cbn [Nat.ltb Nat.leb plus].
    destruct (late_weight 0 (entry identity9 0 3)) as (_ & W & _). rewrite W, LB4, LB5, LB6.
    rewrite entry_identity by lia. change (delta9 0 0) with 1. field. }
  assert (A30 : entry P1 3 0 = 0).
  { rewrite H7 by lia. cbn [Nat.ltb Nat.leb plus].
    destruct (late_weight 0 (entry identity9 3 3)) as (_ & W & _). rewrite W, LB4, LB5, LB6.
    rewrite entry_identity by lia. change (delta9 3 0) with 0. field. }
  assert (A03 : entry P1 0 3 = 1).
  { rewrite H7 by lia. cbn [Nat.ltb Nat.leb plus Nat.sub].
    destruct (late_weight 0 (entry identity9 0 0)) as (_ & _ & W). rewrite W.
    rewrite !entry_identity by lia. change (delta9 0 0) with 1. change (delta9 0 3) with 0. field. }
  split.
  - assert (B : forall c, (c < 9)%nat -> entry P2 0 c = if (c =? 0)%nat || (c =? 3)%nat then 1 else 0).
    { intros c Hc. rewrite L7 by lia.
      assert (Hi : forall j, (j < 9)%nat -> entry identity9 0 j = delta9 0 j) by (intros; apply entry_identity; lia).
      destruct (late_weight SECOND (entry identity9 0 (c + 3))) as (_ & W1 & _).
      destruct (late_weight SECOND (entry identity9 0 (c - 3))) as (_ & _ & W2).
      destruct (late_weight SECOND 0) as (_ & _ & W3).
      destruct (Nat.ltb_spec c 3) as [C3|C3].
      - rewrite W1, LB1, LB2, LB3, !Hi by lia. unfold delta9.
        do 3 (destruct c as [|c]; [cbn; field|]). lia.
      - destruct (Nat.ltb_spec c 6) as [C6|C6].
        + rewrite W2, !Hi by lia. unfold delta9. do 6 (destruct c as [|c]; [try lia; cbn; field|]). lia.
        + rewrite W3, !Hi by lia. unfold delta9. do 9 (destruct c as [|c]; [try lia; cbn; field|]). lia. }
    unfold sum9. cbn [seq fold_right]. rewrite !B by lia. cbn [Nat.eqb orb]. rewrite A00, A30. ring.
  - rewrite K7 by lia. cbn [Nat.ltb Nat.leb plus].
    destruct (late_weight SECOND (entry P1 0 3)) as (_ & W & _). rewrite W, LB1, LB2, LB3, A00, A03. field.
Qed.

(** ** C67: recording a burn and replaying it *)

(** A burn from the first to the second minute, propagated with steps of one minute over
    four minutes: the burn thrusts over the second and third steps, its replay over the
    third and fourth. *)
Theorem C67_recorded_burn_lags_refuted : exists d mv i0 i1 i2 i3 i4,
  guid_law d = Some (mnvr_law no_dcm mv) /\ m_start mv = (60 * SECOND)%Z /\ m_end mv = (120 * SECOND)%Z /\
  let e := demo_env d RK_Model.RungeKutta4 in
  Prop_Model.single_step e i0 = (i1, Ok tt) /\ Prop_Model.single_step e i1 = (i2, Ok tt) /\
  Prop_Model.single_step e i2 = (i3, Ok tt) /\ Prop_Model.single_step e i3 = (i4, Ok tt) /\
  let prop i := prop_mass_kg (Prop_Model.state i) in
  prop i1 = prop i0 /\ prop i2 < prop i1 /\ prop i3 < prop i2 /\ prop i4 = prop i3 /\
  let profile := map Prop_Model.state [i0; i1; i2; i3; i4] in
  map at_ profile = [0; 60 * SECOND; 120 * SECOND; 180 * SECOND; 240 * SECOND]%Z /\
  map (replayed profile) (map at_ profile) = [None; None; Some (V3 1 0 0); Some (V3 1 0 0); None].
Proof.
  set (i0 := demo_inst (tug 0 Coast None) (60 * SECOND)).
  assert (F : 0 < flow (Thruster 1 300) 1 /\ 60 * flow (Thruster 1 300) 1 <= 1).
  { unfold flow, STD_GRAVITY. cbn [thrust_N isp_s]. split; [apply Rdiv_lt_0_compat|]; lra. }
  assert (T60 : Prop_Model.to_secs (60 * SECOND) = 60)
    by (unfold Prop_Model.to_secs, SECOND; rewrite mult_IZR; field).
  assert (F0 : flow (Thruster 1 300) 0 = 0) by (unfold flow, Rdiv; ring).
  set (f := flow (Thruster 1 300) 1) in *.
  assert (S60 : (0 <= 60 * SECOND <= 60 * SECOND)%Z) by (unfold SECOND; lia).
  assert (Coasting : forall a b, mode (Prop_Model.state a) = Coast ->
    Prop_Model.single_step (demo_env (burn (60 * SECOND) (120 * SECOND)) RK_Model.RungeKutta4) a = (b, Ok tt) ->
    prop_mass_kg (Prop_Model.state b) = prop_mass_kg (Prop_Model.state a)).
  { intros a b Hc H.
    refine (C41_coasting_step (burn (60 * SECOND) (120 * SECOND)) _ _ _ _ _
      (mnvr_law no_dcm (along_x (60 * SECOND) (120 * SECOND))) (on_thrust 1) a b eq_refl _ _ _ H).
    - apply mnvr_mode_only.
    - apply mnvr_steady.
    - rewrite Hc. reflexivity. }
  assert (Small : 0 < 60 * f * / 10 ^ 17 <= f).
  { split; [apply Rmult_lt_0_compat; [lra|apply Rinv_0_lt_compat, pow_lt; lra]|].
    assert (60 * / 10 ^ 17 <= 1).
    { apply Rmult_le_reg_r with (10 ^ 17); [apply pow_lt; lra|]. rewrite Rmult_assoc, Rinv_l by (apply pow_nonzero; lra). lra. }
    nra. }
  destruct (burn_step RK_Model.RungeKutta4 (60 * SECOND) (120 * SECOND) i0 eq_refl eq_refl eq_refl ltac:(cbn; lra) S60)
    as (i1 & A1 & (A2 & A3 & A4 & A5 & A6) & A7 & A8 & A9).
  assert (M0 : mode (Prop_Model.state i0) = Coast) by reflexivity.
  assert (E0 : at_ (Prop_Model.state i0) = 0%Z) by reflexivity.
  assert (P0 : prop_mass_kg (Prop_Model.state i0) = 50) by reflexivity.
  assert (St0 : Prop_Model.step_size i0 = (60 * SECOND)%Z) by reflexivity.
  assert (D0 : thrust_direction (Prop_Model.state i0) = None) by reflexivity.
  assert (P1 := Coasting _ _ M0 A1).
  rewrite M0 in A6, A8. unfold at_ in E0. rewrite E0, St0 in A7, A9. rewrite St0 in A3.
  change (epoch (sc_orbit (Prop_Model.state i1)) = (60 * SECOND)%Z) in A7.
  change (mode (Prop_Model.state i1) = Thrust) in A9.
  destruct (burn_step RK_Model.RungeKutta4 (60 * SECOND) (120 * SECOND) i1 A2 A4 A5 ltac:(rewrite P1; cbn; lra)
    ltac:(rewrite A3; exact S60)) as (i2 & B1 & (B2 & B3 & B4 & B5 & B6) & B7 & B8 & B9).
  rewrite A9 in B6, B8. rewrite A7, A3 in B7, B9. rewrite A3 in B3, B8. rewrite T60 in B8. cbn [on_thrust] in B8.
  fold f in B8. apply Rabs_def2_le in B8.
  change (epoch (sc_orbit (Prop_Model.state i2)) = (120 * SECOND)%Z) in B7.
  change (mode (Prop_Model.state i2) = Thrust) in B9.
  destruct (burn_step RK_Model.RungeKutta4 (60 * SECOND) (120 * SECOND) i2 B2 B4 B5 ltac:(rewrite P1, P0 in B8; lra)
    ltac:(rewrite B3; exact S60)) as (i3 & C1 & (C2 & C3 & C4 & C5 & C6) & C7 & C8 & C9).
  rewrite B9 in C6, C8. rewrite B7, B3 in C7, C9. rewrite B3 in C3, C8. rewrite T60 in C8. cbn [on_thrust] in C8.
  fold f in C8. apply Rabs_def2_le in C8.
  change (epoch (sc_orbit (Prop_Model.state i3)) = (180 * SECOND)%Z) in C7.
  change (mode (Prop_Model.state i3) = Coast) in C9.
  destruct (burn_step RK_Model.RungeKutta4 (60 * SECOND) (120 * SECOND) i3 C2 C4 C5 ltac:(rewrite P1, P0 in B8; lra)
    ltac:(rewrite C3; exact S60)) as (i4 & G1 & (G2 & G3 & G4 & G5 & G6) & G7 & G8 & G9).
  rewrite C9 in G6. rewrite C7, C3 in G7, G9.
  change (epoch (sc_orbit (Prop_Model.state i4)) = (240 * SECOND)%Z) in G7.
  change (mode (Prop_Model.state i4) = Coast) in G9.
  assert (P4 := Coasting _ _ C9 G1).
  exists (burn (60 * SECOND) (120 * SECOND)), (along_x (60 * SECOND) (120 * SECOND)), i0, i1, i2, i3, i4.
  split; [reflexivity|]. split; [reflexivity|]. split; [reflexivity|]. cbv zeta.
  split; [exact A1|]. split; [exact B1|]. split; [exact C1|]. split; [exact G1|].
  split; [exact P1|]. split; [lra|]. split; [lra|]. split; [exact P4|]. clear B8 C8 G8.
  cbn [map].
  assert (X : map at_ (map Prop_Model.state [i0; i1; i2; i3; i4]) = [0; 60 * SECOND; 120 * SECOND; 180 * SECOND; 240 * SECOND]%Z).
  { cbn [map]. unfold at_. rewrite E0, A7, B7, C7, G7. reflexivity. }
  cbn [map] in X. split; [exact X|].
  set (profile := [Prop_Model.state i0; Prop_Model.state i1; Prop_Model.state i2; Prop_Model.state i3; Prop_Model.state i4]) in *.
  assert (R : recorded profile).
  { unfold recorded, profile, at_. unfold SECOND in *.
    repeat first [constructor | rewrite E0 | rewrite A7 | rewrite B7 | rewrite C7 | rewrite G7 | lia]. }
  assert (L : at_ (List.last profile (Prop_Model.state i0)) = (240 * SECOND)%Z) by exact G7.
  assert (K : forall c, In c profile -> replayed profile (at_ c) = thrust_direction c).
  { intros c Hc. apply (C67_replay_in_force profile (at_ c) c (Prop_Model.state i0) R eq_refl).
    - split; [exact Hc|]. split; [lia|]. auto.
    - rewrite L. unfold profile, at_ in Hc |- *. cbn [In] in Hc. unfold SECOND in *.
      destruct Hc as [<-|[<-|[<-|[<-|[<-|[]]]]]]; lia.
    - right. right. rewrite M0. discriminate. }
  rewrite !K by (cbn; auto 6). rewrite D0, A6, B6, C6, G6. reflexivity.
Qed.

(** ** C41: a replayed burn that adds propellant *)

(** One recorded second of thrust, met by the fifth stage only of a step of nine seconds of
    the method of Dormand and Prince, whose fifth weight is negative. *)
Definition blip : list spacecraft :=
  [beacon 0 Coast None; beacon 7500000000 Thrust (Some (V3 1 0 0)); beacon 8500000000 Coast None;
   beacon 10000000000 Coast None].

Lemma dp45_weighted e l x0 x1 x2 x3 x4 x5 x6 : l = [x0; x1; x2; x3; x4; x5; x6] ->
  Prop_Model.meth e = RK_Model.method_of RK_Model.DormandPrince45 ->
  x0 = 0 -> x1 = 0 -> x2 = 0 -> x3 = 0 -> x5 = 0 -> x6 = 0 ->
  Prop_Inv.weighted (St := spacecraft) (V := list R) (F := nat) (E := dyn_error) e l 0 = - (2187 / 6784) * x4.
Proof.
  intros -> H -> -> -> -> -> ->. cbn [Prop_Inv.weighted]. rewrite H.
  cbn [RK_Model.method_of RK_Model.table_of RK_Model.dormand45 RK_Model.t_b Prop_Model.b_coeffs map nth].
  unfold RK_Model.q6_real, RK_Model.rat, Q2R. cbn [fst snd QArith_base.Qnum QArith_base.Qden]. field.
Qed.

Lemma dp45_times e : Prop_Model.meth e = RK_Model.method_of RK_Model.DormandPrince45 ->
  Prop_Inv.stage_times (St := spacecraft) (V := list R) (F := nat) (E := dyn_error) e 9 6 0 1
  = [9 / 5; 27 / 10; 36 / 5; 8; 9; 9].
Proof.
  intros H. cbn [Prop_Inv.stage_times Prop_Inv.coeff_sum plus]. rewrite H.
  cbn [RK_Model.method_of RK_Model.table_of RK_Model.dormand45 RK_Model.t_a Prop_Model.a_coeffs map nth].
  unfold RK_Model.q6_real, RK_Model.rat, Q2R. cbn [fst snd QArith_base.Qnum QArith_base.Qden].
  f_equal; [field|]. f_equal; [field|]. f_equal; [field|]. f_equal; [field|]. f_equal; [field|]. f_equal. field.
Qed.

Lemma blip_replayed : replayed blip 0 = None /\ replayed blip 1800000000 = None /\
  replayed blip 2700000000 = None /\ replayed blip 7200000000 = None /\
  replayed blip 8000000000 = Some (V3 1 0 0) /\ replayed blip 9000000000 = None.
Proof. repeat split; reflexivity. Qed.

Theorem C41_increase_refuted : exists profile inst inst',
  recorded profile /\ Prop_Model.step_size inst = (9 * SECOND)%Z /\
  Prop_Model.single_step (demo_env (free (Some (replay_law profile))) RK_Model.DormandPrince45) inst = (inst', Ok tt) /\
  prop_mass_kg (Prop_Model.state inst) < prop_mass_kg (Prop_Model.state inst').
Proof.
  set (s := tug 0 Coast None).
  set (e := demo_env (free (Some (replay_law blip))) RK_Model.DormandPrince45).
  assert (He : forall dt v, exists k, Prop_Model.eom e dt v s = Ok k).
  { intros dt v. cbn [e demo_env sc_env Prop_Model.eom]. eapply command_x; [reflexivity|reflexivity|].
    cbn [replay_law throttle direction]. unfold replay_throttle, replay_direction, is_some.
    destruct (replayed blip _) as [u|] eqn:Hu; [|now left].
    right. split; [reflexivity|]. f_equal. unfold replayed, command_at_or_before in Hu. cbn [blip] in Hu.
    destruct (orb _ _); [discriminate|].
    destruct (RustStd.binary_search_by _ _) as [idx|[|idx]];
      [|discriminate|];
      (do 4 (destruct idx as [|idx]; [cbn in Hu; congruence|]); cbn in Hu; destruct idx; cbn in Hu; congruence). }
  assert (Hh : Prop_Model.to_secs (9 * SECOND) = 9)
    by (unfold Prop_Model.to_secs, SECOND; rewrite mult_IZR; field).
  destruct (try_step_total e s true 9 He) as (v & err & Hv).
  { apply RK_Props.C08_order_conditions. }
  assert (Fl : 0 < flow (Thruster 1 300) 1)
    by (unfold flow, STD_GRAVITY; cbn [thrust_N isp_s]; apply Rdiv_lt_0_compat; lra).
  assert (P : 50 < prop_of v).
  { destruct (Prop_Inv.try_step_functional e prop_of (prop_add _ _ _ _ _ _) (prop_scale _ _ _ _ _ _)
      (fun dt x => x = - flow (Thruster 1 300) (if is_some (replayed blip (Prop_Examples.trunc_secs dt)) then 1 else 0))
      s true 9 v err) as (rates & R1 & _ & R2); [|exact Hv|].
    - intros dt w k Hk. cbn [e demo_env sc_env Prop_Model.eom] in Hk. apply eom_rate in Hk.
      cbn [free guid_law decrement_mass] in Hk. destruct Hk as (t & lvl & A1 & A2 & _ & ->).
      cbn [replay_law throttle] in A2. unfold replay_throttle in A2.
      change (epoch (sc_orbit (at_stage Prop_Examples.trunc_secs s dt w))) with (0 + Prop_Examples.trunc_secs dt)%Z in A2.
      rewrite Z.add_0_l in A2. change (sc_thruster s) with (Some (Thruster 1 300)) in A1. congruence.
    - change (Prop_Model.stages (Prop_Model.meth e) - 1)%nat with 6%nat in R1.
      rewrite dp45_times in R1 by reflexivity.
      assert (Z0 : flow (Thruster 1 300) 0 = 0) by (unfold flow, Rdiv; ring).
      repeat match goal with H : Forall2 _ (_ :: _) _ |- _ => inversion H; subst; clear H end.
      match goal with H : Forall2 _ [] _ |- _ => inversion H; subst; clear H end.
      assert (TS : forall x n, x = Prop_Model.to_secs n -> (0 <= n)%Z -> Prop_Examples.trunc_secs x = n) by exact trunc_at.
      rewrite (TS 0 0%Z), (TS (9 / 5) 1800000000%Z), (TS (27 / 10) 2700000000%Z), (TS (36 / 5) 7200000000%Z),
        (TS 8 8000000000%Z), (TS 9 9000000000%Z) in R2 by (try lia; unfold Prop_Model.to_secs; lra).
      destruct blip_replayed as (-> & -> & -> & -> & E8 & ->) in R2.
      rewrite E8 in R2. cbn [is_some] in R2. rewrite Z0, Ropp_0 in R2.
      rewrite (dp45_weighted e _ _ _ _ _ _ _ _ eq_refl eq_refl) in R2 by reflexivity.
      change (prop_of (Prop_Model.to_vector e s)) with 50 in R2. rewrite R2. lra. }
  set (u := set s (9 * SECOND)%Z v).
  assert (F : finally (free (Some (replay_law blip))) u = Ok (mut_mode (mut_thrust_direction (mut_thrust_direction u None) None) Coast)).
  { unfold finally. destruct (Rlt_dec (prop_mass_kg u) 0) as [N|_].
    { unfold u in N. cbn [set prop_mass_kg] in N. unfold prop_of in P. lra. }
    cbn [free guid_law replay_law throttle next]. unfold replay_throttle, replay_next.
    change (epoch (sc_orbit (mut_thrust_direction u None))) with 9000000000%Z.
    change (epoch (sc_orbit u)) with 9000000000%Z.
    destruct blip_replayed as (_ & _ & _ & _ & _ & ->). cbn [is_some].
    destruct (Rlt_dec 0 0) as [N|_]; [lra|].
    change (epoch (sc_orbit (mut_thrust_direction u None))) with 9000000000%Z.
    destruct blip_replayed as (_ & _ & _ & _ & _ & ->). reflexivity. }
  destruct (fixed_step_result e (demo_inst s (9 * SECOND)) v err _ eq_refl ltac:(cbn [demo_inst Prop_Model.state Prop_Model.step_size]; rewrite Hh; exact Hv) F) as (i' & R1 & R2 & _ & _).
  exists blip, (demo_inst s (9 * SECOND)), i'. split; [repeat constructor; cbn; lia|]. split; [reflexivity|].
  split; [exact R1|]. rewrite R2. change (50 < prop_of v). exact P.
Qed.

(** ** The hypotheses are met *)

Example C40_C41_case :
  keeps_orbit_epoch same_frame /\
  guid_law (burn 0 SECOND) = Some (mnvr_law no_dcm (along_x 0 SECOND)) /\
  mode_only (mnvr_law no_dcm (along_x 0 SECOND)) /\
  steady (mnvr_law no_dcm (along_x 0 SECOND)) (on_thrust 1) /\
  decrement_mass (burn 0 SECOND) = true /\
  Prop_Spec.steps_forward (demo_env (burn 0 SECOND) RK_Model.RungeKutta4) 0
    (demo_inst (tug SECOND Thrust None) (60 * SECOND)) /\
  (forall j, (j < Prop_Model.stages (RK_Model.method_of RK_Model.RungeKutta4))%nat ->
     0 <= RK_Spec.coeff_b (RK_Model.method_of RK_Model.RungeKutta4) j).
Proof.
  split. { intros o f o' H. unfold same_frame in H. congruence. }
  split; [reflexivity|]. split; [apply mnvr_mode_only|]. split; [exact (mnvr_steady no_dcm (along_x 0 SECOND))|].
  split; [reflexivity|]. split.
  - left. split; [reflexivity|]. cbn. unfold SECOND. lia.
  - intros j Hj. unfold RK_Spec.coeff_b.
    cbn [RK_Model.method_of RK_Model.table_of RK_Model.rk4 RK_Model.t_b RK_Model.t_stages Prop_Model.b_coeffs Prop_Model.stages map] in *.
    unfold RK_Model.q6_real, RK_Model.rat, Q2R.
    do 4 (destruct j as [|j]; [cbn [nth fst snd QArith_base.Qnum QArith_base.Qden]; lra|]). lia.
Qed.

Example C44_case : exists k,
  eom Prop_Examples.trunc_secs (burn 0 SECOND) 0 (to_vector (tug 0 Thrust None)) (tug 0 Thrust None) = Ok k.
Proof. eapply command_x; [reflexivity|reflexivity|]. right. split; reflexivity. Qed.

Example C53_case : forall w,
  blind (spring (fun _ => w)) /\
  (forall sc dr dv g, dual_eom (spring (fun _ => w)) sc = Ok (dr, dv, g) -> g = corner6 (spring_gradient w)) /\
  exists i', Prop_Model.single_step (demo_env (spring (fun _ => w)) RK_Model.RungeKutta4)
    (demo_inst (with_stm (tug 0 Coast None)) SECOND) = (i', Ok tt).
Proof.
  intros w. split; [intros f []|]. split; [intros sc dr dv g H; exact (spring_dual _ _ _ _ _ H)|].
  destruct (spring_step RK_Model.RungeKutta4 (fun _ => w) (demo_inst (with_stm (tug 0 Coast None)) SECOND) identity9
    eq_refl eq_refl eq_refl) as (i' & P & H1 & _). eauto.
Qed.

Print Assumptions C40_mode.
Print Assumptions C40_overshoot_refuted.
Print Assumptions C40_short_burn_skipped_refuted.
Print Assumptions C40_inhibit_refuted.
Print Assumptions C40_from_impulsive_refused_refuted.
Print Assumptions C41_never_negative.
Print Assumptions C41_constant.
Print Assumptions C41_coasting_step.
Print Assumptions C41_consumption.
Print Assumptions C41_consumption_rate.
Print Assumptions C41_steady_never_increases.
Print Assumptions C41_never_increases_partial.
Print Assumptions C41_zero_duration_refuted.
Print Assumptions C41_increase_refuted.
Print Assumptions C44_thrust.
Print Assumptions C44_magnitude.
Print Assumptions C53_right_composition.
Print Assumptions C53_first_order.
Print Assumptions C53_position_block.
Print Assumptions C53_order_refuted.
Print Assumptions C53_left_composition_refuted.
Print Assumptions C67_recorded_burn_lags_refuted.
