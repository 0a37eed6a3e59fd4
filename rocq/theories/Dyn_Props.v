(** Properties of a spacecraft under propagation: finite burns (C40), propellant (C41), the
    thrust acceleration (C44), the state transition matrix (C53) and what is recorded for a
    replay (C67). *)
From Coq Require Import Reals ZArith Lra.
From Verif Require Import Base Vec3 Angles Sc_Model Guid_Model Guid_Props Guid_Mnvr Dyn_Model Dyn_Proofs Dyn_Step.
From Verif Require Prop_Model Prop_Spec Prop_Inv Prop_Examples RK_Spec RK_Model RK_Check RK_Props.
Local Open Scope R_scope.

(** ** Concrete dynamics *)

(** No force at all but the thrust. *)
Definition free (g : option law) : dynamics :=
  {| orbital_eom := fun o => Ok (velocity_km_s o, vzero);
     orbital_dual := fun o => Ok (velocity_km_s o, vzero, fun _ _ => 0);
     force_models := []; guid_law := g; decrement_mass := true |}.

Definition demo_options : Prop_Model.options nat :=
  {| Prop_Model.tolerance := 1; Prop_Model.min_step := 1000; Prop_Model.max_step := 60000000000;
     Prop_Model.attempts := 5; Prop_Model.integration_frame := None |}.
Definition same_frame (o : orbit) (f : nat) : res dyn_error orbit := Ok o.
Definition no_error (a b c : list R) : R := 0.
Definition demo_env (d : dynamics) (i : RK_Model.integrator) :=
  sc_env d Prop_Examples.trunc_secs same_frame no_error (RK_Model.method_of i) demo_options.
Definition demo_inst (s : spacecraft) (step : Z) : Prop_Model.inst (St := spacecraft) :=
  {| Prop_Model.state := s; Prop_Model.step_size := step; Prop_Model.fixed_step := true;
     Prop_Model.det := Prop_Model.Build_details 0 0 0 |}.

Definition SECOND : Z := 1000000000.

(** A spacecraft with 50 kg of propellant and a thruster of 1 N and 300 s. *)
Definition tug (ep : Z) (md : guidance_mode) (m : option (list R)) : spacecraft :=
  Spacecraft (Orbit ep 0 (V3 7000 0 0) (V3 0 7 0)) 100 50 0 1 (18/10) 2 (22/10)
    (Some (Thruster 1 300)) md None m.

Lemma sum_of_weights i :
  Rabs (RK_Spec.sumR (Prop_Model.stages (RK_Model.method_of i)) (RK_Spec.coeff_b (RK_Model.method_of i)) - 1)
  <= RK_Spec.table_error i.
Proof.
  destruct (RK_Props.C08_order_conditions i) as (_ & H & _).
  specialize (H (RK_Spec.Node [])). unfold RK_Spec.weight in H.
  cbn [RK_Spec.stage_weight fold_right RK_Spec.density RK_Spec.size] in H.
  replace (1 / INR (1 * 1)) with 1 in H by (cbn; field).
  rewrite <- (RK_Check.sumR_ext (Prop_Model.stages (RK_Model.method_of i)) (fun j => RK_Spec.coeff_b (RK_Model.method_of i) j * 1)).
  - apply H. destruct i; cbn; lia.
  - intros j _. ring.
Qed.

Section Propagation.
Context {C : Type} (d : dynamics) (of_secs : R -> Z)
        (transform : orbit -> nat -> res dyn_error orbit)
        (estimate : list R -> list R -> list R -> R)
        (m : Prop_Model.method) (o : Prop_Model.options nat)
        (cond : C -> spacecraft -> C * res dyn_error bool).
Notation env := (sc_env d of_secs transform estimate m o).

(** ** C41: propellant *)

(** No state recorded or returned has a negative propellant mass. *)
Theorem C41_never_negative : forall fuel duration i c,
  (forall g, guid_law d = Some g -> mode_only g) -> duration <> 0%Z ->
  let out := Prop_Model.propagate env cond fuel duration i c in
  Forall (fun s => 0 <= prop_mass_kg s) (Prop_Model.o_sent out) /\
  forall s, Prop_Model.o_res out = Ok s -> 0 <= prop_mass_kg s.
Proof.
  intros fuel duration i c Hm Hd. apply Prop_Inv.propagate_all; [| | |exact Hd].
  - intros s s' H. cbn in H. destruct (finally_body _ _ _ Hm H) as [B P].
    now rewrite (same_body_prop _ _ B).
  - intros s f s' P H. cbn in H. apply change_frame_body in H as (orb & _ & ->). exact P.
  - intros s f s' P H. cbn in H. apply change_frame_body in H as (orb & _ & ->). exact P.
Qed.

(** Without guidance, or with the mass decrement disabled, the propellant mass is constant. *)
Theorem C41_constant : forall lo fuel duration i c,
  keeps_orbit_epoch transform -> (forall g, guid_law d = Some g -> mode_only g) ->
  (0 <= lo)%Z -> Prop_Spec.steps_forward env lo i -> (0 < duration)%Z ->
  guid_law d = None \/ decrement_mass d = false ->
  let out := Prop_Model.propagate env cond fuel duration i c in
  Forall (fun s => prop_mass_kg s = prop_mass_kg (Prop_Model.state i)) (Prop_Model.o_sent out) /\
  forall s, Prop_Model.o_res out = Ok s -> prop_mass_kg s = prop_mass_kg (Prop_Model.state i).
Proof.
  intros lo fuel duration i c Ht Hm Hlo Hf Hd Hc out. subst out.
  destruct (Prop_Inv.propagate_chain env cond (fun _ => True) (fun a b => prop_mass_kg b = prop_mass_kg a)
    lo fuel duration i c) as [H1 H2]; try assumption.
  - now apply env_keeps_epoch.
  - reflexivity.
  - intros a b e H1 H2. congruence.
  - intros s s' _ H. split; [exact I|]. cbn in H. destruct (finally_body _ _ _ Hm H) as [B _].
    now apply same_body_prop.
  - intros s f s' _ H. split; [exact I|]. cbn in H. apply change_frame_body in H as (orb & _ & ->). reflexivity.
  - intros s f s' _ H. split; [exact I|]. cbn in H. apply change_frame_body in H as (orb & _ & ->). reflexivity.
  - intros j j' _ H _ _. split; [exact I|]. eapply step_idle; [exact Hm| |exact H].
    destruct Hc as [Hc|Hc]; auto.
  - exact I.
  - set (sent := Prop_Model.o_sent (Prop_Model.propagate env cond fuel duration i c)) in *.
    set (out := Prop_Model.propagate env cond fuel duration i c) in *. clearbody sent. 
    assert (F : forall l s, Prop_Inv.chain (fun a b => prop_mass_kg b = prop_mass_kg a) s l ->
                Forall (fun x => prop_mass_kg x = prop_mass_kg s) l /\ prop_mass_kg (last l s) = prop_mass_kg s).
    { induction l as [|x l IH]; intros s H; cbn [Prop_Inv.chain] in H; [split; [constructor|reflexivity]|].
      destruct H as [Hx Hl]. destruct (IH _ Hl) as [I1 I2]. split.
      - constructor; [exact Hx|]. eapply Forall_impl; [|exact I1]. cbn. intros; congruence.
      - destruct l as [|y l]; [exact Hx|].
        change (last (x :: y :: l) s) with (last (y :: l) s).
        rewrite (Prop_Inv.last_default (y :: l) s x) by discriminate. congruence. }
    destruct (F _ _ H1) as [F1 F2]. split; [exact F1|]. intros s Hs. rewrite (H2 _ Hs). exact F2.
Qed.

(** A step taken in a mode in which the law commands nothing uses no propellant. *)
Theorem C41_coasting_step : forall g level i i',
  guid_law d = Some g -> mode_only g -> steady g level ->
  level (mode (Prop_Model.state i)) = 0 ->
  Prop_Model.single_step env i = (i', Ok tt) ->
  prop_mass_kg (Prop_Model.state i') = prop_mass_kg (Prop_Model.state i).
Proof.
  intros g level i i' Hg Hm Hs Hl H.
  assert (Hm' : forall g, guid_law d = Some g -> mode_only g)
    by (intros g' Hg'; rewrite Hg in Hg'; injection Hg' as <-; exact Hm).
  eapply step_idle; [exact Hm'| |exact H].
  right. right. exists g. split; [exact Hg|]. intros dt v. rewrite Hs. f_equal. exact Hl.
Qed.

(** Between consecutive states of a trajectory, a law whose throttle follows the mode uses
    throttle * thrust / (isp * g0) per second, over the time of the step in seconds (exact
    for the steps of fixed size, else the time of which the step is the rounding), up to the
    sum of the weights of the method. *)
Definition consumed (level : guidance_mode -> R) (a b : spacecraft) : Prop :=
  sc_thruster b = sc_thruster a /\
  exists t h, sc_thruster a = Some t /\
    (h = Prop_Model.to_secs (epoch (sc_orbit b) - epoch (sc_orbit a)) \/
     (epoch (sc_orbit b) - epoch (sc_orbit a))%Z = of_secs h) /\ 0 <= h /\
    0 <= level (mode a) <= 1 /\
    prop_mass_kg b = prop_mass_kg a
      - h * (level (mode a) * thrust_N t / (isp_s t * STD_GRAVITY))
          * RK_Spec.sumR (Prop_Model.stages m) (RK_Spec.coeff_b m).

Theorem C41_consumption : forall g level lo fuel duration i c,
  keeps_orbit_epoch transform -> guid_law d = Some g -> mode_only g -> steady g level ->
  decrement_mass d = true ->
  (0 <= lo)%Z -> Prop_Spec.steps_forward env lo i -> (0 < duration)%Z ->
  let sent := Prop_Model.o_sent (Prop_Model.propagate env cond fuel duration i c) in
  sent = [] \/
  exists s0 s1, finally d (Prop_Model.state i) = Ok s0 /\
    (s1 = s0 \/ exists f, change_frame transform s0 f = Ok s1) /\
    prop_mass_kg s1 = prop_mass_kg (Prop_Model.state i) /\ mode s1 = mode s0 /\
    Prop_Inv.chain (consumed level) s1 sent.
Proof.
  intros g level lo fuel duration i c Ht Hg Hm Hs Hdm Hlo Hf Hd sent. subst sent.
  assert (Hm' : forall g, guid_law d = Some g -> mode_only g)
    by (intros g' Hg'; rewrite Hg in Hg'; injection Hg' as <-; exact Hm).
  destruct (Prop_Inv.propagate_trace env cond (fun _ => True) (consumed level) lo fuel duration i c)
    as [H|(s0 & s1 & H1 & H2 & H3)]; try assumption; try (intros; exact I).
  - now apply env_keeps_epoch.
  - intros j j' _ H Hp Hfx. split; [exact I|].
    destruct (step_steady _ _ _ _ _ _ _ _ _ _ Hg Hm Hs Hdm H) as (t & h & T1 & T2 & T3 & T4 & T5 & T6).
    destruct (step_prop _ _ _ _ _ _ _ _ Hm' H) as (_ & _ & _ & _ & _ & _ & T7 & _).
    split; [exact T7|]. exists t, h. split; [exact T1|]. split; [|split; [|split; [exact T2|]]].
    + destruct (Prop_Model.fixed_step j) eqn:E; [left; auto|right; rewrite (T5 eq_refl); lia].
    + apply T6; [lia|]. destruct Hfx as [Hfx|[_ Hfx]]; [left; exact Hfx|right; exact Hfx].
    + exact T3.
  - left. exact H.
  - right. exists s0, s1. split; [exact H1|].
    split; [destruct H2 as [H2|[f H2]]; [left; exact H2|right; exists f; exact H2]|].
    destruct (finally_body _ _ _ Hm' H1) as [B _].
    split; [|split; [|exact H3]].
    + rewrite <- (same_body_prop _ _ B). destruct H2 as [->|[f H2]]; [reflexivity|].
      cbn in H2. apply change_frame_body in H2 as (orb & _ & ->). reflexivity.
    + destruct H2 as [->|[f H2]]; [reflexivity|].
      cbn in H2. apply change_frame_body in H2 as (orb & _ & ->). reflexivity.
Qed.

(** For any law at all, the propellant mass never increases along a forward propagation by a
    method whose weights are not negative. *)
Theorem C41_never_increases_partial : forall lo fuel duration i c,
  keeps_orbit_epoch transform -> (forall g, guid_law d = Some g -> mode_only g) ->
  (0 <= lo)%Z -> Prop_Spec.steps_forward env lo i -> (0 < duration)%Z ->
  (forall t, sc_thruster (Prop_Model.state i) = Some t -> 0 <= thrust_N t /\ 0 < isp_s t) ->
  (forall j, (j < Prop_Model.stages m)%nat -> 0 <= RK_Spec.coeff_b m j) ->
  let out := Prop_Model.propagate env cond fuel duration i c in
  Prop_Inv.chain (fun a b => prop_mass_kg b <= prop_mass_kg a) (Prop_Model.state i) (Prop_Model.o_sent out) /\
  forall s, Prop_Model.o_res out = Ok s ->
    prop_mass_kg s <= prop_mass_kg (last (Prop_Model.o_sent out) (Prop_Model.state i)).
Proof.
  intros lo fuel duration i c Ht Hm Hlo Hf Hd Hthr Hb.
  apply (Prop_Inv.propagate_chain env cond
    (fun s => sc_thruster s = sc_thruster (Prop_Model.state i))
    (fun a b => prop_mass_kg b <= prop_mass_kg a) lo); try assumption; try reflexivity.
  - now apply env_keeps_epoch.
  - intros; lra.
  - intros; lra.
  - intros s s' P H. cbn in H. destruct (finally_body _ _ _ Hm H) as [B _].
    rewrite (same_body_prop _ _ B), (same_body_thruster _ _ B). split; [exact P|lra].
  - intros s f s' P H. cbn in H. apply change_frame_body in H as (orb & _ & ->). split; [exact P|cbn; lra].
  - intros s f s' P H. cbn in H. apply change_frame_body in H as (orb & _ & ->). split; [exact P|cbn; lra].
  - intros j j' P H Hs Hfx. split.
    + destruct (step_prop _ _ _ _ _ _ _ _ Hm H) as (_ & _ & _ & _ & _ & _ & T7 & _). congruence.
    + eapply step_nonincreasing with (6 := H); auto; [rewrite P; exact Hthr|lia].
Qed.

(** ** C40: the mode of a spacecraft following a maneuver *)

Definition in_burn (mv : maneuver) (ep : Z) : Prop := (m_start mv <= ep <= m_end mv)%Z.

Theorem C40_mode : forall dcm mv fuel duration i c,
  keeps_orbit_epoch transform -> guid_law d = Some (mnvr_law dcm mv) -> duration <> 0%Z ->
  let ok s := (mode s = Thrust <-> in_burn mv (epoch (sc_orbit s))) /\
              (mode s = Coast <-> ~ in_burn mv (epoch (sc_orbit s))) /\
              (in_burn mv (epoch (sc_orbit s)) -> mnvr_throttle mv s = Ok (thrust_prct mv)) /\
              (~ in_burn mv (epoch (sc_orbit s)) -> mnvr_throttle mv s = Ok 0) in
  let out := Prop_Model.propagate env cond fuel duration i c in
  Forall ok (Prop_Model.o_sent out) /\ forall s, Prop_Model.o_res out = Ok s -> ok s.
Proof.
  intros dcm mv fuel duration i c Ht Hg Hd ok.
  apply Prop_Inv.propagate_all; [| | |exact Hd].
  - intros s s' H. cbn in H. unfold finally in H. rewrite Hg in H.
    destruct (Rlt_dec (prop_mass_kg s) 0); [discriminate|].
    destruct (match throttle (mnvr_law dcm mv) s with
              | Ok _ => _ | Err _ => _ | Panic => _ | NoFuel => _ end) as [td|x| |]; try discriminate.
    cbn [mnvr_law next] in H. unfold mnvr_next in H.
    match type of H with Ok ?x = _ => assert (E : s' = x) by congruence; rewrite E end.
    unfold ok, in_burn, mnvr_throttle. cbn [mut_mode mode sc_orbit mut_thrust_direction with_direction].
    destruct (Z.leb_spec (m_start mv) (epoch (sc_orbit s))), (Z.leb_spec (epoch (sc_orbit s)) (m_end mv));
      cbn [andb]; repeat split; try congruence; try lia; intros; try congruence; lia.
  - intros s f s' P H. cbn in H. apply change_frame_body in H as (orb & Ho & ->).
    unfold ok, mnvr_throttle in *. cbn [with_orbit mode sc_orbit]. rewrite (Ht _ _ _ Ho). exact P.
  - intros s f s' P H. cbn in H. apply change_frame_body in H as (orb & Ho & ->).
    unfold ok, mnvr_throttle in *. cbn [with_orbit mode sc_orbit]. rewrite (Ht _ _ _ Ho). exact P.
Qed.

(** ** C44: the thrust acceleration *)

Definition acceleration (k : list R) : v3 := V3 (nth 3 k 0) (nth 4 k 0) (nth 5 k 0).
Definition unguided : dynamics :=
  {| orbital_eom := orbital_eom d; orbital_dual := orbital_dual d; force_models := force_models d;
     guid_law := None; decrement_mass := decrement_mass d |}.

(** The equations of motion of a guided spacecraft give a result only if there is a
    thruster, the throttle is within [0, 1] and the direction commanded with it is a unit
    vector to one in ten thousand; the acceleration is then that of the spacecraft without
    guidance plus throttle * thrust / mass (in km/s^2) along that direction. *)
Theorem C44_thrust : forall g dt v ctx k, guid_law d = Some g ->
  eom of_secs d dt v ctx = Ok k ->
  let osc := at_stage of_secs ctx dt v in
  stm ctx = None /\
  exists t lvl k0, sc_thruster ctx = Some t /\ throttle g osc = Ok lvl /\ 0 <= lvl <= 1 /\
    eom of_secs unguided dt v ctx = Ok k0 /\
    ((lvl = 0 /\ acceleration k = acceleration k0) \/
     exists u, direction g osc = Ok u /\ Rabs (norm u - 1) <= / 10000 /\
       vsub (acceleration k) (acceleration k0)
       = vscale (lvl * thrust_N t / 1000 / mass_kg osc) u).
Proof.
  intros g dt v ctx k Hg H osc. subst osc.
  destruct (stm ctx) as [M|] eqn:HM.
  { exfalso. destruct (eom_stm _ _ _ _ _ _ _ HM H) as [G _]. congruence. }
  split; [reflexivity|].
  destruct (eom_inv _ _ _ _ _ _ H) as (dr & dv & dstm & f & rate & Hn & Hc & ->).
  rewrite Hg in Hc. apply thrust_command_inv in Hc as (t & lvl & T1 & T2 & T3 & _ & T4).
  assert (Hk0 : exists k0, eom of_secs unguided dt v ctx = Ok k0 /\ acceleration k0 = dv).
  { unfold eom in H |- *. fold (at_stage of_secs ctx dt v) in *. cbn [unguided force_models guid_law].
    destruct (_ || _); [|discriminate].
    assert (N : natural_eom unguided ctx (at_stage of_secs ctx dt v) = Ok (dr, dv, dstm)).
    { unfold natural_eom in Hn |- *. rewrite HM in *. exact Hn. }
    rewrite N. cbn [bind fst snd]. eexists. split; [reflexivity|].
    unfold acceleration, vadd, vscale, vzero. cbn [app nth vx vy vz]. destruct dv as [x y z].
    cbn [vx vy vz]. f_equal; ring. }
  destruct Hk0 as (k0 & Hk0 & Ha). exists t, lvl, k0.
  split; [exact T1|]. split; [exact T2|]. split; [exact T3|]. split; [exact Hk0|].
  destruct T4 as [[-> ->]|(u & U1 & U2 & ->)].
  - left. split; [reflexivity|]. rewrite Ha. unfold acceleration, vadd, vscale, vzero. cbv zeta.
    cbn [app nth vx vy vz]. destruct dv as [x y z]. cbn [vx vy vz]. f_equal; ring.
  - right. exists u. split; [exact U1|]. split; [exact U2|]. rewrite Ha. cbv zeta.
    unfold acceleration, vadd, vscale, vsub. cbn [app nth vx vy vz]. unfold Rdiv. f_equal; ring.
Qed.

(** The magnitude of the thrust acceleration. *)
Theorem C44_magnitude : forall lvl thrust mass u, 0 <= lvl -> 0 <= thrust -> 0 < mass ->
  Rabs (norm u - 1) <= / 10000 ->
  let a := lvl * thrust / 1000 / mass in
  Rabs (norm (vscale a u) - a) <= a / 10000 /\ (norm u = 1 -> norm (vscale a u) = a).
Proof.
  intros lvl thrust mass u Hl Ht Hm Hu a.
  assert (Ha : 0 <= a).
  { unfold a, Rdiv. apply Rmult_le_pos; [apply Rmult_le_pos; [apply Rmult_le_pos; lra|lra]|].
    left. now apply Rinv_0_lt_compat. }
  assert (N : norm (vscale a u) = a * norm u).
  { rewrite norm_scale. rewrite Rabs_pos_eq by exact Ha. reflexivity. }
  rewrite N. split.
  - replace (a * norm u - a) with (a * (norm u - 1)) by ring. rewrite Rabs_mult, (Rabs_pos_eq a Ha).
    unfold Rdiv. apply Rmult_le_compat_l; [exact Ha|]. lra.
  - intros ->. ring.
Qed.

(** ** C53: the state transition matrix *)

(** A step multiplies the transition matrix on the right by the one it makes from the
    identity. *)
Theorem C53_right_composition : forall i i' M,
  blind d -> Prop_Model.fixed_step i = true -> stm (Prop_Model.state i) = Some M ->
  Prop_Model.single_step env i = (i', Ok tt) ->
  exists i2 M' P,
    Prop_Model.single_step env (Prop_Model.with_state i (with_stm (Prop_Model.state i))) = (i2, Ok tt) /\
    stm (Prop_Model.state i') = Some M' /\ stm (Prop_Model.state i2) = Some P /\
    sc_orbit (Prop_Model.state i2) = sc_orbit (Prop_Model.state i') /\
    (forall r c, (r < 9)%nat -> (c < 9)%nat -> entry M' r c = sum9 (fun l => entry M r l * entry P l c)).
Proof. intros i i' M. apply step_scaled. Qed.

(** If the gradient of the dynamics is a constant matrix [A], a step of [h] seconds makes
    identity + (sum of weights) h A from the identity: the first two terms of the exponential
    of h A, whatever the order of the method. *)
Theorem C53_first_order : forall i i' (A : matrix9),
  Prop_Model.fixed_step i = true -> stm (Prop_Model.state i) = Some identity9 ->
  (forall sc dr dv g, dual_eom d sc = Ok (dr, dv, g) -> g = A) ->
  Prop_Model.single_step env i = (i', Ok tt) ->
  exists P, stm (Prop_Model.state i') = Some P /\
    forall r c, (r < 9)%nat -> (c < 9)%nat ->
      entry P r c = delta9 r c
        + Prop_Model.to_secs (Prop_Model.step_size i)
          * RK_Spec.sumR (Prop_Model.stages m) (RK_Spec.coeff_b m) * A r c.
Proof.
  intros i i' A Hf HM HA H.
  destruct (step_stm_timed d of_secs transform estimate m o i i' identity9 (fun _ => A) Hf HM) as (P & P1 & _ & P2).
  - intros dt v dr dv g' Hg. eapply HA, Hg.
  - exact H.
  - exists P. split; [exact P1|]. intros r c Hr Hc. rewrite P2 by assumption. cbv zeta.
    rewrite entry_identity by assumption. f_equal.
    rewrite (Prop_Inv.weighted_const env (A r c)).
    + cbn [map length]. rewrite map_length, Prop_Inv.stage_times_length.
      assert (S : Prop_Model.stages m <> 0%nat).
      { apply Prop_Inv.single_step_state in H as (i1 & t & v & Hd & _).
        destruct (Prop_Inv.derive_step _ _ _ _ _ Hd) as (h & err & Ht & _).
        unfold Prop_Model.try_step in Ht.
        destruct (Prop_Model.eom env 0 _ _) as [k|x| |]; cbn [bind] in Ht; try discriminate.
        cbn [sc_env Prop_Model.meth] in Ht. intros Z. rewrite Z in Ht. discriminate. }
      replace (Datatypes.S (Prop_Model.stages m - 1)) with (Prop_Model.stages m) by lia.
      rewrite Prop_Inv.sumR_fold. cbn [sc_env Prop_Model.meth plus]. unfold RK_Spec.coeff_b. ring.
    + apply Forall_forall. intros x Hx. apply in_map_iff in Hx as (dt & <- & _).
      rewrite (sum9_ext _ (fun l => delta9 r l * A l c)).
      * exact (sum9_delta r (fun l => A l c) Hr).
      * intros l Hl. now rewrite entry_identity.
Qed.

(** In particular the block of the positions with respect to the positions stays the
    identity whatever the gravity gradient, if the gradient of the velocity is the identity
    (as for any orbital dynamics), in any single step made from the identity. *)
Theorem C53_position_block : forall i i',
  Prop_Model.fixed_step i = true -> stm (Prop_Model.state i) = Some identity9 ->
  (forall sc dr dv g, dual_eom d sc = Ok (dr, dv, g) ->
     forall r c, (r < 3)%nat -> (c < 9)%nat -> g r c = delta9 (r + 3) c) ->
  Prop_Model.single_step env i = (i', Ok tt) ->
  exists P, stm (Prop_Model.state i') = Some P /\
    forall r c, (r < 3)%nat -> (c < 3)%nat -> entry P r c = delta9 r c.
Proof.
  intros i i' Hf HM HA H.
  apply Prop_Inv.single_step_state in H as (i1 & t & v & Hd & Hfin).
  destruct (Prop_Inv.derive_step _ _ _ _ _ Hd) as (h & err & Ht & Hh & _ & _).
  rewrite Hf in Ht.
  assert (G : guid_law d = None).
  { unfold Prop_Model.try_step in Ht.
    destruct (Prop_Model.eom env 0 (Prop_Model.to_vector env (Prop_Model.state i)) (Prop_Model.state i))
      as [k0|x| |] eqn:He; cbn [bind] in Ht; try discriminate.
    now apply (eom_stm _ _ _ _ _ _ _ HM) in He as [G _]. }
  cbn [sc_env Prop_Model.finally Prop_Model.set_state Prop_Model.epoch] in Hfin.
  assert (Hn : forall g, guid_law d = Some g -> mode_only g) by (intros g0 Hg0; congruence).
  destruct (finally_body _ _ _ Hn Hfin) as [Sb _].
  exists (skipn 9 v). rewrite (same_body_stm _ _ Sb). cbn [set stm]. rewrite HM. split; [reflexivity|].
  intros r c Hr Hc. rewrite entry_skipn.
  assert (Hr9 : (r < 9)%nat) by lia. assert (Hc9 : (c < 9)%nat) by lia.
  rewrite (Prop_Inv.try_step_constant env (cell r c)
             (fun a b => cell_add d of_secs transform estimate m o r c a b Hr9 Hc9)
             (fun x a => cell_scale d of_secs transform estimate m o r c x a Hr9 Hc9)
             0 (Prop_Model.state i) true h v err); [| |exact Ht].
  - cbn [sc_env Prop_Model.to_vector]. unfold to_vector. rewrite cell_entry, HM, entry_identity by assumption. ring.
  - intros dt w k He. cbn [sc_env Prop_Model.eom] in He.
    destruct (eom_stm _ _ _ _ _ _ _ HM He) as (_ & dr & dv & g & Hdual & _ & Kc).
    rewrite Kc by assumption. rewrite (sum9_ext _ (fun l => delta9 r l * g l c)).
    + rewrite (sum9_delta r (fun l => g l c) Hr9). rewrite (HA _ _ _ _ Hdual) by assumption.
      unfold delta9. replace (Nat.eqb (r + 3) c) with false; [reflexivity|].
      symmetry. apply Nat.eqb_neq. lia.
    + intros l Hl. now rewrite entry_identity.
Qed.
End Propagation.

(** With the methods of nyx the sum of the weights is one, but for the table of
    DormandPrince78 which is rounded: the rate is exact to one part in 10^17. *)
Theorem C41_consumption_rate : forall i of_secs level a b,
  consumed of_secs (RK_Model.method_of i) level a b ->
  exists t h, sc_thruster a = Some t /\ 0 <= h /\ 0 <= level (mode a) <= 1 /\
    (h = Prop_Model.to_secs (epoch (sc_orbit b) - epoch (sc_orbit a)) \/
     (epoch (sc_orbit b) - epoch (sc_orbit a))%Z = of_secs h) /\
    let used := h * (level (mode a) * thrust_N t / (isp_s t * STD_GRAVITY)) in
    Rabs (prop_mass_kg a - prop_mass_kg b - used) <= Rabs used * RK_Spec.table_error i.
Proof.
  intros i of_secs level a b (_ & t & h & H1 & H2 & H3 & H4 & H5). exists t, h.
  split; [exact H1|]. split; [exact H3|]. split; [exact H4|]. split; [exact H2|]. cbv zeta. rewrite H5.
  pose proof (sum_of_weights i) as W.
  set (w := RK_Spec.sumR _ _) in *. set (u := h * _).
  replace (prop_mass_kg a - (prop_mass_kg a - u * w) - u) with (u * (w - 1)) by ring.
  rewrite Rabs_mult. apply Rmult_le_compat_l; [apply Rabs_pos|exact W].
Qed.

(** Hence a law whose throttle follows the mode never increases the propellant mass. *)
Theorem C41_steady_never_increases : forall i of_secs level a b t,
  consumed of_secs (RK_Model.method_of i) level a b ->
  sc_thruster a = Some t -> 0 <= thrust_N t -> 0 < isp_s t ->
  prop_mass_kg b <= prop_mass_kg a.
Proof.
  intros i of_secs level a b t (_ & t' & h & H1 & H2 & H3 & H4 & H5) Ht Hn Hi.
  assert (t' = t) as -> by congruence. rewrite H5.
  assert (W : 0 <= RK_Spec.sumR (Prop_Model.stages (RK_Model.method_of i)) (RK_Spec.coeff_b (RK_Model.method_of i))).
  { pose proof (sum_of_weights i) as W. pose proof (Rle_abs (- (RK_Spec.sumR (Prop_Model.stages (RK_Model.method_of i))
      (RK_Spec.coeff_b (RK_Model.method_of i)) - 1))) as A. rewrite Rabs_Ropp in A.
    assert (T : RK_Spec.table_error i <= 1).
    { destruct i; cbn [RK_Spec.table_error]; lra. }
    lra. }
  set (w := RK_Spec.sumR _ _) in *. clearbody w.
  assert (F : 0 <= level (mode a) * thrust_N t / (isp_s t * STD_GRAVITY)).
  { unfold Rdiv. apply Rmult_le_pos; [apply Rmult_le_pos; lra|]. left. apply Rinv_0_lt_compat.
    apply Rmult_lt_0_compat; [lra|unfold STD_GRAVITY; lra]. }
  pose proof (Rmult_le_pos _ _ (Rmult_le_pos _ _ H3 F) W). lra.
Qed.

(** ** Counterexamples *)

Lemma Rabs_def2_le x a : Rabs x <= a -> - a <= x <= a.
Proof. pose proof (Rle_abs x). pose proof (Rle_abs (- x)). rewrite Rabs_Ropp in *. lra. Qed.

Lemma trunc_seconds n : (0 <= n)%Z -> Prop_Examples.trunc_secs (IZR n) = (n * SECOND)%Z.
Proof.
  intros H. replace (IZR n) with (Prop_Model.to_secs (n * SECOND)).
  - apply Prop_Examples.trunc_to_secs. unfold SECOND. lia.
  - unfold Prop_Model.to_secs, SECOND. rewrite mult_IZR. field.
Qed.

Lemma trunc_at x n : x = Prop_Model.to_secs n -> (0 <= n)%Z -> Prop_Examples.trunc_secs x = n.
Proof. intros -> H. now apply Prop_Examples.trunc_to_secs. Qed.

(** A state given to a propagation over no time is returned unchecked. *)
Theorem C41_zero_duration_refuted : exists d i s,
  Prop_Model.o_res (Prop_Model.for_duration (demo_env d RK_Model.RungeKutta4) 10 0 i) = Ok s /\
  prop_mass_kg s < 0.
Proof.
  exists (free None), (demo_inst (with_prop (tug 0 Coast None) (-1)) SECOND), (with_prop (tug 0 Coast None) (-1)).
  split; [reflexivity|]. cbn. lra.
Qed.

(** A maneuver of fixed direction. *)
Definition along_x (start stop : Z) : maneuver := from_time_invariant start stop 1 (V3 1 0 0) INERTIAL.
Definition no_dcm (f : nat) (o : orbit) : option m3 := None.
Definition burn (start stop : Z) : dynamics := free (Some (mnvr_law no_dcm (along_x start stop))).

Lemma norm_x : norm (V3 1 0 0) = 1.
Proof. unfold norm, dot. cbn [vx vy vz]. replace (1*1+0*0+0*0) with 1 by ring. apply sqrt_1. Qed.

Lemma command_x g dt v ctx t : sc_thruster ctx = Some t -> stm ctx = None ->
  (throttle g (at_stage Prop_Examples.trunc_secs ctx dt v) = Ok 0 \/
   throttle g (at_stage Prop_Examples.trunc_secs ctx dt v) = Ok 1 /\
   direction g (at_stage Prop_Examples.trunc_secs ctx dt v) = Ok (V3 1 0 0)) ->
  exists k, eom Prop_Examples.trunc_secs (free (Some g)) dt v ctx = Ok k.
Proof.
  intros Ht Hs Hl. unfold eom. fold (at_stage Prop_Examples.trunc_secs ctx dt v).
  cbn [free force_models orb]. unfold natural_eom. rewrite Hs. cbn [free orbital_eom bind force_models add_forces guid_law fst snd].
  unfold thrust_command.
  change (sc_thruster (at_stage Prop_Examples.trunc_secs ctx dt v)) with (sc_thruster ctx). rewrite Ht.
  destruct Hl as [->|[-> ->]].
  - destruct (Rle_dec 0 0) as [_|N]; [|lra]. destruct (Rle_dec 0 1) as [_|N]; [|lra].
    destruct (Rlt_dec 0 0) as [N|_]; [lra|]. cbn [bind]. eauto.
  - destruct (Rle_dec 0 1) as [_|N]; [|lra]. destruct (Rle_dec 1 1) as [_|N]; [|lra].
    destruct (Rlt_dec 0 1) as [_|N]; [|lra]. rewrite norm_x.
    destruct (Rlt_dec NORM_ERR (Rabs (1 - 1))) as [N|_].
    { exfalso. replace (1 - 1) with 0 in N by ring. rewrite Rabs_R0 in N. unfold NORM_ERR in N. lra. }
    cbn [bind]. eauto.
Qed.

(** One step of a burn. *)
Lemma burn_step i start stop ins : let s := Prop_Model.state ins in let step := Prop_Model.step_size ins in
  Prop_Model.fixed_step ins = true ->
  stm s = None -> sc_thruster s = Some (Thruster 1 300) -> 2 <= prop_mass_kg s -> (0 <= step <= 60 * SECOND)%Z ->
  let e := demo_env (burn start stop) i in
  exists i', Prop_Model.single_step e ins = (i', Ok tt) /\
    (Prop_Model.fixed_step i' = true /\ Prop_Model.step_size i' = step /\
     stm (Prop_Model.state i') = None /\ sc_thruster (Prop_Model.state i') = Some (Thruster 1 300) /\
     thrust_direction (Prop_Model.state i') =
       match mode s with Thrust => Some (V3 1 0 0) | _ => None end) /\
    epoch (sc_orbit (Prop_Model.state i')) = (epoch (sc_orbit s) + step)%Z /\
    Rabs (prop_mass_kg s - prop_mass_kg (Prop_Model.state i')
          - Prop_Model.to_secs step * flow (Thruster 1 300) (on_thrust 1 (mode s)))
    <= 60 * flow (Thruster 1 300) 1 * / 10 ^ 17 /\
    mode (Prop_Model.state i') =
      (if (start <=? epoch (sc_orbit s) + step)%Z && (epoch (sc_orbit s) + step <=? stop)%Z then Thrust else Coast).
Proof.
  intros s step Hf Hs Ht Hp Hstep e.
  assert (He : forall dt v, exists k, Prop_Model.eom e dt v s = Ok k).
  { intros dt v. cbn [e demo_env sc_env Prop_Model.eom]. eapply command_x; [exact Ht|exact Hs|].
    cbn [mnvr_law throttle direction]. unfold mnvr_throttle, mnvr_direction.
    change (mode (at_stage Prop_Examples.trunc_secs s dt v)) with (mode s). destruct (mode s); auto. }
  destruct (try_step_total e s true (Prop_Model.to_secs step) He) as (v & err & Hv).
  { apply RK_Props.C08_order_conditions. }
  assert (P : Rabs (prop_mass_kg s - prop_of v - Prop_Model.to_secs step * flow (Thruster 1 300) (on_thrust 1 (mode s)))
              <= 60 * flow (Thruster 1 300) 1 * / 10 ^ 17).
  { pose proof (Prop_Inv.try_step_constant e prop_of
      (prop_add _ _ _ _ _ _) (prop_scale _ _ _ _ _ _) (- flow (Thruster 1 300) (on_thrust 1 (mode s))) s true
      (Prop_Model.to_secs step) v err) as K.
    rewrite K; [|intros dt w k Hk|exact Hv].
    - cbn [e demo_env sc_env Prop_Model.to_vector Prop_Model.meth].
      change (prop_of (to_vector s)) with (prop_mass_kg s). set (p := prop_mass_kg s).
      pose proof (sum_of_weights i) as W. set (w := RK_Spec.sumR _ _) in *.
      set (h := Prop_Model.to_secs step). set (f := flow (Thruster 1 300) (on_thrust 1 (mode s))).
      replace (p - (p + h * (- f * w)) - h * f) with (h * f * (w - 1)) by ring.
      assert (H0 : 0 <= h <= 60).
      { unfold h, Prop_Model.to_secs, SECOND in *. destruct Hstep as [S1 S2].
        apply IZR_le in S1. apply IZR_le in S2. rewrite mult_IZR in S2. split; lra. }
      assert (F1 : 0 < flow (Thruster 1 300) 1).
      { unfold flow, STD_GRAVITY. cbn [thrust_N isp_s]. apply Rdiv_lt_0_compat; lra. }
      assert (F0 : 0 <= f <= flow (Thruster 1 300) 1).
      { unfold f. destruct (mode s); cbn [on_thrust]; try (replace (flow (Thruster 1 300) 0) with 0
          by (unfold flow, Rdiv; ring)); lra. }
      assert (T : RK_Spec.table_error i <= / 10 ^ 17).
      { assert (0 < / 10 ^ 17) by (apply Rinv_0_lt_compat, pow_lt; lra).
        destruct i; cbn [RK_Spec.table_error]; lra. }
      rewrite Rabs_mult. apply Rmult_le_compat; [apply Rabs_pos|apply Rabs_pos| |lra].
      rewrite Rabs_pos_eq by (apply Rmult_le_pos; lra). apply Rmult_le_compat; lra.
    - cbn [e demo_env sc_env Prop_Model.eom] in Hk. apply eom_rate in Hk.
      cbn [burn free guid_law decrement_mass] in Hk. destruct Hk as (t & lvl & A1 & A2 & _ & ->).
      rewrite mnvr_steady in A2. cbn [along_x from_time_invariant thrust_prct] in A2.
      change (mode (at_stage Prop_Examples.trunc_secs s dt w)) with (mode s) in A2.
      assert (lvl = on_thrust 1 (mode s)) as -> by congruence. congruence. }
  assert (Small : 60 * flow (Thruster 1 300) 1 <= 1).
  { unfold flow, STD_GRAVITY. cbn [thrust_N isp_s]. lra. }
  assert (Fl : forall md, 0 <= flow (Thruster 1 300) (on_thrust 1 md) <= flow (Thruster 1 300) 1).
  { intros md. assert (0 < flow (Thruster 1 300) 1)
      by (unfold flow, STD_GRAVITY; cbn [thrust_N isp_s]; apply Rdiv_lt_0_compat; lra).
    destruct md; cbn [on_thrust]; try (replace (flow (Thruster 1 300) 0) with 0 by (unfold flow, Rdiv; ring)); lra. }
  assert (E17 : / 10 ^ 17 <= 1).
  { apply Rmult_le_reg_l with (10 ^ 17); [apply pow_lt; lra|]. rewrite Rinv_r by (apply pow_nonzero; lra). lra. }
  assert (Hst : 0 <= Prop_Model.to_secs step <= 60).
  { unfold Prop_Model.to_secs, SECOND in *. destruct Hstep as [S1 S2].
    apply IZR_le in S1. apply IZR_le in S2. rewrite mult_IZR in S2. split; lra. }
  assert (Pos : 0 <= prop_of v).
  { apply Rabs_def2_le in P. specialize (Fl (mode s)).
    assert (Prop_Model.to_secs step * flow (Thruster 1 300) (on_thrust 1 (mode s)) <= 60 * flow (Thruster 1 300) 1)
      by (apply Rmult_le_compat; lra).
    assert (60 * flow (Thruster 1 300) 1 * / 10 ^ 17 <= 1 * 1).
    { apply Rmult_le_compat; lra. }
    lra. }
  set (u := set s (epoch (sc_orbit s) + step)%Z v).
  assert (Hfin : exists s', finally (burn start stop) u = Ok s' /\ same_body u s' /\
            thrust_direction s' = match mode s with Thrust => Some (V3 1 0 0) | _ => None end /\
            mode s' = (if (start <=? epoch (sc_orbit u))%Z && (epoch (sc_orbit u) <=? stop)%Z then Thrust else Coast)).
  { unfold finally. destruct (Rlt_dec (prop_mass_kg u) 0) as [N|_]; [unfold u in N; cbn [set prop_mass_kg] in N; unfold prop_of in Pos; lra|].
    cbn [burn free guid_law mnvr_law throttle direction next].
    assert (X : forall td, exists s', (match mnvr_next (along_x start stop) (mut_thrust_direction u td) with
        | Ok s' => Ok s' | Err x => Err (DynamicsGuidance x) | Panic => Panic | NoFuel => NoFuel end) = Ok s' /\
        same_body u s' /\ thrust_direction s' = option_map (fun v => vscale (/ norm v) v) td /\
        mode s' = (if (start <=? epoch (sc_orbit u))%Z && (epoch (sc_orbit u) <=? stop)%Z then Thrust else Coast)).
    { intros td. unfold mnvr_next. eexists. split; [reflexivity|]. split; [|split; reflexivity].
      exists (option_map (fun v => vscale (/ norm v) v) td). eexists. reflexivity. }
    unfold mnvr_throttle, mnvr_direction. cbn [along_x from_time_invariant m_frame INERTIAL Nat.eqb m_vector representation].
    change (mode u) with (mode s).
    assert (N1 : vscale (/ norm (V3 1 0 0)) (V3 1 0 0) = V3 1 0 0).
    { rewrite norm_x. unfold vscale. cbn [vx vy vz]. f_equal; field. }
    change (thrust_prct (along_x start stop)) with 1.
    destruct (mode s); (match goal with |- context [Rlt_dec ?a ?b] => destruct (Rlt_dec a b) end);
      try (exfalso; lra).
    - exact (X None).
    - destruct (X (Some (V3 1 0 0))) as (s' & X1 & X2 & X3 & X4). exists s'. cbn [option_map] in X3. rewrite N1 in X3. auto.
    - exact (X None). }
  destruct Hfin as (s' & F1 & F2 & F3 & F4).
  destruct (fixed_step_result e ins v err s') as (i' & R1 & R2 & R3 & R4).
  - exact Hf.
  - exact Hv.
  - exact F1.
  - exists i'. split; [exact R1|]. rewrite R2. rewrite (same_body_orbit _ _ F2), (same_body_prop _ _ F2).
    split; [|split; [reflexivity|split; [exact P|exact F4]]].
    rewrite (same_body_stm _ _ F2), (same_body_thruster _ _ F2). cbn [u set stm sc_thruster]. rewrite Hs. auto.
Qed.

(** A burn goes on for a whole step after its end: the spacecraft at the last epoch of the
    burn is in thrust mode, and stays so over the next minute. *)
Theorem C40_overshoot_refuted : forall i, exists d mv inst inst',
  guid_law d = Some (mnvr_law no_dcm mv) /\
  epoch (sc_orbit (Prop_Model.state inst)) = m_end mv /\
  Prop_Model.single_step (demo_env d i) inst = (inst', Ok tt) /\
  epoch (sc_orbit (Prop_Model.state inst')) = (m_end mv + 60 * SECOND)%Z /\
  prop_mass_kg (Prop_Model.state inst') < prop_mass_kg (Prop_Model.state inst).
Proof.
  intros i. destruct (burn_step i 0 SECOND (demo_inst (tug SECOND Thrust None) (60 * SECOND)) eq_refl eq_refl eq_refl
    ltac:(cbn; lra) ltac:(cbn; unfold SECOND; lia)) as (i' & H1 & _ & H2 & H3 & _).
  exists (burn 0 SECOND), (along_x 0 SECOND), (demo_inst (tug SECOND Thrust None) (60 * SECOND)), i'.
  split; [reflexivity|]. split; [reflexivity|]. split; [exact H1|]. split; [exact H2|].
  cbn [demo_inst Prop_Model.state Prop_Model.step_size tug prop_mass_kg mode on_thrust] in *.
  assert (E17 : / 10 ^ 17 <= 1 / 2).
  { apply Rmult_le_reg_l with (10 ^ 17); [apply pow_lt; lra|]. rewrite Rinv_r by (apply pow_nonzero; lra). lra. }
  apply Rabs_def2_le in H3.
  replace (Prop_Model.to_secs (60 * SECOND)) with 60 in H3
    by (unfold Prop_Model.to_secs, SECOND; rewrite mult_IZR; field).
  assert (F : 0 < flow (Thruster 1 300) 1)
    by (unfold flow, STD_GRAVITY; cbn [thrust_N isp_s]; apply Rdiv_lt_0_compat; lra).
  set (f := flow (Thruster 1 300) 1) in *. clearbody f.
  assert (60 * f * / 10 ^ 17 <= 60 * f * (1 / 2)) by (apply Rmult_le_compat_l; lra). lra.
Qed.

(** A burn that fits between two steps is not executed at all. *)
Theorem C40_short_burn_skipped_refuted : exists d mv inst inst',
  guid_law d = Some (mnvr_law no_dcm mv) /\ (m_start mv < m_end mv)%Z /\
  (epoch (sc_orbit (Prop_Model.state inst)) < m_start mv)%Z /\
  Prop_Model.single_step (demo_env d RK_Model.RungeKutta4) inst = (inst', Ok tt) /\
  (m_end mv < epoch (sc_orbit (Prop_Model.state inst')))%Z /\
  prop_mass_kg (Prop_Model.state inst') = prop_mass_kg (Prop_Model.state inst) /\
  mode (Prop_Model.state inst') = Coast.
Proof.
  destruct (burn_step RK_Model.RungeKutta4 (10 * SECOND) (50 * SECOND) (demo_inst (tug 0 Coast None) (60 * SECOND))
    eq_refl eq_refl eq_refl ltac:(cbn; lra) ltac:(cbn; unfold SECOND; lia)) as (i' & H1 & _ & H2 & H3 & H4).
  exists (burn (10 * SECOND) (50 * SECOND)), (along_x (10 * SECOND) (50 * SECOND)),
    (demo_inst (tug 0 Coast None) (60 * SECOND)), i'.
  split; [reflexivity|]. split; [unfold SECOND; cbn; lia|]. split; [unfold SECOND; cbn; lia|].
  split; [exact H1|]. split; [rewrite H2; unfold SECOND; cbn; lia|]. split.
  - refine (C41_coasting_step (burn (10 * SECOND) (50 * SECOND)) _ _ _ _ _
      (mnvr_law no_dcm (along_x (10 * SECOND) (50 * SECOND))) (on_thrust 1)
      (demo_inst (tug 0 Coast None) (60 * SECOND)) _ eq_refl _ _ eq_refl H1).
    + apply mnvr_mode_only.
    + apply mnvr_steady.
  - rewrite H4. reflexivity.
Qed.

(** A maneuver overrides an inhibited guidance, as does a replay. *)
Theorem C40_inhibit_refuted : exists mv s s',
  mode s = Inhibit /\ finally (free (Some (mnvr_law no_dcm mv))) s = Ok s' /\ mode s' = Thrust.
Proof.
  exists (along_x 0 SECOND), (tug 0 Inhibit None), (mut_mode (tug 0 Inhibit None) Thrust).
  split; [reflexivity|]. split; [|reflexivity]. unfold finally.
  destruct (Rlt_dec (prop_mass_kg (tug 0 Inhibit None)) 0) as [N|_]; [cbn in N; lra|].
  cbn [free guid_law mnvr_law throttle]. unfold mnvr_throttle. cbn [tug mode].
  destruct (Rlt_dec 0 0) as [N|_]; [lra|]. reflexivity.
Qed.

(** The direction of a maneuver made from an impulsive change of velocity is that change,
    which the equations of motion refuse unless it has norm one. *)
Theorem C40_from_impulsive_refused_refuted : exists dv sc,
  0 < norm dv /\ mode sc = Thrust /\
  let g := mnvr_law no_dcm (from_impulsive (epoch (sc_orbit sc)) dv INERTIAL) in
  eom Prop_Examples.trunc_secs (free (Some g)) 0 (to_vector sc) sc
  = Err (DynamicsGuidance (InvalidDirection dv)).
Proof.
  exists (V3 (1/100) 0 0), (tug 0 Thrust None).
  assert (N : norm (V3 (1/100) 0 0) = 1/100).
  { unfold norm, dot. cbn [vx vy vz]. replace (1/100*(1/100)+0*0+0*0) with ((1/100)*(1/100)) by ring.
    apply sqrt_square. lra. }
  split; [lra|]. split; [reflexivity|]. cbv zeta.
  unfold eom. fold (at_stage Prop_Examples.trunc_secs (tug 0 Thrust None) 0 (to_vector (tug 0 Thrust None))).
  set (osc := at_stage _ _ _ _).
  cbn [free force_models orb]. unfold natural_eom. cbn [tug stm free orbital_eom bind force_models add_forces guid_law].
  unfold thrust_command. change (sc_thruster osc) with (Some (Thruster 1 300)).
  cbn [mnvr_law throttle direction]. unfold mnvr_throttle, mnvr_direction. change (mode osc) with Thrust.
  cbn [from_impulsive from_time_invariant thrust_prct m_frame INERTIAL Nat.eqb].
  destruct (Rle_dec 0 1) as [_|X]; [|lra]. destruct (Rle_dec 1 1) as [_|X]; [|lra].
  match goal with |- context [Rlt_dec 0 1] => destruct (Rlt_dec 0 1) as [_|X]; [|lra] end.
  change (m_vector (from_impulsive (epoch (sc_orbit (tug 0 Thrust None))) (V3 (1/100) 0 0) INERTIAL)
    (epoch (sc_orbit osc))) with (@Ok guid_error _ (V3 (1/100) 0 0)). cbv iota beta. rewrite N.
  destruct (Rlt_dec NORM_ERR (Rabs (1/100 - 1))) as [_|X]; [reflexivity|].
  exfalso. apply X. rewrite Rabs_left by lra. unfold NORM_ERR. lra.
Qed.
