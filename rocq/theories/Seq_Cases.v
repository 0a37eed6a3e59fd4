(** C45: sequences flown with the propagator of nyx, and those that do not go as announced. *)
From Coq Require Import Reals ZArith Lra String Sorted Permutation.
From Verif Require Import Base Vec3 Angles Sc_Model Guid_Model Dyn_Model Dyn_Proofs Seq_Model Seq_Props.
From Verif Require Prop_Model Prop_Spec Prop_Examples Traj_Model RK_Model RK_Props Prop_Inv Dyn_Props Dyn_Step.
Local Open Scope R_scope.
Local Open Scope string_scope.
Import Dyn_Props.

(** Coasting in straight line with a Runge-Kutta 4 of fixed step ten seconds. *)
Definition coaster : setup :=
  {| su_dynamics := free None; su_method := RK_Model.method_of RK_Model.RungeKutta4;
     su_options := demo_options; su_init_step := 10 * SECOND; su_fixed_step := true |}.
Definition sc_ops : Traj_Model.state_ops spacecraft nat :=
  {| Traj_Model.st_epoch := ep; Traj_Model.st_frame := fun x => frame (sc_orbit x);
     Traj_Model.st_frame_eqb := Nat.eqb; Traj_Model.st_interpolate := fun _ _ _ => Err tt |}.
Definition fly5 := fly_until Prop_Examples.trunc_secs same_frame no_error sc_ops (fun l => l) 5.

Lemma free_step i : Prop_Model.fixed_step i = true -> stm (Prop_Model.state i) = None ->
  0 <= prop_mass_kg (Prop_Model.state i) ->
  exists i', Prop_Model.single_step (demo_env (free None) RK_Model.RungeKutta4) i = (i', Ok tt) /\
    ep (Prop_Model.state i') = (ep (Prop_Model.state i) + Prop_Model.step_size i)%Z /\
    stm (Prop_Model.state i') = None /\ mode (Prop_Model.state i') = mode (Prop_Model.state i) /\
    prop_mass_kg (Prop_Model.state i') = prop_mass_kg (Prop_Model.state i) /\
    Prop_Model.fixed_step i' = true /\ Prop_Model.step_size i' = Prop_Model.step_size i.
Proof.
  intros Hf Hs Hp. set (e := demo_env (free None) RK_Model.RungeKutta4).
  assert (He : forall dt v, exists k, Prop_Model.eom e dt v (Prop_Model.state i) = Ok k).
  { intros dt v. cbn [e demo_env sc_env Prop_Model.eom]. unfold eom, natural_eom. rewrite Hs.
    cbn [free orbital_eom force_models guid_law bind add_forces orb fst snd]. eexists. reflexivity. }
  destruct (Dyn_Step.try_step_total e (Prop_Model.state i) true (Prop_Model.to_secs (Prop_Model.step_size i)) He)
    as (v & err & Ht); [apply RK_Props.C08_order_conditions|].
  assert (P : prop_of v = prop_mass_kg (Prop_Model.state i)).
  { rewrite (Prop_Inv.try_step_constant e prop_of (prop_add _ _ _ _ _ _) (prop_scale _ _ _ _ _ _) 0 _ _ _ _ _) with (2 := Ht).
    - cbn [e demo_env sc_env Prop_Model.to_vector]. change (prop_of (to_vector (Prop_Model.state i))) with (prop_mass_kg (Prop_Model.state i)). ring.
    - intros dt w k Hk. cbn [e demo_env sc_env Prop_Model.eom] in Hk. apply eom_rate in Hk. exact Hk. }
  set (s' := mut_thrust_direction (set (Prop_Model.state i) (ep (Prop_Model.state i) + Prop_Model.step_size i)%Z v) None).
  destruct (Dyn_Step.fixed_step_result e i v err s' Hf Ht) as (i' & R1 & R2 & R3 & R4).
  { cbn [e demo_env sc_env Prop_Model.finally Prop_Model.set_state Prop_Model.epoch]. unfold finally.
    cbn [free guid_law]. match goal with |- context [Rlt_dec ?a 0] => destruct (Rlt_dec a 0) as [N|_] end; [|reflexivity].
    exfalso. cbn [set prop_mass_kg] in N. change (prop_of v < 0) in N. lra. }
  exists i'. split; [exact R1|]. rewrite R2. unfold s'. split; [reflexivity|]. split; [cbn; now rewrite Hs|].
  split; [reflexivity|]. split; [exact P|]. split; assumption.
Qed.

(** One step of ten seconds. *)
Lemma coast_flight sc : stm sc = None -> 0 <= prop_mass_kg sc ->
  exists s', fly5 coaster sc (ep sc + 10 * SECOND) = Ok (s', [sc; s']) /\
    ep s' = (ep sc + 10 * SECOND)%Z /\ stm s' = None /\ mode s' = mode sc /\ prop_mass_kg s' = prop_mass_kg sc.
Proof.
  intros Hs Hp.
  set (sc1 := mut_thrust_direction sc None).
  set (i0 := prop_with coaster sc1).
  destruct (free_step i0) as (i' & S1 & S2 & S3 & S4 & S5 & S6 & S7); [reflexivity|exact Hs|exact Hp|].
  exists (Prop_Model.state i'). change (ep (Prop_Model.state i0)) with (ep sc) in S2.
  change (Prop_Model.step_size i0) with (10 * SECOND)%Z in *.
  split; [|repeat split; assumption].
  unfold fly5, fly_until, Traj_Model.for_duration_with_traj, Prop_Model.for_duration, Prop_Model.propagate.
  change (su_dynamics coaster) with (free None). change (su_options coaster) with demo_options.
  change (su_method coaster) with (RK_Model.method_of RK_Model.RungeKutta4).
  fold (demo_env (free None) RK_Model.RungeKutta4).
  replace (ep sc + 10 * SECOND - epoch (sc_orbit sc))%Z with (10 * SECOND)%Z by (unfold ep; lia).
  change (10 * SECOND =? 0)%Z with false. change (10 * SECOND <? 0)%Z with false. cbv iota zeta.
  assert (F : Prop_Model.finally (demo_env (free None) RK_Model.RungeKutta4) (Prop_Model.state (prop_with coaster sc)) = Ok sc1).
  { cbn [demo_env sc_env Prop_Model.finally prop_with Prop_Model.state]. unfold finally. destruct (Rlt_dec (prop_mass_kg sc) 0); [lra|reflexivity]. }
  rewrite F. change (Prop_Model.with_state (prop_with coaster sc) sc1) with i0.
  change (Prop_Model.integration_frame (Prop_Model.opts (demo_env (free None) RK_Model.RungeKutta4))) with (@None nat). cbv iota.
  cbn [Prop_Model.prop_loop]. change (Prop_Model.epoch (demo_env (free None) RK_Model.RungeKutta4)) with ep.
  change (Prop_Model.state (prop_with coaster sc)) with sc. change (ep (Prop_Model.state i0)) with (ep sc).
  change (Prop_Model.step_size i0) with (10 * SECOND)%Z.
  rewrite Z.ltb_irrefl. cbn [negb andb orb]. rewrite S1. cbn [Prop_Model.never].
  rewrite S2, S7, Z.eqb_refl.
  replace (ep sc + 10 * SECOND <? ep sc + 10 * SECOND + 10 * SECOND)%Z with true by (symmetry; apply Z.ltb_lt; unfold SECOND; lia).
  cbn [negb andb orb Prop_Model.rotate_back Prop_Model.o_res Prop_Model.o_sent app].
  f_equal. f_equal. unfold Traj_Model.finalize.
  cbn [RustStd.dedup_by RustStd.dedup_after RustStd.sort_by RustStd.insert sc_ops Traj_Model.st_epoch]. rewrite S2.
  replace (ep sc =? ep sc + 10 * SECOND)%Z with false by (symmetry; apply Z.eqb_neq; unfold SECOND; lia).
  cbn [RustStd.sort_by RustStd.insert]. unfold RustStd.key_leb. cbn [sc_ops Traj_Model.st_epoch]. rewrite S2.
  replace (ep sc + 10 * SECOND <=? ep sc)%Z with false by (symmetry; apply Z.leb_gt; unfold SECOND; lia).
  reflexivity.
Qed.

(** Nothing is known of the frames and of the guidance laws, which these sequences do not use. *)
Definition no_laws := law_of (fun _ _ => None) (fun _ => None) (fun _ _ => None) (fun _ => None) (fun _ => []).
Definition nowhere (o : orbit) (f : nat) : option orbit := None.
Definition demo_run (s : sequence unit) (until : option string) (sc : spacecraft) :=
  propagate Nat.eqb Nat.eqb nowhere no_laws fly5 s until sc.
Definition demo_phases (s : sequence unit) (until : option string) :=
  run_phases Nat.eqb Nat.eqb nowhere no_laws fly5 s until.
Definition coasting (l : list (Z * phase)) : sequence unit :=
  {| seq := l; thruster_sets := []; propagators := [("free", tt)]; prop_setups := [("free", coaster)] |}.
Definition cruise (name : string) (ev : option discrete_event) (disabled : bool) : phase :=
  Activity name "free" None ev disabled.

Lemma cruise_phase q t name ev t' p l sc sc1 trajs :
  enter Nat.eqb Nat.eqb nowhere ev sc = Ok sc1 ->
  stm sc1 = None -> 0 <= prop_mass_kg sc1 -> (t' = ep sc1 + 10 * SECOND)%Z ->
  exists s', ep s' = t' /\ stm s' = None /\ prop_mass_kg s' = prop_mass_kg sc1 /\
    demo_phases (coasting q) None ((t, cruise name ev false) :: (t', p) :: l) sc trajs =
    demo_phases (coasting q) None ((t', p) :: l) s' (trajs ++ [{| t_name := name; t_states := [sc1; s'] |}]).
Proof.
  intros He Hs Hp ->. destruct (coast_flight sc1 Hs Hp) as (s' & F & E & S & M & P).
  exists s'. repeat (split; [assumption|]). unfold demo_phases, cruise.
  set (rest := ((ep sc1 + 10 * SECOND)%Z, p) :: l). cbn [run_phases]. rewrite He. cbn [bind].
  unfold rest at 1. cbv iota. unfold execute. change (lookup "free" (prop_setups (coasting q))) with (Some coaster).
  cbv iota zeta. rewrite F. reflexivity.
Qed.

(** Two phases, the second of which leaves a stage behind. *)
Definition stage : discrete_event :=
  Staging None (Some {| p_mass := Some (10, 1, 0); p_srp := None; p_drag := None |}).
Definition two_phases : list (Z * phase) :=
  [(0%Z, cruise "coast" None false); ((10 * SECOND)%Z, cruise "stage" (Some stage) false);
   ((20 * SECOND)%Z, Terminate)].

Example C45_demo : exists b c d, demo_run (coasting two_phases) None (tug 0 Coast None) =
    Ok [{| t_name := "coast"; t_states := [tug 0 Coast None; b] |}; {| t_name := "stage"; t_states := [c; d] |}] /\
  ep b = (10 * SECOND)%Z /\ ep c = ep b /\ ep d = (20 * SECOND)%Z /\ dry_mass_kg c = dry_mass_kg b - 10.
Proof.
  unfold demo_run, propagate. change (filter _ (seq (coasting two_phases))) with two_phases.
  fold (demo_phases (coasting two_phases) None). unfold two_phases at 2.
  destruct (cruise_phase two_phases 0 "coast" None (10 * SECOND) (cruise "stage" (Some stage) false) [((20 * SECOND)%Z, Terminate)]
    (tug 0 Coast None) (tug 0 Coast None) []) as (b & B1 & B2 & B3 & ->); [reflexivity|reflexivity|cbn; lra|reflexivity|].
  destruct (cruise_phase two_phases (10 * SECOND) "stage" (Some stage) (20 * SECOND) Terminate []
    b (change_properties Rminus (Some {| p_mass := Some (10, 1, 0); p_srp := None; p_drag := None |}) b)
    ([] ++ [{| t_name := "coast"; t_states := [tug 0 Coast None; b] |}])) as (d & D1 & D2 & D3 & ->).
  - reflexivity.
  - exact B2.
  - change (0 <= prop_mass_kg b - 1). rewrite B3. cbn. lra.
  - change (20 * SECOND = ep b + 10 * SECOND)%Z. rewrite B1. reflexivity.
  - exists b, (change_properties Rminus (Some {| p_mass := Some (10, 1, 0); p_srp := None; p_drag := None |}) b), d.
    split; [reflexivity|]. split; [exact B1|]. split; [reflexivity|]. split; [exact D1|reflexivity].
Qed.

Example C45_hypotheses :
  ephemerides nowhere same_frame sc_ops (fun l => l) /\
  sound_setups Prop_Examples.trunc_secs same_frame no_error (coasting two_phases) SECOND /\
  ordered (seq (coasting two_phases)) /\ validate (coasting two_phases) = Ok tt /\
  (exists trajs, demo_run (coasting two_phases) None (tug 0 Coast None) = Ok trajs).
Proof.
  split; [|split; [|split; [|split]]].
  - split; [|split; [|split]].
    + intros o f o' H. unfold same_frame in H. congruence.
    + intros o f o' H. discriminate H.
    + reflexivity.
    + intros l. apply Permutation_refl.
  - intros name su H. unfold coasting in H. cbn [prop_setups lookup] in H.
    destruct (String.eqb name "free"); [|discriminate]. assert (su = coaster) as -> by congruence.
    split; [reflexivity|]. intros d sc. left. cbn. repeat split; unfold SECOND; lia.
  - repeat constructor.
  - reflexivity.
  - destruct C45_demo as (b & c & d & H & _). eexists. exact H.
Qed.

(** A phase already begun at the epoch of the state is not executed, not even its remainder:
    the next phase begins early instead. *)
Theorem C45_started_phase_refuted : exists l sc a b,
  ordered l /\ validate (coasting l) = Ok tt /\
  l = [(0%Z, cruise "first" None false); ((15 * SECOND)%Z, cruise "second" None false); ((20 * SECOND)%Z, Terminate)] /\
  (0 < ep sc < 15 * SECOND)%Z /\
  demo_run (coasting l) None sc = Ok [{| t_name := "second"; t_states := [a; b] |}] /\
  ep a = (10 * SECOND)%Z /\ ep b = (20 * SECOND)%Z.
Proof.
  set (l := [(0%Z, cruise "first" None false); ((15 * SECOND)%Z, cruise "second" None false); ((20 * SECOND)%Z, Terminate)]).
  set (sc := tug (10 * SECOND) Coast None).
  destruct (cruise_phase l (15 * SECOND) "second" None (20 * SECOND) Terminate [] sc sc [])
    as (b & B1 & B2 & B3 & H); [reflexivity|reflexivity|cbn; lra|reflexivity|].
  exists l, sc, sc, b. split; [repeat constructor|]. split; [reflexivity|]. split; [reflexivity|].
  split; [cbn; unfold SECOND; lia|]. split; [|split; [reflexivity|exact B1]].
  unfold demo_run, propagate. change (filter _ (seq (coasting l))) with [((15 * SECOND)%Z, cruise "second" None false); ((20 * SECOND)%Z, Terminate)].
  fold (demo_phases (coasting l) None). rewrite H. reflexivity.
Qed.

(** The time of a disabled phase is flown with the configuration of the next phase, before
    the start of that phase. *)
Theorem C45_disabled_phase_refuted : exists l sc a b,
  ordered l /\ validate (coasting l) = Ok tt /\
  l = [(0%Z, cruise "first" None true); ((5 * SECOND)%Z, cruise "second" (Some stage) false); ((10 * SECOND)%Z, Terminate)] /\
  ep sc = 0%Z /\
  demo_run (coasting l) None sc = Ok [{| t_name := "second"; t_states := [a; b] |}] /\
  ep a = 0%Z /\ ep b = (10 * SECOND)%Z /\ dry_mass_kg a = dry_mass_kg sc - 10.
Proof.
  set (l := [(0%Z, cruise "first" None true); ((5 * SECOND)%Z, cruise "second" (Some stage) false); ((10 * SECOND)%Z, Terminate)]).
  set (sc := tug 0 Coast None).
  set (a := change_properties Rminus (Some {| p_mass := Some (10, 1, 0); p_srp := None; p_drag := None |}) sc).
  destruct (cruise_phase l (5 * SECOND) "second" (Some stage) (10 * SECOND) Terminate [] sc a [])
    as (b & B1 & B2 & B3 & H); [reflexivity|reflexivity|change (0 <= 50 - 1); lra|reflexivity|].
  exists l, sc, a, b. split; [repeat constructor|]. split; [reflexivity|]. split; [reflexivity|].
  split; [reflexivity|]. split; [|split; [reflexivity|split; [exact B1|reflexivity]]].
  unfold demo_run, propagate. change (filter _ (seq (coasting l))) with l.
  fold (demo_phases (coasting l) None). unfold l at 2.
  transitivity (demo_phases (coasting l) None [((5 * SECOND)%Z, cruise "second" (Some stage) false); ((10 * SECOND)%Z, Terminate)] sc []); [reflexivity|].
  rewrite H. reflexivity.
Qed.

(** A valid sequence panics when it is empty or when the state is later than its last phase. *)
Theorem C45_valid_panics_refuted :
  (validate (coasting []) = Ok tt /\ forall sc, demo_run (coasting []) None sc = Panic) /\
  exists l sc, ordered l /\ validate (coasting l) = Ok tt /\ demo_run (coasting l) None sc = Panic.
Proof.
  split; [split; reflexivity|].
  exists two_phases, (tug (30 * SECOND) Coast None). split; [repeat constructor|]. split; reflexivity.
Qed.

(** Where no phase is disabled and the state is at the epoch of the first phase left, each
    phase is flown from its own epoch. *)
Lemma follow_starts (link : phase -> spacecraft -> spacecraft -> Prop) pre : (forall p a b, link p a b -> ep a = ep b) ->
  forall from stop trajs, Forall (fun e => enabled (snd e) = true) pre ->
  match pre with [] => True | e :: _ => ep from = fst e end ->
  follow link from (activities pre stop) trajs ->
  Forall2 (fun e tr => exists a others, t_states tr = a :: others /\ ep a = fst e) pre trajs.
Proof.
  intros Hl. induction pre as [|[t p] pre IH]; intros from stop trajs Hen Hst Hf.
  - destruct trajs; [constructor|destruct Hf].
  - inversion Hen as [|? ? H1 H2]; subst. cbn [snd] in H1. unfold activities in Hf.
    change (map snd ((t, p) :: pre)) with (p :: map snd pre) in Hf. change (tl (map fst ((t, p) :: pre))) with (map fst pre) in Hf.
    assert (Hc : exists t', combine (p :: map snd pre) (map fst pre ++ [stop])%list =
              (p, t') :: combine (map snd pre) (tl (map fst pre) ++ [stop])%list /\
              match pre with [] => t' = stop | e :: _ => t' = fst e end).
    { destruct pre as [|[t1 p1] pre]; cbn; eauto. }
    destruct Hc as (t' & Hc & Ht'). rewrite Hc in Hf. cbn [filter fst] in Hf. rewrite H1 in Hf.
    destruct trajs as [|tr trajs]; [destruct Hf|]. destruct Hf as (_ & (a & others & F1 & F2) & _ & F3 & F4).
    constructor.
    + exists a, others. split; [exact F1|]. apply Hl in F2. cbn [fst] in *. congruence.
    + eapply (IH (last (t_states tr) from)); [exact H2| |exact F4].
      destruct pre as [|e pre]; [trivial|]. congruence.
Qed.

Theorem C45_spans : forall same_orientation same_origin translate evaluate bplane dcm kepler shadows
    of_secs transform estimate ops arrange fuel config (s : sequence config) until lo sc trajs,
  ephemerides translate transform ops arrange -> (0 <= lo)%Z ->
  sound_setups of_secs transform estimate s lo -> ordered (seq s) ->
  propagate same_orientation same_origin translate (law_of evaluate bplane dcm kepler shadows)
    (fly_until of_secs transform estimate ops arrange fuel) s until sc = Ok trajs ->
  (forall e, In e (seq s) -> enabled (snd e) = true \/ snd e = Terminate) ->
  (exists p, In (ep sc, p) (seq s)) ->
  exists pre stop post, filter (fun e => (ep sc <=? fst e)%Z) (seq s) = (pre ++ stop :: post)%list /\
    ends_at until (snd stop) /\
    Forall2 (fun e tr => exists a others, t_states tr = a :: others /\ ep a = fst e) pre trajs.
Proof.
  intros so sor tr ev bp dcm ke sh os tf est ops arr fuel config s until lo sc trajs He Hlo Hs Ho H Hen (p & Hp).
  destruct (C45_phases _ _ _ _ _ _ _ _ _ _ _ _ _ _ _ _ lo sc trajs He Hlo Hs Ho H) as (pre & stop & post & F1 & F2 & F3 & F4).
  exists pre, stop, post. split; [exact F1|]. split; [exact F2|].
  refine (follow_starts _ pre _ sc (fst stop) trajs _ _ F4).
  - intros q a b E. exact E.
  - rewrite Forall_forall in F3 |- *. intros e Hi. specialize (F3 e Hi).
    assert (Hi' : In e (seq s)).
    { assert (G : In e (filter (fun e => (ep sc <=? fst e)%Z) (seq s))) by (rewrite F1; apply in_or_app; now left).
      now apply filter_In in G. }
    destruct (Hen e Hi') as [G|G]; [exact G|]. exfalso. apply F3. now rewrite G.
  - destruct pre as [|e pre]; [trivial|]. cbn [app] in F1.
    assert (Hin : In (ep sc, p) (e :: pre ++ stop :: post)%list).
    { rewrite <- F1. apply filter_In. split; [exact Hp|]. cbn. apply Z.leb_refl. }
    assert (Hord : StronglySorted (fun a b => (fst a < fst b)%Z) (e :: pre ++ stop :: post)%list).
    { rewrite <- F1. unfold ordered in Ho. clear - Ho. induction Ho as [|x l Hs IH Hf]; cbn; [constructor|].
      destruct (ep sc <=? fst x)%Z; [|exact IH]. constructor; [exact IH|]. rewrite Forall_forall in Hf |- *.
      intros y Hy. apply filter_In in Hy as [Hy _]. auto. }
    assert (Hge : (ep sc <= fst e)%Z).
    { assert (G : In e (filter (fun e => (ep sc <=? fst e)%Z) (seq s))) by (rewrite F1; now left).
      apply filter_In in G as [_ G]. now apply Z.leb_le. }
    destruct Hin as [->|Hin]; [reflexivity|]. apply StronglySorted_inv in Hord as [_ Hord].
    rewrite Forall_forall in Hord. specialize (Hord _ Hin). cbn in Hord. lia.
Qed.
Example C45_spans_case : (forall e, In e two_phases -> enabled (snd e) = true \/ snd e = Terminate) /\
  exists p, In (ep (tug 0 Coast None), p) two_phases.
Proof.
  split; [|eexists; now left]. intros e [<-|[<-|[<-|[]]]]; [now left|now left|now right].
Qed.

Print Assumptions C45_started_phase_refuted.
Print Assumptions C45_disabled_phase_refuted.
Print Assumptions C45_valid_panics_refuted.
Print Assumptions C45_spans.
