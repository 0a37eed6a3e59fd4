(** Lemmas about the spacecraft dynamics of [Dyn_Model] inside the propagator. *)
From Coq Require Import Reals ZArith Lra.
From Verif Require Import Base Vec3 Angles Sc_Model Guid_Model Dyn_Model.
From Verif Require Prop_Model Prop_Spec Prop_Proofs Prop_Loop Prop_Inv RK_Spec.
Local Open Scope R_scope.

(** A law that changes nothing but the mode and the recorded direction. *)
Definition mode_only (g : law) : Prop :=
  forall s s', next g s = Ok s' -> exists td m, s' = mut_mode (with_direction s td) m.

(** A law whose throttle is a function of the mode. *)
Definition steady (g : law) (level : guidance_mode -> R) : Prop :=
  forall s, throttle g s = Ok (level (mode s)).

(** [s'] is [s] up to the mode and the recorded direction. *)
Definition same_body (s s' : spacecraft) : Prop :=
  exists td m, s' = mut_mode (with_direction s td) m.

(** What the laws command of a spacecraft whose guidance is in mode [m]. *)
Definition on_thrust (x : R) (m : guidance_mode) : R := match m with Thrust => x | _ => 0 end.

(** ** The four laws *)
Section TheLaws.
Context (evaluate : element -> orbit -> option R)
        (bplane : orbit -> option (R * R * R))
        (dcm_to_inertial : nat -> orbit -> option m3)
        (kepler : orbit -> option keplerian)
        (shadows : orbit -> list (option R)).

Lemma mut_mode_adjusts s m : exists td m', mut_mode s m = mut_mode (with_direction s td) m'.
Proof. exists (thrust_direction s), m. destruct s; reflexivity. Qed.
Lemma self_adjusts s : exists td m', s = mut_mode (with_direction s td) m'.
Proof. exists (thrust_direction s), (mode s). destruct s; reflexivity. Qed.

Lemma mnvr_mode_only m : mode_only (mnvr_law dcm_to_inertial m).
Proof.
  intros s s' H. cbn [mnvr_law next] in H. unfold mnvr_next in H. injection H as <-.
  apply mut_mode_adjusts.
Qed.

Lemma replay_mode_only p : mode_only (replay_law p).
Proof.
  intros s s' H. cbn [replay_law next] in H. unfold replay_next in H. injection H as <-.
  eexists. eexists. reflexivity.
Qed.

Lemma kluever_mode_only kl :
  mode_only (kluever_law evaluate bplane dcm_to_inertial kepler shadows kl).
Proof.
  intros s s' H. cbn [kluever_law next] in H. unfold kluever_next in H.
  destruct (mode s);
  try (destruct (all_achieved _ _ _ _ _) as [[]|x| |]; try discriminate H);
  try (destruct (kl_max_eclipse kl));
  try (destruct (eclipse_percentage _ _) as [pct|]; [destruct (Rlt_dec _ _)|discriminate H]);
  injection H as <-; first [apply mut_mode_adjusts|apply self_adjusts].
Qed.

Lemma ruggiero_mode_only ru :
  mode_only (ruggiero_law evaluate bplane dcm_to_inertial kepler shadows ru).
Proof.
  intros s s' H. cbn [ruggiero_law next] in H. unfold ruggiero_next in H.
  destruct (mode s);
  try (destruct (all_achieved _ _ _ _ _) as [[]|x| |]; try discriminate H);
  try (destruct (ru_max_eclipse ru));
  try (destruct (eclipse_percentage _ _) as [pct|]; [destruct (Rlt_dec _ _)|discriminate H]);
  cbn [bind] in H; injection H as <-;
  first [apply mut_mode_adjusts|apply self_adjusts|exists (thrust_direction s); eexists; destruct s; reflexivity].
Qed.

Lemma mnvr_steady m : steady (mnvr_law dcm_to_inertial m) (on_thrust (thrust_prct m)).
Proof. intros s. cbn. unfold mnvr_throttle. destruct (mode s); reflexivity. Qed.

Lemma kluever_steady kl :
  steady (kluever_law evaluate bplane dcm_to_inertial kepler shadows kl) (on_thrust 1).
Proof. intros s. cbn. unfold kluever_throttle. destruct (mode s); reflexivity. Qed.

(** Neither law commands anything when the spacecraft is not in thrust mode. *)
Lemma ruggiero_coast ru s : mode s <> Thrust ->
  throttle (ruggiero_law evaluate bplane dcm_to_inertial kepler shadows ru) s = Ok 0.
Proof. cbn. unfold ruggiero_throttle. destruct (mode s); congruence. Qed.
End TheLaws.

(** ** The hook *)
Lemma finally_body d s s' :
  (forall g, guid_law d = Some g -> mode_only g) ->
  finally d s = Ok s' -> same_body s s' /\ 0 <= prop_mass_kg s.
Proof.
  intros Hm. unfold finally. destruct (Rlt_dec (prop_mass_kg s) 0) as [Hlt|Hge]; [discriminate|].
  destruct (guid_law d) as [g|] eqn:Hg.
  - destruct (match throttle g s with
              | Ok _ => _ | Err _ => _ | Panic => _ | NoFuel => _ end) as [td|x| |]; try discriminate.
    destruct (next g _) as [s1|x| |] eqn:Hn; try discriminate.
    intros H. assert (s1 = s') as -> by congruence. apply (Hm g eq_refl) in Hn.
    destruct Hn as (td' & m & ->). split; [|lra]. exists td', m. reflexivity.
  - intros H. injection H as <-. split; [|lra]. unfold mut_thrust_direction.
    exists None, (mode s). reflexivity.
Qed.

Lemma same_body_prop s s' : same_body s s' -> prop_mass_kg s' = prop_mass_kg s.
Proof. intros (td & m & ->). reflexivity. Qed.
Lemma same_body_orbit s s' : same_body s s' -> sc_orbit s' = sc_orbit s.
Proof. intros (td & m & ->). reflexivity. Qed.
Lemma same_body_thruster s s' : same_body s s' -> sc_thruster s' = sc_thruster s.
Proof. intros (td & m & ->). reflexivity. Qed.
Lemma same_body_stm s s' : same_body s s' -> stm s' = stm s.
Proof. intros (td & m & ->). reflexivity. Qed.

(** ** The equations of motion *)
Section Eom.
Context (of_secs : R -> Z) (d : dynamics).

Definition at_stage (ctx : spacecraft) (dt : R) (v : list R) : spacecraft :=
  set ctx (epoch (sc_orbit ctx) + of_secs dt)%Z v.

Lemma eom_inv dt v ctx k :
  eom of_secs d dt v ctx = Ok k ->
  exists dr dv dstm f rate,
    natural_eom d ctx (at_stage ctx dt v) = Ok (dr, dv, dstm) /\
    match guid_law d with
    | Some g => thrust_command d g (at_stage ctx dt v) = Ok (f, rate)
    | None => f = vzero /\ rate = 0
    end /\
    k = (let dv' := vadd dv (vscale (/ mass_kg (at_stage ctx dt v)) f) in
         [vx dr; vy dr; vz dr; vx dv'; vy dv'; vz dv'; 0; 0; rate] ++ dstm).
Proof.
  unfold eom. fold (at_stage ctx dt v).
  destruct (_ || _); [|discriminate].
  destruct (natural_eom d ctx (at_stage ctx dt v)) as [[[dr dv] dstm]|x| |] eqn:Hn;
    cbn [bind]; try discriminate.
  destruct (guid_law d) as [g|].
  - destruct (thrust_command d g _) as [[f rate]|x| |] eqn:Ht; cbn [bind]; try discriminate.
    intros H. exists dr, dv, dstm, f, rate. cbn [fst snd] in H. split; [reflexivity|].
    split; [reflexivity|]. congruence.
  - cbn [bind fst snd]. intros H. exists dr, dv, dstm, vzero, 0.
    repeat split. congruence.
Qed.

(** The propellant rate commanded at level [lvl]. *)
Definition flow (t : thruster) (lvl : R) : R := lvl * thrust_N t / (isp_s t * STD_GRAVITY).

Lemma thrust_command_inv g osc f rate :
  thrust_command d g osc = Ok (f, rate) ->
  exists t lvl, sc_thruster osc = Some t /\ throttle g osc = Ok lvl /\ 0 <= lvl <= 1 /\
    rate = (if decrement_mass d then - flow t lvl else 0) /\
    ((lvl = 0 /\ f = vzero) \/
     exists u, direction g osc = Ok u /\ Rabs (norm u - 1) <= NORM_ERR /\
       f = vscale (lvl * thrust_N t * / 1000) u).
Proof.
  unfold thrust_command. destruct (sc_thruster osc) as [t|]; [|discriminate].
  destruct (throttle g osc) as [lvl|x| |]; try discriminate.
  destruct (Rle_dec 0 lvl) as [H0|H0]; [|discriminate].
  destruct (Rle_dec lvl 1) as [H1|H1]; [|discriminate].
  destruct (Rlt_dec 0 lvl) as [Hp|Hp].
  - destruct (direction g osc) as [u|x| |]; try discriminate.
    destruct (Rlt_dec NORM_ERR (Rabs (norm u - 1))) as [Hn|Hn]; [discriminate|].
    intros H. exists t, lvl. split; [reflexivity|]. split; [reflexivity|]. split; [lra|].
    split; [unfold flow; congruence|]. right. exists u.
    split; [reflexivity|]. split; [lra|congruence].
  - intros H. exists t, lvl. assert (E : lvl = 0) by lra.
    split; [reflexivity|]. split; [reflexivity|]. split; [lra|]. split.
    + assert (rate = 0) as -> by congruence. rewrite E. unfold flow. destruct (decrement_mass d); lra.
    + left. split; congruence.
Qed.

Definition prop_of (v : list R) : R := nth 8 v 0.

Lemma eom_rate dt v ctx k :
  eom of_secs d dt v ctx = Ok k ->
  match guid_law d with
  | None => prop_of k = 0
  | Some g => exists t lvl, sc_thruster ctx = Some t /\
      throttle g (at_stage ctx dt v) = Ok lvl /\ 0 <= lvl <= 1 /\
      prop_of k = (if decrement_mass d then - flow t lvl else 0)
  end.
Proof.
  intros H. destruct (eom_inv _ _ _ _ H) as (dr & dv & dstm & f & rate & _ & Hg & ->).
  destruct (guid_law d) as [g|].
  - apply thrust_command_inv in Hg as (t & lvl & H1 & H2 & H3 & -> & _). exists t, lvl. auto.
  - destruct Hg as [_ ->]. reflexivity.
Qed.
End Eom.

(** ** The propagator *)
Section Env.
Context (d : dynamics) (of_secs : R -> Z)
        (transform : orbit -> nat -> res dyn_error orbit)
        (estimate : list R -> list R -> list R -> R)
        (m : Prop_Model.method) (o : Prop_Model.options nat).
Notation env := (sc_env d of_secs transform estimate m o).

Lemma nth_vec90 {A} (f : nat -> A) i dflt : (i < 90)%nat -> nth i (map f (seq 0 90)) dflt = f i.
Proof.
  intros Hi. rewrite nth_indep with (d' := f 0%nat) by (rewrite map_length, seq_length; exact Hi).
  rewrite map_nth, seq_nth by exact Hi. reflexivity.
Qed.

Lemma prop_add a b : prop_of (Prop_Model.vadd env a b) = prop_of a + prop_of b.
Proof. unfold prop_of. cbn [sc_env Prop_Model.vadd]. unfold vec90_add. now rewrite nth_vec90 by lia. Qed.
Lemma prop_scale x a : prop_of (Prop_Model.vscale env x a) = x * prop_of a.
Proof. unfold prop_of. cbn [sc_env Prop_Model.vscale]. unfold vec90_scale. now rewrite nth_vec90 by lia. Qed.

Definition keeps_orbit_epoch : Prop :=
  forall orb f orb', transform orb f = Ok orb' -> epoch orb' = epoch orb.

Lemma change_frame_body s f s' : change_frame transform s f = Ok s' ->
  exists orb, transform (sc_orbit s) f = Ok orb /\ s' = with_orbit s orb.
Proof.
  unfold change_frame. destruct (transform (sc_orbit s) f) as [orb|x| |]; cbn [bind]; try discriminate.
  intros H. exists orb. split; [reflexivity|congruence].
Qed.

Lemma env_keeps_epoch :
  keeps_orbit_epoch -> (forall g, guid_law d = Some g -> mode_only g) -> Prop_Spec.keeps_epoch env.
Proof.
  intros Ht Hm. constructor; cbn [sc_env Prop_Model.epoch Prop_Model.set_state Prop_Model.finally
    Prop_Model.enter_frame Prop_Model.leave_frame].
  - reflexivity.
  - intros s s' H. apply (finally_body _ _ _ Hm) in H as [H _]. now rewrite (same_body_orbit _ _ H).
  - intros s f s' H. apply change_frame_body in H as (orb & H & ->). cbn. eapply Ht, H.
  - intros s f s' H. apply change_frame_body in H as (orb & H & ->). cbn. eapply Ht, H.
Qed.

(** A step changes the propellant by what the stages command. *)
Lemma step_prop i i' :
  (forall g, guid_law d = Some g -> mode_only g) ->
  Prop_Model.single_step env i = (i', Ok tt) ->
  exists h v err, Prop_Model.try_step env (Prop_Model.state i) (Prop_Model.fixed_step i) h = Ok (v, err) /\
    prop_mass_kg (Prop_Model.state i') = prop_of v /\
    prop_of (to_vector (Prop_Model.state i)) = prop_mass_kg (Prop_Model.state i) /\
    sc_thruster (Prop_Model.state i') = sc_thruster (Prop_Model.state i) /\
    (Prop_Model.fixed_step i = true ->
       h = Prop_Model.to_secs (epoch (sc_orbit (Prop_Model.state i')) - epoch (sc_orbit (Prop_Model.state i)))) /\
    (Prop_Model.fixed_step i = false ->
       epoch (sc_orbit (Prop_Model.state i')) = (epoch (sc_orbit (Prop_Model.state i)) + of_secs h)%Z) /\
    ((0 <= Prop_Model.step_size i)%Z ->
     (Prop_Model.fixed_step i = true \/ (0 <= Prop_Model.min_step o)%Z) -> 0 <= h).
Proof.
  intros Hm H. apply Prop_Inv.single_step_state in H as (i1 & t & v & Hd & Hf).
  cbn [sc_env Prop_Model.finally Prop_Model.set_state Prop_Model.epoch] in Hf.
  apply (finally_body _ _ _ Hm) in Hf as [Hb _].
  apply Prop_Inv.derive_step in Hd as (h & err & H1 & H2 & H3 & H4).
  exists h, v, err. split; [exact H1|].
  rewrite (same_body_prop _ _ Hb), (same_body_thruster _ _ Hb), (same_body_orbit _ _ Hb).
  cbn [set prop_mass_kg sc_thruster sc_orbit epoch]. repeat split; auto.
  - intros Hfx. destruct (H2 Hfx) as [-> ->]. f_equal. lia.
  - intros Hfx. rewrite (H3 Hfx). reflexivity.
Qed.

(** Constant rate: what a steady law consumes in one step. *)
Lemma step_steady g level i i' :
  guid_law d = Some g -> mode_only g -> steady g level -> decrement_mass d = true ->
  Prop_Model.single_step env i = (i', Ok tt) ->
  exists t h, sc_thruster (Prop_Model.state i) = Some t /\ 0 <= level (mode (Prop_Model.state i)) <= 1 /\
    prop_mass_kg (Prop_Model.state i') =
      prop_mass_kg (Prop_Model.state i)
      - h * flow t (level (mode (Prop_Model.state i))) * RK_Spec.sumR (Prop_Model.stages m) (RK_Spec.coeff_b m) /\
    (Prop_Model.fixed_step i = true ->
       h = Prop_Model.to_secs (epoch (sc_orbit (Prop_Model.state i')) - epoch (sc_orbit (Prop_Model.state i)))) /\
    (Prop_Model.fixed_step i = false ->
       epoch (sc_orbit (Prop_Model.state i')) = (epoch (sc_orbit (Prop_Model.state i)) + of_secs h)%Z) /\
    ((0 <= Prop_Model.step_size i)%Z ->
     (Prop_Model.fixed_step i = true \/ (0 <= Prop_Model.min_step o)%Z) -> 0 <= h).
Proof.
  intros Hg Hm Hs Hdm H.
  assert (Hm' : forall g, guid_law d = Some g -> mode_only g) by (intros g' Hg'; rewrite Hg in Hg'; injection Hg' as <-; exact Hm).
  destruct (step_prop _ _ Hm' H) as (h & v & err & Ht & Hp & Hp0 & _ & Hh).
  set (s := Prop_Model.state i) in *.
  assert (Hthr : exists t, sc_thruster s = Some t /\ 0 <= level (mode s) <= 1).
  { unfold Prop_Model.try_step in Ht.
    destruct (Prop_Model.eom env 0 (Prop_Model.to_vector env s) s) as [k0|x| |] eqn:He;
      cbn [bind] in Ht; try discriminate.
    apply eom_rate in He. rewrite Hg in He. destruct He as (t & lvl & A & B & C & _).
    rewrite Hs in B. cbn [at_stage set mode] in B. assert (level (mode s) = lvl) as -> by congruence. eauto. }
  destruct Hthr as (t & Ht1 & Hl). exists t, h. split; [exact Ht1|]. split; [exact Hl|].
  split; [|exact Hh].
  rewrite Hp, <- Hp0.
  rewrite (Prop_Inv.try_step_constant env prop_of prop_add prop_scale (- flow t (level (mode s))) _ _ _ _ _ )
    with (2 := Ht).
  - cbn [sc_env Prop_Model.to_vector Prop_Model.meth]. ring.
  - intros dt w k He. cbn [sc_env Prop_Model.eom] in He. apply eom_rate in He. rewrite Hg, Hdm in He.
    destruct He as (t' & lvl & A & B & C & ->). rewrite Hs in B. cbn [at_stage set mode] in B.
    assert (level (mode s) = lvl) as <- by congruence. congruence.
Qed.

(** Nothing is consumed without a law or with the mass decrement disabled, or when the law
    commands nothing during the step. *)
Lemma step_idle i i' :
  (forall g, guid_law d = Some g -> mode_only g) ->
  (guid_law d = None \/ decrement_mass d = false \/
   exists g, guid_law d = Some g /\
     forall dt v, throttle g (at_stage of_secs (Prop_Model.state i) dt v) = Ok 0) ->
  Prop_Model.single_step env i = (i', Ok tt) ->
  prop_mass_kg (Prop_Model.state i') = prop_mass_kg (Prop_Model.state i).
Proof.
  intros Hm Hc H. destruct (step_prop _ _ Hm H) as (h & v & err & Ht & Hp & Hp0 & _).
  rewrite Hp, <- Hp0.
  rewrite (Prop_Inv.try_step_constant env prop_of prop_add prop_scale 0 _ _ _ _ _ ) with (2 := Ht).
  - cbn [sc_env Prop_Model.to_vector]. ring.
  - intros dt w k He. cbn [sc_env Prop_Model.eom] in He. apply eom_rate in He.
    destruct (guid_law d) as [g|]; [|exact He].
    destruct He as (t' & lvl & A & B & C & ->).
    destruct Hc as [Hc|[Hc|(g' & Hg' & Hc)]]; [discriminate|rewrite Hc; reflexivity|].
    assert (g' = g) as -> by congruence. rewrite Hc in B. assert (lvl = 0) as -> by congruence.
    unfold flow. destruct (decrement_mass d); lra.
Qed.

(** Any law, non-negative weights. *)
Lemma step_nonincreasing i i' :
  (forall g, guid_law d = Some g -> mode_only g) ->
  (forall t, sc_thruster (Prop_Model.state i) = Some t -> 0 <= thrust_N t /\ 0 < isp_s t) ->
  (forall j, (j < Prop_Model.stages m)%nat -> 0 <= RK_Spec.coeff_b m j) ->
  (0 <= Prop_Model.step_size i)%Z ->
  (Prop_Model.fixed_step i = true \/ (0 <= Prop_Model.min_step o)%Z) ->
  Prop_Model.single_step env i = (i', Ok tt) ->
  prop_mass_kg (Prop_Model.state i') <= prop_mass_kg (Prop_Model.state i).
Proof.
  intros Hm Hthr Hb Hs Hf H. destruct (step_prop _ _ Hm H) as (h & v & err & Ht & Hp & Hp0 & _ & _ & _ & Hh).
  rewrite Hp, <- Hp0.
  apply (Prop_Inv.try_step_nonincreasing env prop_of prop_add prop_scale _ _ _ _ _) with (4 := Ht); auto.
  intros dt w k He. cbn [sc_env Prop_Model.eom] in He. apply eom_rate in He.
  destruct (guid_law d) as [g|]; [|lra].
  destruct He as (t & lvl & A & _ & C & ->). destruct (Hthr _ A) as [Ha Hi].
  destruct (decrement_mass d); [|lra]. unfold flow, STD_GRAVITY, Rdiv.
  assert (0 < isp_s t * (980665 * / 100000)) by lra.
  assert (0 <= lvl * thrust_N t * / (isp_s t * (980665 * / 100000))); [|lra].
  apply Rmult_le_pos; [apply Rmult_le_pos; lra|]. left. apply Rinv_0_lt_compat. assumption.
Qed.
End Env.
