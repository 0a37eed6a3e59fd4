(** A process and a prediction that meet the hypotheses of C89: a point in uniform motion, of which
    a station observes the position. *)
From Coq Require Import Reals String.
From Verif Require Import Base Arc_Model Sched_Model Sol_Model Prop_Model Prop_Spec Prop_Proofs Prop_Loop Prop_Inv Prop_Examples.
From Verif Require Import Traj_Model Odp_Model Prop_Model.
Local Open Scope Z_scope.

(** What every step keeps is kept by a propagation. *)
Lemma for_duration_keeps {St V F E} (e : env St V F E) (P : St -> Prop) fuel duration i s :
  (forall s t v, P s -> P (set_state e s t v)) ->
  (forall s s', P s -> finally e s = Ok s' -> P s') ->
  (forall s f s', P s -> enter_frame e s f = Ok s' -> P s') ->
  (forall s f s', P s -> leave_frame e s f = Ok s' -> P s') ->
  P (state i) -> o_res (for_duration e fuel duration i) = Ok s -> P s.
Proof.
  intros Hset Hf He Hl Hi. unfold for_duration.
  assert (Hstep : forall i i', P (state i) -> single_step e i = (i', Ok tt) -> P (state i')).
  { intros a b Ha H. destruct (single_step_state e _ _ H) as (i1 & t & v & _ & H1). eapply Hf, H1. apply Hset, Ha. }
  destruct (propagate_cases e never fuel duration i tt)
    as [(Hz & Hr)|[(Hz & Hse & Hne)|(Hz & orig & i0 & Hen & Heq)]].
  - rewrite Hr. cbn. intros H. assert (state i = s) as <- by congruence. exact Hi.
  - intros Hs. exfalso. eapply Hne, Hs.
  - rewrite Heq.
    destruct (loop_ending e never (duration <? 0) (epoch e (state i) + duration) orig fuel i0 tt [])
      as (l & i1 & c1 & Hg & _ & Hend).
    assert (H0 : P (state i0)).
    { inversion Hen; subst; cbn; [eapply Hf; eassumption|].
      eapply He; [|eassumption]. eapply Hf; eassumption. }
    assert (H1 : P (state i1)).
    { clear Hend Heq Hen. induction Hg as [j|j j1 l j' _ Hss Hg IH]; [exact H0|].
      apply IH. eapply Hstep; eassumption. }
    assert (Hback : forall orig j c sent s, P (state j) ->
      o_res (rotate_back e (C := unit) orig j c sent) = Ok s -> P s).
    { intros og j cc sent s' Hj. unfold rotate_back. destruct og as [f|]; [|cbn; congruence].
      destruct (leave_frame e (state j) f) as [s''|x| |] eqn:Hlf; cbn; try discriminate.
      intros H. assert (s'' = s') as <- by congruence. eapply Hl; eassumption. }
    inversion Hend as [Ht He2 Hr|i2 Ht Hn Hss Hr|i2 c2 Ht Hss Hcd Hr|o Hs Hno Hr].
    + apply Hback, H1.
    + apply Hback. rewrite restored_state. eapply Hstep; [|exact Hss]. exact H1.
    + cbn [o_res]. intros Hs. assert (state i2 = s) as <- by congruence. eapply Hstep; eassumption.
    + intros H. exfalso. eapply Hno, H.
Qed.

(** A state: its epoch, the time on the motion, and the time of the last reset of its transition
    matrix. *)
Definition point : Type := Z * (Z * Z).
Definition motion : env point unit unit unit :=
  {| epoch := fst; set_state := fun s t _ => (t, (fst (snd s) + (t - fst s), snd (snd s))); to_vector := fun _ => tt;
     finally := Ok; eom := fun _ _ _ => Ok tt; vadd := fun _ _ => tt;
     vscale := fun _ _ => tt; vzero := tt; has_nan := fun _ => false;
     estimate := fun _ _ _ => 0%R; frame_of := fun _ => tt; frame_eqb := fun _ _ => true;
     enter_frame := fun s _ => Ok s; leave_frame := fun s _ => Ok s;
     of_secs := trunc_secs; nan_error := tt; meth := euler; opts := clock_opts |}.
Lemma motion_keeps : keeps_epoch motion.
Proof. split; cbn; congruence. Qed.
Lemma motion_reset fuel d i s : o_res (for_duration motion fuel d i) = Ok s -> snd (snd s) = snd (snd (state i)).
Proof.
  apply (for_duration_keeps motion (fun s => snd (snd s) = snd (snd (state i)))); cbn; try congruence.
Qed.

Definition dss : string := "DSS-65".
Definition station_arc : arc :=
  {| measurements := [{| tracker := dss; Arc_Model.epoch := 40; obs := [(Range, 1%R)]; rejected := true |};
                      {| tracker := dss; Arc_Model.epoch := 80; obs := [(Range, 1%R)]; rejected := false |}];
     moduli := None; force_reject := false |}.
Definition motion_ops : state_ops point unit :=
  {| st_epoch := fst; st_frame := fun _ => tt; st_frame_eqb := fun _ _ => true;
     st_interpolate := fun _ _ _ => Err tt |}.
Definition origin : point := (0, (0, 0)).
Definition later : Z := 40.
Definition tracked : odp unit :=
  {| devices := [(dss, tt)]; sigma_reject := None; odp_max_step := 40; epoch_precision := 1; init_step := 40; opts_fixed := true |}.

(** The process and the prediction succeed with every filter whose updates do. *)
Section Succeeds.
Context {K Est RV G C H Fe FS : Type} (fo : filter_ops point K Est RV G C H Fe) (so : stm_ops point) (c0 : C) (h0 : H).
Definition station : device_ops point unit C H unit :=
  {| name_of := fun _ => dss; types_of := fun _ => [Range];
     h_tilde := fun _ _ _ _ => Ok h0; covar_of := fun _ _ _ => Ok c0;
     measure := fun d _ _ => (d, Ok (Some [(Range, 0%R)])); bias_of := fun _ _ _ => Ok [0%R] |}.
Context (J : K -> Prop).
Hypothesis init_J : forall k, J k -> J (initialize_noises fo k).
Hypothesis time_J : forall k s, J k -> exists k' est, time_update fo k s = (k', Ok est) /\ J k'.
Hypothesis msr_J : forall k s y z crit, J k -> exists k' est r g, measurement_update fo k s y z c0 h0 crit = (k', Ok (est, r, g)).
Hypothesis clock_J : forall s t, fst (with_stm so s) = fst s /\ fst (reset_stm so s) = fst s /\ fst (set_epoch so s t) = t.
Context (initial : Est).
Hypothesis start_J : J (start_filter fo initial).
Hypothesis at_origin : fst (nominal_of fo initial) = 0.

Lemma one_step i t : fixed_step i = true -> step_size i = 40 -> fst (state i) = t -> t = 0 \/ t = 40 ->
  exists s, o_res (for_duration motion 9 40 i) = Ok s /\ state (o_inst (for_duration motion 9 40 i)) = s /\ fst s = t + 40 /\
    fixed_step (o_inst (for_duration motion 9 40 i)) = true /\ step_size (o_inst (for_duration motion 9 40 i)) = 40.
Proof.
  destruct i as [[e0 [c r]] st fx [d1 d2 d3]]. cbn [fixed_step step_size state fst]. intros -> -> -> [->| ->];
    (eexists; split; [vm_compute; reflexivity|split; [vm_compute; reflexivity|split; [vm_compute; reflexivity|split; vm_compute; reflexivity]]]).
Qed.

Lemma predict_succeeds : exists s, predict_until (FS := FS) (De := unit) motion so fo tracked 9 9 initial later = Ok s.
Proof.
  unfold predict_until. generalize (push_time_update (new (E := Est) (V := RV) (G := G) (F := FS)) initial) as s0. intros s0.
  assert (Hi : exists i, i = prop_with tracked (with_stm so (nominal_of fo initial)) /\ fixed_step i = true /\ step_size i = 40 /\ fst (state i) = 0).
  { eexists. split; [reflexivity|]. cbn. rewrite (proj1 (clock_J _ 0)), at_origin. auto. }
  destruct Hi as (i & <- & H1 & H2 & H3). cbn [predict_loop]. change (odp_max_step tracked) with 40.
  destruct (one_step i 0 H1 H2 H3 (or_introl eq_refl)) as (s & E & _ & E3 & _). rewrite E. cbn [lift bind].
  destruct (time_J (start_filter fo initial) s start_J) as (k' & est & Ht & _). rewrite Ht. cbn [lift bind].
  change (Prop_Model.epoch motion s) with (fst s). rewrite E3. cbn. eauto.
Qed.
Lemma process_succeeds : exists s, process_arc (FS := FS) motion motion_ops (fun x => x) so fo station 1 tracked 9 9 initial station_arc = Ok s.
Proof.
  unfold process_arc. cbn [measurements station_arc length Nat.ltb Nat.leb odp_max_step tracked Z.leb Z.compare process_measurements].
  set (r0 := start_run _ _ _ _ _).
  assert (H0 : J (r_kf r0)) by (apply init_J; exact start_J).
  assert (H1 : fixed_step (r_inst r0) = true /\ step_size (r_inst r0) = 40 /\ fst (state (r_inst r0)) = 0 /\ r_epoch r0 = 0 /\ r_devices r0 = [(dss, tt)]).
  { unfold r0, start_run. cbn. rewrite (proj1 (clock_J _ 0)), at_origin. auto. }
  clearbody r0. destruct H1 as (H1 & H2 & H3 & H4 & H5).
  (* the first measurement *)
  cbn [advance]. unfold step_toward at 1. rewrite H4, H2. cbn [Arc_Model.epoch odp_max_step tracked]. match goal with |- context [Z.min ?x ?y] => replace (Z.min x y) with 40 by reflexivity end.
  destruct (one_step (r_inst r0) 0 H1 H2 H3 (or_introl eq_refl)) as (s & E & E2 & E3 & E4 & E5). rewrite E. cbn [lift bind r_inst].
  rewrite E2. change (Prop_Model.epoch motion s) with (fst s). rewrite E3. cbn [epoch_precision tracked Arc_Model.epoch]. match goal with |- context [Z.abs ?x <? 1] => replace (Z.abs x <? 1) with true by reflexivity end.
  unfold at_measurement at 1. cbn [rejected]. unfold do_time_update at 1. cbn [r_kf r_inst].
  rewrite E2. destruct (time_J (r_kf r0) s H0) as (k1 & est & Ht & J1). rewrite Ht. cbn [lift bind].
  match goal with |- context [step_toward motion motion_ops ?f tracked 9 80 ?r] => set (r1 := r) end.
  assert (G1 : fixed_step (r_inst r1) = true /\ step_size (r_inst r1) = 40 /\ fst (state (r_inst r1)) = 40 /\ r_epoch r1 = 40 /\ r_devices r1 = [(dss, tt)] /\ r_kf r1 = k1).
  { unfold r1. cbn. rewrite (proj1 (proj2 (clock_J _ 0))), (proj2 (proj2 (clock_J s 40))), ?E4, ?E5, ?H5, ?E3. auto 7. }
  clearbody r1. destruct G1 as (G1 & G2 & G3 & G4 & G5 & G6).
  (* the second *)
  unfold step_toward at 1. rewrite G4, G2. cbn [Arc_Model.epoch odp_max_step tracked]. match goal with |- context [Z.min ?x ?y] => replace (Z.min x y) with 40 by reflexivity end.
  destruct (one_step (r_inst r1) 40 G1 G2 G3 (or_intror eq_refl)) as (s' & F1 & F2 & F3 & F4 & F5).
  rewrite F1. cbn [lift bind r_inst].
  rewrite F2. change (Prop_Model.epoch motion s') with (fst s'). rewrite F3. cbn [epoch_precision tracked Arc_Model.epoch]. match goal with |- context [Z.abs ?x <? 1] => replace (Z.abs x <? 1) with true by reflexivity end.
  unfold at_measurement. cbn. rewrite G5. cbn. unfold process_window. cbn.
  rewrite G6.
  match goal with |- context [measurement_update fo k1 ?a ?b ?c c0 h0 ?d] =>
    destruct (msr_J k1 a b c d J1) as (k3 & e3 & r3 & g3 & Hm3) end.
  rewrite Hm3. cbn. eauto.
Qed.
End Succeeds.
