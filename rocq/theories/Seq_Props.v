(** C45 and C68: execution of a mission sequence and its discrete events. *)
From Coq Require Import Reals ZArith Lra String Sorted Permutation.
From Verif Require Import Base Vec3 Angles Sc_Model Guid_Model Dyn_Model Dyn_Proofs Seq_Model.
From Verif Require Prop_Model Prop_Spec Traj_Model Traj_Spec Traj_Props Prop_Inv Event_Props Dyn_Props.
Local Open Scope R_scope.

(** ** Specification *)

Definition ep (s : spacecraft) : Z := epoch (sc_orbit s).

(** The phases are in the order of their epochs, as the keys of an ordered map are. *)
Definition ordered (l : list (Z * phase)) : Prop := StronglySorted (fun a b => (fst a < fst b)%Z) l.

(** The phases at which the execution ends. *)
Definition ends_at (until : option string) (p : phase) : Prop :=
  match p with Terminate => True | Activity name _ _ _ _ => until = Some name end.

Definition enabled (p : phase) : bool :=
  match p with Activity _ _ _ _ disabled => negb disabled | Terminate => false end.

(** The enabled phases, each with the epoch of the phase that follows it. *)
Definition activities (pre : list (Z * phase)) (stop : Z) : list (phase * Z) :=
  filter (fun a => enabled (fst a)) (combine (map snd pre) (tl (map fst pre) ++ [stop])).

(** One named trajectory per activity: it begins with a state linked to the last state of the
    previous one, goes forward in time and ends at the start of the next phase. *)
Fixpoint follow (link : phase -> spacecraft -> spacecraft -> Prop) (from : spacecraft)
    (acts : list (phase * Z)) (trajs : list named_traj) : Prop :=
  match acts, trajs with
  | [], [] => True
  | (p, t) :: acts', tr :: trajs' =>
      (exists prop g ev dis, p = Activity (t_name tr) prop g ev dis) /\
      (exists first others, t_states tr = first :: others /\ link p from first) /\
      Traj_Spec.strictly_chronological ep (t_states tr) /\
      ep (last (t_states tr) from) = t /\
      follow link (last (t_states tr) from) acts' trajs'
  | _, _ => False
  end.

(** What a discrete event does to a spacecraft: field by field. *)
Definition changed (sign : R) (p : option properties) (sc sc' : spacecraft) : Prop :=
  let d {A} (f : properties -> option A) (g : A -> R) :=
    match p with Some p => match f p with Some a => g a | None => 0 end | None => 0 end in
  dry_mass_kg sc' = dry_mass_kg sc + sign * d p_mass (fun m => fst (fst m)) /\
  prop_mass_kg sc' = prop_mass_kg sc + sign * d p_mass (fun m => snd (fst m)) /\
  extra_mass_kg sc' = extra_mass_kg sc + sign * d p_mass snd /\
  srp_area_m2 sc' = srp_area_m2 sc + sign * d p_srp fst /\
  coeff_reflectivity sc' = coeff_reflectivity sc + sign * d p_srp snd /\
  drag_area_m2 sc' = drag_area_m2 sc + sign * d p_drag fst /\
  coeff_drag sc' = coeff_drag sc + sign * d p_drag snd /\
  sc_thruster sc' = sc_thruster sc /\ mode sc' = mode sc /\
  thrust_direction sc' = thrust_direction sc /\ stm sc' = stm sc.

Definition kicked (m : option impulse) (o o' : orbit) : Prop :=
  epoch o' = epoch o /\ frame o' = frame o /\ radius_km o' = radius_km o /\
  velocity_km_s o' = vadd (velocity_km_s o) (match m with Some m => dv_km_s m | None => vzero end).

(** ** Execution in general *)
Lemma bind_ok {E A B} (x : res E A) (f : A -> res E B) y :
  bind x f = Ok y -> exists a, x = Ok a /\ f a = Ok y.
Proof. destruct x; cbn; try discriminate. eauto. Qed.

Section Run.
Context (same_orientation same_origin : nat -> nat -> bool) (translate : orbit -> nat -> option orbit)
        (law_of : steering -> spacecraft -> law)
        (fly : setup -> spacecraft -> Z -> res dyn_error (spacecraft * list spacecraft))
        {config : Type} (s : sequence config) (until : option string).
Notation enter := (enter same_orientation same_origin translate).
Notation run_phases := (run_phases same_orientation same_origin translate law_of fly s until).

(** The setups the sequence flies. *)
Definition flown (su : setup) : Prop :=
  exists name su0, lookup name (prop_setups s) = Some su0 /\
    (su = su0 \/ exists g sc, su = with_guidance su0 g (law_of (steer g) sc)).


(** The thruster of the guidance of the phase is installed. *)
Definition boarded (g : option guidance_config) (a b : spacecraft) : Prop :=
  match g with
  | None => b = a
  | Some gc => exists th, lookup (thruster_model gc) (thruster_sets s) = Some th /\ b = with_thruster a (Some th)
  end.

Context (keep : spacecraft -> spacecraft -> Prop) (link : phase -> spacecraft -> spacecraft -> Prop).
Hypothesis Hfly : forall su sc t s' tr, flown su -> (ep sc < t)%Z -> fly su sc t = Ok (s', tr) ->
  ep s' = t /\ (exists rest, tr = sc :: rest) /\ Traj_Spec.strictly_chronological ep tr /\
  ep (last tr sc) = t /\ keep s' (last tr sc).
Hypothesis Henter : forall ev sc sc', enter ev sc = Ok sc' -> ep sc' = ep sc.
Hypothesis Hkeep : forall a, keep a a.
Hypothesis Hlink : forall name prop g ev dis sc sc0 sc1 b, keep sc sc0 -> ep sc = ep sc0 ->
  enter ev sc = Ok sc1 -> boarded g sc1 b -> link (Activity name prop g ev dis) sc0 b.

Lemma execute_ok prop g sc t r : (ep sc < t)%Z -> execute law_of fly s prop g sc t = Ok r ->
  ep (fst r) = t /\ (exists b rest, boarded g sc b /\ snd r = b :: rest) /\
  Traj_Spec.strictly_chronological ep (snd r) /\
  forall d, ep (last (snd r) d) = t /\ keep (fst r) (last (snd r) d).
Proof.
  intros Ht H. unfold execute in H. destruct (lookup prop (prop_setups s)) as [su|] eqn:Hsu; [|discriminate].
  destruct g as [gc|]; [destruct (lookup (thruster_model gc) (thruster_sets s)) as [th|] eqn:Hth; [|discriminate]|].
  - destruct (fly _ _ t) as [[s' tr]|x| |] eqn:Hf; try discriminate. assert (r = (s', tr)) as -> by congruence.
    apply Hfly in Hf as (F1 & (rest & ->) & F3 & F4 & F5); [|exists prop, su; eauto|exact Ht].
    cbn [fst snd]. split; [exact F1|]. split; [exists (with_thruster sc (Some th)), rest; cbn; eauto|].
    split; [exact F3|]. intros d. rewrite (Prop_Inv.last_default _ d (with_thruster sc (Some th))) by discriminate.
    split; assumption.
  - destruct (fly su sc t) as [[s' tr]|x| |] eqn:Hf; try discriminate. assert (r = (s', tr)) as -> by congruence.
    apply Hfly in Hf as (F1 & (rest & ->) & F3 & F4 & F5); [|exists prop, su; eauto|exact Ht].
    cbn [fst snd]. split; [exact F1|]. split; [exists sc, rest; split; reflexivity|].
    split; [exact F3|]. intros d. rewrite (Prop_Inv.last_default _ d sc) by discriminate. split; assumption.
Qed.

Lemma run_phases_ok l : forall sc sc0 trajs out, ordered l -> Forall (fun e => (ep sc <= fst e)%Z) l ->
  keep sc sc0 -> ep sc = ep sc0 -> run_phases l sc trajs = Ok out ->
  exists pre stop post more, l = pre ++ stop :: post /\ out = trajs ++ more /\
    ends_at until (snd stop) /\ Forall (fun e => ~ ends_at until (snd e)) pre /\
    follow link sc0 (activities pre (fst stop)) more.
Proof.
  induction l as [|[t ph] l IH]; intros sc sc0 trajs out Ho Hle Hk He H; [discriminate|].
  destruct ph as [|name prop g ev dis]; cbn [Seq_Model.run_phases] in H.
  { assert (out = trajs) as -> by congruence.
    exists [], (t, Terminate), l, []. rewrite app_nil_r. repeat split. constructor. }
  destruct (match until with Some target => String.eqb target name | None => false end) eqn:Hu.
  { assert (out = trajs) as -> by congruence.
    exists [], (t, Activity name prop g ev dis), l, []. rewrite app_nil_r. repeat split; [|constructor].
    cbn. destruct until as [u|]; [|discriminate]. apply String.eqb_eq in Hu. now subst. }
  assert (Hn : ~ ends_at until (snd (t, Activity name prop g ev dis))).
  { cbn. intros ->. rewrite String.eqb_refl in Hu. discriminate. }
  apply StronglySorted_inv in Ho as [Ho Hlt]. inversion Hle as [|? ? Hle1 Hle2]; subst.
  destruct dis.
  { destruct (IH sc sc0 trajs out Ho Hle2 Hk He H) as (pre & stop & post & more & -> & -> & E1 & E2 & E3).
    exists ((t, Activity name prop g ev true) :: pre), stop, post, more.
    split; [reflexivity|]. split; [reflexivity|]. split; [exact E1|]. split; [constructor; assumption|].
    unfold activities in *. cbn [map tl fst snd].
    destruct pre as [|e pre]; [exact E3|]. cbn [map app combine filter fst snd enabled negb]. exact E3. }
  apply bind_ok in H as (sc1 & Hen & H). destruct l as [|[t' ph'] l']; [discriminate|].
  apply bind_ok in H as (r & Hex & H).
  assert (Hlt' : (ep sc1 < t')%Z).
  { rewrite (Henter _ _ _ Hen). inversion Hlt as [|? ? L1 L2]; subst. cbn [fst] in *. lia. }
  destruct (execute_ok _ _ _ _ _ Hlt' Hex) as (X1 & (b & rest & X2 & X3) & X4 & X5).
  assert (Hle' : Forall (fun e => (ep (fst r) <= fst e)%Z) ((t', ph') :: l')).
  { rewrite X1. apply StronglySorted_inv in Ho as [_ Hlt2]. constructor; [cbn; lia|].
    eapply Forall_impl; [|exact Hlt2]. cbn. intros e Hlte. lia. }
  destruct (X5 sc0) as [X6 X7].
  destruct (IH (fst r) (last (snd r) sc0) _ out Ho Hle' X7 ltac:(lia) H)
    as (pre & stop & post & more & E0 & -> & E1 & E2 & E3).
  exists ((t, Activity name prop g ev false) :: pre), stop, post, ({| t_name := name; t_states := snd r |} :: more).
  split; [cbn; now rewrite E0|]. split; [now rewrite <- app_assoc|]. split; [exact E1|].
  split; [constructor; assumption|].
  assert (A : activities ((t, Activity name prop g ev false) :: pre) (fst stop) =
              (Activity name prop g ev false, t') :: activities pre (fst stop)).
  { unfold activities. cbn [map tl fst snd].
    destruct pre as [|e pre]; cbn in E0; injection E0 as E0a E0b.
    - subst stop. reflexivity.
    - subst e. cbn [map app combine filter fst snd enabled negb tl]. reflexivity. }
  rewrite A. cbn [follow t_name t_states].
  split; [eauto|]. split; [exists b, rest; split; [exact X3|eapply Hlink; eassumption]|].
  split; [exact X4|]. split; [exact X6|]. exact E3.
Qed.

Lemma propagate_ok sc out : ordered (seq s) ->
  propagate same_orientation same_origin translate law_of fly s until sc = Ok out ->
  exists pre stop post, filter (fun e => (ep sc <=? fst e)%Z) (seq s) = pre ++ stop :: post /\
    ends_at until (snd stop) /\ Forall (fun e => ~ ends_at until (snd e)) pre /\
    follow link sc (activities pre (fst stop)) out.
Proof.
  intros Ho H. unfold propagate in H.
  assert (Ho' : ordered (filter (fun e => (ep sc <=? fst e)%Z) (seq s))).
  { clear - Ho. induction (seq s) as [|e l IH]; cbn [filter]; [constructor|].
    apply StronglySorted_inv in Ho as [Ho Hlt]. destruct (_ <=? _)%Z; [|apply IH, Ho].
    constructor; [apply IH, Ho|]. rewrite Forall_forall in *. intros x Hx. apply filter_In in Hx as [Hx _]. auto. }
  assert (Hle : Forall (fun e => (ep sc <= fst e)%Z) (filter (fun e => (ep sc <=? fst e)%Z) (seq s))).
  { apply Forall_forall. intros e He. apply filter_In in He as [_ He]. now apply Z.leb_le. }
  destruct (run_phases_ok _ sc sc [] out Ho' Hle (Hkeep sc) eq_refl H) as (pre & stop & post & more & E & -> & E1 & E2 & E3).
  exists pre, stop, post. auto.
Qed.
End Run.

(** A guided phase flies the propagator of its name, with its dynamics, method and steps, steered by
    the law of the phase from the spacecraft with the thruster of the phase; the propellant is
    burnt unless the phase says otherwise. An unguided phase flies that propagator as it is. *)
Theorem C45_guided (law_of : steering -> spacecraft -> law)
    (fly : setup -> spacecraft -> Z -> res dyn_error (spacecraft * list spacecraft))
    {config : Type} (s : sequence config) prop g sc t su : lookup prop (prop_setups s) = Some su ->
  exists su' sc',
    match g with
    | None => su' = su /\ sc' = sc
    | Some gc => lookup (thruster_model gc) (thruster_sets s) <> None /\
        sc_thruster sc' = lookup (thruster_model gc) (thruster_sets s) /\
        sc_orbit sc' = sc_orbit sc /\ dry_mass_kg sc' = dry_mass_kg sc /\
        prop_mass_kg sc' = prop_mass_kg sc /\ extra_mass_kg sc' = extra_mass_kg sc /\ mode sc' = mode sc /\
        guid_law (su_dynamics su') = Some (law_of (steer gc) sc') /\
        (decrement_mass (su_dynamics su') = true <-> disable_prop_mass gc = false) /\
        orbital_eom (su_dynamics su') = orbital_eom (su_dynamics su) /\
        orbital_dual (su_dynamics su') = orbital_dual (su_dynamics su) /\
        force_models (su_dynamics su') = force_models (su_dynamics su) /\
        su_method su' = su_method su /\ su_options su' = su_options su /\
        su_init_step su' = su_init_step su /\ su_fixed_step su' = su_fixed_step su
    end /\
    (forall out, execute law_of fly s prop g sc t = Ok out <-> fly su' sc' t = Ok out) /\
    (forall e, execute law_of fly s prop g sc t = Err (FromProp e) <-> fly su' sc' t = Err e)
  \/ exists gc, g = Some gc /\ lookup (thruster_model gc) (thruster_sets s) = None.
Proof.
  intros Hs. destruct g as [gc|].
  - destruct (lookup (thruster_model gc) (thruster_sets s)) as [th|] eqn:Ht.
    + exists (with_guidance su gc (law_of (steer gc) (with_thruster sc (Some th)))), (with_thruster sc (Some th)).
      left. split.
      * split; [discriminate|]. do 7 (split; [reflexivity|]).
        split; [cbn; destruct (disable_prop_mass gc); cbn; intuition discriminate|]. repeat (split; [reflexivity|]). reflexivity.
      * unfold execute. rewrite Hs, Ht. cbv zeta. destruct (fly _ _ t); split; intros x; split; congruence.
    + exists su, sc. right. eauto.
  - exists su, sc. left. split; [split; reflexivity|]. unfold execute. rewrite Hs. cbv zeta.
    destruct (fly _ _ t); split; intros x; split; congruence.
Qed.

(** ** Validation and setup *)
Section Validation.
Context {config : Type} (build : config -> option setup).

(** Every phase refers to a propagator, and to a thruster set if it is guided, that the
    sequence defines. *)
Definition resolved (s : sequence config) (p : phase) : Prop :=
  match p with
  | Terminate => True
  | Activity _ propagator g _ _ =>
      lookup propagator (propagators s) <> None /\
      (forall gc, g = Some gc -> lookup (thruster_model gc) (thruster_sets s) <> None)
  end.

Lemma check_all_spec (s : sequence config) l :
  check_all s l = Ok tt <-> Forall (fun e => resolved s (snd e)) l.
Proof.
  induction l as [|[t p] l IH]; cbn [check_all]; [split; constructor|].
  unfold check_phase. cbn [fst snd]. destruct p as [|name prop g ev dis].
  - cbn [bind]. rewrite IH. split; intros H; [constructor; [exact I|exact H]|now inversion H].
  - destruct (lookup prop (propagators s)) as [cfg|] eqn:Hp.
    + destruct g as [gc|].
      * destruct (lookup (thruster_model gc) (thruster_sets s)) as [th|] eqn:Hth; cbn [bind].
        -- rewrite IH. split; intros H; [constructor; [|exact H]|now inversion H].
           cbn. split; [congruence|]. intros gc' E. assert (gc' = gc) as -> by congruence. congruence.
        -- split; [discriminate|]. intros H. inversion H as [|? ? R0 _]; subst. cbn in R0. exfalso. now apply (proj2 R0 gc).
      * cbn [bind]. rewrite IH. split; intros H; [constructor; [|exact H]|now inversion H].
        cbn. split; [congruence|]. discriminate.
    + cbn [bind]. split; [discriminate|]. intros H. inversion H as [|? ? R0 _]; subst. cbn in R0. now destruct R0.
Qed.

(** A sequence is valid exactly when it does not end with an activity and all its references
    can be resolved. *)
Theorem C45_validate : forall s : sequence config,
  validate s = Ok tt <->
  (forall pre t name prop g ev dis, seq s <> pre ++ [(t, Activity name prop g ev dis)]) /\
  Forall (fun e => resolved s (snd e)) (seq s).
Proof.
  intros s. unfold validate. rewrite <- check_all_spec.
  destruct (seq s) as [|e l _] eqn:Hl using rev_ind.
  - cbn [map last]. split; [|tauto]. intros H. split; [|exact H]. intros pre t name prop g ev dis E.
    destruct pre; discriminate.
  - rewrite map_app. cbn [map]. rewrite last_last. destruct e as [t [|name prop g ev dis]]; cbn [snd].
    + split; [|tauto]. intros H. split; [|exact H]. intros pre t' name prop g ev dis E.
      apply app_inj_tail in E as [_ E]. discriminate.
    + split; [discriminate|]. intros [H _]. exfalso. eapply H. reflexivity.
Qed.

Lemma lookup_snoc {A} k k' (a : A) l :
  lookup k (l ++ [(k', a)]) = match lookup k l with Some x => Some x | None => if String.eqb k k' then Some a else None end.
Proof.
  induction l as [|[k0 a0] l IH]; cbn [lookup app]; [reflexivity|]. destruct (String.eqb k k0); [reflexivity|exact IH].
Qed.

Lemma build_all_ok cfgs l : forall setups setups', build_all build cfgs l setups = Ok setups' ->
  (forall e name prop g ev, In e l -> snd e = Activity name prop g ev false -> lookup prop setups' <> None) /\
  (forall name su, lookup name setups = Some su -> lookup name setups' = Some su) /\
  (forall name su, lookup name setups' = Some su -> lookup name setups = Some su \/
     lookup name setups = None /\ exists cfg, lookup name cfgs = Some cfg /\ build cfg = Some su).
Proof.
  induction l as [|[t p] l IH]; intros setups setups' H; cbn [build_all] in H.
  - assert (setups = setups') as <- by congruence. split; [intros e name prop g ev []|]. auto.
  - destruct p as [|name prop g ev [|]].
    + destruct (IH _ _ H) as (A & B & C). split; [|auto]. intros e n pr g0 ev0 [<-|Hi] E; [discriminate|eauto].
    + destruct (IH _ _ H) as (A & B & C). split; [|auto]. intros e n pr g0 ev0 [<-|Hi] E; [discriminate|eauto].
    + destruct (lookup prop setups) as [su0|] eqn:H0.
      * destruct (IH _ _ H) as (A & B & C). split; [|auto].
        intros e n pr g0 ev0 [<-|Hi] E; [|eauto]. cbn in E. assert (pr = prop) as -> by congruence.
        rewrite (B _ _ H0). discriminate.
      * destruct (lookup prop cfgs) as [cfg|] eqn:Hc; [|discriminate].
        destruct (build cfg) as [su|] eqn:Hb; [|discriminate].
        destruct (IH _ _ H) as (A & B & C).
        assert (P : lookup prop setups' = Some su) by (apply B; now rewrite lookup_snoc, H0, String.eqb_refl).
        split; [|split].
        -- intros e n pr g0 ev0 [<-|Hi] E; [|eauto]. cbn in E. assert (pr = prop) as -> by congruence. congruence.
        -- intros n su' Hn. apply B. now rewrite lookup_snoc, Hn.
        -- intros n su' Hn. apply C in Hn. rewrite lookup_snoc in Hn.
           destruct (lookup n setups) as [x|] eqn:Hx.
           ++ destruct Hn as [Hn|[Hn _]]; [left; exact Hn|discriminate].
           ++ destruct (String.eqb n prop) eqn:Hq.
              ** apply String.eqb_eq in Hq. subst n. right. split; [reflexivity|]. exists cfg.
                 destruct Hn as [Hn|[Hn _]]; [|discriminate]. split; congruence.
              ** destruct Hn as [Hn|[_ Hn]]; [discriminate|]. right. auto.
Qed.

(** Setting a sequence up does not panic, changes no phase, and afterwards every enabled phase
    has a propagator, built from the configuration of that name unless it had already been. *)
Theorem C45_setup : forall s : sequence config,
  setup_sequence build s <> Panic /\
  forall s', setup_sequence build s = Ok s' ->
    validate s = Ok tt /\ seq s' = seq s /\ thruster_sets s' = thruster_sets s /\ propagators s' = propagators s /\
    (forall t name prop g ev, In (t, Activity name prop g ev false) (seq s) -> lookup prop (prop_setups s') <> None) /\
    (forall name su, lookup name (prop_setups s') = Some su ->
       lookup name (prop_setups s) = Some su \/
       lookup name (prop_setups s) = None /\
       exists cfg, lookup name (propagators s) = Some cfg /\ build cfg = Some su).
Proof.
  intros s. split.
  - unfold setup_sequence. destruct (validate s) as [[]|x| |] eqn:Hv; cbn [bind]; try discriminate.
    + pose proof Hv as Hv0. apply C45_validate in Hv as [_ Hr].
      assert (G : forall l setups, Forall (fun e => resolved s (snd e)) l ->
        build_all build (propagators s) l setups <> Panic).
      { induction l as [|[t [|name prop g ev [|]]] l IH]; intros setups H; inversion H as [|? ? H1 H2]; subst; cbn [build_all]; try discriminate; auto.
        destruct (lookup prop setups); [auto|]. cbn in H1. destruct H1 as [H1 _].
        destruct (lookup prop (propagators s)) as [cfg|]; [|contradiction].
        destruct (build cfg); [auto|discriminate]. }
      specialize (G (seq s) (prop_setups s) Hr). destruct (build_all _ _ _ _); cbn; congruence.
    + exfalso. unfold validate in Hv. destruct (last _ _); [|discriminate].
      assert (G : forall l, check_all s l <> Panic).
      { induction l as [|[t [|name prop g ev dis]] l IH]; cbn [check_all]; [discriminate|exact IH|].
        unfold check_phase. cbn [snd fst]. destruct (lookup prop _); [|discriminate].
        destruct g as [gc|]; [destruct (lookup (thruster_model gc) _)|]; cbn [bind]; try discriminate; exact IH. }
      now apply (G (seq s)).
  - intros s' H. unfold setup_sequence in H. apply bind_ok in H as ([] & Hv & H). apply bind_ok in H as (st & Hb & H).
    apply build_all_ok in Hb as (A & _ & C). injection H as <-. cbn.
    repeat split; auto. intros t name prop g ev Hi. exact (A _ _ _ _ _ Hi eq_refl).
Qed.
End Validation.

(** ** A sequence that has been set up does not panic *)
Section Panic.
Context (same_orientation same_origin : nat -> nat -> bool) (translate : orbit -> nat -> option orbit)
        (law_of : steering -> spacecraft -> law)
        (fly : setup -> spacecraft -> Z -> res dyn_error (spacecraft * list spacecraft))
        {config : Type} (s : sequence config) (until : option string).

Theorem C45_no_panic : forall sc,
  validate s = Ok tt -> ordered (seq s) ->
  (forall t name prop g ev, In (t, Activity name prop g ev false) (seq s) -> lookup prop (prop_setups s) <> None) ->
  (exists e, In e (seq s) /\ (ep sc <= fst e)%Z) ->
  (forall su sc t, fly su sc t <> Panic) ->
  propagate same_orientation same_origin translate law_of fly s until sc <> Panic.
Proof.
  intros sc Hv Ho Hs (e0 & He0 & Hle) Hf. apply C45_validate in Hv as [Hlast Hres]. unfold propagate.
  set (l := filter _ (seq s)).
  assert (Hin : incl l (seq s)) by (intros e He; now apply filter_In in He).
  assert (Hend : exists pre t, l = pre ++ [(t, Terminate)]).
  { destruct (seq s) as [|e q _] eqn:Hq using rev_ind; [destruct He0|].
    assert (Ht : exists t, e = (t, Terminate)).
    { destruct e as [t [|name prop g ev dis]]; [eauto|]. exfalso. eapply Hlast. reflexivity. }
    destruct Ht as [t ->].
    assert (Hle' : (ep sc <= t)%Z).
    { apply in_app_or in He0 as [He0|[<-|[]]]; [|exact Hle].
      enough (fst e0 < t)%Z by lia. clear - Ho He0. unfold ordered in Ho. revert Ho. induction q as [|a q IH]; [destruct He0|].
      cbn [app]. intros Ho. apply StronglySorted_inv in Ho as [Ho Hlt]. rewrite Forall_forall in Hlt.
      destruct He0 as [<-|He0]; [|auto]. apply (Hlt (t, Terminate)). apply in_or_app. right. now left. }
    exists (filter (fun e => (epoch (sc_orbit sc) <=? fst e)%Z) q), t. unfold l. rewrite filter_app. f_equal. cbn [filter fst].
    apply Z.leb_le in Hle'. unfold ep in Hle'. now rewrite Hle'. }
  clearbody l. clear Hle He0 e0. generalize (@nil named_traj) as trajs. revert sc.
  destruct Hend as (pre & t & ->). induction pre as [|[t0 p] pre IH]; intros sc trajs; [discriminate|].
  assert (Hin' : incl (pre ++ [(t, Terminate)]) (seq s)) by (intros e He; apply Hin; right; exact He).
  specialize (IH Hin'). cbn [app run_phases]. destruct p as [|name prop g ev dis]; [discriminate|].
  destruct (match until with Some target => String.eqb target name | None => false end); [discriminate|].
  destruct dis; [apply IH|].
  assert (Hen : enter same_orientation same_origin translate ev sc <> Panic).
  { destruct ev as [[m q|m q|f]|]; cbn; try discriminate.
    destruct (negb _ || negb _); [destruct (translate _ f)|]; discriminate. }
  destruct (enter _ _ _ ev sc) as [sc1|x| |]; cbn [bind]; try congruence.
  destruct (pre ++ [(t, Terminate)]) as [|[t1 p1] l'] eqn:El; [destruct pre; discriminate|].
  assert (Hex : execute law_of fly s prop g sc1 t1 <> Panic).
  { unfold execute. specialize (Hs t0 name prop g ev (Hin _ (or_introl eq_refl))).
    destruct (lookup prop (prop_setups s)) as [su|]; [|contradiction].
    rewrite Forall_forall in Hres. specialize (Hres (t0, Activity name prop g ev false) (Hin _ (or_introl eq_refl))). destruct Hres as [_ Hg].
    destruct g as [gc|].
    - specialize (Hg gc eq_refl). destruct (lookup (thruster_model gc) (thruster_sets s)) as [th|]; [|contradiction].
      match goal with |- context [fly ?a ?b ?c] => specialize (Hf a b c); destruct (fly a b c) end; congruence.
    - specialize (Hf su sc1 t1). destruct (fly su sc1 t1); congruence. }
  destruct (execute law_of fly s prop g sc1 t1) as [r|x| |]; cbn [bind]; try discriminate; [apply IH|congruence].
Qed.
End Panic.

(** ** Execution with the propagator of nyx *)
Section Nyx.
Context (same_orientation same_origin : nat -> nat -> bool) (translate : orbit -> nat -> option orbit)
        (evaluate : element -> orbit -> option R) (bplane : orbit -> option (R * R * R))
        (dcm : nat -> orbit -> option m3) (kepler : orbit -> option keplerian)
        (shadows : orbit -> list (option R))
        (of_secs : R -> Z) (transform : orbit -> nat -> res dyn_error orbit)
        (estimate : list R -> list R -> list R -> R) (ops : Traj_Model.state_ops spacecraft nat)
        (arrange : list spacecraft -> list spacecraft) (fuel : nat)
        {config : Type} (s : sequence config) (until : option string).
Notation laws := (law_of evaluate bplane dcm kepler shadows).
Notation fly := (fly_until of_secs transform estimate ops arrange fuel).
Notation env su := (sc_env (su_dynamics su) of_secs transform estimate (su_method su) (su_options su)).
Notation run := (propagate same_orientation same_origin translate laws fly s until).

(** The almanac keeps epochs, the trajectory reads the epoch of the state, and its states may
    be received in any order. *)
Definition ephemerides : Prop :=
  keeps_orbit_epoch transform /\ (forall o f o', translate o f = Some o' -> epoch o' = epoch o) /\
  (forall x, Traj_Model.st_epoch ops x = ep x) /\ (forall l, Permutation l (arrange l)).

(** The propagators of the sequence step forward, and their dynamics, as built, carry no
    guidance law. *)
Definition sound_setups (lo : Z) : Prop :=
  forall name su, lookup name (prop_setups s) = Some su ->
    guid_law (su_dynamics su) = None /\
    forall d sc, Prop_Spec.steps_forward
      (sc_env d of_secs transform estimate (su_method su) (su_options su)) lo (prop_with su sc).

Lemma laws_mode_only st sc : mode_only (laws st sc).
Proof.
  destruct st; [apply mnvr_mode_only|apply kluever_mode_only|apply ruggiero_mode_only].
Qed.

Lemma flown_sound lo su : sound_setups lo -> flown laws s su ->
  (forall g, guid_law (su_dynamics su) = Some g -> mode_only g) /\
  (forall sc, Prop_Spec.steps_forward (env su) lo (prop_with su sc)).
Proof.
  intros Hs (name & su0 & Hl & [->|(g & sc & ->)]); destruct (Hs _ _ Hl) as [H1 H2].
  - split; [congruence|]. intros sc. apply H2.
  - split; [|intros x; apply H2]. cbn. intros l E. assert (l = laws (steer g) sc) as -> by congruence. apply laws_mode_only.
Qed.

Lemma fly_ok lo su sc t s' tr : ephemerides -> (0 <= lo)%Z -> sound_setups lo ->
  flown laws s su -> (ep sc < t)%Z -> fly su sc t = Ok (s', tr) ->
  ep s' = t /\ (exists rest, tr = sc :: rest) /\ Traj_Spec.strictly_chronological ep tr /\
  ep (last tr sc) = t /\ (Prop_Model.integration_frame (su_options su) = None -> s' = last tr sc).
Proof.
  intros (E1 & E2 & E3 & E4) Hlo Hs Hf Ht H. destruct (flown_sound _ _ Hs Hf) as [Hm Hst].
  unfold fly_until in H.
  assert (Hk : Prop_Spec.keeps_epoch (env su)) by now apply env_keeps_epoch.
  assert (Hd : (0 < t - epoch (sc_orbit sc))%Z) by (unfold ep in Ht; lia).
  destruct (Traj_Props.C11_forward_traj _ _ _ _ (env su) ops arrange Hk E3 E4 lo fuel _ (prop_with su sc) s' tr Hlo (Hst sc) Hd H)
    as (T1 & T2 & T3).
  destruct (Event_Props.watched (env su) (Prop_Model.never) fuel (t - epoch (sc_orbit sc)) (prop_with su sc) tt s' Hk ltac:(lia) T3)
    as [(c1 & _ & W & _)|(pre & x & W1 & W2 & W3 & _)]; [discriminate|].
  change (Prop_Model.o_sent (Prop_Model.propagate (env su) Prop_Model.never fuel (t - epoch (sc_orbit sc)) (prop_with su sc) tt))
    with (Prop_Model.o_sent (Prop_Model.for_duration (env su) fuel (t - epoch (sc_orbit sc)) (prop_with su sc))) in W1.
  rewrite W1 in T1. change (Prop_Model.state (prop_with su sc)) with sc in *.
  change (Prop_Model.epoch (env su)) with ep in *. unfold ep at 2 in W2.
  assert (L : last tr sc = x).
  { rewrite T1. change (sc :: pre ++ [x]) with ((sc :: pre) ++ [x]). now rewrite last_last. }
  rewrite L. assert (Ex : ep x = t) by lia.
  split; [|split; [eauto|split; [exact T2|split; [exact Ex|]]]].
  - destruct W3 as [->|(_ & f & W3)]; [exact Ex|].
    pose proof (Prop_Spec.epoch_leave _ Hk _ _ _ W3) as W4. change (ep s' = ep x) in W4. lia.
  - intros Hi. destruct W3 as [W3|(W3 & _)]; [exact W3|contradiction].
Qed.

Lemma enter_epoch ev sc sc' : ephemerides ->
  enter same_orientation same_origin translate ev sc = Ok sc' -> ep sc' = ep sc.
Proof.
  intros (_ & E2 & _) H. destruct ev as [[m p|m p|f]|]; cbn [enter] in H.
  1,2: match type of H with Ok ?x = _ => assert (E : sc' = x) by congruence; rewrite E end; clear;
    unfold change_properties, ep; destruct p as [[[[[a b] c]|] [[d e]|] [[f g]|]]|], m; reflexivity.
  - destruct (negb _ || negb _); [|congruence]. destruct (translate (sc_orbit sc) f) as [o|] eqn:Ht; [|discriminate].
    apply E2 in Ht. assert (sc' = with_orbit sc o) as -> by congruence. exact Ht.
  - congruence.
Qed.

(** A sequence that runs to its end flies the enabled phases in order, from the first phase
    that starts no earlier than the initial state until the first phase that terminates the
    sequence or bears the name asked for.  There is one trajectory per phase, under its name;
    the first begins at the epoch of the initial state, each of the others at the epoch at
    which the previous one ends, and each ends at the epoch of the next phase. *)
Theorem C45_phases : forall lo sc trajs,
  ephemerides -> (0 <= lo)%Z -> sound_setups lo -> ordered (seq s) -> run sc = Ok trajs ->
  exists pre stop post, filter (fun e => (ep sc <=? fst e)%Z) (seq s) = pre ++ stop :: post /\
    ends_at until (snd stop) /\ Forall (fun e => ~ ends_at until (snd e)) pre /\
    follow (fun _ a b => ep a = ep b) sc (activities pre (fst stop)) trajs.
Proof.
  intros lo sc trajs He Hlo Hs Ho H.
  refine (propagate_ok same_orientation same_origin translate laws fly s until (fun _ _ => True)
    (fun _ a b => ep a = ep b) _ _ _ _ sc trajs Ho H).
  - intros su x t s' tr Hf Ht Hr. destruct (fly_ok lo su x t s' tr He Hlo Hs Hf Ht Hr) as (A & B & C & D & _). auto.
  - intros ev a b Hab. eapply enter_epoch; eassumption.
  - auto.
  - intros name prop g ev dis a a0 b c _ Ha Hen Hb. apply enter_epoch in Hen; [|exact He].
    unfold boarded in Hb. destruct g as [gc|]; [destruct Hb as (th & _ & ->); change (ep (with_thruster b (Some th))) with (ep b)|subst c]; lia.
Qed.

(** If no propagator has an integration frame of its own, each trajectory begins with the
    last state of the previous one, changed by the entry event of the phase only (and fitted
    with the thruster of its guidance). *)
Theorem C45_continuity : forall lo sc trajs,
  ephemerides -> (0 <= lo)%Z -> sound_setups lo -> ordered (seq s) ->
  (forall name su, lookup name (prop_setups s) = Some su -> Prop_Model.integration_frame (su_options su) = None) ->
  run sc = Ok trajs ->
  exists pre stop post, filter (fun e => (ep sc <=? fst e)%Z) (seq s) = pre ++ stop :: post /\
    follow (fun p a b => match p with
      | Terminate => False
      | Activity _ _ g ev _ => exists c, enter same_orientation same_origin translate ev a = Ok c /\ boarded s g c b
      end) sc (activities pre (fst stop)) trajs.
Proof.
  intros lo sc trajs He Hlo Hs Ho Hi H.
  destruct (propagate_ok same_orientation same_origin translate laws fly s until eq
    (fun p a b => match p with
      | Terminate => False
      | Activity _ _ g ev _ => exists c, enter same_orientation same_origin translate ev a = Ok c /\ boarded s g c b
      end)) with (sc := sc) (out := trajs) as (pre & stop & post & A & _ & _ & B); try assumption.
  - intros su x t s' tr Hf Ht Hr. destruct (fly_ok lo su x t s' tr He Hlo Hs Hf Ht Hr) as (A & B & C & D & E).
    split; [exact A|]. split; [exact B|]. split; [exact C|]. split; [exact D|]. apply E.
    destruct Hf as (name & su0 & Hl & [->|(g & y & ->)]); cbn; eapply Hi; eassumption.
  - intros ev a b Hab. eapply enter_epoch; eassumption.
  - reflexivity.
  - intros name prop g ev dis a a0 b c -> _ Hen Hb. eauto.
  - exists pre, stop, post. auto.
Qed.

(** A phase without guidance keeps the guidance mode of its first state: a spacecraft handed
    over while thrusting is recorded as thrusting all along. *)
Theorem C45_unguided_mode : forall lo su sc t s' tr,
  ephemerides -> (0 <= lo)%Z -> (ep sc < t)%Z -> guid_law (su_dynamics su) = None ->
  Prop_Spec.steps_forward (env su) lo (prop_with su sc) ->
  fly su sc t = Ok (s', tr) -> Forall (fun x => mode x = mode sc) tr /\ mode s' = mode sc.
Proof.
  intros lo su sc t s' tr (E1 & E2 & E3 & E4) Hlo Ht Hg Hst H. unfold fly_until in H.
  assert (Hk : Prop_Spec.keeps_epoch (env su)) by (apply env_keeps_epoch; [exact E1|congruence]).
  assert (Hd : (0 < t - epoch (sc_orbit sc))%Z) by (unfold ep in Ht; lia).
  destruct (Traj_Props.C11_forward_traj _ _ _ _ (env su) ops arrange Hk E3 E4 lo fuel _ (prop_with su sc) s' tr Hlo Hst Hd H)
    as (T1 & T2 & T3).
  assert (Hfin : forall a b, finally (su_dynamics su) a = Ok b -> mode b = mode a).
  { intros a b F. unfold finally in F. rewrite Hg in F. destruct (Rlt_dec _ 0); [discriminate|].
    assert (b = mut_thrust_direction a None) as -> by congruence. reflexivity. }
  destruct (Prop_Inv.propagate_chain (env su) Prop_Model.never (fun _ => True) (fun a b => mode b = mode a)
    lo fuel (t - epoch (sc_orbit sc)) (prop_with su sc) tt Hk Hlo Hst Hd) as [H1 H2].
  - reflexivity.
  - intros a b c P Q. congruence.
  - intros a b _ F. split; [exact I|]. apply Hfin, F.
  - intros a f b _ F. split; [exact I|]. cbn in F. apply change_frame_body in F as (orb & _ & ->). reflexivity.
  - intros a f b _ F. split; [exact I|]. cbn in F. apply change_frame_body in F as (orb & _ & ->). reflexivity.
  - intros j j' _ F _ _. split; [exact I|]. apply Prop_Inv.single_step_state in F as (i1 & dt & v & _ & F).
    cbn in F. apply Hfin in F. rewrite F. reflexivity.
  - exact I.
  - fold (Prop_Model.for_duration (env su) fuel (t - epoch (sc_orbit sc)) (prop_with su sc)) in H1, H2.
    change (Prop_Model.state (prop_with su sc)) with sc in *.
    set (sent := Prop_Model.o_sent (Prop_Model.for_duration (env su) fuel (t - epoch (sc_orbit sc)) (prop_with su sc))) in *.
    specialize (H2 _ T3). clearbody sent.
    assert (G : forall l x, Prop_Inv.chain (fun a b => mode b = mode a) x l ->
                Forall (fun y => mode y = mode x) l /\ mode (last l x) = mode x).
    { induction l as [|x l IH]; intros y P; cbn [Prop_Inv.chain] in P; [split; [constructor|reflexivity]|].
      destruct P as [Hx Hl]. destruct (IH _ Hl) as [I1 I2]. split.
      - constructor; [exact Hx|]. eapply Forall_impl; [|exact I1]. cbn. intros; congruence.
      - rewrite Event_Props.last_cons. congruence. }
    destruct (G _ _ H1) as [G1 G2]. subst tr. split; [constructor; [reflexivity|exact G1]|]. congruence.
Qed.
End Nyx.

(** ** Discrete events *)
Section Events.
Context (same_orientation same_origin : nat -> nat -> bool) (translate : orbit -> nat -> option orbit).
Notation enter := (enter same_orientation same_origin translate).

Lemma properties_changed op sign p sc : (forall a b, op a b = a + sign * b) ->
  changed sign p sc (change_properties op p sc).
Proof.
  intros H. unfold changed, change_properties.
  destruct p as [[[[[a b] c]|] [[d e]|] [[f g]|]]|]; cbn [p_mass p_srp p_drag fst snd];
    repeat split; cbn; rewrite ?H; try ring.
Qed.

Lemma change_orbit op p sc : sc_orbit (change_properties op p sc) = sc_orbit sc.
Proof. destruct p as [[[[[a b] c]|] [[d e]|] [[f g]|]]|]; reflexivity. Qed.

Lemma impulse_kicks m sc : kicked m (sc_orbit sc) (sc_orbit (apply_impulse m sc)).
Proof.
  destruct m as [m|]; cbn; repeat split. destruct (velocity_km_s (sc_orbit sc)) as [a b c]. unfold vadd, vzero. cbn. f_equal; ring.
Qed.

Lemma changed_from sign p m sc sc' : changed sign p (apply_impulse m sc) sc' -> changed sign p sc sc'.
Proof. destruct m as [m|]; exact (fun H => H). Qed.

(** Entering a phase changes the velocity by the impulse, the masses, areas and coefficients
    by the listed amounts (taken off for a staging, added for a docking), and nothing else. *)
Theorem C68_effect : forall m p sc,
  (exists sc', enter (Some (Staging m p)) sc = Ok sc' /\
     kicked m (sc_orbit sc) (sc_orbit sc') /\ changed (-1) p sc sc') /\
  (exists sc', enter (Some (Docking m p)) sc = Ok sc' /\
     kicked m (sc_orbit sc) (sc_orbit sc') /\ changed 1 p sc sc').
Proof.
  intros m p sc. split; eexists; (split; [reflexivity|]); rewrite change_orbit;
    (split; [apply impulse_kicks|]); eapply changed_from, properties_changed; intros; ring.
Qed.

(** Docking undoes a staging of the same properties with the opposite impulse, and the other
    way round. *)
Theorem C68_round_trip : forall f dv p sc sc' sc'',
  let m := Some {| local_frame := f; dv_km_s := dv |} in
  let back := Some {| local_frame := f; dv_km_s := vscale (-1) dv |} in
  (enter (Some (Staging m p)) sc = Ok sc' -> enter (Some (Docking back p)) sc' = Ok sc'' -> sc'' = sc) /\
  (enter (Some (Docking m p)) sc = Ok sc' -> enter (Some (Staging back p)) sc' = Ok sc'' -> sc'' = sc).
Proof.
  intros f dv p sc sc' sc'' m back. subst m back.
  split; cbn [Seq_Model.enter]; intros H1 H2;
    (match type of H1 with Ok ?x = _ => assert (E1 : sc' = x) by congruence end);
    (match type of H2 with Ok ?x = _ => assert (E2 : sc'' = x) by congruence end);
    clear H1 H2; subst sc' sc''; destruct sc as [[e fr r [vx0 vy0 vz0]] a b c d g h i j k l n], dv as [x y z];
    destruct p as [[[[[? ?] ?]|] [[? ?]|] [[? ?]|]]|]; cbn; unfold with_orbit, with_dv, vadd, vscale; cbn;
    f_equal; try ring; f_equal; try ring; f_equal; ring.
Qed.

(** The local frame of the impulse is not used ... *)
Theorem C68_local_frame_unused : forall f f' dv p sc,
  let m f := Some {| local_frame := f; dv_km_s := dv |} in
  enter (Some (Staging (m f) p)) sc = enter (Some (Staging (m f') p)) sc /\
  enter (Some (Docking (m f) p)) sc = enter (Some (Docking (m f') p)) sc.
Proof. intros. split; reflexivity. Qed.
End Events.

(** ... so that an impulse given in a frame that is not that of the orbit goes elsewhere. *)
Theorem C68_local_frame_refuted : exists (dcm : nat -> orbit -> option m3) m rot sc sc',
  dcm (local_frame m) (sc_orbit sc) = Some rot /\ is_rotation rot /\
  enter Nat.eqb Nat.eqb (fun _ _ => None) (Some (Staging (Some m) None)) sc = Ok sc' /\
  velocity_km_s (sc_orbit sc') <> vadd (velocity_km_s (sc_orbit sc)) (mv rot (dv_km_s m)).
Proof.
  set (rot := matrix3 0 (-1) 0 1 0 0 0 0 1).
  set (sc := Dyn_Props.tug 0 Coast None).
  exists (fun _ _ => Some rot), {| local_frame := 1; dv_km_s := V3 1 0 0 |}, rot, sc. eexists.
  split; [reflexivity|]. split.
  { unfold is_rotation, rot, matrix3, mm, transpose, identity3, det3, matrix3, col0, col1, col2, dot, cross. cbn.
    split; [repeat f_equal; ring|split; [repeat f_equal; ring|ring]]. }
  split; [reflexivity|].
  cbn [apply_impulse change_properties with_orbit sc_orbit with_dv velocity_km_s dv_km_s].
  intros H. apply (f_equal vx) in H. revert H. unfold mv, rot, matrix3, dot, vadd. cbn. intros H. lra.
Qed.

(** Staging more mass than there is goes through and leaves a negative mass. *)
Theorem C68_negative_mass_refuted : exists m p sc sc',
  0 < dry_mass_kg sc /\ enter Nat.eqb Nat.eqb (fun _ _ => None) (Some (Staging m p)) sc = Ok sc' /\ dry_mass_kg sc' < 0.
Proof.
  set (sc := Dyn_Props.tug 0 Coast None).
  exists None, (Some {| p_mass := Some (dry_mass_kg sc + 1, 0, 0); p_srp := None; p_drag := None |}), sc. eexists.
  split; [unfold sc; cbn; lra|]. split; [reflexivity|]. cbn [change_properties apply_impulse p_mass p_srp p_drag dry_mass_kg]. lra.
Qed.

(** Docking then staging the same stage, with an impulse. *)
Example C68_case :
  let m := {| local_frame := 0; dv_km_s := V3 0 (1/10) 0 |} in
  let p := {| p_mass := Some (30, 5, 1); p_srp := Some (2, 1/10); p_drag := None |} in
  let sc := Dyn_Props.tug 0 Coast None in
  exists sc', enter Nat.eqb Nat.eqb (fun _ _ => None) (Some (Docking (Some m) (Some p))) sc = Ok sc' /\
    dry_mass_kg sc' = 130 /\ prop_mass_kg sc' = 55 /\ extra_mass_kg sc' = 1 /\ vy (velocity_km_s (sc_orbit sc')) = 7 + 1/10.
Proof.
  eexists. split; [reflexivity|]. unfold Dyn_Props.tug, apply_impulse, change_properties, with_dv, with_orbit, vadd. cbn.
  repeat split; lra.
Qed.

Print Assumptions C45_validate.
Print Assumptions C45_setup.
Print Assumptions C45_no_panic.
Print Assumptions C45_phases.
Print Assumptions C45_continuity.
Print Assumptions C45_unguided_mode.
Print Assumptions C45_guided.
Print Assumptions C68_effect.
Print Assumptions C68_round_trip.
Print Assumptions C68_local_frame_unused.
Print Assumptions C68_local_frame_refuted.
Print Assumptions C68_negative_mass_refuted.
