(** What accelerates a spacecraft (C44) and how long an impulsive maneuver burns (C40). *)
From Coq Require Import Reals ZArith Lra.
From Verif Require Import Base Vec3 Angles Sc_Model Guid_Model Guid_Props Guid_Mnvr Dyn_Model Dyn_Proofs Dyn_Step Dyn_Props.
From Verif Require Prop_Examples.
Local Open Scope R_scope.

(** ** C44: every force acts, with or without the state transition matrix *)

(** The sum of a list of forces. *)
Fixpoint total (l : list v3) : v3 :=
  match l with [] => vzero | f :: l' => vadd f (total l') end.

(** The forces [fs] are those of the models [l] on a spacecraft, one for each, in order. *)
Definition forces (l : list force_model) (sc : spacecraft) (fs : list v3) : Prop :=
  Forall2 (fun m f => f_eom m sc = Ok f) l fs.
Definition gradient_forces (l : list force_model) (sc : spacecraft) (fs : list v3) : Prop :=
  Forall2 (fun m f => exists g, f_gradient m sc = Ok (f, g)) l fs.

Lemma add_forces_total l sc : forall acc a, add_forces l sc acc = Ok a ->
  exists fs, forces l sc fs /\ a = vadd acc (vscale (/ mass_kg sc) (total fs)).
Proof.
  induction l as [|m l IH]; intros acc a H; cbn [add_forces] in H.
  - exists []. split; [constructor|].
    assert (a = acc) as -> by congruence.
    destruct acc as [x y z]. unfold vadd, vscale, vzero; cbn [total vx vy vz].
    unfold vzero; cbn [vx vy vz]. f_equal; ring.
  - destruct (f_eom m sc) as [f|x| |] eqn:F; cbn [bind] in H; try discriminate.
    destruct (IH _ _ H) as (fs & A & ->). exists (f :: fs).
    split; [constructor; assumption|]. cbn [total].
    destruct acc as [x y z], f as [p q r], (total fs) as [u v w].
    unfold vadd, vscale; cbn [vx vy vz]. f_equal; ring.
Qed.

Lemma add_gradients_total l sc : forall acc g a g', add_gradients l sc acc g = Ok (a, g') ->
  exists fs, gradient_forces l sc fs /\ a = vadd acc (vscale (/ mass_kg sc) (total fs)).
Proof.
  induction l as [|m l IH]; intros acc g a g' H; cbn [add_gradients] in H.
  - exists []. split; [constructor|].
    assert (a = acc) as -> by congruence.
    destruct acc as [x y z]. unfold vadd, vscale, vzero; cbn [total vx vy vz].
    unfold vzero; cbn [vx vy vz]. f_equal; ring.
  - destruct (f_gradient m sc) as [[f mg]|x| |] eqn:F; cbn [bind fst snd] in H; try discriminate.
    destruct (IH _ _ _ _ H) as (fs & A & ->). exists (f :: fs).
    split; [constructor; [now exists mg|assumption]|]. cbn [total].
    destruct acc as [x y z], f as [p q r], (total fs) as [u v w].
    unfold vadd, vscale; cbn [vx vy vz]. f_equal; ring.
Qed.

(** The equations of motion of a spacecraft without guidance: the position changes at the
    velocity given by the orbital dynamics, and the acceleration is that of the orbital
    dynamics plus the sum of the forces of every force model over the mass of the spacecraft.
    Without a state transition matrix the forces are those of [eom], with one those of the
    gradients. *)
Theorem C44_forces : forall of_secs d dt v ctx k, guid_law d = None ->
  eom of_secs d dt v ctx = Ok k ->
  let osc := at_stage of_secs ctx dt v in
  exists vel acc fs,
    match stm ctx with
    | None => orbital_eom d (sc_orbit osc) = Ok (vel, acc) /\ forces (force_models d) osc fs
    | Some _ => (exists g, orbital_dual d (sc_orbit osc) = Ok (vel, acc, g)) /\
                gradient_forces (force_models d) osc fs
    end /\
    V3 (nth 0 k 0) (nth 1 k 0) (nth 2 k 0) = vel /\
    acceleration k = vadd acc (vscale (/ mass_kg osc) (total fs)).
Proof.
  intros of_secs d dt v ctx k Hg H osc. subst osc.
  destruct (eom_inv _ _ _ _ _ _ H) as (dr & dv & dstm & f & rate & Hn & Hc & ->).
  rewrite Hg in Hc. destruct Hc as [-> ->].
  set (osc := at_stage of_secs ctx dt v) in *.
  assert (Z : vadd dv (vscale (/ mass_kg osc) vzero) = dv).
  { destruct dv as [x y z]. unfold vadd, vscale, vzero; cbn [vx vy vz]. f_equal; ring. }
  cbv zeta. rewrite Z. unfold acceleration. cbn [app nth].
  unfold natural_eom in Hn. destruct (stm ctx) as [M|].
  - unfold dual_eom in Hn. rewrite Hg in Hn.
    destruct (orbital_dual d (sc_orbit osc)) as [[[vel acc] g]|x| |] eqn:O; cbn [bind] in Hn;
      try discriminate.
    destruct (add_gradients (force_models d) osc acc (corner6 g)) as [[a g']|x| |] eqn:A;
      cbn [bind fst snd] in Hn; try discriminate.
    destruct (add_gradients_total _ _ _ _ _ _ A) as (fs & F & E).
    exists vel, acc, fs. split; [split; [now exists g|exact F]|].
    assert (dr = vel /\ dv = a) as [-> ->] by (split; congruence).
    destruct vel as [v0 v1 v2], a as [a0 a1 a2]. cbn [vx vy vz]. split; [reflexivity|]. exact E.
  - destruct (orbital_eom d (sc_orbit osc)) as [[vel acc]|x| |] eqn:O; cbn [bind fst snd] in Hn;
      try discriminate.
    destruct (add_forces (force_models d) osc acc) as [a|x| |] eqn:A; cbn [bind] in Hn;
      try discriminate.
    destruct (add_forces_total _ _ _ _ A) as (fs & F & E).
    exists vel, acc, fs. split; [split; [reflexivity|exact F]|].
    assert (dr = vel /\ dv = a) as [-> ->] by (split; congruence).
    destruct vel as [v0 v1 v2], a as [a0 a1 a2]. cbn [vx vy vz]. split; [reflexivity|]. exact E.
Qed.

(** The values of the derivatives of the models are those of the models. *)
Definition consistent (d : dynamics) : Prop :=
  (forall o v a g, orbital_dual d o = Ok (v, a, g) -> orbital_eom d o = Ok (v, a)) /\
  (forall m sc f g, In m (force_models d) -> f_gradient m sc = Ok (f, g) -> f_eom m sc = Ok f).

Lemma forces_unique l sc fs gs : forces l sc fs -> forces l sc gs -> fs = gs.
Proof.
  intros A. revert gs. induction A as [|m f l fs E A IH]; intros gs B; inversion B; subst.
  - reflexivity.
  - f_equal; [congruence|]. now apply IH.
Qed.

Lemma gradient_forces_forces sc : forall l fs,
  (forall m f g, In m l -> f_gradient m sc = Ok (f, g) -> f_eom m sc = Ok f) ->
  gradient_forces l sc fs -> forces l sc fs.
Proof.
  intros l fs C A. induction A as [|m f l fs (g & E) A IH]; [constructor|].
  constructor.
  - apply (C m f g); [now left|exact E].
  - apply IH. intros m' f' g' I. apply C. now right.
Qed.

Lemma nth_firstn9 (v v' : list R) : firstn 9 v = firstn 9 v' ->
  forall i, (i < 9)%nat -> nth i v 0 = nth i v' 0.
Proof.
  intros E i I.
  assert (N : forall w : list R, nth i w 0 = nth i (firstn 9 w) 0).
  { intros w. revert I. generalize 9%nat. clear E. revert w. induction i as [|i IH]; intros w [|n] I; try lia;
      destruct w as [|x w]; cbn [firstn nth]; try reflexivity. apply IH. lia. }
  rewrite (N v), (N v'), E. reflexivity.
Qed.

(** Estimating with a state transition matrix does not change the motion: for models whose
    derivatives agree with their values and which do not read the state transition matrix,
    the derivative of the orbit is the same with a state transition matrix as without. *)
Theorem C53_same_motion : forall of_secs d dt v v' ctx M k k', guid_law d = None ->
  consistent d ->
  (forall m sc x, In m (force_models d) -> f_eom m (with_stm_value sc x) = f_eom m sc) ->
  firstn 9 v = firstn 9 v' ->
  eom of_secs d dt v (with_stm_value ctx None) = Ok k ->
  eom of_secs d dt v' (with_stm_value ctx (Some M)) = Ok k' ->
  firstn 9 k = firstn 9 k'.
Proof.
  intros of_secs d dt v v' ctx M k k' G [C1 C2] B E H H'.
  pose proof (nth_firstn9 v v' E) as N.
  assert (S : at_stage of_secs (with_stm_value ctx None) dt v
              = with_stm_value (at_stage of_secs (with_stm_value ctx (Some M)) dt v') None).
  { unfold at_stage, set, with_stm_value.
    cbn [stm sc_orbit dry_mass_kg prop_mass_kg extra_mass_kg srp_area_m2 coeff_reflectivity drag_area_m2
         coeff_drag sc_thruster mode thrust_direction].
    rewrite !N by lia. reflexivity. }
  destruct (C44_forces _ _ _ _ _ _ G H) as (vel & acc & fs & A1 & A2 & A3).
  destruct (C44_forces _ _ _ _ _ _ G H') as (vel' & acc' & fs' & A1' & A2' & A3').
  cbn [with_stm_value stm] in A1, A1'.
  fold (with_stm_value ctx None) in A1. fold (with_stm_value ctx (Some M)) in A1'.
  rewrite S in A1, A3. set (osc := at_stage of_secs (with_stm_value ctx (Some M)) dt v') in *.
  destruct A1 as [O F], A1' as [[g O'] F'].
  change (sc_orbit (with_stm_value osc None)) with (sc_orbit osc) in O.
  change (mass_kg (with_stm_value osc None)) with (mass_kg osc) in A3.
  rewrite (C1 _ _ _ _ O') in O. assert (vel = vel' /\ acc = acc') as [-> ->] by (split; congruence).
  assert (fs = fs') as ->.
  { apply (forces_unique (force_models d) osc).
    - clear -F B. induction F as [|m f l fs X F IH]; [constructor|]. constructor.
      + rewrite <- X. symmetry. apply B. now left.
      + apply IH. intros m' sc x I. apply B. now right.
    - apply gradient_forces_forces; [|exact F']. intros m f g' I. apply C2. exact I. }
  destruct (eom_inv _ _ _ _ _ _ H) as (dr & dv & ds & f & r & _ & R1 & ->).
  destruct (eom_inv _ _ _ _ _ _ H') as (dr' & dv' & ds' & f' & r' & _ & R1' & ->).
  rewrite G in R1, R1'. destruct R1 as [-> ->], R1' as [-> ->].
  revert A2 A3 A2' A3'. cbv zeta. unfold acceleration. cbn [app nth firstn].
  intros A2 A3 A2' A3'. rewrite <- A3 in A3'. rewrite <- A2 in A2'.
  assert (P : forall a b c a' b' c', V3 a b c = V3 a' b' c' -> a = a' /\ b = b' /\ c = c').
  { intros a b c a' b' c' X. inversion X. auto. }
  apply P in A2' as (-> & -> & ->). apply P in A3' as (-> & -> & ->). reflexivity.
Qed.

(** A force model of constant force, on top of a free motion. *)
Definition push (f : v3) : force_model :=
  {| f_eom := fun _ => Ok f; f_gradient := fun _ => Ok (f, fun _ _ => 0); estimation_index := None |}.
Definition pushed : dynamics :=
  {| orbital_eom := orbital_eom (free None); orbital_dual := orbital_dual (free None);
     force_models := [push (V3 150 0 0); push (V3 0 300 0)]; guid_law := None; decrement_mass := true |}.

Lemma tug_massive md m dt v : nth 8 v 0 = 50 ->
  mass_kg (at_stage Prop_Examples.trunc_secs (tug 0 md m) dt v) = 150.
Proof. intros E. unfold mass_kg, at_stage, set, tug. cbn [dry_mass_kg prop_mass_kg extra_mass_kg]. rewrite E. lra. Qed.

(** Two forces on 150 kg, with and without a state transition matrix. *)
Example forces_case :
  guid_law pushed = None /\ consistent pushed /\
  (forall m sc x, In m (force_models pushed) -> f_eom m (with_stm_value sc x) = f_eom m sc) /\
  (exists k, eom Prop_Examples.trunc_secs pushed 0 (to_vector (tug 0 Coast None)) (tug 0 Coast None) = Ok k /\
     acceleration k = V3 1 2 0) /\
  exists k, eom Prop_Examples.trunc_secs pushed 0 (to_vector (tug 0 Coast (Some identity9)))
    (tug 0 Coast (Some identity9)) = Ok k /\ acceleration k = V3 1 2 0.
Proof.
  split; [reflexivity|]. split.
  { split.
    - intros o v a g. cbn. intros H. congruence.
    - intros m sc f g [<-|[<-|[]]]; cbn; intros H; congruence. }
  split. { intros m sc x [<-|[<-|[]]]; reflexivity. }
  split.
  - unfold eom. fold (at_stage Prop_Examples.trunc_secs (tug 0 Coast None) 0 (to_vector (tug 0 Coast None))).
    rewrite tug_massive by reflexivity.
    destruct (Rlt_dec 0 150) as [_|X]; [|lra]. cbn [pushed force_models orb].
    unfold natural_eom. change (stm (tug 0 Coast None)) with (@None (list R)).
    cbn [pushed orbital_eom free bind force_models add_forces push f_eom guid_law fst snd].
    rewrite tug_massive by reflexivity.
    eexists. split; [reflexivity|]. unfold acceleration, vadd, vscale, vzero.
    cbn [app nth vx vy vz]. f_equal; lra.
  - unfold eom. fold (at_stage Prop_Examples.trunc_secs (tug 0 Coast (Some identity9)) 0 (to_vector (tug 0 Coast (Some identity9)))).
    rewrite tug_massive by reflexivity.
    destruct (Rlt_dec 0 150) as [_|X]; [|lra]. cbn [pushed force_models orb].
    unfold natural_eom. change (stm (tug 0 Coast (Some identity9))) with (Some identity9).
    unfold dual_eom.
    cbn [pushed orbital_dual free bind force_models add_gradients push f_gradient guid_law fst snd].
    rewrite tug_massive by reflexivity.
    eexists. split; [reflexivity|]. unfold acceleration, vadd, vscale, vzero.
    cbn [app nth vx vy vz]. f_equal; lra.
Qed.

(** ** C40: the burn of an impulsive maneuver *)

(** A spacecraft is put in thrust mode by an impulsive maneuver during the millisecond after
    its date, at full throttle and along the vector given. *)
Theorem C40_impulsive : forall dcm dt dv f sc sc',
  let m := from_impulsive dt dv f in
  next (mnvr_law dcm m) sc = Ok sc' ->
  (mode sc' = Thrust <-> (dt <= epoch (sc_orbit sc) <= dt + 1000000)%Z) /\
  m_vector m (epoch (sc_orbit sc)) = Ok dv /\
  (mode sc' = Thrust -> throttle (mnvr_law dcm m) sc' = Ok 1).
Proof.
  intros dcm dt dv f sc sc' m H.
  change (mnvr_next m sc = Ok sc') in H. unfold mnvr_next in H.
  assert (sc' = mut_mode sc (if (m_start m <=? epoch (sc_orbit sc))%Z && (epoch (sc_orbit sc) <=? m_end m)%Z
                             then Thrust else Coast)) as -> by congruence.
  unfold mut_mode. cbn [mode].
  change (m_start m) with dt. change (m_end m) with (dt + 1000000)%Z.
  split; [|split].
  - destruct (Z.leb_spec dt (epoch (sc_orbit sc))), (Z.leb_spec (epoch (sc_orbit sc)) (dt + 1000000));
      cbn [andb]; split; intros X; try discriminate; try reflexivity; lia.
  - reflexivity.
  - intros X. unfold mnvr_law. cbn [throttle]. unfold mnvr_throttle. cbn [mode]. rewrite X. reflexivity.
Qed.

(** Half a millisecond after its date an impulsive maneuver burns, two milliseconds after it
    does not. *)
Example impulsive_case :
  let m := from_impulsive 0 (V3 1 0 0) INERTIAL in
  (exists sc', next (mnvr_law no_dcm m) (tug 500000 Coast None) = Ok sc' /\ mode sc' = Thrust) /\
  exists sc', next (mnvr_law no_dcm m) (tug 2000000 Coast None) = Ok sc' /\ mode sc' = Coast.
Proof. split; eexists; split; reflexivity. Qed.

Print Assumptions C44_forces.
Print Assumptions C53_same_motion.
Print Assumptions C40_impulsive.
