(** Properties of the guidance laws: when the closed-loop laws thrust (C42), the angle
    conversions (C43), what their directions do to the orbit (C64), the efficiencies of the
    Ruggiero law (C65), and the setters of a maneuver (C66). *)
From Coq Require Import Reals Lra.
From Verif Require Import Base RustStd Vec3 Angles Poly_Model Sc_Model Guid_Model Guid_Spec Guid_Steer.
Local Open Scope R_scope.

(** ** C43: angles and directions *)

Theorem C43_plane_angles_unit : forall alpha beta,
  norm (unit_vector_from_plane_angles alpha beta) = 1.
Proof.
  intros a b. unfold norm, dot, unit_vector_from_plane_angles. cbn [vx vy vz].
  pose proof (trig2 a) as Ta. pose proof (trig2 b) as Tb.
  replace (sin a * cos b * (sin a * cos b) + cos a * cos b * (cos a * cos b) + sin b * sin b) with 1.
  - apply sqrt_1.
  - transitivity ((sin a * sin a + cos a * cos a) * (cos b * cos b) + sin b * sin b); [|ring].
    rewrite Ta, Tb. ring.
Qed.

Theorem C43_ra_dec_unit : forall alpha delta, norm (unit_vector_from_ra_dec alpha delta) = 1.
Proof.
  intros a b. unfold norm, dot, unit_vector_from_ra_dec. cbn [vx vy vz].
  pose proof (trig2 a) as Ta. pose proof (trig2 b) as Tb.
  replace (cos b * cos a * (cos b * cos a) + cos b * sin a * (cos b * sin a) + sin b * sin b) with 1.
  - apply sqrt_1.
  - transitivity ((sin a * sin a + cos a * cos a) * (cos b * cos b) + sin b * sin b); [|ring].
    rewrite Ta, Tb. ring.
Qed.

Lemma unit_dot v : norm v = 1 -> vx v * vx v + vy v * vy v + vz v * vz v = 1.
Proof. intros H. pose proof (norm_sqr v) as Hs. rewrite H in Hs. unfold dot in Hs. lra. Qed.

Lemma asin_unit v : norm v = 1 ->
  sin (asin (vz v)) = vz v /\ cos (asin (vz v)) = sqrt (vx v * vx v + vy v * vy v).
Proof.
  intros H. apply unit_dot in H. assert (Hz : -1 <= vz v <= 1) by nra.
  split; [apply sin_asin; lra|]. rewrite cos_asin by lra. f_equal. unfold Rsqr. lra.
Qed.

Lemma polar_back v :
  cos (atan2 (vy v) (vx v)) * sqrt (vx v * vx v + vy v * vy v) = vx v /\
  sin (atan2 (vy v) (vx v)) * sqrt (vx v * vx v + vy v * vy v) = vy v.
Proof.
  destruct (Req_dec (vx v) 0) as [Ex|Ex].
  - destruct (Req_dec (vy v) 0) as [Ey|Ey].
    + rewrite Ex, Ey. replace (0 * 0 + 0 * 0) with 0 by ring. rewrite sqrt_0. lra.
    + apply atan2_spec; auto.
  - apply atan2_spec; auto.
Qed.

Theorem C43_ra_dec_roundtrip : forall v alpha delta, norm v = 1 ->
  ra_dec_from_unit_vector v = (alpha, delta) ->
  unit_vector_from_ra_dec alpha delta = v /\
  - PI < alpha <= PI /\ - (PI / 2) <= delta <= PI / 2.
Proof.
  intros v a d Hn E. unfold ra_dec_from_unit_vector in E.
  assert (Ea : a = atan2 (vy v) (vx v)) by congruence. assert (Ed : d = asin (vz v)) by congruence.
  subst a d. destruct (asin_unit _ Hn) as [Hs Hc]. destruct (polar_back v) as [P1 P2].
  split; [|split; [apply atan2_bounds|apply asin_bound]].
  unfold unit_vector_from_ra_dec. rewrite Hs, Hc.
  apply v3_eq; cbn [vx vy vz]; [rewrite Rmult_comm; exact P1|rewrite Rmult_comm; exact P2|reflexivity].
Qed.

(** The other way around, away from the poles. *)
Theorem C43_ra_dec_angles : forall alpha delta, - PI < alpha <= PI -> - (PI / 2) < delta < PI / 2 ->
  ra_dec_from_unit_vector (unit_vector_from_ra_dec alpha delta) = (alpha, delta).
Proof.
  intros a d Ha Hd. unfold ra_dec_from_unit_vector, unit_vector_from_ra_dec. cbn [vx vy vz].
  rewrite atan2_polar; [|apply cos_gt_0; lra|lra]. rewrite asin_sin by lra. reflexivity.
Qed.

(** For the in-plane and out-of-plane angles the first two components come back swapped. *)
Theorem C43_plane_angles_swapped : forall v alpha beta, norm v = 1 ->
  plane_angles_from_unit_vector v = (alpha, beta) ->
  unit_vector_from_plane_angles alpha beta = V3 (vy v) (vx v) (vz v).
Proof.
  intros v a d Hn E. unfold plane_angles_from_unit_vector in E.
  assert (Ea : a = atan2 (vy v) (vx v)) by congruence. assert (Ed : d = asin (vz v)) by congruence.
  subst a d. destruct (asin_unit _ Hn) as [Hs Hc]. destruct (polar_back v) as [P1 P2].
  unfold unit_vector_from_plane_angles. rewrite Hs, Hc.
  apply v3_eq; cbn [vx vy vz]; auto.
Qed.

Theorem C43_plane_angles_roundtrip_refuted : exists v alpha beta,
  norm v = 1 /\ plane_angles_from_unit_vector v = (alpha, beta) /\
  unit_vector_from_plane_angles alpha beta <> v.
Proof.
  assert (Hn : norm (V3 1 0 0) = 1).
  { unfold norm, dot. cbn [vx vy vz]. replace (1 * 1 + 0 * 0 + 0 * 0) with 1 by ring. apply sqrt_1. }
  exists (V3 1 0 0). eexists. eexists. split; [exact Hn|]. split; [reflexivity|].
  intros H. rewrite (C43_plane_angles_swapped _ _ _ Hn eq_refl) in H.
  apply (f_equal vx) in H. cbn in H. lra.
Qed.

Example C43_unit_exists : norm (V3 (3/5) 0 (4/5)) = 1.
Proof.
  unfold norm, dot. cbn [vx vy vz]. replace (3/5 * (3/5) + 0 * 0 + 4/5 * (4/5)) with 1 by field.
  apply sqrt_1.
Qed.

Section Laws.
Context (evaluate : element -> orbit -> option R)
        (bplane : orbit -> option (R * R * R))
        (dcm_to_inertial : nat -> orbit -> option m3)
        (kepler : orbit -> option keplerian)
        (shadows : orbit -> list (option R)).
Notation value := (value evaluate bplane dcm_to_inertial).
Notation kluever_next := (kluever_next evaluate bplane dcm_to_inertial shadows).
Notation ruggiero_next := (ruggiero_next evaluate bplane dcm_to_inertial shadows).
Notation all_achieved := (all_achieved evaluate bplane dcm_to_inertial).

(** ** C42: when the closed-loop laws thrust *)

(** The error of the objective is within its tolerance. *)
Definition met (sc : spacecraft) (o : objective) : Prop :=
  exists v, value sc (obj_parameter o) = Ok v /\
    Rabs (multiplicative_factor o * (desired_value o - v) + additive_factor o) <= obj_tolerance o.

(** Some body hides more than [limit] percent of the Sun. *)
Definition shaded (o : orbit) (limit : R) : Prop := exists p, In (Some p) (shadows o) /\ limit < p.

Lemma all_achieved_spec sc l b : all_achieved l sc = Ok b -> (b = true <-> Forall (met sc) l).
Proof.
  induction l as [|o l IH]; cbn [Guid_Model.all_achieved].
  - intros H. assert (b = true) as -> by congruence. split; [constructor|reflexivity].
  - destruct (value sc (obj_parameter o)) as [v|x| |] eqn:Hv; try discriminate.
    unfold assess_value. cbn [fst]. destruct (Rle_dec _ _) as [Hle|Hgt].
    + intros H. rewrite (IH H). split; intros F.
      * constructor; [exists v; auto|exact F].
      * inversion F; assumption.
    + intros H. assert (b = false) as -> by congruence. split; [discriminate|].
      intros F. inversion F as [|? ? (v' & Hv' & Hm) ?]; subst. rewrite Hv in Hv'.
      assert (v = v') as <- by congruence. contradiction.
Qed.

Lemma eclipse_over_spec l : forall acc pct limit, eclipse_over l acc = Some pct ->
  (limit < pct <-> limit < acc \/ exists p, In (Some p) l /\ limit < p).
Proof.
  induction l as [|[p|] l IH]; intros acc pct limit; cbn [eclipse_over]; try discriminate.
  - intros H. assert (acc = pct) as <- by congruence. split; [auto|].
    intros [A|(p & F & _)]; [exact A|destruct F].
  - intros H. rewrite (IH _ _ limit H). destruct (Rlt_dec acc p) as [A|A].
    + split.
      * intros [B|(q & F & B)]; [right; exists p; cbn; auto|right; exists q; cbn; auto].
      * intros [B|(q & [F|F] & B)].
        -- left. lra.
        -- left. assert (p = q) as -> by congruence. exact B.
        -- right. exists q. auto.
    + split.
      * intros [B|(q & F & B)]; [auto|right; exists q; cbn; auto].
      * intros [B|(q & [F|F] & B)]; [auto| |right; exists q; auto].
        left. assert (p = q) as -> by congruence. lra.
Qed.

Lemma eclipse_spec o pct limit : 0 <= limit -> eclipse_percentage shadows o = Some pct ->
  (limit < pct <-> shaded o limit).
Proof.
  intros Hl H. unfold eclipse_percentage in H. rewrite (eclipse_over_spec _ _ _ limit H).
  split; [intros [A|A]; [lra|exact A]|auto].
Qed.

Theorem C42_kluever_mode : forall kl sc sc',
  (forall limit, kl_max_eclipse kl = Some limit -> 0 <= limit) ->
  mode sc <> Inhibit -> kluever_next kl sc = Ok sc' ->
  sc' = mut_mode sc (mode sc') /\
  (mode sc' = Coast <->
     Forall (met sc) (map fst (kl_objectives kl)) \/
     exists limit, kl_max_eclipse kl = Some limit /\ shaded (sc_orbit sc) limit) /\
  (mode sc' = Thrust <-> mode sc' <> Coast).
Proof.
  intros kl sc sc' Hl Hm. unfold Guid_Model.kluever_next.
  assert (G : forall b, all_achieved (map fst (kl_objectives kl)) sc = Ok b ->
     forall m, mut_mode sc m = sc' -> mode sc' = m /\ sc' = mut_mode sc (mode sc')).
  { intros b _ m <-. split; reflexivity. }
  intros H.
  assert (H' : match all_achieved (map fst (kl_objectives kl)) sc with
    | Ok false => match kl_max_eclipse kl with
        | Some me => match eclipse_percentage shadows (sc_orbit sc) with
            | None => Panic | Some pct =>
              if Rlt_dec me pct then Ok (mut_mode sc Coast) else Ok (mut_mode sc Thrust) end
        | None => Ok (mut_mode sc Thrust) end
    | Ok true => Ok (mut_mode sc Coast)
    | _ => Panic end = Ok (E := guid_error) sc') by (destruct (mode sc); [exact H|exact H|congruence]).
  clear H. rename H' into H.
  destruct (all_achieved (map fst (kl_objectives kl)) sc) as [b|x| |] eqn:Ha; try discriminate.
  pose proof (all_achieved_spec _ _ _ Ha) as Hs. specialize (G b eq_refl). destruct b.
  - assert (E : mut_mode sc Coast = sc') by congruence. destruct (G _ E) as [G1 G2].
    split; [exact G2|]. rewrite G1. split; [|split; [discriminate|congruence]].
    split; [intros _; left; apply Hs; reflexivity|reflexivity].
  - assert (Hn : ~ Forall (met sc) (map fst (kl_objectives kl))).
    { intros F. apply Hs in F. discriminate. }
    destruct (kl_max_eclipse kl) as [limit|] eqn:He.
    + destruct (eclipse_percentage shadows (sc_orbit sc)) as [pct|] eqn:Hp; [|discriminate].
      pose proof (eclipse_spec _ _ _ (Hl _ eq_refl) Hp) as Hsp.
      destruct (Rlt_dec limit pct) as [A|A].
      * assert (E : mut_mode sc Coast = sc') by congruence. destruct (G _ E) as [G1 G2].
        split; [exact G2|]. rewrite G1. split; [|split; [discriminate|congruence]].
        split; [intros _; right; exists limit; split; [reflexivity|apply Hsp, A]|reflexivity].
      * assert (E : mut_mode sc Thrust = sc') by congruence. destruct (G _ E) as [G1 G2].
        split; [exact G2|]. rewrite G1. split; [|split; [discriminate|reflexivity]].
        split; [discriminate|]. intros [B|(l' & B & C)]; [contradiction|].
        assert (limit = l') as <- by congruence. apply Hsp in C. contradiction.
    + assert (E : mut_mode sc Thrust = sc') by congruence. destruct (G _ E) as [G1 G2].
      split; [exact G2|]. rewrite G1. split; [|split; [discriminate|reflexivity]].
      split; [discriminate|]. intros [B|(l' & B & C)]; [contradiction|discriminate].
Qed.

(** An inhibited spacecraft is left alone. *)
Theorem C42_inhibited_unchanged : forall kl ru sc, mode sc = Inhibit ->
  kluever_next kl sc = Ok sc /\ ruggiero_next ru sc = Ok sc.
Proof. intros kl ru sc H. unfold Guid_Model.kluever_next, Guid_Model.ruggiero_next. rewrite H. auto. Qed.

(** The Ruggiero law coasts exactly when all objectives are met, whatever the eclipse limit.
    Missing from the full statement: coasting in eclipse (refuted below). *)
Theorem C42_ruggiero_mode_partial : forall ru sc sc',
  mode sc <> Inhibit -> ruggiero_next ru sc = Ok sc' ->
  sc' = mut_mode sc (mode sc') /\
  (mode sc' = Coast <-> Forall (met sc) (map fst (ru_objectives ru))) /\
  (mode sc' = Thrust <-> mode sc' <> Coast).
Proof.
  intros ru sc sc' Hm H. unfold Guid_Model.ruggiero_next in H.
  assert (H' : match all_achieved (map fst (ru_objectives ru)) sc with
    | Ok false => mut_mode sc Thrust = sc'
    | Ok true => mut_mode sc Coast = sc'
    | _ => False end).
  { destruct (mode sc); [| |congruence];
      (destruct (all_achieved (map fst (ru_objectives ru)) sc) as [[]|x| |]; try discriminate;
       [congruence|];
       destruct (ru_max_eclipse ru); [destruct (eclipse_percentage shadows (sc_orbit sc)); [|discriminate];
         destruct (Rlt_dec _ _)|]; cbn [bind] in H; injection H as <-; destruct sc; reflexivity). }
  destruct (all_achieved (map fst (ru_objectives ru)) sc) as [b|x| |] eqn:Ha; try contradiction.
  pose proof (all_achieved_spec _ _ _ Ha) as Hs. destruct b; subst sc'; cbn.
  - split; [destruct sc; reflexivity|]. split; [|split; [discriminate|congruence]].
    split; [intros _; apply Hs; reflexivity|reflexivity].
  - split; [destruct sc; reflexivity|]. split; [|split; [discriminate|reflexivity]].
    split; [discriminate|]. intros F. apply Hs in F. discriminate.
Qed.

(** The [unwrap] of [next]: a parameter that has no value for this orbit stops the program. *)
Theorem C42_unavailable_objective_panics : forall kl sc o w rest x,
  kl_objectives kl = (o, w) :: rest -> mode sc <> Inhibit ->
  value sc (obj_parameter o) = Err x -> kluever_next kl sc = Panic.
Proof.
  intros kl sc o w rest x Hk Hm Hv. unfold Guid_Model.kluever_next. rewrite Hk. cbn [map fst Guid_Model.all_achieved].
  rewrite Hv. destruct (mode sc); [reflexivity|reflexivity|congruence].
Qed.

(** The law built from objectives and as many weights coasts exactly when they are all met; it has no
    eclipse limit. *)
Theorem C42_kluever_new : forall objs weights sc sc', length weights = length objs ->
  mode sc <> Inhibit -> kluever_next (kluever_new objs weights) sc = Ok sc' ->
  (mode sc' = Coast <-> Forall (met sc) objs) /\ (mode sc' = Thrust <-> mode sc' <> Coast).
Proof.
  intros objs weights sc sc' L Hm H.
  destruct (C42_kluever_mode (kluever_new objs weights) sc sc') as (_ & C & T); [discriminate|exact Hm|exact H|].
  split; [|exact T]. rewrite C. cbn [kl_objectives kl_max_eclipse kluever_new].
  assert (E : map fst (combine objs weights) = objs).
  { clear -L. revert weights L. induction objs as [|o objs IH]; intros [|w ws] L; cbn in L |- *; try congruence.
    f_equal. apply IH. congruence. }
  rewrite E. split; [|auto]. intros [A|(l & A & _)]; [exact A|discriminate].
Qed.
Theorem C42_kluever_from_max_eclipse : forall objs weights limit sc sc', length weights = length objs -> 0 <= limit ->
  mode sc <> Inhibit -> kluever_next (kluever_from_max_eclipse objs weights limit) sc = Ok sc' ->
  (mode sc' = Coast <-> Forall (met sc) objs \/ shaded (sc_orbit sc) limit) /\ (mode sc' = Thrust <-> mode sc' <> Coast).
Proof.
  intros objs weights limit sc sc' L Hl Hm H.
  destruct (C42_kluever_mode (kluever_from_max_eclipse objs weights limit) sc sc') as (_ & C & T);
    [cbn; intros l E; assert (limit = l) as <- by congruence; exact Hl|exact Hm|exact H|].
  split; [|exact T]. rewrite C. cbn [kl_objectives kl_max_eclipse kluever_from_max_eclipse].
  assert (E : map fst (combine objs weights) = objs).
  { clear -L. revert weights L. induction objs as [|o objs IH]; intros [|w ws] L; cbn in L |- *; try congruence.
    f_equal. apply IH. congruence. }
  rewrite E. split; (intros [A|A]; [left; exact A|right]).
  - destruct A as (l & A & B). assert (limit = l) as <- by congruence. exact B.
  - exists limit. auto.
Qed.

(** A Ruggiero law is built from one to five objectives on the supported elements, with at least as many
    thresholds as objectives, and thrusts exactly until they are all met. *)
Theorem C42_ruggiero_built : forall objs thresholds initial,
  (is_ok (ruggiero_from_thresholds objs thresholds initial) <->
     (1 <= length objs <= 5)%nat /\ (length objs <= length thresholds)%nat /\
     Forall (fun o => supported (obj_parameter o) = true) objs) /\
  (is_ok (ruggiero_simple objs initial) <->
     (1 <= length objs <= 5)%nat /\ Forall (fun o => supported (obj_parameter o) = true) objs) /\
  forall ru, ruggiero_from_thresholds objs thresholds initial = Ok ru ->
    ru_init ru = initial /\ ru_max_eclipse ru = None /\ length (ru_objectives ru) = length objs /\
    (forall i o, nth_error objs i = Some o ->
       exists eta, nth_error thresholds i = Some eta /\ nth_error (ru_objectives ru) i = Some (o, eta)) /\
    forall sc sc', mode sc <> Inhibit -> ruggiero_next ru sc = Ok sc' ->
      (mode sc' = Coast <-> Forall (met sc) objs).
Proof.
  assert (A : forall objs thresholds initial, is_ok (ruggiero_from_thresholds objs thresholds initial) <->
     (1 <= length objs <= 5)%nat /\ (length objs <= length thresholds)%nat /\
     Forall (fun o => supported (obj_parameter o) = true) objs).
  { intros objs thresholds initial. unfold ruggiero_from_thresholds.
    destruct (Nat.ltb_spec 5 (length objs)) as [B|B]; cbn [orb]; [split; [intros [? ?]; discriminate|intros ([? ?] & _); lia]|].
    destruct (Nat.eqb_spec (length objs) 0) as [C|C]; [split; [intros [? ?]; discriminate|intros ([? ?] & _); lia]|].
    destruct (Nat.ltb_spec (length thresholds) (length objs)) as [D|D]; [split; [intros [? ?]; discriminate|intros (_ & ? & _); lia]|].
    destruct (forallb _ objs) eqn:F.
    - split; [intros _|intros _; eexists; reflexivity]. split; [lia|]. split; [exact D|].
      rewrite forallb_forall in F. now apply Forall_forall.
    - split; [intros [? ?]; discriminate|]. intros (_ & _ & G). exfalso. rewrite Forall_forall in G.
      assert (forallb (fun o => supported (obj_parameter o)) objs = true) by now apply forallb_forall. congruence. }
  intros objs thresholds initial. split; [apply A|]. split.
  { unfold ruggiero_simple. rewrite A. cbn [length repeat]. split; [tauto|]. intros [B C]. repeat split; try tauto; try lia. }
  intros ru E. assert (I : is_ok (ruggiero_from_thresholds objs thresholds initial)) by (now exists ru).
  apply A in I as (B & C & D).
  assert (Er : ru = Ruggiero (combine objs thresholds) None initial).
  { unfold ruggiero_from_thresholds in E. destruct (_ || _); [discriminate|]. destruct (_ <? _)%nat; [discriminate|].
    destruct (forallb _ _); [congruence|discriminate]. }
  subst ru. cbn [ru_init ru_max_eclipse ru_objectives]. split; [reflexivity|]. split; [reflexivity|].
  split; [rewrite combine_length; lia|]. split.
  - clear -C. revert thresholds C. induction objs as [|x objs IH]; intros [|t ts] C i o H; cbn [length] in C;
      try lia; try (destruct i; discriminate).
    destruct i as [|i]; cbn [nth_error combine] in H |- *.
    + assert (x = o) as <- by congruence. now exists t.
    + apply IH; [lia|exact H].
  - intros sc sc' Hm H. destruct (C42_ruggiero_mode_partial _ sc sc' Hm H) as (_ & K & _).
    rewrite K. cbn [ru_objectives].
    assert (E' : map fst (combine objs thresholds) = objs).
    { clear -C. revert thresholds C. induction objs as [|o objs IH]; intros [|w ws] L; cbn in L |- *; try lia; try congruence.
      f_equal. apply IH. lia. }
    now rewrite E'.
Qed.

(** ** C64: the direction of thrust moves the element towards its target *)

(** The direction when one objective, of positive weight, is still to be corrected. *)
Lemma kluever_one kl k sc o w v d dcm :
  mode sc = Thrust -> kepler (sc_orbit sc) = Some k -> dcm_to_inertial RCN (sc_orbit sc) = Some dcm ->
  kl_objectives kl = [(o, w)] -> w <> 0 ->
  value sc (obj_parameter o) = Ok v -> obj_tolerance o <= Rabs (desired_value o - v) ->
  kluever_direction evaluate bplane dcm_to_inertial kepler kl sc = Ok d ->
  exists t, kluever_term evaluate bplane dcm_to_inertial k sc (obj_parameter o)
              (w * fsignum (desired_value o - v)) = Ok t /\
    d = mv dcm (kluever_steering t).
Proof.
  intros Hm Hk Hdcm Ho Hw Hv Htol. unfold kluever_direction. rewrite Hm, Hk, Ho, Hdcm.
  cbn [kluever_sums]. destruct (Req_EM_T w 0) as [E|_]; [contradiction|]. rewrite Hv. cbn [lift bind].
  destruct (Rlt_dec _ _) as [A|_]; [lra|].
  destruct (kluever_term _ _ _ k sc (obj_parameter o) _) as [[[ta tb] tc]|x| |] eqn:Ht; cbn [bind]; try discriminate.
  intros H. exists (ta, tb, tc). split; [reflexivity|].
  assert (E : mv dcm (kluever_steering (0 + ta, 0 + tb, 0 + tc)) = d) by congruence.
  rewrite <- E. repeat f_equal; ring.
Qed.

(** Thrust along [u] increases the element ([sgn] = 1) or decreases it ([sgn] = -1), unless
    no thrust changes it at first order: a circular orbit for the eccentricity, the points
    farthest from the node for the inclination, the nodes for the node. *)
Definition steers (k : keplerian) (mu r s sgn : R) (p : parameter) (u : v3) : Prop :=
  let e := k_ecc k in let nu := k_ta k in let lat := k_ta k + k_aop k in
  let pos := local_position r in let vel := local_velocity s e nu in
  match p with
  | Element SemiMajorAxis => exists l, rate_along (sma_of mu pos) vel u l /\ 0 < sgn * l
  | Element Eccentricity =>
      exists l, rate_along (ecc_squared mu pos) vel u l /\ 0 <= sgn * l /\ (0 < e -> 0 < sgn * l)
  | Element Inclination =>
      0 < sin (k_inc k) ->
      exists l, rate_along (cos_inclination (local_pole (k_inc k) lat) pos) vel u (- l) /\
        0 <= sgn * l /\ (cos lat <> 0 -> 0 < sgn * l)
  | Element RAAN =>
      0 < sin (k_inc k) ->
      exists l, rate_along (tan_node (local_node lat) (local_quad (k_inc k) lat)
                    (local_pole (k_inc k) lat) pos) vel u l /\
        0 <= sgn * l /\ (sin lat <> 0 -> 0 < sgn * l)
  | _ => False
  end.

Definition keplerian_element (p : parameter) : Prop :=
  match p with
  | Element SemiMajorAxis | Element Eccentricity | Element Inclination | Element RAAN => True
  | _ => False
  end.

(** The gradient of an element in the local frame, up to a positive factor. *)
Definition gradient (k : keplerian) (p : parameter) : v3 :=
  let e := k_ecc k in let nu := k_ta k in
  match p with
  | Element SemiMajorAxis => V3 (e * sin nu) (1 + e * cos nu) 0
  | Element Eccentricity => V3 (sin nu) (cos nu + (e + cos nu) / (1 + e * cos nu)) 0
  | Element Inclination => V3 0 0 (sign_of (cos (nu + k_aop k)))
  | Element RAAN => V3 0 0 (sign_of (sin (nu + k_aop k)))
  | _ => vzero
  end.

Lemma sign_of_sq x : sign_of x = 1 \/ sign_of x = -1.
Proof. unfold sign_of. destruct (Rle_dec 0 x); auto. Qed.
Lemma sign_of_mul x : x * sign_of x = Rabs x.
Proof.
  unfold sign_of. destruct (Rle_dec 0 x); [rewrite Rabs_pos_eq by lra|rewrite Rabs_left by lra]; ring.
Qed.

Lemma gradient_nonzero mu k r s p : on_conic mu (k_ecc k) (k_ta k) r s -> keplerian_element p ->
  gradient k p <> vzero.
Proof.
  intros Hc Hp E. pose proof (conic_q _ _ _ _ _ Hc) as Hq. pose proof (trig2 (k_ta k)) as T.
  destruct p as [[]| | | | | | | | | | | | | | | | |]; try contradiction; cbn [gradient] in E; unfold vzero in E.
  - (* eccentricity *)
    assert (E1 : sin (k_ta k) = 0) by congruence.
    assert (E2 : cos (k_ta k) + (k_ecc k + cos (k_ta k)) / (1 + k_ecc k * cos (k_ta k)) = 0) by congruence.
    rewrite E1 in T. assert (E3 : (1 + k_ecc k * cos (k_ta k)) *
      (cos (k_ta k) + (k_ecc k + cos (k_ta k)) / (1 + k_ecc k * cos (k_ta k))) = 0) by (rewrite E2; ring).
    assert (E4 : cos (k_ta k) + k_ecc k * (cos (k_ta k) * cos (k_ta k)) + k_ecc k + cos (k_ta k) = 0).
    { rewrite <- E3. field. lra. }
    destruct Hc as (_ & He & _).
    replace (cos (k_ta k) * cos (k_ta k)) with 1 in E4 by lra.
    assert (cos (k_ta k) = - k_ecc k) by lra. nra.
  - assert (E1 : sign_of (cos (k_ta k + k_aop k)) = 0) by congruence.
    destruct (sign_of_sq (cos (k_ta k + k_aop k))); lra.
  - assert (E1 : sign_of (sin (k_ta k + k_aop k)) = 0) by congruence.
    destruct (sign_of_sq (sin (k_ta k + k_aop k))); lra.
  - assert (E1 : 1 + k_ecc k * cos (k_ta k) = 0) by congruence. lra.
Qed.

(** A positive or negative multiple of the gradient steers. *)
Lemma gradient_steers mu k r s p c sgn : on_conic mu (k_ecc k) (k_ta k) r s -> keplerian_element p ->
  0 < sgn * c -> steers k mu r s sgn p (vscale c (gradient k p)).
Proof.
  intros Hc Hp Hs. pose proof (conic_q _ _ _ _ _ Hc) as Hq.
  pose proof (gradient_nonzero _ _ _ _ p Hc Hp) as Hnz.
  assert (Hd : 0 < dot (gradient k p) (gradient k p)) by (apply dot_pos; exact Hnz).
  assert (Hc0 : c <> 0) by (intros ->; lra).
  assert (Hss : 0 < s) by (destruct Hc as (_ & _ & _ & A & _); exact A).
  assert (Hw : 0 < / (s * (1 + k_ecc k * cos (k_ta k)))) by (apply Rinv_0_lt_compat; nra).
  destruct p as [[]| | | | | | | | | | | | | | | | |]; try contradiction; unfold steers; cbn [gradient] in *;
    unfold dot in Hd; cbn [vx vy vz] in Hd.
  - (* eccentricity *)
    eexists. split; [apply ecc_rate, Hc|]; cbn [vscale vx vy vz].
    set (a := sin (k_ta k)) in *.
    set (b := cos (k_ta k) + (k_ecc k + cos (k_ta k)) / (1 + k_ecc k * cos (k_ta k))) in *.
    replace (sgn * (2 * k_ecc k / s * (a * (c * a) + b * (c * b))))
      with (2 * k_ecc k * / s * (sgn * c) * (a * a + b * b + 0 * 0)) by (field; lra).
    assert (Hi : 0 < / s) by now apply Rinv_0_lt_compat.
    remember (sgn * c) as w eqn:Ew; clear Ew.
    split.
    + destruct Hc as (_ & He & _). repeat apply Rmult_le_pos; lra.
    + intros He. repeat apply Rmult_lt_0_compat; lra.
  - (* inclination *)
    intros Hi. set (lat := k_ta k + k_aop k) in *.
    exists (sin (k_inc k) * cos lat * (c * sign_of (cos lat)) / (s * (1 + k_ecc k * cos (k_ta k)))).
    split; [apply (inc_rate _ _ _ _ _ (k_inc k) lat (vscale c (V3 0 0 (sign_of (cos lat)))) Hc)|].
    replace (sgn * (sin (k_inc k) * cos lat * (c * sign_of (cos lat)) / (s * (1 + k_ecc k * cos (k_ta k)))))
      with (sin (k_inc k) * (sgn * c) * (cos lat * sign_of (cos lat)) * / (s * (1 + k_ecc k * cos (k_ta k))))
      by (field; lra).
    remember (sgn * c) as w eqn:Ew; clear Ew.
    rewrite sign_of_mul. pose proof (Rabs_pos (cos lat)). split.
    + repeat apply Rmult_le_pos; lra.
    + intros Hl. apply Rabs_pos_lt in Hl. repeat apply Rmult_lt_0_compat; lra.
  - (* node *)
    intros Hi. set (lat := k_ta k + k_aop k) in *.
    eexists. split; [apply (node_rate _ _ _ _ _ (k_inc k) lat (vscale c (V3 0 0 (sign_of (sin lat)))) Hc Hi)|].
    cbn [vscale vx vy vz].
    assert (Hw2 : 0 < / (s * (1 + k_ecc k * cos (k_ta k)) * sin (k_inc k))).
    { apply Rinv_0_lt_compat. repeat apply Rmult_lt_0_compat; lra. }
    replace (sgn * (sin lat * (c * sign_of (sin lat)) / (s * (1 + k_ecc k * cos (k_ta k)) * sin (k_inc k))))
      with ((sgn * c) * (sin lat * sign_of (sin lat)) * / (s * (1 + k_ecc k * cos (k_ta k)) * sin (k_inc k)))
      by (field; repeat split; lra).
    remember (sgn * c) as w eqn:Ew; clear Ew.
    rewrite sign_of_mul. pose proof (Rabs_pos (sin lat)). split.
    + repeat apply Rmult_le_pos; lra.
    + intros Hl. apply Rabs_pos_lt in Hl. repeat apply Rmult_lt_0_compat; lra.
  - (* semi-major axis *)
    set (g := V3 (k_ecc k * sin (k_ta k)) (1 + k_ecc k * cos (k_ta k)) 0) in *.
    destruct (sma_rate _ _ _ _ _ (vscale c g) Hc) as (f & Hf & Hr).
    eexists. split; [exact Hr|]. unfold g. cbn [vscale vx vy vz].
    set (a := k_ecc k * sin (k_ta k)) in *. set (b := 1 + k_ecc k * cos (k_ta k)) in *.
    replace (sgn * (f * (a * (c * a) + b * (c * b)))) with (f * (sgn * c) * (a * a + b * b + 0 * 0)) by ring.
    remember (sgn * c) as w eqn:Ew; clear Ew.
    repeat apply Rmult_lt_0_compat; assumption.
Qed.

Lemma fsignum_cases x : fsignum x = 1 \/ fsignum x = -1.
Proof. unfold fsignum. destruct (Rlt_dec x 0); auto. Qed.

(** The local direction [u] commanded by the Kluever law for one objective. *)
Theorem C64_kluever_steers : forall kl k sc o w v d dcm mu r s,
  mode sc = Thrust -> kepler (sc_orbit sc) = Some k -> dcm_to_inertial RCN (sc_orbit sc) = Some dcm ->
  kl_objectives kl = [(o, w)] -> 0 < w -> keplerian_element (obj_parameter o) ->
  value sc (obj_parameter o) = Ok v -> obj_tolerance o <= Rabs (desired_value o - v) ->
  on_conic mu (k_ecc k) (k_ta k) r s ->
  kluever_direction evaluate bplane dcm_to_inertial kepler kl sc = Ok d ->
  exists u, d = mv dcm u /\ norm u = 1 /\
    steers k mu r s (if Rlt_dec (desired_value o) v then -1 else 1) (obj_parameter o) u.
Proof.
  intros kl k sc o w v d dcm mu r s Hm Hk Hdcm Ho Hw Hp Hv Htol Hc Hd.
  destruct (kluever_one _ _ _ _ _ _ _ _ Hm Hk Hdcm Ho ltac:(lra) Hv Htol Hd) as (t & Ht & ->).
  set (g := w * fsignum (desired_value o - v)) in *.
  set (sgn := if Rlt_dec (desired_value o) v then -1 else 1).
  assert (Hsg : 0 < sgn * g).
  { unfold sgn, g, fsignum. destruct (Rlt_dec (desired_value o) v);
      destruct (Rlt_dec (desired_value o - v) 0); try lra. }
  assert (Hg0 : g <> 0) by (intros E; rewrite E in Hsg; lra).
  assert (Htr : triple t = vscale g (gradient k (obj_parameter o))).
  { destruct (obj_parameter o) as [[]| | | | | | | | | | | | | | | | |]; try contradiction;
      cbn [kluever_term] in Ht;
      (match type of Ht with Ok ?x = _ => assert (Et : t = x) by congruence; rewrite Et end);
      apply v3_eq; unfold triple; cbn [fst snd gradient vscale vx vy vz]; ring. }
  assert (Hnz : triple t <> vzero).
  { rewrite Htr. pose proof (gradient_nonzero _ _ _ _ _ Hc Hp) as Hn. intros E. apply Hn.
    apply v3_eq; [apply (f_equal vx) in E|apply (f_equal vy) in E|apply (f_equal vz) in E];
      cbn [vscale vx vy vz] in E; cbn [vzero vx vy vz] in E |- *; apply (Rmult_eq_reg_l g); lra. }
  pose proof (norm_pos _ Hnz) as Hn.
  exists (kluever_steering t). split; [reflexivity|]. rewrite (kluever_steering_unit _ Hnz).
  split.
  - rewrite norm_scale, Rabs_pos_eq by (left; now apply Rinv_0_lt_compat). field. lra.
  - rewrite Htr at 2.
    replace (vscale (/ norm (triple t)) (vscale g (gradient k (obj_parameter o))))
      with (vscale (/ norm (triple t) * g) (gradient k (obj_parameter o))).
    + apply gradient_steers; [exact Hc|exact Hp|].
      replace (sgn * (/ norm (triple t) * g)) with (sgn * g * / norm (triple t)) by ring.
      apply Rmult_lt_0_compat; [exact Hsg|]. now apply Rinv_0_lt_compat.
    + unfold vscale. cbn [vx vy vz]. f_equal; ring.
Qed.

(** Any objectives, any weights: in thrust mode the Kluever law commands a unit vector. *)
Theorem C64_kluever_unit : forall kl sc d,
  (forall o dcm, dcm_to_inertial RCN o = Some dcm -> is_rotation dcm) ->
  mode sc = Thrust -> kluever_direction evaluate bplane dcm_to_inertial kepler kl sc = Ok d ->
  norm d = 1.
Proof.
  intros kl sc d Hrot Hm. unfold kluever_direction. rewrite Hm.
  destruct (kepler (sc_orbit sc)) as [k|]; [|discriminate].
  destruct (kluever_sums _ _ _ k sc _ _) as [t|x| |]; cbn [bind]; try discriminate.
  destruct (dcm_to_inertial RCN (sc_orbit sc)) as [dcm|] eqn:Hd; [|discriminate].
  intros H. assert (E : mv dcm (kluever_steering t) = d) by congruence. rewrite <- E.
  rewrite rotation_norm by (eapply Hrot, Hd). destruct t as [[na da] nb].
  apply C43_plane_angles_unit.
Qed.

(** With no objective left out of tolerance, or only zero weights, the law in thrust mode
    still commands full thrust along the motion. *)
Theorem C64_kluever_idle_thrusts : forall kl k sc d dcm,
  mode sc = Thrust -> kepler (sc_orbit sc) = Some k -> dcm_to_inertial RCN (sc_orbit sc) = Some dcm ->
  Forall (fun ow => snd ow = 0) (kl_objectives kl) ->
  kluever_direction evaluate bplane dcm_to_inertial kepler kl sc = Ok d ->
  d = mv dcm (V3 0 1 0) /\ kluever_throttle kl sc = Ok 1.
Proof.
  intros kl k sc d dcm Hm Hk Hdcm Hall. unfold kluever_direction, kluever_throttle. rewrite Hm, Hk, Hdcm.
  assert (E : forall acc, kluever_sums evaluate bplane dcm_to_inertial k sc (kl_objectives kl) acc = Ok acc).
  { induction Hall as [|[o w] l Hw Hall IH]; intros acc; cbn [kluever_sums]; [reflexivity|].
    cbn [snd] in Hw. destruct (Req_EM_T w 0); [apply IH|contradiction]. }
  rewrite E. cbn [bind]. intros H. split; [|reflexivity].
  assert (F : mv dcm (kluever_steering (0, 0, 0)) = d) by congruence.
  rewrite <- F, kluever_steering_idle. reflexivity.
Qed.

(** *** The Ruggiero law *)

Notation ruggiero_direction := (ruggiero_direction evaluate bplane dcm_to_inertial kepler).
Notation ruggiero_throttle := (ruggiero_throttle evaluate bplane dcm_to_inertial kepler).

Lemma weighting_sign ru o sc threshold w v :
  0 < obj_tolerance o -> value sc (obj_parameter o) = Ok v ->
  weighting evaluate bplane dcm_to_inertial kepler ru o sc threshold = Ok w -> w <> 0 ->
  0 < (desired_value o - v) * w.
Proof.
  intros Ht Hv. unfold weighting.
  destruct (value (ru_init ru) (obj_parameter o)) as [init|x| |]; try discriminate.
  rewrite Hv. destruct (efficiency kepler (obj_parameter o) (sc_orbit sc)) as [eta|x| |]; try discriminate.
  destruct (Rlt_dec (Rabs (v - desired_value o)) (obj_tolerance o)) as [A|A]; [congruence|].
  destruct (Rlt_dec eta threshold) as [B|B]; [congruence|].
  set (q := Rabs _). intros H Hw.
  assert (E : w = (desired_value o - v) / q) by congruence.
  assert (Hq : 0 < q).
  { apply Rabs_pos_lt. destruct (Rlt_dec (Rabs (init - desired_value o)) (obj_tolerance o)) as [C|C].
    - apply Rabs_def2 in C. lra.
    - intros F. apply C. replace (init - desired_value o) with 0 by lra. rewrite Rabs_R0. exact Ht. }
  rewrite E. unfold Rdiv.
  replace ((desired_value o - v) * ((desired_value o - v) * / q))
    with ((desired_value o - v) * (desired_value o - v) * / q) by ring.
  apply Rmult_lt_0_compat; [|now apply Rinv_0_lt_compat].
  assert (desired_value o - v <> 0).
  { intros F. apply A. replace (v - desired_value o) with 0 by lra. rewrite Rabs_R0. exact Ht. }
  nra.
Qed.

Lemma copysign_sign x : unit_vector_from_plane_angles 0 (copysign (PI / 2) x) = V3 0 0 (sign_of x).
Proof.
  rewrite plane_normal. unfold sign_of. destruct (Rlt_dec x 0), (Rle_dec 0 x); try lra; reflexivity.
Qed.

(** The eccentric anomaly. *)
Definition anomalies (k : keplerian) : Prop :=
  cos (k_ea k) = (k_ecc k + cos (k_ta k)) / (1 + k_ecc k * cos (k_ta k)).

Lemma ruggiero_term_gradient mu k r s o p t : on_conic mu (k_ecc k) (k_ta k) r s -> anomalies k ->
  keplerian_element p -> ruggiero_term k o p = Ok t ->
  t = vscale (/ norm (gradient k p)) (gradient k p).
Proof.
  intros Hc Ha Hp H. pose proof (gradient_nonzero _ _ _ _ p Hc Hp) as Hn.
  assert (N1 : forall x, norm (V3 0 0 (sign_of x)) = 1).
  { intros x. unfold norm, dot. cbn [vx vy vz].
    replace (0 * 0 + 0 * 0 + sign_of x * sign_of x) with 1; [apply sqrt_1|].
    destruct (sign_of_sq x) as [E|E]; rewrite E; ring. }
  destruct p as [[]| | | | | | | | | | | | | | | | |]; try contradiction; cbn [ruggiero_term gradient] in *;
    (match type of H with Ok ?x = _ => assert (Et : t = x) by congruence; rewrite Et end).
  - rewrite Ha. apply plane_in_plane.
    destruct (Req_dec (sin (k_ta k)) 0) as [E|E]; [|auto]. right. intros F. apply Hn.
    unfold vzero. rewrite E. f_equal. exact F.
  - rewrite copysign_sign, N1, Rinv_1. unfold vscale. cbn [vx vy vz]. f_equal; ring.
  - rewrite copysign_sign, N1, Rinv_1. unfold vscale. cbn [vx vy vz]. f_equal; ring.
  - apply plane_in_plane. right. pose proof (conic_q _ _ _ _ _ Hc). lra.
Qed.

Lemma normalized_norm v : v <> vzero -> normalized v = vscale (/ norm v) v.
Proof. intros H. unfold normalized. pose proof (norm_pos _ H). destruct (Rlt_dec 0 (norm v)); [reflexivity|lra]. Qed.

Theorem C64_ruggiero_steers : forall ru k sc o threshold w v d dcm mu r s,
  mode sc = Thrust -> kepler (sc_orbit sc) = Some k -> dcm_to_inertial RCN (sc_orbit sc) = Some dcm ->
  ru_objectives ru = [(o, threshold)] -> keplerian_element (obj_parameter o) -> 0 < obj_tolerance o ->
  value sc (obj_parameter o) = Ok v ->
  weighting evaluate bplane dcm_to_inertial kepler ru o sc threshold = Ok w -> w <> 0 ->
  on_conic mu (k_ecc k) (k_ta k) r s -> anomalies k ->
  ruggiero_direction ru sc = Ok d ->
  exists u, d = mv dcm u /\ norm u = 1 /\
    steers k mu r s (if Rlt_dec (desired_value o) v then -1 else 1) (obj_parameter o) u.
Proof.
  intros ru k sc o threshold w v d dcm mu r s Hm Hk Hdcm Ho Hp Htol Hv Hw Hw0 Hc Han.
  unfold Guid_Model.ruggiero_direction. rewrite Hm, Ho, Hdcm. cbn [ruggiero_sum]. rewrite Hw. cbn [bind].
  destruct (Rle_dec (Rabs w) 0) as [A|_]; [pose proof (Rabs_pos_lt _ Hw0); lra|].
  rewrite Hk. destruct (ruggiero_term k (sc_orbit sc) (obj_parameter o)) as [t|x| |] eqn:Ht;
    cbn [bind]; try discriminate.
  intros H. pose proof (ruggiero_term_gradient _ _ _ _ _ _ _ Hc Han Hp Ht) as Hg.
  set (g := gradient k (obj_parameter o)) in *.
  pose proof (gradient_nonzero _ _ _ _ _ Hc Hp) as Hgn. fold g in Hgn. pose proof (norm_pos _ Hgn) as Hgp.
  set (sgn := if Rlt_dec (desired_value o) v then -1 else 1).
  pose proof (weighting_sign _ _ _ _ _ _ Htol Hv Hw Hw0) as Hws.
  assert (Hsw : 0 < sgn * w).
  { unfold sgn. destruct (Rlt_dec (desired_value o) v); nra. }
  set (x := vadd vzero (vscale w t)) in *.
  assert (Hx : x = vscale (w * / norm g) g).
  { unfold x. rewrite Hg. unfold vadd, vscale, vzero. cbn [vx vy vz]. f_equal; ring. }
  assert (Hxn : norm x = Rabs w).
  { rewrite Hx, norm_scale, Rabs_mult, (Rabs_pos_eq (/ norm g)) by (left; now apply Rinv_0_lt_compat).
    field. lra. }
  pose proof (Rabs_pos_lt _ Hw0) as Hwp.
  assert (Hxz : x <> vzero) by (intros E; apply norm_zero_iff in E; lra).
  exists (normalized x). split; [congruence|]. rewrite (normalized_norm _ Hxz).
  split.
  - rewrite norm_scale, Hxn, Rabs_pos_eq by (left; now apply Rinv_0_lt_compat). field. lra.
  - rewrite Hxn, Hx.
    replace (vscale (/ Rabs w) (vscale (w * / norm g) g)) with (vscale (/ Rabs w * (w * / norm g)) g)
      by (unfold vscale; cbn [vx vy vz]; f_equal; ring).
    unfold g. apply gradient_steers; [exact Hc|exact Hp|]. fold g.
    replace (sgn * (/ Rabs w * (w * / norm g))) with ((sgn * w) * (/ Rabs w * / norm g)) by ring.
    apply Rmult_lt_0_compat; [exact Hsw|]. apply Rmult_lt_0_compat; now apply Rinv_0_lt_compat.
Qed.

(** The Ruggiero law thrusts along a unit vector, or has a zero throttle. *)
Theorem C64_ruggiero_unit : forall ru sc lvl,
  (forall o dcm, dcm_to_inertial RCN o = Some dcm -> is_rotation dcm) ->
  ruggiero_throttle ru sc = Ok lvl ->
  lvl = 0 \/ lvl = 1 /\ exists d, ruggiero_direction ru sc = Ok d /\ norm d = 1.
Proof.
  intros ru sc lvl Hrot. unfold Guid_Model.ruggiero_throttle.
  destruct (mode sc) eqn:Hm; try (intros H; left; congruence).
  destruct (ruggiero_direction ru sc) as [d|x| |] eqn:Hd; cbn [bind]; try discriminate.
  destruct (Rlt_dec 0 (norm d)) as [A|A]; intros H; [right|left; congruence].
  split; [congruence|]. exists d. split; [reflexivity|].
  unfold Guid_Model.ruggiero_direction in Hd. rewrite Hm in Hd.
  destruct (ruggiero_sum _ _ _ _ ru sc _ _) as [x|x| |]; cbn [bind] in Hd; try discriminate.
  destruct (dcm_to_inertial RCN (sc_orbit sc)) as [dcm|] eqn:Hdc; [|discriminate].
  assert (E : mv dcm (normalized x) = d) by congruence. rewrite <- E in A |- *.
  rewrite (rotation_norm _ _ (Hrot _ _ Hdc)) in A |- *.
  unfold normalized in *. destruct (Rlt_dec 0 (norm x)) as [B|B]; [|contradiction].
  rewrite norm_scale, Rabs_pos_eq by (left; now apply Rinv_0_lt_compat). field. lra.
Qed.

(** ** C65: efficiencies *)

Lemma cauchy2 a b c d : a * a + b * b = 1 -> c * c + d * d = 1 -> a * c + b * d <= 1.
Proof. intros H1 H2. pose proof (pow2_ge_0 (a - c)); pose proof (pow2_ge_0 (b - d)); lra. Qed.

Lemma node_efficiency e c s cw sw : 0 <= e < 1 -> c * c + s * s = 1 -> cw * cw + sw * sw = 1 ->
  0 < 1 + e * (c * cw + s * sw) ->
  0 <= Rabs c * (sqrt (1 - e ^ 2 * sw ^ 2) - e * Rabs cw) / (1 + e * (c * cw + s * sw)) <= 1.
Proof.
  intros He Hc Hw Hq.
  assert (Hs : sw * sw <= 1) by nra.
  assert (H0 : 0 <= 1 - e ^ 2 * sw ^ 2) by nra.
  pose proof (sqrt_pos (1 - e ^ 2 * sw ^ 2)) as Hr0. pose proof (sqrt_sqrt _ H0) as Hr.
  set (rt := sqrt (1 - e ^ 2 * sw ^ 2)) in *.
  pose proof (Rabs_pos c) as A0. pose proof (Rabs_pos cw) as B0.
  assert (A2 : Rabs c * Rabs c = c * c) by (rewrite <- Rabs_mult; apply Rabs_pos_eq; nra).
  assert (B2 : Rabs cw * Rabs cw = cw * cw) by (rewrite <- Rabs_mult; apply Rabs_pos_eq; nra).
  assert (AB : - (c * cw) <= Rabs c * Rabs cw).
  { rewrite <- Rabs_mult, <- Rabs_Ropp. apply Rle_abs. }
  assert (L : e * Rabs cw <= rt).
  { apply Rsqr_incr_0_var; [|exact Hr0]. unfold Rsqr.
    replace (e * Rabs cw * (e * Rabs cw)) with (e * e * (Rabs cw * Rabs cw)) by ring. rewrite B2, Hr. nra. }
  assert (U : Rabs c * rt - e * (s * sw) <= 1).
  { assert (Rabs c * rt + s * - (e * sw) <= 1); [|lra].
    apply cauchy2; [lra|]. rewrite Hr. ring. }
  split.
  - apply Rmult_le_pos; [apply Rmult_le_pos; lra|]. left. now apply Rinv_0_lt_compat.
  - apply (Rmult_le_reg_r (1 + e * (c * cw + s * sw))); [exact Hq|].
    unfold Rdiv. rewrite Rmult_assoc, Rinv_l, Rmult_1_r, Rmult_1_l by lra.
    assert (0 <= e * (Rabs c * Rabs cw + c * cw)) by (apply Rmult_le_pos; lra). lra.
Qed.

(** The vis-viva relation between the velocity and the elements. *)
Definition vis_viva (k : keplerian) (o : orbit) : Prop :=
  0 < k_mu k /\ 0 < k_sma k /\
  dot (velocity_km_s o) (velocity_km_s o)
  = k_mu k * (1 + 2 * k_ecc k * cos (k_ta k) + k_ecc k ^ 2) / (k_sma k * (1 - k_ecc k ^ 2)).

Theorem C65_efficiency_range : forall p o k eta,
  kepler o = Some k -> 0 <= k_ecc k < 1 -> vis_viva k o ->
  efficiency kepler p o = Ok eta -> 0 <= eta <= 1.
Proof.
  intros p o k eta Hk He (Hm & Ha & Hv). unfold efficiency. rewrite Hk.
  set (e := k_ecc k) in *. set (nu := k_ta k) in *. set (w := k_aop k) in *.
  pose proof (COS_bound nu) as Hb. pose proof (trig2 nu) as T.
  assert (Hq : 0 < 1 + e * cos nu) by nra.
  assert (Hcn : cos nu = cos (w + nu) * cos w + sin (w + nu) * sin w).
  { rewrite <- cos_minus. f_equal. ring. }
  pose proof (trig2 (w + nu)) as Tu. pose proof (trig2 w) as Tw.
  destruct p as [[]| | | | | | | | | | | | | | | | |]; try discriminate; intros H.
  - assert (eta = 1) as -> by congruence. lra.
  - assert (E : eta = (1 + 2 * e * cos nu + cos nu ^ 2) / (2 * (1 + e * cos nu))) by congruence.
    rewrite E. clear H E.
    assert (cos nu ^ 2 <= 1) by nra.
    split.
    + apply Rmult_le_pos; [|left; apply Rinv_0_lt_compat; lra].
      destruct (Rle_dec 0 (cos nu)); nra.
    + apply (Rmult_le_reg_r (2 * (1 + e * cos nu))); [lra|].
      unfold Rdiv. rewrite Rmult_assoc, Rinv_l, Rmult_1_r, Rmult_1_l by lra. lra.
  - match type of H with Ok ?x = _ => assert (E : eta = x) by congruence end. rewrite E. clear H E.
    rewrite Hcn in Hq |- *. apply node_efficiency; lra.
  - match type of H with Ok ?x = _ => assert (E : eta = x) by congruence end. rewrite E. clear H E.
    rewrite Hcn in Hq |- *.
    replace (cos (w + nu) * cos w + sin (w + nu) * sin w)
      with (sin (w + nu) * sin w + cos (w + nu) * cos w) in Hq |- * by ring.
    apply node_efficiency; lra.
  - match type of H with Ok ?x = _ => assert (E : eta = x) by congruence end. rewrite E. clear H E.
    assert (Hpos : 0 <= k_sma k * (1 - e) / (k_mu k * (1 + e))).
    { apply Rmult_le_pos; [nra|]. left. apply Rinv_0_lt_compat. nra. }
    pose proof (norm_nonneg (velocity_km_s o)) as Hn0.
    pose proof (sqrt_pos (k_sma k * (1 - e) / (k_mu k * (1 + e)))) as Hs0.
    split; [apply Rmult_le_pos; assumption|].
    apply Rsqr_incr_0_var; [|lra]. unfold Rsqr.
    replace (norm (velocity_km_s o) * sqrt (k_sma k * (1 - e) / (k_mu k * (1 + e))) *
             (norm (velocity_km_s o) * sqrt (k_sma k * (1 - e) / (k_mu k * (1 + e)))))
      with ((norm (velocity_km_s o) * norm (velocity_km_s o)) *
            (sqrt (k_sma k * (1 - e) / (k_mu k * (1 + e))) * sqrt (k_sma k * (1 - e) / (k_mu k * (1 + e))))) by ring.
    rewrite sqrt_sqrt by exact Hpos. rewrite norm_sqr, Hv.
    replace (k_mu k * (1 + 2 * e * cos nu + e ^ 2) / (k_sma k * (1 - e ^ 2)) * (k_sma k * (1 - e) / (k_mu k * (1 + e))))
      with ((1 + 2 * e * cos nu + e ^ 2) / ((1 + e) * (1 + e))) by (field; repeat split; nra).
    apply (Rmult_le_reg_r ((1 + e) * (1 + e))); [nra|].
    unfold Rdiv. rewrite Rmult_assoc, Rinv_l by nra. nra.
Qed.
End Laws.

(** ** Concrete spacecraft *)

Definition demo_sc : spacecraft :=
  Spacecraft (Orbit 0 0 (V3 7000 0 0) (V3 0 7 0)) 100 50 0 1 (18/10) 2 (22/10)
    (Some (Thruster 1 300)) Thrust None None.
Definition no_bplane (o : orbit) : option (R * R * R) := None.
Definition dcm_identity (f : nat) (o : orbit) : option m3 := Some identity3.
Definition full_shadow (o : orbit) : list (option R) := [Some 0; Some 100].

(** The eclipse limit of the Ruggiero law is ignored: a spacecraft in the dark is told to
    thrust (ruggiero.rs:445 follows the branch that sets it to coast). *)
Theorem C42_ruggiero_eclipse_refuted : exists evaluate bplane dcm shadows ru sc sc' limit,
  ru_max_eclipse ru = Some limit /\ 0 <= limit /\ shaded shadows (sc_orbit sc) limit /\
  mode sc <> Inhibit /\ ruggiero_next evaluate bplane dcm shadows ru sc = Ok sc' /\ mode sc' = Thrust.
Proof.
  exists (fun _ _ => Some 7000), no_bplane, dcm_identity, full_shadow,
    (Ruggiero [(within_tolerance (Element SemiMajorAxis) 8000 1, 0)] (Some 20) demo_sc), demo_sc,
    (mut_mode (mut_mode demo_sc Coast) Thrust), 20.
  split; [reflexivity|]. split; [lra|]. split; [exists 100; split; [cbn; auto|lra]|].
  split; [discriminate|]. split; [|reflexivity].
  unfold ruggiero_next. cbn [demo_sc mode map fst ru_objectives all_achieved value obj_parameter
    within_tolerance element_value ok_or assess_value multiplicative_factor desired_value additive_factor
    obj_tolerance ru_max_eclipse].
  destruct (Rle_dec _ _) as [A|A].
  - exfalso. rewrite Rabs_pos_eq in A by lra. lra.
  - unfold eclipse_percentage, full_shadow. cbn [eclipse_over].
    destruct (Rlt_dec 0 0) as [B|_]; [lra|]. destruct (Rlt_dec 0 100) as [_|B]; [|lra].
    destruct (Rlt_dec 20 100) as [_|B]; [|lra]. reflexivity.
Qed.

(** A Kluever law built with fewer weights than objectives forgets the last objectives: it coasts while
    they are not met. *)
Theorem C42_kluever_weights_refuted : exists evaluate bplane dcm shadows objs weights sc sc',
  weights <> [] /\ mode sc <> Inhibit /\ ~ Forall (met evaluate bplane dcm sc) objs /\
  kluever_next evaluate bplane dcm shadows (kluever_new objs weights) sc = Ok sc' /\ mode sc' = Coast.
Proof.
  exists (fun _ _ => Some 7000), no_bplane, dcm_identity, full_shadow,
    [within_tolerance (Element SemiMajorAxis) 7000 1; within_tolerance (Element SemiMajorAxis) 8000 1], [1],
    demo_sc, (mut_mode demo_sc Coast).
  split; [discriminate|]. split; [discriminate|]. split.
  - intros F. inversion F as [|? ? _ F']; subst. inversion F' as [|? ? (v & Hv & Hm) _]; subst.
    cbn [value obj_parameter within_tolerance element_value ok_or] in Hv. assert (v = 7000) as -> by congruence.
    cbn [multiplicative_factor desired_value additive_factor obj_tolerance within_tolerance] in Hm.
    rewrite Rabs_pos_eq in Hm by lra. lra.
  - split; [|reflexivity].
    unfold kluever_next. cbn [kluever_new combine demo_sc mode map fst kl_objectives all_achieved value obj_parameter
      within_tolerance element_value ok_or assess_value multiplicative_factor desired_value additive_factor
      obj_tolerance kl_max_eclipse].
    destruct (Rle_dec _ _) as [A|A]; [reflexivity|]. exfalso. apply A. rewrite Rabs_pos_eq by lra. lra.
Qed.

(** The same situation for the Kluever law, which does coast: the hypotheses of
    [C42_kluever_mode] can be met. *)
Example C42_kluever_coasts_in_eclipse :
  kluever_next (fun _ _ => Some 7000) no_bplane dcm_identity full_shadow
    (Kluever [(within_tolerance (Element SemiMajorAxis) 8000 1, 1)] (Some 20)) demo_sc
  = Ok (mut_mode demo_sc Coast).
Proof.
  unfold kluever_next. cbn [demo_sc mode map fst kl_objectives all_achieved value obj_parameter
    within_tolerance element_value ok_or assess_value multiplicative_factor desired_value additive_factor
    obj_tolerance kl_max_eclipse].
  destruct (Rle_dec _ _) as [A|A].
  - exfalso. rewrite Rabs_pos_eq in A by lra. lra.
  - unfold eclipse_percentage, full_shadow. cbn [eclipse_over].
    destruct (Rlt_dec 0 0) as [B|_]; [lra|]. destruct (Rlt_dec 0 100) as [_|B]; [|lra].
    destruct (Rlt_dec 20 100) as [_|B]; [|lra]. reflexivity.
Qed.

Definition circular (nu : R) : keplerian :=
  {| k_ecc := 0; k_ta := nu; k_aop := 0; k_raan := 0; k_inc := 0; k_ea := nu; k_sma := 7000;
     k_mu := 343000; k_semi_parameter := 7000 |}.

Lemma circular_on_conic nu : on_conic 343000 0 nu 7000 7.
Proof. unfold on_conic. lra. Qed.

(** Below the target in the equinoctial element h (the eccentricity vector along the second
    axis of an equatorial orbit, here the direction of motion), the Kluever law pushes it
    further down. *)
Theorem C64_equinoctial_h_refuted : exists evaluate bplane dcm kepler kl k sc o v d mu r s l,
  mode sc = Thrust /\ kepler (sc_orbit sc) = Some k /\ dcm RCN (sc_orbit sc) = Some identity3 /\
  kl_objectives kl = [(o, 1)] /\ obj_parameter o = Element EQ_H /\
  value evaluate bplane dcm sc (obj_parameter o) = Ok v /\ v < desired_value o /\
  obj_tolerance o <= Rabs (desired_value o - v) /\
  on_conic mu (k_ecc k) (k_ta k) r s /\ k_inc k = 0 /\ k_ta k + k_aop k + k_raan k = 0 /\
  kluever_direction evaluate bplane dcm kepler kl sc = Ok d /\
  rate_along (fun vel => vy (ecc_vector mu (local_position r) vel))
    (local_velocity s (k_ecc k) (k_ta k)) d l /\ l < 0.
Proof.
  set (o := within_tolerance (Element EQ_H) (1/10) (1/100)).
  exists (fun _ _ => Some 0), no_bplane, dcm_identity, (fun _ => Some (circular 0)),
    (Kluever [(o, 1)] None), (circular 0), demo_sc, o, 0, (V3 1 0 0), 343000, 7000, 7,
    (- (1 * 7000 * 7 / 343000)).
  do 6 (split; [reflexivity|]). split; [cbn; lra|]. split; [cbn; rewrite Rabs_pos_eq; lra|].
  split; [apply circular_on_conic|]. split; [reflexivity|]. split; [cbn; ring|].
  split; [|split; [|lra]].
  - unfold kluever_direction.
    cbn [demo_sc mode kl_objectives kluever_sums].
    destruct (Req_EM_T 1 0) as [A|_]; [lra|].
    change (obj_parameter o) with (Element EQ_H). unfold EQ_H.
    cbn [value element_value ok_or lift bind o within_tolerance desired_value obj_tolerance].
    destruct (Rlt_dec (Rabs (1/10 - 0)) (1/100)) as [A|_]; [rewrite Rabs_pos_eq in A; lra|].
    unfold kluever_term, EQ_K, EQ_H. cbn [value element_value ok_or lift bind].
    change (k_ta (circular 0) + k_aop (circular 0) + k_raan (circular 0)) with (0 + 0 + 0).
    replace (0 + 0 + 0) with 0 by ring.
    replace (fsignum (1/10 - 0)) with 1 by (unfold fsignum; destruct (Rlt_dec (1/10 - 0) 0); lra).
    cbn [dcm_identity]. unfold dcm_identity. rewrite mv_identity. f_equal.
    rewrite kluever_steering_unit.
    + assert (E : triple (0 + 1 * 1 * cos 0, 0 + 1 * 1 * (sin 0 + (0 + sin 0) / (1 + 0 * sin 0 + 0 * cos 0)), 0 + 0)
                  = V3 1 0 0).
      { unfold triple. cbn [fst snd]. rewrite sin_0, cos_0. f_equal; field. }
      rewrite E. replace (norm (V3 1 0 0)) with 1.
      * unfold vscale. cbn [vx vy vz]. f_equal; field.
      * unfold norm, dot. cbn [vx vy vz]. replace (1 * 1 + 0 * 0 + 0 * 0) with 1 by ring.
        symmetry. apply sqrt_1.
    + intros E. apply (f_equal vx) in E. unfold triple in E. cbn [fst snd vx vzero] in E.
      rewrite cos_0 in E. lra.
  - replace (local_velocity 7 (k_ecc (circular 0)) (k_ta (circular 0))) with (V3 0 7 0).
    + apply circular_radial_rate; lra.
    + unfold local_velocity. cbn [circular k_ecc k_ta]. f_equal; ring.
Qed.

(** The hypotheses of [C64_kluever_steers] and [C64_ruggiero_steers] can be met. *)
Example C64_steering_case :
  exists d, kluever_direction (fun _ _ => Some 7000) no_bplane dcm_identity (fun _ => Some (circular 0))
    (Kluever [(within_tolerance (Element SemiMajorAxis) 8000 1, 1)] None) demo_sc = Ok d /\
  exists w, weighting (fun _ _ => Some 7000) no_bplane dcm_identity (fun _ => Some (circular 0))
    (Ruggiero [(within_tolerance (Element SemiMajorAxis) 8000 1, 0)] None demo_sc)
    (within_tolerance (Element SemiMajorAxis) 8000 1) demo_sc 0 = Ok w /\ w <> 0.
Proof.
  eexists. split.
  - unfold kluever_direction. cbn [demo_sc mode kl_objectives kluever_sums].
    destruct (Req_EM_T 1 0) as [A|_]; [lra|].
    cbn [value element_value ok_or lift bind obj_parameter within_tolerance desired_value obj_tolerance kluever_term].
    destruct (Rlt_dec _ _) as [A|_]; [rewrite Rabs_pos_eq in A; lra|]. reflexivity.
  - eexists. split.
    + unfold weighting. cbn [value element_value ok_or obj_parameter within_tolerance desired_value obj_tolerance
        ru_init demo_sc efficiency].
      destruct (Rlt_dec (Rabs (7000 - 8000)) 1) as [A|_]; [rewrite Rabs_left in A; lra|].
      destruct (Rlt_dec _ 0) as [A|_].
      * exfalso. apply (Rlt_not_le _ _ A). apply Rmult_le_pos; [apply norm_nonneg|apply sqrt_pos].
      * reflexivity.
    + destruct (Rlt_dec (Rabs (7000 - 8000)) 1) as [A|_]; [rewrite Rabs_left in A; lra|].
      rewrite Rabs_pos_eq by lra. lra.
Qed.

Example C65_range_case : vis_viva (circular 0) (Orbit 0 0 (V3 7000 0 0) (V3 0 7 0)).
Proof. unfold vis_viva, dot. cbn. lra. Qed.

Print Assumptions C42_kluever_mode.
Print Assumptions C42_inhibited_unchanged.
Print Assumptions C42_ruggiero_mode_partial.
Print Assumptions C42_ruggiero_eclipse_refuted.
Print Assumptions C42_unavailable_objective_panics.
Print Assumptions C43_plane_angles_unit.
Print Assumptions C43_ra_dec_unit.
Print Assumptions C43_ra_dec_roundtrip.
Print Assumptions C43_ra_dec_angles.
Print Assumptions C43_plane_angles_swapped.
Print Assumptions C43_plane_angles_roundtrip_refuted.
Print Assumptions C64_kluever_steers.
Print Assumptions C64_kluever_unit.
Print Assumptions C64_kluever_idle_thrusts.
Print Assumptions C64_ruggiero_steers.
Print Assumptions C64_ruggiero_unit.
Print Assumptions C64_equinoctial_h_refuted.
Print Assumptions C65_efficiency_range.
Print Assumptions C42_kluever_new.
Print Assumptions C42_kluever_from_max_eclipse.
Print Assumptions C42_ruggiero_built.
Print Assumptions C42_kluever_weights_refuted.
