(** C113: what the Kluever law makes of several objectives (kluever.rs:143-287). *)
From Coq Require Import Reals Lra List.
From Verif Require Import Base RustStd Poly_Model Sc_Model Guid_Model Guid_Spec Guid_Steer Guid_Props Guid_Blend Vec3 Angles.
Import ListNotations.
Local Open Scope R_scope.

Section Sum.
Context (evaluate : element -> orbit -> option R) (bplane : orbit -> option (R * R * R))
        (dcm_to_inertial : nat -> orbit -> option m3) (kepler : orbit -> option keplerian).
Notation value := (value evaluate bplane dcm_to_inertial).
Notation kluever_direction := (kluever_direction evaluate bplane dcm_to_inertial kepler).
Notation kluever_sums := (kluever_sums evaluate bplane dcm_to_inertial).

(** ** Specification *)

(** What an objective counts for: nothing when it is met or of no weight; otherwise [u], what the law commands for it
    alone, [a] being its weight times the size of the gradient of its element (in [C64_kluever_steers], up to the
    constants of the orbit; one for the inclination and the node). *)
Definition weighs (kl : kluever) (k : keplerian) (sc : spacecraft) (ow : objective * R) (au : R * v3) : Prop :=
  let (o, w) := ow in let (a, u) := au in
  (w = 0 -> a = 0) /\
  (w <> 0 -> exists v, value sc (obj_parameter o) = Ok v /\
     (Rabs (desired_value o - v) < obj_tolerance o -> a = 0) /\
     (obj_tolerance o <= Rabs (desired_value o - v) ->
        a = w * norm (gradient k (obj_parameter o)) /\ kluever_direction (Kluever [(o, w)] (kl_max_eclipse kl)) sc = Ok u)).

(** ** Proofs *)

Lemma term_gradient k sc p w t : keplerian_element p -> kluever_term evaluate bplane dcm_to_inertial k sc p w = Ok t ->
  triple t = vscale w (gradient k p).
Proof.
  intros Hp H. destruct p as [[]| | | | | | | | | | | | | | | | |]; try contradiction; cbn [kluever_term gradient] in *;
  (match type of H with Ok ?x = _ => assert (Et : t = x) by congruence; rewrite Et end);
  unfold triple, vscale; cbn [fst snd vx vy vz]; f_equal; ring.
Qed.

Lemma triple_add na da nb t : triple (na + fst (fst t), da + snd (fst t), nb + snd t) = vadd (triple (na, da, nb)) (triple t).
Proof. reflexivity. Qed.

Lemma one_weighs kl k sc o w l acc s dcm mu r sp :
  mode sc = Thrust -> kepler (sc_orbit sc) = Some k -> dcm_to_inertial RCN (sc_orbit sc) = Some dcm -> on_conic mu (k_ecc k) (k_ta k) r sp ->
  0 <= w -> keplerian_element (obj_parameter o) -> kluever_sums k sc ((o, w) :: l) acc = Ok s ->
  exists a u acc' c, weighs kl k sc (o, w) (a, u) /\ triple acc' = vadd (triple acc) c /\ mv dcm c = vscale a u /\ kluever_sums k sc l acc' = Ok s.
Proof.
  intros Hm Hk Hd Hc Hw Hp H. cbn [Guid_Model.kluever_sums] in H.
  assert (Zs : mv dcm vzero = vscale 0 vzero) by (rewrite mv_zero; unfold vscale, vzero; cbn [vx vy vz]; f_equal; ring).
  destruct (Req_EM_T w 0) as [E|E].
  { exists 0, vzero, acc, vzero. split; [split; [reflexivity|intros; contradiction]|]. split; [now rewrite vadd_0_r|]. split; [exact Zs|exact H]. }
  destruct (value sc (obj_parameter o)) as [v|x| |] eqn:Hv; cbn [lift bind] in H; try discriminate.
  cbv zeta in H. destruct (Rlt_dec (Rabs (desired_value o - v)) (obj_tolerance o)) as [A|A].
  { exists 0, vzero, acc, vzero. split; [split; [reflexivity|]|]; [|split; [now rewrite vadd_0_r|]; split; [exact Zs|exact H]].
    intros _. exists v. split; [exact Hv|]. split; [reflexivity|intros; lra]. }
  destruct (kluever_term _ _ _ k sc (obj_parameter o) (w * fsignum (desired_value o - v))) as [t|x| |] eqn:Ht; cbn [bind] in H; try discriminate.
  pose proof (term_gradient _ _ _ _ _ Hp Ht) as Hg. destruct acc as [[na da] nb]. destruct t as [[ta tb] tc].
  set (g := gradient k (obj_parameter o)) in *. pose proof (norm_pos _ (gradient_nonzero _ _ _ _ _ Hc Hp)) as Hn. fold g in Hn.
  set (sg := fsignum (desired_value o - v)) in *.
  assert (Hsg : Rabs sg = 1) by (destruct (fsignum_cases (desired_value o - v)) as [F|F]; unfold sg; rewrite F; [apply Rabs_R1|rewrite Rabs_left; lra]).
  assert (Hnt : norm (triple (ta, tb, tc)) = w * norm g) by (rewrite Hg, norm_scale, Rabs_mult, Hsg, (Rabs_pos_eq w) by lra; ring).
  assert (Hpos : 0 < w * norm g) by (apply Rmult_lt_0_compat; lra).
  assert (Hz : triple (ta, tb, tc) <> vzero) by (intros F; apply norm_zero_iff in F; lra).
  exists (w * norm g), (mv dcm (kluever_steering (ta, tb, tc))), (na + ta, da + tb, nb + tc), (triple (ta, tb, tc)).
  split; [split; [intros; contradiction|]|split; [reflexivity|split; [|exact H]]].
  - intros _. exists v. split; [exact Hv|]. split; [intros; lra|]. intros _. split; [reflexivity|].
    unfold Guid_Model.kluever_direction. rewrite Hm, Hk. cbn [kl_objectives Guid_Model.kluever_sums].
    destruct (Req_EM_T w 0) as [F|_]; [contradiction|]. rewrite Hv. cbn [lift bind]. cbv zeta.
    destruct (Rlt_dec _ _) as [F|_]; [contradiction|]. fold sg. rewrite Ht. cbn [bind]. rewrite Hd. repeat f_equal; ring.
  - rewrite (kluever_steering_unit _ Hz), Hnt, mv_scale. set (x := mv dcm _). destruct x as [x y z]. unfold vscale. cbn [vx vy vz]. f_equal; field; lra.
Qed.

Lemma all_weigh kl k sc dcm mu r sp :
  mode sc = Thrust -> kepler (sc_orbit sc) = Some k -> dcm_to_inertial RCN (sc_orbit sc) = Some dcm -> on_conic mu (k_ecc k) (k_ta k) r sp ->
  forall l acc s, (forall o w, In (o, w) l -> 0 <= w /\ keplerian_element (obj_parameter o)) -> kluever_sums k sc l acc = Ok s ->
  exists parts, Forall2 (weighs kl k sc) l parts /\ mv dcm (triple s) = vadd (mv dcm (triple acc)) (blended parts).
Proof.
  intros Hm Hk Hd Hc. induction l as [|[o w] l IH]; intros acc s Hl H.
  - exists []. split; [constructor|]. cbn [Guid_Model.kluever_sums] in H. assert (E : acc = s) by congruence. rewrite E. cbn [blended]. now rewrite vadd_0_r.
  - destruct (Hl o w (or_introl eq_refl)) as [Hw Hp].
    destruct (one_weighs kl _ _ _ _ _ _ _ _ _ _ _ Hm Hk Hd Hc Hw Hp H) as (a & u & acc' & c & W & Ea & Ec & H').
    destruct (IH _ _ (fun o' w' Hi => Hl o' w' (or_intror Hi)) H') as (parts & F & E).
    exists ((a, u) :: parts). split; [constructor; assumption|]. rewrite E, Ea, mv_add, Ec. cbn [blended]. apply vadd_assoc.
Qed.

(** The direction is that of the sum of what the law commands for each objective alone, by weight; along the motion
    when nothing is left. *)
Theorem C113_sum : forall kl k sc d dcm mu r s,
  mode sc = Thrust -> kepler (sc_orbit sc) = Some k -> dcm_to_inertial RCN (sc_orbit sc) = Some dcm -> is_rotation dcm ->
  on_conic mu (k_ecc k) (k_ta k) r s ->
  (forall o w, In (o, w) (kl_objectives kl) -> 0 <= w /\ keplerian_element (obj_parameter o)) ->
  kluever_direction kl sc = Ok d ->
  exists parts, Forall2 (weighs kl k sc) (kl_objectives kl) parts /\
    (blended parts <> vzero -> direction_of (blended parts) d) /\ (blended parts = vzero -> d = mv dcm (V3 0 1 0)).
Proof.
  intros kl k sc d dcm mu r s Hm Hk Hd Hrot Hc Hl H. unfold Guid_Model.kluever_direction in H. rewrite Hm, Hk in H.
  destruct (kluever_sums k sc (kl_objectives kl) (0, 0, 0)) as [t|x| |] eqn:Hs; cbn [bind] in H; try discriminate. rewrite Hd in H.
  destruct (all_weigh kl _ _ _ _ _ _ Hm Hk Hd Hc _ _ _ Hl Hs) as (parts & F & E).
  change (triple (0, 0, 0)) with vzero in E. rewrite mv_zero, vadd_0_l in E.
  exists parts. split; [exact F|]. rewrite <- E. replace d with (mv dcm (kluever_steering t)) by congruence. split.
  - intros Hz. assert (Ht : triple t <> vzero) by (intros G; apply Hz; rewrite G; apply mv_zero).
    rewrite (kluever_steering_unit _ Ht), <- (normalized_norm _ Ht). now apply direction_rotated.
  - intros Hz. assert (Ht : triple t = vzero).
    { apply norm_zero_iff. rewrite <- (rotation_norm dcm _ Hrot), Hz. apply norm_zero_iff. reflexivity. }
    destruct t as [[na da] nb]. unfold triple, vzero in Ht. cbn [fst snd] in Ht.
    assert (na = 0) by congruence. assert (da = 0) by congruence. assert (nb = 0) by congruence. subst. now rewrite kluever_steering_idle.
Qed.
End Sum.

(** Two objectives that meet the hypotheses of [C113_sum]. *)
Example sum_case :
  let inc := within_tolerance (Element Inclination) (1 / 10) (1 / 100) in
  let sma := within_tolerance (Element SemiMajorAxis) (1 / 10) (1 / 100) in
  on_conic 343000 (k_ecc (circular 0)) (k_ta (circular 0)) 7000 7 /\
  exists d, kluever_direction (fun _ _ => Some 0) no_bplane dcm_identity (fun _ => Some (circular 0)) (Kluever [(inc, 2); (sma, 1)] None) demo_sc = Ok d.
Proof.
  cbv zeta. split; [apply circular_on_conic|]. unfold Guid_Model.kluever_direction. cbn [demo_sc mode kl_objectives kluever_sums].
  repeat (match goal with |- context [if ?c then _ else _] => destruct c end;
          cbn [bind lift value element_value ok_or kluever_term obj_parameter within_tolerance desired_value obj_tolerance]);
  eexists; reflexivity.
Qed.

Print Assumptions C113_sum.
