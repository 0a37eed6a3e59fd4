(** C112: what the Ruggiero law makes of several objectives (ruggiero.rs:216-238, 296-422). *)
From Coq Require Import Reals Lra List.
From Verif Require Import Base RustStd Poly_Model Sc_Model Guid_Model Guid_Spec Guid_Steer Guid_Props Vec3 Angles.
Import ListNotations.
Local Open Scope R_scope.

(** ** Specification *)

(** [d] is the direction of [s], zero if [s] is zero. *)
Definition direction_of (s d : v3) : Prop := (s = vzero -> d = vzero) /\ (s <> vzero -> norm d = 1 /\ exists c, 0 < c /\ d = vscale c s).
Fixpoint blended (l : list (R * v3)) : v3 := match l with [] => vzero | (a, u) :: l' => vadd (vscale a u) (blended l') end.
(** The same law with one objective only. *)
Definition alone (ru : ruggiero) (ob : objective * R) : ruggiero := Ruggiero [ob] (ru_max_eclipse ru) (ru_init ru).

Lemma mv_zero m : mv m vzero = vzero.
Proof. unfold mv, dot, vzero. cbn [vx vy vz]. f_equal; ring. Qed.
Lemma mv_add m a b : mv m (vadd a b) = vadd (mv m a) (mv m b).
Proof. unfold mv, dot, vadd. cbn [vx vy vz]. f_equal; ring. Qed.
Lemma mv_scale m c a : mv m (vscale c a) = vscale c (mv m a).
Proof. unfold mv, dot, vscale. cbn [vx vy vz]. f_equal; ring. Qed.
Lemma vadd_0_l a : vadd vzero a = a.
Proof. destruct a as [x y z]. unfold vadd, vzero. cbn [vx vy vz]. f_equal; ring. Qed.
Lemma vadd_0_r a : vadd a vzero = a.
Proof. destruct a as [x y z]. unfold vadd, vzero. cbn [vx vy vz]. f_equal; ring. Qed.
Lemma vadd_assoc a b c : vadd (vadd a b) c = vadd a (vadd b c).
Proof. unfold vadd. cbn [vx vy vz]. f_equal; ring. Qed.

Lemma normalized_zero : normalized vzero = vzero.
Proof. unfold normalized. destruct (Rlt_dec _ _); [|reflexivity]. unfold vscale, vzero. cbn [vx vy vz]. f_equal; ring. Qed.

Lemma direction_rotated m s : is_rotation m -> direction_of (mv m s) (mv m (normalized s)).
Proof.
  intros Hm. pose proof (rotation_norm m s Hm) as Hn. split.
  - intros E. rewrite E in Hn. assert (Hz : norm s = 0) by (rewrite <- Hn; apply norm_zero_iff; reflexivity).
    apply norm_zero_iff in Hz. rewrite Hz, normalized_zero. apply mv_zero.
  - intros E. assert (Hs : s <> vzero) by (intros ->; apply E, mv_zero). pose proof (norm_pos _ Hs) as Hp.
    rewrite (normalized_norm _ Hs). pose proof (Rinv_0_lt_compat _ Hp). split.
    + rewrite rotation_norm by exact Hm. rewrite norm_scale, Rabs_pos_eq by lra. field. lra.
    + exists (/ norm s). split; [assumption|]. apply mv_scale.
Qed.

Section Blend.
Context (evaluate : element -> orbit -> option R) (bplane : orbit -> option (R * R * R))
        (dcm_to_inertial : nat -> orbit -> option m3) (kepler : orbit -> option keplerian).
Notation value := (value evaluate bplane dcm_to_inertial).
Notation ruggiero_direction := (ruggiero_direction evaluate bplane dcm_to_inertial kepler).
Notation ruggiero_throttle := (ruggiero_throttle evaluate bplane dcm_to_inertial kepler).
Notation ruggiero_sum := (ruggiero_sum evaluate bplane dcm_to_inertial kepler).

(** What an objective counts for: [a] is the error that remains over the one at the start (over the tolerance
    when it was already met at the start), and [u] what the law commands for it alone: nothing when it is met
    or its efficiency is below the threshold, a unit vector otherwise. *)
Definition contributes (ru : ruggiero) (sc : spacecraft) (ob : objective * R) (au : R * v3) : Prop :=
  let (o, threshold) := ob in let (a, u) := au in let target := desired_value o in let tol := obj_tolerance o in
  ruggiero_direction (alone ru ob) sc = Ok u /\
  exists v v0 eta, value sc (obj_parameter o) = Ok v /\ value (ru_init ru) (obj_parameter o) = Ok v0 /\
    efficiency kepler (obj_parameter o) (sc_orbit sc) = Ok eta /\
    (tol <= Rabs (v0 - target) -> a = Rabs (target - v) / Rabs (target - v0)) /\
    (Rabs (v0 - target) < tol -> a = Rabs (target - v) / Rabs (target - (v0 + tol))) /\
    (Rabs (v - target) < tol \/ eta < threshold -> u = vzero) /\
    (tol <= Rabs (v - target) -> threshold <= eta -> norm u = 1).

Lemma term_unit k o p t : ruggiero_term k o p = Ok t -> norm t = 1.
Proof.
  intros H. destruct p as [[]| | | | | | | | | | | | | | | | |]; try discriminate; cbn [ruggiero_term] in H;
  try (match type of H with Ok ?x = _ => assert (Et : t = x) by congruence; rewrite Et end; apply C43_plane_angles_unit).
  cbv zeta in H. destruct (Rlt_dec _ _) in H; match type of H with Ok ?x = _ => assert (Et : t = x) by congruence; rewrite Et end; apply C43_plane_angles_unit.
Qed.

Lemma one_contributes ru sc o threshold l acc s dcm :
  mode sc = Thrust -> dcm_to_inertial RCN (sc_orbit sc) = Some dcm -> is_rotation dcm -> 0 < obj_tolerance o ->
  ruggiero_sum ru sc ((o, threshold) :: l) acc = Ok s ->
  exists a u c, contributes ru sc (o, threshold) (a, u) /\ mv dcm c = vscale a u /\ ruggiero_sum ru sc l (vadd acc c) = Ok s.
Proof.
  intros Hm Hd Hrot Ht H. cbn [Guid_Model.ruggiero_sum] in H.
  destruct (weighting _ _ _ _ ru o sc threshold) as [w|x| |] eqn:Hw; cbn [bind] in H; try discriminate.
  pose proof Hw as Hw1. unfold weighting in Hw1.
  destruct (value (ru_init ru) (obj_parameter o)) as [v0|x| |] eqn:Hv0; try discriminate.
  destruct (value sc (obj_parameter o)) as [v|x| |] eqn:Hv; try discriminate.
  destruct (efficiency kepler (obj_parameter o) (sc_orbit sc)) as [eta|x| |] eqn:Heta; try discriminate.
  set (base := if Rlt_dec (Rabs (v0 - desired_value o)) (obj_tolerance o) then v0 + obj_tolerance o else v0) in *.
  set (a := Rabs (desired_value o - v) / Rabs (desired_value o - base)).
  assert (Ha : (obj_tolerance o <= Rabs (v0 - desired_value o) -> a = Rabs (desired_value o - v) / Rabs (desired_value o - v0)) /\
               (Rabs (v0 - desired_value o) < obj_tolerance o -> a = Rabs (desired_value o - v) / Rabs (desired_value o - (v0 + obj_tolerance o)))).
  { unfold a, base. destruct (Rlt_dec _ _); split; intros; try lra; reflexivity. }
  assert (Hb : 0 < Rabs (desired_value o - base)).
  { apply Rabs_pos_lt. unfold base. destruct (Rlt_dec (Rabs (v0 - desired_value o)) (obj_tolerance o)) as [C|C].
    - apply Rabs_def2 in C. lra.
    - intros F. apply C. replace (v0 - desired_value o) with 0 by lra. rewrite Rabs_R0. exact Ht. }
  assert (Hal : forall x, ruggiero_direction (alone ru (o, threshold)) sc = Ok x <->
     ruggiero_direction (Ruggiero [(o, threshold)] (ru_max_eclipse ru) (ru_init ru)) sc = Ok x) by (intros x; reflexivity).
  assert (Hwa : weighting evaluate bplane dcm_to_inertial kepler (alone ru (o, threshold)) o sc threshold = Ok w) by exact Hw.
  destruct (Rlt_dec (Rabs (v - desired_value o)) (obj_tolerance o)) as [A|A];
    [|destruct (Rlt_dec eta threshold) as [B|B]].
  1, 2: assert (E0 : w = 0) by congruence; subst w; rewrite Rabs_R0 in H; (destruct (Rle_dec 0 0) as [_|F]; [|lra]);
    exists a, vzero, vzero; (split; [split|]);
    [ unfold Guid_Model.ruggiero_direction; rewrite Hm; cbn [alone ru_objectives Guid_Model.ruggiero_sum]; rewrite Hwa; cbn [bind];
      rewrite Rabs_R0; (destruct (Rle_dec 0 0) as [_|F]; [|lra]); cbn [bind]; rewrite Hd, normalized_zero, mv_zero; reflexivity
    | exists v, v0, eta; split; [exact Hv|]; split; [exact Hv0|]; split; [exact Heta|]; split; [apply Ha|]; split; [apply Ha|]; split; [reflexivity|]; intros; lra
    | rewrite vadd_0_r; split; [rewrite mv_zero; unfold vscale, vzero; cbn [vx vy vz]; f_equal; ring|exact H] ].
  assert (E : w = (desired_value o - v) / Rabs (desired_value o - base)) by congruence.
  assert (Hvd : desired_value o - v <> 0).
  { intros F. apply A. replace (v - desired_value o) with 0 by lra. rewrite Rabs_R0. exact Ht. }
  assert (Ew : Rabs w = a).
  { rewrite E. unfold a, Rdiv. rewrite Rabs_mult, (Rabs_pos_eq (/ _)) by (left; now apply Rinv_0_lt_compat). reflexivity. }
  assert (Hap : 0 < a) by (apply Rdiv_lt_0_compat; [now apply Rabs_pos_lt|exact Hb]).
  rewrite Ew in H. destruct (Rle_dec a 0) as [F|_]; [lra|].
  destruct (kepler (sc_orbit sc)) as [k|] eqn:Hk; [|discriminate].
  destruct (ruggiero_term k (sc_orbit sc) (obj_parameter o)) as [t|x| |] eqn:Hterm; cbn [bind] in H; try discriminate.
  pose proof (term_unit _ _ _ _ Hterm) as Htu.
  assert (Hc : norm (vscale w t) = a) by (rewrite norm_scale, Htu, Ew; ring).
  assert (Hcz : vscale w t <> vzero) by (intros F; apply norm_zero_iff in F; lra).
  exists a, (mv dcm (vscale (/ a) (vscale w t))), (vscale w t). split; [split|split].
  - unfold Guid_Model.ruggiero_direction. rewrite Hm. cbn [alone ru_objectives Guid_Model.ruggiero_sum]. rewrite Hwa. cbn [bind].
    rewrite Ew. destruct (Rle_dec a 0) as [F|_]; [lra|]. rewrite Hk, Hterm. cbn [bind]. rewrite Hd, vadd_0_l, (normalized_norm _ Hcz), Hc. reflexivity.
  - exists v, v0, eta. split; [exact Hv|]. split; [exact Hv0|]. split; [exact Heta|]. split; [apply Ha|]. split; [apply Ha|]. split; [intros; lra|].
    intros _ _. rewrite rotation_norm by exact Hrot. rewrite norm_scale, Hc, Rabs_pos_eq by (left; now apply Rinv_0_lt_compat). field. lra.
  - rewrite (mv_scale dcm (/ a)). set (x := mv dcm (vscale w t)). destruct x as [x y z]. unfold vscale. cbn [vx vy vz]. f_equal; field; lra.
  - exact H.
Qed.

Lemma all_contribute ru sc dcm :
  mode sc = Thrust -> dcm_to_inertial RCN (sc_orbit sc) = Some dcm -> is_rotation dcm ->
  forall l acc s, (forall o th, In (o, th) l -> 0 < obj_tolerance o) -> ruggiero_sum ru sc l acc = Ok s ->
  exists parts, Forall2 (contributes ru sc) l parts /\ mv dcm s = vadd (mv dcm acc) (blended parts).
Proof.
  intros Hm Hd Hrot. induction l as [|[o th] l IH]; intros acc s Ht H.
  - exists []. split; [constructor|]. cbn [Guid_Model.ruggiero_sum] in H. assert (E : acc = s) by congruence. rewrite E. cbn [blended]. now rewrite vadd_0_r.
  - destruct (one_contributes _ _ _ _ _ _ _ _ Hm Hd Hrot (Ht o th (or_introl eq_refl)) H) as (a & u & c & Hc & Hcu & H').
    destruct (IH _ _ (fun o' th' Hi => Ht o' th' (or_intror Hi)) H') as (parts & F & E).
    exists ((a, u) :: parts). split; [constructor; assumption|]. rewrite E, mv_add, Hcu. cbn [blended]. apply vadd_assoc.
Qed.

(** The direction is that of the sum of what each objective alone commands, each with its share of the error
    that remains. *)
Theorem C112_blend : forall ru sc d dcm,
  mode sc = Thrust -> dcm_to_inertial RCN (sc_orbit sc) = Some dcm -> is_rotation dcm ->
  (forall o th, In (o, th) (ru_objectives ru) -> 0 < obj_tolerance o) ->
  ruggiero_direction ru sc = Ok d ->
  exists parts, Forall2 (contributes ru sc) (ru_objectives ru) parts /\ direction_of (blended parts) d.
Proof.
  intros ru sc d dcm Hm Hd Hrot Ht H. unfold Guid_Model.ruggiero_direction in H. rewrite Hm in H.
  destruct (ruggiero_sum ru sc (ru_objectives ru) vzero) as [s|x| |] eqn:Hs; cbn [bind] in H; try discriminate.
  rewrite Hd in H. destruct (all_contribute _ _ _ Hm Hd Hrot _ _ _ Ht Hs) as (parts & F & E).
  exists parts. split; [exact F|]. rewrite mv_zero, vadd_0_l in E. rewrite <- E.
  replace d with (mv dcm (normalized s)) by congruence. now apply direction_rotated.
Qed.

(** So the law does not thrust when every objective is met or below its threshold. *)
Theorem C112_idle : forall ru sc lvl dcm,
  mode sc = Thrust -> dcm_to_inertial RCN (sc_orbit sc) = Some dcm -> is_rotation dcm ->
  (forall o th, In (o, th) (ru_objectives ru) -> 0 < obj_tolerance o /\
    exists v eta, value sc (obj_parameter o) = Ok v /\ efficiency kepler (obj_parameter o) (sc_orbit sc) = Ok eta /\
      (Rabs (v - desired_value o) < obj_tolerance o \/ eta < th)) ->
  ruggiero_throttle ru sc = Ok lvl -> lvl = 0.
Proof.
  intros ru sc lvl dcm Hm Hd Hrot Hin H. unfold Guid_Model.ruggiero_throttle in H. rewrite Hm in H.
  destruct (ruggiero_direction ru sc) as [d|x| |] eqn:E; cbn [bind] in H; try discriminate.
  destruct (C112_blend _ _ _ _ Hm Hd Hrot (fun o th Hi => proj1 (Hin o th Hi)) E) as (parts & F & (D & _)).
  assert (Z : blended parts = vzero).
  { clear - F Hin. induction F as [|[o th] [a u] l parts Hc F IH]; [reflexivity|]. cbn [blended].
    rewrite IH by (intros; apply Hin; now right). destruct (Hin o th (or_introl eq_refl)) as (_ & v & eta & Hv & He & Hor).
    destruct Hc as (_ & v' & v0 & eta' & Hv' & _ & He' & _ & _ & Hz & _).
    assert (v' = v) by congruence. assert (eta' = eta) by congruence. subst v' eta'. rewrite (Hz Hor).
    unfold vadd, vscale, vzero. cbn [vx vy vz]. f_equal; ring. }
  rewrite (D Z) in H. assert (N : norm vzero = 0) by (apply norm_zero_iff; reflexivity). rewrite N in H.
  destruct (Rlt_dec 0 0); [lra|]. congruence.
Qed.

(** And a single objective that is neither met nor below its threshold is thrust for. *)
Theorem C112_thrusts : forall ru sc o th lvl dcm v eta,
  mode sc = Thrust -> dcm_to_inertial RCN (sc_orbit sc) = Some dcm -> is_rotation dcm ->
  ru_objectives ru = [(o, th)] -> 0 < obj_tolerance o ->
  value sc (obj_parameter o) = Ok v -> efficiency kepler (obj_parameter o) (sc_orbit sc) = Ok eta ->
  obj_tolerance o <= Rabs (v - desired_value o) -> th <= eta ->
  ruggiero_throttle ru sc = Ok lvl -> lvl = 1.
Proof.
  intros ru sc o th lvl dcm v eta Hm Hd Hrot Ho Ht Hv He Hfar Hth H. unfold Guid_Model.ruggiero_throttle in H. rewrite Hm in H.
  destruct (ruggiero_direction ru sc) as [d|x| |] eqn:E; cbn [bind] in H; try discriminate.
  assert (Hin : forall o' th', In (o', th') (ru_objectives ru) -> 0 < obj_tolerance o').
  { rewrite Ho. intros o' th' [F|[]]. congruence. }
  destruct (C112_blend _ _ _ _ Hm Hd Hrot Hin E) as (parts & F & _). rewrite Ho in F.
  inversion F as [|[o1 th1] [a u] l l' Hc F' E1' E2']; subst. destruct Hc as (Hal & v' & v0 & eta' & Hv' & _ & He' & _ & _ & _ & Hu).
  assert (v' = v) by congruence. assert (eta' = eta) by congruence. subst v' eta'.
  assert (Ed : Ok d = Ok u :> res guid_error v3).
  { rewrite <- Hal, <- E. unfold Guid_Model.ruggiero_direction, alone. rewrite Ho. destruct ru. cbn in Ho |- *. reflexivity. }
  assert (d = u) by congruence. subst u. rewrite (Hu Hfar Hth) in H. destruct (Rlt_dec 0 1); [congruence|lra].
Qed.
End Blend.

(** At the node, the inclination meets the hypotheses of [C112_thrusts] and the node those of [C112_idle]; with
    both objectives the law gives a direction. *)
Example blend_case :
  let inc := within_tolerance (Element Inclination) (1 / 10) (1 / 100) in
  let node := within_tolerance (Element RAAN) (1 / 10) (1 / 100) in
  let zero := fun _ _ => Some 0 in let kepler := fun _ => Some (circular 0) in
  is_rotation identity3 /\ mode demo_sc = Thrust /\
  value zero no_bplane dcm_identity demo_sc (Element Inclination) = Ok 0 /\
  efficiency kepler (Element Inclination) (sc_orbit demo_sc) = Ok 1 /\
  efficiency kepler (Element RAAN) (sc_orbit demo_sc) = Ok 0 /\
  obj_tolerance inc <= Rabs (0 - desired_value inc) /\
  exists d, ruggiero_direction zero no_bplane dcm_identity kepler (Ruggiero [(inc, 1 / 2); (node, 1 / 2)] None demo_sc) demo_sc = Ok d.
Proof.
  cbv zeta. split.
  - assert (T : transpose identity3 = identity3) by reflexivity.
    assert (M : mm identity3 identity3 = identity3).
    { unfold mm, identity3, matrix3, col0, col1, col2, dot. cbn [vx vy vz row0 row1 row2]. f_equal; f_equal; ring. }
    unfold is_rotation. rewrite T. split; [exact M|]. split; [exact M|].
    unfold det3, identity3, matrix3, cross, dot. cbn [vx vy vz row0 row1 row2]. ring.
  - split; [reflexivity|]. split; [reflexivity|].
    split; [|split; [|split]].
    + unfold efficiency. f_equal. cbn [circular k_ecc k_ta k_aop]. rewrite Rplus_0_l, cos_0, sin_0, Rabs_R1.
      replace (1 - 0 ^ 2 * 0 ^ 2) with 1 by ring. rewrite sqrt_1. field.
    + unfold efficiency. f_equal. cbn [circular k_ecc k_ta k_aop]. rewrite Rplus_0_l, cos_0, sin_0, Rabs_R0. field.
    + cbn [within_tolerance obj_tolerance desired_value]. rewrite Rabs_left; lra.
    + unfold Guid_Model.ruggiero_direction. cbn [demo_sc mode ru_objectives ruggiero_sum].
      unfold weighting, efficiency. cbn [value element_value ok_or lift bind ru_init obj_parameter within_tolerance desired_value obj_tolerance].
      repeat (match goal with |- context [if ?c then _ else _] => destruct c end; cbn [bind lift ruggiero_term]); eexists; reflexivity.
Qed.

Print Assumptions C112_blend.
Print Assumptions C112_idle.
Print Assumptions C112_thrusts.
