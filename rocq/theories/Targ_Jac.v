(** C106: the entries of the Jacobian of the targeter as finite differences of the objectives. *)
From Coq Require Import Reals Lra Lia Psatz.
From Verif Require Import Base Vec3 Angles Poly_Model Sc_Model Guid_Model Targ_Model Targ_Props.
Local Open Scope R_scope.

(** ** Specification *)

(** The components of the direction of the thrust, of its rate and of its acceleration, and the axis that
    their name tells. *)
Definition axis_of (c : vary) : option nat :=
  match c with
  | VThrustX | ThrustRateX | ThrustAccelX => Some 0%nat
  | VThrustY | ThrustRateY | ThrustAccelY => Some 1%nat
  | VThrustZ | ThrustRateZ | ThrustAccelZ => Some 2%nat
  | _ => None
  end.
Definition of_direction (c : vary) : Prop := In c [VThrustX; VThrustY; VThrustZ].
Definition of_rates (c : vary) : Prop := In c [ThrustRateX; ThrustRateY; ThrustRateZ; ThrustAccelX; ThrustAccelY; ThrustAccelZ].
(** The axis before: that of Z for X, of X for Y and of Y for Z. *)
Definition before (i : nat) : nat := match i with 0 => 2 | 1 => 0 | _ => 1 end%nat.
Definition used_axis (c : vary) : option nat :=
  match c with
  | VThrustX | VThrustY | VThrustZ => axis_of c
  | _ => option_map before (axis_of c)
  end.
Definition along (d : v3) (i : nat) (x : R) : v3 :=
  vadd d (vscale x (match i with 0 => V3 1 0 0 | 1 => V3 0 1 0 | _ => V3 0 0 1 end%nat)).
(** The vector that a component belongs to, and the maneuver with another one. *)
Definition vector_of (c : vary) (m : maneuver) : res guid_error v3 :=
  match c with
  | VThrustX | VThrustY | VThrustZ => m_direction m
  | ThrustRateX | ThrustRateY | ThrustRateZ => m_rate m
  | _ => m_accel m
  end.
Definition with_vector (c : vary) (m : maneuver) (d : v3) : res guid_error maneuver :=
  match c with
  | VThrustX | VThrustY | VThrustZ => set_direction m d
  | ThrustRateX | ThrustRateY | ThrustRateZ => set_rate m d
  | _ => set_accel m d
  end.
Definition component_of (d : v3) (i : nat) : R := match i with 0 => vx d | 1 => vy d | _ => vz d end%nat.

Section Jacobian.
Context (coast : spacecraft -> Z -> res targ_error spacecraft)
        (guided guided_capped : maneuver -> spacecraft -> Z -> res targ_error spacecraft)
        (transform_to : orbit -> nat -> option orbit)
        (partial_for : element -> orbit -> option R)
        (bplane : orbit -> option (R * R * R))
        (dcm_to_inertial : nat -> orbit -> option m3)
        (of_secs : R -> Z).
Notation entry := (jacobian_entry coast guided guided_capped transform_to partial_for bplane dcm_to_inertial of_secs).
Notation final := (final_state coast guided guided_capped).

(** The value of a parameter at the achievement epoch, after this maneuver (if any) from this state. *)
Definition reached (t : targeter) (burn : bool) (m : maneuver) (xi : spacecraft) (ae : Z) (p : parameter) (a : R) : Prop :=
  exists xf o, final burn m xi ae = Ok xf /\ seen transform_to (objective_frame t) (sc_orbit xf) o /\
    reads partial_for bplane o p a.

Lemma reached_unique t burn m xi ae p a b : reached t burn m xi ae p a -> reached t burn m xi ae p b -> a = b.
Proof.
  intros (xf & o & H1 & H2 & H3) (xf' & o' & K1 & K2 & K3). assert (xf' = xf) as -> by congruence.
  assert (o' = o) as ->. { unfold seen in *. destruct (objective_frame t); congruence. }
  destruct H3; inversion K3; congruence.
Qed.

Lemma entry_spec t burn xi m ae p achieved v x : entry t burn xi m ae p achieved v = Ok x ->
  exists xi' m' (opposed : bool) a,
    (if is_finite_burn (component v) then perturb_maneuver of_secs m v = Ok (m', opposed) /\ xi' = xi
     else m' = m /\ opposed = false /\ exists i c, vec_index (component v) = Ok i /\ add_at zero6 i (perturbation v) = Ok c /\
            correct dcm_to_inertial t xi c = Ok xi') /\
    reached t burn m' (if burn then xi else xi') ae p a /\
    x = (match component v with ThrustLevel => -1 | _ => 1 end) * (if opposed then -1 else 1) * ((a - achieved) / perturbation v).
Proof.
  intros H. unfold jacobian_entry, unwrap in H.
  match type of H with match ?b with _ => _ end = _ => destruct b as [y| | |] eqn:Hb; try discriminate end.
  assert (y = x) as -> by congruence. clear H. unb Hb r Er. destruct r as [[xi' m'] opposed].
  unb Hb xf Ef. unb Hb o Eo. unb Hb b Eb. unb Hb a Ea.
  exists xi', m', opposed, a. split; [|split].
  - destruct (is_finite_burn (component v)).
    + unb Er mb Em. destruct mb as [m1 b1]. cbn [fst snd] in Er. split; congruence.
    + unb Er i Ei. unb Er c Ec. unb Er xi1 Ex. split; [congruence|]. split; [congruence|].
      exists i, c. split; [exact Ei|]. split; [exact Ec|]. congruence.
  - exists xf, o. split; [exact Ef|]. split; [now apply seen_by|]. eapply value_reads; eauto.
  - assert (K : forall z y : R, Ok (E := targ_error) z = Ok y -> y = z) by congruence. apply K in Hb. subst x.
    destruct opposed, (component v); ring.
Qed.

(** ** Position and velocity *)

(** Without a burn, the entry of a component of the state is the slope from the state to this state moved by
    the perturbation along this component. *)
Theorem C106_state t xi m ae p achieved v x : of_state (component v) -> correction_frame t = None -> perturbation v <> 0 ->
  entry t false xi m ae p achieved v = Ok x ->
  reached t false m (move xi (scale6 (perturbation v) (unit6 (component v)))) ae p (achieved + x * perturbation v).
Proof.
  intros Hs Hf Hp H. apply entry_spec in H. destruct H as (xi' & m' & opposed & a & H1 & H2 & H3).
  rewrite (state_no_burn _ Hs) in H1. destruct H1 as (-> & -> & i & c & Hi & Hc & Hx).
  apply (add_at_state _ _ _ _ _ Hs Hi) in Hc. unfold correct in Hx. rewrite Hf in Hx.
  replace (add6 zero6 (scale6 (perturbation v) (unit6 (component v)))) with (scale6 (perturbation v) (unit6 (component v))) in Hc by (now rewrite add6_zero_l).
  assert (xi' = move xi c) as -> by congruence. subst c.
  replace (achieved + x * perturbation v) with a; [exact H2|]. rewrite H3.
  replace (match component v with ThrustLevel => -1 | _ => 1 end) with 1 by (cbn in Hs; intuition (match goal with E : _ = component v |- _ => rewrite <- E end; reflexivity)).
  field. exact Hp.
Qed.
(** With a local frame of the correction, the perturbation is along the axis of this frame. *)
Theorem C106_local_frame t f xi m ae p achieved v x : In (component v) [VelocityX; VelocityY; VelocityZ] ->
  correction_frame t = Some f -> perturbation v <> 0 -> entry t false xi m ae p achieved v = Ok x ->
  exists dcm, dcm_to_inertial f (sc_orbit xi) = Some dcm /\
    reached t false m (move xi (vzero, mv dcm (vscale (perturbation v) (snd (unit6 (component v)))))) ae p (achieved + x * perturbation v).
Proof.
  intros Hs Hf Hp H. assert (Hs' : of_state (component v)) by (cbn in *; intuition).
  apply entry_spec in H. destruct H as (xi' & m' & opposed & a & H1 & H2 & H3).
  rewrite (state_no_burn _ Hs') in H1. destruct H1 as (-> & -> & i & c & Hi & Hc & Hx).
  apply (add_at_state _ _ _ _ _ Hs' Hi) in Hc. unfold correct in Hx. rewrite Hf in Hx.
  rewrite add6_zero_l in Hc. unb Hx dcm Ed. exists dcm. split.
  - unfold or_fail in Ed. destruct (dcm_to_inertial f (sc_orbit xi)); congruence.
  - assert (xi' = move xi (vzero, mv dcm (snd c))) as -> by congruence. subst c. cbn [snd scale6] in H2.
    replace (achieved + x * perturbation v) with a; [exact H2|]. rewrite H3.
    replace (match component v with ThrustLevel => -1 | _ => 1 end) with 1 by (cbn in Hs; intuition (match goal with E : _ = component v |- _ => rewrite <- E end; reflexivity)).
    field. exact Hp.
Qed.

(** As soon as another variable is one of a burn, a component of the state has no effect: its perturbation is
    not propagated and its column is zero, whatever the dynamics. *)
Theorem C106_mixed_refuted t xi m ae p achieved v x : of_state (component v) ->
  reached t true m xi ae p achieved -> entry t true xi m ae p achieved v = Ok x -> x = 0.
Proof.
  intros Hs Ha H. apply entry_spec in H. destruct H as (xi' & m' & opposed & a & H1 & H2 & H3).
  rewrite (state_no_burn _ Hs) in H1. destruct H1 as (-> & -> & _). assert (a = achieved) as -> by (eapply reached_unique; eauto).
  rewrite H3. unfold Rdiv. replace (achieved - achieved) with 0 by ring. ring.
Qed.

(** ** Thrust vectors *)

Lemma add_comp_along d i x d' : add_comp d i x = Ok d' -> d' = along d i x.
Proof.
  destruct d as [a b c]. destruct i as [|[|[|i]]]; cbn; intros H; try discriminate;
    (match type of H with Ok ?t = _ => assert (d' = t) as -> by congruence end); unfold along, vadd, vscale; cbn; f_equal; ring.
Qed.
Lemma perturb_vector_spec v d i d' o : (i < 3)%nat -> min_value v <= max_value v -> perturb_vector v d i = Ok (d', o) ->
  exists delta, (delta = perturbation v /\ o = false \/ delta = - perturbation v /\ o = true) /\ d' = along d i delta /\
    (delta = perturbation v /\ o = false <-> min_value v <= component_of d i + perturbation v <= max_value v).
Proof.
  intros Hi B H. unfold perturb_vector in H. unb H da Ea1. pose proof (add_comp_along _ _ _ _ Ea1) as A1.
  assert (C : comp_of da i = component_of d i + perturbation v).
  { subst da. destruct d as [a b c]. unfold along, vadd, vscale. destruct i as [|[|[|i]]]; cbn; try lia; ring. }
  pose proof (C52_bounds v (comp_of da i) B) as (_ & _ & CB & _). rewrite CB in H. cbn [snd] in H. rewrite C in H. clear CB.
  destruct (Rle_dec (min_value v) (component_of d i + perturbation v)) as [L1|L1];
    [destruct (Rle_dec (component_of d i + perturbation v) (max_value v)) as [L2|L2]|].
  - assert (d' = da /\ o = false) as [-> ->] by (split; congruence). exists (perturbation v).
    split; [left; now split|]. split; [exact A1|]. split; [intros _; lra|now split].
  - unb H db2 Ea2. assert (d' = db2 /\ o = true) as [-> ->] by (split; congruence). exists (- perturbation v).
    split; [right; now split|]. split; [|split; [intros [_ F]; discriminate F|intros; lra]].
    apply add_comp_along in Ea2. subst da db2. destruct d as [a b c]. unfold along, vadd, vscale.
    destruct i as [|[|[|i]]]; cbn; f_equal; ring.
  - unb H db2 Ea2. assert (d' = db2 /\ o = true) as [-> ->] by (split; congruence). exists (- perturbation v).
    split; [right; now split|]. split; [|split; [intros [_ F]; discriminate F|intros; lra]].
    apply add_comp_along in Ea2. subst da db2. destruct d as [a b c]. unfold along, vadd, vscale.
    destruct i as [|[|[|i]]]; cbn; f_equal; ring.
Qed.
Lemma lift_ok {A} (r : res guid_error A) a : lift_guid r = Ok a -> r = Ok a.
Proof. destruct r; cbn; congruence. Qed.

Definition slope_along (t : targeter) (xi : spacecraft) (m : maneuver) (ae : Z) (p : parameter) (achieved : R) (v : variable) (x : R) (i : nat) : Prop :=
  exists d m' delta, vector_of (component v) m = Ok d /\
    (delta = perturbation v \/ delta = - perturbation v) /\
    (min_value v <= component_of d i + perturbation v <= max_value v -> delta = perturbation v) /\
    (~ (min_value v <= component_of d i + perturbation v <= max_value v) -> delta = - perturbation v) /\
    with_vector (component v) m (along d i delta) = Ok m' /\
    reached t true m' xi ae p (achieved + x * delta).
Lemma vector_entry t xi m ae p achieved v x i : used_axis (component v) = Some i -> perturbation v <> 0 ->
  min_value v <= max_value v -> entry t true xi m ae p achieved v = Ok x ->
  slope_along t xi m ae p achieved v x i.
Proof.
  intros Hi Hp B H. apply entry_spec in H. destruct H as (xi' & m' & opposed & a & H1 & H2 & H3). cbv iota in H2.
  assert (L : (i < 3)%nat) by (destruct (component v); cbn in Hi; try discriminate; injection Hi as <-; lia).
  assert (S : is_finite_burn (component v) = true) by (destruct (component v); cbn in Hi; try discriminate; reflexivity).
  rewrite S in H1. destruct H1 as [H1 ->].
  assert (T : (match component v with ThrustLevel => -1 | _ => 1 end) = 1) by (destruct (component v); cbn in Hi; try discriminate; reflexivity).
  rewrite T in H3. clear T S.
  assert (K : exists d d', vector_of (component v) m = Ok d /\ perturb_vector v d i = Ok (d', opposed) /\
            with_vector (component v) m d' = Ok m').
  { unfold perturb_maneuver in H1. destruct (component v); cbn in Hi; try discriminate Hi;
      assert (i = i) by reflexivity; injection Hi as <-; cbn [vec_index bind Nat.sub Nat.modulo Nat.divmod] in H1;
      unb H1 d Ed; unb H1 db Eb; unb H1 m1 Ea1; destruct db as [d' b]; cbn [fst snd] in *;
      exists d, d'; (split; [now apply lift_ok|]); assert (m1 = m' /\ b = opposed) as [-> ->] by (split; congruence);
      (split; [exact Eb|now apply lift_ok]). }
  destruct K as (d & d' & K1 & K2 & K3). destruct (perturb_vector_spec _ _ _ _ _ L B K2) as (delta & D1 & D2 & D3).
  exists d, m', delta. subst d'. split; [exact K1|]. split; [tauto|]. split; [intros G; apply D3 in G; tauto|].
  split; [|split; [exact K3|]].
  - intros G. destruct D1 as [D1|D1]; [elim G; now apply D3|tauto].
  - replace (achieved + x * delta) with a; [exact H2|]. rewrite H3. destruct D1 as [[-> ->]|[-> ->]]; field; exact Hp.
Qed.

(** The entry of a component of the direction of thrust is the slope to the maneuver whose direction is moved
    along this component: by the perturbation, or by its opposite when it would leave the bounds, which the
    sign of the slope takes into account. *)
Theorem C106_direction t xi m ae p achieved v x i : of_direction (component v) -> axis_of (component v) = Some i ->
  perturbation v <> 0 -> min_value v <= max_value v -> entry t true xi m ae p achieved v = Ok x ->
  slope_along t xi m ae p achieved v x i.
Proof.
  intros D A. apply vector_entry. cbn in D. destruct D as [D|[D|[D|[]]]]; rewrite <- D in *; exact A.
Qed.
(** That of a component of the rate or of the acceleration is the slope along another axis than the one it is
    named after: Z for X, X for Y and Y for Z. *)
Theorem C106_rate_axis_refuted t xi m ae p achieved v x i : of_rates (component v) -> axis_of (component v) = Some i ->
  perturbation v <> 0 -> min_value v <= max_value v -> entry t true xi m ae p achieved v = Ok x ->
  before i <> i /\ slope_along t xi m ae p achieved v x (before i).
Proof.
  intros D A N B H. split; [destruct i as [|[|i]]; cbn; try discriminate; destruct (component v); cbn in A; try discriminate A; injection A as <-; discriminate|].
  revert H. apply vector_entry; [|exact N|exact B]. cbn in D.
  destruct D as [D|[D|[D|[D|[D|[D|[]]]]]]]; rewrite <- D in *; cbn in A |- *; injection A as <-; reflexivity.
Qed.

(** ** Level of the thrust and dates *)

(** The entry of the level of thrust has the sign opposite to that of the slope (where the level is not
    clamped): a correction computed from it changes the level the wrong way. *)
Theorem C106_level_refuted t xi m ae p achieved v x : component v = ThrustLevel -> perturbation v <> 0 ->
  0 <= thrust_prct m + perturbation v <= 1 -> entry t true xi m ae p achieved v = Ok x ->
  reached t true (with_level m (thrust_prct m + perturbation v)) xi ae p (achieved - x * perturbation v).
Proof.
  intros Hc Hp B H. apply entry_spec in H. destruct H as (xi' & m' & opposed & a & H1 & H2 & H3). cbv iota in H2.
  rewrite Hc in H1, H3. cbn [is_finite_burn] in H1. destruct H1 as [H1 ->].
  unfold perturb_maneuver in H1. rewrite Hc in H1.
  assert (m' = with_level m (clamp (thrust_prct m + perturbation v) 0 1) /\ opposed = false) as [-> ->] by (split; congruence).
  replace (clamp (thrust_prct m + perturbation v) 0 1) with (thrust_prct m + perturbation v) in H2.
  - replace (achieved - x * perturbation v) with a; [exact H2|]. rewrite H3. field. exact Hp.
  - unfold clamp. destruct (Rlt_dec (thrust_prct m + perturbation v) 0); [lra|].
    destruct (Rlt_dec 1 (thrust_prct m + perturbation v)); [lra|reflexivity].
Qed.
(** The entry of the duration compares with a maneuver as long as the perturbation, not longer by it. *)
Theorem C106_duration_refuted t xi m ae p achieved v x : component v = Duration -> 1 / 1000 < Rabs (perturbation v) ->
  entry t true xi m ae p achieved v = Ok x ->
  reached t true (with_end m (m_start m + of_secs (perturbation v))) xi ae p (achieved + x * perturbation v).
Proof.
  intros Hc Hp H. apply entry_spec in H. destruct H as (xi' & m' & opposed & a & H1 & H2 & H3). cbv iota in H2.
  rewrite Hc in H1, H3. cbn [is_finite_burn] in H1. destruct H1 as [H1 ->].
  unfold perturb_maneuver in H1. rewrite Hc in H1. destruct (Rlt_dec (1 / 1000) (Rabs (perturbation v))); [|lra].
  assert (m' = with_end m (m_start m + of_secs (perturbation v)) /\ opposed = false) as [-> ->] by (split; congruence).
  replace (achieved + x * perturbation v) with a; [exact H2|]. rewrite H3. field. intros E. rewrite E, Rabs_R0 in Hp. lra.
Qed.
(** Those of the start and of the end are slopes to the maneuver with this date moved. *)
Theorem C106_dates t xi m ae p achieved v x : component v = StartEpoch \/ component v = EndEpoch ->
  1 / 1000 < Rabs (perturbation v) -> entry t true xi m ae p achieved v = Ok x ->
  reached t true (match component v with
                  | StartEpoch => with_start m (m_start m + of_secs (perturbation v))
                  | _ => with_end m (m_end m + of_secs (perturbation v))
                  end) xi ae p (achieved + x * perturbation v).
Proof.
  intros Hc Hp H. apply entry_spec in H. destruct H as (xi' & m' & opposed & a & H1 & H2 & H3). cbv iota in H2.
  assert (N : perturbation v <> 0) by (intros E; rewrite E, Rabs_R0 in Hp; lra).
  unfold perturb_maneuver in H1. destruct Hc as [Hc|Hc]; rewrite Hc in *; cbn [is_finite_burn] in H1; destruct H1 as [H1 ->];
    (destruct (Rlt_dec (1 / 1000) (Rabs (perturbation v))); [|lra]);
    (replace (achieved + x * perturbation v) with a by (rewrite H3; assert (opposed = false) as -> by congruence; field; exact N));
    match type of H1 with Ok (?mm, _) = _ => assert (m' = mm) as <- by congruence end; exact H2.
Qed.
(** A perturbation of dates of a millisecond or less is not made: the column is zero. *)
Theorem C106_small_refuted t xi m ae p achieved v x :
  component v = StartEpoch \/ component v = EndEpoch \/ component v = Duration -> Rabs (perturbation v) <= 1 / 1000 ->
  reached t true m xi ae p achieved -> entry t true xi m ae p achieved v = Ok x -> x = 0.
Proof.
  intros Hc Hp Ha H. apply entry_spec in H. destruct H as (xi' & m' & opposed & a & H1 & H2 & H3). cbv iota in H2.
  assert (is_finite_burn (component v) = true) as S by (destruct Hc as [->|[->| ->]]; reflexivity). rewrite S in H1.
  destruct H1 as [H1 ->]. unfold perturb_maneuver in H1.
  assert (m' = m) as ->.
  { destruct Hc as [Hc|[Hc|Hc]]; rewrite Hc in H1; (destruct (Rlt_dec (1 / 1000) (Rabs (perturbation v))); [lra|congruence]). }
  assert (a = achieved) as -> by (eapply reached_unique; eauto). rewrite H3. unfold Rdiv. replace (achieved - achieved) with 0 by ring. ring.
Qed.
End Jacobian.

(** ** Examples *)

(** A spacecraft that coasts without moving, its velocity along the first axis being targeted. *)
Definition sit (sc : spacecraft) (e : Z) : res targ_error spacecraft := Ok sc.
Definition first_velocity (e : element) (o : orbit) : option R := match e with VX => Some (vx (velocity_km_s o)) | _ => None end.
Definition a_craft : spacecraft := Spacecraft (Orbit 0 0 vzero (V3 3 0 0)) 100 50 0 0 0 0 0 (Some (Thruster 1 300)) Coast None None.
(** A maneuver that adds its level, or the first component of its direction, to this velocity. *)
Definition push (m : maneuver) (sc : spacecraft) (e : Z) : res targ_error spacecraft :=
  Ok (move sc (vzero, V3 (thrust_prct m + match representation m with Vector d => vx d | _ => 0 end) 0 0)).
Definition hold (m : maneuver) (sc : spacecraft) (e : Z) : res targ_error spacecraft := Ok sc.
Definition no_target : targeter := Targeter [] None [] None 10.
Notation entry_here := (jacobian_entry sit hold push (fun _ _ => None) first_velocity (fun _ => None) (fun _ _ => None) (fun _ => 0%Z)).
Definition straight : maneuver := Maneuver 0 10 (1 / 2) (Vector (V3 1 0 0)) 0.

Example state_entry : exists x, entry_here no_target false a_craft straight 10%Z (Element VX) 3 (variable_of VelocityX) = Ok x /\ x = 1.
Proof. eexists. split; [reflexivity|]. cbn. field. Qed.
Example level_entry : exists x, entry_here no_target true a_craft straight 10%Z (Element VX) (3 + 3 / 2) (variable_of ThrustLevel) = Ok x /\
  0 <= thrust_prct straight + perturbation (variable_of ThrustLevel) <= 1 /\ x = -1.
Proof.
  eexists. split; [reflexivity|]. split; [cbn; lra|]. cbn. unfold clamp.
  destruct (Rlt_dec (1 / 2 + - (1 / 10000)) 0); [lra|]. destruct (Rlt_dec 1 (1 / 2 + - (1 / 10000))); [lra|]. cbn. field.
Qed.

(** The direction is at its bound: the perturbation is opposed, and the slope is 1. *)
Example direction_entry : exists x, entry_here no_target true a_craft straight 10%Z (Element VX) (3 + 3 / 2) (variable_of VThrustX) = Ok x /\
  ~ component_of (V3 1 0 0) 0 + perturbation (variable_of VThrustX) <= max_value (variable_of VThrustX) /\ x = 1.
Proof.
  assert (N1 : norm (V3 1 0 0) = 1) by (unfold norm, dot; cbn; replace (1 * 1 + 0 * 0 + 0 * 0) with 1 by ring; apply sqrt_1).
  assert (D : m_direction straight = Ok (V3 1 0 0)) by (cbn -[norm]; rewrite N1; f_equal; unfold vscale; cbn; f_equal; field).
  assert (T : tiny vzero = true).
  { unfold tiny. replace (norm vzero) with 0 by (unfold norm, dot; cbn; replace (0 * 0 + 0 * 0 + 0 * 0) with 0 by ring; now rewrite sqrt_0).
    match goal with |- context [Rlt_dec ?a ?b] => destruct (Rlt_dec a b) as [|N]; [reflexivity|exfalso; apply N; apply EPSILON_pos] end. }
  assert (S : forall d, set_direction straight d = Ok (Maneuver 0 10 (1 / 2) (Vector d) 0)).
  { intros d. unfold set_direction, m_rate, m_accel, m_coeff, straight. cbn [representation bind]. unfold set_direction_and_rates. rewrite ?T. reflexivity. }
  exists 1. split; [|split; [cbn; lra|reflexivity]].
  unfold jacobian_entry. cbn [component variable_of is_finite_burn]. unfold perturb_maneuver. cbn [component variable_of vec_index bind].
  rewrite D. cbn [lift_guid bind]. unfold perturb_vector. cbn [add_comp bind perturbation vx vy vz comp_of]. unfold check_bounds.
  cbn [max_value min_value]. destruct (Rlt_dec 1 (1 + 1 / 10000)) as [|N]; [|exfalso; apply N; lra]. cbn [snd bind add_comp fst vx vy vz].
  rewrite S. cbn. f_equal. field.
Qed.

Print Assumptions C106_state.
Print Assumptions C106_local_frame.
Print Assumptions C106_mixed_refuted.
Print Assumptions C106_direction.
Print Assumptions C106_rate_axis_refuted.
Print Assumptions C106_level_refuted.
Print Assumptions C106_duration_refuted.
Print Assumptions C106_dates.
Print Assumptions C106_small_refuted.
