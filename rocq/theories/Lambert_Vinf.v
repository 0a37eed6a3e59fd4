(** C96: the orbits and the asymptote of a Lambert transfer. *)
From Coq Require Import Reals Lra Lia Psatz.
From Verif Require Import Base Vec3 Angles Sc_Model Lambert_Model Lambert_Proofs Lambert_Arc Lambert_Props.
Local Open Scope R_scope.

(** ** Specification *)

(** The velocity of the spacecraft with respect to the body it leaves or reaches. *)
Definition leaving (i : lambert_input) (v1 : v3) : v3 := vsub v1 (velocity_km_s (initial_state i)).
Definition reaching (i : lambert_input) (v2 : v3) : v3 := vsub v2 (velocity_km_s (final_state i)).
(** The direction of a right ascension and a declination, in degrees. *)
Definition direction_of (ra dec : R) : v3 :=
  let a := ra * (PI / 180) in let d := dec * (PI / 180) in
  V3 (cos d * cos a) (cos d * sin a) (sin d).

(** ** Proofs *)

(** A solution is one of the problem posed, whose states have one frame with a gravitational
    parameter. *)
Theorem C96_input : forall hyp2f1b mu_of mu i o1 o2 kind s,
  (from_planetary_states mu_of o1 o2 = Ok i <->
   frame o1 = frame o2 /\ mu_of (frame o1) <> None /\ initial_state i = o1 /\ final_state i = o2) /\
  (gooding mu i kind = Ok s -> input s = i) /\ (izzo hyp2f1b mu i kind = Ok s -> input s = i).
Proof.
  intros hyp2f1b mu_of mu i o1 o2 kind s. split; [|split].
  - unfold from_planetary_states. destruct (Nat.eqb_spec (frame o2) (frame o1)) as [E|N].
    + destruct (mu_of (frame o1)) as [m|].
      * split.
        -- intros H. assert (i = {| initial_state := o1; final_state := o2 |}) as -> by congruence.
           split; [now symmetry|]. split; [discriminate|]. split; reflexivity.
        -- intros (_ & _ & <- & <-). now destruct i.
      * split; [discriminate|]. intros (_ & N & _). now contradiction N.
    + split; [discriminate|]. intros (E & _). now contradiction N.
  - unfold gooding. destruct (direction_of_motion _ _ _) as [dm|e| |]; cbn [bind]; try discriminate. cbv zeta.
    match goal with |- (if ?c then _ else _) = _ -> _ => destruct c end; [discriminate|].
    match goal with |- bind ?x _ = _ -> _ => destruct x as [x0|e| |]; cbn [bind]; try discriminate end.
    intros H. match type of H with Ok ?t = _ => assert (s = t) as -> by congruence end. destruct x0; reflexivity.
  - unfold izzo. cbv zeta. match goal with |- bind ?x _ = _ -> _ => destruct x as [dm|e| |]; cbn [bind]; try discriminate end.
    match goal with |- bind ?x _ = _ -> _ => destruct x as [xy|e| |]; cbn [bind]; try discriminate end.
    destruct (reconstruct _ _ _ _ _ _ _ _) as [[[v1 v2] v3] v4]. intros H.
    match type of H with Ok ?t = _ => assert (s = t) as -> by congruence end. reflexivity.
Qed.

(** The transfer orbit leaves from the initial place and time, the arrival orbit is at the final ones,
    and their velocities are those of the solution. *)
Theorem C96_orbits : forall s v1 v2 o1 o2, velocities s = Some (v1, v2) ->
  transfer_orbit s = Some o1 -> arrival_orbit s = Some o2 ->
  radius_km o1 = departure (input s) /\ radius_km o2 = arrival (input s) /\
  epoch o1 = epoch (initial_state (input s)) /\ epoch o2 = epoch (final_state (input s)) /\
  frame o1 = frame (initial_state (input s)) /\ frame o2 = frame (final_state (input s)) /\
  velocity_km_s o1 = v1 /\ velocity_km_s o2 = v2.
Proof.
  intros s v1 v2 o1 o2 V H1 H2. unfold transfer_orbit, arrival_orbit in *. rewrite V in *. cbn [option_map fst snd] in *.
  injection H1 as <-. injection H2 as <-. repeat split.
Qed.
(** With Gooding's solver both are on one conic. *)
Theorem C96_same_orbit : forall mu_of i kind s o1 o2, posed mu_of i -> gooding mu_of i kind = Ok s ->
  transfer_orbit s = Some o1 -> arrival_orbit s = Some o2 ->
  same_conic (mu_of (frame o1)) (radius_km o1) (velocity_km_s o1) (radius_km o2) (velocity_km_s o2).
Proof.
  intros mu_of i kind s o1 o2 P H H1 H2. destruct (velocities s) as [[v1 v2]|] eqn:V.
  - pose proof (C51_same_conic _ _ _ _ _ _ P H V) as C.
    destruct (C96_orbits s v1 v2 o1 o2 V H1 H2) as (-> & -> & _ & _ & -> & _ & -> & ->).
    rewrite (proj1 (proj2 (C96_input (fun x => x) (fun _ => None) mu_of i (initial_state i) (final_state i) kind s)) H). exact C.
  - unfold transfer_orbit in H1. rewrite V in H1. discriminate.
Qed.

Lemma deg x : x * (180 / PI) * (PI / 180) = x.
Proof. pose proof PI_RGT_0. field. lra. Qed.
(** The declination and the right ascension are those of the velocity with respect to the body left, and
    the characteristic energy is its square. *)
Theorem C96_asymptote : forall s v1 v2, velocities s = Some (v1, v2) ->
  let w := leaving (input s) v1 in
  c3_km2_s2 s = Some (dot w w) /\
  (v_inf_outgoing_declination_deg s = None <-> w = vzero) /\
  (w <> vzero -> exists dec ra,
    v_inf_outgoing_declination_deg s = Some dec /\ v_inf_outgoing_right_ascension_deg s = Some ra /\
    w = vscale (norm w) (direction_of ra dec) /\ -90 <= dec <= 90 /\ -180 < ra <= 180).
Proof.
  intros s v1 v2 V. cbv zeta. set (w := leaving (input s) v1).
  assert (E : v_inf_outgoing s = Some (vscale (-1) w)).
  { unfold v_inf_outgoing. rewrite V. cbn [option_map fst]. f_equal. unfold w, leaving.
    apply v3_eq; unfold vsub, vscale; cbn [vx vy vz]; ring. }
  assert (W : vscale (-1) (vscale (-1) w) = w) by (apply v3_eq; unfold vscale; cbn [vx vy vz]; ring).
  unfold c3_km2_s2, v_inf_outgoing_declination_deg, v_inf_outgoing_right_ascension_deg. rewrite E. cbn [option_map]. rewrite W.
  pose proof PI_RGT_0 as Pi.
  split; [|split].
  - f_equal. unfold dot, vscale; cbn [vx vy vz]; ring.
  - destruct (Req_EM_T (norm w) 0) as [Z|N]; split; try discriminate; try reflexivity.
    + intros _. now apply norm_zero_iff.
    + intros Z. contradiction N. now apply norm_zero_iff.
  - intros Hw. apply norm_pos in Hw as Hn. destruct (Req_EM_T (norm w) 0) as [Z|N]; [lra|].
    exists (asin (vz w / norm w) * (180 / PI)), (atan2 (vy w) (vx w) * (180 / PI)).
    do 2 (split; [reflexivity|]).
    pose proof (norm_sqr w) as Q. unfold dot in Q.
    assert (B : -1 <= vz w / norm w <= 1).
    { assert (S : (vz w / norm w) * norm w = vz w) by (field; exact N).
      assert (L : - norm w <= vz w <= norm w) by (pose proof (Rle_0_sqr (vx w)); pose proof (Rle_0_sqr (vy w)); unfold Rsqr in *; split; nra).
      split; apply (Rmult_le_reg_r (norm w)); lra. }
    split; [|split].
    + unfold direction_of. rewrite !deg. rewrite sin_asin by exact B. rewrite cos_asin by exact B.
      assert (P : norm w * sqrt (1 - (vz w / norm w)²) = sqrt (vx w * vx w + vy w * vy w)).
      { rewrite <- (sqrt_pow2 (norm w)) at 1 by lra. rewrite <- sqrt_mult_alt by nra. f_equal.
        unfold Rsqr. field_simplify; [|lra]. nra. }
      assert (A : vx w = cos (atan2 (vy w) (vx w)) * sqrt (vx w * vx w + vy w * vy w) /\
                  vy w = sin (atan2 (vy w) (vx w)) * sqrt (vx w * vx w + vy w * vy w)).
      { destruct (Req_EM_T (vx w) 0) as [X|X]; [destruct (Req_EM_T (vy w) 0) as [Y|Y]|].
        - rewrite X, Y. replace (0 * 0 + 0 * 0) with 0 by ring. rewrite sqrt_0. split; ring.
        - destruct (atan2_spec (vy w) (vx w)) as [A1 A2]; [now right|]. split; now symmetry.
        - destruct (atan2_spec (vy w) (vx w)) as [A1 A2]; [now left|]. split; now symmetry. }
      destruct A as [A1 A2]. apply v3_eq; unfold vscale; cbn [vx vy vz].
      * rewrite A1 at 1. rewrite <- P. ring.
      * rewrite A2 at 1. rewrite <- P. ring.
      * field. exact N.
    + pose proof (asin_bound (vz w / norm w)) as Ab.
      assert (K : 180 / PI * (PI / 2) = 90) by (field; lra). assert (0 < 180 / PI) by (apply Rdiv_lt_0_compat; lra). nra.
    + pose proof (atan2_bounds (vy w) (vx w)) as Ab.
      assert (K : 180 / PI * PI = 180) by (field; lra). assert (0 < 180 / PI) by (apply Rdiv_lt_0_compat; lra). nra.
Qed.

(** The velocities with respect to the bodies have the sizes of the vectors returned for them, and the
    opposite directions. *)
Theorem C96_opposite : forall s v1 v2, velocities s = Some (v1, v2) ->
  v_inf_outgoing s = Some (vscale (-1) (leaving (input s) v1)) /\
  v_inf_incoming s = Some (vscale (-1) (reaching (input s) v2)).
Proof.
  intros s v1 v2 V. unfold v_inf_outgoing, v_inf_incoming. rewrite V. cbn [option_map fst snd].
  split; f_equal; apply v3_eq; unfold leaving, reaching, vsub, vscale; cbn [vx vy vz]; ring.
Qed.

(** ** A transfer *)
Definition stop_at (t : Z) (r v : v3) : orbit := {| epoch := t; frame := 0; radius_km := r; velocity_km_s := v |}.
(** A body on a circle of speed one, left at twice this speed along the same direction. *)
Definition departing : lambert_solution :=
  {| velocities := Some (V3 0 2 0, V3 1 0 0); phi_rad := 0;
     input := {| initial_state := stop_at 0 (V3 1 0 0) (V3 0 1 0); final_state := stop_at 5 (V3 0 2 0) (V3 (-1) 0 0) |} |}.
Lemma departing_w : leaving (input departing) (V3 0 2 0) = V3 0 1 0.
Proof. apply v3_eq; cbn; ring. Qed.
Example C96_case : velocities departing = Some (V3 0 2 0, V3 1 0 0) /\ c3_km2_s2 departing = Some 1 /\
  v_inf_outgoing_declination_deg departing = Some 0 /\ v_inf_outgoing_right_ascension_deg departing = Some 90 /\
  from_planetary_states (fun _ => Some 1) (initial_state (input departing)) (final_state (input departing)) = Ok (input departing).
Proof.
  pose proof PI_RGT_0 as Pi.
  assert (V : vscale (-1) (vsub (V3 0 1 0) (V3 0 2 0)) = V3 0 1 0) by (apply v3_eq; cbn; ring).
  assert (N : norm (V3 0 1 0) = 1).
  { unfold norm, dot; cbn [vx vy vz]. replace (0 * 0 + 1 * 1 + 0 * 0) with 1 by ring. apply sqrt_1. }
  split; [reflexivity|]. split; [|split; [|split; [|reflexivity]]].
  - unfold c3_km2_s2, v_inf_outgoing, departing. cbn [velocities option_map fst input initial_state stop_at velocity_km_s].
    f_equal. unfold dot, vsub; cbn [vx vy vz]; ring.
  - unfold v_inf_outgoing_declination_deg, v_inf_outgoing, departing.
    cbn [velocities option_map fst input initial_state stop_at velocity_km_s]. rewrite V, N. cbn [vz].
    destruct (Req_EM_T 1 0) as [|]; [lra|]. f_equal. replace (0 / 1) with 0 by field. rewrite asin_0. ring.
  - unfold v_inf_outgoing_right_ascension_deg, v_inf_outgoing, departing.
    cbn [velocities option_map fst input initial_state stop_at velocity_km_s]. rewrite V. cbn [vx vy]. f_equal.
    assert (A : atan2 1 0 = PI / 2).
    { pose proof (atan2_polar 1 (PI / 2) ltac:(lra) ltac:(lra)) as A. rewrite sin_PI2, cos_PI2 in A.
      replace (1 * 1) with 1 in A by ring. replace (1 * 0) with 0 in A by ring. exact A. }
    rewrite A. field. lra.
Qed.

(** The vector returned for the departure does not point along the declination and right ascension
    returned for it. *)
Theorem C96_outgoing_refuted : exists s u dec ra, velocities s <> None /\ v_inf_outgoing s = Some u /\
  v_inf_outgoing_declination_deg s = Some dec /\ v_inf_outgoing_right_ascension_deg s = Some ra /\ u <> vzero /\
  u <> vscale (norm u) (direction_of ra dec).
Proof.
  destruct C96_case as (V & _ & D & A & _). exists departing, (V3 0 (-1) 0), 0, 90.
  split; [rewrite V; discriminate|]. split.
  { rewrite (proj1 (C96_opposite _ _ _ V)), departing_w. f_equal. apply v3_eq; unfold vscale; cbn [vx vy vz]; ring. }
  split; [exact D|]. split; [exact A|]. split; [intros E; injection E; lra|].
  intros E. apply (f_equal vy) in E. unfold direction_of, vscale in E. cbn [vx vy vz] in E.
  replace (0 * (PI / 180)) with 0 in E by ring. replace (90 * (PI / 180)) with (PI / 2) in E by field.
  rewrite cos_0, sin_PI2 in E. pose proof (norm_nonneg (V3 0 (-1) 0)). nra.
Qed.

Print Assumptions C96_input.
Print Assumptions C96_orbits.
Print Assumptions C96_same_orbit.
Print Assumptions C96_asymptote.
Print Assumptions C96_opposite.
Print Assumptions C96_outgoing_refuted.
