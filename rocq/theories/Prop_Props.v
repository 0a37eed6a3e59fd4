(** C01-C07: theorems about propagation.  The vocabulary is in [Prop_Spec]. *)
From Coq Require Import Reals Lra.
From Verif Require Import Base Prop_Model Prop_Spec Prop_Proofs Prop_Loop Prop_More Prop_Examples.
Local Open Scope Z_scope.

(** ** C01.  Whatever the dynamics, the table, the step controller and the step history, a
    successful propagation ends exactly at the requested epoch, and the instance holds the
    returned state. *)
Theorem C01_stop_epoch :
  forall (St V F E : Type) (e : env St V F E), keeps_epoch e ->
  forall fuel duration i s,
    o_res (for_duration e fuel duration i) = Ok s ->
    epoch e s = epoch e (state i) + duration /\
    state (o_inst (for_duration e fuel duration i)) = s.
Proof.
  intros St V F E e Hk fuel duration i s H.
  exact (propagate_stops_exactly e never Hk fuel duration i tt s (fun _ _ => eq_refl) H).
Qed.
Print Assumptions C01_stop_epoch.

Theorem C01_until_epoch :
  forall (St V F E : Type) (e : env St V F E), keeps_epoch e ->
  forall fuel end_time i s,
    o_res (until_epoch e fuel end_time i) = Ok s -> epoch e s = end_time.
Proof.
  intros St V F E e Hk fuel end_time i s H.
  pose proof (C01_stop_epoch _ _ _ _ e Hk _ _ _ _ H). lia.
Qed.
Print Assumptions C01_until_epoch.

Example C01_example :
  keeps_epoch (clock 0 Ok) /\
  o_res (for_duration (clock 0 Ok) 5 500 (clock_inst 7 10 false)) = Ok 507 /\
  o_res (for_duration (clock 0 Ok) 9 (-200) (clock_inst 7 100 true)) = Ok (-193).
Proof.
  split; [apply clock_keeps|]. split; [apply clock_adaptive_run|apply clock_fixed_run].
Qed.

(** ** C02.  States sent on the channel are strictly ordered, strictly after the start, never
    past the end; the last one sent is the one returned (up to the rotation back to the
    original frame), unless the stop condition fired, in which case the returned state is
    strictly after all of them and not past the end. *)
Theorem C02_forward_epochs :
  forall (St V F E C : Type) (e : env St V F E) (cond : C -> St -> C * res E bool),
    keeps_epoch e ->
  forall lo fuel duration i c,
    0 <= lo -> steps_forward e lo i -> 0 < duration ->
    let start := epoch e (state i) in
    let o := propagate e cond fuel duration i c in
    increasing_within start (start + duration) (map (epoch e) (o_sent o)) /\
    forall s, o_res o = Ok s ->
      (exists pre x, o_sent o = pre ++ [x] /\ epoch e x = start + duration /\
         (s = x \/ exists f, leave_frame e x f = Ok s)) \/
      ((exists c1 c2, cond c1 s = (c2, Ok true)) /\ start < epoch e s <= start + duration /\
       Forall (fun x => epoch e x < epoch e s) (o_sent o)).
Proof.
  intros St V F E C e cond Hk lo fuel duration i c Hlo Hf Hd start o.
  pose proof (propagate_forward e cond Hk lo fuel duration i c Hlo Hf Hd) as (H1 & _ & H3).
  split; [exact H1|exact H3].
Qed.
Print Assumptions C02_forward_epochs.

Theorem C02_backward_epochs :
  forall (St V F E C : Type) (e : env St V F E) (cond : C -> St -> C * res E bool),
    keeps_epoch e ->
  forall lo fuel duration i c,
    0 <= lo -> steps_backward e lo i -> duration < 0 ->
    let start := epoch e (state i) in
    let o := propagate e cond fuel duration i c in
    decreasing_within start (start + duration) (map (epoch e) (o_sent o)) /\
    forall s, o_res o = Ok s ->
      (exists pre x, o_sent o = pre ++ [x] /\ epoch e x = start + duration /\
         (s = x \/ exists f, leave_frame e x f = Ok s)) \/
      ((exists c1 c2, cond c1 s = (c2, Ok true)) /\ start + duration <= epoch e s < start /\
       Forall (fun x => epoch e s < epoch e x) (o_sent o)).
Proof.
  intros St V F E C e cond Hk lo fuel duration i c Hlo Hf Hd start o.
  pose proof (propagate_backward e cond Hk lo fuel duration i c Hlo Hf Hd) as (H1 & _ & H3).
  split; [exact H1|exact H3].
Qed.
Print Assumptions C02_backward_epochs.

Example C02_example :
  keeps_epoch (clock 0 Ok) /\
  steps_forward (clock 0 Ok) 10 (clock_inst 7 10 false) /\
  o_sent (for_duration (clock 0 Ok) 5 500 (clock_inst 7 10 false)) = [17; 507] /\
  steps_backward (clock 0 Ok) 10 (clock_inst 7 10 false) /\
  o_sent (for_duration (clock 0 Ok) 9 (-200) (clock_inst 7 100 true)) = [-93; -193].
Proof.
  split; [apply clock_keeps|]. split; [apply clock_forward_adaptive; [lra|lia]|].
  split; [apply clock_adaptive_run|].
  split; [apply clock_backward_adaptive; [lra|lia]|apply clock_fixed_run].
Qed.

(** ** C03.  If every step covers at least [lo] (the fixed step, or the minimum step less the
    conversion loss), a propagation needs no more than duration / lo + 1 turns of the loop to
    return or fail, and takes no more than that many steps. *)
Theorem C03_forward_terminates :
  forall (St V F E C : Type) (e : env St V F E) (cond : C -> St -> C * res E bool),
    keeps_epoch e -> real_outcomes e cond ->
  forall lo fuel duration i c,
    1 <= lo -> steps_forward e lo i -> 0 < duration ->
    duration / lo + 1 <= Z.of_nat fuel ->
    o_res (propagate e cond fuel duration i c) <> NoFuel /\
    Z.of_nat (length (o_sent (propagate e cond fuel duration i c))) <= duration / lo + 1.
Proof.
  intros St V F E C e cond Hk Hr lo fuel duration i c Hlo Hf Hd Hfu.
  pose proof (Z.div_mod duration lo ltac:(lia)) as Hdm.
  pose proof (Z.mod_pos_bound duration lo ltac:(lia)) as Hmb.
  split.
  - apply (propagate_terminates_forward e cond Hr Hk lo); try assumption. nia.
  - pose proof (propagate_forward e cond Hk lo fuel duration i c ltac:(lia) Hf Hd) as (_ & H2 & _).
    rewrite Z.max_l in H2 by lia. nia.
Qed.
Print Assumptions C03_forward_terminates.

Theorem C03_backward_terminates :
  forall (St V F E C : Type) (e : env St V F E) (cond : C -> St -> C * res E bool),
    keeps_epoch e -> real_outcomes e cond ->
  forall lo fuel duration i c,
    1 <= lo -> steps_backward e lo i -> duration < 0 ->
    (- duration) / lo + 1 <= Z.of_nat fuel ->
    o_res (propagate e cond fuel duration i c) <> NoFuel /\
    Z.of_nat (length (o_sent (propagate e cond fuel duration i c))) <= (- duration) / lo + 1.
Proof.
  intros St V F E C e cond Hk Hr lo fuel duration i c Hlo Hf Hd Hfu.
  pose proof (Z.div_mod (- duration) lo ltac:(lia)) as Hdm.
  pose proof (Z.mod_pos_bound (- duration) lo ltac:(lia)) as Hmb.
  split.
  - apply (propagate_terminates_backward e cond Hr Hk lo); try assumption. nia.
  - pose proof (propagate_backward e cond Hk lo fuel duration i c ltac:(lia) Hf Hd) as (_ & H2 & _).
    rewrite Z.max_l in H2 by lia. nia.
Qed.
Print Assumptions C03_backward_terminates.

Example C03_example :
  keeps_epoch (clock 2 Ok) /\ real_outcomes (clock 2 Ok) (never (St := Z) (E := unit)) /\
  steps_forward (clock 2 Ok) 10 (clock_inst 7 10 false) /\ 500 / 10 + 1 <= Z.of_nat 51.
Proof.
  split; [apply clock_keeps|]. split; [apply clock_real; intros; discriminate|].
  split; [apply clock_forward_adaptive; [lra|lia]|]. vm_compute. discriminate.
Qed.

(** ** C04.  One adaptive step.  [derive_loop] runs its body once per unit of its first
    argument: the configured number of attempts is enough, so there are at most that many
    evaluations. *)
Theorem C04_attempts :
  forall (St V F E : Type) (e : env St V F E) (i : inst),
    (forall h v s, eom e h v s <> NoFuel) -> (1 <= attempts (opts e))%nat ->
    snd (derive e i) <> NoFuel /\
    derive e i =
    derive_loop e (attempts (opts e))
      (with_details i {| d_step := d_step (det i); d_error := d_error (det i); d_attempts := 1 |})
      (to_secs (step_size i)) 1.
Proof. intros St V F E e i. exact (derive_evaluations e i). Qed.
Print Assumptions C04_attempts.

(** An accepted step of [h] seconds is a step of the method, its estimated error is within
    tolerance, or it is at most the minimum step, or the attempts ran out; it is not longer
    than the step asked for; the next step is between the minimum and the larger of the
    maximum and the step just taken. *)
Theorem C04_forward_step :
  forall (St V F E : Type) (e : env St V F E) slop,
    converts e slop -> sane_options e slop ->
  forall i i' t v,
    fixed_step i = false -> slop < step_size i ->
    derive e i = (i', Ok (t, v)) ->
    state i' = state i /\ fixed_step i' = false /\
    0 < t <= step_size i /\
    exists h errv,
      try_step e (state i) false h = Ok (v, errv) /\ t = of_secs e h /\
      d_step (det i') = t /\
      d_error (det i') = estimate e errv v (to_vector e (state i)) /\
      (1 <= d_attempts (det i') <= attempts (opts e))%nat /\
      ((d_error (det i') <= tolerance (opts e))%R \/
       (h <= to_secs (min_step (opts e)))%R \/
       d_attempts (det i') = attempts (opts e)) /\
      min_step (opts e) <= step_size i' <= Z.max (max_step (opts e)) t.
Proof.
  intros St V F E e slop Hc Ho i i' t v Hf Hs Hd.
  pose proof (derive_keeps e _ _ _ Hd) as (K1 & K2 & _).
  pose proof (slop_pos e slop Hc) as Hsl. pose proof (min_pos e slop Ho) as Hmn.
  pose proof (max_min e slop Ho) as Hmx.
  assert (Hok : step_ok e slop i 0) by (unfold step_ok; rewrite Hf; lia).
  pose proof (derive_forward e slop Hc Ho _ _ _ _ _ Hok ltac:(lia) Hd) as (Ha & Hb & Hok').
  unfold step_ok in Hok'. rewrite K2, Hf in Hok'.
  unfold derive in Hd.
  pose proof Hd as Hd'.
  apply (derive_loop_controlled e slop) in Hd';
    [|exact Hc|lia|exact Hf|exact (attempts_pos e slop Ho)].
  destruct Hd' as (h & errv & R1 & R2 & R3 & R4 & R5 & R6 & R7 & R8).
  split; [exact K1|]. split; [congruence|]. split; [lia|].
  exists h, errv. repeat split; auto; try lia.
  (* at least one attempt is counted *)
  clear - Hd. revert Hd.
  assert (G : forall fuel j h a, (1 <= a)%nat -> (1 <= d_attempts (det j))%nat ->
            (1 <= d_attempts (det (fst (derive_loop e fuel j h a))))%nat).
  { induction fuel as [|fuel IH]; intros j hh a H1 H2; cbn [derive_loop]; [exact H2|].
    destruct (try_step e (state j) (fixed_step j) hh) as [[n er]|x| |]; try exact H2.
    destruct (fixed_step j); [exact H1|].
    destruct (accepts e _ hh a); [destruct (has_nan e n); exact H1|].
    apply IH; cbn; lia. }
  intros Hd. pose proof (G (S (attempts (opts e)))
    (with_details i {| d_step := d_step (det i); d_error := d_error (det i); d_attempts := 1 |})
    (to_secs (step_size i)) 1%nat ltac:(lia) ltac:(cbn; lia)) as G1.
  rewrite Hd in G1. exact G1.
Qed.
Print Assumptions C04_forward_step.

Example C04_example :
  converts (clock 2 Ok) 0 /\ sane_options (clock 2 Ok) 0 /\
  exists i' t v, derive (clock 0 Ok) (clock_inst 7 100 false) = (i', Ok (t, v)) /\
                 step_size i' = 1000.
Proof.
  split; [apply clock_converts|]. split; [apply clock_sane; lra|].
  pose proof (clock_adaptive_step 7 100 (det (clock_inst 7 100 false)) ltac:(lia)) as H.
  unfold single_step in H.
  change {| state := 7; step_size := 100; fixed_step := false;
            det := det (clock_inst 7 100 false) |} with (clock_inst 7 100 false) in H.
  destruct (derive (clock 0 Ok) (clock_inst 7 100 false)) as [i1 [[t v]|x| |]]; try discriminate.
  exists i1, t, v. split; [reflexivity|].
  cbn in H. injection H as _ H _ _. exact H.
Qed.

(** Backward, the claim fails: the test [step <= min_step] compares signed numbers, so the
    first trial is accepted whatever its error, even when it is longer than the minimum step
    and attempts remain. *)
Theorem C04_backward_tolerance_refuted :
  exists (e : env Z unit unit unit) (i i' : inst) (t : Z) (v : unit),
    converts e 0 /\ sane_options e 0 /\ fixed_step i = false /\
    derive e i = (i', Ok (t, v)) /\
    (tolerance (opts e) < d_error (det i'))%R /\
    (d_attempts (det i') < attempts (opts e))%nat /\
    t = step_size i /\ min_step (opts e) < - t.
Proof.
  exists (clock 2 Ok), (clock_inst 7 (-100) false).
  assert (Hts : (to_secs (-100) <= to_secs 10)%R) by (apply to_secs_le; lia).
  assert (Htr : trunc_secs (to_secs (-100)) = -100).
  { assert (En : -100 = Z.opp 100) by reflexivity.
    rewrite En, to_secs_opp, trunc_odd, trunc_to_secs by lia. reflexivity. }
  exists {| state := 7; step_size := -100; fixed_step := false;
            det := {| d_step := -100; d_error := 2%R; d_attempts := 1 |} |}, (-100), tt.
  split; [apply clock_converts|]. split; [apply clock_sane; lra|]. split; [reflexivity|].
  split.
  - unfold derive. cbn [derive_loop with_details clock_inst state fixed_step step_size].
    unfold try_step.
    cbn [clock eom meth euler stages stage_loop bind combine_stages b_coeffs
      nth_error Nat.add to_vector vzero estimate opts has_nan].
    unfold accepts. cbn [clock opts clock_opts tolerance min_step attempts].
    destruct (Rle_dec 2 1) as [Hn|_]; [lra|].
    destruct (Rle_dec (to_secs (-100)) (to_secs 10)) as [_|Hn]; [|exfalso; exact (Hn Hts)].
    cbn [orb].
    destruct (Rlt_dec 2 1) as [Hn|_]; [lra|].
    unfold next_step. cbn [of_secs clock opts clock_opts min_step]. rewrite Htr. reflexivity.
  - cbn. repeat split; try lra; try lia.
Qed.
Print Assumptions C04_backward_tolerance_refuted.

(** ** C05.  After a propagation that ran to its end the step size and the fixed flag are those
    the controller had after the last regular step ([i1]); the truncated last step and the sign
    flip of a backward run leave no trace; the instance can again be propagated either way. *)
Theorem C05_config_kept_forward :
  forall (St V F E : Type) (e : env St V F E), keeps_epoch e ->
  forall lo fuel duration i s,
    0 <= lo -> steps_forward e lo i -> 0 < duration ->
    let o := for_duration e fuel duration i in
    o_res o = Ok s ->
    fixed_step (o_inst o) = fixed_step i /\
    (fixed_step i = true -> step_size (o_inst o) = step_size i) /\
    steps_forward e lo (o_inst o) /\
    exists i0 l i1,
      steps e i0 l i1 /\ step_size i0 = step_size i /\ fixed_step i0 = fixed_step i /\
      (o_sent o = l \/ exists x, o_sent o = l ++ [x]) /\
      step_size (o_inst o) = step_size i1.
Proof.
  intros St V F E e Hk lo fuel duration i s Hlo Hf Hd o Ho.
  destruct (propagate_config_forward e never Hk lo fuel duration i tt s
              (fun _ _ => eq_refl) Hlo Hf Hd Ho)
    as (i0 & l & i1 & H1 & H2 & H3 & H4 & H5 & H6 & H7 & H8).
  split; [exact H6|]. split; [exact H7|]. split; [exact H8|].
  exists i0, l, i1. auto.
Qed.
Print Assumptions C05_config_kept_forward.

Theorem C05_config_kept_backward :
  forall (St V F E : Type) (e : env St V F E), keeps_epoch e ->
  forall lo fuel duration i s,
    0 <= lo -> steps_backward e lo i -> duration < 0 ->
    let o := for_duration e fuel duration i in
    o_res o = Ok s ->
    fixed_step (o_inst o) = fixed_step i /\
    (fixed_step i = true -> step_size (o_inst o) = step_size i) /\
    steps_backward e lo (o_inst o) /\
    exists i0 l i1 x,
      steps e i0 l i1 /\ step_size i0 = - step_size i /\ fixed_step i0 = fixed_step i /\
      o_sent o = l ++ [x] /\ step_size (o_inst o) = - step_size i1.
Proof.
  intros St V F E e Hk lo fuel duration i s Hlo Hf Hd o Ho.
  destruct (propagate_config_backward e never Hk lo fuel duration i tt s
              (fun _ _ => eq_refl) Hlo Hf Hd Ho)
    as (i0 & l & i1 & H1 & H2 & H3 & [x H4] & H5 & H6 & H7 & H8).
  split; [exact H6|]. split; [exact H7|]. split; [exact H8|].
  exists i0, l, i1, x. auto.
Qed.
Print Assumptions C05_config_kept_backward.

Theorem C05_zero_duration :
  forall (St V F E C : Type) (e : env St V F E) (cond : C -> St -> C * res E bool) fuel i c,
    propagate e cond fuel 0 i c =
    {| o_inst := i; o_cond := c; o_sent := []; o_res := Ok (state i) |}.
Proof. reflexivity. Qed.
Print Assumptions C05_zero_duration.

Example C05_example :
  steps_forward (clock 0 Ok) 10 (clock_inst 7 10 false) /\
  o_res (for_duration (clock 0 Ok) 5 500 (clock_inst 7 10 false)) = Ok 507 /\
  step_size (o_inst (for_duration (clock 0 Ok) 9 (-200) (clock_inst 7 100 true))) = 100.
Proof.
  split; [apply clock_forward_adaptive; [lra|lia]|].
  split; [apply clock_adaptive_run|reflexivity].
Qed.

(** With a stop condition that fires during a backward propagation the claim fails: the step
    stays negative, and the next forward propagation never returns. *)
Theorem C05_backward_stop_refuted :
  exists (e : env Z unit unit unit) (cond : unit -> Z -> unit * res unit bool) (i : inst),
    keeps_epoch e /\ steps_backward e 1 i /\
    let o := propagate e cond 10 (-500) i tt in
    o_res o = Ok (-193) /\ step_size i = 100 /\ step_size (o_inst o) = -100 /\
    forall fuel, o_res (for_duration e fuel 50 (o_inst o)) = NoFuel.
Proof.
  exists (clock 0 Ok), (reached (-150) true), (clock_inst 7 100 true).
  split; [apply clock_keeps|]. split; [left; cbn; lia|].
  cbn zeta. split; [reflexivity|]. split; [reflexivity|]. split; [reflexivity|].
  intros fuel.
  set (oi := o_inst _).
  assert (Hoi : state oi = -193 /\ step_size oi = -100 /\ fixed_step oi = true)
    by (repeat split; reflexivity).
  clearbody oi. destruct Hoi as (H1 & H2 & H3).
  rewrite propagate_native by (try (intros f s; cbn); congruence).
  cbn [clock finally]. cbn [Z.ltb Z.compare].
  rewrite H1. cbn [epoch clock].
  assert (G : forall fuel i sent, fixed_step i = true -> step_size i = -100 -> state i <= -193 ->
    o_res (prop_loop (clock 0 Ok) never false (-193 + 50) None fuel i tt sent) = NoFuel).
  { induction fuel0 as [|n IH]; intros i sent Hf Hs Hle; [reflexivity|].
    cbn [prop_loop]. 
    assert (Hc : (negb false && (-193 + 50 <? epoch (clock 0 Ok) (state i) + step_size i))
      || (false && (epoch (clock 0 Ok) (state i) + step_size i <=? -193 + 50)) = false).
    { cbn [clock epoch negb andb]. rewrite orb_false_r. apply Z.ltb_ge. lia. }
    rewrite Hc.
    assert (Hss : exists j, single_step (clock 0 Ok) i = (j, Ok tt)).
    { unfold single_step, derive. cbn [derive_loop with_details state fixed_step].
      unfold try_step. cbn [clock eom meth euler stages stage_loop bind combine_stages b_coeffs
        nth_error Nat.add to_vector vzero]. rewrite Hf. cbn. eexists. reflexivity. }
    destruct Hss as [j Hss]. rewrite Hss. cbn [never].
    destruct (single_step_fixed (clock 0 Ok) (clock_keeps 0) _ _ Hf Hss) as (A & B & D).
    cbn [clock epoch] in A.
    apply IH; [exact D|congruence|lia]. }
  apply G; cbn; [exact H3|exact H2|lia].
Qed.
Print Assumptions C05_backward_stop_refuted.

(** A failure of the last, truncated step leaves the truncated step behind, marked as fixed. *)
Theorem C05_failed_last_step_refuted :
  exists (e : env Z unit unit unit) (i : inst),
    keeps_epoch e /\ steps_forward e 10 i /\ fixed_step i = false /\ step_size i = 1000 /\
    let o := for_duration e 10 500 i in
    o_res o = Err tt /\ fixed_step (o_inst o) = true /\ step_size (o_inst o) = 500.
Proof.
  exists (clock 0 (fun s => if 100 <? s then Err tt else Ok s)), (clock_inst 7 1000 false).
  split.
  - split; cbn; try congruence.
    intros s s'. destruct (100 <? s); congruence.
  - split; [apply clock_forward_adaptive; [lra|lia]|]. repeat split.
Qed.
Print Assumptions C05_failed_last_step_refuted.

(** ** C06.  With a fixed step [h], propagating by k whole steps and then by d2 is the same as
    propagating by the sum: same result, same recorded states, same instance. *)
Theorem C06_fixed_step_composes :
  forall (St V F E : Type) (e : env St V F E),
    keeps_epoch e ->
    (forall s s', finally e s = Ok s' -> finally e s' = Ok s') ->
    (forall f s, integration_frame (opts e) = Some f -> frame_eqb e f (frame_of e s) = true) ->
  forall f1 f2 i k d2 s1,
    fixed_step i = true -> 0 < step_size i -> 1 <= k -> 0 <= d2 ->
    let d1 := k * step_size i in
    let o1 := for_duration e f1 d1 i in
    o_res o1 = Ok s1 ->
    let o2 := for_duration e f2 d2 (o_inst o1) in
    o_res o2 <> NoFuel ->
    let o := for_duration e (f1 + f2) (d1 + d2) i in
    o_res o = o_res o2 /\ o_sent o = o_sent o1 ++ o_sent o2 /\ o_inst o = o_inst o2.
Proof.
  intros St V F E e Hk Hid Hn f1 f2 i k d2 s1 Hf Hs Hkk Hd d1 o1 H1 o2 H2 o.
  exact (compose_forward e Hk Hid f1 f2 i (step_size i) k d2 s1 Hn Hf eq_refl Hs Hkk Hd H1 H2).
Qed.
Print Assumptions C06_fixed_step_composes.

Theorem C06_fixed_step_composes_backward :
  forall (St V F E : Type) (e : env St V F E),
    keeps_epoch e ->
    (forall s s', finally e s = Ok s' -> finally e s' = Ok s') ->
    (forall f s, integration_frame (opts e) = Some f -> frame_eqb e f (frame_of e s) = true) ->
  forall f1 f2 i k d2 s1,
    fixed_step i = true -> 0 < step_size i -> 1 <= k -> d2 <= 0 ->
    let d1 := - (k * step_size i) in
    let o1 := for_duration e f1 d1 i in
    o_res o1 = Ok s1 ->
    let o2 := for_duration e f2 d2 (o_inst o1) in
    o_res o2 <> NoFuel ->
    let o := for_duration e (f1 + f2) (d1 + d2) i in
    o_res o = o_res o2 /\ o_sent o = o_sent o1 ++ o_sent o2 /\ o_inst o = o_inst o2.
Proof.
  intros St V F E e Hk Hid Hn f1 f2 i k d2 s1 Hf Hs Hkk Hd d1 o1 H1 o2 H2 o.
  exact (compose_backward e Hk Hid f1 f2 i (step_size i) k d2 s1 Hn Hf eq_refl Hs Hkk Hd H1 H2).
Qed.
Print Assumptions C06_fixed_step_composes_backward.

Example C06_example :
  let i := clock_inst 7 100 true in
  let o1 := for_duration (clock 0 Ok) 9 (2 * 100) i in
  let o2 := for_duration (clock 0 Ok) 9 250 (o_inst o1) in
  o_res o1 = Ok 207 /\ o_res o2 = Ok 457 /\
  o_sent (for_duration (clock 0 Ok) 18 450 i) = [107; 207; 307; 407; 457].
Proof. repeat split. Qed.

(** ** C07.  [p] is the (stateless) stop condition.  None of the states sent satisfies it,
    except possibly the one at the requested end; if the propagation returns before the end,
    the returned state satisfies it. *)
Theorem C07_first_satisfying_state :
  forall (St V F E : Type) (e : env St V F E) (p : St -> bool), keeps_epoch e ->
  forall fuel duration i,
    duration <> 0 ->
    let stop := epoch e (state i) + duration in
    let o := propagate e (fun (c : unit) s => (c, Ok (p s))) fuel duration i tt in
    (forall x, In x (o_sent o) -> p x = true -> epoch e x = stop /\ exists pre, o_sent o = pre ++ [x]) /\
    (forall s, o_res o = Ok s -> p s = true \/ epoch e s = stop).
Proof.
  intros St V F E e p Hk fuel duration i Hd stop o.
  assert (Hq : forall c l c', quiet (E := E) (fun (c : unit) s => (c, Ok (p s))) c l c' ->
            Forall (fun x => p x = false) l).
  { intros c l. revert c. induction l as [|x l IH]; intros c c' H; [constructor|].
    destruct H as (c1 & H1 & H2). injection H1 as _ H1. constructor; [exact H1|].
    eapply IH; exact H2. }
  destruct (propagate_condition e (fun (c : unit) s => (c, Ok (p s))) Hk fuel duration i tt Hd)
    as [[[c1 H1] H2]|(pre & x & c1 & H1 & H2 & H3 & H4)]; fold o in H1, H2 |- * || fold o in H1, H4 |- *.
  - apply Hq in H1. rewrite Forall_forall in H1. split.
    + intros x Hx Hp. rewrite (H1 x Hx) in Hp. discriminate.
    + intros s Hs. destruct (H2 s Hs) as [(c2 & c3 & _ & H5)|H5].
      * left. injection H5 as _ H5. exact H5.
      * right. exact H5.
  - apply Hq in H2. rewrite Forall_forall in H2. split.
    + intros y Hy Hp. rewrite H1 in Hy. apply in_app_iff in Hy as [Hy|[->|[]]].
      * rewrite (H2 y Hy) in Hp. discriminate.
      * split; [exact H3|]. exists pre. exact H1.
    + intros s Hs. right. rewrite (H4 s Hs). exact H3.
Qed.
Print Assumptions C07_first_satisfying_state.

Example C07_example :
  let o := propagate (clock 0 Ok) (reached 250 false) 9 1000 (clock_inst 7 100 true) tt in
  o_sent o = [107; 207] /\ o_res o = Ok 307.
Proof. repeat split. Qed.
