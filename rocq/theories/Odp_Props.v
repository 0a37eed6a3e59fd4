(** Theorems about the orbit determination process (C31, C32). *)
From Coq Require Import Reals String Lra.
From Verif Require Import Base Arc_Model Sched_Model Sol_Model Prop_Model Prop_Spec Prop_Examples.
From Verif Require Import Traj_Model Odp_Model Odp_Spec Odp_Proofs Odp_More Prop_Model.
Local Open Scope string_scope.
Local Open Scope Z_scope.

(** The propagator of the process has a fixed positive step, or an adaptive step with sane
    options whose minimum, and the maximum step of the process, are above the conversion loss. *)
Definition sane_process {St V F E D} (e : env St V F E) (p : odp D) : Prop :=
  (opts_fixed p = true /\ 0 < init_step p) \/
  (opts_fixed p = false /\ exists slop, converts e slop /\ sane_options e slop /\
     2 * slop + 2 <= odp_max_step p /\ 2 * slop + 2 <= min_step (opts e)).

Lemma start_ready {St V F E K Est RV G C H Fe D} (e : env St V F E) so
    (fo : filter_ops St K Est RV G C H Fe) (p : odp D) initial :
  sane_process e p -> ready e (r_inst (start_run (FS := unit) e so fo p initial)).
Proof.
  intros [(H1 & H2)|(H1 & slop & H2 & H3 & H4 & H5)]; unfold start_run, prop_with, ready;
    cbn [r_inst fixed_step]; rewrite H1; cbn [state step_size set_step fixed_step].
  - left. cbn [step_size fixed_step]. lia.
  - right. split; [reflexivity|].
    exists slop. pose proof (slop_pos e slop H2). cbn [step_size set_step].
    repeat (split; [assumption|]). lia.
Qed.

Section Theorems.
Context {St V F E : Type} (e : env St V F E) (o : state_ops St F) (arrange : list St -> list St)
        (so : stm_ops St).
Context {K Est RV G C H Fe : Type} (fo : filter_ops St K Est RV G C H Fe).
Context {D De : Type} (dv : device_ops St D C H De) (n : nat).
Notation process := (process_arc (FS := unit) e o arrange so fo dv n).
Notation predict := (predict_until (FS := unit) (De := De) e so fo).

Lemma process_inv p pfuel fuel initial a s :
  process p pfuel fuel initial a = Ok s ->
  (2 <= length (measurements a))%nat /\ 0 < odp_max_step p /\
  exists r, process_measurements e o arrange so fo dv n p a (criterion p a) pfuel fuel
              (measurements a) (start_run e so fo p initial) = Ok r /\ r_sol r = s.
Proof.
  unfold process_arc. destruct (Nat.ltb_spec (length (measurements a)) 2); [discriminate|].
  destruct (Z.leb_spec (odp_max_step p) 0); [discriminate|].
  intros Hw. apply bind_ok in Hw as (r & Hw & Hs). injection Hs as <-. eauto.
Qed.

Lemma process_calls p pfuel fuel initial a s :
  keeps_epoch e -> keeps_clock e so -> keeps_date e fo -> keeps_types dv -> sane_process e p ->
  0 < epoch_precision p ->
  process p pfuel fuel initial a = Ok s ->
  exists calls rows k', made fo (criterion p a) (initialize_noises fo (start_filter fo initial))
                  calls rows k' /\ s = extended new rows /\
    visits e dv n p a (always_answers dv) (epoch e (nominal_of fo initial)) (measurements a) calls.
Proof.
  intros Hk Hc Hd Ht Hs Hp Hw. destruct (process_inv _ _ _ _ _ _ Hw) as (_ & Hmx & r & Hr & <-).
  destruct (measurements_ok e o arrange so fo dv n Hk Hc Hd Ht p a (criterion p a) pfuel fuel
              (measurements a) (start_run e so fo p initial) r Hp Hmx) as (calls & (rows & H1 & H2) & H3).
  - intros x. reflexivity.
  - now apply start_ready.
  - cbn [start_run r_epoch r_inst]. rewrite Z.sub_diag. exact Hp.
  - exact Hr.
  - exists calls, rows, (r_kf r). split; [exact H1|]. split; [exact H2|].
    assert (He : epoch e (state (r_inst (start_run (FS := unit) e so fo p initial))) =
                 epoch e (nominal_of fo initial)).
    { unfold start_run, prop_with. cbn [r_inst fixed_step].
      destruct (opts_fixed p); apply (clock_with e so Hc). }
    now rewrite He in H3.
Qed.
End Theorems.

(** ** C31.  A solution is what the filter answers to a list of requests that visits the
    measurements of the arc in order: for each of them, time updates strictly before it, at most
    the maximum step apart, then either one time update (flagged as rejected), or nothing
    (unknown tracker), or measurement updates at its epoch, one per group of available types. *)
Theorem C31_visits :
  forall (St V F E K Est RV G C H Fe D De : Type) (e : env St V F E) (o : state_ops St F)
    arrange (so : stm_ops St) (fo : filter_ops St K Est RV G C H Fe)
    (dv : device_ops St D C H De) (n : nat),
    keeps_epoch e -> keeps_clock e so -> keeps_date e fo -> keeps_types dv ->
  forall p pfuel fuel initial a (s : solution Est RV G unit),
    sane_process e p -> 0 < epoch_precision p ->
    process_arc e o arrange so fo dv n p pfuel fuel initial a = Ok s ->
    exists calls rows,
      replay fo (if force_reject a then Some 0%R else sigma_reject p)
        (initialize_noises fo (start_filter fo initial)) calls = Some rows /\
      estimates s = map row_estimate rows /\ residuals s = map row_residual rows /\
      gains s = map row_gain rows /\
      visits e dv n p a (always_answers dv) (epoch e (nominal_of fo initial)) (measurements a) calls.
Proof.
  intros St V F E K Est RV G C H Fe D De e o arrange so fo dv n Hk Hc Hd Ht p pfuel fuel initial a s
    Hs Hp Hw.
  destruct (process_calls e o arrange so fo dv n p pfuel fuel initial a s Hk Hc Hd Ht Hs Hp Hw)
    as (calls & rows & k' & H1 & -> & H2).
  exists calls, rows. split; [exact (made_replay _ _ _ _ _ _ H1)|]. auto.
Qed.
Print Assumptions C31_visits.

(** If the measurements are in order and not before the initial state, the epochs of the
    solution are in order when no measurement is flagged as rejected, and otherwise never go
    back by more than twice the epoch precision. *)
Theorem C31_order :
  forall (St V F E K Est RV G C H Fe D De : Type) (e : env St V F E) (o : state_ops St F)
    arrange (so : stm_ops St) (fo : filter_ops St K Est RV G C H Fe)
    (dv : device_ops St D C H De) (n : nat),
    keeps_epoch e -> keeps_clock e so -> keeps_date e fo -> keeps_types dv ->
  forall p pfuel fuel initial a (s : solution Est RV G unit),
    sane_process e p -> 0 < epoch_precision p ->
    ordered (epoch e (nominal_of fo initial) :: map Arc_Model.epoch (measurements a)) ->
    process_arc e o arrange so fo dv n p pfuel fuel initial a = Ok s ->
    let epochs := map (fun x => epoch e (nominal_of fo x)) (estimates s) in
    (Forall (fun m => rejected m = false) (measurements a) -> ordered epochs) /\
    forall i j x y, (i < j)%nat -> nth_error epochs i = Some x -> nth_error epochs j = Some y ->
      x <= y + 2 * (epoch_precision p - 1).
Proof.
  intros St V F E K Est RV G C H Fe D De e o arrange so fo dv n Hk Hc Hd Ht p pfuel fuel initial a s
    Hs Hp Ho Hw epochs.
  destruct (process_calls e o arrange so fo dv n p pfuel fuel initial a s Hk Hc Hd Ht Hs Hp Hw)
    as (calls & rows & k' & H1 & Hsol & H2).
  destruct (visits_times e dv n p a (always_answers dv) _ _ calls Hp Ho H2) as (_ & I2 & I3).
  assert (He : epochs = map (fun c => epoch e (nominal_state c)) calls).
  { unfold epochs. rewrite Hsol. cbn [extended new estimates app].
    rewrite map_map. exact (made_dates fo (criterion p a) e _ _ _ _ Hd H1). }
  rewrite He. split; [|exact I2]. intros Hf. exact (proj2 (I3 Hf)).
Qed.
Print Assumptions C31_order.

(** The process returns, with a solution or an error: the recursion bounds are never met once
    they exceed the time covered, in nanoseconds. *)
Theorem C31_terminates :
  forall (St V F E K Est RV G C H Fe D De : Type) (e : env St V F E) (o : state_ops St F)
    arrange (so : stm_ops St) (fo : filter_ops St K Est RV G C H Fe)
    (dv : device_ops St D C H De) (n : nat),
    keeps_epoch e -> keeps_clock e so -> keeps_date e fo -> keeps_types dv ->
    real_outcomes e (never (St := St) (E := E)) -> real_calls fo dv ->
  forall p pfuel fuel initial a lo hi,
    sane_process e p -> 0 < epoch_precision p ->
    lo <= epoch e (nominal_of fo initial) <= hi ->
    Forall (fun m => lo <= Arc_Model.epoch m <= hi) (measurements a) ->
    hi - lo + epoch_precision p + 1 <= Z.of_nat pfuel -> hi - lo + 1 <= Z.of_nat fuel ->
    process_arc (FS := unit) e o arrange so fo dv n p pfuel fuel initial a <> NoFuel.
Proof.
  intros St V F E K Est RV G C H Fe D De e o arrange so fo dv n Hk Hc Hd Ht Hr Hrc p pfuel fuel
    initial a lo hi Hs Hp Hst Hl Hpf Hf.
  unfold process_arc. destruct (Nat.ltb_spec (length (measurements a)) 2); [discriminate|].
  destruct (Z.leb_spec (odp_max_step p) 0); [discriminate|].
  intros Hx. apply bind_fuel in Hx as [Hx|(r & _ & Hx)]; [|discriminate].
  revert Hx.
  apply (measurements_real e o arrange so fo dv n Hk Hc Hd Ht Hr Hrc p a (criterion p a) lo hi);
    try assumption.
  - intros x. reflexivity.
  - now apply start_ready.
  - cbn [start_run r_epoch r_inst]. rewrite Z.sub_diag. exact Hp.
  - unfold start_run, prop_with. cbn [r_inst fixed_step].
    destruct (opts_fixed p); cbn [set_step state]; rewrite (clock_with e so Hc); exact Hst.
Qed.
Print Assumptions C31_terminates.

(** *** A concrete process: the clock as a propagator, a filter that counts its requests and
    returns what it is given, and a station that measures range and Doppler. *)
Definition demo_so : stm_ops Z :=
  {| with_stm := fun s => s; reset_stm := fun s => s; set_epoch := fun _ t => t |}.
Definition demo_ops : state_ops Z unit :=
  {| st_epoch := fun s => s; st_frame := fun _ => tt; st_frame_eqb := fun _ _ => true;
     st_interpolate := fun _ _ _ => Err tt |}.
Definition demo_fo : filter_ops Z nat Z (list R * list R) unit unit unit unit :=
  {| start_filter := fun _ => O; initialize_noises := fun k => k;
     time_update := fun k s => (S k, Ok s);
     measurement_update := fun k s real computed _ _ _ =>
       (S k, Ok (s, {| values := (real, computed); res_rejected := false; res_tracker := None;
                       res_types := [] |}, Some tt));
     replace_state := fun _ => true; nominal_of := fun x => x; state_of := fun x => x |}.
Definition demo_dv : device_ops Z R unit unit unit :=
  {| name_of := fun _ => "DSS-65"; types_of := fun _ => [Range; Doppler];
     h_tilde := fun _ _ _ _ => Ok tt; covar_of := fun _ _ _ => Ok tt;
     measure := fun d _ _ => (d, Ok (Some [(Range, 7%R); (Doppler, d)]));
     bias_of := fun _ _ _ => Ok [0%R; 0%R] |}.
Definition demo_p (precision max : Z) : odp R :=
  {| devices := [("DSS-65", 3%R)]; sigma_reject := None; odp_max_step := max;
     epoch_precision := precision; init_step := 60; opts_fixed := true |}.
Definition demo_m (name : string) (t : Z) (d : data) (rej : bool) : measurement :=
  {| tracker := name; Arc_Model.epoch := t; obs := d; rejected := rej |}.
Definition demo_arc (l : list measurement) : arc :=
  {| measurements := l; moduli := None; force_reject := false |}.
Definition demo_run (p : odp R) (fuel : nat) (l : list measurement) :=
  process_arc (FS := unit) (clock 0 Ok) demo_ops (fun x => x) demo_so demo_fo demo_dv 2 p 99 fuel 7
    (demo_arc l).

Definition ranges : data := [(Range, 5%R); (Doppler, 1%R)].
Definition demo_list : list measurement :=
  [demo_m "DSS-65" 107 ranges false; demo_m "DSS-99" 150 ranges false;
   demo_m "DSS-65" 200 ranges true; demo_m "DSS-65" 230 ranges false].

Lemma demo_hyps :
  keeps_epoch (clock 0 Ok) /\ keeps_clock (clock 0 Ok) demo_so /\ keeps_date (clock 0 Ok) demo_fo /\
  keeps_types demo_dv /\ real_outcomes (clock 0 Ok) (never (St := Z) (E := unit)) /\
  real_calls demo_fo demo_dv /\ always_answers demo_dv.
Proof.
  split; [apply clock_keeps|]. split; [split; reflexivity|].
  split. { split; cbn; [congruence|]. intros. injection H as <- <- <- <-. auto. }
  split; [intros d t tr; reflexivity|]. split; [apply clock_real; discriminate|].
  split; [split; discriminate|]. intros d t tr d'. discriminate.
Qed.

Example C31_example :
  sane_process (clock 0 Ok) (demo_p 1 40) /\
  exists s, demo_run (demo_p 1 40) 99 demo_list = Ok s /\
    estimates s = [47; 87; 107; 147; 190; 200; 230] /\
    map (fun r => match r with Some _ => true | None => false end) (residuals s) =
      [false; false; true; false; false; false; true].
Proof.
  split; [left; split; reflexivity|]. eexists. split; [vm_compute; reflexivity|]. split; reflexivity.
Qed.

Example C31_order_example :
  ordered (7 :: map Arc_Model.epoch demo_list) /\
  Forall (fun m => 7 <= Arc_Model.epoch m <= 230) demo_list /\
  230 - 7 + epoch_precision (demo_p 1 40) + 1 <= Z.of_nat 225.
Proof.
  split; [repeat constructor; cbn; lia|]. split; [repeat constructor; cbn; lia|]. cbn. lia.
Qed.

(** An epoch precision that is not positive is accepted, but then no arc is ever processed. *)
Theorem C31_precision_refuted :
  forall (St V F E K Est RV G C H Fe D De : Type) (e : env St V F E) (o : state_ops St F)
    arrange (so : stm_ops St) (fo : filter_ops St K Est RV G C H Fe)
    (dv : device_ops St D C H De) (n : nat) p pfuel fuel initial a s,
    epoch_precision p <= 0 ->
    process_arc (FS := unit) e o arrange so fo dv n p pfuel fuel initial a <> Ok s.
Proof.
  intros St V F E K Est RV G C H Fe D De e o arrange so fo dv n p pfuel fuel initial a s Hp Hw.
  destruct (process_inv e o arrange so fo dv n _ _ _ _ _ _ Hw) as (Hl & _ & r & Hr & _).
  destruct (measurements a) as [|m l]; [cbn in Hl; lia|].
  cbn [process_measurements] in Hr. apply bind_ok in Hr as (r1 & Hr & _).
  exact (advance_stuck e o arrange so fo dv n p a _ _ _ _ _ _ Hp Hr).
Qed.
Print Assumptions C31_precision_refuted.

(** It loops: with nothing failing, every recursion bound is exhausted. *)
Theorem C31_precision_loop_refuted :
  forall fuel, demo_run (demo_p 0 40) fuel [demo_m "DSS-65" 7 ranges false;
                                            demo_m "DSS-65" 107 ranges false] = NoFuel.
Proof.
  intros fuel.
  assert (Hp : forall fuel r, state (r_inst r) = 7 -> 0 < step_size (r_inst r) -> r_epoch r = 7 ->
    advance (FS := unit) (clock 0 Ok) demo_ops (fun x => x) demo_so demo_fo demo_dv 2 (demo_p 0 40)
      (demo_arc [demo_m "DSS-65" 7 ranges false; demo_m "DSS-65" 107 ranges false]) None 99 fuel
      (demo_m "DSS-65" 7 ranges false) r = NoFuel).
  { clear fuel. induction fuel as [|fuel IH]; intros r H1 H2 H3; [reflexivity|].
    cbn [advance]. unfold step_toward. rewrite H3.
    assert (Hn : Z.min (Z.min (Arc_Model.epoch (demo_m "DSS-65" 7 ranges false) - 7)
                   (step_size (r_inst r))) (odp_max_step (demo_p 0 40)) = 0) by (cbn; lia).
    rewrite Hn. unfold for_duration, propagate. cbn [Z.eqb o_res lift bind r_inst o_inst].
    rewrite H1. cbn [clock Prop_Model.epoch demo_m Arc_Model.epoch]. rewrite Z.sub_diag.
    cbn [Z.abs demo_p epoch_precision Z.ltb Z.compare].
    unfold do_time_update. cbn [demo_fo time_update r_kf lift bind].
    apply IH; cbn [r_inst with_state state step_size r_epoch]; assumption || reflexivity. }
  unfold demo_run, process_arc. cbn [demo_arc measurements length Nat.ltb Nat.leb].
  cbn [demo_p odp_max_step Z.leb Z.compare process_measurements].
  unfold demo_arc, demo_p, criterion in Hp |- *. cbn [force_reject sigma_reject].
  rewrite Hp; reflexivity.
Qed.
Print Assumptions C31_precision_loop_refuted.

(** The filter is not asked for anything at the measurements of unknown trackers, so the time
    between its consecutive updates can exceed the maximum step... *)
Theorem C31_gap_refuted :
  exists s, sane_process (clock 0 Ok) (demo_p 1 40) /\
    demo_run (demo_p 1 40) 99
      [demo_m "DSS-99" 46 ranges false; demo_m "DSS-99" 85 ranges false;
       demo_m "DSS-65" 124 ranges false] = Ok s /\
    odp_max_step (demo_p 1 40) = 40 /\ nominal_of demo_fo 7 = 7 /\ estimates s = [124].
Proof.
  eexists. split; [left; split; reflexivity|]. split; [vm_compute; reflexivity|]. repeat split.
Qed.
Print Assumptions C31_gap_refuted.

(** ...and a measurement before the initial estimate is reached by one backward step of any
    length. *)
Theorem C31_backward_refuted :
  exists s, demo_run (demo_p 1 40) 99
      [demo_m "DSS-65" (-493) ranges false; demo_m "DSS-65" (-473) ranges false] = Ok s /\
    nominal_of demo_fo 7 = 7 /\ estimates s = [-493; -473].
Proof. eexists. split; [vm_compute; reflexivity|]. repeat split. Qed.
Print Assumptions C31_backward_refuted.

(** A flagged measurement is time stamped by the propagator, not by the measurement, so the
    solution can go back in time by less than twice the epoch precision. *)
Theorem C31_back_in_time_refuted :
  exists s, demo_run (demo_p 10 40) 99
      [demo_m "DSS-65" 50 ranges true; demo_m "DSS-65" 51 ranges false;
       demo_m "DSS-65" 52 ranges true] = Ok s /\
    estimates s = [47; 51; 49].
Proof. eexists. split; [vm_compute; reflexivity|]. repeat split. Qed.
Print Assumptions C31_back_in_time_refuted.

(** ** C32.  A prediction holds the initial estimate and then the filter's time updates at
    multiples of the maximum step after it, up to the first one, after at least one step, that
    is not before the requested end. *)
Theorem C32_predict_partial :
  forall (St V F E K Est RV G C H Fe D De : Type) (e : env St V F E) (so : stm_ops St)
    (fo : filter_ops St K Est RV G C H Fe),
    keeps_epoch e -> keeps_clock e so -> keeps_date e fo ->
  forall (p : odp D) pfuel fuel initial stop (s : solution Est RV G unit),
    predict_until (De := De) e so fo p pfuel fuel initial stop = Ok s ->
    let start := epoch e (nominal_of fo initial) in
    exists j calls rows,
      is_count start (odp_max_step p) stop j /\
      replay fo None (start_filter fo initial) calls = Some rows /\
      Forall (fun c => exists x, c = TimeUpdate x) calls /\
      estimates s = initial :: map row_estimate rows /\
      map (fun x => epoch e (nominal_of fo x)) (estimates s) =
      map (fun x => start + Z.of_nat x * odp_max_step p) (seq 0 (S j)) /\
      Forall (fun r => r = None) (residuals s) /\ Forall (fun g => g = None) (gains s).
Proof.
  intros St V F E K Est RV G C H Fe D De e so fo Hk Hc Hd p pfuel fuel initial stop s Hw start.
  unfold predict_until in Hw.
  destruct (predict_ok e so fo Hk Hc p pfuel stop fuel _ _ _ _ Hw)
    as (j & l & rows & k' & H1 & H2 & -> & H3 & H4).
  unfold prop_with in H1, H4. cbn [state] in H1, H4. rewrite (clock_with e so Hc) in H1, H4.
  exists j, l, rows. split; [exact H1|]. split; [exact (made_replay _ _ _ _ _ _ H2)|].
  split; [exact H3|]. split; [reflexivity|].
  assert (Hr : Forall (fun r => row_residual r = None /\ row_gain r = None) rows).
  { clear -H2 H3. revert H3. induction H2; intros H3; constructor; inversion H3; subst; auto.
    destruct H5 as (x & Hx). discriminate. }
  split.
  - cbn [extended push_time_update new estimates app map seq]. f_equal; [lia|].
    unfold start. rewrite map_map, <- H4. exact (made_dates fo None e _ _ _ _ Hd H2).
  - cbn [extended push_time_update new residuals gains app].
    split; (constructor; [reflexivity|]); apply Forall_map; (eapply Forall_impl; [|exact Hr]);
      cbn; tauto.
Qed.
Print Assumptions C32_predict_partial.

(** When the span is a positive multiple of the maximum step, the last estimate is at the
    requested epoch. *)
Theorem C32_divisible :
  forall (St V F E K Est RV G C H Fe D De : Type) (e : env St V F E) (so : stm_ops St)
    (fo : filter_ops St K Est RV G C H Fe),
    keeps_epoch e -> keeps_clock e so -> keeps_date e fo ->
  forall (p : odp D) pfuel fuel initial stop (s : solution Est RV G unit) d k,
    0 < odp_max_step p -> (1 <= k)%nat ->
    stop = epoch e (nominal_of fo initial) + Z.of_nat k * odp_max_step p ->
    predict_until (De := De) e so fo p pfuel fuel initial stop = Ok s ->
    length (estimates s) = S k /\ epoch e (nominal_of fo (last (estimates s) d)) = stop.
Proof.
  intros St V F E K Est RV G C H Fe D De e so fo Hk Hc Hd p pfuel fuel initial stop s d k Hm Hk1 Hst Hw.
  destruct (C32_predict_partial _ _ _ _ _ _ _ _ _ _ _ _ _ e so fo Hk Hc Hd _ _ _ _ _ _ Hw)
    as (j & calls & rows & (J1 & J2 & J3) & _ & _ & He & Hep & _).
  assert (Hj : j = k).
  { destruct (Nat.lt_trichotomy j k) as [Hlt|[->|Hgt]]; [nia|reflexivity|].
    specialize (J3 k ltac:(lia)). lia. }
  subst j. assert (Hlen : length (estimates s) = S k).
  { apply (f_equal (@length _)) in Hep. rewrite !map_length, seq_length in Hep. exact Hep. }
  split; [exact Hlen|].
  destruct (exists_last (l := estimates s)) as (l & x & Hx); [intros Hn; rewrite Hn in Hlen; discriminate|].
  rewrite Hx, last_last. rewrite Hx, map_app in Hep. cbn [map] in Hep.
  rewrite seq_S, map_app in Hep. cbn [map Nat.add] in Hep.
  apply app_inj_tail in Hep as (_ & Hep). lia.
Qed.
Print Assumptions C32_divisible.

Theorem C32_terminates :
  forall (St V F E K Est RV G C H Fe D De : Type) (e : env St V F E) (so : stm_ops St)
    (fo : filter_ops St K Est RV G C H Fe) (dv : device_ops St D C H De),
    keeps_epoch e -> keeps_clock e so ->
    real_outcomes e (never (St := St) (E := E)) -> real_calls fo dv ->
  forall (p : odp D) pfuel fuel initial stop,
    0 < odp_max_step p ->
    ready e (prop_with p (with_stm so (nominal_of fo initial))) ->
    odp_max_step p + 1 <= Z.of_nat pfuel ->
    Z.max 0 (stop - epoch e (nominal_of fo initial)) / odp_max_step p + 2 <= Z.of_nat fuel ->
    predict_until (FS := unit) (De := De) e so fo p pfuel fuel initial stop <> NoFuel.
Proof.
  intros St V F E K Est RV G C H Fe D De e so fo dv Hk Hc Hr Hrc p pfuel fuel initial stop Hm Hi Hpf Hf.
  apply (predict_real e so fo dv Hk Hc Hr Hrc); try assumption.
  unfold prop_with. cbn [state]. now rewrite (clock_with e so Hc).
Qed.
Print Assumptions C32_terminates.

Definition demo_predict (p : odp R) (fuel : nat) (stop : Z) :=
  predict_until (FS := unit) (De := unit) (clock 0 Ok) demo_so demo_fo p 99 fuel 7 stop.

Example C32_example :
  ready (clock 0 Ok) (prop_with (demo_p 1 40) (with_stm demo_so (nominal_of demo_fo 7))) /\
  exists s, demo_predict (demo_p 1 40) 99 87 = Ok s /\ estimates s = [7; 47; 87] /\
    87 = epoch (clock 0 Ok) (nominal_of demo_fo 7) + Z.of_nat 2 * odp_max_step (demo_p 1 40).
Proof.
  split; [left; cbn; lia|]. eexists. split; [vm_compute; reflexivity|]. repeat split.
Qed.

(** Otherwise the prediction goes past the requested end, by up to the whole maximum step... *)
Theorem C32_end_refuted :
  exists s s', demo_predict (demo_p 1 40) 99 88 = Ok s /\ estimates s = [7; 47; 87; 127] /\
    demo_predict (demo_p 1 40) 99 7 = Ok s' /\ estimates s' = [7; 47].
Proof.
  do 2 eexists. split; [vm_compute; reflexivity|]. split; [reflexivity|].
  split; [vm_compute; reflexivity|]. reflexivity.
Qed.
Print Assumptions C32_end_refuted.

(** ...and a maximum step that is not positive is not refused: the prediction never returns. *)
Theorem C32_step_refuted :
  (forall (St V F E K Est RV G C H Fe D De : Type) (e : env St V F E) (so : stm_ops St)
    (fo : filter_ops St K Est RV G C H Fe), keeps_epoch e -> keeps_clock e so ->
   forall (p : odp D) pfuel fuel initial stop s,
    odp_max_step p <= 0 -> epoch e (nominal_of fo initial) < stop ->
    predict_until (FS := unit) (De := De) e so fo p pfuel fuel initial stop <> Ok s) /\
  forall fuel, demo_predict (demo_p 1 0) fuel 88 = NoFuel.
Proof.
  split.
  - intros St V F E K Est RV G C H Fe D De e so fo Hk Hc p pfuel fuel initial stop s Hm Hlt Hw.
    refine (predict_stuck (De := De) e so fo Hk Hc p pfuel stop fuel _ _ _ s Hm _ Hw).
    unfold prop_with. cbn [state]. now rewrite (clock_with e so Hc).
  - intros fuel. unfold demo_predict, predict_until.
    set (i := prop_with _ _). assert (Hi : state i = 7) by reflexivity. clearbody i.
    generalize (start_filter demo_fo 7) as k.
    generalize (push_time_update (new (E := Z) (V := list R * list R) (G := unit) (F := unit)) 7) as s.
    revert i Hi. induction fuel as [|fuel IH]; intros i Hi s k; [reflexivity|].
    cbn [predict_loop]. unfold for_duration, propagate.
    cbn [demo_p odp_max_step Z.eqb o_res lift bind demo_fo time_update o_inst].
    rewrite Hi. cbn [clock Prop_Model.epoch Z.leb Z.compare]. apply IH. reflexivity.
Qed.
Print Assumptions C32_step_refuted.

(** ** A prediction for a duration ends that long after the initial estimate when the duration is a
    positive multiple of the maximum step. *)
Theorem C32_duration :
  forall (St V F E K Est RV G C H Fe D De : Type) (e : env St V F E) (so : stm_ops St)
    (fo : filter_ops St K Est RV G C H Fe),
    keeps_epoch e -> keeps_clock e so -> keeps_date e fo ->
  forall (p : odp D) pfuel fuel initial duration (s : solution Est RV G unit) d k,
    0 < odp_max_step p -> (1 <= k)%nat -> duration = Z.of_nat k * odp_max_step p ->
    predict_for (De := De) e so fo p pfuel fuel initial duration = Ok s ->
    length (estimates s) = S k /\
    epoch e (nominal_of fo (last (estimates s) d)) - epoch e (nominal_of fo initial) = duration.
Proof.
  intros St V F E K Est RV G C H Fe D De e so fo Hk Hc Hd p pfuel fuel initial duration s d k Hm Hk1 Hdu Hw.
  destruct (C32_divisible _ _ _ _ _ _ _ _ _ _ _ _ _ e so fo Hk Hc Hd p pfuel fuel initial _ s d k Hm Hk1
    (f_equal (Z.add _) Hdu) Hw) as [L T].
  split; [exact L|]. lia.
Qed.
Print Assumptions C32_duration.
