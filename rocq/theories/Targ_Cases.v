(** Cases of the targeter: what its solutions do not say (C52, C71). *)
From Coq Require Import Reals Lra Lia Psatz.
From Verif Require Import Base Vec3 Angles Poly_Model Sc_Model Guid_Model Targ_Model Targ_Props Targ_Newton.
Local Open Scope R_scope.

(** A world without forces nor motion: a propagation only changes the epoch. *)
Definition at_epoch (sc : spacecraft) (e : Z) (v : v3) : spacecraft :=
  with_orbit sc (Orbit e (frame (sc_orbit sc)) (radius_km (sc_orbit sc)) v).
Definition still (sc : spacecraft) (e : Z) : res targ_error spacecraft := Ok (at_epoch sc e (velocity_km_s (sc_orbit sc))).
Definition cartesian (e : element) (o : orbit) : option R :=
  match e with
  | X => Some (vx (radius_km o)) | Y => Some (vy (radius_km o)) | Z_ => Some (vz (radius_km o))
  | VX => Some (vx (velocity_km_s o)) | VY => Some (vy (velocity_km_s o)) | VZ => Some (vz (velocity_km_s o))
  | _ => None
  end.
Definition no_bplane (o : orbit) : option (R * R * R) := None.
Definition no_frame (o : orbit) (f : nat) : option orbit := None.
Definition no_dcm (f : nat) (o : orbit) : option m3 := None.
(** The solution of one equation with one unknown. *)
Definition solve1 (j : list (list R)) (e : list R) : option (list R) :=
  match j, e with [[a]], [b] => Some [b / a] | _, _ => None end.

Definition sc0 : spacecraft := Spacecraft (Orbit 0 0 vzero vzero) 100 50 0 0 0 0 0 (Some (Thruster 1 300)) Coast None None.
Definition no_guided (m : maneuver) (sc : spacecraft) (e : Z) : res targ_error spacecraft := still sc e.
Definition run (of_secs : R -> Z) (t : targeter) : res targ_error solution :=
  try_achieve_fd still no_guided no_guided no_frame cartesian no_bplane no_dcm solve1 of_secs t sc0 0 100000000000.
Definition run_apply (of_secs : R -> Z) (t : targeter) (s : solution) : res targ_error spacecraft :=
  apply still no_guided cartesian no_bplane of_secs t s.

(** One objective and one variable along the first axis of the velocity. *)
Definition one (ob : objective) (v : variable) (n : nat) : targeter := Targeter [ob] None [v] None n.
Definition want_vx (desired tol mult : R) : objective := Objective (Element VX) desired tol mult 0.
Definition vary_vx (max_step max_value min_value : R) : variable := MkVariable VelocityX 1 0 max_step max_value min_value.

Definition base0 (p : parameter) : R := 0.
Definition slope_vx (p : parameter) : vec6 := (vzero, V3 1 0 0).

Lemma affine_vx d tol k v n : affine still no_frame cartesian no_bplane (one (want_vx d tol k) v n) sc0 100000000000 base0 slope_vx.
Proof.
  intros c. eexists _, _. split; [reflexivity|]. split; [reflexivity|]. intros ob [<-|[]]. constructor. cbn.
  unfold lin, dot, base0. cbn. f_equal. ring.
Qed.

Lemma jacobian_vx d tol k a b c n : true_jacobian (one (want_vx d tol k) (vary_vx a b c) n) slope_vx = [[1]].
Proof. cbn. unfold lin, dot. cbn. repeat f_equal. ring. Qed.
Lemma error_vx d tol k x : scaled_error base0 slope_vx (combined [vary_vx 0 0 0] [x]) (want_vx d tol k) = k * (d - x).
Proof. unfold scaled_error, base0, lin, dot. cbn. ring. Qed.
Lemma combined_vx a b c x : combined [vary_vx a b c] [x] = combined [vary_vx 0 0 0] [x].
Proof. reflexivity. Qed.

Section One.
Context (of_secs : R -> Z) (d tol k a b c : R) (n : nat).
Notation t := (one (want_vx d tol k) (vary_vx a b c) n).
Notation it1 := (iterate still no_guided no_guided no_frame cartesian no_bplane no_dcm solve1 of_secs t false sc0 0 100000000000).
Notation state x := (move sc0 (combined (variables t) [x])).

Lemma all_met_vx x : all_met t base0 slope_vx (combined (variables t) [x]) = if Rle_dec (Rabs (k * (d - x))) tol then true else false.
Proof. unfold all_met. cbn [objectives one forallb variables]. rewrite combined_vx, error_vx. cbn [obj_tolerance want_vx]. now rewrite andb_true_r. Qed.
Lemma norm_vx x : list_norm (map (scaled_error base0 slope_vx (combined (variables t) [x])) (objectives t)) = Rabs (k * (d - x)).
Proof.
  unfold list_norm. cbn [objectives one map fold_right variables]. rewrite combined_vx, error_vx, Rplus_0_r.
  fold (Rsqr (k * (d - x))). apply sqrt_Rsqr_abs.
Qed.

Lemma state_only : Forall (fun v => of_state (component v)) (variables t).
Proof. constructor; [do 3 right; left; reflexivity|constructor]. Qed.
Lemma perturbed : Forall (fun v => perturbation v <> 0) (variables t).
Proof. constructor; [exact R1_neq_R0|constructor]. Qed.

Lemma met_vx left it m x prev : Rabs (k * (d - x)) <= tol ->
  exists s, it1 left it (state x) m [x] prev = Ok s /\ sol_iterations s = it /\ correction s = [x] /\ sol_variables s = variables t /\ corrected_state s = state x /\
    exists xf, still (state x) 100000000000 = Ok xf /\ achieved_state s = with_orbit sc0 (sc_orbit xf).
Proof.
  intros H. apply (iteration_met still no_guided no_guided no_frame cartesian no_bplane no_dcm solve1 of_secs t sc0 0 100000000000 base0 slope_vx
    (affine_vx _ _ _ _ _) eq_refl state_only perturbed left it m [x] prev eq_refl).
  rewrite all_met_vx. destruct (Rle_dec _ _); [reflexivity|contradiction].
Qed.
Lemma step_vx left it m x prev : tol < Rabs (k * (d - x)) -> ~ stalled prev (Rabs (k * (d - x))) ->
  it1 (S left) it (state x) m [x] prev =
  it1 left (S it) (state (x + limit_step (vary_vx a b c) (k * (d - x)))) m [x + limit_step (vary_vx a b c) (k * (d - x))] (Some (Rabs (k * (d - x)))).
Proof.
  intros H1 H2.
  rewrite (iteration_step still no_guided no_guided no_frame cartesian no_bplane no_dcm solve1 of_secs t sc0 0 100000000000 base0 slope_vx
    (affine_vx _ _ _ _ _) eq_refl state_only perturbed left it m [x] prev [k * (d - x)] eq_refl).
  - now rewrite norm_vx.
  - rewrite all_met_vx. destruct (Rle_dec _ _); [lra|reflexivity].
  - now rewrite norm_vx.
  - rewrite jacobian_vx. cbn [objectives one map variables]. rewrite combined_vx, error_vx. cbn [solve1]. f_equal. f_equal. field.
  - reflexivity.
Qed.
Lemma stalled_vx left it m x prev : tol < Rabs (k * (d - x)) -> stalled prev (Rabs (k * (d - x))) ->
  it1 left it (state x) m [x] prev = Err CorrectionIneffective.
Proof.
  intros H1 H2.
  apply (iteration_stalled still no_guided no_guided no_frame cartesian no_bplane no_dcm solve1 of_secs t sc0 0 100000000000 base0 slope_vx
    (affine_vx _ _ _ _ _) eq_refl state_only perturbed left it m [x] prev).
  - rewrite all_met_vx. destruct (Rle_dec _ _); [lra|reflexivity].
  - now rewrite norm_vx.
Qed.
Lemma start_vx : 0 <= a -> 0 <= b -> c <= b -> run of_secs t = it1 n 0%nat (state 0) (initial_maneuver 0 100000000000) [0] None.
Proof.
  intros Ha Hb Hc. unfold run, try_achieve_fd. cbn [objectives one want_vx still bind].
  replace (at_epoch sc0 0 (velocity_km_s (sc_orbit sc0))) with sc0 by reflexivity.
  rewrite (guess_ok of_secs t sc0 eq_refl); [|apply state_only|].
  - cbn [bind g_burn g_mnvr g_correction]. rewrite add6_zero_l. unfold correct at 1. cbn [correction_frame one bind]. reflexivity.
  - constructor; [|constructor]. unfold valid. cbn [max_step max_value min_value vary_vx].
    destruct (Rlt_dec _ _); [lra|]. destruct (Rlt_dec _ _); [lra|]. destruct (Rlt_dec _ _); [lra|reflexivity].
Qed.
End One.

Ltac lims := repeat match goal with |- context [Rlt_dec ?a ?b] => destruct (Rlt_dec a b) end; lra.

(** C52: the bounds of a variable hold each step, not the sum of the steps that the solution shows. *)
Theorem C52_total_bounds_refuted of_secs : exists t s, run of_secs t = Ok s /\
  exists v x, In (v, x) (combine (variables t) (correction s)) /\ init_guess v = 0 /\ max_value v < x.
Proof.
  exists (one (want_vx 10 0 1) (vary_vx 10 5 (-5)) 5). rewrite start_vx by lra.
  assert (L1 : limit_step (vary_vx 10 5 (-5)) (1 * (10 - 0)) = 5).
  { replace (1 * (10 - 0)) with 10 by ring. unfold limit_step. cbn. rewrite Rabs_pos_eq by lra.
    lims. }
  assert (L2 : limit_step (vary_vx 10 5 (-5)) (1 * (10 - 5)) = 5).
  { replace (1 * (10 - 5)) with 5 by ring. unfold limit_step. cbn. rewrite !Rabs_pos_eq by lra.
    lims. }
  rewrite step_vx by (cbn; first [rewrite Rabs_pos_eq by lra; lra|tauto]). rewrite L1. replace (0 + 5) with 5 by ring.
  rewrite step_vx.
  - rewrite L2. replace (5 + 5) with 10 by ring.
    destruct (met_vx of_secs 10 0 1 10 5 (-5) 5 3 2 (initial_maneuver 0 100000000000) 10 (Some (Rabs (1 * (10 - 5))))) as (s & S1 & _ & S2 & _).
    { replace (1 * (10 - 10)) with 0 by ring. rewrite Rabs_R0. lra. }
    exists s. split; [exact S1|]. rewrite S2. exists (vary_vx 10 5 (-5)), 10. cbn. repeat split; auto. lra.
  - rewrite Rabs_pos_eq by lra. lra.
  - cbn [stalled]. rewrite !(Rabs_pos_eq (1 * _)) by lra. rewrite Rabs_left by lra.
    assert (/ 10 ^ 10 < 1) by lra. lra.
Qed.

(** C52: with a positive minimum value, a step can be larger than the maximum step. *)
Theorem C52_step_refuted of_secs : exists t s, run of_secs t = Ok s /\
  exists v x, In (v, x) (combine (variables t) (correction s)) /\ INR (sol_iterations s) * max_step v < Rabs (x - init_guess v).
Proof.
  exists (one (want_vx 2 (6 / 5) 1) (vary_vx 2 5 3) 5). rewrite start_vx by lra.
  assert (L1 : limit_step (vary_vx 2 5 3) (1 * (2 - 0)) = 3).
  { replace (1 * (2 - 0)) with 2 by ring. unfold limit_step. cbn. rewrite Rabs_pos_eq by lra.
    lims. }
  rewrite step_vx by (cbn; first [rewrite Rabs_pos_eq by lra; lra|tauto]). rewrite L1. replace (0 + 3) with 3 by ring.
  destruct (met_vx of_secs 2 (6 / 5) 1 2 5 3 5 4 1 (initial_maneuver 0 100000000000) 3 (Some (Rabs (1 * (2 - 0))))) as (s & S1 & S3 & S2 & _).
  { rewrite Rabs_left by lra. lra. }
  exists s. split; [exact S1|]. rewrite S2, S3. exists (vary_vx 2 5 3), 3. cbn. split; [auto|].
  rewrite Rabs_pos_eq by lra. lra.
Qed.

(** C71: with a factor of 2 on its error, an objective that one correction can meet is never met. *)
Theorem C71_factor_refuted of_secs : exists t,
  affine still no_frame cartesian no_bplane t sc0 100000000000 base0 slope_vx /\ correction_frame t = None /\
  Forall (fun v => of_state (component v) /\ max_step v = 10 /\ max_value v = 10 /\ min_value v = -10) (variables t) /\
  (exists x, forall ob, In ob (objectives t) -> Rabs x <= 10 /\ scaled_error base0 slope_vx (combined (variables t) [x]) ob = 0) /\
  run of_secs t = Err CorrectionIneffective.
Proof.
  exists (one (want_vx 1 (1 / 10) 2) (vary_vx 10 10 (-10)) 5). split; [apply affine_vx|]. split; [reflexivity|].
  split; [constructor; [cbn; tauto|constructor]|]. split.
  { exists 1. intros ob [<-|[]]. cbn [variables one]. rewrite combined_vx, error_vx, Rabs_pos_eq by lra. split; lra. }
  rewrite start_vx by lra.
  assert (L1 : limit_step (vary_vx 10 10 (-10)) (2 * (1 - 0)) = 2).
  { replace (2 * (1 - 0)) with 2 by ring. unfold limit_step. cbn. rewrite !Rabs_pos_eq by lra.
    lims. }
  rewrite step_vx by (cbn; first [rewrite Rabs_pos_eq by lra; lra|tauto]). rewrite L1. replace (0 + 2) with 2 by ring.
  apply stalled_vx.
  - rewrite Rabs_left by lra. lra.
  - cbn [stalled]. rewrite (Rabs_left (2 * (1 - 2))), (Rabs_pos_eq (2 * (1 - 0))) by lra.
    match goal with |- Rabs ?x < _ => replace x with 0 by ring end. rewrite Rabs_R0. lra.
Qed.

(** C71: the hypotheses of [C71_one_correction] are met, and the correction is not void. *)
Example one_correction_case of_secs : exists s,
  run of_secs (one (want_vx 3 0 1) (vary_vx 10 10 (-10)) 5) = Ok s /\ sol_iterations s = 1%nat /\ correction s = [3].
Proof.
  rewrite start_vx by lra.
  assert (L1 : limit_step (vary_vx 10 10 (-10)) (1 * (3 - 0)) = 3).
  { replace (1 * (3 - 0)) with 3 by ring. unfold limit_step. cbn. rewrite !Rabs_pos_eq by lra.
    lims. }
  rewrite step_vx by (cbn; first [rewrite Rabs_pos_eq by lra; lra|tauto]). rewrite L1. replace (0 + 3) with 3 by ring.
  destruct (met_vx of_secs 3 0 1 10 10 (-10) 5 4 1 (initial_maneuver 0 100000000000) 3 (Some (Rabs (1 * (3 - 0))))) as (s & S1 & S3 & S2 & _).
  { replace (1 * (3 - 3)) with 0 by ring. rewrite Rabs_R0. lra. }
  eauto.
Qed.
Example one_correction_hypotheses of_secs : exists s,
  run of_secs (one (want_vx 3 0 1) (vary_vx 10 10 (-10)) 5) = Ok s /\ (sol_iterations s <= 1)%nat.
Proof.
  destruct (C71_one_correction still no_guided no_guided no_frame cartesian no_bplane no_dcm solve1 of_secs
    (one (want_vx 3 0 1) (vary_vx 10 10 (-10)) 5) sc0 sc0 0 100000000000 base0 slope_vx) as (s & S1 & S2 & _).
  - reflexivity.
  - apply affine_vx.
  - reflexivity.
  - discriminate.
  - cbn. lia.
  - apply state_only.
  - apply perturbed.
  - constructor; [cbn; lra|constructor].
  - constructor; [cbn; lra|constructor].
  - rewrite jacobian_vx. intros [|x e] H; [discriminate|]. destruct e; [|discriminate]. exists [x / 1].
    split; [reflexivity|]. split; [reflexivity|]. unfold rdot. cbn. f_equal. field.
  - rewrite jacobian_vx. cbn [objectives one map variables]. rewrite combined_vx. change (map init_guess [vary_vx 10 10 (-10)]) with [0].
    rewrite error_vx. cbn [solve1]. intros d [= <-]. constructor; [|constructor]. unfold unbounded. cbn.
    replace (1 * (3 - 0) / 1) with 3 by field. rewrite Rabs_pos_eq; lra.
  - exists s. auto.
Qed.

(** ** Solutions that their check refuses *)

Ltac ite := match goal with
  | |- context [Rle_dec ?a ?b] => destruct (Rle_dec a b); [|exfalso; lra]
  | |- context [Rlt_dec ?a ?b] => destruct (Rlt_dec a b); [|exfalso; lra]
  end.
Ltac skip := match goal with
  | |- context [Rle_dec ?a ?b] => destruct (Rle_dec a b); [exfalso; lra|]
  | |- context [Rlt_dec ?a ?b] => destruct (Rlt_dec a b); [exfalso; lra|]
  end.

(** C52: the targeter compares scaled errors with the tolerance, the check of the solution compares
    the errors: the check refuses a solution although it reproduces the state achieved. *)
Theorem C52_scaled_apply_refuted of_secs : exists t s, run of_secs t = Ok s /\ run_apply of_secs t s = Err Verification.
Proof.
  exists (one (want_vx 1 (1 / 10) (1 / 10)) (vary_vx 10 10 (-10)) 5). rewrite start_vx by lra.
  destruct (met_vx of_secs 1 (1 / 10) (1 / 10) 10 10 (-10) 5 5 0 (initial_maneuver 0 100000000000) 0 None) as (s & S1 & _ & _ & S2 & S3 & xf & S4 & S5).
  { rewrite Rabs_pos_eq by lra. lra. }
  exists s. split; [exact S1|]. unfold run_apply, apply, to_mnvr. rewrite S2, S3, S5. injection S4 as <-.
  cbn [variables one existsb is_finite_burn component vary_vx orb]. cbn [still bind].
  cbn [b_plane_of b_plane_target objectives one existsb is_b_plane obj_parameter want_vx orb bind].
  cbn [verified achieved_value obj_parameter want_vx bind]. cbn [or_fail cartesian bind].
  match goal with |- context [Rabs ?x] => replace x with 1 by (cbn; ring) end. rewrite Rabs_pos_eq by lra. cbn [obj_tolerance want_vx].
  ite. reflexivity.
Qed.

(** ** Burns *)

(** Worlds where a burn sets the first component of the velocity to its level, or to its duration. *)
Definition by_level (m : maneuver) (sc : spacecraft) (e : Z) : res targ_error spacecraft := Ok (at_epoch sc e (V3 (thrust_prct m) 0 0)).
Definition by_duration (m : maneuver) (sc : spacecraft) (e : Z) : res targ_error spacecraft :=
  Ok (at_epoch sc e (V3 (seconds (m_end m - m_start m)) 0 0)).
Definition run_burn (world : maneuver -> spacecraft -> Z -> res targ_error spacecraft) (of_secs : R -> Z) (t : targeter) : res targ_error solution :=
  try_achieve_fd still world world no_frame cartesian no_bplane no_dcm solve1 of_secs t sc0 0 100000000000.

Lemma assess_ok d tol k a : Rabs (k * (d - a)) <= tol -> fst (assess_value (want_vx d tol k) a) = true.
Proof. intros H. unfold assess_value. cbn. rewrite Rplus_0_r. destruct (Rle_dec _ _); [reflexivity|contradiction]. Qed.

(** C52: the burn flown with the initial guess of a thrust level, and the maneuver of the solution. *)
Theorem C52_level_refuted of_secs : exists t s, run_burn by_level of_secs t = Ok s /\
  apply still by_level cartesian no_bplane of_secs t s = Err Verification.
Proof.
  exists (one (want_vx (9999 / 10000) 0 1) (variable_of ThrustLevel) 5).
  set (lvl := clamp (1 + - (1 / 10000)) 0 1).
  assert (L : lvl = 9999 / 10000) by (unfold lvl, clamp; lims).
  unfold run_burn, try_achieve_fd. cbn [objectives one want_vx still bind initial_guess variables correction_frame].
  replace (valid (variable_of ThrustLevel)) with true by (symmetry; unfold valid; cbn [variable_of max_step max_value min_value];
    repeat match goal with |- context [Rlt_dec ?a ?b] => destruct (Rlt_dec a b); [exfalso; lra|] end; reflexivity).
  cbn [negb component variable_of is_finite_burn sc_thruster at_epoch with_orbit sc0 guess_maneuver g_mnvr bind perturbation thrust_prct initial_maneuver g_burn].
  fold lvl.
  cbn [iterations one iterate final_state]. cbn [still bind with_level m_start m_end]. cbn [by_level bind].
  cbn [objective_orbit objective_frame one bind b_plane_of b_plane_target objectives existsb is_b_plane obj_parameter want_vx orb].
  cbn [assess_all achieved_value obj_parameter want_vx or_fail cartesian bind].
  cbn [variables one jacobian_row]. unfold jacobian_entry at 1.
  cbn [component variable_of is_finite_burn perturb_maneuver bind fst snd final_state]. cbn [still bind with_level m_start m_end]. cbn [by_level bind].
  cbn [objective_orbit objective_frame one bind b_plane_of b_plane_target objectives existsb is_b_plane obj_parameter want_vx orb].
  cbn [achieved_value or_fail cartesian bind unwrap].
  rewrite assess_ok.
  2:{ cbn [sc_orbit at_epoch with_orbit velocity_km_s vx thrust_prct with_level]. rewrite L.
      replace (1 * (9999 / 10000 - 9999 / 10000)) with 0 by ring. rewrite Rabs_R0. lra. }
  cbn [andb]. cbn [correct correction_frame one bind].
  eexists. split; [reflexivity|]. unfold apply, to_mnvr. cbn [sol_variables existsb component variable_of is_finite_burn orb rebuild correction map init_guess].
  cbn [correct_maneuver component variable_of bind rebuild with_level thrust_prct initial_maneuver]. cbn [by_level bind].
  cbn [b_plane_of b_plane_target objectives one existsb is_b_plane obj_parameter want_vx orb bind].
  cbn [verified achieved_value obj_parameter want_vx bind]. cbn [or_fail cartesian bind].
  cbn [sc_orbit at_epoch with_orbit velocity_km_s vx thrust_prct with_level desired_value want_vx obj_tolerance].
  replace (ensure_bounds _ (1 + 1)) with 1 by (unfold ensure_bounds, check_bounds; cbn [max_value min_value variable_of];
    repeat match goal with |- context [Rlt_dec ?a ?b] => destruct (Rlt_dec a b) end; cbn [fst]; lra).
  rewrite Rabs_left by lra. ite. reflexivity.
Qed.

(** Durations of seconds exist. *)
Example of_secs_exists : exists of_secs : R -> Z, forall z, of_secs (seconds z) = z.
Proof.
  exists (fun x => (up (x * 1000000000) - 1)%Z). intros z. unfold seconds.
  replace (IZR z / 1000000000 * 1000000000) with (IZR z) by field.
  rewrite <- (tech_up (IZR z) (z + 1)); [lia| |]; rewrite plus_IZR; lra.
Qed.

(** C52: the burn flown with the initial guess of a duration, and the maneuver of the solution. *)
Theorem C52_duration_refuted of_secs : (forall z, of_secs (seconds z) = z) ->
  exists t s m, run_burn by_duration of_secs t = Ok s /\ to_mnvr of_secs s = Ok m /\ m_end m = m_start m /\
    correction s = [60] /\ apply still by_duration cartesian no_bplane of_secs t s = Err Verification.
Proof.
  intros Hs. assert (H60 : of_secs 60 = 60000000000%Z).
  { replace 60 with (seconds 60000000000) by (unfold seconds; lra). apply Hs. }
  assert (H0 : of_secs 0 = 0%Z).
  { replace 0 with (seconds 0) at 1 by (unfold seconds; lra). apply Hs. }
  exists (one (want_vx 60 0 1) (MkVariable Duration 1 60 60 600 0) 5).
  unfold run_burn, try_achieve_fd. cbn [objectives one want_vx still bind initial_guess variables correction_frame].
  replace (valid _) with true by (symmetry; unfold valid; cbn [max_step max_value min_value];
    repeat match goal with |- context [Rlt_dec ?a ?b] => destruct (Rlt_dec a b); [exfalso; lra|] end; reflexivity).
  cbn [negb component is_finite_burn sc_thruster at_epoch with_orbit sc0 guess_maneuver g_mnvr bind perturbation init_guess thrust_prct initial_maneuver g_burn].
  cbn [iterations one iterate final_state]. cbn [still bind with_end m_start m_end]. rewrite H60. cbn [by_duration bind].
  cbn [objective_orbit objective_frame one bind b_plane_of b_plane_target objectives existsb is_b_plane obj_parameter want_vx orb].
  cbn [assess_all achieved_value obj_parameter want_vx or_fail cartesian bind].
  cbn [variables one jacobian_row]. unfold jacobian_entry at 1.
  cbn [component is_finite_burn perturb_maneuver bind fst snd final_state]. cbn [still bind m_start m_end]. cbn [by_duration bind].
  cbn [objective_orbit objective_frame one bind b_plane_of b_plane_target objectives existsb is_b_plane obj_parameter want_vx orb].
  cbn [achieved_value or_fail cartesian bind unwrap].
  rewrite assess_ok.
  2:{ cbn [sc_orbit at_epoch with_orbit velocity_km_s vx with_end m_start m_end initial_maneuver]. unfold seconds.
      change (0 + 60000000000 - 0)%Z with 60000000000%Z.
      match goal with |- Rabs ?x <= _ => replace x with 0 by field end. rewrite Rabs_R0. lra. }
  cbn [andb]. cbn [correct correction_frame one bind].
  assert (Hm : rebuild of_secs 0 100000000000 [MkVariable Duration 1 60 60 600 0] [60] (initial_maneuver 0 100000000000)
    = Ok (with_end (initial_maneuver 0 100000000000) 0)).
  { cbn [rebuild correct_maneuver component]. rewrite Rabs_pos_eq by lra. ite. cbn [bind rebuild].
    replace (apply_bounds _ _) with 0; [now rewrite H0|]. unfold apply_bounds, seconds. cbn [max_value min_value].
    assert (IZR (0 - 100000000000) / 1000000000 < 0) by (cbn [Z.sub Z.opp Z.add]; lra). skip. ite. reflexivity. }
  eexists. exists (with_end (initial_maneuver 0 100000000000) 0). split; [reflexivity|].
  split; [exact Hm|]. split; [reflexivity|]. split; [reflexivity|].
  unfold apply. unfold to_mnvr. cbn [sol_variables existsb component is_finite_burn orb correction map init_guess].
  change (epoch (sc_orbit (corrected_state _))) with 0%Z. change (epoch (sc_orbit (achieved_state _))) with 100000000000%Z.
  rewrite Hm. cbn [by_duration bind].
  cbn [b_plane_of b_plane_target objectives one existsb is_b_plane obj_parameter want_vx orb bind].
  cbn [verified achieved_value obj_parameter want_vx bind]. cbn [or_fail cartesian bind].
  cbn [sc_orbit at_epoch with_orbit velocity_km_s vx with_end m_start m_end initial_maneuver desired_value want_vx obj_tolerance].
  change (0 - 0)%Z with 0%Z. unfold seconds. replace (60 - 0 / 1000000000) with 60 by field. rewrite Rabs_pos_eq by lra. ite. reflexivity.
Qed.

(** C52: the rate of an angle of the burn moves the position instead, and needs no thruster. *)
Definition no_thruster : spacecraft := Spacecraft (Orbit 0 0 vzero vzero) 100 50 0 0 0 0 0 None Coast None None.
Theorem C52_angle_rate_refuted of_secs : exists t s,
  try_achieve_fd still no_guided no_guided no_frame cartesian no_bplane no_dcm solve1 of_secs t no_thruster 0 100000000000 = Ok s /\
  (forall v, In v (variables t) -> component v = MnvrAlphaDot) /\
  to_mnvr of_secs s = Err NotFinite /\ vy (radius_km (sc_orbit (corrected_state s))) = 1.
Proof.
  exists (one (Objective (Element Y) 1 0 1 0) (MkVariable MnvrAlphaDot 1 1 10 10 (-10)) 5).
  unfold try_achieve_fd. cbn [objectives one still bind initial_guess variables correction_frame].
  replace (valid _) with true by (symmetry; unfold valid; cbn [max_step max_value min_value];
    repeat match goal with |- context [Rlt_dec ?a ?b] => destruct (Rlt_dec a b); [exfalso; lra|] end; reflexivity).
  cbn [negb component is_finite_burn vec_index bind add_at Nat.ltb Nat.leb add_comp g_correction g_mnvr g_burn init_guess zero6 fst snd correct correction_frame one].
  cbn [iterations one iterate final_state]. cbn [still bind].
  cbn [objective_orbit objective_frame one bind b_plane_of b_plane_target objectives existsb is_b_plane obj_parameter orb].
  cbn [assess_all achieved_value obj_parameter or_fail cartesian bind].
  cbn [variables one jacobian_row]. unfold jacobian_entry at 1.
  cbn [component is_finite_burn vec_index add_at Nat.ltb Nat.leb add_comp zero6 perturbation bind fst snd final_state correct correction_frame one]. cbn [still bind].
  cbn [objective_orbit objective_frame one bind b_plane_of b_plane_target objectives existsb is_b_plane obj_parameter orb].
  cbn [achieved_value or_fail cartesian bind unwrap].
  match goal with |- context [fst (assess_value ?ob ?a)] => replace (fst (assess_value ob a)) with true end.
  2:{ symmetry. unfold assess_value. cbn [fst multiplicative_factor desired_value additive_factor obj_tolerance].
      cbn [sc_orbit at_epoch with_orbit radius_km velocity_km_s move no_thruster fst snd vadd vzero vx vy vz].
      match goal with |- context [Rabs ?x] => replace x with 0 by ring end. rewrite Rabs_R0. ite. reflexivity. }
  cbn [andb total_of map vec_index component bind add_at Nat.ltb Nat.leb add_comp init_guess zero6 fst snd correct correction_frame one].
  eexists. split; [reflexivity|]. split; [intros v [<-|[]]; reflexivity|]. split; [reflexivity|]. cbn. ring.
Qed.

(** C52: the check of a solution that corrects a burn and the velocity panics. *)
Theorem C52_mixed_refuted of_secs : exists t s, run_burn by_level of_secs t = Ok s /\
  apply still by_level cartesian no_bplane of_secs t s = Panic.
Proof.
  exists (Targeter [want_vx 1 0 1] None [MkVariable MnvrAlpha 1 0 10 10 (-10); MkVariable VelocityX 1 0 10 10 (-10)] None 5).
  unfold run_burn, try_achieve_fd. cbn [objectives want_vx still bind initial_guess variables correction_frame].
  replace (valid (MkVariable MnvrAlpha 1 0 10 10 (-10))) with true by (symmetry; unfold valid; cbn [max_step max_value min_value];
    repeat match goal with |- context [Rlt_dec ?a ?b] => destruct (Rlt_dec a b); [exfalso; lra|] end; reflexivity).
  replace (valid (MkVariable VelocityX 1 0 10 10 (-10))) with true by (symmetry; unfold valid; cbn [max_step max_value min_value];
    repeat match goal with |- context [Rlt_dec ?a ?b] => destruct (Rlt_dec a b); [exfalso; lra|] end; reflexivity).
  cbn [negb component is_finite_burn sc_thruster at_epoch with_orbit sc0 guess_maneuver g_mnvr bind init_guess vec_index add_azimuth representation initial_maneuver
       add_val_in_order add_at Nat.ltb Nat.leb Nat.sub add_comp g_correction zero6 fst snd g_burn].
  cbn [iterations iterate final_state]. cbn [still bind with_repr m_start m_end]. cbn [by_level bind].
  cbn [objective_orbit objective_frame bind b_plane_of b_plane_target objectives existsb is_b_plane obj_parameter want_vx orb].
  cbn [assess_all achieved_value obj_parameter want_vx or_fail cartesian bind].
  cbn [variables jacobian_row]. unfold jacobian_entry.
  cbn [component is_finite_burn perturb_maneuver vec_index add_azimuth representation with_repr add_val_in_order
       add_at Nat.ltb Nat.leb Nat.sub add_comp zero6 perturbation correct correction_frame bind fst snd final_state]. cbn [still bind with_repr m_start m_end]. cbn [by_level bind].
  cbn [objective_orbit objective_frame bind b_plane_of b_plane_target objectives existsb is_b_plane obj_parameter want_vx orb].
  cbn [achieved_value or_fail cartesian bind unwrap].
  rewrite assess_ok.
  2:{ cbn [sc_orbit at_epoch with_orbit velocity_km_s vx thrust_prct with_repr initial_maneuver].
      replace (1 * (1 - 1)) with 0 by ring. rewrite Rabs_R0. lra. }
  cbn [andb]. cbn [correct correction_frame bind].
  eexists. split; [reflexivity|]. reflexivity.
Qed.

(** The hypotheses of [C52_dates] are met. *)
Example dates_case : exists of_secs s v, (forall d, of_secs (seconds d) = d) /\ seconds (of_secs 2) = 2 /\ sol_variables s = [v] /\
  correction s = [2] /\ min_value v <= 2 <= max_value v /\ component v = StartEpoch.
Proof.
  assert (U : forall d, (up (IZR d) - 1 = d)%Z).
  { intros d. rewrite <- (tech_up (IZR d) (d + 1)); [ring| |]; rewrite plus_IZR; lra. }
  exists (fun x => (up (x * 1000000000) - 1)%Z), (Solution sc0 sc0 [2] [MkVariable StartEpoch 1 2 10 10 (-10)] [] 0).
  exists (MkVariable StartEpoch 1 2 10 10 (-10)). split; [|split; [|repeat split; cbn [max_value min_value]; lra]].
  - intros d. unfold seconds. replace (IZR d / 1000000000 * 1000000000) with (IZR d) by field. apply U.
  - replace (2 * 1000000000) with (IZR 2000000000) by (rewrite <- mult_IZR; reflexivity). rewrite U. unfold seconds. lra.
Qed.

(** The hypotheses of [C52_maneuver_partial] are met. *)
Example angles_case of_secs : exists t s, run_burn by_level of_secs t = Ok s /\ correction_frame t = None /\ variables t <> [] /\
  Forall (fun v => of_angles (component v)) (variables t) /\ correction s = [2].
Proof.
  exists (one (want_vx 1 0 1) (MkVariable MnvrAlpha 1 2 10 10 (-10)) 5).
  unfold run_burn, try_achieve_fd. cbn [objectives one want_vx still bind initial_guess variables correction_frame].
  replace (valid _) with true by (symmetry; unfold valid; cbn [max_step max_value min_value];
    repeat match goal with |- context [Rlt_dec ?a ?b] => destruct (Rlt_dec a b); [exfalso; lra|] end; reflexivity).
  cbn [negb component is_finite_burn sc_thruster at_epoch with_orbit sc0 guess_maneuver g_mnvr bind init_guess vec_index add_azimuth representation initial_maneuver
       add_val_in_order g_burn].
  cbn [iterations one iterate final_state]. cbn [still bind with_repr m_start m_end]. cbn [by_level bind].
  cbn [objective_orbit objective_frame one bind b_plane_of b_plane_target objectives existsb is_b_plane obj_parameter want_vx orb].
  cbn [assess_all achieved_value obj_parameter want_vx or_fail cartesian bind].
  cbn [variables one jacobian_row]. unfold jacobian_entry.
  cbn [component is_finite_burn perturb_maneuver vec_index add_azimuth representation with_repr add_val_in_order bind fst snd final_state].
  cbn [still bind with_repr m_start m_end]. cbn [by_level bind].
  cbn [objective_orbit objective_frame one bind b_plane_of b_plane_target objectives existsb is_b_plane obj_parameter want_vx orb].
  cbn [achieved_value or_fail cartesian bind unwrap].
  rewrite assess_ok.
  2:{ cbn [sc_orbit at_epoch with_orbit velocity_km_s vx thrust_prct with_repr initial_maneuver].
      replace (1 * (1 - 1)) with 0 by ring. rewrite Rabs_R0. lra. }
  cbn [andb]. cbn [correct correction_frame one bind].
  eexists. split; [reflexivity|]. split; [reflexivity|]. split; [discriminate|].
  split; [constructor; [left; reflexivity|constructor]|reflexivity].
Qed.

(** C52: the corrections made in a local frame are those of the states tried one after the other, but
    the solution applies their sum in the frame of the start. *)
Definition turn (f : nat) (o : orbit) : option m3 :=
  Some (if Req_EM_T (vx (velocity_km_s o)) 0 then matrix3 1 0 0 0 1 0 0 0 1 else matrix3 0 (-1) 0 1 0 0 0 0 1).
Example turn_rotates f o m : turn f o = Some m -> is_rotation m.
Proof.
  intros [= <-]. destruct (Req_EM_T _ _); unfold is_rotation, mm, transpose, identity3, matrix3, det3, cross, dot;
    cbn; (split; [|split]); repeat f_equal; ring.
Qed.
Definition moving (x y : R) : spacecraft := with_orbit sc0 (Orbit 0 0 vzero (V3 x y 0)).
Definition local_vy : targeter := Targeter [Objective (Element VY) 1 0 1 0] None [MkVariable VelocityX 1 1 10 10 (-10)] (Some 0%nat) 5.
Lemma correct_still p d : correct turn local_vy (moving 0 0) (p, V3 d 0 0) = Ok (moving d 0).
Proof.
  unfold correct, turn. cbn [correction_frame local_vy sc_orbit moving with_orbit velocity_km_s vx bind or_fail snd].
  destruct (Req_EM_T 0 0); [|contradiction]. unfold move, moving, with_orbit, mv, matrix3, dot, vadd, vzero. cbn.
  apply (f_equal Ok). apply (f_equal (fun o => Spacecraft o 100 50 0 0 0 0 0 (Some (Thruster 1 300)) Coast None None)). f_equal; apply v3_eq; cbn; ring.
Qed.
Lemma correct_moving x y p d : x <> 0 -> correct turn local_vy (moving x y) (p, V3 d 0 0) = Ok (moving x (y + d)).
Proof.
  intros Hx. unfold correct, turn. cbn [correction_frame local_vy sc_orbit moving with_orbit velocity_km_s vx bind or_fail snd].
  destruct (Req_EM_T x 0); [contradiction|]. unfold move, moving, with_orbit, mv, matrix3, dot, vadd, vzero. cbn.
  apply (f_equal Ok). apply (f_equal (fun o => Spacecraft o 100 50 0 0 0 0 0 (Some (Thruster 1 300)) Coast None None)). f_equal; apply v3_eq; cbn; ring.
Qed.
Lemma assess_moving of_secs m x y : x <> 0 ->
  assess_all still no_guided no_guided no_frame cartesian no_bplane turn of_secs local_vy false (moving x y) m 100000000000
    (sc_orbit (at_epoch (moving x y) 100000000000 (V3 x y 0))) None (objectives local_vy)
  = Ok ((if Rle_dec (Rabs (1 - y)) 0 then true else false), [1 - y], [[1]]).
Proof.
  intros Hx. cbn [objectives local_vy assess_all obj_parameter achieved_value cartesian or_fail bind variables jacobian_row].
  unfold jacobian_entry. cbn [component is_finite_burn vec_index perturbation bind add_at Nat.ltb Nat.leb Nat.sub zero6 fst snd vzero add_comp vx vy vz].
  fold local_vy. rewrite correct_moving by assumption. cbn [bind final_state still].
  cbn [objective_orbit objective_frame local_vy bind b_plane_of b_plane_target objectives existsb is_b_plane obj_parameter orb achieved_value cartesian or_fail unwrap].
  cbn [sc_orbit at_epoch with_orbit velocity_km_s moving vy vx].
  unfold assess_value. cbn [fst snd multiplicative_factor desired_value additive_factor obj_tolerance]. rewrite andb_true_r.
  replace (1 * (1 - y) + 0) with (1 - y) by ring. replace ((y + (0 + 1) - y) / 1) with 1 by field. reflexivity.
Qed.

Theorem C52_local_frame_refuted of_secs : exists t s,
  try_achieve_fd still no_guided no_guided no_frame cartesian no_bplane turn solve1 of_secs t sc0 0 100000000000 = Ok s /\
  vy (velocity_km_s (sc_orbit (achieved_state s))) = 1 /\
  exists xf, still (corrected_state s) 100000000000 = Ok xf /\ vy (velocity_km_s (sc_orbit xf)) = 0.
Proof.
  exists local_vy. unfold try_achieve_fd. cbn [objectives local_vy still bind initial_guess variables correction_frame].
  replace (valid _) with true by (symmetry; unfold valid; cbn [max_step max_value min_value];
    repeat match goal with |- context [Rlt_dec ?a ?b] => destruct (Rlt_dec a b); [exfalso; lra|] end; reflexivity).
  cbn [negb component is_finite_burn vec_index bind Nat.ltb Nat.leb].
  cbn [add_at Nat.ltb Nat.leb Nat.sub add_comp g_correction g_mnvr g_burn init_guess zero6 vzero fst snd vx vy vz bind].
  fold local_vy. change (at_epoch sc0 0 (velocity_km_s (sc_orbit sc0))) with (moving 0 0).
  rewrite correct_still. replace (0 + 1) with 1 by ring. cbn [bind iterations local_vy]. fold local_vy.
  cbn [iterate]. cbn [final_state still bind].
  cbn [objective_orbit objective_frame local_vy bind b_plane_of b_plane_target existsb is_b_plane obj_parameter orb]. fold local_vy.
  change (b_plane_target local_vy) with false. cbn [b_plane_of bind].
  change (velocity_km_s (sc_orbit (moving 1 0))) with (V3 1 0 0).
  rewrite assess_moving by lra. cbn [bind]. rewrite (Rabs_pos_eq (1 - 0)) by lra. skip.
  cbn [solve1 variables local_vy corrections component is_finite_burn vec_index bind]. cbv zeta. fold local_vy.
  assert (L : limit_step (MkVariable VelocityX 1 1 10 10 (-10)) ((1 - 0) / 1) = 1).
  { replace ((1 - 0) / 1) with 1 by field. unfold limit_step. cbn. rewrite !Rabs_pos_eq by lra. lims. }
  rewrite L. cbn [add_at Nat.ltb Nat.leb Nat.sub add_comp zero6 vzero fst snd vx vy vz bind].
  rewrite correct_moving by lra. cbn [bind].
  replace (0 + (0 + 1)) with 1 by ring.
  change (velocity_km_s (sc_orbit (moving 1 1))) with (V3 1 1 0).
  rewrite assess_moving by lra. cbn [bind]. replace (1 - 1) with 0 by ring. rewrite Rabs_R0. ite.
  cbn [map init_guess add_lists total_of variables local_vy vec_index component bind add_at Nat.ltb Nat.leb Nat.sub add_comp zero6 vzero fst snd vx vy vz].
  fold local_vy. rewrite correct_still. cbn [bind].
  eexists. split; [reflexivity|]. split; [reflexivity|]. eexists. split; reflexivity.
Qed.

(** ** Assumptions *)
Print Assumptions C52_bounds.
Print Assumptions C52_solution.
Print Assumptions C52_checks.
Print Assumptions C52_reproduces.
Print Assumptions C52_apply_partial.
Print Assumptions C52_step_partial.
Print Assumptions C52_maneuver_partial.
Print Assumptions C52_mixed_no_maneuver.
Print Assumptions C52_duration_lost.
Print Assumptions C52_dates.
Print Assumptions C52_total_bounds_refuted.
Print Assumptions C52_step_refuted.
Print Assumptions C52_scaled_apply_refuted.
Print Assumptions C52_level_refuted.
Print Assumptions C52_duration_refuted.
Print Assumptions C52_angle_rate_refuted.
Print Assumptions C52_mixed_refuted.
Print Assumptions C52_local_frame_refuted.
Print Assumptions C71_one_correction.
Print Assumptions C71_factor_refuted.
