(** C36: the statistics of an orbit determination solution.  The definitions they are compared
    with are in [Stat_Spec]. *)
From Coq Require Import Reals Lra String.
From Verif Require Import Base RustStd Arc_Model Sol_Model Sol_Spec Sol_Proofs.
From Verif Require Import Stat_Model Stat_Spec Stat_Proofs.
Local Open Scope R_scope.

(** Solutions for the examples. *)
Definition scalar (rej : bool) (pre : R) : option (residual numbers) :=
  Some {| values := {| prefit := [pre]; postfit := if rej then None else Some [pre / 2];
                       whitened := [pre]; ratio := pre |};
          res_rejected := rej; res_tracker := None; res_types := [Range] |}.
Definition of_residuals (l : list (option (residual numbers))) : solution unit numbers unit unit :=
  {| estimates := map (fun _ => tt) l; residuals := l; gains := map (fun _ => None) l;
     fs_ratios := map (fun _ => None) l |}.

(** ** The root mean squares.  What is reported is the root mean square over the measurements,
    rejected ones included, times the square root of the share of measurements among the updates. *)
Theorem C36_rms_prefit_scaled :
  forall {E G F} (s : solution E numbers G F), measured s <> [] ->
    rms_prefit_residuals s
    = Some (rms (map prefit (measured s))
            * sqrt (INR (length (measured s)) / INR (length (residuals s)))).
Proof. intros E G F. exact rms_prefit_spec. Qed.
Print Assumptions C36_rms_prefit_scaled.
Theorem C36_rms_ratio_scaled :
  forall {E G F} (s : solution E numbers G F), measured s <> [] ->
    rms_residual_ratios s
    = Some (rms (map (fun v => [ratio v]) (measured s))
            * sqrt (INR (length (measured s)) / INR (length (residuals s)))).
Proof. intros E G F. exact rms_ratio_spec. Qed.
Print Assumptions C36_rms_ratio_scaled.
Theorem C36_rms_postfit_scaled :
  forall {E G F} (s : solution E numbers G F) posts, measured s <> [] ->
    map postfit (measured s) = map Some posts ->
    rms_postfit_residuals s
    = Some (rms posts * sqrt (INR (length (measured s)) / INR (length (residuals s)))).
Proof. intros E G F. exact rms_postfit_spec. Qed.
Print Assumptions C36_rms_postfit_scaled.

(** So without time updates, and for the postfits without rejections, they are right. *)
Lemma unit_share {E G F} (s : solution E numbers G F) :
  measured s <> [] -> (forall o, In o (residuals s) -> o <> None) ->
  sqrt (INR (length (measured s)) / INR (length (residuals s))) = 1.
Proof.
  intros H N. rewrite measured_flatten in *. rewrite map_length, (flatten_full _ N).
  assert (0 < INR (length (residuals s))).
  { apply lt_0_INR. destruct (residuals s); [now contradiction H|cbn; lia]. }
  replace (_ / _) with 1 by (field; lra). apply sqrt_1.
Qed.
Theorem C36_rms_partial :
  forall {E G F} (s : solution E numbers G F),
    measured s <> [] -> (forall o, In o (residuals s) -> o <> None) ->
    rms_prefit_residuals s = Some (rms (map prefit (measured s))) /\
    rms_residual_ratios s = Some (rms (map (fun v => [ratio v]) (measured s))) /\
    forall posts, map postfit (measured s) = map Some posts ->
      rms_postfit_residuals s = Some (rms posts).
Proof.
  intros E G F s H N. pose proof (unit_share s H N) as U. split; [|split].
  - rewrite rms_prefit_spec by assumption. now rewrite U, Rmult_1_r.
  - rewrite rms_ratio_spec by assumption. now rewrite U, Rmult_1_r.
  - intros posts P. rewrite (rms_postfit_spec s posts) by assumption. now rewrite U, Rmult_1_r.
Qed.
Print Assumptions C36_rms_partial.

Example two_measurements :
  let s := of_residuals [scalar false 6; scalar false 8] in
  measured s <> [] /\ (forall o, In o (residuals s) -> o <> None) /\
  map postfit (measured s) = map Some [[3]; [4]] /\ rms (map prefit (measured s)) = sqrt 50.
Proof.
  cbv zeta. split; [discriminate|]. split.
  - intros o [<-|[<-|[]]]; discriminate.
  - split.
    + cbn. do 4 f_equal; lra.
    + unfold rms, mean, norm2, sum. cbn. f_equal. lra.
Qed.

(** One time update next to one measurement divides the reported value by the square root of 2. *)
Theorem C36_rms_time_updates_refuted :
  exists (s : solution unit numbers unit unit) x,
    rms_prefit_residuals s = Some x /\ x <> rms (map prefit (measured s)).
Proof.
  exists (of_residuals [None; scalar false 2]). eexists. split.
  - rewrite rms_prefit_spec; [reflexivity|discriminate].
  - assert (Q : rms (map prefit (measured (of_residuals [None; scalar false 2]))) = 2).
    { unfold rms, mean, norm2, sum. cbn.
      replace ((2 * 2 + 0 + 0) / 1) with (2 * 2) by lra. apply sqrt_square. lra. }
    rewrite Q. cbn [measured of_residuals residuals flat_map app scalar length values].
    cbn [INR]. intros H.
    assert (S : sqrt (1 / (1 + 1)) = 1) by lra.
    apply (f_equal (fun x => x * x)) in S. rewrite sqrt_sqrt in S by lra. lra.
Qed.
Print Assumptions C36_rms_time_updates_refuted.

(** A rejected residual carries a NaN postfit (residual.rs:95), which is summed with the others:
    the reported root mean square of the postfits is then NaN. *)
Theorem C36_rms_postfit_rejected_refuted :
  exists s : solution unit numbers unit unit,
    accepted s <> [] /\
    (forall r, In r (rejected_residuals s) ->
       values r = rejected_numbers (prefit (values r)) (whitened (values r)) (ratio (values r))) /\
    rms_postfit_residuals s = None.
Proof.
  exists (of_residuals [scalar false 2; scalar true 9]). split; [discriminate|]. split.
  - intros r [<-|[]]. reflexivity.
  - apply rms_postfit_nan. eexists. split; [right; left; reflexivity|reflexivity].
Qed.
Print Assumptions C36_rms_postfit_rejected_refuted.

(** ** The share of residuals within a threshold is exact over all the measurements. *)
Theorem C36_within_threshold :
  forall {E G F} (s : solution E numbers G F) threshold kept,
    keeps (fun v => Rabs (ratio v) <= threshold) (measured s) kept ->
    residual_ratio_within_threshold s threshold
    = match measured s with
      | [] => Err NoResiduals
      | _ => Ok (INR (length kept) / INR (length (measured s)))
      end.
Proof. intros E G F. exact within_spec. Qed.
Print Assumptions C36_within_threshold.

Definition vals (rej : bool) (pre : R) : numbers :=
  {| prefit := [pre]; postfit := if rej then None else Some [pre / 2]; whitened := [pre]; ratio := pre |}.
Example half_within :
  let s := of_residuals [scalar false (-2); None; scalar true 9] in
  keeps (fun v => Rabs (ratio v) <= 3) (measured s) [vals false (-2)] /\
  residual_ratio_within_threshold s 3 = Ok (INR 1 / INR 2).
Proof.
  cbv zeta.
  assert (K : keeps (fun v => Rabs (ratio v) <= 3)
                (measured (of_residuals [scalar false (-2); None; scalar true 9])) [vals false (-2)]).
  { cbn. apply keeps_take; [cbn; unfold Rabs; destruct (Rcase_abs _); lra|].
    apply keeps_skip; [cbn; unfold Rabs; destruct (Rcase_abs _); lra|]. constructor. }
  split; [exact K|]. exact (within_spec _ _ _ K).
Qed.

(** ** The normality test.  For a cumulative distribution function, the reported statistic is
    within one over the sample size of the largest distance to the empirical distribution, and
    not above it if the values are distinct. *)
Theorem C36_ks_partial :
  forall {E G F} (cdf : R -> R -> R -> R) (s : solution E numbers G F) ks,
    (forall m d a b, 0 < d -> a <= b -> cdf m d a <= cdf m d b) ->
    (forall m d a, 0 < d -> 0 <= cdf m d a <= 1) ->
    ks_test_normality cdf s = Ok ks ->
    let sample := flat_map whitened (accepted s) in
    exists mu sigma,
      mu = mean sample /\ sigma = sqrt (mean (map (fun v => (v - mu) ^ 2) sample)) /\ 0 < sigma /\
      (forall x, Rabs (empirical_cdf sample x - cdf mu sigma x) <= ks + / INR (length sample)) /\
      (NoDup sample ->
       forall B, (forall x, Rabs (empirical_cdf sample x - cdf mu sigma x) <= B) -> ks <= B).
Proof.
  intros E G F cdf s ks M B H. cbv zeta. rewrite accepted_flatten.
  rewrite flat_map_concat_map, map_map, <- flat_map_concat_map.
  unfold ks_test_normality in H. set (l := flat_map (fun r => whitened (values r)) (accepted_residuals s)) in *.
  destruct l as [|v l'] eqn:Ql; [discriminate|]. rewrite <- Ql in *. cbv zeta in H.
  assert (N : l <> []) by (rewrite Ql; discriminate).
  assert (P : Permutation (sort_by rleb l) l) by (symmetry; apply sort_perm).
  rewrite sort_length in H.
  assert (Mu : rsum (sort_by rleb l) / INR (length l) = mean l).
  { unfold mean. f_equal. rewrite rsum_sum. now apply sum_perm. }
  rewrite Mu in H.
  assert (Va : rsum (map (fun v => (v - mean l) ^ 2) (sort_by rleb l)) / INR (length l)
               = mean (map (fun v => (v - mean l) ^ 2) l)).
  { unfold mean at 2. rewrite map_length. f_equal. rewrite rsum_sum. now apply sum_perm, Permutation_map. }
  rewrite Va in H.
  destruct (Rlt_dec 0 (sqrt (mean (map (fun v => (v - mean l) ^ 2) l)))) as [Hs|]; [|discriminate].
  injection H as H.
  exists (mean l), (sqrt (mean (map (fun v => (v - mean l) ^ 2) l))).
  split; [reflexivity|]. split; [reflexivity|]. split; [assumption|]. subst ks. split.
  - apply ks_upper; [assumption|intros; now apply M|intros; now apply B].
  - intros Nd Bd Hb. now apply ks_lower.
Qed.
Print Assumptions C36_ks_partial.

(** A monotone function between 0 and 1 standing for the distribution. *)
Definition ramp (m d x : R) : R := Rmax 0 (Rmin 1 (1 / 2 + (x - m) / (4 * d))).
Example ks_two_values :
  (forall m d a b, 0 < d -> a <= b -> ramp m d a <= ramp m d b) /\
  (forall m d a, 0 < d -> 0 <= ramp m d a <= 1) /\
  is_ok (ks_test_normality ramp (of_residuals [scalar false 1; None; scalar false (-1)])).
Proof.
  split; [|split].
  - intros m d a b Hd H. unfold ramp. apply Rle_max_compat_l, Rle_min_compat_l.
    apply Rplus_le_compat_l, Rmult_le_compat_r; [|lra].
    apply Rlt_le, Rinv_0_lt_compat. lra.
  - intros m d a _. unfold ramp. split; [apply Rmax_l|]. apply Rmax_lub; [lra|apply Rmin_l].
  - unfold ks_test_normality.
    cbn [of_residuals accepted_residuals residuals flatten scalar filter res_rejected negb flat_map
         values whitened app].
    cbv zeta. destruct (Rlt_dec _ _) as [H|H]; [eexists; reflexivity|]. exfalso. apply H.
    apply sqrt_lt_R0. rewrite sort_length.
    set (l := [1; -1]). set (ss := sort_by rleb l).
    assert (P : Permutation ss l) by (symmetry; apply sort_perm).
    replace (rsum ss) with (sum l) by (symmetry; apply sum_perm, P).
    replace (rsum (map (fun v => (v - sum l / INR (length l)) ^ 2) ss))
      with (sum (map (fun v => (v - sum l / INR (length l)) ^ 2) l))
      by (symmetry; apply sum_perm, Permutation_map, P).
    subst l. unfold sum. cbn. lra.
Qed.

(** With a single accepted scalar residual (or equal ones) the spread is zero, statrs refuses to
    build the distribution and the call panics. *)
Theorem C36_ks_single_refuted :
  exists s : solution unit numbers unit unit, accepted s <> [] /\
    forall cdf, ks_test_normality cdf s = Panic.
Proof.
  exists (of_residuals [scalar false 7]). split; [discriminate|]. intros cdf.
  unfold ks_test_normality.
  cbn [of_residuals accepted_residuals residuals flatten scalar filter res_rejected negb flat_map
       values whitened app sort_by insert length map rsum].
  cbv zeta. destruct (Rlt_dec _ _) as [H|H]; [|reflexivity]. exfalso.
  replace (((7 - (7 + 0) / INR 1) ^ 2 + 0) / INR 1) with 0 in H by (cbn; field).
  rewrite sqrt_0 in H. lra.
Qed.
Print Assumptions C36_ks_single_refuted.

(** ** The innovation consistency test: the sum over the accepted residuals of the squared
    lengths of the whitened residuals, against as many degrees of freedom as accepted scalars. *)
Theorem C36_nis :
  forall {E G F} quantile dim (s : solution E numbers G F) alpha,
    match nis_consistency quantile dim s alpha with
    | Ok c => accepted s <> [] /\
        normalized_sum c = sum (map (fun v => norm2 (whitened v)) (accepted s)) /\
        k_dof c = INR (length (accepted s)) * INR dim
    | Err NoResiduals => accepted s = []
    | _ => False
    end.
Proof. intros E G F. exact nis_spec. Qed.
Print Assumptions C36_nis.

(** The bounds bracket the number of degrees of freedom (the expected value of the sum) as soon
    as the quantile exceeds the square root of 2/(9k), so the bounds are then in order, a sum
    equal to its expectation passes, and each verdict means what it says. *)
Theorem C36_nis_verdict :
  forall {E G F} quantile dim (s : solution E numbers G F) alpha c,
    nis_consistency quantile dim s alpha = Ok c -> (0 < dim)%nat ->
    sqrt (2 / (9 * k_dof c))
      < quantile (1 - (match alpha with Some a => a | None => 5 / 100 end) / 2) ->
    (normalized_sum c = k_dof c -> is_consistent c = true) /\
    (is_consistent c = true <-> lower_bound c < normalized_sum c < upper_bound c) /\
    (is_underconfident c = true <-> normalized_sum c < lower_bound c) /\
    (is_overconfident c = true <-> upper_bound c < normalized_sum c).
Proof.
  intros E G F quantile dim s alpha c H D Z.
  pose proof (nis_brackets quantile dim s alpha c H D Z) as B.
  destruct (verdicts c) as (V1 & V2 & V3); [lra|]. split; [|auto].
  intros Q. apply V1. rewrite Q. exact B.
Qed.
Print Assumptions C36_nis_verdict.

Example nis_two :
  exists c, nis_consistency (fun _ => 196 / 100) 1 (of_residuals [scalar false 1; scalar true 50; scalar false (-1)]) None
              = Ok c /\
    normalized_sum c = 2 /\ k_dof c = 2 /\ sqrt (2 / (9 * k_dof c)) < 196 / 100.
Proof.
  eexists. split; [reflexivity|]. split; [cbn; lra|]. split; [cbn; lra|]. cbn [k_dof].
  replace (INR (length (accepted_residuals (of_residuals [scalar false 1; scalar true 50; scalar false (-1)])) * 1))
    with 2 by (cbn; lra).
  replace (2 / (9 * 2)) with ((1 / 3) * (1 / 3)) by field. rewrite sqrt_square by lra. lra.
Qed.

(** ** The verdict of normality compares the distance with the critical value for as many samples
    as there are residuals.  There are [d] samples in a residual, so the critical value is [sqrt d]
    times that of the sample. *)
Theorem C36_is_normal_partial :
  forall {E G F} cdf (s : solution E numbers G F) alpha b d,
    is_normal cdf s alpha = Ok b -> (forall v, In v (accepted s) -> length (whitened v) = d) ->
    let sample := flat_map whitened (accepted s) in
    let level := match alpha with Some a => a | None => 5 / 100 end in
    sample <> [] /\ exists ks, ks_test_normality cdf s = Ok ks /\
      (b = true <-> ks * sqrt (INR (length sample)) <= sqrt (INR d) * sqrt (- ln (level / 2) / 2)).
Proof.
  intros E G F cdf s alpha b d H D. cbv zeta. unfold is_normal in H.
  assert (L : length (accepted_residuals s) = length (accepted s)) by (rewrite accepted_flatten; symmetry; apply map_length).
  rewrite L in H. destruct (length (accepted s)) as [|k] eqn:N; [discriminate|]. rewrite <- N in H.
  destruct (ks_test_normality cdf s) as [ks| | |] eqn:K; try discriminate. cbn [bind] in H.
  assert (S : length (flat_map whitened (accepted s)) = (length (accepted s) * d)%nat).
  { clear -D. revert D. generalize (accepted s). intros l. induction l as [|v l IH]; intros D; [reflexivity|]. cbn [flat_map length].
    rewrite app_length, IH, (D v (or_introl eq_refl)); [reflexivity|]. intros x X. apply D. now right. }
  assert (NE : flat_map whitened (accepted s) <> []).
  { intros Z. unfold ks_test_normality in K. rewrite accepted_flatten in Z.
    replace (flat_map (fun r => whitened (values r)) (accepted_residuals s)) with (flat_map whitened (map values (accepted_residuals s))) in K.
    - rewrite Z in K. discriminate.
    - generalize (accepted_residuals s). intros l. induction l as [|r l IH]; [reflexivity|]. cbn. now rewrite IH. }
  split; [exact NE|]. exists ks. split; [reflexivity|].
  assert (Pd : (0 < d)%nat). { destruct d; [|lia]. exfalso. apply NE. apply length_zero_iff_nil. rewrite S. lia. }
  assert (Sn : 0 < sqrt (INR (length (accepted s)))) by (apply sqrt_lt_R0, lt_0_INR; lia).
  assert (Sd : 0 < sqrt (INR d)) by (apply sqrt_lt_R0, lt_0_INR, Pd).
  rewrite S, mult_INR, sqrt_mult by apply pos_INR.
  set (level := match alpha with Some a => a | None => 5 / 100 end) in *.
  replace (- ln (level * (5 / 10)) * (5 / 10)) with (- ln (level / 2) / 2) in H by (replace (level * (5 / 10)) with (level / 2) by field; field).
  set (c := sqrt (- ln (level / 2) / 2)) in *. injection H as <-. unfold rleb.
  destruct (Rle_dec ks (c / sqrt (INR (length (accepted s))))) as [Q|Q].
  - split; [intros _|reflexivity]. apply (Rmult_le_compat_r (sqrt (INR (length (accepted s))))) in Q; [|lra].
    unfold Rdiv in Q. rewrite Rmult_assoc, Rinv_l, Rmult_1_r in Q by lra. nra.
  - split; [discriminate|]. intros W. exfalso. apply Q. apply Rmult_le_reg_r with (sqrt (INR (length (accepted s)))); [exact Sn|].
    unfold Rdiv. rewrite Rmult_assoc, Rinv_l, Rmult_1_r by lra. apply Rmult_le_reg_l with (sqrt (INR d)); [exact Sd|]. lra.
Qed.
Print Assumptions C36_is_normal_partial.

Example normal_two : exists b, is_normal ramp (of_residuals [scalar false 1; None; scalar false (-1)]) None = Ok b.
Proof.
  destruct ks_two_values as (_ & _ & ks & K). unfold is_normal. rewrite K. eexists. reflexivity.
Qed.
