(** C09: the step error estimators. *)
From Coq Require Import Reals Lra.
From Verif Require Import Base ErrCtl_Model ErrCtl_Spec ErrCtl_Proofs.
Local Open Scope R_scope.

(** Never negative. *)
Theorem C09_nonneg (c : error_control) (err cand cur : list R) : 0 <= estimate c err cand cur.
Proof. exact (estimate_nonneg c err cand cur). Qed.

(** Zero exactly when every watched component of the error is zero. *)
Theorem C09_zero_iff (c : error_control) (err cand cur : list R) :
  length cand = length err -> length cur = length err ->
  ((Forall (fun a => a = 0) err -> estimate c err cand cur = 0) /\
   (estimate c err cand cur = 0 -> Forall (fun a => a = 0) (firstn (watched c (length err)) err))).
Proof.
  intros H1 H2. split; [|exact (estimate_zero c err cand cur H1 H2)].
  intros Z. assert (E : err = scaled 0 err).
  { clear -Z. induction Z as [|a l H _ IH]; cbn; [reflexivity|].
    fold (scaled 0 l). rewrite <- IH, H. f_equal. ring. }
  rewrite E, estimate_scale, Rabs_R0. ring.
Qed.

(** Larger component errors never give a smaller estimate. *)
Theorem C09_monotone (c : error_control) (err err' cand cur : list R) :
  no_larger err err' -> estimate c err cand cur <= estimate c err' cand cur.
Proof. exact (estimate_mono c err err' cand cur). Qed.

(** The estimate is proportional to the magnitude of the error. *)
Theorem C09_proportional (c : error_control) (k : R) (err cand cur : list R) :
  estimate c (scaled k err) cand cur = Rabs k * estimate c err cand cur.
Proof. exact (estimate_scale c k err cand cur). Qed.

(** Reversing the direction of any set of axes leaves the estimate unchanged, for every
    estimator but the largest error one. *)
Theorem C09_direction_partial (c : error_control) (axes : list bool) (err cand cur : list R) :
  c <> LargestError ->
  estimate c (mirror axes err) (mirror axes cand) (mirror axes cur) = estimate c err cand cur.
Proof. exact (estimate_mirror c axes err cand cur). Qed.

(** The largest error estimator compares the signed displacement with its threshold
    (error_ctrl.rs:141): the same step and error along the opposite axis direction gives an
    estimate ten times larger. *)
Theorem C09_direction_refuted : exists axes err cand cur,
  estimate LargestError (mirror axes err) (mirror axes cand) (mirror axes cur) =
  10 * estimate LargestError err cand cur /\ 0 < estimate LargestError err cand cur.
Proof.
  exists [true; true], [1], [10], [0]. destruct largest_error_direction as [H1 H2].
  cbn [mirror]. replace (- (0))%R with 0 by ring.
  change (- (1))%R with (-1)%R. change (- (10))%R with (-10)%R. rewrite H1, H2. lra.
Qed.

(** The Cartesian estimators, one of which is the default, do not see an error in the
    components past the sixth, such as the propellant mass. *)
Theorem C09_mass_error_ignored (c : error_control) (err err' cand cur : list R) :
  c = RSSCartesianState \/ c = RSSCartesianStep -> (6 <= length err)%nat ->
  (6 <= length err')%nat ->
  firstn 6 err = firstn 6 err' -> estimate c err cand cur = estimate c err' cand cur.
Proof.
  intros Hc H1 H2 E. rewrite (cartesian_ignores c err), (cartesian_ignores c err') by assumption.
  now rewrite E.
Qed.

Example C09_example : no_larger [1; -2; 0] [-1; 3; 1] /\
  estimate LargestStep [1; -2; 0] [1; 1; 1] [1; 0; 1] = 3.
Proof.
  split.
  - unfold no_larger, Rabs. repeat constructor;
      repeat match goal with |- context [Rcase_abs ?x] => destruct (Rcase_abs x) end; lra.
  - cbn [estimate]. unfold largest_step, REL_ERR_THRESH. cbn [zip_with sum_of].
    assert (A0 : Rabs (1 - 1) = 0) by (replace (1 - 1) with 0 by ring; apply Rabs_R0).
    rewrite A0. rewrite (Rabs_pos_eq (1 - 0)), (Rabs_pos_eq 1), (Rabs_left (-2)), Rabs_R0 by lra.
    destruct (Rlt_dec _ _); lra.
Qed.

Print Assumptions C09_nonneg.
Print Assumptions C09_zero_iff.
Print Assumptions C09_monotone.
Print Assumptions C09_proportional.
Print Assumptions C09_direction_partial.
Print Assumptions C09_direction_refuted.
Print Assumptions C09_mass_error_ignored.
