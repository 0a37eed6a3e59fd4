(** C93: random directions are on the whole sphere; pointing errors never change where a delta-v points. *)
From Coq Require Import Reals Lra.
From Verif Require Import Base Vec3 Angles Dve_Model Lambert_Props.
Local Open Scope R_scope.

(** ** Directions *)
(** A direction is a unit vector, its height is the second draw, its longitude the first one. *)
Theorem C93_direction u v : 0 <= v <= 1 ->
  let w := unit_vector_from_seed u v in
  norm w = 1 /\ vz w = 2 * v - 1 /\
  vx w = sqrt (1 - vz w * vz w) * cos (2 * PI * u) /\ vy w = sqrt (1 - vz w * vz w) * sin (2 * PI * u).
Proof.
  intros Hv w. unfold w, unit_vector_from_seed. cbn [vx vy vz].
  assert (C : cos (acos (2 * v - 1)) = 2 * v - 1) by (apply cos_acos; lra).
  assert (S : sin (acos (2 * v - 1)) = sqrt (1 - (2 * v - 1) * (2 * v - 1))) by (rewrite sin_acos by lra; f_equal; unfold Rsqr; ring).
  set (phi := acos _) in *. split; [|rewrite C, S; repeat split; ring].
  unfold norm, dot. cbn [vx vy vz].
  replace (cos (2 * PI * u) * sin phi * (cos (2 * PI * u) * sin phi) + sin (2 * PI * u) * sin phi * (sin (2 * PI * u) * sin phi) + cos phi * cos phi) with 1; [apply sqrt_1|].
  pose proof (sin2_cos2 phi) as H1. pose proof (sin2_cos2 (2 * PI * u)) as H2. unfold Rsqr in *.
  transitivity ((sin (2 * PI * u) * sin (2 * PI * u) + cos (2 * PI * u) * cos (2 * PI * u)) * (sin phi * sin phi) + cos phi * cos phi); [rewrite H2; lra|ring].
Qed.

(** All of them can be drawn. *)
Theorem C93_sphere w : norm w = 1 -> exists u v, 0 <= u <= 1 /\ 0 <= v <= 1 /\ unit_vector_from_seed u v = w.
Proof.
  intros N. assert (D : vx w * vx w + vy w * vy w + vz w * vz w = 1) by (pose proof (norm_sqr w) as K; rewrite N in K; unfold dot in K; lra).
  assert (Hz : -1 <= vz w <= 1) by (split; nra).
  set (v := (vz w + 1) / 2). assert (Hv : 0 <= v <= 1) by (unfold v; lra).
  assert (Ev : 2 * v - 1 = vz w) by (unfold v; field).
  set (t := atan2 (vy w) (vx w)).
  assert (T : sqrt (1 - vz w * vz w) * cos t = vx w /\ sqrt (1 - vz w * vz w) * sin t = vy w).
  { replace (1 - vz w * vz w) with (vx w * vx w + vy w * vy w) by lra.
    destruct (Req_dec (vx w) 0) as [Zx|Nx]; [destruct (Req_dec (vy w) 0) as [Zy|Ny]|].
    - rewrite Zx, Zy. replace (0 * 0 + 0 * 0) with 0 by ring. rewrite sqrt_0. lra.
    - destruct (atan2_spec (vy w) (vx w) (or_intror Ny)) as [A B]. fold t in A, B. split; rewrite Rmult_comm; assumption.
    - destruct (atan2_spec (vy w) (vx w) (or_introl Nx)) as [A B]. fold t in A, B. split; rewrite Rmult_comm; assumption. }
  pose proof PI_RGT_0 as P. pose proof (atan2_bounds (vy w) (vx w)) as B. fold t in B.
  assert (U : exists u, 0 <= u <= 1 /\ cos (2 * PI * u) = cos t /\ sin (2 * PI * u) = sin t).
  { destruct (Rle_dec 0 t) as [L|G].
    - exists (t / (2 * PI)). split; [split; [apply Rle_mult_inv_pos; lra|apply Rmult_le_reg_r with (2 * PI); [lra|]; field_simplify; lra]|].
      replace (2 * PI * (t / (2 * PI))) with t by (field; lra). auto.
    - exists (t / (2 * PI) + 1). assert (-1 <= t / (2 * PI) <= 0).
      { split; apply Rmult_le_reg_r with (2 * PI); try lra; unfold Rdiv; rewrite Rmult_assoc, Rinv_l by lra; lra. }
      split; [lra|]. replace (2 * PI * (t / (2 * PI) + 1)) with (t + 2 * PI) by (field; lra).
      split; [rewrite <- (cos_period t 1)|rewrite <- (sin_period t 1)]; f_equal; cbn; ring. }
  destruct U as (u & Hu & U1 & U2). exists u, v. split; [exact Hu|]. split; [exact Hv|].
  destruct (C93_direction u v Hv) as (_ & Z & X & Y). rewrite Z, Ev, U1 in X. rewrite Z, Ev, U2 in Y. rewrite Ev in Z.
  apply v3_eq; [rewrite X; exact (proj1 T)|rewrite Y; exact (proj2 T)|exact Z].
Qed.

(** As likely as their area: the slice between two heights has the draws of an interval as long as half its height, whatever the longitude. *)
Theorem C93_uniform u v a b : 0 <= v <= 1 ->
  (a <= vz (unit_vector_from_seed u v) <= b <-> (1 + a) / 2 <= v <= (1 + b) / 2).
Proof. intros H. destruct (C93_direction u v H) as (_ & -> & _). lra. Qed.

Example C93_direction_case : exists u v, 0 <= v <= 1 /\ unit_vector_from_seed u v = V3 0 (-1) 0.
Proof.
  destruct (C93_sphere (V3 0 (-1) 0)) as (u & v & _ & Hv & E); [|eauto].
  unfold norm, dot. cbn. replace (_ + _ + _) with 1 by ring. apply sqrt_1.
Qed.

(** ** Pointing errors *)
Definition cos_between (a b : v3) : R := dot a b / (norm a * norm b).
Lemma cos_between_bounds a b : norm a <> 0 -> norm b <> 0 -> -1 <= cos_between a b <= 1.
Proof.
  intros Na Nb. pose proof (norm_nonneg a) as Pa. pose proof (norm_nonneg b) as Pb. pose proof (cauchy a b) as C. unfold cos_between.
  assert (P : 0 < norm a * norm b) by (apply Rmult_lt_0_compat; lra).
  split; apply Rmult_le_reg_r with (norm a * norm b); try exact P; unfold Rdiv; rewrite Rmult_assoc, Rinv_l by lra; lra.
Qed.
Lemma eps_norm dv : EPSILON <= norm dv -> norm dv <> 0.
Proof. pose proof EPSILON_pos. lra. Qed.

(** What is refused: a percentage out of [[0, 1)], a nil delta-v. *)
Theorem C93_refused cur dv p z : (exists o, dv_pointing_error cur dv p z = Ok o) <-> 0 <= p < 1 /\ EPSILON <= norm dv.
Proof.
  unfold dv_pointing_error. destruct (Rlt_dec p 0); [split; [intros (o & H); discriminate|lra]|]. destruct (Rlt_dec p 1); [|split; [intros (o & H); discriminate|lra]].
  destruct (Rlt_dec (norm dv) EPSILON); [split; [intros (o & H); discriminate|lra]|].
  split; [lra|]. intros _. destruct (Req_EM_T _ _); eauto.
Qed.

(** What is returned is the delta-v times the cosine of the drawn angle. *)
Theorem C93_pointing cur dv p z : 0 <= p < 1 -> EPSILON <= norm dv -> norm cur <> 0 ->
  dv_pointing_error cur dv p z = Ok (Some (vscale (cos (acos (cos_between cur dv) + p / 3 * z)) dv)).
Proof.
  intros Hp Hd Hc. pose proof (eps_norm dv Hd) as Nd. unfold dv_pointing_error. destruct (Rlt_dec p 0); [lra|]. destruct (Rlt_dec p 1); [|lra].
  destruct (Rlt_dec (norm dv) EPSILON); [lra|]. destruct (Req_EM_T (norm cur) 0); [contradiction|]. do 2 f_equal.
  replace (dot cur (vscale (/ norm dv) dv) / norm cur) with (cos_between cur dv).
  - apply v3_eq; cbn; field; exact Nd.
  - unfold cos_between. rewrite (dot_comm cur (vscale _ _)), dot_scale, (dot_comm dv). field. split; assumption.
Qed.

(** So that it never points elsewhere, and is never longer: it is not a pointing error. *)
Theorem C93_pointing_refuted cur dv p z w : dv_pointing_error cur dv p z = Ok (Some w) ->
  cross w dv = vzero /\ norm w <= norm dv.
Proof.
  intros H. assert (K : 0 <= p < 1 /\ EPSILON <= norm dv) by (apply (C93_refused cur dv p z); rewrite H; eauto). destruct K as [K1 K2].
  destruct (Req_EM_T (norm cur) 0) as [Z|N].
  - unfold dv_pointing_error in H. destruct (Rlt_dec p 0); [discriminate|]. destruct (Rlt_dec p 1); [|discriminate].
    destruct (Rlt_dec (norm dv) EPSILON); [discriminate|]. destruct (Req_EM_T (norm cur) 0); [discriminate|contradiction].
  - rewrite (C93_pointing cur dv p z K1 K2 N) in H. set (k := cos _) in H. injection H as <-. split.
    + apply v3_eq; cbn; ring.
    + rewrite norm_scale. pose proof (COS_bound (acos (cos_between cur dv) + p / 3 * z)) as B. fold k in B. pose proof (norm_nonneg dv).
      assert (Rabs k <= 1) by (apply Rabs_le; lra). nra.
Qed.

(** Without an error, it is the delta-v times the cosine of its angle with the current pointing. *)
Theorem C93_no_error cur dv z : EPSILON <= norm dv -> norm cur <> 0 ->
  dv_pointing_error cur dv 0 z = Ok (Some (vscale (cos_between cur dv) dv)).
Proof.
  intros Hd Hc. rewrite C93_pointing by (assumption || lra). do 3 f_equal.
  replace (acos (cos_between cur dv) + 0 / 3 * z) with (acos (cos_between cur dv)) by field.
  apply cos_acos, cos_between_bounds; [exact Hc|apply eps_norm, Hd].
Qed.

Definition ahead := V3 1 0 0.
Lemma norm_ahead k : norm (vscale k ahead) = Rabs k.
Proof. rewrite norm_scale. unfold norm, dot, ahead. cbn. replace (_ + _ + _) with 1 by ring. rewrite sqrt_1. ring. Qed.
Lemma norm_one : norm ahead = 1.
Proof. unfold norm, dot, ahead. cbn. replace (_ + _ + _) with 1 by ring. apply sqrt_1. Qed.

(** It is kept if it is along the current pointing; *)
Theorem C93_aligned cur k z : 0 < k -> norm cur <> 0 -> EPSILON <= k * norm cur ->
  dv_pointing_error cur (vscale k cur) 0 z = Ok (Some (vscale k cur)).
Proof.
  intros Hk Hc He. assert (N : norm (vscale k cur) = k * norm cur) by (rewrite norm_scale, Rabs_right; lra).
  rewrite C93_no_error by (rewrite ?N; assumption). do 2 f_equal.
  assert (C : cos_between cur (vscale k cur) = 1).
  { unfold cos_between. rewrite N, (dot_comm cur), dot_scale, <- norm_sqr. field. split; lra. }
  rewrite C. apply v3_eq; cbn; ring.
Qed.
(** but a delta-v against it is reversed and one across it is cancelled, with no error at all. *)
Theorem C93_reversed_refuted z : dv_pointing_error ahead (vscale (-1) ahead) 0 z = Ok (Some ahead).
Proof.
  assert (N : norm (vscale (-1) ahead) = 1) by (rewrite norm_ahead, Rabs_left; lra). pose proof EPSILON_small.
  rewrite C93_no_error by (rewrite ?N, ?norm_one; lra). do 2 f_equal.
  assert (C : cos_between ahead (vscale (-1) ahead) = -1) by (unfold cos_between; rewrite N, norm_one; unfold dot, ahead; cbn; field).
  rewrite C. apply v3_eq; cbn; ring.
Qed.
Theorem C93_cancelled_refuted z : dv_pointing_error ahead (V3 0 1 0) 0 z = Ok (Some vzero).
Proof.
  assert (N : norm (V3 0 1 0) = 1) by (unfold norm, dot; cbn; replace (_ + _ + _) with 1 by ring; apply sqrt_1). pose proof EPSILON_small.
  rewrite C93_no_error by (rewrite ?N, ?norm_one; lra). do 2 f_equal.
  assert (C : cos_between ahead (V3 0 1 0) = 0) by (unfold cos_between; rewrite N, norm_one; unfold dot, ahead; cbn; field).
  rewrite C. apply v3_eq; cbn; ring.
Qed.

(** ** Execution errors *)
(** The magnitude is that of what the pointing error left, with the error; the line is still that of the delta-v. *)
Theorem C93_execution cur dv p m z z' w : dv_execution_error cur dv p m z z' = Ok (Some w) ->
  let k := cos (acos (cos_between cur dv) + p / 3 * z) in
  norm w = Rabs (Rabs k * norm dv + m / 3 * z') /\ cross w dv = vzero.
Proof.
  intros H k. unfold dv_execution_error in H. destruct (dv_pointing_error cur dv p z) as [o| | |] eqn:D; try discriminate. cbn [bind] in H.
  destruct o as [d|]; [|discriminate]. destruct (C93_pointing_refuted _ _ _ _ _ D) as [Cr _].
  assert (K : 0 <= p < 1 /\ EPSILON <= norm dv) by (apply (C93_refused cur dv p z); rewrite D; eauto). destruct K as [K1 K2].
  assert (Nc : norm cur <> 0).
  { intros Z. unfold dv_pointing_error in D. destruct (Rlt_dec p 0); [discriminate|]. destruct (Rlt_dec p 1); [|discriminate].
    destruct (Rlt_dec (norm dv) EPSILON); [discriminate|]. destruct (Req_EM_T (norm cur) 0); [discriminate|contradiction]. }
  rewrite (C93_pointing cur dv p z K1 K2 Nc) in D. fold k in D. injection D as <-.
  destruct (Req_EM_T _ 0) as [Z|N]; [discriminate|]. injection H as <-. split.
  - rewrite !norm_scale in *. rewrite Rabs_inv. rewrite Rabs_mult, Rabs_Rabsolu, (Rabs_right (norm dv)) by (apply Rle_ge, norm_nonneg). field. split.
    + intros Q. apply N. rewrite Q. ring.
    + intros Q. apply N. rewrite Q. ring.
  - apply v3_eq; cbn; ring.
Qed.

(** Without errors, a delta-v along the pointing is kept; *)
Theorem C93_execution_aligned cur k z z' : 0 < k -> norm cur <> 0 -> EPSILON <= k * norm cur ->
  dv_execution_error cur (vscale k cur) 0 0 z z' = Ok (Some (vscale k cur)).
Proof.
  intros Hk Hc He. unfold dv_execution_error. rewrite C93_aligned by assumption. cbn [bind].
  assert (N : norm (vscale k cur) <> 0) by (rewrite norm_scale, Rabs_right by lra; pose proof EPSILON_pos; lra).
  destruct (Req_EM_T _ 0); [contradiction|]. do 2 f_equal. apply v3_eq; cbn; field; exact N.
Qed.
Example C93_execution_case z z' : dv_execution_error ahead (vscale 2 ahead) 0 0 z z' = Ok (Some (V3 2 0 0)).
Proof.
  rewrite C93_execution_aligned; rewrite ?norm_one; try lra; [do 2 f_equal; apply v3_eq; cbn; ring|]. pose proof EPSILON_small. lra.
Qed.
(** one across it is lost in NaNs. *)
Theorem C93_execution_refuted z z' m : dv_execution_error ahead (V3 0 1 0) 0 m z z' = Ok None.
Proof.
  unfold dv_execution_error. rewrite C93_cancelled_refuted. cbn [bind]. destruct (Req_EM_T (norm vzero) 0) as [_|N]; [reflexivity|].
  exfalso. apply N. now apply norm_zero_iff.
Qed.

Print Assumptions C93_direction.
Print Assumptions C93_sphere.
Print Assumptions C93_uniform.
Print Assumptions C93_direction_case.
Print Assumptions C93_refused.
Print Assumptions C93_pointing.
Print Assumptions C93_pointing_refuted.
Print Assumptions C93_no_error.
Print Assumptions C93_aligned.
Print Assumptions C93_reversed_refuted.
Print Assumptions C93_cancelled_refuted.
Print Assumptions C93_execution.
Print Assumptions C93_execution_aligned.
Print Assumptions C93_execution_case.
Print Assumptions C93_execution_refuted.
