(** Properties of the integration methods. *)
From Coq Require Import Reals Lra Lia.
From Verif Require Import Base Prop_Model RK_Model RK_Spec RK_Check RK_Tables RK_Step
  RK_OrderSpec RK_BSeries RK_Local RK_Timed RK_Examples.
Local Open Scope R_scope.

(** C08: every table is complete, and its weights and embedded weights meet all order
    conditions (every rooted tree) up to the declared order, resp. one less. *)
Theorem C08_order_conditions : forall i,
  well_formed (method_of i) /\
  order_within (method_of i) (coeff_b (method_of i)) (order (method_of i)) (table_error i) /\
  order_within (method_of i) (coeff_bstar (method_of i)) (embedded_order i) (table_error i).
Proof.
  intros i. split; [apply table_well_formed|]. split; [apply weights_order|apply embedded_order_met].
Qed.
Print Assumptions C08_order_conditions.

(** C08: one step integrates every polynomial right-hand side of degree below the order:
    y(h) = y + sum alpha_d h^(d+1)/(d+1), up to the error of the table. *)
Theorem C08_quadrature : forall St V F E (e : env St V F E) i,
  meth e = method_of i -> vector_space e ->
  exists w, (forall d, (d < order (method_of i))%nat -> Rabs (w d - 1 / INR (S d)) <= table_error i) /\
  forall s fixed h (alpha : nat -> V),
  dynamics e s (fun dt _ => vsum e (order (method_of i)) (fun d => vscale e (dt ^ d) (alpha d))) ->
  exists err, try_step e s fixed h =
    Ok (vadd e (to_vector e s)
          (vsum e (order (method_of i)) (fun d => vscale e (h ^ S d * w d) (alpha d))), err).
Proof.
  intros St V F E e i M vs.
  exists (fun d => weight (method_of i) (coeff_b (method_of i)) (bushy d)). split.
  - intros d Hd. rewrite <- bushy_density. apply weights_order. rewrite bushy_size. lia.
  - intros s fixed h alpha D. rewrite <- M in *. apply (try_step_quadrature e vs); [|exact D].
    rewrite M. apply table_well_formed.
Qed.
Print Assumptions C08_quadrature.

(** C08: exactly so for the methods other than DormandPrince78. *)
Theorem C08_quadrature_exact : forall St V F E (e : env St V F E) i,
  i <> DormandPrince78 -> meth e = method_of i -> vector_space e ->
  forall s fixed h (alpha : nat -> V),
  dynamics e s (fun dt _ => vsum e (order (method_of i)) (fun d => vscale e (dt ^ d) (alpha d))) ->
  exists err, try_step e s fixed h =
    Ok (vadd e (to_vector e s)
          (vsum e (order (method_of i)) (fun d => vscale e (h ^ S d / INR (S d)) (alpha d))), err).
Proof.
  intros St V F E e i Hi M vs s fixed h alpha D.
  destruct (C08_quadrature St V F E e i M vs) as (w & W & Q).
  destruct (Q s fixed h alpha D) as (err & ->). exists err. do 3 f_equal.
  apply vsum_ext. intros d Hd. f_equal.
  assert (T : table_error i = 0) by (destruct i; try reflexivity; congruence).
  specialize (W d Hd). rewrite T in W.
  assert (w d = 1 / INR (S d)).
  { pose proof (Rabs_pos (w d - 1 / INR (S d))).
    assert (Rabs (w d - 1 / INR (S d)) = 0) by lra.
    destruct (Req_dec (w d - 1 / INR (S d)) 0); [lra|]. now apply Rabs_no_R0 in H1. }
  rewrite H. unfold Rdiv. ring.
Qed.
Print Assumptions C08_quadrature_exact.

(** C08: on y' = L y one step is the exponential series up to the declared order. *)
Theorem C08_linear : forall St V F E (e : env St V F E) i,
  meth e = method_of i -> vector_space e ->
  exists w, (forall k, (1 <= k <= order (method_of i))%nat ->
               Rabs (w k - 1 / INR (fact k)) <= table_error i) /\
  forall s fixed h L, linear e L -> dynamics e s (fun _ v => L v) ->
  exists err, try_step e s fixed h =
    Ok (vadd e (to_vector e s)
          (vsum e (stages (method_of i)) (fun q =>
             vscale e (h ^ S q * w (S q)) (iterate (S q) L (to_vector e s)))), err).
Proof.
  intros St V F E e i M vs.
  exists (fun k => weight (method_of i) (coeff_b (method_of i)) (tall (k - 1))). split.
  - intros k Hk. replace (fact k) with (density (tall (k - 1))).
    + apply weights_order. rewrite tall_size. lia.
    + rewrite tall_density. f_equal. lia.
  - intros s fixed h L HL D. rewrite <- M in *.
    destruct (try_step_linear e vs ltac:(rewrite M; apply table_well_formed) s fixed h L HL D) as (err & T).
    exists err. rewrite T. do 3 f_equal. apply vsum_ext. intros q Hq.
    now replace (S q - 1)%nat with q by lia.
Qed.
Print Assumptions C08_linear.

(** C55: the local error of one step on any smooth equation y' = f(t, y): the step is
    within C h^(p+1) of the exact solution, p the declared order, and the embedded solution
    (the step minus the error vector) within C h^(p*+1). *)
Theorem C55_local_error : forall St V F E (e : env St V F E) norm i s f D y,
  meth e = method_of i -> vector_space e -> normed e norm ->
  dynamics e s f ->
  smooth_in_time e norm f (to_vector e s) D (order (method_of i)) ->
  solution_in_time e norm f (to_vector e s) y ->
  exists C H, 0 < H /\ forall h fixed next err, Rabs h <= H ->
    try_step e s fixed h = Ok (next, err) ->
    norm (vsub e next (y h))
      <= C * (Rabs h ^ (order (method_of i) + 1) + table_error i * Rabs h) /\
    (fixed = false ->
     norm (vsub e (vsub e next err) (y h))
       <= C * (Rabs h ^ (embedded_order i + 1) + table_error i * Rabs h)).
Proof.
  intros St V F E e norm i s f D y M vs nm dyn sm sol.
  assert (O1 : exists p, order (method_of i) = S p) by (destruct i; eexists; reflexivity).
  assert (O2 : exists p, embedded_order i = S p) by (destruct i; eexists; reflexivity).
  assert (O3 : (embedded_order i <= order (method_of i))%nat) by (destruct i; vm_compute; lia).
  destruct O1 as [p P], O2 as [q Q]. rewrite P, Q in *.
  pose proof (weights_order i) as W. pose proof (embedded_order_met i) as W'.
  rewrite P in W. rewrite Q in W'. rewrite <- M in *.
  rewrite !Nat.add_1_r.
  apply (timed_try_step e vs norm nm s f D p y q (table_error i)); try assumption; [|lia].
  rewrite M. apply table_well_formed.
Qed.
Print Assumptions C55_local_error.

Example C08_example : forall i,
  meth (scalar i (fun _ v => 2 * v)) = method_of i /\ vector_space (scalar i (fun _ v => 2 * v)) /\
  linear (scalar i (fun _ v => 2 * v)) (fun v => 2 * v) /\
  dynamics (scalar i (fun _ v => 2 * v)) 1 (fun _ v => 2 * v).
Proof.
  intros i. split; [reflexivity|]. split; [apply scalar_space|]. split; [|intros ? ?; reflexivity].
  split; cbn; intros; lra.
Qed.

Example C55_example : forall i,
  exists D, vector_space (scalar i growing) /\ normed (scalar i growing) Rabs /\
  dynamics (scalar i growing) 1 growing /\
  smooth_in_time (scalar i growing) Rabs growing 1 D (order (method_of i)) /\
  solution_in_time (scalar i growing) Rabs growing 1 (fun t => exp (t * t / 2)).
Proof.
  intros i. exists growing_D. split; [apply scalar_space|]. split; [apply scalar_normed|].
  split; [intros ? ?; reflexivity|]. split; [|apply growing_solution].
  apply growing_smooth. destruct i; vm_compute; lia.
Qed.
