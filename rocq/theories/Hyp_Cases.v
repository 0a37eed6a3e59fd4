(** Cases of the targeter with partials: what it does with the frames, and that the hypotheses of its
    properties are met (C84). *)
From Coq Require Import Reals Lra Lia Psatz.
From Coquelicot Require Import Coquelicot.
From Verif Require Import Base Vec3 Angles Poly_Model Sc_Model Guid_Model Targ_Model Targ_Props Targ_Newton Targ_Cases Hyp_Model Hyp_Props.
Local Open Scope R_scope.

(** A world without forces nor motion: a propagation only changes the epoch, and the transition
    matrix is the identity. *)
Definition still_dual (sc : spacecraft) (e : Z) : res dual_error spacecraft := Ok (at_epoch sc e (velocity_km_s (sc_orbit sc))).
Definition cartesian_dual (e : element) (o : orbit) : option dual6 :=
  match e with
  | X => Some (vx (radius_km o), (V3 1 0 0, vzero)) | Y => Some (vy (radius_km o), (V3 0 1 0, vzero))
  | Z_ => Some (vz (radius_km o), (V3 0 0 1, vzero)) | VX => Some (vx (velocity_km_s o), (vzero, V3 1 0 0))
  | VY => Some (vy (velocity_km_s o), (vzero, V3 0 1 0)) | VZ => Some (vz (velocity_km_s o), (vzero, V3 0 0 1))
  | _ => None
  end.
Definition no_dual_bplane (o : orbit) : option (dual6 * dual6 * dual6) := None.
(** A frame turned by a quarter around the third axis. *)
Definition quarter (o : orbit) (f : nat) : option orbit :=
  let turn v := V3 (vy v) (- vx v) (vz v) in
  Some (Orbit (epoch o) f (turn (radius_km o)) (turn (velocity_km_s o))).
(** The smallest solution of one equation. *)
Definition solve_row (j : list (list R)) (e : list R) : option (list R) :=
  match j, e with
  | [row], [b] => if Req_EM_T (rdot row row) 0 then None else Some (map (fun a => a * (b / rdot row row)) row)
  | _, _ => None
  end.
Example solve_row_solves row b d : solve_row [row] [b] = Some d -> rdot row d = b.
Proof.
  unfold solve_row. destruct (Req_EM_T _ _) as [|H]; [discriminate|]. intros E. injection E as <-.
  assert (K : forall l k, rdot l (map (fun a => a * k) l) = rdot l l * k).
  { induction l as [|x l IH]; intros k; unfold rdot in *; cbn in *; [ring|]. rewrite IH. ring. }
  rewrite K. field. exact H.
Qed.

Definition run_dual (t : targeter) : res dual_error solution :=
  try_achieve_dual still_dual quarter cartesian_dual no_dual_bplane solve_row t sc0 0 100000000000.

Section Steps.
Context (t : targeter).
Notation iter := (dual_iterate still_dual quarter cartesian_dual no_dual_bplane solve_row).

Lemma dual_step start ae left it xi total prev xf phi o b errs jac d d' xi' :
  still_dual (with_stm xi) ae = Ok xf -> stm xf = Some phi -> dual_orbit quarter t (sc_orbit xf) = Ok o ->
  dual_bplane no_dual_bplane t o = Ok b ->
  dual_assess cartesian_dual t phi o b (objectives t) = Ok (false, errs, jac) ->
  ~ stalled prev (list_norm errs) -> solve_row jac errs = Some d -> limit_all (variables t) d = Ok d' ->
  shift_all (with_stm xi) (variables t) d' = Ok xi' ->
  iter t start ae (S left) it xi total prev = iter t start ae left (S it) xi' (add_lists total d') (Some (list_norm errs)).
Proof.
  intros H1 H2 H3 H4 H5 H6 H7 H8 H9. cbn [dual_iterate]. rewrite H1. cbn [bind]. rewrite H2, H3. cbn [bind]. rewrite H4. cbn [bind].
  rewrite H5. cbn [bind]. replace (match prev with Some p => _ | None => false end) with false.
  - rewrite H7, H8. cbn [bind]. rewrite H9. reflexivity.
  - destruct prev as [p|]; [|reflexivity]. cbn in H6. destruct (Rlt_dec _ _); [contradiction|reflexivity].
Qed.
Lemma dual_stalled start ae left it xi total p xf phi o b errs jac :
  still_dual (with_stm xi) ae = Ok xf -> stm xf = Some phi -> dual_orbit quarter t (sc_orbit xf) = Ok o ->
  dual_bplane no_dual_bplane t o = Ok b ->
  dual_assess cartesian_dual t phi o b (objectives t) = Ok (false, errs, jac) -> list_norm errs = p ->
  iter t start ae left it xi total (Some p) = Err DualIneffective.
Proof.
  intros H1 H2 H3 H4 H5 <-. destruct left; cbn [dual_iterate]; rewrite H1; cbn [bind]; rewrite H2, H3; cbn [bind]; rewrite H4; cbn [bind];
  rewrite H5; cbn [bind]; (destruct (Rlt_dec _ _) as [|H]; [reflexivity|]); exfalso; apply H;
  rewrite Rminus_eq_0, Rabs_R0; apply Rinv_0_lt_compat, pow_lt; lra.
Qed.
End Steps.

(** ** The frame of the objectives *)

(** The first coordinate of the position in the frame [1] is to be 1, moving the two first
    coordinates of the position. *)
Definition wide (c : vary) : variable := MkVariable c 1 0 10 10 (-10).
Definition turned (n : nat) : targeter :=
  Targeter [Objective (Element X) 1 (1 / 10) 1 0] (Some 1%nat) [wide PositionX; wide PositionY] None (S n).

Lemma turned_assess e v z x : Rabs (1 - x) > 1 / 10 ->
  dual_assess cartesian_dual (turned 0) identity9 (Orbit e 1 (V3 x v z) (V3 0 (-0) 0)) None [Objective (Element X) 1 (1 / 10) 1 0]
  = Ok (false, [1 * (1 - x) + 0], [[1; 0]]).
Proof.
  intros H. cbn [dual_assess dual_value obj_parameter cartesian_dual or_astro bind snd fst variables turned dual_row wide component vec_index radius_km vx].
  change (stm_column identity9 0) with (V3 1 0 0, vzero). change (stm_column identity9 1) with (V3 0 1 0, vzero).
  unfold assess_value. cbn [multiplicative_factor desired_value additive_factor obj_tolerance fst snd].
  destruct (Rle_dec _ _) as [K|_].
  - exfalso. replace (1 * (1 - x) + 0) with (1 - x) in K by ring. lra.
  - cbn [andb]. unfold dot6, dot. cbn. f_equal. f_equal. f_equal. repeat f_equal; ring.
Qed.

(** C84: with a frame of the objectives that is turned with respect to the one of the propagation, the
    partials and the transition matrix are not in the same axes: a problem solved by moving one
    coordinate is declared without effect, for any number of iterations. *)
Theorem C84_objective_frame_refuted : forall n, exists t,
  iterations t = S n /\ run_dual t = Err DualIneffective /\
  exists d, Forall2 unbounded (variables t) d /\
    exists xf o a g err, still_dual (with_stm (move sc0 (combined (variables t) d))) 100000000000 = Ok xf /\
      seen quarter (objective_frame t) (sc_orbit xf) o /\
      Forall (fun ob => reads_dual cartesian_dual no_dual_bplane o (obj_parameter ob) (a, g) /\ met ob a err) (objectives t) /\ err = 0.
Proof.
  intros n. exists (turned n). split; [reflexivity|]. split.
  - unfold run_dual, try_achieve_dual. cbn [objectives turned]. unfold still_dual at 1. cbn [bind].
    cbn [variables map wide init_guess]. rewrite (shift_all_defined [wide PositionX; wide PositionY] [0; 0])
      by (first [cbn; lia | repeat constructor; cbn; tauto]). cbn [bind iterations turned].
    set (s0 := at_epoch sc0 0 (velocity_km_s (sc_orbit sc0))).
    assert (E0 : combined [wide PositionX; wide PositionY] [0; 0] = zero6) by (apply vec6_eq; apply v3_eq; cbn; ring).
    unfold wide in E0. fold (wide PositionX) (wide PositionY) in E0 |- *. rewrite E0, move_zero.
    rewrite (dual_step (turned n) s0 _ n 0 s0 [0; 0] None (at_epoch (with_stm s0) 100000000000 vzero) identity9
      (Orbit 100000000000 1 (V3 0 (-0) 0) (V3 0 (-0) 0)) None [1 * (1 - 0) + 0] [[1; 0]] [1 * (1 / 1); 0 * (1 / 1)] [1 * (1 / 1); 0 * (1 / 1)]
      (move (with_stm s0) (combined [wide PositionX; wide PositionY] [1 * (1 / 1); 0 * (1 / 1)]))).
    + apply (dual_stalled (turned n)) with (xf := at_epoch (with_stm (move (with_stm s0) (combined [wide PositionX; wide PositionY] [1 * (1 / 1); 0 * (1 / 1)]))) 100000000000
        (velocity_km_s (sc_orbit (move (with_stm s0) (combined [wide PositionX; wide PositionY] [1 * (1 / 1); 0 * (1 / 1)])))))
        (phi := identity9) (o := Orbit 100000000000 1 (V3 0 (- 1) 0) (V3 0 (-0) 0)) (b := None) (errs := [1 * (1 - 0) + 0]) (jac := [[1; 0]]).
      * reflexivity.
      * reflexivity.
      * cbn. f_equal. f_equal; apply v3_eq; cbn; field.
      * reflexivity.
      * apply turned_assess. rewrite Rabs_right by lra. lra.
      * reflexivity.
    + reflexivity.
    + reflexivity.
    + reflexivity.
    + reflexivity.
    + apply turned_assess. rewrite Rabs_right by lra. lra.
    + intros [].
    + unfold solve_row. destruct (Req_EM_T _ _) as [K|_]; [unfold rdot in K; cbn in K; exfalso; lra|].
      cbn [map]. f_equal. unfold rdot. cbn. f_equal; [|f_equal]; field.
    + apply limit_all_unbounded. constructor; [|constructor; [|constructor]]; unfold unbounded; cbn.
      * replace (1 * (1 / 1)) with 1 by field. rewrite Rabs_R1. lra.
      * replace (0 * (1 / 1)) with 0 by field. rewrite Rabs_R0. lra.
    + apply shift_all_defined; [repeat constructor; cbn; tauto|cbn; lia].
  - exists [0; 1]. split.
    { constructor; [|constructor; [|constructor]]; unfold unbounded; cbn; rewrite ?Rabs_R0, ?Rabs_R1; lra. }
    eexists _, _, _, _, 0. split; [reflexivity|]. split; [reflexivity|]. split; [|reflexivity].
    constructor; [|constructor]. split; [constructor; reflexivity|]. unfold met. cbn. rewrite Rabs_R0. split; [ring|lra].
Qed.

(** ** The frame of the corrections *)

Definition dual_vx (d : R) (f : option nat) : targeter :=
  Targeter [Objective (Element VX) d 0 1 0] None [wide VelocityX] f 5.

Lemma dual_affine_vx d f : affine_dual still_dual quarter cartesian_dual no_dual_bplane (dual_vx d f) sc0 100000000000 base0 slope_vx.
Proof.
  intros c. eexists _, _, _. split; [reflexivity|]. split; [reflexivity|]. split; [reflexivity|].
  intros ob [<-|[]]. exists (vzero, V3 1 0 0). split.
  - constructor. cbn. unfold lin, dot, base0. cbn. apply (f_equal Some), f_equal2; [ring|reflexivity].
  - intros v [<-|[]]. change (stm_column _ _) with (vzero, V3 1 0 0). reflexivity.
Qed.

Lemma dual_vx_solved d f : Rabs d <= 10 -> d <> 0 -> exists s, run_dual (dual_vx d f) = Ok s /\ sol_iterations s = 1%nat /\ correction s = [d].
Proof.
  intros Hd Hd0. apply Rabs_le_between in Hd.
  assert (J : true_jacobian (dual_vx d f) slope_vx = [[1]]) by (cbn; unfold lin, dot; cbn; repeat f_equal; ring).
  assert (S : forall x, solve_row [[1]] [x] = Some [1 * (x / 1)]).
  { intros x. unfold solve_row, rdot. cbn. destruct (Req_EM_T _ _) as [K|_]; [exfalso; lra|]. repeat f_equal. ring. }
  destruct (C84_one_correction still_dual quarter cartesian_dual no_dual_bplane solve_row (dual_vx d f) sc0 sc0 0 100000000000 base0 slope_vx)
    as (s & E & H1 & H2).
  - reflexivity.
  - apply dual_affine_vx.
  - discriminate.
  - cbn. lia.
  - constructor; [cbn; tauto|constructor].
  - constructor; [cbn; lra|constructor].
  - rewrite J. intros [|x e] H; [discriminate|]. destruct e; [|discriminate]. exists [1 * (x / 1)].
    split; [apply S|]. split; [reflexivity|]. unfold rdot. cbn. f_equal. field.
  - rewrite J. cbn [objectives dual_vx map]. rewrite S. intros x Hx. injection Hx as <-. constructor; [|constructor].
    unfold unbounded, scaled_error, base0, lin, dot. cbn. split; [|split].
    all: replace (1 * _) with d by field; try lra. apply Rabs_le; lra.
  - exists s. split; [exact E|].
    pose proof (C84_solution _ _ _ _ _ _ _ _ _ _ E) as (_ & _ & _ & _ & L & _ & _ & (o & So & HF)).
    destruct (correction s) as [|x [|]] eqn:Ec; cbn in L; try lia.
    assert (Hi : sol_iterations s = 1%nat).
    { destruct (sol_iterations s) as [|[|k]] eqn:Ei; [|reflexivity|lia]. exfalso.
      (* without a correction, the objective is not met *)
      unfold run_dual, try_achieve_dual in E. cbn [objectives dual_vx bind still_dual] in E.
      change (bind (still_dual sc0 0) ?k) with (k (at_epoch sc0 0 vzero)) in E. cbv beta in E.
      cbn [variables dual_vx map wide init_guess] in E. fold (wide VelocityX) in E.
      rewrite shift_all_defined in E by (first [cbn; lia | repeat constructor; cbn; tauto]). cbn [bind iterations dual_vx] in E.
      assert (E0 : combined [wide VelocityX] [0] = zero6) by (apply vec6_eq; apply v3_eq; cbn; ring).
      rewrite E0, move_zero in E. change (velocity_km_s (sc_orbit sc0)) with vzero in E.
      assert (A : dual_assess cartesian_dual (dual_vx d f) identity9 (Orbit 100000000000 0 vzero vzero) None (objectives (dual_vx d f))
        = Ok (false, [1 * (d - 0) + 0], [[1]])).
      { cbn [objectives dual_vx dual_assess dual_value obj_parameter cartesian_dual or_astro bind snd fst variables dual_row wide component vec_index velocity_km_s vx vzero].
        change (stm_column identity9 3) with (vzero, V3 1 0 0).
        unfold assess_value. cbn [multiplicative_factor desired_value additive_factor obj_tolerance fst snd].
        destruct (Rle_dec _ _) as [K|_].
        - exfalso. replace (1 * (d - 0) + 0) with d in K by ring. pose proof (Rabs_pos_lt _ Hd0). lra.
        - cbn [andb]. unfold dot6, dot. cbn. f_equal. f_equal. f_equal. f_equal. ring. }
      rewrite (dual_step (dual_vx d f) (at_epoch sc0 0 vzero) 100000000000 4 0 (at_epoch sc0 0 vzero) [0] None
        (at_epoch (with_stm (at_epoch sc0 0 vzero)) 100000000000 vzero) identity9 (Orbit 100000000000 0 vzero vzero) None
        [1 * (d - 0) + 0] [[1]] [1 * ((1 * (d - 0) + 0) / 1)] [1 * ((1 * (d - 0) + 0) / 1)]
        (move (with_stm (at_epoch sc0 0 vzero)) (combined [wide VelocityX] [1 * ((1 * (d - 0) + 0) / 1)]))) in E; try reflexivity.
      - apply dual_iterate_spec in E.
        + destruct E as (_ & _ & _ & _ & _ & E). lia.
        + constructor; [cbn; tauto|constructor].
        + reflexivity.
        + cbn [variables dual_vx add_lists].
          replace (0 + 1 * ((1 * (d - 0) + 0) / 1)) with (1 * ((1 * (d - 0) + 0) / 1)) by ring. reflexivity.
      - exact A.
      - intros [].
      - apply S.
      - apply limit_all_unbounded. constructor; [|constructor]. unfold unbounded. cbn.
        replace (1 * ((1 * (d - 0) + 0) / 1)) with d by field. split; [apply Rabs_le|]; lra.
      - apply shift_all_defined; [repeat constructor; cbn; tauto|cbn; lia]. }
    split; [exact Hi|]. specialize (H2 Hi _ (or_introl eq_refl)). unfold scaled_error, base0, lin, dot in H2. cbn in H2.
    f_equal. lra.
Qed.

(** C84: the frame of the corrections is not used: the correction of a targeter of a local frame
    ([Targeter::vnc]) is added to the velocity as it is, not turned from that frame. *)
Theorem C84_correction_frame_refuted : exists t f s, correction_frame t = Some f /\ run_dual t = Ok s /\
  forall dcm, mv dcm (V3 1 0 0) <> V3 1 0 0 ->
    velocity_km_s (sc_orbit (corrected_state s)) <>
    vadd (velocity_km_s (sc_orbit sc0)) (mv dcm (snd (combined (variables t) (correction s)))).
Proof.
  destruct (dual_vx_solved 3 (Some 2%nat)) as (s & E & _ & C); [rewrite Rabs_right; lra|lra|].
  exists (dual_vx 3 (Some 2%nat)), 2%nat, s. split; [reflexivity|]. split; [exact E|]. intros dcm Hd K. apply Hd.
  pose proof (C84_solution _ _ _ _ _ _ _ _ _ _ E) as (_ & _ & _ & _ & _ & (st & S1 & S2) & _).
  injection S1 as <-. rewrite S2, C in K. cbn in K.
  apply (f_equal (vscale (1/3))) in K.
  destruct dcm as [[a b c] [d e g] [h i j]]. unfold mv, dot, vadd, vscale in K |- *. cbn in K |- *.
  injection K as K1 K2 K3. apply v3_eq; cbn; lra.
Qed.

(** ** Hypotheses *)

Example dual_solution_case : exists s, run_dual (dual_vx 3 None) = Ok s /\ correction s = [3] /\ sol_iterations s = 1%nat.
Proof. destruct (dual_vx_solved 3 None) as (s & E & C1 & C2); [rewrite Rabs_right; lra|lra|]. eauto. Qed.

(** The position and velocity can be moved along each variable, the partials of the coordinates are
    right and the Jacobian of the theorem is that of the case. *)
Example dual_jacobian_case : forall p x o d u,
  reads_dual cartesian_dual no_dual_bplane (sc_orbit sc0) p x -> o 0 = sc_orbit sc0 -> moves o d ->
  (forall h, reads_dual cartesian_dual no_dual_bplane (o h) p (u h)) -> is_derive (fun h => fst (u h)) 0 (dot6 (snd x) d).
Proof.
  intros p x o d u Hx _ (M1 & M2 & M3 & M4 & M5 & M6) Hu.
  inversion Hx as [e a E|? ? ? E|? ? ? E|? ? ? E]; subst; try discriminate.
  assert (U : forall h, cartesian_dual e (o h) = Some (u h)).
  { intros h. specialize (Hu h). inversion Hu. assumption. }
  destruct e; cbn in E; try discriminate; injection E as <-; unfold dot6, dot; cbn [fst snd vx vy vz vzero].
  all: eapply is_derive_ext; [intros h; specialize (U h); cbn in U; injection U as <-; reflexivity|].
  all: cbn [fst].
  1: replace (_ + _) with (vx (fst d)) by ring; exact M1.
  1: replace (_ + _) with (vy (fst d)) by ring; exact M2.
  1: replace (_ + _) with (vz (fst d)) by ring; exact M3.
  1: replace (_ + _) with (vx (snd d)) by ring; exact M4.
  1: replace (_ + _) with (vy (snd d)) by ring; exact M5.
  1: replace (_ + _) with (vz (snd d)) by ring; exact M6.
Qed.
Example dual_flow_case : forall c, of_state c ->
  moves (fun h => sc_orbit (at_epoch (with_stm (move sc0 (scale6 h (unit6 c)))) 100000000000 (velocity_km_s (sc_orbit (move sc0 (scale6 h (unit6 c)))))))
    (stm_column identity9 (block_index c)).
Proof.
  intros c Hc. cbn in Hc. destruct Hc as [<-|[<-|[<-|[<-|[<-|[<-|[]]]]]]]; unfold moves; cbn;
    refine (conj _ (conj _ (conj _ (conj _ (conj _ _))))); auto_derive; trivial;
    match goal with |- @eq _ ?x ?y => change (@eq R x y) end; cbn; ring.
Qed.
Example dual_step_case : limit_dual (variable_of VelocityX) 3 = 2 / 10.
Proof.
  unfold limit_dual, fsignum. cbn. rewrite Rabs_right by lra. destruct (Rlt_dec _ _); [|lra]. destruct (Rlt_dec _ _); lra.
Qed.

Print Assumptions C84_objective_frame_refuted.
Print Assumptions C84_correction_frame_refuted.
