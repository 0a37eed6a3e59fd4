(** A multiple shooting with the targeter with partials, without forces: it has a solution, which
    meets the hypotheses of C85. *)
From Coq Require Import Reals Lra Lia Psatz.
From Coquelicot Require Import Coquelicot.
From Verif Require Import Base Vec3 Angles Poly_Model Sc_Model Guid_Model Targ_Model Targ_Props Targ_Newton Targ_Cases Hyp_Model Hyp_Props Hyp_Cases
  Msh_Model Msh_Props Msh_Cases.
Local Open Scope R_scope.

(** The motion without forces, with its transition matrix; epochs are counted in seconds here. *)
Definition free_stm (dt : R) : list R :=
  map (fun p => if (fst p =? snd p)%nat then 1 else if (fst p =? snd p + 3)%nat && (fst p <? 6)%nat then dt else 0)
      (list_prod (seq 0 9) (seq 0 9)).
Definition free (sc : spacecraft) (e : Z) : res dual_error spacecraft :=
  let o := sc_orbit sc in
  if (epoch o =? e)%Z then Ok sc else
  let dt := IZR (e - epoch o) in
  Ok (with_stm_value (with_orbit sc (Orbit e (frame o) (vadd (radius_km o) (vscale dt (velocity_km_s o))) (velocity_km_s o)))
        (match stm sc with Some _ => Some (free_stm dt) | None => None end)).
(** The solution of three independent equations. *)
Definition solve_diagonal (j : list (list R)) (e : list R) : option (list R) :=
  match j, e with
  | [[a; _; _]; [_; b; _]; [_; _; c]], [x; y; z] => Some [x / a; y / b; z / c]
  | _, _ => None
  end.
Notation aim := (try_achieve_dual free quarter cartesian_dual no_dual_bplane solve_diagonal).

Definition free_base (st : spacecraft) (p : parameter) : R :=
  let r := vadd (radius_km (sc_orbit st)) (velocity_km_s (sc_orbit st)) in
  match p with Element X => vx r | Element Y => vy r | Element Z_ => vz r | _ => 0 end.
Definition free_slope (p : parameter) : vec6 :=
  match p with
  | Element X => (V3 1 0 0, V3 1 0 0) | Element Y => (V3 0 1 0, V3 0 1 0) | Element Z_ => (V3 0 0 1, V3 0 0 1) | _ => zero6
  end.

Lemma free_affine st n : n_epoch n = (epoch (sc_orbit st) + 1)%Z ->
  affine_dual free quarter cartesian_dual no_dual_bplane (delta_v (node_objectives Three n)) st (n_epoch n) (free_base st) free_slope.
Proof.
  intros He c. eexists _, (free_stm 1), _. split; [|split; [|split; [reflexivity|]]].
  - unfold free. cbn [sc_orbit with_stm with_stm_value move with_orbit epoch]. rewrite He.
    destruct (Z.eqb_spec (epoch (sc_orbit st)) (epoch (sc_orbit st) + 1)); [lia|].
    replace (epoch (sc_orbit st) + 1 - epoch (sc_orbit st))%Z with 1%Z by lia. reflexivity.
  - reflexivity.
  - intros ob Hin. cbn in Hin. destruct Hin as [<-|[<-|[<-|[]]]];
      [exists (V3 1 0 0, vzero)|exists (V3 0 1 0, vzero)|exists (V3 0 0 1, vzero)]; (split; [constructor; cbn; unfold lin, dot; cbn; apply (f_equal Some), f_equal2; [ring|reflexivity]|]);
      intros v Hv; cbn in Hv; destruct Hv as [<-|[<-|[<-|[]]]]; unfold dot6, lin, dot; cbn; ring.
Qed.

Lemma small d : Rabs d <= 2 / 10 -> forall v, v = VelocityX \/ v = VelocityY \/ v = VelocityZ -> unbounded (variable_of v) d.
Proof. intros H v Hv. apply Rabs_le_between in H. destruct Hv as [->|[->| ->]]; unfold unbounded; cbn; (split; [apply Rabs_le|]); lra. Qed.

(** A target that is near is reached. *)
Lemma free_reaches st n : n_epoch n = (epoch (sc_orbit st) + 1)%Z ->
  Rabs (n_x n - free_base st (Element X)) <= 2 / 10 -> Rabs (n_y n - free_base st (Element Y)) <= 2 / 10 -> Rabs (n_z n - free_base st (Element Z_)) <= 2 / 10 ->
  exists s dx dy dz, aim (delta_v (node_objectives Three n)) st (epoch (sc_orbit st)) (n_epoch n) = Ok s /\ correction s = [dx; dy; dz] /\
    (let o := sc_orbit st in let f := sc_orbit (achieved_state s) in
     epoch f = n_epoch n /\ velocity_km_s f = vadd (velocity_km_s o) (V3 dx dy dz) /\
     radius_km f = vadd (radius_km o) (velocity_km_s f) /\
     Rabs (n_x n - vx (radius_km f)) <= 1 / 1000 /\ Rabs (n_y n - vy (radius_km f)) <= 1 / 1000 /\ Rabs (n_z n - vz (radius_km f)) <= 1 / 1000).
Proof.
  intros He Hx Hy Hz.
  assert (J : true_jacobian (delta_v (node_objectives Three n)) free_slope = [[1; 0; 0]; [0; 1; 0]; [0; 0; 1]]).
  { cbn. unfold lin, dot. cbn. repeat f_equal; ring. }
  assert (Hst : free st (epoch (sc_orbit st)) = Ok st) by (unfold free; now rewrite Z.eqb_refl).
  destruct (C84_one_correction free quarter cartesian_dual no_dual_bplane solve_diagonal (delta_v (node_objectives Three n)) st st
    (epoch (sc_orbit st)) (n_epoch n) (free_base st) free_slope) as (s & E & _).
  - exact Hst.
  - now apply free_affine.
  - discriminate.
  - cbn. lia.
  - constructor; [cbn; tauto|]. constructor; [cbn; tauto|]. constructor; [cbn; tauto|constructor].
  - repeat (constructor; [cbn; lra|]). constructor.
  - rewrite J. intros e L. destruct e as [|x [|y [|z [|]]]]; cbn in L; try discriminate. eexists. split; [reflexivity|]. split; [reflexivity|].
    unfold rdot. cbn. f_equal; [field|f_equal; [field|f_equal; field]].
  - rewrite J. intros d Hd. cbn [objectives delta_v node_objectives app map solve_diagonal] in Hd. injection Hd as <-.
    assert (K : forall p x, scaled_error (free_base st) free_slope (combined velocity_variables [0; 0; 0]) (within_tolerance p x (1 / 1000)) / 1
      = x - free_base st p).
    { intros p x. unfold scaled_error. cbn [multiplicative_factor desired_value additive_factor obj_parameter within_tolerance].
      replace (combined velocity_variables [0; 0; 0]) with zero6 by (apply vec6_eq; apply v3_eq; cbn; ring). rewrite lin_zero. field. }
    constructor; [|constructor; [|constructor; [|constructor]]]; (apply small; [|tauto]).
    + change (variables _) with velocity_variables. change (map init_guess velocity_variables) with [0; 0; 0]. rewrite K. exact Hx.
    + change (variables _) with velocity_variables. change (map init_guess velocity_variables) with [0; 0; 0]. rewrite K. exact Hy.
    + change (variables _) with velocity_variables. change (map init_guess velocity_variables) with [0; 0; 0]. rewrite K. exact Hz.
  - pose proof (C84_solution _ _ _ _ _ _ _ _ _ _ E) as (_ & _ & _ & _ & L & (st' & C1 & C2) & D & o & So & HF).
    rewrite Hst in C1. injection C1 as <-.
    destruct (correction s) as [|dx [|dy [|dz [|]]]] eqn:Ec; cbn in L; try lia.
    exists s, dx, dy, dz. split; [exact E|]. split; [exact Ec|].
    rewrite C2 in D. unfold free in D. cbn [sc_orbit with_stm with_stm_value move with_orbit epoch] in D. rewrite He in D.
    destruct (Z.eqb_spec (epoch (sc_orbit st)) (epoch (sc_orbit st) + 1)); [lia|].
    replace (epoch (sc_orbit st) + 1 - epoch (sc_orbit st))%Z with 1%Z in D by lia. injection D as D.
    cbn in So. subst o. rewrite He, <- D. cbn [sc_orbit with_stm_value with_orbit epoch velocity_km_s radius_km].
    split; [reflexivity|]. split; [apply v3_eq; cbn; ring|]. split; [apply v3_eq; cbn; ring|].
    rewrite <- D in HF. cbn [sc_orbit with_stm_value with_orbit] in HF.
    cbn [objectives delta_v] in HF. unfold node_objectives in HF. cbn [app] in HF.
    inversion HF as [|? e1 ? l1 (a1 & h1 & R1 & M1) HF1]; subst. inversion HF1 as [|? e2 ? l2 (a2 & h2 & R2 & M2) HF2]; subst.
    inversion HF2 as [|? e3 ? l3 (a3 & h3 & R3 & M3) HF3]; subst.
    cbn [obj_parameter within_tolerance] in R1, R2, R3.
    inversion R1 as [? ? Q1| | |]; inversion R2 as [? ? Q2| | |]; inversion R3 as [? ? Q3| | |]; subst.
    injection Q1 as <- _. injection Q2 as <- _. injection Q3 as <- _.
    destruct M1 as [-> M1], M2 as [-> M2], M3 as [-> M3].
    cbn [multiplicative_factor desired_value additive_factor obj_tolerance within_tolerance] in M1, M2, M3.
    rewrite Rmult_1_l, Rplus_0_r in M1, M2, M3. auto.
Qed.

(** ** The run *)

Definition near (k : nat) (st : spacecraft) : Prop :=
  let o := sc_orbit st in
  epoch o = Z.of_nat k /\
  Rabs (vx (radius_km o) - INR k / 10) <= 3 / 1000 /\ Rabs (vy (radius_km o)) <= 3 / 1000 /\ Rabs (vz (radius_km o)) <= 3 / 1000 /\
  - (1 / 100) <= vx (velocity_km_s o) <= 12 / 100 /\ Rabs (vy (velocity_km_s o)) <= 1 / 100 /\ Rabs (vz (velocity_km_s o)) <= 1 / 100.
Definition close (k : nat) (n : node) : Prop :=
  n_epoch n = Z.of_nat k /\ Rabs (n_x n - INR k / 10) <= 2 / 1000 /\ Rabs (n_y n) <= 2 / 1000 /\ Rabs (n_z n) <= 2 / 1000.

Ltac bounds := repeat match goal with
  | H : Rabs _ <= _ |- _ => apply Rabs_le_between in H
  | H : _ /\ _ |- _ => destruct H
  end.

Lemma near_next k st n : near k st -> close (S k) n ->
  exists s dx dy dz, aim (delta_v (node_objectives Three n)) st (epoch (sc_orbit st)) (n_epoch n) = Ok s /\ correction s = [dx; dy; dz] /\
    near (S k) (achieved_state s) /\ dx = vx (radius_km (sc_orbit (achieved_state s))) - vx (radius_km (sc_orbit st)) - vx (velocity_km_s (sc_orbit st)).
Proof.
  intros (E & X1 & Y1 & Z1 & V1 & V2 & V3) (E' & X2 & Y2 & Z2). rewrite S_INR in X2. bounds.
  destruct (free_reaches st n) as (s & dx & dy & dz & A & B & C).
  - rewrite E, E'. lia.
  - unfold free_base. cbn. apply Rabs_le. lra.
  - unfold free_base. cbn. apply Rabs_le. lra.
  - unfold free_base. cbn. apply Rabs_le. lra.
  - cbv zeta in C. destruct C as (C1 & C2 & C3 & C4 & C5 & C6). exists s, dx, dy, dz. split; [exact A|]. split; [exact B|].
    set (f := sc_orbit (achieved_state s)) in *.
    assert (Vx : vx (velocity_km_s f) = vx (radius_km f) - vx (radius_km (sc_orbit st))) by (rewrite C3; cbn; ring).
    assert (Vy : vy (velocity_km_s f) = vy (radius_km f) - vy (radius_km (sc_orbit st))) by (rewrite C3; cbn; ring).
    assert (Vz : vz (velocity_km_s f) = vz (radius_km f) - vz (radius_km (sc_orbit st))) by (rewrite C3; cbn; ring).
    assert (Dx : dx = vx (velocity_km_s f) - vx (velocity_km_s (sc_orbit st))) by (rewrite C2; cbn; ring).
    bounds. split; [|rewrite Dx, Vx; ring].
    unfold near. fold f. cbv zeta. rewrite S_INR, Vx, Vy, Vz.
    split; [congruence|]. refine (conj _ (conj _ (conj _ (conj _ (conj _ _))))); try apply Rabs_le; lra.
Qed.

Definition path : list node := [on_x 1 (1 / 10); on_x 2 (2 / 10); on_x 3 (3 / 10)].
Definition at_rest : shooting := Shooting path (at_x 0 0 0) (sc_orbit (at_x 3 (3 / 10) 0)) 1 (10 ^ 16) velocity_variables.
Lemma path_close k n : nth_error path k = Some n -> close (S k) n.
Proof.
  intros H. destruct k as [|[|[|k]]]; cbn in H; try (destruct k; discriminate); injection H as <-; unfold close; cbn [n_epoch n_x n_y n_z on_x INR];
    (split; [reflexivity|]); refine (conj _ (conj _ _)); apply Rabs_le; lra.
Qed.
Lemma displaced_close k n axis : (axis < 3)%nat -> nth_error path k = Some n -> close (S k) (displaced n axis (1 / 1000)).
Proof.
  intros Ha H. destruct k as [|[|[|k]]]; cbn in H; try (destruct k; discriminate); injection H as <-;
    destruct axis as [|[|[|]]]; try lia; unfold close; cbn [displaced n_epoch n_x n_y n_z on_x INR];
    (split; [reflexivity|]); refine (conj _ (conj _ _)); apply Rabs_le; lra.
Qed.

Lemma difference_defined a1 a2 a3 b1 b2 b3 tol : exists d, difference [a1; a2; a3] [b1; b2; b3] tol = Ok d.
Proof. eexists. reflexivity. Qed.

Lemma index_at {E A} (l : list A) i a : nth_error l i = Some a -> @index E A l i = Ok a.
Proof. intros H. unfold index. now rewrite H. Qed.

Lemma shooting_run (achieve : targeter -> spacecraft -> Z -> Z -> res dual_error solution)
    (pinv : list (list R) -> list R -> option (list R)) cost :
  (forall k st n, near k st -> close (S k) n ->
    exists s dx dy dz, achieve (delta_v (node_objectives Three n)) st (epoch (sc_orbit st)) (n_epoch n) = Ok s /\ correction s = [dx; dy; dz] /\
      near (S k) (achieved_state s) /\
      dx = vx (radius_km (sc_orbit (achieved_state s))) - vx (radius_km (sc_orbit st)) - vx (velocity_km_s (sc_orbit st))) ->
  exists r, ms_solve achieve pinv Three cost at_rest = Ok r /\ ms_nodes r = path /\ length (ms_solutions r) = 3%nat.
Proof.
  intros next.
  unfold ms_solve, at_rest. cbn [ms_x0 improvement_threshold ms_variables max_iterations targets ms_iterate].
  change (length path =? 0)%nat with false. cbv iota.
  assert (N0 : near 0 (at_x 0 0 0)).
  { unfold near. cbn. refine (conj eq_refl _). refine (conj _ (conj _ (conj _ (conj _ (conj _ _))))); try apply Rabs_le; lra. }
  assert (P0 : nth_error path 0 = Some (on_x 1 (1 / 10))) by reflexivity.
  assert (P1 : nth_error path 1 = Some (on_x 2 (2 / 10))) by reflexivity.
  assert (P2 : nth_error path 2 = Some (on_x 3 (3 / 10))) by reflexivity.
  destruct (next 0%nat _ _ N0 (path_close _ _ P0)) as (s0 & a1 & a2 & a3 & A0 & B0 & N1 & D0).
  destruct (next 1%nat _ _ N1 (path_close _ _ P1)) as (s1 & b1 & b2 & b3 & A1 & B1 & N2 & _).
  destruct (next 2%nat _ _ N2 (path_close _ _ P2)) as (s2 & c1 & c2 & c3 & A2 & B2 & N3 & _).
  assert (Hsh : forall to, (forall n, to n = delta_v (node_objectives Three n)) -> shoot achieve to 0 (at_x 0 0 0) path = Ok [s0; s1; s2]).
  { intros to Hto. unfold path. cbn [shoot]. rewrite !Hto.
    change (n_epoch (on_x 1 (1 / 10))) with (n_epoch (on_x 1 (1 / 10))) in A0. rewrite A0. cbn [at_segment bind].
    rewrite A1. cbn [at_segment bind]. rewrite A2. reflexivity. }
  rewrite (Hsh (outer_targeter Three velocity_variables)) by reflexivity. cbn [bind map]. rewrite B0, B1, B2.
  assert (Hcol : forall i axis, (i < 2)%nat -> (axis < 3)%nat ->
    exists col, jacobian_column achieve Three path [at_x 0 0 0; achieved_state s0; achieved_state s1; achieved_state s2] [[a1; a2; a3]; [b1; b2; b3]; [c1; c2; c3]] i axis = Ok col).
  { intros i axis Hi Ha. unfold jacobian_column.
    destruct i as [|[|i]]; [| |lia].
    - rewrite (index_at _ _ _ P0). cbn [bind Nat.add]. rewrite (index_at _ _ _ P1). cbn [bind]. erewrite (index_at [_; _; _; _]) by reflexivity. cbn [bind].
      assert (Ho : exists ob, nth_error (node_objectives Three (on_x 1 (1 / 10))) axis = Some ob) by (destruct axis as [|[|[|]]]; [..|lia]; eexists; reflexivity).
      destruct Ho as [ob Ho]. rewrite (index_at _ _ _ Ho). cbn [bind]. cbv zeta. rewrite perturbed_displaced by exact Ha.
      destruct (next 0%nat _ _ N0 (displaced_close 0 _ axis Ha P0)) as (sa & x1 & x2 & x3 & Aa & Ba & Na & _).
      assert (Ee : n_epoch (displaced (on_x 1 (1 / 10)) axis (1 / 1000)) = n_epoch (on_x 1 (1 / 10))) by (destruct axis as [|[|[|]]]; reflexivity).
      rewrite Ee in Aa. rewrite Aa. cbn [at_segment bind]. erewrite (index_at [_; _; _]) by reflexivity. cbn [bind]. rewrite Ba.
      destruct (difference_defined x1 x2 x3 a1 a2 a3 (obj_tolerance ob)) as [d1 ->]. cbn [bind].
      destruct (next 1%nat _ _ Na (path_close _ _ P1)) as (sb & y1 & y2 & y3 & Ab & Bb & _ & _). unfold inner_targeter. rewrite Ab.
      cbn [at_segment bind]. erewrite (index_at [_; _; _]) by reflexivity. cbn [bind]. rewrite Bb.
      destruct (difference_defined y1 y2 y3 b1 b2 b3 (obj_tolerance ob)) as [d2 ->]. cbn [bind]. eexists. reflexivity.
    - rewrite (index_at _ _ _ P1). cbn [bind Nat.add]. rewrite (index_at _ _ _ P2). cbn [bind]. erewrite (index_at [_; _; _; _]) by reflexivity. cbn [bind].
      assert (Ho : exists ob, nth_error (node_objectives Three (on_x 2 (2 / 10))) axis = Some ob) by (destruct axis as [|[|[|]]]; [..|lia]; eexists; reflexivity).
      destruct Ho as [ob Ho]. rewrite (index_at _ _ _ Ho). cbn [bind]. cbv zeta. rewrite perturbed_displaced by exact Ha.
      destruct (next 1%nat _ _ N1 (displaced_close 1 _ axis Ha P1)) as (sa & x1 & x2 & x3 & Aa & Ba & Na & _).
      assert (Ee : n_epoch (displaced (on_x 2 (2 / 10)) axis (1 / 1000)) = n_epoch (on_x 2 (2 / 10))) by (destruct axis as [|[|[|]]]; reflexivity).
      rewrite Ee in Aa. rewrite Aa. cbn [at_segment bind]. erewrite (index_at [_; _; _]) by reflexivity. cbn [bind]. rewrite Ba.
      destruct (difference_defined x1 x2 x3 b1 b2 b3 (obj_tolerance ob)) as [d1 ->]. cbn [bind].
      destruct (next 2%nat _ _ Na (path_close _ _ P2)) as (sb & y1 & y2 & y3 & Ab & Bb & _ & _). unfold inner_targeter. rewrite Ab.
      cbn [at_segment bind]. erewrite (index_at [_; _; _]) by reflexivity. cbn [bind]. rewrite Bb.
      destruct (difference_defined y1 y2 y3 c1 c2 c3 (obj_tolerance ob)) as [d2 ->]. cbn [bind]. eexists. reflexivity. }
  assert (Hjac : exists jac, outer_jacobian achieve Three path [at_x 0 0 0; achieved_state s0; achieved_state s1; achieved_state s2] [[a1; a2; a3]; [b1; b2; b3]; [c1; c2; c3]] = Ok jac).
  { unfold outer_jacobian. change (list_prod (seq 0 (length path - 1)) (seq 0 (ot Three))) with
      [(0, 0); (0, 1); (0, 2); (1, 0); (1, 1); (1, 2)]%nat. cbn [columns_of fst snd].
    destruct (Hcol 0 0 ltac:(lia) ltac:(lia))%nat as [? ->]. destruct (Hcol 0 1 ltac:(lia) ltac:(lia))%nat as [? ->].
    destruct (Hcol 0 2 ltac:(lia) ltac:(lia))%nat as [? ->]. destruct (Hcol 1 0 ltac:(lia) ltac:(lia))%nat as [? ->].
    destruct (Hcol 1 1 ltac:(lia) ltac:(lia))%nat as [? ->]. destruct (Hcol 1 2 ltac:(lia) ltac:(lia))%nat as [? ->]. eexists. reflexivity. }
  destruct Hjac as [jac ->]. cbn [bind].
  change (cost_vec [[a1; a2; a3]; [b1; b2; b3]; [c1; c2; c3]]) with (@Ok ms_error _ [a1; a2; a3; b1; b2; b3; c1; c2; c3]). cbn [bind].
  assert (Hc : 9 / 10000 <= cost_of cost [a1; a2; a3; b1; b2; b3; c1; c2; c3]).
  { destruct N1 as (_ & X1 & _). bounds. cbn in D0. cbn [INR] in *.
    assert (Ha : 9 / 100 <= a1) by lra.
    assert (He : 81 / 10000 <= cost_of MinimumEnergy [a1; a2; a3; b1; b2; b3; c1; c2; c3]).
    { unfold cost_of. cbn [fold_right]. pose proof (Rle_0_sqr a2). pose proof (Rle_0_sqr a3). pose proof (Rle_0_sqr b1). pose proof (Rle_0_sqr b2).
      pose proof (Rle_0_sqr b3). pose proof (Rle_0_sqr c1). pose proof (Rle_0_sqr c2). pose proof (Rle_0_sqr c3). unfold Rsqr in *.
      assert (81 / 10000 <= a1 * a1) by nra. lra. }
    destruct cost; [lra|]. change (cost_of MinimumFuel ?l) with (sqrt (cost_of MinimumEnergy l)).
    apply Rsqr_incr_0_var; [|apply sqrt_pos]. rewrite Rsqr_sqrt by lra. unfold Rsqr. lra. }
  set (new := cost_of _ _) in *.
  assert (Hs : small_improvement (10 ^ 12) new (10 ^ 16) = false \/ small_improvement (10 ^ 12) new (10 ^ 16) = true) by (destruct (small_improvement _ _ _); auto).
  destruct Hs as [Hs|Hs].
  { exfalso. unfold small_improvement in Hs. destruct (Req_EM_T new 0); [lra|]. destruct (Rlt_dec _ _) as [|K]; [discriminate|]. apply K.
    rewrite (Rabs_pos_eq new) by lra. replace ((10 ^ 12 - new) / new) with (10 ^ 12 * / new - 1) by (field; lra).
    assert (0 < / new) by (apply Rinv_0_lt_compat; lra).
    assert (/ new <= / (9 / 10000)) by (apply Rinv_le_contravar; lra).
    assert (Hi : / (9 / 10000) <= 1200) by (apply Rmult_le_reg_l with (9 / 10000); [lra|]; rewrite Rinv_r by lra; lra).
    assert (Rabs (10 ^ 12 * / new - 1) <= 10 ^ 12 * 1200 + 1).
    { apply Rabs_le. split; [assert (0 <= 10 ^ 12 * / new) by (apply Rmult_le_pos; lra); lra|].
      assert (10 ^ 12 * / new <= 10 ^ 12 * 1200) by (apply Rmult_le_compat_l; lra). lra. }
    lra. }
  rewrite Hs. rewrite (Hsh (inner_targeter Three)) by reflexivity. cbn [bind]. eexists. split; [reflexivity|]. split; reflexivity.
Qed.

(** C85: the hypotheses of the theorems hold of a spacecraft at rest that goes through three nodes. *)
Example shooting_case (pinv : list (list R) -> list R -> option (list R)) cost : exists r,
  ms_solve aim pinv Three cost at_rest = Ok r /\ ms_nodes r = path /\ length (ms_solutions r) = 3%nat.
Proof. apply shooting_run. exact near_next. Qed.
Example free_case : (forall sc e xf, free sc e = Ok xf -> epoch (sc_orbit xf) = e) /\ (forall sc, free sc (epoch (sc_orbit sc)) = Ok sc).
Proof.
  split; [|intros sc; unfold free; now rewrite Z.eqb_refl].
  intros sc e xf H. unfold free in H. destruct (Z.eqb_spec (epoch (sc_orbit sc)) e) as [E|]; injection H as <-; [exact E|reflexivity].
Qed.
