(** Cases of the multiple shooting: its Jacobian, its costs, its end and its sizes (C85). *)
From Coq Require Import Reals Lra Lia Psatz.
From Verif Require Import Base Vec3 Angles Poly_Model Sc_Model Guid_Model Targ_Model Targ_Props Targ_Cases Hyp_Model Hyp_Props Msh_Model Msh_Props.
Local Open Scope R_scope.

(** ** A world without forces *)

(** The targeter that is exact when there are no forces: the velocity that leads to the position in
    the given time, whatever the bounds.  Epochs are counted in seconds here. *)
Definition wanted (objs : list objective) (i : nat) : R := match nth_error objs i with Some o => desired_value o | None => 0 end.
Definition ideal (t : targeter) (sc : spacecraft) (ce ae : Z) : res dual_error solution :=
  let o := sc_orbit sc in
  let target := V3 (wanted (objectives t) 0) (wanted (objectives t) 1) (wanted (objectives t) 2) in
  let v := vscale (/ IZR (ae - ce)) (vsub target (radius_km o)) in
  let dv := vsub v (velocity_km_s o) in
  Ok (Solution (with_orbit sc (Orbit ce (frame o) (radius_km o) v)) (with_orbit sc (Orbit ae (frame o) target v))
        [vx dv; vy dv; vz dv] (variables t) (map (fun _ => 0) (objectives t)) 1).
(** It changes the velocity by its correction, and the motion then leads to the target. *)
Example ideal_is_exact t sc ae : (epoch (sc_orbit sc) < ae)%Z -> exists s dx dy dz,
  ideal t sc (epoch (sc_orbit sc)) ae = Ok s /\ correction s = [dx; dy; dz] /\
  corrected_state s = move sc (vzero, V3 dx dy dz) /\
  (let c := sc_orbit (corrected_state s) in
   radius_km (sc_orbit (achieved_state s)) = vadd (radius_km c) (vscale (IZR (ae - epoch c)) (velocity_km_s c)) /\
   velocity_km_s (sc_orbit (achieved_state s)) = velocity_km_s c) /\
  vx (radius_km (sc_orbit (achieved_state s))) = wanted (objectives t) 0 /\
  vy (radius_km (sc_orbit (achieved_state s))) = wanted (objectives t) 1 /\
  vz (radius_km (sc_orbit (achieved_state s))) = wanted (objectives t) 2.
Proof.
  intros H. eexists _, _, _, _. split; [reflexivity|]. split; [reflexivity|].
  assert (IZR (ae - epoch (sc_orbit sc)) <> 0) by (apply not_0_IZR; lia).
  destruct sc as [[e f [a b c] [u v w]]]. cbn in *. split.
  - unfold move, with_orbit. cbn. f_equal. f_equal; apply v3_eq; cbn; ring.
  - split; [|auto]. split; [|reflexivity]. apply v3_eq; cbn; field; assumption.
Qed.

(** Points and nodes along the first axis. *)
Definition at_x (e : Z) (x v : R) : spacecraft := with_orbit sc0 (Orbit e 0 (V3 x 0 0) (V3 v 0 0)).
Definition on_x (e : Z) (x : R) : node := Node x 0 0 0 e 0.
Notation to_node := (fun n => delta_v (node_objectives Three n)).

Lemma ideal_x n st e x : n_epoch n = (e + 1)%Z -> n_y n = 0 -> n_z n = 0 -> radius_km (sc_orbit st) = V3 x 0 0 -> epoch (sc_orbit st) = e ->
  exists s dy dz, ideal (to_node n) st (epoch (sc_orbit st)) (n_epoch n) = Ok s /\
    correction s = [n_x n - x - vx (velocity_km_s (sc_orbit st)); dy; dz] /\
    radius_km (sc_orbit (achieved_state s)) = V3 (n_x n) 0 0 /\ epoch (sc_orbit (achieved_state s)) = (e + 1)%Z /\
    vx (velocity_km_s (sc_orbit (achieved_state s))) = n_x n - x.
Proof.
  intros H1 H2 H3 H4 H5. eexists _, _, _. split; [reflexivity|]. cbn. rewrite H1, H2, H3, H4, H5.
  replace (e + 1 - e)%Z with 1%Z by lia. cbn. repeat split.
  - f_equal. field.
  - field.
Qed.

(** ** The Jacobian *)

Definition line4 : list node := [on_x 1 1; on_x 2 2; on_x 3 3; on_x 4 4].
Definition line3 : list node := [on_x 1 1; on_x 2 2; on_x 3 3].
Definition solved (sc : spacecraft) (n : node) : solution :=
  match ideal (to_node n) sc (epoch (sc_orbit sc)) (n_epoch n) with Ok s => s | _ => Solution sc sc [] [] [] 0 end.
Fixpoint solved_all (sc : spacecraft) (nodes : list node) : list solution :=
  match nodes with [] => [] | n :: nodes' => solved sc n :: solved_all (achieved_state (solved sc n)) nodes' end.
Lemma solved_chain : forall nodes sc, chain ideal to_node sc nodes (solved_all sc nodes).
Proof. induction nodes as [|n nodes IH]; intros sc; cbn [solved_all]; constructor; [reflexivity|apply IH]. Qed.

(** C85: the entries for the correction that leaves the second node after the displaced one are the
    opposite of the changes of this correction: without forces, moving the first of four nodes on a
    line forward by one unit increases the third correction by one unit, the Jacobian says minus one. *)
Theorem C85_jacobian_refuted : exists achieve x0 nodes n sols sols' col sol sol',
  chain achieve to_node x0 nodes sols /\ nth_error nodes 0 = Some n /\
  jacobian_column achieve Three nodes (x0 :: map achieved_state sols) (map correction sols) 0 0 = Ok col /\
  chain achieve to_node x0 (replace nodes 0 (displaced n 0 (1 / 1000))) sols' /\
  nth_error sols 2 = Some sol /\ nth_error sols' 2 = Some sol' /\
  (nth 0 (correction sol') 0 - nth 0 (correction sol) 0) / (1 / 1000) = 1 /\ nth (3 * 2 + 0) col 0 = -1.
Proof.
  exists ideal, (at_x 0 0 0), line4, (on_x 1 1), (solved_all (at_x 0 0 0) line4),
    (solved_all (at_x 0 0 0) (replace line4 0 (displaced (on_x 1 1) 0 (1 / 1000)))).
  eexists _, _, _. split; [apply solved_chain|]. split; [reflexivity|]. split; [reflexivity|]. split; [apply solved_chain|].
  split; [reflexivity|]. split; [reflexivity|]. split; cbn; field.
Qed.

(** C85: the last correction has no such entries at all: with three nodes, moving the first one
    changes the last correction, the Jacobian says that it does not. *)
Theorem C85_last_block_refuted : exists achieve x0 nodes n sols sols' col sol sol',
  chain achieve to_node x0 nodes sols /\ nth_error nodes 0 = Some n /\
  jacobian_column achieve Three nodes (x0 :: map achieved_state sols) (map correction sols) 0 0 = Ok col /\
  chain achieve to_node x0 (replace nodes 0 (displaced n 0 (1 / 1000))) sols' /\
  nth_error sols 2 = Some sol /\ nth_error sols' 2 = Some sol' /\
  (nth 0 (correction sol') 0 - nth 0 (correction sol) 0) / (1 / 1000) = 1 /\ nth (3 * 2 + 0) col 0 = 0.
Proof.
  exists ideal, (at_x 0 0 0), line3, (on_x 1 1), (solved_all (at_x 0 0 0) line3),
    (solved_all (at_x 0 0 0) (replace line3 0 (displaced (on_x 1 1) 0 (1 / 1000)))).
  eexists _, _, _. split; [apply solved_chain|]. split; [reflexivity|]. split; [reflexivity|]. split; [apply solved_chain|].
  split; [reflexivity|]. split; [reflexivity|]. split; cbn; field.
Qed.

(** ** The cost *)

Fixpoint fuel (dvs : list v3) : R := match dvs with [] => 0 | d :: dvs' => norm d + fuel dvs' end.
Definition components (d : v3) : list R := [vx d; vy d; vz d].

(** C85: the cost of minimum energy is the sum of the squares of the corrections. *)
Theorem C85_energy dvs v : cost_vec (map components dvs) = Ok v ->
  cost_of MinimumEnergy v = fold_right (fun d acc => dot d d + acc) 0 dvs.
Proof.
  revert v. induction dvs as [|d dvs IH]; intros v H.
  - cbn in H. injection H as <-. reflexivity.
  - cbn in H. destruct (cost_vec (map components dvs)) as [w| | |] eqn:E; cbn in H; try discriminate. injection H as <-.
    specialize (IH w eq_refl). unfold cost_of in *. cbn [fold_right]. rewrite <- IH. unfold dot. ring.
Qed.
Example energy_case : exists v, cost_vec (map components [V3 1 0 0; V3 0 2 0]) = Ok v /\ cost_of MinimumEnergy v = 5.
Proof. eexists. split; [reflexivity|]. unfold cost_of. cbn. ring. Qed.

(** C85: the cost of minimum fuel is not the sum of the magnitudes of the corrections, but the
    square root of the energy: the two costs have the same order. *)
Theorem C85_fuel_refuted : exists dvs v, cost_vec (map components dvs) = Ok v /\ cost_of MinimumFuel v <> fuel dvs.
Proof.
  exists [V3 1 0 0; V3 0 1 0]. eexists. split; [reflexivity|].
  unfold cost_of, fuel, norm, dot. cbn. intros H.
  replace (1 * 1 + 0 * 0 + 0 * 0) with 1 in H by ring. replace (0 * 0 + 1 * 1 + 0 * 0) with 1 in H by ring. rewrite sqrt_1 in H.
  apply (f_equal (fun x => x * x)) in H. rewrite sqrt_sqrt in H by lra. lra.
Qed.
Theorem C85_fuel_is_energy v w : cost_of MinimumFuel v < cost_of MinimumFuel w <-> cost_of MinimumEnergy v < cost_of MinimumEnergy w.
Proof.
  assert (P : forall l, 0 <= fold_right (fun x acc => x * x + acc) 0 l).
  { induction l as [|x l IH]; cbn; [lra|]. pose proof (Rle_0_sqr x). unfold Rsqr in *. lra. }
  unfold cost_of. split.
  - intros H. now apply sqrt_lt_0_alt.
  - intros H. apply sqrt_lt_1; auto.
Qed.

(** ** The end *)

(** A spacecraft already on its way to three nodes. *)
Definition on_its_way (max : nat) (thr : R) : shooting := Shooting line3 (at_x 0 0 1) (sc_orbit (at_x 3 3 1)) max thr velocity_variables.

Lemma zero_cost c l : Forall (fun x => x = 0) l -> cost_of c l = 0.
Proof.
  intros H. assert (E : fold_right (fun x acc => x * x + acc) 0 l = 0).
  { induction H as [|x l Hx _ IH]; cbn; [reflexivity|]. rewrite IH, Hx. ring. }
  unfold cost_of. destruct c; rewrite E; [reflexivity|apply sqrt_0].
Qed.

(** C85: when no correction is needed, the cost is null, the improvement is infinite or not a number,
    and the multiple shooting ends with an error whatever the number of iterations and the threshold. *)
Theorem C85_no_correction_refuted pinv : (forall cols v, Forall (fun x => x = 0) v -> pinv cols v = Some (repeat 0 (length cols))) ->
  forall cost max thr,
  chain ideal to_node (at_x 0 0 1) line3 (solved_all (at_x 0 0 1) line3) /\
  Forall (fun s => Forall (fun x => x = 0) (correction s)) (solved_all (at_x 0 0 1) line3) /\
  ms_solve ideal pinv Three cost (on_its_way max thr) = Err (Segment 0 DualTooMany).
Proof.
  intros Hp cost max thr. split; [apply solved_chain|].
  assert (Z3 : forall a b c, a = 0 -> b = 0 -> c = 0 -> Forall (fun x => x = 0) [a; b; c]) by (intros; repeat constructor; assumption).
  assert (HF : Forall (fun s => Forall (fun x => x = 0) (correction s)) (solved_all (at_x 0 0 1) line3)).
  { repeat (constructor; [apply Z3; cbn; field|]). constructor. }
  split; [exact HF|].
  unfold ms_solve, on_its_way. cbn [ms_x0 improvement_threshold ms_variables max_iterations targets].
  generalize (10 ^ 12) as prev. induction max as [|max IH]; intros prev; cbn [ms_iterate]; [reflexivity|].
  change (length line3 =? 0)%nat with false. cbv iota.
  change (shoot ideal (outer_targeter Three velocity_variables) 0 (at_x 0 0 1) line3) with (@Ok ms_error _ (solved_all (at_x 0 0 1) line3)).
  cbn [bind].
  destruct (outer_jacobian ideal Three line3 _ _) as [jac| | |] eqn:Ej; cbn in Ej; try discriminate.
  assert (Lj : length jac = 6%nat) by (injection Ej as <-; reflexivity). clear Ej. cbn [bind].
  destruct (cost_vec (map correction (solved_all (at_x 0 0 1) line3))) as [v| | |] eqn:Ev; cbn in Ev; try discriminate.
  assert (Hv : Forall (fun x => x = 0) v).
  { injection Ev as <-. repeat (constructor; [field|]). constructor. }
  clear Ev. cbn [bind]. rewrite (zero_cost cost v Hv). unfold small_improvement. destruct (Req_EM_T 0 0) as [_|K]; [|now elim K].
  rewrite (Hp jac v Hv), Lj. cbn [repeat].
  assert (Em : move_nodes Three line3 0 [0; 0; 0; 0; 0; 0] = Ok line3).
  { cbn. unfold line3, on_x. repeat f_equal; ring. }
  rewrite Em. cbn [bind]. apply IH.
Qed.
(** Such a pseudo-inverse. *)
Example pinv_case : exists pinv : list (list R) -> list R -> option (list R),
  forall cols v, Forall (fun x => x = 0) v -> pinv cols v = Some (repeat 0 (length cols)).
Proof. exists (fun cols _ => Some (repeat 0 (length cols))). reflexivity. Qed.

(** ** The sizes *)

(** C85: with two nodes, which the constructors refuse but the fields allow, there is no solution. *)
Theorem C85_two_nodes_refuted achieve pinv s cost m : length (targets m) = 2%nat ->
  forall r, ms_solve achieve pinv s cost m <> Ok r.
Proof.
  unfold ms_solve. intros H r. destruct (targets m) as [|n1 [|n2 [|]]] eqn:E; try discriminate. clear H E.
  destruct (max_iterations m) as [|k]; cbn [ms_iterate]; [discriminate|]. cbn [length Nat.eqb].
  intros H. unb H sols Es. unb H jac Ej. clear H. unfold outer_jacobian in Ej. cbn [length Nat.sub seq] in Ej.
  assert (Hl : exists l, list_prod [0%nat] (seq 0 (ot s)) = (0%nat, 0%nat) :: l) by (destruct s; eexists; reflexivity).
  destruct Hl as [l El]. rewrite El in Ej. cbn [columns_of] in Ej. unb Ej c Ec. clear Ej. cbn [fst snd] in Ec.
  unfold jacobian_column in Ec. unb Ec ni Eni. unb Ec nj Enj. unb Ec st Est. unb Ec ob Eob. unb Ec sa Ea. unb Ec dvi Edvi. unb Ec a Eda.
  unb Ec sb Eb. unb Ec dvj Edvj. unb Ec b Edb. cbn in Ec. discriminate.
Qed.
Example two_nodes_case : length (targets (Shooting [on_x 1 1; on_x 2 2] (at_x 0 0 0) (sc_orbit (at_x 2 2 1)) 50 (1 / 100) velocity_variables)) = 2%nat.
Proof. reflexivity. Qed.

(** C85: with four objectives per node, the components of the step are given to the wrong nodes, three
    by three: the last of three nodes, which is the destination, moves. *)
Theorem C85_destination_refuted : forall a b c d e f g h, g <> 0 -> exists nodes nodes', length nodes = 3%nat /\
  move_nodes Four nodes 0 [a; b; c; d; e; f; g; h] = Ok nodes' /\
  option_map n_z (nth_error nodes' 2) <> option_map n_z (nth_error nodes 2).
Proof.
  intros a b c d e f g h Hg. exists line3. eexists. split; [reflexivity|]. split; [reflexivity|]. cbn. intros K. injection K as K. lra.
Qed.
(** With five nodes or more, a node that does not exist is asked for. *)
Theorem C85_four_objectives_refuted : forall nodes step, (5 <= length nodes)%nat -> length step = (4 * (length nodes - 1))%nat ->
  move_nodes Four nodes 0 step = Panic.
Proof.
  assert (K : forall step nodes i, (3 * length nodes < i + length step)%nat -> (i <= 3 * length nodes)%nat -> move_nodes Four nodes i step = Panic).
  { induction step as [|d step IH]; intros nodes i H1 H2; cbn [length] in H1; [lia|]. cbn [move_nodes]. unfold index.
    destruct (nth_error nodes (i / 3)) as [n|] eqn:E; [|reflexivity]. cbn [bind].
    assert (Hi : (i < 3 * length nodes)%nat).
    { assert (i / 3 < length nodes)%nat by (apply nth_error_Some; congruence).
      pose proof (Nat.div_mod i 3 ltac:(lia)). pose proof (Nat.mod_upper_bound i 3 ltac:(lia)). lia. }
    assert (Hu : exists n', update_component (E := ms_error) n (i mod ot Four) (- d) = Ok n').
    { pose proof (Nat.mod_upper_bound i 4 ltac:(lia)). cbn [ot]. destruct (i mod 4)%nat as [|[|[|[|]]]]; try lia; eexists; reflexivity. }
    destruct Hu as [n' ->]. cbn [bind]. apply IH; rewrite replace_length; lia. }
  intros nodes step H1 H2. apply K; lia.
Qed.
Example four_objectives_case : exists (nodes : list node) (step : list R), (5 <= length nodes)%nat /\ length step = (4 * (length nodes - 1))%nat.
Proof. exists (line4 ++ line3), (repeat 0 24). cbn. lia. Qed.

Print Assumptions C85_jacobian_refuted.
Print Assumptions C85_last_block_refuted.
Print Assumptions C85_energy.
Print Assumptions C85_fuel_refuted.
Print Assumptions C85_fuel_is_energy.
Print Assumptions C85_no_correction_refuted.
Print Assumptions C85_two_nodes_refuted.
Print Assumptions C85_destination_refuted.
Print Assumptions C85_four_objectives_refuted.
