(** Properties of the trajectories of a multiple shooting and of the nodes of a file (Mst_Model):
    C107 and C108. *)
From Coq Require Import Reals Lra Lia Ascii String List.
From Verif Require Import Base Vec3 Angles Poly_Model Sc_Model Guid_Model Targ_Model Targ_Props Hyp_Model Hyp_Props Hyp_Cases
  Msh_Model Msh_Props Msh_Cases Msh_Run Mst_Model.
Import ListNotations.
Local Open Scope R_scope.

(** ** Specification *)

(** The point is within a meter of the node, along each axis, at its epoch; its speed is within a
    meter per second of that of the node, where it counts. *)
Definition on_node (s : size) (n : node) (o : orbit) : Prop :=
  epoch o = n_epoch n /\
  Rabs (n_x n - vx (radius_km o)) <= 1 / 1000 /\ Rabs (n_y n - vy (radius_km o)) <= 1 / 1000 /\ Rabs (n_z n - vz (radius_km o)) <= 1 / 1000 /\
  match s with Three => True | Four => Rabs (n_vmag n - norm (velocity_km_s o)) <= 1 / 1000 end.

(** The arcs, given by their ends, go from a point through the nodes: each one begins where the one
    before it ends, with an impulse. *)
Inductive joined (s : size) : orbit -> list node -> list (list R) -> list (orbit * orbit) -> Prop :=
| joined_nil o : joined s o [] [] []
| joined_cons o n nodes x y z dvs a b arcs :
    a = Orbit (epoch o) (frame o) (radius_km o) (vadd (velocity_km_s o) (V3 x y z)) ->
    on_node s n b -> joined s b nodes dvs arcs ->
    joined s o (n :: nodes) ([x; y; z] :: dvs) ((a, b) :: arcs).

(** ** Lemmas *)

Section Props.
Context (coast : spacecraft -> Z -> res dual_error spacecraft)
        (transform_to : orbit -> nat -> option orbit)
        (partial_for : element -> orbit -> option dual6)
        (bplane : orbit -> option (dual6 * dual6 * dual6))
        (solve : list (list R) -> list R -> option (list R))
        (pinv : list (list R) -> list R -> option (list R))
        (coast' : spacecraft -> Z -> res targ_error spacecraft)
        (guided : maneuver -> spacecraft -> Z -> res targ_error spacecraft)
        (partial_for' : element -> orbit -> option R)
        (bplane' : orbit -> option (R * R * R))
        (of_secs : R -> Z).
Notation achieve := (try_achieve_dual coast transform_to partial_for bplane solve).
Notation rebuilt := (trajectories_from coast' guided partial_for' bplane' of_secs).
Notation fly := (apply coast' guided partial_for' bplane' of_secs).

Lemma impulsive s : sol_variables s = [variable_of VelocityX; variable_of VelocityY; variable_of VelocityZ] ->
  to_mnvr of_secs s = Err NotFinite.
Proof. intros H. unfold to_mnvr. rewrite H. reflexivity. Qed.

(** What a check of a node reads. *)
Lemma verified_node s n o b : verified partial_for' o b (node_objectives s n) = Ok true ->
  (partial_for' X o = Some (vx (radius_km o)) /\ partial_for' Y o = Some (vy (radius_km o)) /\ partial_for' Z_ o = Some (vz (radius_km o))) ->
  (s = Four -> partial_for' Vmag o = Some (norm (velocity_km_s o))) ->
  epoch o = n_epoch n -> on_node s n o.
Proof.
  intros H (P1 & P2 & P3) P4 He. split; [exact He|].
  unfold node_objectives in H. destruct s; [clear P4|specialize (P4 eq_refl)]; cbn [app verified obj_parameter within_tolerance achieved_value] in H;
    rewrite P1, P2, P3 in H; try rewrite P4 in H; cbn [or_fail bind obj_tolerance desired_value] in H;
    repeat match type of H with context [Rlt_dec ?x ?y] => destruct (Rlt_dec x y); cbn in H; try discriminate end;
    unfold within_tolerance in *; cbn [obj_tolerance desired_value] in *; repeat split; lra.
Qed.

Hypothesis stm_free : forall sc e xf, coast (with_stm sc) e = Ok xf -> exists xf', coast' sc e = Ok xf' /\ sc_orbit xf' = sc_orbit xf.
Hypothesis same_values : forall e o, partial_for' e o = option_map fst (partial_for e o).
Hypothesis coordinates : forall o, partial_for' X o = Some (vx (radius_km o)) /\ partial_for' Y o = Some (vy (radius_km o)) /\
  partial_for' Z_ o = Some (vz (radius_km o)).
Hypothesis to_epoch : forall sc e xf, coast sc e = Ok xf -> epoch (sc_orbit xf) = e.
Hypothesis stay : forall sc, coast sc (epoch (sc_orbit sc)) = Ok sc.

Lemma segment_rebuilt s n st sol : (s = Four -> forall o, partial_for' Vmag o = Some (norm (velocity_km_s o))) ->
  achieve (inner_targeter s n) st (epoch (sc_orbit st)) (n_epoch n) = Ok sol ->
  exists xf x y z, fly (delta_v (node_objectives s n)) sol = Ok xf /\ sc_orbit xf = sc_orbit (achieved_state sol) /\
    correction sol = [x; y; z] /\
    sc_orbit (corrected_state sol) = Orbit (epoch (sc_orbit st)) (frame (sc_orbit st)) (radius_km (sc_orbit st)) (vadd (velocity_km_s (sc_orbit st)) (V3 x y z)) /\
    on_node s n (sc_orbit xf).
Proof.
  intros Hspeed H. apply C84_solution in H as (_ & _ & _ & V & L & (st' & C1 & C2) & D & o & So & HF).
  rewrite stay in C1. injection C1 as <-.
  destruct (correction sol) as [|x [|y [|z [|]]]] eqn:Ec; cbn in L; try lia.
  destruct (stm_free _ _ _ D) as (xf & F1 & F2).
  assert (Hd : epoch (sc_orbit (achieved_state sol)) = n_epoch n) by (eapply to_epoch; eauto).
  cbn in So. subst o.
  assert (Hv : verified partial_for' (sc_orbit xf) None (node_objectives s n) = Ok true).
  { apply (verified_ok partial_for' bplane' _ false None eq_refl _ (achieved_errors sol)).
    - intros ob Hin. destruct s; cbn in Hin; intuition (subst; discriminate).
    - destruct s; repeat constructor.
    - rewrite F2. cbn [objectives delta_v inner_targeter] in HF. 
      assert (G : Forall (fun ob => exists e, obj_parameter ob = Element e) (node_objectives s n)) by (destruct s; repeat constructor; cbn; eauto).
      clear -HF G same_values. induction HF as [|ob err obs errs (a & g & R1 & M1) _ IH]; [constructor|].
      inversion G as [|? ? [e Ee] G']; subst. constructor; [|auto]. exists a. split; [|exact M1].
      rewrite Ee in *. inversion R1 as [? ? Q| | |]; subst. constructor. rewrite same_values, Q. reflexivity. }
  exists xf, x, y, z. split; [|split; [exact F2|split; [reflexivity|split]]].
  - unfold apply. rewrite (impulsive _ V), Hd, F1. cbn [bind].
    assert (Hb : b_plane_target (delta_v (node_objectives s n)) = false) by (destruct s; reflexivity).
    rewrite Hb. cbn [b_plane_of bind]. cbn [objectives delta_v]. rewrite Hv. reflexivity.
  - rewrite C2. unfold move, combined. destruct (sc_orbit st) as [e f [r1 r2 r3] [w1 w2 w3]] eqn:Eo. cbn. f_equal; apply v3_eq; cbn; ring.
  - eapply verified_node; [exact Hv|apply coordinates|auto|now rewrite F2].
Qed.

Lemma rebuilt_joined s : (s = Four -> forall o, partial_for' Vmag o = Some (norm (velocity_km_s o))) ->
  forall nodes st sols, chain achieve (inner_targeter s) st nodes sols -> forall before,
  exists arcs, rebuilt s (before ++ sols) (length before) nodes = Ok arcs /\
    joined s (sc_orbit st) nodes (map correction sols) arcs.
Proof.
  intros Hspeed nodes st sols H. induction H as [st|st n nodes sol sols A _ IH]; intros before; [exists []; split; [reflexivity|constructor]|].
  apply (segment_rebuilt _ _ _ _ Hspeed) in A as (xf & x & y & z & A1 & A2 & A3 & A4 & A5).
  destruct (IH (before ++ [sol])%list) as (arcs & B1 & B2).
  rewrite app_length in B1. cbn [length] in B1. rewrite <- app_assoc, Nat.add_1_r in B1. cbn [app] in B1.
  eexists. split.
  - cbn [trajectories_from]. unfold index. rewrite nth_error_app2, Nat.sub_diag by lia. cbn [nth_error bind].
    unfold apply_with_traj. rewrite A1. cbn [bind]. rewrite B1. cbn [bind]. reflexivity.
  - cbn [map]. rewrite A3. econstructor; [exact A4|exact A5|]. rewrite A2. exact B2.
Qed.

(** ** Theorems *)

(** C107: the trajectories of a solution can be built, with a propagation that reaches the same
    orbits without the transition matrix: they go from the initial orbit through the nodes, to
    within a meter, each one from the end of the one before it and with the impulse of the
    solution. *)
Theorem C107_trajectories s cost m r :
  (forall cols v d, pinv cols v = Some d -> length d = length cols) ->
  (s = Four -> forall o, partial_for' Vmag o = Some (norm (velocity_km_s o))) ->
  ms_solve achieve pinv s cost m = Ok r ->
  exists arcs, build_trajectories coast' guided partial_for' bplane' of_secs s r = Ok arcs /\
    joined s (sc_orbit (ms_x0 m)) (ms_nodes r) (map correction (ms_solutions r)) arcs.
Proof.
  intros Hp Hspeed H. apply C85_solution in H as (_ & Hch & _); [|assumption].
  exact (rebuilt_joined _ Hspeed _ _ _ Hch []).
Qed.
End Props.

(** C107: an error names the first segment whose check fails, with the error of this check; the
    number of trajectories is that of the nodes. *)
Theorem C107_errors coast guided partial_for bplane of_secs s r :
  match build_trajectories coast guided partial_for bplane of_secs s r with
  | Ok arcs => length arcs = length (ms_nodes r) /\ forall k n sol, nth_error (ms_nodes r) k = Some n -> nth_error (ms_solutions r) k = Some sol ->
      exists xf, apply coast guided partial_for bplane of_secs (delta_v (node_objectives s n)) sol = Ok xf /\
        nth_error arcs k = Some (sc_orbit (corrected_state sol), sc_orbit xf)
  | Err (RebuildSegment i e) => exists n sol, nth_error (ms_nodes r) i = Some n /\ nth_error (ms_solutions r) i = Some sol /\
      apply coast guided partial_for bplane of_secs (delta_v (node_objectives s n)) sol = Err e /\
      forall k n' sol', (k < i)%nat -> nth_error (ms_nodes r) k = Some n' -> nth_error (ms_solutions r) k = Some sol' ->
        is_ok (apply coast guided partial_for bplane of_secs (delta_v (node_objectives s n')) sol')
  | _ => True
  end.
Proof.
  unfold build_trajectories. generalize (ms_solutions r) as sols. intros sols.
  enough (G : forall nodes i, match trajectories_from coast guided partial_for bplane of_secs s sols i nodes with
  | Ok arcs => length arcs = length nodes /\ forall k n sol, nth_error nodes k = Some n -> nth_error sols (i + k) = Some sol ->
      exists xf, apply coast guided partial_for bplane of_secs (delta_v (node_objectives s n)) sol = Ok xf /\
        nth_error arcs k = Some (sc_orbit (corrected_state sol), sc_orbit xf)
  | Err (RebuildSegment j e) => (i <= j)%nat /\ exists n sol, nth_error nodes (j - i) = Some n /\ nth_error sols j = Some sol /\
      apply coast guided partial_for bplane of_secs (delta_v (node_objectives s n)) sol = Err e /\
      forall k n' sol', (i + k < j)%nat -> nth_error nodes k = Some n' -> nth_error sols (i + k) = Some sol' ->
        is_ok (apply coast guided partial_for bplane of_secs (delta_v (node_objectives s n')) sol')
  | _ => True
  end).
  { specialize (G (ms_nodes r) 0%nat). destruct (trajectories_from _ _ _ _ _ _ _ _ _) as [arcs|[j e]| |]; auto.
    destruct G as (_ & n & sol & G1 & G2 & G3 & G4). rewrite Nat.sub_0_r in G1. exists n, sol. auto. }
  induction nodes as [|n nodes IH]; intros i; [cbn; split; [reflexivity|intros [|]; discriminate]|].
  cbn [trajectories_from]. unfold index. destruct (nth_error sols i) as [sol|] eqn:Es; [|exact I]. cbn [bind]. unfold apply_with_traj.
  destruct (apply coast guided partial_for bplane of_secs (delta_v (node_objectives s n)) sol) as [xf|e| |] eqn:Ea; cbn [bind]; try exact I.
  - specialize (IH (S i)). destruct (trajectories_from _ _ _ _ _ _ _ (S i) nodes) as [arcs|[j err]| |]; cbn [bind]; try exact I.
    + destruct IH as (L & K). split; [cbn; lia|]. intros [|k] n0 sol0 H1 H2.
      * rewrite Nat.add_0_r in H2. injection H1 as <-. exists xf. split; [congruence|]. cbn. congruence.
      * cbn [nth_error] in H1 |- *. rewrite <- Nat.add_succ_comm in H2. exact (K _ _ _ H1 H2).
    + destruct IH as (L & n0 & sol0 & G1 & G2 & G3 & G4). split; [lia|]. exists n0, sol0.
      replace (j - i)%nat with (S (j - S i))%nat by lia. split; [exact G1|]. split; [exact G2|]. split; [exact G3|].
      intros [|k] n' sol' H1 H2 H3.
      * rewrite Nat.add_0_r in H3. injection H2 as <-. assert (sol' = sol) as -> by congruence. exists xf. exact Ea.
      * rewrite <- Nat.add_succ_comm in H1, H3. exact (G4 _ _ _ H1 H2 H3).
  - split; [lia|]. exists n, sol. rewrite Nat.sub_diag. split; [reflexivity|]. split; [exact Es|]. split; [exact Ea|]. intros; lia.
Qed.

(** C108: a node written to a file and read again is the same, and a list of them too, if the text
    of an epoch can be read. *)
Theorem C108_round_trip parse show : (forall e, parse (show e) = Some e) -> forall nodes,
  to_node_vec parse (map (of_node show) nodes) = Ok nodes.
Proof.
  intros H nodes. induction nodes as [|[x y z v e f] nodes IH]; [reflexivity|].
  cbn. unfold Mst_Model.to_node. cbn. rewrite H. cbn. rewrite IH. reflexivity.
Qed.

(** C108: what is read is node by node what is written, a missing speed being zero. *)
Theorem C108_read parse l nodes : to_node_vec parse l = Ok nodes ->
  Forall2 (fun f n => n_x n = s_x f /\ n_y n = s_y f /\ n_z n = s_z f /\ n_frame n = s_frame f /\ parse (s_epoch f) = Some (n_epoch n) /\
    ((exists v, s_vmag f = Some v /\ n_vmag n = v) \/ (s_vmag f = None /\ n_vmag n = 0))) l nodes.
Proof.
  revert nodes. induction l as [|f l IH]; intros nodes H; cbn in H; [injection H as <-; constructor|].
  unfold Mst_Model.to_node in H. destruct (parse (s_epoch f)) as [e|] eqn:Ee; [|discriminate]. cbn [bind] in H.
  destruct (to_node_vec parse l) as [ns| | |]; try discriminate. cbn [bind] in H. injection H as <-.
  constructor; [|auto]. cbn. repeat (split; [reflexivity|]). split; [exact Ee|]. destruct (s_vmag f); eauto.
Qed.

(** C108: reading never reports an error; a text that is not an epoch stops the program instead. *)
Theorem C108_error_refuted : exists parse l, ~ (exists nodes, to_node_vec parse l = Ok nodes) /\ ~ (exists e, to_node_vec parse l = Err e) /\
  to_node_vec parse l = Panic.
Proof.
  exists (fun _ => None), [NodeSerde 0 0 0 None "noon" 0]. cbn.
  split; [intros [? H]; discriminate|]. split; [intros [? H]; discriminate|reflexivity].
Qed.

(** ** Cases *)

(** C107: the hypotheses hold of the spacecraft at rest of Msh_Run, without forces. *)
Definition free_targ (sc : spacecraft) (e : Z) : res targ_error spacecraft :=
  match free sc e with Ok x => Ok x | Err _ => Err Verification | Panic => Panic | NoFuel => NoFuel end.
Example free_without_stm : forall sc e xf, free (with_stm sc) e = Ok xf -> exists xf', free_targ sc e = Ok xf' /\ sc_orbit xf' = sc_orbit xf.
Proof.
  intros sc e xf H. unfold free_targ, free in *. cbn [sc_orbit with_stm with_stm_value] in H.
  destruct (epoch (sc_orbit sc) =? e)%Z; injection H as <-; eexists; split; reflexivity.
Qed.

Definition cartesian_value (e : element) (o : orbit) : option R := option_map fst (cartesian_dual e o).
Example trajectories_case (pinv : list (list R) -> list R -> option (list R)) cost guided bplane of_secs :
  (forall cols v d, pinv cols v = Some d -> length d = length cols) ->
  exists r arcs, ms_solve aim pinv Three cost at_rest = Ok r /\
    build_trajectories free_targ guided cartesian_value bplane of_secs Three r = Ok arcs /\ length arcs = 3%nat /\
    joined Three (sc_orbit (ms_x0 at_rest)) path (map correction (ms_solutions r)) arcs.
Proof.
  intros Hp. destruct (shooting_case pinv cost) as (r & H & Hn & L).
  destruct (C107_trajectories free quarter cartesian_dual no_dual_bplane solve_diagonal pinv free_targ guided cartesian_value bplane of_secs
    free_without_stm (fun e o => eq_refl) (fun o => conj eq_refl (conj eq_refl eq_refl)) (proj1 free_case) (proj2 free_case) Three cost at_rest r Hp) as (arcs & A & B);
    [discriminate|exact H|].
  exists r, arcs. split; [exact H|]. split; [exact A|]. split; [|rewrite <- Hn; exact B].
  pose proof (C107_errors free_targ guided cartesian_value bplane of_secs Three r) as K. rewrite A in K. destruct K as (-> & _). now rewrite Hn.
Qed.

(** C107: an error: the node has been moved after the solution. *)
Example error_case : exists r, build_trajectories (fun sc _ => Ok sc) (fun _ sc _ => Ok sc) cartesian_value (fun _ => None) (fun _ => 0%Z) Three r =
  Err (RebuildSegment 0 Verification).
Proof.
  set (sc := at_x 0 0 0). set (sol := Solution sc sc [0; 0; 0] velocity_variables [] 0). exists (MsSolution [on_x 0 1] [sol]).
  unfold build_trajectories. cbn [ms_solutions ms_nodes trajectories_from index nth_error bind]. unfold apply_with_traj, apply.
  rewrite impulsive by reflexivity. cbn [bind]. change (b_plane_target _) with false. cbn [b_plane_of bind].
  cbn [objectives delta_v node_objectives app verified]. unfold achieved_value, within_tolerance, cartesian_value.
  cbn [obj_parameter cartesian_dual option_map fst or_fail bind desired_value obj_tolerance].
  destruct (Rlt_dec (1 / 1000) (Rabs (n_x (on_x 0 1) - vx (radius_km (sc_orbit (corrected_state sol)))))) as [|K].
  - reflexivity.
  - exfalso. apply K. cbn. replace (1 - 0) with 1 by ring. rewrite Rabs_R1. lra.
Qed.

(** C108: the hypothesis on the text of epochs, and nodes with and without speed. *)
Example text_case : exists parse show, (forall e, parse (show e) = Some e) /\
  to_node_vec parse [NodeSerde 1 2 3 None (show 5%Z) 0; NodeSerde 1 2 3 (Some 4) (show (-7)%Z) 0] = Ok [Node 1 2 3 0 5 0; Node 1 2 3 4 (-7) 0].
Proof.
  exists (fun s => match s with
         | String a r => let n := Z.of_nat (String.length r) in if Ascii.eqb a "-"%char then Some (- n)%Z else Some n
         | EmptyString => None end).
  exists (fun e => String (if (e <? 0)%Z then "-"%char else "+"%char) (String.concat "" (List.repeat "1"%string (Z.abs_nat e)))).
  assert (L : forall n, String.length (String.concat "" (List.repeat "1"%string n)) = n).
  { induction n as [|[|n] IH]; [reflexivity|reflexivity|]. cbn in IH |- *. now f_equal. }
  assert (G : forall e, (let n := Z.of_nat (String.length (String.concat "" (List.repeat "1"%string (Z.abs_nat e)))) in
    if Ascii.eqb (if (e <? 0)%Z then "-"%char else "+"%char) "-"%char then Some (- n)%Z else Some n) = Some e).
  { intros e. rewrite L, Nat2Z.inj_abs_nat. destruct (Z.ltb_spec e 0); cbn; f_equal; lia. }
  split; [exact G|]. cbn [to_node_vec]. unfold Mst_Model.to_node. cbn [s_epoch]. rewrite !G. reflexivity.
Qed.

Print Assumptions C107_trajectories.
Print Assumptions C107_errors.
Print Assumptions C108_round_trip.
Print Assumptions C108_read.
Print Assumptions C108_error_refuted.
