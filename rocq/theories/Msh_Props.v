(** Properties of the multiple shooting (Msh_Model): C85. *)
From Coq Require Import Reals Lra Lia Psatz.
From Verif Require Import Base Vec3 Angles Poly_Model Sc_Model Guid_Model Targ_Model Targ_Props Hyp_Model Hyp_Props Msh_Model.
Local Open Scope R_scope.

(** ** Specification *)

(** Solutions of a targeter from each node to the next one, the first from a given state: each starts
    where and when the previous one arrived. *)
Inductive chain (achieve : targeter -> spacecraft -> Z -> Z -> res dual_error solution) (to : node -> targeter)
  : spacecraft -> list node -> list solution -> Prop :=
| chain_nil st : chain achieve to st [] []
| chain_cons st n nodes sol sols :
    achieve (to n) st (epoch (sc_orbit st)) (n_epoch n) = Ok sol ->
    chain achieve to (achieved_state sol) nodes sols ->
    chain achieve to st (n :: nodes) (sol :: sols).

(** An axis of a node, and the node displaced along it. *)
Definition displaced (n : node) (axis : nat) (x : R) : node :=
  match axis with
  | 0 => Node (n_x n + x) (n_y n) (n_z n) (n_vmag n) (n_epoch n) (n_frame n)
  | 1 => Node (n_x n) (n_y n + x) (n_z n) (n_vmag n) (n_epoch n) (n_frame n)
  | 2 => Node (n_x n) (n_y n) (n_z n + x) (n_vmag n) (n_epoch n) (n_frame n)
  | _ => Node (n_x n) (n_y n) (n_z n) (n_vmag n + x) (n_epoch n) (n_frame n)
  end%nat.

(** ** Nodes *)

Lemma replace_length {A} : forall (l : list A) i x, length (replace l i x) = length l.
Proof. induction l as [|y l IH]; intros [|i] x; cbn; auto. Qed.
Lemma nth_replace {A} : forall (l : list A) i x k, nth_error (replace l i x) k =
  if (k =? i)%nat then (match nth_error l k with Some _ => Some x | None => None end) else nth_error l k.
Proof.
  induction l as [|y l IH]; intros [|i] x [|k]; cbn; auto; try (destruct (k =? i)%nat; reflexivity).
Qed.
Lemma index_ok {E A} (l : list A) i (a : A) : index (E := E) l i = Ok a -> nth_error l i = Some a.
Proof. unfold index. destruct (nth_error l i); congruence. Qed.

(** What a step does not change. *)
Lemma update_keeps {E} n c v n' : update_component (E := E) n c v = Ok n' ->
  n_epoch n' = n_epoch n /\ n_frame n' = n_frame n /\ (c <> 3%nat -> n_vmag n' = n_vmag n).
Proof.
  destruct c as [|[|[|[|c]]]]; cbn; intros H; try discriminate; injection H as <-; cbn; repeat split; auto. congruence.
Qed.

Lemma map_replace {A B} (f : A -> B) : forall l i x y, nth_error l i = Some y -> f x = f y -> map f (replace l i x) = map f l.
Proof.
  induction l as [|z l IH]; intros [|i] x y H E; cbn in *; try discriminate.
  - injection H as ->. now rewrite E.
  - now rewrite (IH _ _ _ H E).
Qed.

Lemma move_nodes_keeps s : forall step nodes i nodes', move_nodes s nodes i step = Ok nodes' ->
  length nodes' = length nodes /\ map n_epoch nodes' = map n_epoch nodes /\ map n_frame nodes' = map n_frame nodes /\
  (s = Three -> map n_vmag nodes' = map n_vmag nodes /\
     forall k, (i + length step <= 3 * k)%nat -> nth_error nodes' k = nth_error nodes k).
Proof.
  induction step as [|d step IH]; intros nodes i nodes' H; cbn [move_nodes] in H.
  - injection H as <-. repeat split; auto.
  - unb H n En. unb H n' En'. apply index_ok in En. pose proof (update_keeps _ _ _ _ En') as (K1 & K2 & K3).
    apply IH in H as (L & A & B & C). rewrite replace_length in L.
    rewrite (map_replace n_epoch _ _ _ _ En K1) in A. rewrite (map_replace n_frame _ _ _ _ En K2) in B.
    repeat (split; [assumption|]). intros ->. destruct (C eq_refl) as [C1 C2]. split.
    + rewrite (map_replace n_vmag _ _ _ _ En) in C1; [exact C1|]. apply K3. cbn [ot].
      pose proof (Nat.mod_upper_bound i 3). lia.
    + intros k Hk. cbn [length] in Hk. rewrite C2 by lia. rewrite nth_replace.
      assert (i / 3 < k)%nat by (apply Nat.div_lt_upper_bound; lia). destruct (Nat.eqb_spec k (i / 3)); [lia|reflexivity].
Qed.

Section Props.
Context (achieve : targeter -> spacecraft -> Z -> Z -> res dual_error solution)
        (pinv : list (list R) -> list R -> option (list R)).

Lemma segment_ok {A} i (x : res dual_error A) a : at_segment i x = Ok a -> x = Ok a.
Proof. destruct x; cbn; congruence. Qed.

Lemma shoot_chain to : forall nodes i st sols, shoot achieve to i st nodes = Ok sols -> chain achieve to st nodes sols.
Proof.
  induction nodes as [|n nodes IH]; intros i st sols H; cbn [shoot] in H.
  - injection H as <-. constructor.
  - unb H sol Esol. unb H rest Erest. injection H as <-. apply segment_ok in Esol. econstructor; eauto.
Qed.

Lemma columns_length {A} (f : A -> res ms_error (list R)) : forall l cs, columns_of f l = Ok cs -> length cs = length l.
Proof.
  induction l as [|x l IH]; intros cs H; cbn [columns_of] in H; [now injection H as <-|].
  unb H c Ec. unb H cs' Ecs. injection H as <-. cbn. now rewrite (IH _ Ecs).
Qed.

Lemma ms_iterate_spec s cost x0 thr vars : (forall cols v d, pinv cols v = Some d -> length d = length cols) ->
  forall left nodes prev r, ms_iterate achieve pinv s cost x0 thr vars left nodes prev = Ok r ->
  nodes <> [] /\
  chain achieve (fun n => delta_v (node_objectives s n)) x0 (ms_nodes r) (ms_solutions r) /\
  length (ms_nodes r) = length nodes /\ map n_epoch (ms_nodes r) = map n_epoch nodes /\ map n_frame (ms_nodes r) = map n_frame nodes /\
  (s = Three -> map n_vmag (ms_nodes r) = map n_vmag nodes /\
     nth_error (ms_nodes r) (length nodes - 1) = nth_error nodes (length nodes - 1)).
Proof.
  intros Hp. induction left as [|left IH]; intros nodes prev r H; cbn [ms_iterate] in H; [discriminate|].
  destruct (Nat.eqb_spec (length nodes) 0) as [|Hn]; [discriminate|].
  split; [intros ->; now apply Hn|].
  unb H sols Es. unb H jac Ej. unb H v Ev. destruct (small_improvement prev _ thr).
  - unb H final Ef. injection H as <-. apply shoot_chain in Ef. cbn [ms_nodes ms_solutions]. repeat split; auto.
  - destruct (pinv jac v) as [step|] eqn:Ep; [|discriminate]. unb H nodes' Em.
    apply IH in H as (_ & A & B & C & D & F). apply move_nodes_keeps in Em as (L & M1 & M2 & M3).
    apply Hp in Ep. pose proof (columns_length _ _ _ Ej) as Lc. rewrite prod_length, !seq_length in Lc.
    repeat (split; [congruence|]). intros ->. destruct (F eq_refl) as [F1 F2]. destruct (M3 eq_refl) as [M4 M5].
    split; [congruence|]. rewrite L in F2. rewrite F2. apply M5. cbn [ot] in Lc. lia.
Qed.

(** C85: a solution is a chain of maneuvers to the nodes, each starting where and when the previous
    one arrived, the first at the given start; the nodes are as many as given, at the same epochs and
    in the same frames; with three coordinates per node, the last node is the given one. *)
Theorem C85_solution s cost m r :
  (forall cols v d, pinv cols v = Some d -> length d = length cols) ->
  ms_solve achieve pinv s cost m = Ok r ->
  targets m <> [] /\
  chain achieve (fun n => delta_v (node_objectives s n)) (ms_x0 m) (ms_nodes r) (ms_solutions r) /\
  length (ms_nodes r) = length (targets m) /\ map n_epoch (ms_nodes r) = map n_epoch (targets m) /\
  map n_frame (ms_nodes r) = map n_frame (targets m) /\
  (s = Three -> map n_vmag (ms_nodes r) = map n_vmag (targets m) /\
     nth_error (ms_nodes r) (length (targets m) - 1) = nth_error (targets m) (length (targets m) - 1)).
Proof. intros Hp H. unfold ms_solve in H. apply ms_iterate_spec in H; assumption. Qed.

(** ** The Jacobian *)

Lemma perturbed_displaced s n axis : (axis < ot s)%nat ->
  perturbed (node_objectives s n) axis = node_objectives s (displaced n axis (1 / 1000)).
Proof. destruct s; cbn [ot]; intros H; destruct axis as [|[|[|[|axis]]]]; try lia; reflexivity. Qed.

Lemma chain_functional to : forall st nodes sols sols', chain achieve to st nodes sols -> chain achieve to st nodes sols' -> sols = sols'.
Proof.
  intros st nodes sols sols' H. revert sols'. induction H as [|st n nodes sol sols H1 H2 IH]; intros sols' H'; inversion H'; subst; [reflexivity|].
  assert (sol0 = sol) as -> by congruence. f_equal. now apply IH.
Qed.

(** The state from which each node of a chain is aimed at. *)
Lemma chain_segment to : forall nodes st sols k n sol, chain achieve to st nodes sols ->
  nth_error nodes k = Some n -> nth_error sols k = Some sol ->
  exists stk, nth_error (st :: map achieved_state sols) k = Some stk /\
    achieve (to n) stk (epoch (sc_orbit stk)) (n_epoch n) = Ok sol.
Proof.
  induction nodes as [|m nodes IH]; intros st sols k n sol H Hn Hs; destruct k as [|k]; cbn in Hn; try discriminate;
    inversion H; subst; cbn in Hs.
  - injection Hn as ->. injection Hs as ->. exists st. cbn. auto.
  - destruct (IH _ _ _ _ _ ltac:(eassumption) Hn Hs) as (stk & A & B). exists stk. auto.
Qed.
Lemma chain_length to : forall st nodes sols, chain achieve to st nodes sols -> length sols = length nodes.
Proof. induction 1; cbn; auto. Qed.

(** Two chains whose first nodes are the same. *)
Lemma chain_prefix to : forall nodes nodes' st sols sols' i, chain achieve to st nodes sols -> chain achieve to st nodes' sols' ->
  (forall k, (k < i)%nat -> nth_error nodes k = nth_error nodes' k) ->
  forall k, (k < i)%nat -> nth_error sols k = nth_error sols' k.
Proof.
  induction nodes as [|n nodes IH]; intros nodes' st sols sols' i H H' E k Hk.
  - inversion H; subst. pose proof (E 0%nat ltac:(lia)) as E0. destruct nodes'; [|discriminate]. inversion H'; subst. reflexivity.
  - pose proof (E 0%nat ltac:(lia)) as E0. destruct nodes' as [|n' nodes']; [discriminate|]. injection E0 as <-.
    inversion H; subst. inversion H'; subst. assert (sol0 = sol) as -> by congruence.
    destruct k as [|k]; [reflexivity|]. cbn. eapply (IH nodes' _ _ _ (i - 1)%nat); eauto; [|lia].
    intros j Hj. exact (E (S j) ltac:(lia)).
Qed.

Lemma difference_ok a b tol d : difference a b tol = Ok d -> length d = 3%nat /\
  forall c, (c < 3)%nat -> nth c d 0 = (nth c a 0 - nth c b 0) / tol.
Proof.
  unfold difference, index. intros H. destruct a as [|a0 [|a1 [|a2 a]]], b as [|b0 [|b1 [|b2 b]]]; cbn in H; try discriminate.
  injection H as <-. split; [reflexivity|]. intros [|[|[|c]]] Hc; try lia; reflexivity.
Qed.

Lemma nth_blocks (f : nat -> list R) : (forall k, length (f k) = 3%nat) -> forall n start k c, (k < n)%nat -> (c < 3)%nat ->
  nth (3 * k + c) (flat_map f (seq start n)) 0 = nth c (f (start + k)%nat) 0.
Proof.
  intros Hf. induction n as [|n IH]; intros start k c Hk Hc; [lia|]. cbn [seq flat_map].
  destruct k as [|k].
  - rewrite app_nth1 by (rewrite Hf; lia). now rewrite Nat.mul_0_r, Nat.add_0_r.
  - rewrite app_nth2 by (rewrite Hf; lia). rewrite Hf. replace (3 * S k + c - 3)%nat with (3 * k + c)%nat by lia.
    rewrite IH by lia. now replace (S start + k)%nat with (start + S k)%nat by lia.
Qed.

(** C85 (partial): the entries of the Jacobian for the corrections up to the one that leaves the
    node after the displaced one are the changes of these corrections, per unit of displacement.
    Missing: the correction after that, whose entries have the wrong sign, or are null for the last
    one ([C85_jacobian_refuted], [C85_last_block_refuted]). *)
Theorem C85_jacobian_partial s nodes x0 sols i axis col n :
  chain achieve (fun n => delta_v (node_objectives s n)) x0 nodes sols ->
  (axis < ot s)%nat -> nth_error nodes i = Some n ->
  jacobian_column achieve s nodes (x0 :: map achieved_state sols) (map correction sols) i axis = Ok col ->
  forall sols', chain achieve (fun n => delta_v (node_objectives s n)) x0 (replace nodes i (displaced n axis (1 / 1000))) sols' ->
  forall k c sol sol', (k <= i + 1)%nat -> (c < 3)%nat -> nth_error sols k = Some sol -> nth_error sols' k = Some sol' ->
    nth (3 * k + c) col 0 = (nth c (correction sol') 0 - nth c (correction sol) 0) / (1 / 1000).
Proof.
  intros Hch Hax Hn H sols' Hch' k c sol sol' Hk Hc Hs Hs'.
  unfold jacobian_column in H. unb H ni Eni. unb H nj Enj. unb H st Est. unb H ob Eob. unb H sa Ea. unb H dvi Edvi. unb H a Eda.
  unb H sb Eb. unb H dvj Edvj. unb H b Edb. destruct (length nodes <? 3)%nat eqn:E3; [discriminate|]. unb H c3 Ec3. injection H as <-.
  apply index_ok in Eni, Enj, Est, Eob, Edvi, Edvj. apply segment_ok in Ea, Eb. rewrite Hn in Eni. injection Eni as <-.
  assert (Htol : obj_tolerance ob = 1 / 1000).
  { clear -Eob Hax. destruct s; cbn [ot] in Hax; destruct axis as [|[|[|[|axis]]]]; try lia; cbn in Eob; injection Eob as <-; reflexivity. }
  rewrite Htol in *. apply difference_ok in Eda as [La Da], Edb as [Lb Db].
  assert (Lc : forall k, length (if (k =? i)%nat then a else if (k =? i + 1)%nat then b else
    match c3 with Some c => if (k =? i + 2)%nat then c else [0; 0; 0] | None => [0; 0; 0] end) = 3%nat).
  { intros j. destruct (j =? i)%nat; [assumption|]. destruct (j =? i + 1)%nat; [assumption|].
    destruct c3 as [c3|]; [|reflexivity]. destruct (j =? i + 2)%nat; [|reflexivity].
    destruct (i <? length nodes - 3)%nat; [|discriminate]. unb Ec3 st2 Est2. injection Ec3 as <-. reflexivity. }
  assert (Hin : (i + 1 < length nodes)%nat) by (apply nth_error_Some; congruence).
  unfold column. rewrite (nth_blocks _ Lc) by lia. cbn [plus].
  (* the states before the displaced node *)
  assert (Hpre : forall j, (j < i)%nat -> nth_error sols j = nth_error sols' j).
  { apply (chain_prefix _ _ _ _ _ _ _ Hch Hch'). intros j Hj. rewrite nth_replace. destruct (Nat.eqb_spec j i); [lia|reflexivity]. }
  assert (Hst : nth_error (x0 :: map achieved_state sols') i = Some st).
  { rewrite <- Est. destruct i as [|i']; [reflexivity|]. cbn. rewrite !nth_error_map. now rewrite Hpre by lia. }
  assert (Hlen : length sols' = length nodes) by (rewrite (chain_length _ _ _ _ Hch'); apply replace_length).
  (* the displaced node *)
  assert (Hn' : nth_error (replace nodes i (displaced n axis (1 / 1000))) i = Some (displaced n axis (1 / 1000))).
  { rewrite nth_replace, Nat.eqb_refl, Hn. reflexivity. }
  assert (Hsi : nth_error sols' i = Some sa).
  { destruct (nth_error sols' i) as [sol2|] eqn:E2.
    - destruct (chain_segment _ _ _ _ _ _ _ Hch' Hn' E2) as (stk & A & B). rewrite Hst in A. injection A as <-.
      rewrite perturbed_displaced in Ea by assumption.
      assert (Ee : n_epoch (displaced n axis (1 / 1000)) = n_epoch n) by (clear; destruct axis as [|[|[|]]]; reflexivity).
      rewrite Ee in B. congruence.
    - apply nth_error_None in E2. lia. }
  assert (Hsj : nth_error sols' (i + 1) = Some sb).
  { assert (Hnj : nth_error (replace nodes i (displaced n axis (1 / 1000))) (i + 1) = Some nj).
    { rewrite nth_replace. destruct (Nat.eqb_spec (i + 1) i); [lia|assumption]. }
    destruct (nth_error sols' (i + 1)) as [sol2|] eqn:E2.
    - destruct (chain_segment _ _ _ _ _ _ _ Hch' Hnj E2) as (stk & A & B).
      rewrite Nat.add_1_r in A. cbn in A. rewrite nth_error_map, Hsi in A. cbn in A. injection A as <-.
      unfold inner_targeter in Eb. congruence.
    - apply nth_error_None in E2. lia. }
  destruct (Nat.eqb_spec k i) as [->|Hki].
  - rewrite Da by assumption. rewrite nth_error_map, Hs in Edvi. cbn in Edvi. injection Edvi as <-. congruence.
  - destruct (Nat.eqb_spec k (i + 1)) as [->|Hkj].
    + rewrite Db by assumption. rewrite nth_error_map, Hs in Edvj. cbn in Edvj. injection Edvj as <-. congruence.
    + rewrite (Hpre k) in Hs by lia. rewrite Hs in Hs'. injection Hs' as ->.
      replace (_ - _) with 0 by ring.
      assert (E0 : nth c match c3 with Some c => if (k =? i + 2)%nat then c else [0; 0; 0] | None => [0; 0; 0] end 0 = 0).
      { destruct (Nat.eqb_spec k (i + 2)); [lia|]. destruct c3; clear -Hc; destruct c as [|[|[|c]]]; try lia; reflexivity. }
      rewrite E0. field.
Qed.
End Props.

(** ** The maneuvers *)

(** C85: with the targeter with partials, each maneuver of a solution changes the velocity only, by
    its correction, and leads to its node: the coordinates of the achieved position are within a
    meter of those of the node, at the epoch of the node. *)
Theorem C85_reaches coast transform_to partial_for bplane solve pinv s cost m r :
  (forall cols v d, pinv cols v = Some d -> length d = length cols) ->
  (forall o, exists g1 g2 g3, partial_for X o = Some (vx (radius_km o), g1) /\ partial_for Y o = Some (vy (radius_km o), g2) /\
     partial_for Z_ o = Some (vz (radius_km o), g3)) ->
  (forall sc e xf, coast sc e = Ok xf -> epoch (sc_orbit xf) = e) -> (forall sc, coast sc (epoch (sc_orbit sc)) = Ok sc) ->
  ms_solve (try_achieve_dual coast transform_to partial_for bplane solve) pinv s cost m = Ok r ->
  forall k n sol, nth_error (ms_nodes r) k = Some n -> nth_error (ms_solutions r) k = Some sol ->
  exists st, nth_error (ms_x0 m :: map achieved_state (ms_solutions r)) k = Some st /\
    (exists dx dy dz, correction sol = [dx; dy; dz] /\ corrected_state sol = move st (vzero, V3 dx dy dz)) /\
    coast (with_stm (corrected_state sol)) (n_epoch n) = Ok (achieved_state sol) /\
    (let o := sc_orbit (achieved_state sol) in
     epoch o = n_epoch n /\
     Rabs (n_x n - vx (radius_km o)) <= 1 / 1000 /\ Rabs (n_y n - vy (radius_km o)) <= 1 / 1000 /\ Rabs (n_z n - vz (radius_km o)) <= 1 / 1000).
Proof.
  intros Hp Hel He H0 H k n sol Hn Hs.
  apply C85_solution in H as (_ & Hch & _); [|assumption].
  destruct (chain_segment _ _ _ _ _ _ _ _ Hch Hn Hs) as (st & A & B). exists st. split; [exact A|].
  apply C84_solution in B as (_ & _ & _ & _ & L & (st' & C1 & C2) & D & o & So & HF).
  rewrite H0 in C1. injection C1 as <-. split; [|split].
  - destruct (correction sol) as [|dx [|dy [|dz [|]]]] eqn:Ec; cbn in L; try lia. exists dx, dy, dz. split; [reflexivity|].
    rewrite C2. f_equal. apply vec6_eq; apply v3_eq; cbn; ring.
  - exact D.
  - cbn. split; [eapply He; eauto|]. cbn in So. subst o.
    destruct (Hel (sc_orbit (achieved_state sol))) as (g1 & g2 & g3 & P1 & P2 & P3).
    cbn [objectives delta_v] in HF. unfold node_objectives in HF. cbn [app] in HF.
    inversion HF as [|? e1 ? l1 (a1 & h1 & R1 & M1) HF1]; subst. inversion HF1 as [|? e2 ? l2 (a2 & h2 & R2 & M2) HF2]; subst.
    inversion HF2 as [|? e3 ? l3 (a3 & h3 & R3 & M3) HF3]; subst.
    cbn [obj_parameter within_tolerance] in R1, R2, R3.
    inversion R1 as [? ? Q1| | |]; inversion R2 as [? ? Q2| | |]; inversion R3 as [? ? Q3| | |]; subst.
    rewrite P1 in Q1. rewrite P2 in Q2. rewrite P3 in Q3. injection Q1 as <- <-. injection Q2 as <- <-. injection Q3 as <- <-.
    destruct M1 as [-> M1], M2 as [-> M2], M3 as [-> M3].
    cbn [multiplicative_factor desired_value additive_factor obj_tolerance within_tolerance] in M1, M2, M3.
    refine (conj _ (conj _ _)).
    + replace (1 * (n_x n - vx (radius_km (sc_orbit (achieved_state sol)))) + 0) with (n_x n - vx (radius_km (sc_orbit (achieved_state sol)))) in M1 by ring. exact M1.
    + replace (1 * (n_y n - vy (radius_km (sc_orbit (achieved_state sol)))) + 0) with (n_y n - vy (radius_km (sc_orbit (achieved_state sol)))) in M2 by ring. exact M2.
    + replace (1 * (n_z n - vz (radius_km (sc_orbit (achieved_state sol)))) + 0) with (n_z n - vz (radius_km (sc_orbit (achieved_state sol)))) in M3 by ring. exact M3.
Qed.

Print Assumptions C85_solution.
Print Assumptions C85_jacobian_partial.
Print Assumptions C85_reaches.
