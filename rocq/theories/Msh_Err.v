(** Which segment a failed multiple shooting names (C85); the hypothesis is met by [segment_case] below. *)
From Coq Require Import Reals Lra Lia.
From Verif Require Import Base Vec3 Angles Poly_Model Sc_Model Guid_Model Targ_Model Targ_Props Hyp_Model Hyp_Props Msh_Model Msh_Props Msh_Cases.
Local Open Scope R_scope.

(** ** Specification *)
Section Failure.
Context (achieve : targeter -> spacecraft -> Z -> Z -> res dual_error solution).

(** The state after the first [i] corrections that lead through the nodes from [x0]. *)
Definition state_after (to : node -> targeter) (x0 : spacecraft) (nodes : list node) (i : nat) (st : spacecraft) : Prop :=
  exists sols, chain achieve to x0 (firstn i nodes) sols /\ nth_error (x0 :: map achieved_state sols) i = Some st.

(** The correction towards node [i] fails. *)
Definition fails_towards (to : node -> targeter) (x0 : spacecraft) (nodes : list node) (i : nat) (e : dual_error) : Prop :=
  exists st n, state_after to x0 nodes i st /\ nth_error nodes i = Some n /\ achieve (to n) st (epoch (sc_orbit st)) (n_epoch n) = Err e.

(** Node [i] is moved, and the correction towards it fails or the one from there to the node after it. *)
Definition fails_moved (s : size) (vars : list variable) (x0 : spacecraft) (nodes : list node) (i : nat) (e : dual_error) : Prop :=
  exists st ni nj axis, state_after (outer_targeter s vars) x0 nodes i st /\ nth_error nodes i = Some ni /\ nth_error nodes (i + 1) = Some nj /\
    let moved := achieve (delta_v (perturbed (node_objectives s ni) axis)) st (epoch (sc_orbit st)) (n_epoch ni) in
    (moved = Err e \/ exists sol, moved = Ok sol /\
       achieve (inner_targeter s nj) (achieved_state sol) (epoch (sc_orbit (achieved_state sol))) (n_epoch nj) = Err e).
End Failure.

(** ** Proofs *)
Section Proofs.
Context (achieve : targeter -> spacecraft -> Z -> Z -> res dual_error solution)
        (pinv : list (list R) -> list R -> option (list R)).

Lemma bind_err {E A B} (x : res E A) (f : A -> res E B) e : bind x f = Err e -> x = Err e \/ exists a, x = Ok a /\ f a = Err e.
Proof. destruct x; cbn [bind]; intros H; [right; eauto|left; congruence|discriminate|discriminate]. Qed.
Lemma segment_err {A} i (x : res dual_error A) j e : at_segment i x = Err (Segment j e) -> j = i /\ x = Err e.
Proof. destruct x; cbn; intros H; try discriminate. split; congruence. Qed.
Lemma index_not_err {E A} (l : list A) i (e : E) : index l i <> Err e.
Proof. unfold index. destruct (nth_error l i); discriminate. Qed.
Ltac noidx H := apply bind_err in H as [H|(? & ? & H)]; [exfalso; exact (index_not_err _ _ _ H)|].

Lemma difference_not_err a b t e : difference a b t <> Err e.
Proof. intros H. unfold difference in H. do 6 noidx H. discriminate. Qed.
Lemma cost_not_err : forall dvs e, cost_vec dvs <> Err e.
Proof.
  induction dvs as [|d dvs IH]; intros e H; cbn [cost_vec] in H; [discriminate|]. do 3 noidx H.
  apply bind_err in H as [H|(v & _ & H)]; [exact (IH _ H)|discriminate].
Qed.
Lemma move_not_err s : forall step nodes i e, move_nodes s nodes i step <> Err e.
Proof.
  induction step as [|d step IH]; intros nodes i e H; cbn [move_nodes] in H; [discriminate|]. noidx H.
  apply bind_err in H as [H|(n & _ & H)]; [|exact (IH _ _ _ H)]. destruct (i mod ot s)%nat as [|[|[|[|c]]]]; discriminate.
Qed.

Lemma shoot_err to : forall nodes j st i e, shoot achieve to j st nodes = Err (Segment i e) ->
  (j <= i)%nat /\ fails_towards achieve to st nodes (i - j) e.
Proof.
  induction nodes as [|n nodes IH]; intros j st i e H; cbn [shoot] in H; [discriminate|].
  apply bind_err in H as [H|(sol & E & H)].
  - apply segment_err in H as [-> H]. split; [lia|]. rewrite Nat.sub_diag. exists st, n. split; [|split; [reflexivity|exact H]].
    exists []. split; [constructor|reflexivity].
  - apply segment_ok in E. apply bind_err in H as [H|(r & _ & H)]; [|discriminate].
    apply IH in H as (L & s & n' & (sols & C & N) & Hn & Ha). split; [lia|]. replace (i - j)%nat with (S (i - S j)) by lia.
    exists s, n'. split; [|split; [exact Hn|exact Ha]]. exists (sol :: sols). split; [cbn [firstn]; econstructor; eauto|].
    cbn [map nth_error]. exact N.
Qed.

Lemma columns_err {A} (f : A -> res ms_error (list R)) : forall l e, columns_of f l = Err e -> exists x, In x l /\ f x = Err e.
Proof.
  induction l as [|x l IH]; intros e H; cbn [columns_of] in H; [discriminate|].
  apply bind_err in H as [H|(c & _ & H)]; [exists x; split; [now left|exact H]|].
  apply bind_err in H as [H|(cs & _ & H)]; [|discriminate]. destruct (IH _ H) as (y & I & Y). exists y. split; [now right|exact Y].
Qed.

Lemma chain_firstn to : forall nodes st sols i s, chain achieve to st nodes sols ->
  nth_error (st :: map achieved_state sols) i = Some s -> state_after achieve to st nodes i s.
Proof.
  intros nodes st sols i s C. revert i s. induction C as [st|st n nodes sol sols Ha C IH]; intros [|i] s N; cbn [map nth_error] in N.
  - exists []. split; [constructor|exact N].
  - destruct i; discriminate.
  - exists []. split; [constructor|exact N].
  - destruct (IH i s N) as (sols' & C' & N'). exists (sol :: sols'). split; [cbn [firstn]; econstructor; eauto|exact N'].
Qed.

Lemma column_err s vars x0 nodes sols i axis j e : chain achieve (outer_targeter s vars) x0 nodes sols ->
  jacobian_column achieve s nodes (x0 :: map achieved_state sols) (map correction sols) i axis = Err (Segment j e) ->
  j = i /\ fails_moved achieve s vars x0 nodes i e.
Proof.
  intros C H. unfold jacobian_column in H.
  apply bind_err in H as [H|(ni & Ni & H)]; [exfalso; exact (index_not_err _ _ _ H)|].
  apply bind_err in H as [H|(nj & Nj & H)]; [exfalso; exact (index_not_err _ _ _ H)|].
  apply bind_err in H as [H|(st & Nst & H)]; [exfalso; exact (index_not_err _ _ _ H)|].
  apply bind_err in H as [H|(ob & Nob & H)]; [exfalso; exact (index_not_err _ _ _ H)|].
  apply index_ok in Ni, Nj, Nst. pose proof (chain_firstn _ _ _ _ _ _ C Nst) as Sa. cbv zeta in H.
  apply bind_err in H as [H|(sa & Esa & H)].
  { apply segment_err in H as [-> H]. split; [reflexivity|]. exists st, ni, nj, axis. cbv zeta. auto. }
  apply segment_ok in Esa. noidx H. apply bind_err in H as [H|(a & _ & H)]; [exfalso; exact (difference_not_err _ _ _ _ H)|].
  apply bind_err in H as [H|(sb & Esb & H)].
  { apply segment_err in H as [-> H]. split; [reflexivity|]. exists st, ni, nj, axis. cbv zeta. repeat (split; [assumption|]). right. exists sa. auto. }
  noidx H. apply bind_err in H as [H|(b & _ & H)]; [exfalso; exact (difference_not_err _ _ _ _ H)|].
  destruct (length nodes <? 3)%nat; [discriminate|]. apply bind_err in H as [H|(c & _ & H)]; [|discriminate].
  destruct (i <? length nodes - 3)%nat; [|discriminate]. noidx H. discriminate.
Qed.

Lemma iterate_err s cost x0 thr vars : forall k nodes prev i e, ms_iterate achieve pinv s cost x0 thr vars k nodes prev = Err (Segment i e) ->
  (exists nodes', length nodes' = length nodes /\ (i < length nodes)%nat /\
     (fails_towards achieve (outer_targeter s vars) x0 nodes' i e \/ fails_towards achieve (inner_targeter s) x0 nodes' i e \/ fails_moved achieve s vars x0 nodes' i e)) \/
  i = 0%nat /\ (e = DualTooMany \/ e = DualSingular).
Proof.
  induction k as [|k IH]; intros nodes prev i e H; cbn [ms_iterate] in H; [right; split; [congruence|left; congruence]|].
  assert (Lt : forall to ns, fails_towards achieve to x0 ns i e -> (i < length ns)%nat).
  { intros to ns (? & n & _ & N & _). apply nth_error_Some. congruence. }
  destruct (Nat.eqb_spec (length nodes) 0) as [|Hn]; [discriminate|].
  apply bind_err in H as [H|(sols & Es & H)].
  { apply shoot_err in H as [_ H]. rewrite Nat.sub_0_r in H. left. exists nodes. split; [reflexivity|]. split; [eauto|auto]. }
  apply shoot_chain in Es. apply bind_err in H as [H|(jac & Ej & H)].
  { apply columns_err in H as ([a b] & I & H). cbn [fst snd] in H. apply (column_err _ vars) in H as [-> H]; [|exact Es]. left. exists nodes.
    split; [reflexivity|]. split; [|auto]. apply in_prod_iff in I as [I _]. apply in_seq in I. lia. }
  apply bind_err in H as [H|(v & Ev & H)]; [exfalso; exact (cost_not_err _ _ H)|].
  destruct (small_improvement prev (cost_of cost v) thr).
  - apply bind_err in H as [H|(f & _ & H)]; [|discriminate]. apply shoot_err in H as [_ H]. rewrite Nat.sub_0_r in H.
    left. exists nodes. split; [reflexivity|]. split; [eauto|auto].
  - destruct (pinv jac v) as [step|]; [|right; split; [congruence|right; congruence]].
    apply bind_err in H as [H|(nodes' & Em & H)]; [exfalso; exact (move_not_err _ _ _ _ _ H)|].
    apply move_nodes_keeps in Em as (L & _). destruct (IH _ _ _ _ H) as [(n2 & L2 & I2 & F)|F]; [|right; exact F].
    left. exists n2. split; [congruence|]. split; [lia|exact F].
Qed.

(** The segment of an error is the number of the node towards which the correction failed, the corrections to the
    nodes before it having been found, or of the node that was moved; or else the iterations ran out or the
    Jacobian has no pseudo-inverse, which is reported on segment 0. *)
Theorem C85_segment s cost m i e : ms_solve achieve pinv s cost m = Err (Segment i e) ->
  (exists nodes, length nodes = length (targets m) /\ (i < length (targets m))%nat /\
     (fails_towards achieve (outer_targeter s (ms_variables m)) (ms_x0 m) nodes i e \/
      fails_towards achieve (inner_targeter s) (ms_x0 m) nodes i e \/
      fails_moved achieve s (ms_variables m) (ms_x0 m) nodes i e)) \/
  i = 0%nat /\ (e = DualTooMany \/ e = DualSingular).
Proof. apply iterate_err. Qed.
End Proofs.

(** The third node is not reached. *)
Definition not_third (t : targeter) (st : spacecraft) (e a : Z) : res dual_error solution :=
  if (a =? 3)%Z then Err DualTooMany else ideal t st e a.
Example segment_case pinv : ms_solve not_third pinv Three MinimumEnergy (Shooting line4 (at_x 0 0 0) (sc_orbit (at_x 0 0 0)) 50 (1 / 100) velocity_variables)
  = Err (Segment 2 DualTooMany).
Proof. reflexivity. Qed.

Print Assumptions C85_segment.
