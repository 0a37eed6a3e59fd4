(** When a multiple shooting ends (C85); the hypothesis is met by [shooting_case] of Msh_Run. *)
From Coq Require Import Reals Lra Lia.
From Verif Require Import Base Vec3 Angles Poly_Model Sc_Model Guid_Model Targ_Model Targ_Props Hyp_Model Hyp_Props Msh_Model Msh_Props.
Local Open Scope R_scope.

Section Conv.
Context (achieve : targeter -> spacecraft -> Z -> Z -> res dual_error solution)
        (pinv : list (list R) -> list R -> option (list R)).

(** [c] is the cost of the corrections that lead through the nodes (see [C85_energy] for what it is). *)
Definition pass_cost (to : node -> targeter) (cost : cost_function) (x0 : spacecraft) (nodes : list node) (c : R) : Prop :=
  exists sols v, chain achieve to x0 nodes sols /\ cost_vec (map correction sols) = Ok v /\ c = cost_of cost v.

Lemma cost_nonneg c v : 0 <= cost_of c v.
Proof.
  unfold cost_of. destruct c; [|apply sqrt_pos].
  induction v as [|x v IH]; cbn [fold_right]; [lra|]. pose proof (Rle_0_sqr x). unfold Rsqr in *. lra.
Qed.

Lemma iterate_converged s cost x0 thr vars : forall left nodes prev r, ms_iterate achieve pinv s cost x0 thr vars left nodes prev = Ok r ->
  exists new last, pass_cost (outer_targeter s vars) cost x0 (ms_nodes r) new /\ 0 < new /\ Rabs (last - new) < thr * new /\
    (last = prev /\ ms_nodes r = nodes \/ exists nodes', pass_cost (outer_targeter s vars) cost x0 nodes' last).
Proof.
  induction left as [|left IH]; intros nodes prev r H; cbn [ms_iterate] in H; [discriminate|].
  destruct (Nat.eqb_spec (length nodes) 0) as [|Hn]; [discriminate|].
  unb H sols Es. unb H jac Ej. unb H v Ev. apply shoot_chain in Es.
  assert (Hp : pass_cost (outer_targeter s vars) cost x0 nodes (cost_of cost v)) by (exists sols, v; auto).
  destruct (small_improvement prev (cost_of cost v) thr) eqn:Hsm.
  - unb H final Ef. injection H as <-. cbn [ms_nodes]. exists (cost_of cost v), prev. split; [exact Hp|].
    unfold small_improvement in Hsm. destruct (Req_EM_T (cost_of cost v) 0) as [|Hz]; [discriminate|].
    destruct (Rlt_dec _ _) as [Hlt|]; [|discriminate]. pose proof (cost_nonneg cost v). assert (0 < cost_of cost v) by lra.
    split; [assumption|]. split; [|left; auto].
    unfold Rdiv in Hlt. rewrite Rabs_mult, (Rabs_pos_eq (cost_of cost v)), (Rabs_pos_eq (/ _)) in Hlt by (try (left; apply Rinv_0_lt_compat); lra).
    apply (Rmult_lt_compat_r (cost_of cost v)) in Hlt; [|assumption]. rewrite Rmult_assoc, Rinv_l, Rmult_1_r in Hlt by lra. exact Hlt.
  - destruct (pinv jac v) as [step|]; [|discriminate]. unb H nodes' Em.
    destruct (IH _ _ _ H) as (new & last & A & B & C & [[D _]|D]); exists new, last; (split; [exact A|]); (split; [exact B|]); (split; [exact C|]); right.
    + exists nodes. rewrite D. exact Hp.
    + exact D.
Qed.

(** A solution is only returned when the cost of its nodes is not zero and differs from the cost of the pass before
    by less than the threshold, relatively; the first pass is compared with 10^12. *)
Theorem C85_converged s cost m r : ms_solve achieve pinv s cost m = Ok r ->
  exists new last, pass_cost (outer_targeter s (ms_variables m)) cost (ms_x0 m) (ms_nodes r) new /\ 0 < new /\
    Rabs (last - new) < improvement_threshold m * new /\
    (last = 10 ^ 12 /\ ms_nodes r = targets m \/ exists nodes', pass_cost (outer_targeter s (ms_variables m)) cost (ms_x0 m) nodes' last).
Proof. apply iterate_converged. Qed.
End Conv.

Print Assumptions C85_converged.
