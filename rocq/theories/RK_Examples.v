(** A concrete environment and equation: used to show that the hypotheses of the accuracy
    theorems can be met. *)
From Coq Require Import Reals Lra Psatz.
From Verif Require Import Base Prop_Model RK_Model RK_Spec RK_Check RK_Step RK_OrderSpec.
Local Open Scope R_scope.

(** Scalar dynamics [f] with method [i]; the state is the value itself. *)
Definition scalar (i : integrator) (f : R -> R -> R) : env R R unit unit :=
  {| epoch := fun _ => 0%Z; set_state := fun _ _ v => v; to_vector := fun s => s;
     finally := Ok; eom := fun dt v _ => Ok (f dt v); vadd := Rplus; vscale := Rmult;
     vzero := 0; has_nan := fun _ => false; estimate := fun _ _ _ => 0;
     frame_of := fun _ => tt; frame_eqb := fun _ _ => true;
     enter_frame := fun s _ => Ok s; leave_frame := fun s _ => Ok s;
     of_secs := fun _ => 0%Z; nan_error := tt; meth := method_of i;
     opts := {| tolerance := 1; min_step := 1; max_step := 2; attempts := 1;
                integration_frame := None |} |}.

Lemma scalar_space i f : vector_space (scalar i f).
Proof. constructor; cbn; intros; lra. Qed.

Lemma scalar_normed i f : normed (scalar i f) Rabs.
Proof.
  constructor; cbn; intros.
  - apply Rabs_pos.
  - apply Rabs_triang.
  - apply Rabs_mult.
Qed.

(** y' = t y, y(0) = 1: a time-dependent equation with solution exp(t^2/2). *)
Definition growing (t v : R) : R := t * v.
Definition growing_D (l : list (R * R)) : R * R :=
  match l with
  | [] => (1, 0)
  | [a] => (0, fst a)
  | [a; b] => (0, fst a * snd b)
  | _ => (0, 0)
  end.
Definition growing_y (t : R) : R := exp (t * t / 2).

Lemma pair_eq (a b c d : R) : a = c -> b = d -> (a, b) = (c, d).
Proof. congruence. Qed.

Lemma growing_ml i : multilinear (timed (scalar i growing)) (timed_norm Rabs) growing_D.
Proof.
  constructor.
  - intros l a b l'. destruct l as [|x [|y l]]; [destruct l' as [|z [|w l']]|destruct l' as [|z l']|];
      cbn; try (apply pair_eq; cbn; lra).
    destruct l; cbn; apply pair_eq; cbn; lra.
  - intros l x a l'. destruct l as [|x0 [|y l]]; [destruct l' as [|z [|w l']]|destruct l' as [|z l']|];
      cbn; try (apply pair_eq; cbn; lra).
    destruct l; cbn; apply pair_eq; cbn; lra.
  - intros n. exists 1. split; [lra|]. intros l _. unfold timed_norm.
    assert (NP : forall l, 0 <= norms (fun w : R * R => Rabs (fst w) + Rabs (snd w)) l).
    { induction l0; cbn; [lra|]. apply Rmult_le_pos; [|assumption].
      pose proof (Rabs_pos (fst a)). pose proof (Rabs_pos (snd a)). lra. }
    destruct l as [|a [|b [|c l]]]; cbn.
    + rewrite Rabs_R1, Rabs_R0. lra.
    + rewrite Rabs_R0. pose proof (Rabs_pos (fst a)). pose proof (Rabs_pos (snd a)). lra.
    + rewrite Rabs_R0, Rabs_mult. pose proof (Rabs_pos (fst a)). pose proof (Rabs_pos (snd a)).
      pose proof (Rabs_pos (fst b)). pose proof (Rabs_pos (snd b)). nra.
    + rewrite Rabs_R0. pose proof (NP (a :: b :: c :: l)). cbn in H. lra.
Qed.

Lemma growing_smooth i p : (3 <= p)%nat ->
  smooth_in_time (scalar i growing) Rabs growing 1 growing_D p.
Proof.
  intros Hp. constructor; [apply growing_ml| |].
  - exists 0, 1. split; [lra|]. intros d _.
    assert (SV : forall q, (3 <= q)%nat ->
      vsum (timed (scalar i growing)) q (fun q => growing_D (repeat d q)) =
      (1, fst d + fst d * snd d)).
    { intros q Hq. induction Hq as [|q Hq IH].
      - cbn. apply pair_eq; lra.
      - cbn [vsum]. rewrite IH. destruct q as [|[|[|q]]]; try lia.
        cbn. apply pair_eq; lra. }
    rewrite (SV p Hp). unfold timed_norm, vsub, growing. cbn.
    replace (1 + -1 * 1) with 0 by lra.
    replace ((0 + fst d) * (1 + snd d) + -1 * (fst d + fst d * snd d)) with 0 by lra.
    rewrite Rabs_R0. lra.
  - exists 3, 1. split; [lra|]. intros a b Ha Hb. unfold timed_norm, vsub, growing in *. cbn in *.
    replace (1 + -1 * 1) with 0 by lra. rewrite Rabs_R0.
    replace ((0 + fst a) * (1 + snd a) + -1 * ((0 + fst b) * (1 + snd b)))
      with ((fst a + -1 * fst b) * (1 + snd a) + fst b * (snd a + -1 * snd b)) by lra.
    pose proof (Rabs_triang ((fst a + -1 * fst b) * (1 + snd a)) (fst b * (snd a + -1 * snd b))).
    rewrite !Rabs_mult in H.
    pose proof (Rabs_triang 1 (snd a)). rewrite Rabs_R1 in H0.
    pose proof (Rabs_pos (fst a)). pose proof (Rabs_pos (snd a)).
    pose proof (Rabs_pos (fst b)). pose proof (Rabs_pos (snd b)).
    pose proof (Rabs_pos (fst a + -1 * fst b)). pose proof (Rabs_pos (snd a + -1 * snd b)).
    nra.
Qed.

Lemma growing_solution i : solution_in_time (scalar i growing) Rabs growing 1 growing_y.
Proof.
  split.
  - unfold growing_y. replace (0 * 0 / 2) with 0 by lra. apply exp_0.
  - exists 1. split; [lra|]. intros t _.
    assert (HD : derivable_pt_lim growing_y t (growing t (growing_y t))).
    { unfold growing, growing_y.
      replace (t * exp (t * t / 2)) with (exp (t * t / 2) * ((1 * t + t * 1) * / 2 + t * t * 0)) by field.
      apply (derivable_pt_lim_comp (fun t => t * t / 2) exp).
      - apply (derivable_pt_lim_mult (fun t => t * t) (fun _ => / 2)).
        + apply (derivable_pt_lim_mult id id); apply derivable_pt_lim_id.
        + apply derivable_pt_lim_const.
      - apply derivable_pt_lim_exp. }
    intros eps He. destruct (HD eps He) as [[eta E0] HE]. cbn in HE.
    exists (eta / 2). split; [lra|]. intros s Hs. unfold vsub. cbn.
    set (l := growing t (growing_y t)) in *.
    destruct (Req_dec s 0) as [->|Hn].
    + rewrite Rplus_0_r. replace (growing_y t + -1 * growing_y t + -1 * (0 * l)) with 0 by lra.
      rewrite Rabs_R0. lra.
    + specialize (HE s Hn ltac:(lra)).
      replace (growing_y (t + s) + -1 * growing_y t + -1 * (s * l))
        with (((growing_y (t + s) - growing_y t) / s - l) * s) by (field; assumption).
      rewrite Rabs_mult. apply Rmult_le_compat_r; [apply Rabs_pos|]. lra.
Qed.
