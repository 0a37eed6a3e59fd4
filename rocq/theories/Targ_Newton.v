(** One correction of the targeter when the objectives are affine in the corrections: C71. *)
From Coq Require Import Reals Lra Lia Psatz.
From Verif Require Import Base Vec3 Angles Poly_Model Sc_Model Guid_Model Targ_Model Targ_Props.
Local Open Scope R_scope.

(** A linear form of the position and velocity. *)
Definition lin (l c : vec6) : R := dot (fst l) (fst c) + dot (snd l) (snd c).
Definition rdot (a b : list R) : R := fold_right Rplus 0 (map (fun p => fst p * snd p) (combine a b)).

Lemma lin_add l a b : lin l (add6 a b) = lin l a + lin l b.
Proof. unfold lin, add6, dot. cbn. ring. Qed.
Lemma lin_scale l k a : lin l (scale6 k a) = k * lin l a.
Proof. unfold lin, scale6, dot. cbn. ring. Qed.
Lemma lin_zero l : lin l zero6 = 0.
Proof. unfold lin, zero6, dot. cbn. ring. Qed.

Section Newton.
Context (coast : spacecraft -> Z -> res targ_error spacecraft)
        (guided guided_capped : maneuver -> spacecraft -> Z -> res targ_error spacecraft)
        (transform_to : orbit -> nat -> option orbit)
        (partial_for : element -> orbit -> option R)
        (bplane : orbit -> option (R * R * R))
        (dcm_to_inertial : nat -> orbit -> option m3)
        (solve : list (list R) -> list R -> option (list R))
        (of_secs : R -> Z).
Context (t : targeter) (start : spacecraft) (ce ae : Z).
Notation iter := (iterate coast guided guided_capped transform_to partial_for bplane dcm_to_inertial solve of_secs).

(** The parameters of the objectives, after the propagation of the start moved by [c], are
    [base p + lin (slope p) c]. *)
Definition affine (base : parameter -> R) (slope : parameter -> vec6) : Prop :=
  forall c, exists xf o, coast (move start c) ae = Ok xf /\ seen transform_to (objective_frame t) (sc_orbit xf) o /\
    forall ob, In ob (objectives t) ->
      reads partial_for bplane o (obj_parameter ob) (base (obj_parameter ob) + lin (slope (obj_parameter ob)) c).

Definition scaled_error (base : parameter -> R) (slope : parameter -> vec6) (c : vec6) (ob : objective) : R :=
  multiplicative_factor ob * (desired_value ob - (base (obj_parameter ob) + lin (slope (obj_parameter ob)) c)) + additive_factor ob.
Definition true_jacobian (slope : parameter -> vec6) : list (list R) :=
  map (fun ob => map (fun v => lin (slope (obj_parameter ob)) (unit6 (component v))) (variables t)) (objectives t).

Context (base : parameter -> R) (slope : parameter -> vec6) (Haff : affine base slope).
Context (Hframe : correction_frame t = None)
        (Hstate : Forall (fun v => of_state (component v)) (variables t))
        (Hpert : Forall (fun v => perturbation v <> 0) (variables t)).

Lemma seen_ok o o' : seen transform_to (objective_frame t) o o' -> objective_orbit transform_to t o = Ok o'.
Proof. unfold seen, objective_orbit. destruct (objective_frame t); [|congruence]. intros ->. reflexivity. Qed.

(** The orbit, B-plane and values of the model. *)
Lemma tried c : exists xf o b, coast (move start c) ae = Ok xf /\ objective_orbit transform_to t (sc_orbit xf) = Ok o /\
  b_plane_of bplane (b_plane_target t) o = Ok b /\
  forall ob, In ob (objectives t) ->
    achieved_value partial_for o b (obj_parameter ob) = Ok (base (obj_parameter ob) + lin (slope (obj_parameter ob)) c).
Proof.
  destruct (Haff c) as (xf & o & H1 & H2 & H3).
  destruct (b_plane_defined partial_for bplane o (objectives t)) as [b Hb].
  { apply Forall_forall. intros ob Hin. eauto. }
  exists xf, o, b. repeat split; auto; [now apply seen_ok|].
  intros ob Hin. eapply reads_value; eauto. intros Hp. unfold b_plane_target. apply existsb_exists. eauto.
Qed.

Lemma entry_true c m ob v : In ob (objectives t) -> of_state (component v) -> perturbation v <> 0 ->
  jacobian_entry coast guided guided_capped transform_to partial_for bplane dcm_to_inertial of_secs t false (move start c) m ae
    (obj_parameter ob) (base (obj_parameter ob) + lin (slope (obj_parameter ob)) c) v
  = Ok (lin (slope (obj_parameter ob)) (unit6 (component v))).
Proof.
  intros Hin Hv Hp. unfold jacobian_entry. rewrite (state_no_burn _ Hv).
  destruct (add_at_defined zero6 (component v) (perturbation v) Hv) as (i & -> & E). cbn [bind]. rewrite E. cbn [bind].
  unfold correct. rewrite Hframe. cbn [bind]. rewrite add6_zero_l, move_add.
  destruct (tried (add6 c (scale6 (perturbation v) (unit6 (component v))))) as (xf & o & b & H1 & H2 & H3 & H4).
  cbn [final_state]. rewrite H1. cbn [bind]. rewrite H2. cbn [bind]. rewrite H3. cbn [bind]. rewrite (H4 _ Hin). cbn [bind unwrap].
  rewrite lin_add, lin_scale. f_equal.
  replace (_ - _) with (perturbation v * lin (slope (obj_parameter ob)) (unit6 (component v))) by ring.
  replace (match component v with ThrustLevel => _ | _ => _ end) with
    (perturbation v * lin (slope (obj_parameter ob)) (unit6 (component v)) / perturbation v).
  - field. assumption.
  - cbn in Hv. destruct Hv as [<-|[<-|[<-|[<-|[<-|[<-|[]]]]]]]; reflexivity.
Qed.

Lemma row_true c m ob : In ob (objectives t) -> forall vars,
  Forall (fun v => of_state (component v)) vars -> Forall (fun v => perturbation v <> 0) vars ->
  jacobian_row coast guided guided_capped transform_to partial_for bplane dcm_to_inertial of_secs t false (move start c) m ae
    (obj_parameter ob) (base (obj_parameter ob) + lin (slope (obj_parameter ob)) c) vars
  = Ok (map (fun v => lin (slope (obj_parameter ob)) (unit6 (component v))) vars).
Proof.
  intros Hin. induction vars as [|v vars IH]; intros H1 H2; [reflexivity|].
  inversion H1; subst. inversion H2; subst. cbn [jacobian_row map]. rewrite entry_true by assumption. cbn [bind].
  rewrite IH by assumption. reflexivity.
Qed.

Definition all_met (c : vec6) : bool :=
  forallb (fun ob => if Rle_dec (Rabs (scaled_error base slope c ob)) (obj_tolerance ob) then true else false) (objectives t).

Lemma assessed c m o b :
  (forall ob, In ob (objectives t) ->
    achieved_value partial_for o b (obj_parameter ob) = Ok (base (obj_parameter ob) + lin (slope (obj_parameter ob)) c)) ->
  assess_all coast guided guided_capped transform_to partial_for bplane dcm_to_inertial of_secs t false (move start c) m ae o b (objectives t)
  = Ok (all_met c, map (scaled_error base slope c) (objectives t), true_jacobian slope).
Proof.
  intros H. unfold all_met, true_jacobian.
  assert (Hsub : incl (objectives t) (objectives t)) by apply incl_refl. revert Hsub.
  generalize (objectives t) at 1 3 4 5 6 as objs. induction objs as [|ob objs IH]; intros Hsub; [reflexivity|].
  cbn [assess_all]. assert (Hin : In ob (objectives t)) by (apply Hsub; now left).
  rewrite (H _ Hin). cbn [bind]. rewrite (row_true _ _ _ Hin) by assumption. cbn [bind].
  rewrite IH by (intros x Hx; apply Hsub; now right). cbn [bind assess_value fst snd map forallb]. reflexivity.
Qed.

(** The solver inverts the Jacobian on the left of the errors (C50: the rows are independent). *)
Context (Hsolve : forall e, length e = length (objectives t) ->
  exists d, solve (true_jacobian slope) e = Some d /\ length d = length (variables t) /\
    map (fun row => rdot row d) (true_jacobian slope) = e).

Lemma lin_combined l : forall vars d, length d = length vars ->
  lin l (combined vars d) = rdot (map (fun v => lin l (unit6 (component v))) vars) d.
Proof.
  induction vars as [|v vars IH]; intros [|x d] H; cbn in H; try discriminate; cbn [combined map]; [apply lin_zero|].
  rewrite lin_add, lin_scale, IH by lia. unfold rdot. cbn. ring.
Qed.

(** One Newton step scales each error by one minus the factor of its objective. *)
Lemma step_errors c d : length d = length (variables t) ->
  map (fun row => rdot row d) (true_jacobian slope) = map (scaled_error base slope c) (objectives t) ->
  forall ob, In ob (objectives t) ->
    scaled_error base slope (add6 c (combined (variables t) d)) ob = (1 - multiplicative_factor ob) * scaled_error base slope c ob.
Proof.
  intros Hl H ob Hin. unfold true_jacobian in H. rewrite map_map in H.
  assert (E : rdot (map (fun v => lin (slope (obj_parameter ob)) (unit6 (component v))) (variables t)) d = scaled_error base slope c ob).
  { clear -H Hin. revert H Hin. induction (objectives t) as [|x objs IH]; [easy|]. intros H [->|Hin]; [exact (f_equal (hd 0) H)|].
    apply IH; [exact (f_equal (@tl R) H)|assumption]. }
  rewrite <- lin_combined in E by assumption. unfold scaled_error in *. rewrite lin_add, E. ring.
Qed.

(** The steps that the bounds of the variables leave; a correction within the bounds is kept. *)
Fixpoint limited (vars : list variable) (d : list R) : list R :=
  match vars, d with v :: vars', x :: d' => limit_step v x :: limited vars' d' | _, _ => [] end.
Definition unbounded (v : variable) (x : R) : Prop := Rabs x <= max_step v /\ min_value v <= x <= max_value v.

Lemma limited_length : forall vars d, length d = length vars -> length (limited vars d) = length vars.
Proof. induction vars as [|v vars IH]; intros [|x d] H; cbn in *; try lia. rewrite IH; lia. Qed.
Lemma limited_unbounded vars d : Forall2 unbounded vars d -> limited vars d = d.
Proof.
  induction 1 as [|v x vars d [H1 H2] _ IH]; [reflexivity|]. cbn. rewrite IH. f_equal.
  unfold limit_step. pose proof (Rabs_pos x). rewrite (Rabs_pos_eq (max_step v)) by lra.
  destruct (Rlt_dec _ _); [lra|]. destruct (Rlt_dec _ _); [lra|]. destruct (Rlt_dec _ _); [lra|reflexivity].
Qed.

Lemma corrections_limited ce' ae' : forall vars d m c, Forall (fun v => of_state (component v)) vars ->
  length d = length vars ->
  corrections of_secs ce' ae' vars d m c = Ok (m, add6 c (combined vars (limited vars d)), limited vars d).
Proof.
  induction vars as [|v vars IH]; intros [|x d] m c Hs Hl; cbn in Hl; try discriminate.
  - cbn. now rewrite add6_zero.
  - inversion Hs as [|? ? Hv Hs']; subst. cbn [corrections limited]. rewrite (state_no_burn _ Hv).
    cbv zeta. destruct (add_at_defined c (component v) (limit_step v x) Hv) as (i & -> & E). cbn [bind]. rewrite E. cbn [bind].
    rewrite IH by (assumption || lia). cbn [bind combined]. now rewrite add6_assoc.
Qed.

Lemma total_of_exact : forall vars d c, Forall (fun v => of_state (component v)) vars ->
  total_of vars d c = Ok (add6 c (combined vars d)).
Proof.
  induction vars as [|v vars IH]; intros [|x d] c Hs; cbn [total_of combined]; try (now rewrite add6_zero).
  inversion Hs as [|? ? Hv Hs']; subst. destruct (add_at_defined c (component v) x Hv) as (i & -> & E). cbn [bind].
  rewrite E. cbn [bind]. rewrite IH by assumption. now rewrite add6_assoc.
Qed.

(** What an iteration does with an affine problem. *)
Lemma iteration_met left it m total prev : length total = length (variables t) ->
  all_met (combined (variables t) total) = true ->
  exists s, iter t false start ce ae left it (move start (combined (variables t) total)) m total prev = Ok s /\ sol_iterations s = it /\ correction s = total /\
    sol_variables s = variables t /\ corrected_state s = move start (combined (variables t) total) /\
    exists xf, coast (move start (combined (variables t) total)) ae = Ok xf /\ achieved_state s = with_orbit start (sc_orbit xf).
Proof.
  intros Hl Hm. destruct (tried (combined (variables t) total)) as (xf & o & b & H1 & H2 & H3 & H4).
  eexists. destruct left; cbn [iterate final_state]; rewrite H1; cbn [bind]; rewrite H2; cbn [bind]; rewrite H3; cbn [bind];
    rewrite (assessed _ _ _ _ H4); cbn [bind]; rewrite Hm, total_of_exact by assumption; cbn [bind]; unfold correct; rewrite Hframe; cbn [bind];
    (split; [reflexivity|]); rewrite ?add6_zero_l; repeat split; exists xf; auto.
Qed.

Definition stalled (prev : option R) (n : R) : Prop := match prev with Some p => Rabs (n - p) < / 10 ^ 10 | None => False end.

Lemma iteration_step left it m total prev d : length total = length (variables t) ->
  all_met (combined (variables t) total) = false ->
  ~ stalled prev (list_norm (map (scaled_error base slope (combined (variables t) total)) (objectives t))) ->
  solve (true_jacobian slope) (map (scaled_error base slope (combined (variables t) total)) (objectives t)) = Some d ->
  length d = length (variables t) ->
  iter t false start ce ae (S left) it (move start (combined (variables t) total)) m total prev =
  iter t false start ce ae left (S it) (move start (combined (variables t) (add_lists total (limited (variables t) d)))) m
    (add_lists total (limited (variables t) d))
    (Some (list_norm (map (scaled_error base slope (combined (variables t) total)) (objectives t)))).
Proof.
  intros Hl Hm Hst Hd Hld. destruct (tried (combined (variables t) total)) as (xf & o & b & H1 & H2 & H3 & H4).
  cbn [iterate]. cbn [final_state]. rewrite H1. cbn [bind]. rewrite H2. cbn [bind]. rewrite H3. cbn [bind].
  rewrite (assessed _ _ _ _ H4). cbn [bind]. rewrite Hm.
  replace (match prev with Some p => _ | None => false end) with false.
  - rewrite Hd, corrections_limited by assumption. cbn [bind].
    unfold correct at 1. rewrite Hframe. cbn [bind].
    rewrite add6_zero_l, move_add, <- combined_add by (rewrite ?limited_length; lia). reflexivity.
  - destruct prev as [p|]; [|reflexivity]. cbn in Hst. destruct (Rlt_dec _ _); [contradiction|reflexivity].
Qed.

Lemma iteration_stalled left it m total prev :
  all_met (combined (variables t) total) = false ->
  stalled prev (list_norm (map (scaled_error base slope (combined (variables t) total)) (objectives t))) ->
  iter t false start ce ae left it (move start (combined (variables t) total)) m total prev = Err CorrectionIneffective.
Proof.
  intros Hm Hst. destruct (tried (combined (variables t) total)) as (xf & o & b & H1 & H2 & H3 & H4).
  destruct left; cbn [iterate]; cbn [final_state]; rewrite H1; cbn [bind]; rewrite H2; cbn [bind]; rewrite H3; cbn [bind];
    rewrite (assessed _ _ _ _ H4); cbn [bind]; rewrite Hm;
    (destruct prev as [p|]; [|contradiction]); cbn in Hst; (destruct (Rlt_dec _ _); [reflexivity|contradiction]).
Qed.

Lemma guess_ok : forall vars g, Forall (fun v => of_state (component v)) vars -> Forall (fun v => valid v = true) vars ->
  initial_guess of_secs t start vars g = Ok (Guess (g_mnvr g) (g_burn g) (add6 (g_correction g) (combined vars (map init_guess vars)))).
Proof.
  induction vars as [|v vars IH]; intros g Hs Hv; cbn [initial_guess].
  - cbn. rewrite add6_zero. now destruct g.
  - inversion Hs; subst. inversion Hv as [|? ? V]; subst. rewrite V, Hframe. cbn [negb bind].
    rewrite state_no_burn by assumption.
    destruct (add_at_defined (g_correction g) (component v) (init_guess v) ltac:(assumption)) as (i & -> & E). cbn [bind].
    rewrite E. cbn [bind]. rewrite IH by assumption. cbn [g_mnvr g_burn g_correction map combined]. now rewrite add6_assoc.
Qed.
End Newton.

Section Theorems.
Context (coast : spacecraft -> Z -> res targ_error spacecraft)
        (guided guided_capped : maneuver -> spacecraft -> Z -> res targ_error spacecraft)
        (transform_to : orbit -> nat -> option orbit)
        (partial_for : element -> orbit -> option R)
        (bplane : orbit -> option (R * R * R))
        (dcm_to_inertial : nat -> orbit -> option m3)
        (solve : list (list R) -> list R -> option (list R))
        (of_secs : R -> Z).

(** C71: when the objectives are affine in the corrections of the state, have a factor of 1, and the
    correction is within the bounds, one correction is enough, and the solution meets the objectives
    exactly if it took one. *)
Theorem C71_one_correction t initial start ce ae base slope :
  coast initial ce = Ok start ->
  affine coast transform_to partial_for bplane t start ae base slope ->
  correction_frame t = None -> objectives t <> [] -> (1 <= iterations t)%nat ->
  Forall (fun v => of_state (component v)) (variables t) ->
  Forall (fun v => perturbation v <> 0) (variables t) ->
  Forall (fun v => 0 <= max_step v /\ 0 <= max_value v /\ min_value v <= max_value v) (variables t) ->
  Forall (fun ob => multiplicative_factor ob = 1 /\ 0 <= obj_tolerance ob) (objectives t) ->
  (forall e, length e = length (objectives t) ->
    exists d, solve (true_jacobian t slope) e = Some d /\ length d = length (variables t) /\
      map (fun row => rdot row d) (true_jacobian t slope) = e) ->
  (forall d, solve (true_jacobian t slope) (map (scaled_error base slope (combined (variables t) (map init_guess (variables t)))) (objectives t)) = Some d ->
    Forall2 unbounded (variables t) d) ->
  exists s, try_achieve_fd coast guided guided_capped transform_to partial_for bplane dcm_to_inertial solve of_secs t initial ce ae = Ok s /\
    (sol_iterations s <= 1)%nat /\
    (sol_iterations s = 1%nat -> forall ob, In ob (objectives t) -> scaled_error base slope (combined (variables t) (correction s)) ob = 0).
Proof.
  intros Hi Ha Hf Hne Hit Hs Hp Hv Hfac Hsol Hb.
  set (g := map init_guess (variables t)) in *. set (c0 := combined (variables t) g) in *.
  assert (Hg : length g = length (variables t)) by (unfold g; now rewrite map_length).
  unfold try_achieve_fd. destruct (objectives t) as [|ob0 obs0] eqn:Eobj; [congruence|]. rewrite <- Eobj in *.
  assert (Hval : Forall (fun v => valid v = true) (variables t)).
  { eapply Forall_impl; [|exact Hv]. intros v (A & B & C). unfold valid.
    destruct (Rlt_dec _ _); [lra|]. destruct (Rlt_dec _ _); [lra|]. destruct (Rlt_dec _ _); [lra|reflexivity]. }
  rewrite Hi. cbn [bind]. rewrite (guess_ok of_secs t start Hf) by assumption.
  cbn [bind g_burn g_mnvr g_correction]. fold g. rewrite add6_zero_l. fold c0. unfold correct at 1. rewrite Hf. cbn [bind].
  destruct (iterations t) as [|n]; [lia|].
  destruct (all_met t base slope c0) eqn:Hm.
  - destruct (iteration_met coast guided guided_capped transform_to partial_for bplane dcm_to_inertial solve of_secs t start ce ae
      base slope Ha Hf Hs Hp (S n) 0 (initial_maneuver ce ae) g None Hg Hm) as (s & E & S1 & S2 & _).
    exists s. split; [exact E|]. rewrite S1. split; [lia|discriminate].
  - destruct (Hsol (map (scaled_error base slope c0) (objectives t))) as (d & D1 & D2 & D3); [now rewrite map_length|].
    pose proof (iteration_step coast guided guided_capped transform_to partial_for bplane dcm_to_inertial solve of_secs t start ce ae
      base slope Ha Hf Hs Hp n 0 (initial_maneuver ce ae) g None d Hg Hm (fun F => F) D1 D2) as E1. fold c0 in E1.
    rewrite (limited_unbounded _ _ (Hb _ D1)) in E1. rewrite E1. clear E1.
    assert (Hz : forall ob, In ob (objectives t) -> scaled_error base slope (combined (variables t) (add_lists g d)) ob = 0).
    { intros ob Hin. rewrite combined_add by lia. fold c0.
      rewrite (step_errors t base slope c0 d D2 D3 ob Hin). rewrite Forall_forall in Hfac. destruct (Hfac _ Hin) as [-> _]. ring. }
    assert (Hm' : all_met t base slope (combined (variables t) (add_lists g d)) = true).
    { unfold all_met. apply forallb_forall. intros ob Hin. rewrite (Hz _ Hin), Rabs_R0.
      rewrite Forall_forall in Hfac. destruct (Hfac _ Hin) as [_ ?]. destruct (Rle_dec _ _); [reflexivity|contradiction]. }
    destruct (iteration_met coast guided guided_capped transform_to partial_for bplane dcm_to_inertial solve of_secs t start ce ae
      base slope Ha Hf Hs Hp n 1 (initial_maneuver ce ae) (add_lists g d)
      (Some (list_norm (map (scaled_error base slope c0) (objectives t)))) ltac:(rewrite add_lists_length; lia) Hm') as (s & E & S1 & S2 & _).
    exists s. split; [exact E|]. rewrite S1, S2. split; [lia|]. auto.
Qed.
End Theorems.
