(** Lemmas on the propagation loop. *)
From Coq Require Import Reals Lra.
From Verif Require Import Base Prop_Model Prop_Spec.
Local Open Scope Z_scope.

Section Derive.
Context {St V F E : Type} (e : env St V F E).

(** ** Facts about seconds *)
Lemma to_secs_opp m : to_secs (- m) = (- to_secs m)%R.
Proof. unfold to_secs. rewrite opp_IZR. lra. Qed.

Lemma to_secs_le m n : m <= n -> (to_secs m <= to_secs n)%R.
Proof.
  intros H. unfold to_secs. apply IZR_le in H. apply Rmult_le_compat_r; [lra|exact H].
Qed.

Lemma to_secs_lt m n : m < n -> (to_secs m < to_secs n)%R.
Proof. intros H. unfold to_secs. apply IZR_lt in H. lra. Qed.

Lemma to_secs_pos m : 0 < m -> (0 < to_secs m)%R.
Proof. intros H. apply IZR_lt in H. unfold to_secs. lra. Qed.

Lemma to_secs_0 : to_secs 0 = 0%R.
Proof. unfold to_secs. lra. Qed.

Lemma conv_range slop d (Hc : converts e slop) :
  0 <= d -> d - slop <= of_secs e (to_secs d) <= d.
Proof.
  intros H. split.
  - apply (conv_lo e slop Hc); [exact H|lra].
  - apply (conv_hi e slop Hc); [exact H|lra].
Qed.

Lemma powf_le_1 x y : (0 < x <= 1)%R -> (0 <= y)%R -> (0 < powf x y <= 1)%R.
Proof.
  intros Hx Hy. unfold powf. destruct (Rle_dec x 0) as [H|_]; [lra|].
  unfold Rpower. split; [apply exp_pos|].
  replace 1%R with (exp 0) by apply exp_0.
  assert (Hln : (ln x <= 0)%R).
  { destruct (Req_EM_T x 1) as [->|Hn]; [rewrite ln_1; lra|].
    rewrite <- ln_1. left. apply ln_increasing; lra. }
  assert (Hz : (y * ln x <= 0)%R) by nra.
  destruct Hz as [Hz|Hz].
  - left. apply exp_increasing. exact Hz.
  - rewrite Hz. lra.
Qed.

Lemma powf_ge_1 x y : (1 <= x)%R -> (0 <= y)%R -> (1 <= powf x y)%R.
Proof.
  intros Hx Hy. unfold powf. destruct (Rle_dec x 0) as [H|_]; [lra|].
  unfold Rpower. replace 1%R with (exp 0) by apply exp_0.
  assert (Hln : (0 <= ln x)%R).
  { destruct (Req_EM_T x 1) as [->|Hn]; [rewrite ln_1; lra|].
    rewrite <- ln_1. left. apply ln_increasing; lra. }
  assert (Hz : (0 <= y * ln x)%R) by nra.
  destruct Hz as [Hz|Hz].
  - left. apply exp_increasing. exact Hz.
  - rewrite <- Hz. lra.
Qed.

(** ** [derive] keeps the state and the fixed flag *)
Lemma derive_loop_keeps fuel : forall i h att i' r,
  derive_loop e fuel i h att = (i', r) ->
  state i' = state i /\ fixed_step i' = fixed_step i /\
  (fixed_step i = true -> step_size i' = step_size i).
Proof.
  induction fuel as [|fuel IH]; intros i h att i' r; cbn [derive_loop].
  - intros H. injection H as <- _. auto.
  - destruct (try_step e (state i) (fixed_step i) h) as [[next errv]|x| |].
    2-4: intros H; injection H as <- _; auto.
    destruct (fixed_step i) eqn:Hf.
    + intros H. injection H as <- _. cbn. rewrite Hf. auto.
    + destruct (accepts e _ h att).
      * destruct (has_nan e next); intros H; injection H as <- _; cbn;
          rewrite ?Hf; repeat split; auto; discriminate.
      * intros H. apply IH in H. cbn in H. rewrite Hf in H. exact H.
Qed.

Lemma derive_keeps i i' r :
  derive e i = (i', r) ->
  state i' = state i /\ fixed_step i' = fixed_step i /\
  (fixed_step i = true -> step_size i' = step_size i).
Proof. intros H. apply derive_loop_keeps in H. exact H. Qed.

Lemma derive_fixed i i' t v :
  fixed_step i = true -> derive e i = (i', Ok (t, v)) -> t = step_size i.
Proof.
  intros Hf. unfold derive. cbn [derive_loop]. cbn [fixed_step with_details].
  destruct (try_step e _ _ _) as [[next errv]|x| |]; try discriminate.
  rewrite Hf. intros H. injection H as _ Ht _. cbn in Ht. symmetry. exact Ht.
Qed.

(** ** The retry loop never runs out of its bound *)
Lemma derive_loop_fuel fuel : forall i h att,
  (attempts (opts e) < fuel + att)%nat -> (1 <= fuel)%nat ->
  (forall s t f, try_step e s t f <> NoFuel) ->
  snd (derive_loop e fuel i h att) <> NoFuel.
Proof.
  induction fuel as [|fuel IH]; intros i h att Ha Hfu Hns; [lia|].
  cbn [derive_loop].
  destruct (try_step e (state i) (fixed_step i) h) as [[next errv]|x| |] eqn:Ht;
    try (cbn; discriminate).
  - destruct (fixed_step i); [cbn; discriminate|].
    destruct (accepts e _ h att) eqn:Hacc.
    + destruct (has_nan e next); cbn; discriminate.
    + apply IH; [lia| |exact Hns].
      unfold accepts in Hacc. apply orb_false_elim in Hacc as [_ Hacc].
      apply Nat.leb_gt in Hacc. lia.
  - exfalso. exact (Hns _ _ _ Ht).
Qed.

End Derive.

Section Derive2.
Context {St V F E : Type} (e : env St V F E).
Variable slop : Z.
Hypothesis Hc : converts e slop.
Hypothesis Ho : sane_options e slop.

Lemma grow_sign h err : (0 <= err)%R -> (err < tolerance (opts e))%R ->
  (0 < h)%R -> (0 < grow e h err)%R.
Proof.
  intros He Ht Hh.
  assert (Hmx : (0 < to_secs (max_step (opts e)))%R).
  { apply to_secs_pos. pose proof (min_pos e slop Ho). pose proof (max_min e slop Ho).
    pose proof (slop_pos e slop Hc). lia. }
  unfold grow. destruct (Req_EM_T err 0) as [_|Hne].
  - unfold signum. destruct (Rlt_dec h 0); [lra|]. lra.
  - assert (Hp : (1 <= powf (tolerance (opts e) / err) (1 / INR (order (meth e))))%R).
    { apply powf_ge_1.
      - apply (Rmult_le_reg_r err); [lra|]. unfold Rdiv.
        rewrite Rmult_assoc, Rinv_l by lra. lra.
      - pose proof (order_two e slop Ho) as H2. apply le_INR in H2. cbn in H2.
        apply Rlt_le. apply Rdiv_lt_0_compat; lra. }
    set (p := (9/10 * h * powf _ _)%R).
    assert (Hpp : (0 < p)%R) by (unfold p; nra).
    destruct (Rlt_dec _ _); [|exact Hpp].
    unfold signum. destruct (Rlt_dec p 0); lra.
Qed.

Lemma powf_pos x y : (0 < x)%R -> (0 < powf x y)%R.
Proof. intros H. unfold powf. destruct (Rle_dec x 0); [lra|]. apply exp_pos. Qed.

Lemma grow_odd h err : (0 <= err)%R -> (0 < h)%R ->
  (0 < tolerance (opts e))%R ->
  grow e (- h) err = (- grow e h err)%R.
Proof.
  intros He Hh Ht. unfold grow. destruct (Req_EM_T err 0) as [_|Hne].
  - unfold signum. destruct (Rlt_dec (- h) 0); destruct (Rlt_dec h 0); lra.
  - set (w := powf _ _).
    assert (Hw : (0 < w)%R) by (apply powf_pos; apply Rdiv_lt_0_compat; lra).
    replace (9 / 10 * - h * w)%R with (- (9/10 * h * w))%R by ring.
    set (p := (9/10 * h * w)%R).
    assert (Hp : (0 < p)%R) by (unfold p; nra).
    rewrite Rabs_Ropp.
    destruct (Rlt_dec _ (Rabs p)); [|reflexivity].
    unfold signum. destruct (Rlt_dec (- p) 0); destruct (Rlt_dec p 0); lra.
Qed.

Lemma next_step_pos h : (0 < h)%R -> min_step (opts e) <= next_step e h.
Proof.
  intros Hh. unfold next_step.
  assert (Hd : 0 - slop <= of_secs e h).
  { apply (conv_lo e slop Hc); [lia|]. rewrite to_secs_0. lra. }
  pose proof (min_pos e slop Ho) as Hm. pose proof (slop_pos e slop Hc) as Hs.
  destruct (Z.ltb_spec (Z.abs (of_secs e h)) (min_step (opts e))) as [Hlt|Hge].
  - destruct (Z.ltb_spec (of_secs e h) 0) as [Hneg|_]; [|lia].
    exfalso.
    (* a positive number of seconds never converts to a negative duration *)
    assert (Hup : of_secs e (- h) <= 0).
    { apply (conv_hi e slop Hc); [lia|]. rewrite to_secs_0. lra. }
    rewrite (conv_odd e slop Hc) in Hup. lia.
  - assert (Hup : of_secs e (- h) <= 0).
    { apply (conv_hi e slop Hc); [lia|]. rewrite to_secs_0. lra. }
    rewrite (conv_odd e slop Hc) in Hup. lia.
Qed.

(** of_secs of something that is at least a positive duration is positive *)
Lemma next_step_neg h : (0 < h)%R -> 0 < of_secs e h ->
  next_step e (- h) <= - min_step (opts e).
Proof.
  intros Hh Hd. unfold next_step. rewrite (conv_odd e slop Hc).
  destruct (Z.ltb_spec (Z.abs (- of_secs e h)) (min_step (opts e))) as [Hlt|Hge].
  - destruct (Z.ltb_spec (- of_secs e h) 0); lia.
  - lia.
Qed.

(** ** A forward adaptive step *)
Definition step_ok (i : inst (St := St)) (lo : Z) : Prop :=
  if fixed_step i then lo <= step_size i /\ 0 < step_size i
  else lo + slop <= step_size i /\ lo + slop <= min_step (opts e) /\ slop < step_size i.

Lemma shrink_bounds h err top :
  (tolerance (opts e) < err)%R ->
  (to_secs (min_step (opts e)) < h)%R -> (h <= top)%R ->
  (to_secs (min_step (opts e)) <= shrink e h err <= top)%R.
Proof.
  intros Herr Hmin Htop. unfold shrink.
  pose proof (tol_pos e slop Ho) as Htol.
  assert (Hms : (0 < to_secs (min_step (opts e)))%R).
  { apply to_secs_pos. pose proof (min_pos e slop Ho). pose proof (slop_pos e slop Hc). lia. }
  set (w := powf _ _).
  assert (Hw : (0 < w <= 1)%R).
  { unfold w. apply powf_le_1.
    - split; [apply Rdiv_lt_0_compat; lra|].
      apply (Rmult_le_reg_r err); [lra|]. unfold Rdiv. rewrite Rmult_assoc, Rinv_l by lra. lra.
    - pose proof (order_two e slop Ho) as H2.
      assert (H1 : (1 <= order (meth e) - 1)%nat) by lia.
      apply le_INR in H1. cbn in H1. apply Rlt_le. apply Rdiv_lt_0_compat; lra. }
  assert (Hp : (9 / 10 * h * w <= h)%R) by nra.
  destruct (Rlt_dec _ _); lra.
Qed.

Lemma derive_loop_forward fuel : forall i h att i' t v lo,
  fixed_step i = false ->
  (to_secs (lo + slop) <= h <= to_secs (step_size i))%R ->
  lo + slop <= min_step (opts e) -> 0 <= lo + slop -> (0 < h)%R -> 0 < step_size i ->
  derive_loop e fuel i h att = (i', Ok (t, v)) ->
  lo <= t <= step_size i /\ min_step (opts e) <= step_size i'.
Proof.
  induction fuel as [|fuel IH]; intros i h att i' t v lo Hf Hh Hlo Hls Hpos Hsp;
    cbn [derive_loop]; [discriminate|].
  destruct (try_step e (state i) (fixed_step i) h) as [[next errv]|x| |];
    try discriminate.
  rewrite Hf.
  set (err := estimate e errv next (to_vector e (state i))).
  assert (Herr : (0 <= err)%R) by apply (est_pos e slop Ho).
  destruct (accepts e err h att) eqn:Hacc.
  - destruct (has_nan e next); [discriminate|].
    intros H. injection H as <- Ht _. cbn. subst t. split.
    + split.
      * pose proof (conv_lo e slop Hc h (lo + slop) Hls (proj1 Hh)). lia.
      * apply (conv_hi e slop Hc); [lia|]. apply Hh.
    + apply next_step_pos.
      destruct (Rlt_dec err (tolerance (opts e))) as [Hlt|_]; [|exact Hpos].
      apply grow_sign; assumption.
  - intros H.
    unfold accepts in Hacc. apply orb_false_elim in Hacc as [Hacc _].
    apply orb_false_elim in Hacc as [Hacc1 Hacc2].
    destruct (Rle_dec err (tolerance (opts e))) as [|Herr2]; [discriminate|].
    destruct (Rle_dec h (to_secs (min_step (opts e)))) as [|Hmin]; [discriminate|].
    pose proof (shrink_bounds h err (to_secs (step_size i)) ltac:(lra) ltac:(lra)
                  (proj2 Hh)) as Hsb.
    assert (Hms : (0 < to_secs (min_step (opts e)))%R).
    { apply to_secs_pos. pose proof (min_pos e slop Ho). pose proof (slop_pos e slop Hc).
      lia. }
    pose proof (to_secs_le _ _ Hlo) as Hlom.
    refine (IH _ _ _ _ _ _ lo _ _ _ _ _ _ H); cbn; try assumption; try lra.
Qed.

Lemma derive_forward i i' t v lo :
  step_ok i lo -> 0 <= lo ->
  derive e i = (i', Ok (t, v)) ->
  lo <= t <= step_size i /\ 0 < t /\ step_ok i' lo.
Proof.
  intros Hs Hlo H. pose proof (derive_keeps e i i' _ H) as (_ & Hk & Hk2).
  unfold step_ok in *. rewrite Hk. destruct (fixed_step i) eqn:Hf.
  - pose proof (derive_fixed e i i' t v Hf H) as ->. rewrite (Hk2 eq_refl). lia.
  - pose proof (slop_pos e slop Hc) as Hsl. pose proof (min_pos e slop Ho) as Hmn.
    unfold derive in H.
    destruct Hs as (Hs1 & Hs2 & Hs3).
    assert (Hst : Z.max lo 1 + slop <= step_size i) by lia.
    pose proof (to_secs_le _ _ Hst) as Hst'.
    assert (L : Z.max lo 1 <= t <= step_size i /\ min_step (opts e) <= step_size i').
    { refine (derive_loop_forward _ _ _ _ _ _ _ (Z.max lo 1) _ _ _ _ _ _ H);
        cbn [with_details fixed_step step_size].
      + exact Hf.
      + split; [exact Hst'|apply Rle_refl].
      + lia.
      + lia.
      + apply to_secs_pos. lia.
      + lia. }
    lia.
Qed.

(** ** A backward adaptive step is accepted as is *)
Lemma derive_backward i i' t v :
  fixed_step i = false -> 2 * slop + 2 <= - step_size i ->
  2 * slop + 2 <= min_step (opts e) ->
  derive e i = (i', Ok (t, v)) ->
  step_size i <= t <= step_size i + slop /\ t < 0 /\
  step_size i' <= - min_step (opts e).
Proof.
  intros Hf Hs Hm. unfold derive. cbn [derive_loop]. cbn [with_details state fixed_step].
  pose proof (slop_pos e slop Hc) as Hsl.
  destruct (try_step e _ _ _) as [[next errv]|x| |]; try discriminate.
  rewrite Hf.
  set (err := estimate e errv next (to_vector e (state i))).
  assert (Herr : (0 <= err)%R) by apply (est_pos e slop Ho).
  assert (Hneg : (to_secs (step_size i) < 0)%R).
  { rewrite <- to_secs_0. apply to_secs_lt. lia. }
  assert (Hmp : (0 < to_secs (min_step (opts e)))%R) by (apply to_secs_pos; lia).
  assert (Hacc : accepts e err (to_secs (step_size i)) 1 = true).
  { unfold accepts. destruct (Rle_dec (to_secs (step_size i)) _); [|lra].
    rewrite orb_true_r. reflexivity. }
  rewrite Hacc. destruct (has_nan e next); [discriminate|].
  intros H. injection H as <- Ht _. cbn.
  pose (m := - step_size i).
  assert (Em : step_size i = - m) by (unfold m; lia).
  rewrite Em, to_secs_opp in *.
  pose proof (conv_range e slop m Hc ltac:(lia)) as Hr.
  rewrite (conv_odd e slop Hc) in Ht.
  split; [lia|]. split; [lia|].
  destruct (Rlt_dec err (tolerance (opts e))) as [Hlt|_].
  - rewrite grow_odd; [|exact Herr|lra|apply (tol_pos e slop Ho)].
    apply next_step_neg.
    + apply grow_sign; [exact Herr|exact Hlt|lra].
    + unfold grow. destruct (Req_EM_T err 0) as [_|Hne].
      * unfold signum. destruct (Rlt_dec _ 0); [lra|]. rewrite Rmult_1_r.
        pose proof (max_min e slop Ho). 
        pose proof (conv_range e slop (max_step (opts e)) Hc ltac:(lia)). lia.
      * set (w := powf _ _).
        assert (Hw : (1 <= w)%R).
        { apply powf_ge_1.
          - apply (Rmult_le_reg_r err); [lra|]. unfold Rdiv.
            rewrite Rmult_assoc, Rinv_l by lra. lra.
          - pose proof (order_two e slop Ho) as H2. apply le_INR in H2. cbn in H2.
            apply Rlt_le. apply Rdiv_lt_0_compat; lra. }
        destruct (Rlt_dec _ _).
        -- unfold signum. destruct (Rlt_dec _ 0) as [Hc1|_].
           ++ exfalso. nra.
           ++ rewrite Rmult_1_r. pose proof (max_min e slop Ho).
              pose proof (conv_range e slop (max_step (opts e)) Hc ltac:(lia)). lia.
        -- replace (9/10 * to_secs m * w)%R with (9/10 * (to_secs m * w))%R by ring.
           assert (Hm2 : (to_secs (2 * slop + 2) <= to_secs m)%R) by (apply to_secs_le; lia).
           assert (Hlow : (to_secs (slop + 1) <= 9/10 * (to_secs m * w))%R).
           { assert (Hd : to_secs (2 * slop + 2) = (2 * to_secs (slop + 1))%R).
             { unfold to_secs. rewrite !plus_IZR, mult_IZR. lra. }
             assert (Hsp : (0 < to_secs (slop + 1))%R) by (apply to_secs_pos; lia).
             nra. }
           pose proof (conv_lo e slop Hc _ (slop + 1) ltac:(lia) Hlow). lia.
  - apply next_step_neg; [lra|]. lia.
Qed.

End Derive2.
