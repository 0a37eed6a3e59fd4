(** C80: propagating ground assets and estimating them from the ranges and the range rates to a
    transmitter. *)
From Coq Require Import String Reals Lra Psatz.
From Coquelicot Require Import Coquelicot.
From Verif Require Import Base Vec3 Angles Dual Arc_Model Sens_Model Prop_Model Prop_Spec Prop_Loop Prop_Proofs Prop_Inv
  Gnd_Model Gnd_Spec Gnd_Proofs Gnd_Props.
From Verif Require RK_Spec RK_Model Dyn_Props Prop_Props Sens_Matrix.
Local Open Scope R_scope.

(** ** A property kept by every step, and by the frame changes *)
Lemma propagate_inv {St V F E C} (e : env St V F E) (cond : C -> St -> C * res E bool) (P : St -> Prop) fuel duration i c :
  (forall s s', P s -> finally e s = Ok s' -> P s') ->
  (forall s f s', P s -> enter_frame e s f = Ok s' -> P s') ->
  (forall s f s', P s -> leave_frame e s f = Ok s' -> P s') ->
  (forall j j', (fixed_step i = true -> fixed_step j = true) -> P (state j) ->
     single_step e j = (j', Ok tt) -> P (state j')) ->
  P (state i) ->
  let o := propagate e cond fuel duration i c in
  Forall P (o_sent o) /\ forall s, o_res o = Ok s -> P s.
Proof.
  intros Hf He Hl Hs Hi o. subst o.
  destruct (propagate_cases e cond fuel duration i c)
    as [(Hz & Ho)|[(Hz & Hse & Hne)|(Hz & orig & i0 & Hen & Heq)]].
  - rewrite Ho. cbn. split; [constructor|]. intros s H. assert (state i = s) as <- by congruence. exact Hi.
  - rewrite Hse. split; [constructor|]. intros s H. exfalso. eapply Hne, H.
  - rewrite Heq.
    destruct (loop_ending e cond (duration <? 0)%Z (epoch e (state i) + duration)%Z orig fuel i0 c [])
      as (l & i1 & c1 & Hg & _ & Hend).
    assert (H0 : P (state i0) /\ fixed_step i0 = fixed_step i).
    { inversion Hen; subst; cbn; eauto. }
    destruct H0 as [H0 F0].
    assert (Hall : Forall P l /\ P (state i1) /\ (fixed_step i = true -> fixed_step i1 = true)).
    { clear Hend Heq Hen.
      assert (G : forall b, (b = true -> fixed_step i0 = true) ->
        (forall j j', (b = true -> fixed_step j = true) -> P (state j) -> single_step e j = (j', Ok tt) -> P (state j')) ->
        Forall P l /\ P (state i1) /\ (b = true -> fixed_step i1 = true)).
      { intros b Hb S. clear Hs F0. induction Hg as [j|j j1 l j' _ Hss Hg IH]; [repeat split; [constructor|exact H0|exact Hb]|].
        assert (F1 : fixed_step j1 = fixed_step j).
        { unfold single_step in Hss. destruct (derive e j) as [k [[t v]|x| |]] eqn:Hd; try discriminate.
          destruct (finally e _) as [s'|x| |]; try discriminate.
          assert (j1 = with_state k s') as -> by congruence. cbn. apply (derive_keeps e _ _ _ Hd). }
        assert (P1 : P (state j1)) by (eapply S; eassumption).
        destruct (IH P1 ltac:(rewrite F1; exact Hb)) as (A & B & D). split; [now constructor|now split]. }
      apply (G (fixed_step i)); [now rewrite F0|exact Hs]. }
    destruct Hall as (Hall & H1 & F1). cbn [app] in Hend.
    assert (Hback : forall orig j c sent s, P (state j) ->
      o_res (rotate_back e (C := C) orig j c sent) = Ok s -> P s).
    { intros og j cc sent s Hj. unfold rotate_back. destruct og as [f|]; [|cbn; congruence].
      destruct (leave_frame e (state j) f) as [s'|x| |] eqn:Hlf; cbn; try discriminate.
      intros H. assert (s' = s) as <- by congruence. eapply Hl; eassumption. }
    inversion Hend as [Ht He2 Hr|i2 Ht Hn Hss Hr|i2 c2 Ht Hss Hcd Hr|o Hsent Hno Hr].
    + rewrite rotate_back_sent. split; [exact Hall|]. intros s. apply Hback, H1.
    + assert (P2 : P (state i2)) by (refine (Hs _ _ _ _ Hss); [reflexivity|exact H1]).
      rewrite rotate_back_sent. split.
      * apply Forall_app. split; [exact Hall|]. constructor; [exact P2|constructor].
      * intros s. apply Hback. now rewrite restored_state.
    + cbn [o_sent o_res]. split; [exact Hall|]. intros s H.
      assert (state i2 = s) as <- by congruence. eapply Hs; eassumption.
    + rewrite Hsent. split; [exact Hall|]. intros s H. exfalso. eapply Hno, H.
Qed.

Section Motion.
Context {C : Type} (m : method) (o : options gframe) (est : (nat -> R) -> (nat -> R) -> (nat -> R) -> R)
        (secs : R -> Z) (same : gframe -> gframe -> bool) (nan : (nat -> R) -> bool)
        (transforms : asset -> gframe -> bool) (cond : C -> asset -> C * res gnd_error bool).
Notation env := (ground_env m o est secs same nan transforms).
Notation W := (RK_Spec.sumR (stages m) (RK_Spec.coeff_b m)).

Lemma ground_step j j' : single_step env j = (j', Ok tt) ->
  exists h t, (fixed_step j = true -> h = to_secs t) /\ asset_epoch (state j') = (asset_epoch (state j) + t)%Z /\
    asset_frame (state j') = asset_frame (state j) /\
    (asset_stm (state j') = None <-> asset_stm (state j) = None) /\
    forall k, to_vector42 (state j') k = to_vector42 (state j) k + h * (ground_eom (state j) k * W).
Proof.
  intros H. destruct (single_step_state _ _ _ H) as (i1 & t & v & Hd & Hf).
  cbn [finally ground_env set_state epoch] in Hf.
  assert (Hs : state j' = set42 (state j) (asset_epoch (state j) + t) v) by congruence. clear Hf.
  destruct (derive_step _ _ _ _ _ Hd) as (h & err & Ht & Hh & _).
  exists h, t. split; [intros Hfx; now apply Hh|]. rewrite Hs. split; [reflexivity|]. split; [reflexivity|].
  split; [cbn; destruct (asset_stm (state j)); split; congruence|].
  assert (X : forall k, v k = to_vector42 (state j) k + h * (ground_eom (state j) k * W)).
  { intros k. apply (try_step_constant env (fun v => v k)) with (c := ground_eom (state j) k) in Ht; trivial.
    intros dt w y Hy. cbn in Hy. assert (y = ground_eom (state j)) as -> by congruence. reflexivity. }
  intros k. destruct k as [|[|[|[|[|[|k]]]]]]; try apply X.
  cbn [to_vector42 set42 asset_stm]. destruct (asset_stm (state j)) as [p|] eqn:Ep; cbn [ground_eom]; [|ring].
  destruct (k <? 36)%nat eqn:Ek; [|ring]. rewrite X. cbn [Nat.add to_vector42 ground_eom]. rewrite Ep, Ek. ring.
Qed.

(** ** Motion.  In any propagation, with fixed or adapted steps, by any method, the asset moves
    along its rates, which stay constant, as does its frame, and its state transition matrix never
    changes. *)
Theorem C80_line :
  forall fuel duration i c, let out := propagate env cond fuel duration i c in
  let along s := asset_frame s = asset_frame (state i) /\
    (exists T, forall k, (k < 6)%nat -> to_vector42 s k = drift (to_vector42 (state i)) T k) /\
    (asset_stm s = None <-> asset_stm (state i) = None) /\
    forall k, (6 <= k)%nat -> to_vector42 s k = to_vector42 (state i) k in
  Forall along (o_sent out) /\ forall s, o_res out = Ok s -> along s.
Proof.
  intros fuel duration i c out along. apply propagate_inv; subst along; cbn beta.
  - intros s s' Hs E. cbn in E. now assert (s = s') as <- by congruence.
  - intros s f s' Hs E. cbn in E. destruct (transforms s f); [|discriminate]. now assert (s = s') as <- by congruence.
  - intros s f s' Hs E. cbn in E. destruct (transforms s f); [|discriminate]. now assert (s = s') as <- by congruence.
  - intros j j' _ (A & (T & B) & N & D) E. destruct (ground_step _ _ E) as (h & t & _ & _ & Fr & St & X).
    split; [congruence|]. split; [|split; [tauto|]].
    + exists (T + h * W). intros k Hk. rewrite X.
      assert (R3 := B 3%nat ltac:(lia)). assert (R4 := B 4%nat ltac:(lia)). assert (R5 := B 5%nat ltac:(lia)).
      cbn [to_vector42 drift] in R3, R4, R5.
      rewrite B by exact Hk. destruct k as [|[|[|[|[|[|k]]]]]]; [| | | | | |lia]; cbn [drift ground_eom]; rewrite ?R3, ?R4, ?R5;
        cbn [to_vector42]; ring.
    + intros k Hk. rewrite X, D by exact Hk. destruct k as [|[|[|k]]]; [lia|lia|lia|]. cbn [ground_eom]. ring.
  - split; [reflexivity|]. split; [|now split]. exists 0. intros k Hk.
    destruct k as [|[|[|[|[|[|k]]]]]]; [| | | | | |lia]; cbn [drift to_vector42]; ring.
Qed.

(** With fixed steps, and weights that sum to one: along its rates for the elapsed time. *)
Theorem C80_motion :
  forall fuel duration i c, fixed_step i = true -> W = 1 ->
  let out := propagate env cond fuel duration i c in
  let on_time s := forall k, (k < 6)%nat ->
    to_vector42 s k = drift (to_vector42 (state i)) (to_secs (asset_epoch s - asset_epoch (state i))) k in
  Forall on_time (o_sent out) /\ forall s, o_res out = Ok s -> on_time s.
Proof.
  intros fuel duration i c Hfix HW out on_time. apply propagate_inv; subst on_time; cbn beta.
  - intros s s' Hs E. cbn in E. now assert (s = s') as <- by congruence.
  - intros s f s' Hs E. cbn in E. destruct (transforms s f); [|discriminate]. now assert (s = s') as <- by congruence.
  - intros s f s' Hs E. cbn in E. destruct (transforms s f); [|discriminate]. now assert (s = s') as <- by congruence.
  - intros j j' Hj B E. destruct (ground_step _ _ E) as (h & t & Hh & Ep & Fr & _ & X).
    rewrite HW in X. rewrite (Hh (Hj Hfix)) in X. intros k Hk. rewrite X, Ep.
    assert (R3 := B 3%nat ltac:(lia)). assert (R4 := B 4%nat ltac:(lia)). assert (R5 := B 5%nat ltac:(lia)).
    cbn [to_vector42 drift] in R3, R4, R5. rewrite B by exact Hk.
    replace (to_secs (asset_epoch (state j) + t - asset_epoch (state i)))
      with (to_secs (asset_epoch (state j) - asset_epoch (state i)) + to_secs t)
      by (unfold to_secs; rewrite !minus_IZR, !plus_IZR; field).
    destruct k as [|[|[|[|[|[|k]]]]]]; [| | | | | |lia]; cbn [drift ground_eom]; rewrite ?R3, ?R4, ?R5; cbn [to_vector42]; ring.
  - intros k Hk. rewrite Z.sub_diag. replace (to_secs 0) with 0 by (unfold to_secs; field).
    destruct k as [|[|[|[|[|[|k]]]]]]; [| | | | | |lia]; cbn [drift to_vector42]; ring.
Qed.
End Motion.
Print Assumptions C80_line.
Print Assumptions C80_motion.

(** The weights of nyx's methods sum to one, but for those of DormandPrince78, published as rational
    approximations. *)
Theorem C80_weights : forall i, i <> RK_Model.DormandPrince78 ->
  RK_Spec.sumR (stages (RK_Model.method_of i)) (RK_Spec.coeff_b (RK_Model.method_of i)) = 1.
Proof.
  intros i Hi. pose proof (Dyn_Props.sum_of_weights i) as H.
  assert (T : RK_Spec.table_error i = 0) by (destruct i; try reflexivity; congruence). rewrite T in H.
  set (x := RK_Spec.sumR _ _) in *. pose proof (Rabs_pos (x - 1)). assert (E : Rabs (x - 1) = 0) by lra.
  destruct (Req_dec (x - 1) 0) as [E1|E1]; [lra|]. now apply Rabs_no_R0 in E1.
Qed.
Print Assumptions C80_weights.

Definition demo_opts : options gframe :=
  {| tolerance := 1; min_step := 10; max_step := 1000; attempts := 3; integration_frame := None |}.
Definition demo_env : env asset (nat -> R) gframe gnd_error :=
  ground_env (RK_Model.method_of RK_Model.RungeKutta4) demo_opts (fun _ _ _ => 0) Prop_Examples.trunc_secs
    (fun _ _ => true) (fun _ => false) (fun _ _ => true).
Definition demo_inst (s : asset) : inst (St := asset) :=
  {| state := s; step_size := 2000000000; fixed_step := true; det := Build_details 0 0 0 |}.
Lemma demo_run s : asset_epoch s = 0%Z -> exists s', o_res (for_duration demo_env 2 1000000000 (demo_inst s)) = Ok s'.
Proof.
  intros H. destruct s as [la lo he lar lor her ep fr stm]. cbn [asset_epoch] in H. subst ep.
  eexists. cbv -[Rplus Rmult Rdiv Rinv IZR Rminus Ropp to_secs RK_Model.q6_real]. reflexivity.
Qed.

Lemma demo_keeps : keeps_epoch demo_env.
Proof. now split; cbn; congruence. Qed.
Lemma demo_weights : RK_Spec.sumR (stages (RK_Model.method_of RK_Model.RungeKutta4))
  (RK_Spec.coeff_b (RK_Model.method_of RK_Model.RungeKutta4)) = 1.
Proof. now apply C80_weights. Qed.
(** Where the example ends. *)
Lemma demo_end s s' : asset_epoch s = 0%Z -> o_res (for_duration demo_env 2 1000000000 (demo_inst s)) = Ok s' ->
  forall k, (k < 6)%nat -> to_vector42 s' k = drift (to_vector42 s) 1 k.
Proof.
  intros H E k Hk.
  destruct (C80_motion (C := unit) _ demo_opts (fun _ _ _ => 0) Prop_Examples.trunc_secs (fun _ _ => true) (fun _ => false)
    (fun _ _ => true) never 2%nat 1000000000%Z (demo_inst s) tt eq_refl demo_weights) as [_ M].
  rewrite (M s' E k Hk). f_equal.
  destruct (Prop_Props.C01_stop_epoch _ _ _ _ demo_env demo_keeps _ _ _ _ E) as [T _].
  cbn [epoch demo_env ground_env state demo_inst] in T |- *. rewrite T, H. unfold to_secs.
  replace (0 + 1000000000 - 0)%Z with 1000000000%Z by lia. field.
Qed.
Example motion_example : exists s', o_res (for_duration demo_env 2 1000000000 (demo_inst (demo_asset 10 20))) = Ok s' /\
  lat_deg s' = 10 + 1 / 10.
Proof.
  destruct (demo_run (demo_asset 10 20) eq_refl) as [s' E]. exists s'. split; [exact E|].
  pose proof (demo_end (demo_asset 10 20) s' eq_refl E 0 ltac:(lia)) as K. cbn [to_vector42 drift] in K. rewrite K. cbn. field.
Qed.

(** ** The gradient is that of the equations of motion. *)
Theorem C80_gradient :
  forall s i j, (i < 6)%nat -> (j < 6)%nat ->
    is_derive (fun h => ground_eom (add6 s (fun k => if (k =? j)%nat then h else 0)) i) 0 (ground_grad i j).
Proof.
  intros s i j Hi Hj.
  destruct i as [|[|[|i]]]; destruct j as [|[|[|[|[|[|j]]]]]]; try lia;
    cbn [ground_eom ground_grad add6 lat_rate lon_rate height_rate Nat.eqb];
    auto_derive; trivial; ring.
Qed.
Print Assumptions C80_gradient.

(** It is not what the propagation uses: one second after a reset the matrix still says that the
    latitude does not depend on its rate, though it moves by one degree for each degree per second. *)
Theorem C80_stm_refuted :
  exists s s', asset_stm s = Some identity36 /\
    o_res (for_duration demo_env 2 1000000000 (demo_inst s)) = Ok s' /\
    (exists stm, asset_stm s' = Some stm /\ forall i j, (i < 6)%nat -> (j < 6)%nat -> stm (i + 6 * j)%nat = if (i =? j)%nat then 1 else 0) /\
    forall h, exists s'', o_res (for_duration demo_env 2 1000000000
        (demo_inst (add6 s (fun k => if (k =? 3)%nat then h else 0)))) = Ok s'' /\
      lat_deg s'' = lat_deg s' + 1 * h.
Proof.
  exists (reset_stm (demo_asset 10 20)). destruct (demo_run (reset_stm (demo_asset 10 20)) eq_refl) as [s' E].
  exists s'. split; [reflexivity|]. split; [exact E|]. split.
  - destruct (C80_line (C := unit) (RK_Model.method_of RK_Model.RungeKutta4) demo_opts (fun _ _ _ => 0) Prop_Examples.trunc_secs (fun _ _ => true) (fun _ => false)
      (fun _ _ => true) never 2%nat 1000000000%Z (demo_inst (reset_stm (demo_asset 10 20))) tt) as [_ L].
    destruct (L s' E) as (_ & _ & N & K). clear L. cbn [state demo_inst reset_stm asset_stm] in N, K.
    destruct (asset_stm s') as [p|] eqn:Ep; [|destruct N as [N _]; discriminate (N eq_refl)].
    exists p. split; [reflexivity|]. intros i j Hi Hj.
    specialize (K (6 + (i + 6 * j))%nat ltac:(lia)). cbn [Nat.add to_vector42] in K. rewrite Ep in K. cbn [asset_stm reset_stm] in K.
    assert (Hlt : (i + 6 * j <? 36)%nat = true) by (apply Nat.ltb_lt; lia). rewrite Hlt in K. rewrite K. unfold identity36.
    rewrite Hlt. replace ((i + 6 * j) mod 6)%nat with i; [replace ((i + 6 * j) / 6)%nat with j; [reflexivity|]|].
    + apply (Nat.div_unique _ 6 j i); lia.
    + apply (Nat.mod_unique _ 6 j i); lia.
  - intros h. set (s2 := add6 _ _). destruct (demo_run s2 eq_refl) as [s'' E2]. exists s''. split; [exact E2|].
    pose proof (demo_end (reset_stm (demo_asset 10 20)) s' eq_refl E 0 ltac:(lia)) as K1. pose proof (demo_end s2 s'' eq_refl E2 0 ltac:(lia)) as K2.
    cbn [to_vector42 drift] in K1, K2. rewrite K1, K2. cbn. field.
Qed.
Print Assumptions C80_stm_refuted.

(** ** The sensitivity of the range.  [in_frame]: the true position of the transmitter in a frame.
    With the transmitter in the frame of the asset and the range that the asset's estimate gives, the row
    is the gradient of the range in the six components of the state. *)
Theorem C80_range_partial :
  forall try_latlongalt tx_at look (in_frame : orbit -> gframe -> v3) d rx a b o tx,
    (forall o, in_frame o (o_frame o) = o_pos o) ->
    shape (asset_frame rx) = Some (a, b) -> 0 < a -> 0 < b ->
    try_latlongalt (lat_deg rx) (lon_deg rx) (height_km rx) (asset_epoch rx) (asset_frame rx) = Ok o ->
    geodetic_point a b (lat_deg rx) (lon_deg rx) (height_km rx) (o_pos o) ->
    tx_at (o_epoch o) = Some tx -> o_frame tx = asset_frame rx ->
    in_frame tx (asset_frame rx) <> o_pos o ->
    get Range d = Some (norm (vsub (o_pos o) (in_frame tx (asset_frame rx)))) ->
    exists C row, cartesian_map a b C /\ ground_row try_latlongalt tx_at look d rx Range = Ok row /\ length row = 6%nat /\
      forall j, (j < 6)%nat ->
        is_derive (fun h => let c := C (nudge (to_vector42 rx) j h) in
                            norm (vsub (V3 (c 0%nat) (c 1%nat) (c 2%nat)) (in_frame tx (asset_frame rx)))) 0 (nth j row 0).
Proof.
  intros tl tx_at look in_frame d rx a b o tx Hin Hs Ha Hb Ho Hg Ht Hf Hne Hd.
  assert (Hp : in_frame tx (asset_frame rx) = o_pos tx) by (rewrite <- Hf; apply Hin).
  rewrite Hp in *. clear Hp. set (p := o_pos tx) in *.
  set (e2 := (a * a - b * b) / (a * a)). exists (cart a e2 rx).
  unfold ground_row, orbit_of. rewrite Ho. cbn [bind]. rewrite Ht. unfold jacobian, radii. rewrite Hs. cbn [bind].
  rewrite Hd. fold e2. fold p. eexists. split; [now apply cart_map|]. split; [reflexivity|]. split; [reflexivity|].
  assert (Q : V3 (cart a e2 rx (to_vector42 rx) 0) (cart a e2 rx (to_vector42 rx) 1) (cart a e2 rx (to_vector42 rx) 2) = o_pos o).
  { eapply geodetic_unique; [exact Ha|exact Hb|apply cart_geodetic; assumption|exact Hg]. }
  set (rho := norm (vsub (o_pos o) p)).
  assert (Hv : vsub (o_pos o) p <> Vec3.vzero).
  { intros E. apply Hne. unfold vsub, Vec3.vzero in E.
    assert (vx (o_pos o) - vx p = 0) by congruence. assert (vy (o_pos o) - vy p = 0) by congruence.
    assert (vz (o_pos o) - vz p = 0) by congruence. apply v3_eq; lra. }
  assert (Hr : 0 < rho) by now apply norm_pos.
  intros j Hj. unfold times_jacobian.
  rewrite (nth_indep _ 0 (dot6 [vx (vsub (o_pos o) p) / rho; vy (vsub (o_pos o) p) / rho; vz (vsub (o_pos o) p) / rho; 0; 0; 0]
    (fun i j => du (nth i (geodetic_duals a e2 rx) (dconst 0)) (S j)) 0)) by (rewrite map_length, seq_length; exact Hj).
  rewrite map_nth, seq_nth by exact Hj. cbn [Nat.add].
  set (D i := nth i (geodetic_duals a e2 rx) (dconst 0)).
  assert (T : forall i, (i < 6)%nat -> tracks (S j) (fun h => cart a e2 rx (nudge (to_vector42 rx) j h) i) (D i)).
  { intros i Hi. exact (jacobian_tracks a b rx (to_vector42 rx) j i Ha Hb Hi). }
  set (G := d3_sub (D3 (D 0%nat) (D 1%nat) (D 2%nat)) (D3 (dconst (vx p)) (dconst (vy p)) (dconst (vz p)))).
  assert (RG : reals G = vsub (o_pos o) p).
  { rewrite <- Q. reflexivity. }
  assert (TN : tracks (S j) (fun h => norm (vsub (V3 (cart a e2 rx (nudge (to_vector42 rx) j h) 0)
      (cart a e2 rx (nudge (to_vector42 rx) j h) 1) (cart a e2 rx (nudge (to_vector42 rx) j h) 2)) p)) (dnorm G)).
  { apply tracks_norm; [now rewrite RG|]. unfold G. split; [|split]; cbn [ux uy uz d3_sub vx vy vz vsub];
      apply tracks_sub; try apply tracks_const; apply T; lia. }
  destruct TN as [_ TN]. cbn zeta.
  replace (dot6 _ _ j) with (du (dnorm G) (S j)); [exact TN|].
  unfold dnorm. cbn [dsqrt du re dadd dmul].
  replace (sqrt _) with rho.
  2:{ unfold rho, norm. rewrite <- RG. f_equal. }
  unfold dot6. cbn [map seq fold_right nth]. rewrite <- RG. unfold reals, G. cbn [vx vy vz d3_sub ux uy uz dsub re du dconst].
  fold (D 0%nat) (D 1%nat) (D 2%nat) (D 3%nat) (D 4%nat) (D 5%nat). field. lra.
Qed.
Print Assumptions C80_range_partial.

(** A sphere of radius one, an asset on it and the transmitter. *)
Definition ball : gframe := {| frame_id := 1; shape := Some (1, 1) |}.
Definition inertial : gframe := {| frame_id := 2; shape := None |}.
Definition origin : asset := from_fixed 0 0 0 0 ball.
Definition at_origin (lat lon h : R) (t : Z) (f : gframe) : res gnd_error orbit :=
  Ok {| o_pos := V3 1 0 0; o_vel := Vec3.vzero; o_epoch := t; o_frame := f |}.
Definition sender (p : v3) (f : gframe) (t : Z) : option orbit :=
  Some {| o_pos := p; o_vel := Vec3.vzero; o_epoch := t; o_frame := f |}.
Definition sees (rho : R) (o : orbit) (lat lon h : R) (f : gframe) : res gnd_error aer :=
  Ok {| az_deg := 0; el_deg := 45; range_km := rho; rate_km_s := 0 |}.
Lemma origin_geodetic : geodetic_point 1 1 (lat_deg origin) (lon_deg origin) (height_km origin) (V3 1 0 0).
Proof.
  exists (V3 1 0 0), 1. cbn [lat_deg lon_deg height_km origin from_fixed]. unfold up, rad. rewrite Rmult_0_l, sin_0, cos_0.
  cbn [vx vy vz]. split; [lra|]. split; [field|]. split; apply v3_eq; unfold Vec3.vscale, Vec3.vadd; cbn [vx vy vz]; field.
Qed.
Lemma sphere_cart s q : V3 (cart 1 ((1 * 1 - 1 * 1) / (1 * 1)) s q 0) (cart 1 ((1 * 1 - 1 * 1) / (1 * 1)) s q 1)
    (cart 1 ((1 * 1 - 1 * 1) / (1 * 1)) s q 2) = Vec3.vscale (1 + q 2%nat) (up (q 0%nat) (q 1%nat)).
Proof.
  rewrite cart_position. cbn zeta. replace ((1 * 1 - 1 * 1) / (1 * 1)) with 0 by field.
  replace (1 - 0 * sin (rad (q 0%nat)) * sin (rad (q 0%nat))) with 1 by ring. rewrite sqrt_1.
  apply v3_eq; unfold Vec3.vscale, up; cbn [vx vy vz]; field.
Qed.
(** The entries of the row of the witness: the transmitter at [p], the recorded range [rho]. *)
Lemma origin_row p f rho look : rho <> 0 ->
  exists row, ground_row at_origin (sender p f) look [(Range, rho)] origin Range = Ok row /\
    nth 2 row 0 = (1 - vx p) / rho.
Proof.
  intros Hr. unfold ground_row, orbit_of, at_origin, sender. cbn [bind o_epoch jacobian radii asset_frame origin from_fixed shape ball
    o_pos o_vel get im_get type_eqb]. eexists. split; [reflexivity|].
  unfold times_jacobian. cbn [map seq nth]. unfold dot6. cbn [map seq fold_right nth geodetic_duals].
  cbn [re du dadd dsub dmul ddiv dsqrt dsin dcos dneg dscal dvar dconst lat_deg lon_deg height_km
         lat_rate lon_rate height_rate origin from_fixed Nat.eqb vx vy vz vsub].
  rewrite !Rmult_0_l, sin_0, cos_0. replace ((1 * 1 - 1 * 1) / (1 * 1)) with 0 by field.
  replace (1 - 0 * 0) with 1 by ring. rewrite ?Rmult_0_l, ?Rmult_0_r. rewrite ?Rminus_0_r, sqrt_1. field. exact Hr.
Qed.
(** The other frame is turned by a quarter. *)
Definition turned (o : orbit) (f : gframe) : v3 :=
  if (frame_id f =? frame_id (o_frame o))%Z then o_pos o else V3 (vy (o_pos o)) (- vx (o_pos o)) (vz (o_pos o)).
(** A transmitter held in another frame is not brought to the frame of the asset: the row then says
    that climbing by 1 km takes the asset half a kilometer away from a transmitter straight above. *)
Theorem C80_range_refuted :
  exists (in_frame : orbit -> gframe -> v3) tx row C,
    (forall o, in_frame o (o_frame o) = o_pos o) /\
    sender (V3 0 3 0) inertial (asset_epoch origin) = Some tx /\
    cartesian_map 1 1 C /\
    get Range [(Range, norm (vsub (V3 1 0 0) (in_frame tx ball)))] <> None /\
    ground_row at_origin (sender (V3 0 3 0) inertial) (sees 2) [(Range, norm (vsub (V3 1 0 0) (in_frame tx ball)))] origin Range = Ok row /\
    nth 2 row 0 = 1 / 2 /\
    is_derive (fun h => let c := C (nudge (to_vector42 origin) 2 h) in
                        norm (vsub (V3 (c 0%nat) (c 1%nat) (c 2%nat)) (in_frame tx ball))) 0 (-1).
Proof.
  exists turned. eexists.
  assert (N : norm (vsub (V3 1 0 0) (V3 3 (- 0) 0)) = 2).
  { unfold norm, dot, vsub. cbn [vx vy vz]. replace (_ + _ + _) with (2 * 2) by ring. apply sqrt_square. lra. }
  destruct (origin_row (V3 0 3 0) inertial 2 (sees 2) ltac:(lra)) as (row & Hrow & E).
  exists row, (cart 1 ((1 * 1 - 1 * 1) / (1 * 1)) origin).
  refine (conj _ (conj eq_refl (conj _ (conj _ (conj _ (conj _ _)))))).
  - intros o. unfold turned. now rewrite Z.eqb_refl.
  - apply cart_map; lra.
  - cbn. discriminate.
  - unfold turned. cbn [frame_id ball inertial o_frame o_pos Z.eqb Pos.eqb vx vy vz]. rewrite N. exact Hrow.
  - rewrite E. cbn. field.
  - cbn zeta. unfold turned. cbn [frame_id ball inertial o_frame o_pos Z.eqb Pos.eqb vx vy vz].
    apply (is_derive_ext_loc (fun h => 2 - h)).
    + exists (mkposreal 1 ltac:(lra)). intros h Hh. rewrite sphere_cart.
      cbn [nudge to_vector42 origin from_fixed lat_deg lon_deg height_km Nat.eqb]. unfold nudge.
      cbn [Nat.eqb to_vector42 origin from_fixed lat_deg lon_deg height_km].
      unfold up, rad. rewrite !Rplus_0_l, Rmult_0_l, sin_0, cos_0. unfold norm, dot, vsub, Vec3.vscale. cbn [vx vy vz].
      match goal with |- _ = sqrt ?x => replace x with ((2 - h) * (2 - h)) by ring end. rewrite sqrt_square; [reflexivity|].
      apply Rabs_def2 in Hh as [Hh _]. unfold minus, plus, opp in Hh; cbn in Hh. lra.
    + auto_derive; trivial; ring.
Qed.
Print Assumptions C80_range_refuted.
Example range_example :
  geodetic_point 1 1 (lat_deg origin) (lon_deg origin) (height_km origin) (V3 1 0 0) /\
  (exists tx, sender (V3 3 0 0) ball 0 = Some tx /\ o_frame tx = asset_frame origin) /\
  exists row, ground_row at_origin (sender (V3 3 0 0) ball) (sees 2) [(Range, 2)] origin Range = Ok row /\ nth 2 row 0 = -1.
Proof.
  split; [apply origin_geodetic|]. split; [eexists; now split|].
  destruct (origin_row (V3 3 0 0) ball 2 (sees 2) ltac:(lra)) as (row & H & E). exists row. split; [exact H|]. rewrite E. cbn. field.
Qed.

(** ** The range rate.  The measured one does not depend on the rates of the asset, yet its row does. *)
Definition same_place (s s' : asset) : Prop :=
  lat_deg s = lat_deg s' /\ lon_deg s = lon_deg s' /\ height_km s = height_km s' /\
  asset_epoch s = asset_epoch s' /\ asset_frame s = asset_frame s'.
Theorem C80_rates_unseen :
  forall tx_at look types stamp noises s s', same_place s s' ->
    measure_instantaneous tx_at look types stamp noises s = measure_instantaneous tx_at look types stamp noises s'.
Proof.
  intros tx_at look types stamp noises s s' (A & B & C & D & E). unfold measure_instantaneous. now rewrite A, B, C, D, E.
Qed.
Print Assumptions C80_rates_unseen.
Theorem C80_doppler_refuted :
  exists m row, measure_instantaneous (sender (V3 2 3 0) ball) (sees (sqrt 10)) [Range; Doppler] 0 [0; 0] origin = Ok (Some m) /\
    ground_row at_origin (sender (V3 2 3 0) ball) (sees (sqrt 10)) (m_data m) origin Doppler = Ok row /\
    nth 4 row 0 < 0 /\
    forall rate, exists s, same_place origin s /\ lon_rate s = rate /\
      measure_instantaneous (sender (V3 2 3 0) ball) (sees (sqrt 10)) [Range; Doppler] 0 [0; 0] s = Ok (Some m).
Proof.
  assert (M : exists m, measure_instantaneous (sender (V3 2 3 0) ball) (sees (sqrt 10)) [Range; Doppler] 0 [0; 0] origin = Ok (Some m)
    /\ m_data m = [(Range, sqrt 10 + 0); (Doppler, 0 + 0)]).
  { unfold measure_instantaneous, sender, sees. cbn [bind el_deg]. destruct (Rlt_dec 45 0) as [H|_]; [lra|].
    cbn [ground_data ground_value bind range_km rate_km_s]. eexists. split; reflexivity. }
  destruct M as (m & M & Dm). exists m. rewrite Dm.
  assert (P : 0 < sqrt 10) by (apply sqrt_lt_R0; lra). pose proof PI_RGT_0 as PI0.
  eexists. split; [exact M|]. split.
  { unfold ground_row, orbit_of, at_origin, sender. cbn [bind o_epoch jacobian radii asset_frame origin from_fixed shape ball
    o_pos o_vel get im_get type_eqb]. reflexivity. }
  split.
  - unfold times_jacobian. cbn [map seq nth]. unfold dot6. cbn [map seq fold_right nth geodetic_duals].
    cbn [re du dadd dsub dmul ddiv dsqrt dsin dcos dneg dscal dvar dconst lat_deg lon_deg height_km
         lat_rate lon_rate height_rate origin from_fixed Nat.eqb vx vy vz vsub Vec3.vzero].
    rewrite !Rmult_0_l, sin_0, cos_0. replace ((1 * 1 - 1 * 1) / (1 * 1)) with 0 by field.
    replace (1 - 0 * 0) with 1 by ring. rewrite ?Rmult_0_l, ?Rmult_0_r. rewrite ?Rminus_0_r, ?Rplus_0_r, sqrt_1.
    match goal with |- ?x < 0 => replace x with (- (3 / sqrt 10 * (PI / 180))) by (field; lra) end.
    assert (0 < 3 / sqrt 10 * (PI / 180)) by (apply Rmult_lt_0_compat; apply Rdiv_lt_0_compat; lra). lra.
  - intros rate. exists {| lat_deg := 0; lon_deg := 0; height_km := 0; lat_rate := 0; lon_rate := rate; height_rate := 0;
      asset_epoch := 0; asset_frame := ball; asset_stm := None |}.
    split; [now repeat split|]. split; [reflexivity|]. rewrite <- M. symmetry. apply C80_rates_unseen. now repeat split.
Qed.
Print Assumptions C80_doppler_refuted.

(** ** The name of the tracker is fixed: the measurements of two devices carry the same one, which is the
    name of neither. *)
Theorem C80_tracker_refuted :
  (forall tx_at look types stamp noises s m,
    measure_instantaneous tx_at look types stamp noises s = Ok (Some m) -> m_tracker m = "GroundAsset"%string) /\
  exists m m', measure_instantaneous (sender (V3 2 3 0) ball) (sees 3) [Range] 0 [0] origin = Ok (Some m) /\
    measure_instantaneous (sender (V3 4 5 0) ball) (sees 6) [Range] 0 [0] origin = Ok (Some m') /\
    m_tracker m = m_tracker m' /\ device_name (Some "A"%string) <> device_name (Some "B"%string) /\
    m_tracker m <> device_name (Some "A"%string) /\ m_tracker m <> device_name (Some "B"%string).
Proof.
  split.
  - intros tx_at look types stamp noises s m. unfold measure_instantaneous. destruct (tx_at _); [|discriminate].
    destruct (look _ _ _ _ _) as [a| | |]; cbn [bind]; try discriminate. destruct (Rlt_dec _ _); [discriminate|].
    destruct (ground_data _ _ _) as [dt| | |]; cbn [bind]; try discriminate. intros H. now assert (m_tracker m = "GroundAsset"%string) by (injection H as <-; reflexivity).
  - unfold measure_instantaneous, sender, sees. cbn [bind el_deg]. destruct (Rlt_dec 45 0) as [H|_]; [lra|].
    cbn [ground_data ground_value bind range_km rate_km_s]. do 2 eexists. split; [reflexivity|]. split; [reflexivity|].
    cbn. repeat split; discriminate.
Qed.
Print Assumptions C80_tracker_refuted.

(** ** What is measured: the geometry plus the noise, and with an integration time the average of both
    ends plus the noise over the square root of two, only with the transmitter above the horizon. *)
Lemma ground_data_get types : forall a noises d t n w, NoDup types -> ground_data types a noises = Ok d ->
  nth_error types n = Some t -> nth_error noises n = Some w ->
  exists x, ground_value t a = Some x /\ get t d = Some (x + w).
Proof.
  unfold get. induction types as [|u types IH]; intros a noises d t n w Hn Hd Ht Hw; [destruct n; discriminate|].
  destruct noises as [|v noises]; [discriminate|]. cbn [ground_data] in Hd. destruct (ground_value u a) as [x|] eqn:Eu; [|discriminate].
  destruct (ground_data types a noises) as [d'| | |] eqn:Ed; cbn [bind] in Hd; try discriminate.
  assert (d = (u, x + v) :: d') as -> by congruence. inversion Hn as [|? ? Hni Hn']; subst. destruct n as [|n]; cbn [nth_error] in Ht, Hw.
  - assert (u = t) as -> by congruence. assert (v = w) as -> by congruence. exists x. split; [exact Eu|].
    cbn [im_get]. unfold type_eqb. now destruct (msr_type_eq_dec t t).
  - destruct (IH a noises d' t n w Hn' Ed Ht Hw) as (y & Y1 & Y2). exists y. split; [exact Y1|]. cbn [im_get]. unfold type_eqb at 1.
    destruct (msr_type_eq_dec t u) as [->|_]; [exfalso; apply Hni; eapply nth_error_In, Ht|exact Y2].
Qed.
Theorem C80_instantaneous :
  forall tx_at look types stamp noises s m, NoDup types ->
    measure_instantaneous tx_at look types stamp noises s = Ok (Some m) ->
    m_epoch m = (asset_epoch s + stamp)%Z /\
    exists tx a, tx_at (asset_epoch s) = Some tx /\ look tx (lat_deg s) (lon_deg s) (height_km s) (asset_frame s) = Ok a /\
      0 <= el_deg a /\
      forall n t w, nth_error types n = Some t -> nth_error noises n = Some w ->
        exists x, get t (m_data m) = Some (x + w) /\ ((t = Range /\ x = range_km a) \/ (t = Doppler /\ x = rate_km_s a)).
Proof.
  intros tx_at look types stamp noises s m Hn. unfold measure_instantaneous.
  destruct (tx_at (asset_epoch s)) as [tx|]; [|discriminate].
  destruct (look _ _ _ _ _) as [a| | |] eqn:Ea; cbn [bind]; try discriminate.
  destruct (Rlt_dec (el_deg a) 0) as [|He]; [discriminate|].
  destruct (ground_data types a noises) as [d| | |] eqn:Ed; cbn [bind]; try discriminate. intros H.
  injection H as <-. cbn [m_epoch m_data]. split; [reflexivity|]. exists tx, a. do 2 (split; [trivial|]). split; [lra|].
  intros n t w Ht Hw. destruct (ground_data_get _ _ _ _ _ _ _ Hn Ed Ht Hw) as (x & Hx & G). exists x. split; [exact G|].
  destruct t; try discriminate Hx; cbn in Hx; [left|right]; split; congruence.
Qed.
Print Assumptions C80_instantaneous.
Lemma averaged_data_get types : forall d0 d1 noises d t n w, NoDup types -> averaged_data types d0 d1 noises = Ok d ->
  nth_error types n = Some t -> nth_error noises n = Some w ->
  exists x0 x1, get t d0 = Some x0 /\ get t d1 = Some x1 /\ get t d = Some ((x0 + x1) / 2 + w / sqrt 2).
Proof.
  induction types as [|u types IH]; intros d0 d1 noises d t n w Hn Hd Ht Hw; [destruct n; discriminate|].
  destruct noises as [|v noises]; [discriminate|]. cbn [averaged_data] in Hd.
  destruct (get u d0) as [x0|] eqn:E0; [|discriminate]. destruct (get u d1) as [x1|] eqn:E1; [|discriminate].
  destruct (averaged_data types d0 d1 noises) as [d'| | |] eqn:Ed; cbn [bind] in Hd; try discriminate.
  assert (d = (u, (x1 + x0) * (1 / 2) + v / sqrt 2) :: d') as -> by congruence.
  inversion Hn as [|? ? Hni Hn']; subst. destruct n as [|n]; cbn [nth_error] in Ht, Hw.
  - assert (u = t) as -> by congruence. assert (v = w) as -> by congruence. exists x0, x1. split; [exact E0|]. split; [exact E1|].
    unfold get. cbn [im_get]. unfold type_eqb. destruct (msr_type_eq_dec t t); [|congruence]. f_equal. field.
    apply Rgt_not_eq, sqrt_lt_R0. lra.
  - destruct (IH d0 d1 noises d' t n w Hn' Ed Ht Hw) as (y & z & Y1 & Y2 & Y3). exists y, z. split; [exact Y1|]. split; [exact Y2|].
    unfold get in *. cbn [im_get]. unfold type_eqb at 1.
    destruct (msr_type_eq_dec t u) as [->|_]; [exfalso; apply Hni; eapply nth_error_In, Ht|exact Y3].
Qed.
Theorem C80_averaged :
  forall tx_at look types epoch stamp noises rx0 rx1 m, NoDup types ->
    measure_averaged tx_at look types epoch stamp noises (Some (rx0, rx1)) = Ok (Some m) ->
    m_epoch m = (epoch + stamp)%Z /\
    exists m0 m1 zeros, Forall (fun x => x = 0) zeros /\
      measure_instantaneous tx_at look types 0 zeros rx0 = Ok (Some m0) /\
      measure_instantaneous tx_at look types 0 zeros rx1 = Ok (Some m1) /\
      forall n t w, nth_error types n = Some t -> nth_error noises n = Some w ->
        exists x0 x1, get t (m_data m0) = Some x0 /\ get t (m_data m1) = Some x1 /\
          get t (m_data m) = Some ((x0 + x1) / 2 + w / sqrt 2).
Proof.
  intros tx_at look types epoch stamp noises rx0 rx1 m Hn. unfold measure_averaged.
  destruct (measure_instantaneous tx_at look types 0 (map (fun _ => 0) types) rx0) as [[m0|]| | |] eqn:E0; cbn [bind]; try discriminate.
  - destruct (measure_instantaneous tx_at look types 0 (map (fun _ => 0) types) rx1) as [[m1|]| | |] eqn:E1; cbn [bind]; try discriminate.
    destruct (averaged_data _ _ _ _) as [d| | |] eqn:Ed; cbn [bind]; try discriminate. intros H. injection H as <-.
    cbn [m_epoch m_data]. split; [reflexivity|]. exists m0, m1, (map (fun _ => 0) types).
    split; [|split; [exact E0|split; [exact E1|]]].
    + apply Forall_forall. intros x Hx. apply in_map_iff in Hx as (? & <- & _). reflexivity.
    + intros n t w. now apply averaged_data_get.
  - destruct (measure_instantaneous tx_at look types 0 (map (fun _ => 0) types) rx1) as [[m1|]| | |]; cbn [bind]; discriminate.
Qed.
Print Assumptions C80_averaged.
(** The transmitter sinks by 4 km between the ends. *)
Example averaged_example :
  exists m, measure_averaged (fun t => sender (V3 (IZR t) 0 0) ball t)
    (fun o _ _ _ _ => Ok {| az_deg := 0; el_deg := 45; range_km := vx (o_pos o) - 1; rate_km_s := 0 |}) [Range] 7 0 [0]
    (Some (from_fixed 0 0 0 7 ball, from_fixed 0 0 0 3 ball)) = Ok (Some m) /\ get Range (m_data m) = Some 4.
Proof.
  unfold measure_averaged, measure_instantaneous, sender. cbn [bind el_deg]. destruct (Rlt_dec 45 0) as [H|_]; [lra|].
  cbn [map ground_data ground_value bind range_km rate_km_s m_data averaged_data get im_get type_eqb].
  eexists. split; [reflexivity|]. cbn [m_data].
  match goal with |- get Range [(Range, ?x)] = _ => change (Some x = Some 4); replace x with 4; [reflexivity|] end.
  cbn [o_pos vx asset_epoch from_fixed]. field. apply Rgt_not_eq, sqrt_lt_R0. lra.
Qed.

(** ** The sensitivity matrix *)

(** Rows of observables that were measured are their sensitivities... *)
Theorem C80_present : forall try_latlongalt tx_at look m d types rx h j t,
  ground_h_tilde try_latlongalt tx_at look m d types rx = Ok h ->
  nth_error types j = Some t -> get t d <> None ->
  exists r, ground_row try_latlongalt tx_at look d rx t = Ok r /\ nth_error h j = Some r.
Proof.
  intros tl tx look m d types rx h j t H Ht Hd. unfold ground_h_tilde in H. apply Sens_Matrix.h_rows_spec in H as (_ & H).
  specialize (H j). cbn [Nat.ltb Nat.leb] in H. rewrite Nat.sub_0_r, Ht in H. destruct (get t d); [exact H|now elim Hd].
Qed.
(** ...but those of the others are not null: the second observable of a measurement that lacks it
    counts as a sight of the longitude, whose residual is zero. *)
Theorem C80_absent_refuted : forall try_latlongalt tx_at look m d types rx h j,
  ground_h_tilde try_latlongalt tx_at look m d types rx = Ok h -> (j < m)%nat ->
  (forall t, nth_error types j = Some t -> get t d = None) ->
  exists r, nth_error h j = Some r /\ length r = 6%nat /\ forall k, (k < 6)%nat -> nth k r 0 = if Nat.eqb k j then 1 else 0.
Proof.
  intros tl tx look m d types rx h j H Hj Ha. unfold ground_h_tilde in H. apply Sens_Matrix.h_rows_spec in H as (_ & H).
  specialize (H j). cbn [Nat.ltb Nat.leb] in H. rewrite Nat.sub_0_r in H.
  assert (E : nth_error h j = nth_error (ground_identity m) j).
  { destruct (nth_error types j) as [t|]; [|exact H]. now rewrite (Ha t eq_refl) in H. }
  rewrite E. unfold ground_identity.
  rewrite (map_nth_error _ j (seq 0 m) (d := j)).
  2:{ rewrite (nth_error_nth' _ 0%nat) by (rewrite seq_length; lia). now rewrite seq_nth. }
  eexists. split; [reflexivity|]. split; [reflexivity|].
  intros k Hk. rewrite Nat.eqb_sym. do 6 (destruct k as [|k]; [reflexivity|]). lia.
Qed.
(** A range alone, for a device of range and Doppler. *)
Example matrix_case : exists h, ground_h_tilde at_origin
    (sender (V3 2 3 0) ball) (sees 3) 2 [(Range, 3)] [Range; Doppler] origin = Ok h /\
  nth_error [Range; Doppler] 0 = Some Range /\ get Range [(Range, 3)] <> None /\ get Doppler [(Range, 3)] = None.
Proof.
  unfold ground_h_tilde. cbn [h_rows get im_get type_eqb]. eexists. split; [|split; [reflexivity|split; [discriminate|reflexivity]]].
  unfold ground_row, orbit_of. reflexivity.
Qed.
Print Assumptions C80_present.
Print Assumptions C80_absent_refuted.
