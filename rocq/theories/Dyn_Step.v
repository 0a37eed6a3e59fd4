(** More lemmas about one step: when it succeeds, two steps related entry by entry, and the
    state transition matrix of a spacecraft. *)
From Coq Require Import Reals ZArith Lra.
From Verif Require Import Base Vec3 Sc_Model Guid_Model Dyn_Model Dyn_Proofs.
From Verif Require Prop_Model Prop_Inv RK_Spec.
Local Open Scope R_scope.

(** ** When a step succeeds *)
Section Total.
Import Prop_Model.
Context {St V F E : Type} (e : env St V F E).

Lemma stage_sum_total ks : forall a_idx ci wi, (a_idx + length ks <= length (a_coeffs (meth e)))%nat ->
  exists c w, stage_sum e ks a_idx ci wi = Some (c, w, (a_idx + length ks)%nat).
Proof.
  induction ks as [|k ks IH]; intros a_idx ci wi H; cbn [stage_sum length] in *.
  - exists ci, wi. do 2 f_equal. lia.
  - destruct (nth_error (a_coeffs (meth e)) a_idx) as [a|] eqn:Ea.
    + destruct (IH (S a_idx) (ci + a) (vadd e wi (vscale e a k)) ltac:(lia)) as (c & w & ->).
      exists c, w. do 2 f_equal. lia.
    + apply nth_error_None in Ea. lia.
Qed.

Fixpoint need (n k : nat) : nat := match n with O => O | S n => (k + need n (S k))%nat end.

Lemma need_eq n : forall k, (2 * need n k + n = n * (2 * k + n))%nat.
Proof. induction n as [|n IH]; intros k; cbn [need]; [reflexivity|]. specialize (IH (S k)). nia. Qed.

Lemma stage_loop_total s : (forall dt v, exists k, eom e dt v s = Ok k) ->
  forall n a_idx ks sv h, (a_idx + need n (length ks) <= length (a_coeffs (meth e)))%nat ->
  exists ks', stage_loop e n a_idx ks sv s h = Ok ks' /\ length ks' = (length ks + n)%nat.
Proof.
  intros He. induction n as [|n IH]; intros a_idx ks sv h H; cbn [stage_loop need] in *.
  - exists ks. split; [reflexivity|lia].
  - destruct (stage_sum_total ks a_idx 0 (vzero e) ltac:(lia)) as (c & w & ->).
    destruct (He (c * h) (vadd e sv (vscale e h w))) as [k ->]. cbn [bind].
    destruct (IH (a_idx + length ks)%nat (ks ++ [k]) sv h) as (ks' & E1 & E2).
    { rewrite app_length. cbn [length]. replace (length ks + 1)%nat with (S (length ks)) by lia. lia. }
    exists ks'. split; [exact E1|]. rewrite E2, app_length. cbn [length]. lia.
Qed.

Lemma combine_total ks : forall i fixed h next err,
  (i + length ks <= stages (meth e))%nat -> length (b_coeffs (meth e)) = (2 * stages (meth e))%nat ->
  exists r, combine_stages e ks i fixed h next err = Some r.
Proof.
  induction ks as [|k ks IH]; intros i fixed h next err H Hb; cbn [combine_stages length] in *; [eauto|].
  destruct (nth_error (b_coeffs (meth e)) i) as [b|] eqn:Eb; [|apply nth_error_None in Eb; lia].
  destruct fixed; [apply IH; [lia|exact Hb]|].
  destruct (nth_error (b_coeffs (meth e)) (i + stages (meth e))) as [b'|] eqn:Eb';
    [|apply nth_error_None in Eb'; lia].
  apply IH; [lia|exact Hb].
Qed.

Lemma try_step_total s fixed h : (forall dt v, exists k, eom e dt v s = Ok k) ->
  RK_Spec.well_formed (meth e) -> exists v err, try_step e s fixed h = Ok (v, err).
Proof.
  intros He (H1 & H2 & H3). unfold try_step.
  destruct (He 0 (to_vector e s)) as [k0 ->]. cbn [bind].
  destruct (stages (meth e)) as [|n] eqn:En; [lia|].
  destruct (stage_loop_total s He n 0 [k0] (to_vector e s) h) as (ks & -> & L).
  { cbn [length]. rewrite H2. pose proof (need_eq n 1) as N.
    replace (S n * (S n - 1))%nat with (need n 1 * 2)%nat by nia.
    rewrite Nat.div_mul by lia. lia. }
  cbn [bind].
  destruct (combine_total ks 0 fixed h (to_vector e s) (vzero e)) as [[v err] ->].
  { rewrite L, En. cbn [length]. lia. }
  { rewrite En. exact H3. }
  eauto.
Qed.

(** A step at fixed size from there. *)
Lemma fixed_step_result i v err s' : fixed_step i = true ->
  try_step e (state i) true (to_secs (step_size i)) = Ok (v, err) ->
  finally e (set_state e (state i) (epoch e (state i) + step_size i)%Z v) = Ok s' ->
  exists i', single_step e i = (i', Ok tt) /\ state i' = s' /\ fixed_step i' = true /\
             step_size i' = step_size i.
Proof.
  intros Hf Ht Hfin. unfold single_step, derive. cbn [derive_loop with_details state fixed_step step_size].
  rewrite Hf, Ht. cbn [with_details state fixed_step step_size]. rewrite Hfin.
  eexists. split; [reflexivity|]. cbn. auto.
Qed.
End Total.

(** ** Two related steps *)
Section Related.
Import Prop_Model.
Context {St V F E : Type} (e : env St V F E) (s1 s2 : St) (Rel : V -> V -> Prop).
Hypothesis rel_add : forall a b a' b', Rel a a' -> Rel b b' -> Rel (vadd e a b) (vadd e a' b').
Hypothesis rel_scale : forall x a a', Rel a a' -> Rel (vscale e x a) (vscale e x a').
Hypothesis rel_zero : Rel (vzero e) (vzero e).
Hypothesis rel_eom : forall dt v v' k, Rel v v' -> eom e dt v s1 = Ok k ->
  exists k', eom e dt v' s2 = Ok k' /\ Rel k k'.

Lemma stage_sum_rel ks ks' : Forall2 Rel ks ks' -> forall a ci wi wi' c w a',
  Rel wi wi' -> stage_sum e ks a ci wi = Some (c, w, a') ->
  exists w', stage_sum e ks' a ci wi' = Some (c, w', a') /\ Rel w w'.
Proof.
  induction 1 as [|k k' ks ks' Hk Hks IH]; intros a ci wi wi' c w a' Hw H; cbn [stage_sum] in *.
  - exists wi'. assert (ci = c) as <- by congruence. assert (a = a') as <- by congruence.
    assert (wi = w) as <- by congruence. auto.
  - destruct (nth_error (a_coeffs (meth e)) a) as [x|]; [|discriminate].
    eapply IH; [|exact H]. auto.
Qed.

Lemma stage_loop_rel : forall n a ks ks' sv sv' h r, Forall2 Rel ks ks' -> Rel sv sv' ->
  stage_loop e n a ks sv s1 h = Ok r ->
  exists r', stage_loop e n a ks' sv' s2 h = Ok r' /\ Forall2 Rel r r'.
Proof.
  induction n as [|n IH]; intros a ks ks' sv sv' h r Hks Hsv H; cbn [stage_loop] in *.
  - assert (ks = r) as <- by congruence. eauto.
  - destruct (stage_sum e ks a 0 (vzero e)) as [[[c w] a']|] eqn:Es; [|discriminate].
    destruct (stage_sum_rel _ _ Hks _ _ _ _ _ _ _ rel_zero Es) as (w' & -> & Hw).
    destruct (eom e (c * h) (vadd e sv (vscale e h w)) s1) as [k|x| |] eqn:Ek; cbn [bind] in H; try discriminate.
    destruct (rel_eom _ _ (vadd e sv' (vscale e h w')) _ (rel_add _ _ _ _ Hsv (rel_scale _ _ _ Hw)) Ek) as (k' & -> & Hk). cbn [bind].
    eapply IH; [|exact Hsv|exact H]. apply Forall2_app; auto.
Qed.

Lemma combine_rel ks ks' : Forall2 Rel ks ks' -> forall i h next next' err err' v er,
  Rel next next' -> combine_stages e ks i true h next err = Some (v, er) ->
  exists v' er', combine_stages e ks' i true h next' err' = Some (v', er') /\ Rel v v'.
Proof.
  induction 1 as [|k k' ks ks' Hk Hks IH]; intros i h next next' err err' v er Hn H; cbn [combine_stages] in *.
  - assert (next = v) as <- by congruence. eauto.
  - destruct (nth_error (b_coeffs (meth e)) i) as [b|]; [|discriminate].
    eapply IH; [|exact H]. auto.
Qed.

Lemma try_step_rel h v err : Rel (to_vector e s1) (to_vector e s2) ->
  try_step e s1 true h = Ok (v, err) ->
  exists v' err', try_step e s2 true h = Ok (v', err') /\ Rel v v'.
Proof.
  intros H0 H. unfold try_step in *.
  destruct (eom e 0 (to_vector e s1) s1) as [k|x| |] eqn:Ek; cbn [bind] in H; try discriminate.
  destruct (rel_eom _ _ _ _ H0 Ek) as (k' & -> & Hk). cbn [bind].
  destruct (stages (meth e)) as [|n]; [discriminate|].
  destruct (stage_loop e n 0 [k] (to_vector e s1) s1 h) as [ks|x| |] eqn:Es; cbn [bind] in H; try discriminate.
  destruct (stage_loop_rel _ _ _ [k'] _ _ _ _ (Forall2_cons _ _ Hk (Forall2_nil _)) H0 Es) as (ks' & -> & Hks). cbn [bind].
  destruct (combine_stages e ks 0 true h (to_vector e s1) (vzero e)) as [[w er]|] eqn:Ec; [|discriminate].
  destruct (combine_rel _ _ Hks _ _ _ _ _ (vzero e) _ _ H0 Ec) as (v' & er' & -> & Hv).
  exists v', er'. split; [reflexivity|]. congruence.
Qed.
End Related.

(** ** The state transition matrix *)
Lemma sum9_ext f g : (forall l, (l < 9)%nat -> f l = g l) -> sum9 f = sum9 g.
Proof. intros H. unfold sum9. cbn [seq fold_right]. rewrite !H by lia. reflexivity. Qed.
Lemma sum9_add f g : sum9 (fun l => f l + g l) = sum9 f + sum9 g.
Proof. unfold sum9. cbn [seq fold_right]. ring. Qed.
Lemma sum9_scale x f : sum9 (fun l => x * f l) = x * sum9 f.
Proof. unfold sum9. cbn [seq fold_right]. ring. Qed.
Lemma sum9_zero : sum9 (fun _ => 0) = 0.
Proof. unfold sum9. cbn [seq fold_right]. ring. Qed.

Definition delta9 (i j : nat) : R := if Nat.eqb i j then 1 else 0.

Lemma sum9_delta i f : (i < 9)%nat -> sum9 (fun l => delta9 i l * f l) = f i.
Proof.
  intros H. do 9 (destruct i as [|i]; [unfold sum9, delta9; cbn [seq fold_right Nat.eqb]; ring|]). lia.
Qed.

Lemma index9 i j : (i < 9)%nat -> ((9 * j + i) mod 9 = i /\ (9 * j + i) / 9 = j)%nat.
Proof.
  intros Hi. split.
  - rewrite Nat.add_comm, Nat.mul_comm, Nat.mod_add by lia. now apply Nat.mod_small.
  - symmetry. apply (Nat.div_unique _ 9 j i); lia.
Qed.

Lemma nth_map_seq (f : nat -> R) n k : (k < n)%nat -> nth k (map f (seq 0 n)) 0 = f k.
Proof.
  intros H. rewrite nth_indep with (d' := f 0%nat) by (rewrite map_length, seq_length; exact H).
  rewrite map_nth, seq_nth by exact H. reflexivity.
Qed.

Lemma entry_times m g i j : (i < 9)%nat -> (j < 9)%nat ->
  entry (times m g) i j = sum9 (fun l => entry m i l * g l j).
Proof.
  intros Hi Hj. unfold entry at 1, times. rewrite nth_map_seq by lia.
  destruct (index9 i j Hi) as [-> ->]. reflexivity.
Qed.

Lemma entry_identity i j : (i < 9)%nat -> (j < 9)%nat -> entry identity9 i j = delta9 i j.
Proof.
  intros Hi Hj. unfold entry, identity9, delta9. rewrite nth_map_seq by lia.
  destruct (index9 i j Hi) as [-> ->]. rewrite Nat.eqb_sym. reflexivity.
Qed.

(** The entry (i, j) of the transition matrix in a vector of 90 components. *)
Definition cell (i j : nat) (v : list R) : R := nth (9 + (9 * j + i)) v 0.

Lemma cell_entry i j a b c d e f g h k (m : list R) :
  cell i j ([a; b; c; d; e; f; g; h; k] ++ m) = entry m i j.
Proof. unfold cell, entry. cbn [app nth plus]. reflexivity. Qed.

Lemma nth_skipn (v : list R) : forall n k, nth k (skipn n v) 0 = nth (n + k) v 0.
Proof.
  induction v as [|x v IH]; intros [|n] k; cbn [skipn plus nth]; try reflexivity.
  - destruct k; reflexivity.
  - apply IH.
Qed.

Lemma entry_skipn v i j : entry (skipn 9 v) i j = cell i j v.
Proof. unfold entry, cell. apply nth_skipn. Qed.

Section Stm.
Context (d : dynamics) (of_secs : R -> Z)
        (transform : orbit -> nat -> res dyn_error orbit)
        (estimate : list R -> list R -> list R -> R)
        (m : Prop_Model.method) (o : Prop_Model.options nat).
Notation env := (sc_env d of_secs transform estimate m o).

Lemma cell_add i j a b : (i < 9)%nat -> (j < 9)%nat ->
  cell i j (Prop_Model.vadd env a b) = cell i j a + cell i j b.
Proof.
  intros Hi Hj. unfold cell. cbn [sc_env Prop_Model.vadd]. unfold vec90_add. now rewrite nth_vec90 by lia.
Qed.
Lemma cell_scale i j x a : (i < 9)%nat -> (j < 9)%nat ->
  cell i j (Prop_Model.vscale env x a) = x * cell i j a.
Proof.
  intros Hi Hj. unfold cell. cbn [sc_env Prop_Model.vscale]. unfold vec90_scale. now rewrite nth_vec90 by lia.
Qed.

(** With a transition matrix there is no guidance, and its derivative is its product with
    the gradient. *)
Lemma eom_stm dt v ctx k M : stm ctx = Some M -> eom of_secs d dt v ctx = Ok k ->
  guid_law d = None /\
  exists dr dv g, dual_eom d (at_stage of_secs ctx dt v) = Ok (dr, dv, g) /\
    k = [vx dr; vy dr; vz dr; vx dv + 0; vy dv + 0; vz dv + 0; 0; 0; 0] ++ times M g /\
    forall i j, (i < 9)%nat -> (j < 9)%nat -> cell i j k = sum9 (fun l => entry M i l * g l j).
Proof.
  intros HM H. destruct (eom_inv _ _ _ _ _ _ H) as (dr & dv & dstm & f & rate & Hn & Hg & ->).
  unfold natural_eom in Hn. rewrite HM in Hn.
  destruct (dual_eom d (at_stage of_secs ctx dt v)) as [[[dr' dv'] g]|x| |] eqn:Hd; cbn [bind] in Hn; try discriminate.
  assert (dr' = dr) as -> by congruence. assert (dv' = dv) as -> by congruence.
  assert (dstm = times M g) as -> by congruence.
  assert (G : guid_law d = None).
  { unfold dual_eom in Hd. destruct (orbital_dual d _) as [[[a b] c]|x| |]; cbn [bind] in Hd; try discriminate.
    destruct (guid_law d); [discriminate|reflexivity]. }
  rewrite G in Hg. destruct Hg as [-> ->]. split; [exact G|]. exists dr, dv, g. split; [reflexivity|].
  split.
  - unfold vadd, vscale, vzero. cbn [vx vy vz]. cbv zeta. rewrite !Rmult_0_r. reflexivity.
  - intros i j Hi Hj. cbv zeta. rewrite cell_entry. now apply entry_times.
Qed.

(** The force models do not look at the transition matrix. *)
Definition blind : Prop := forall f, In f (force_models d) -> forall sc x,
  f_gradient f (with_stm_value sc x) = f_gradient f sc.

Lemma gradients_blind l : (forall f, In f l -> forall sc x, f_gradient f (with_stm_value sc x) = f_gradient f sc) ->
  forall sc x a g, add_gradients l (with_stm_value sc x) a g = add_gradients l sc a g.
Proof.
  induction l as [|f l IH]; intros H sc x a g; cbn [add_gradients]; [reflexivity|].
  rewrite (H f (or_introl eq_refl)).
  change (mass_kg (with_stm_value sc x)) with (mass_kg sc).
  destruct (f_gradient f sc) as [fg|e| |]; cbn [bind]; try reflexivity.
  apply IH. intros f' Hf'. apply H. now right.
Qed.

Lemma dual_blind sc x : blind -> dual_eom d (with_stm_value sc x) = dual_eom d sc.
Proof.
  intros H. unfold dual_eom. change (sc_orbit (with_stm_value sc x)) with (sc_orbit sc).
  destruct (orbital_dual d (sc_orbit sc)) as [[[v a] g]|e| |]; cbn [bind]; try reflexivity.
  destruct (guid_law d); [reflexivity|]. now rewrite gradients_blind.
Qed.

(** A vector whose transition matrix is [M] times that of another. *)
Definition scaled_by (M : list R) (v v' : list R) : Prop :=
  (forall i, (i < 9)%nat -> nth i v 0 = nth i v' 0) /\
  (forall i j, (i < 9)%nat -> (j < 9)%nat -> cell i j v = sum9 (fun l => entry M i l * cell l j v')).

Lemma step_scaled i i' M : blind -> Prop_Model.fixed_step i = true ->
  stm (Prop_Model.state i) = Some M ->
  Prop_Model.single_step env i = (i', Ok tt) ->
  exists i2 M' P, Prop_Model.single_step env (Prop_Model.with_state i (with_stm (Prop_Model.state i))) = (i2, Ok tt) /\
    stm (Prop_Model.state i') = Some M' /\ stm (Prop_Model.state i2) = Some P /\
    sc_orbit (Prop_Model.state i2) = sc_orbit (Prop_Model.state i') /\
    (forall r c, (r < 9)%nat -> (c < 9)%nat -> entry M' r c = sum9 (fun l => entry M r l * entry P l c)).
Proof.
  intros Hb Hf HM H.
  apply Prop_Inv.single_step_state in H as (i1 & t & v & Hd & Hfin).
  destruct (Prop_Inv.derive_step _ _ _ _ _ Hd) as (h & err & Ht & Hh & _ & _).
  destruct (Hh Hf) as [-> ->]. clear Hh. rewrite Hf in Ht.
  set (s := Prop_Model.state i) in *.
  assert (G : guid_law d = None).
  { unfold Prop_Model.try_step in Ht.
    destruct (Prop_Model.eom env 0 (Prop_Model.to_vector env s) s) as [k0|x| |] eqn:He;
      cbn [bind] in Ht; try discriminate.
    now apply (eom_stm _ _ _ _ M HM) in He as [G _]. }
  destruct (try_step_rel env s (with_stm s) (scaled_by M)) with (h := Prop_Model.to_secs (Prop_Model.step_size i))
    (v := v) (err := err) as (v' & err' & Ht' & Hv); [| | | | |exact Ht|].
  - intros a b a' b' [A1 A2] [B1 B2]. split.
    + intros q Hq. cbn [sc_env Prop_Model.vadd]. unfold vec90_add. rewrite !nth_vec90 by lia. now rewrite A1, B1.
    + intros r c Hr Hc. rewrite cell_add by assumption. rewrite A2, B2 by assumption. rewrite <- sum9_add.
      apply sum9_ext. intros l Hl. rewrite cell_add by assumption. ring.
  - intros x a a' [A1 A2]. split.
    + intros q Hq. cbn [sc_env Prop_Model.vscale]. unfold vec90_scale. rewrite !nth_vec90 by lia. now rewrite A1.
    + intros r c Hr Hc. rewrite cell_scale by assumption. rewrite A2 by assumption. rewrite <- sum9_scale.
      apply sum9_ext. intros l Hl. rewrite cell_scale by assumption. ring.
  - assert (Z : forall q, nth q (repeat 0 90) 0 = 0).
    { intros q. destruct (Nat.lt_ge_cases q 90) as [L|L].
      - apply (repeat_spec 90 0). apply nth_In. now rewrite repeat_length.
      - apply nth_overflow. now rewrite repeat_length. }
    split; [reflexivity|]. intros r c Hr Hc. cbn [sc_env Prop_Model.vzero]. unfold cell. rewrite Z.
    symmetry. rewrite (sum9_ext _ (fun _ => 0)); [apply sum9_zero|]. intros l Hl. rewrite Z. ring.
  - intros dt w w' k [W1 W2] He. cbn [sc_env Prop_Model.eom] in *.
    destruct (eom_stm _ _ _ _ M HM He) as (_ & dr & dv & g & Hdual & Ek & Kc).
    assert (Hst : at_stage of_secs (with_stm s) dt w'
                  = with_stm_value (at_stage of_secs s dt w) (Some (skipn 9 w'))).
    { unfold at_stage, set, with_stm, with_stm_value.
      cbn [sc_orbit epoch frame dry_mass_kg extra_mass_kg srp_area_m2 drag_area_m2 sc_thruster mode
           thrust_direction stm prop_mass_kg coeff_reflectivity coeff_drag].
      rewrite !W1 by lia. reflexivity. }
    assert (He' : exists k', eom of_secs d dt w' (with_stm s) = Ok k' /\
              k' = [vx dr; vy dr; vz dr; vx dv + 0; vy dv + 0; vz dv + 0; 0; 0; 0] ++ times identity9 g).
    { unfold eom in *. fold (at_stage of_secs (with_stm s) dt w'). fold (at_stage of_secs s dt w) in He.
      rewrite Hst. change (mass_kg (with_stm_value (at_stage of_secs s dt w) (Some (skipn 9 w'))))
        with (mass_kg (at_stage of_secs s dt w)).
      destruct (_ || _); [|discriminate]. unfold natural_eom at 1. cbn [with_stm stm with_stm_value].
      rewrite dual_blind by exact Hb. rewrite Hdual. cbn [bind]. rewrite G. cbn [bind fst snd].
      eexists. split; [reflexivity|]. unfold vadd, vscale, vzero. cbn [vx vy vz].
      rewrite !Rmult_0_r. reflexivity. }
    destruct He' as (k' & He' & Ek'). exists k'. split; [exact He'|]. split.
    + intros q Hq. rewrite Ek, Ek'. rewrite !app_nth1 by (cbn [length]; lia). reflexivity.
    + intros r c Hr Hc. rewrite Kc by assumption. apply sum9_ext. intros l Hl. f_equal.
      rewrite Ek', cell_entry, entry_times by assumption.
      rewrite (sum9_ext _ (fun q => delta9 l q * g q c)).
      * symmetry. exact (sum9_delta l (fun q => g q c) Hl).
      * intros q Hq. now rewrite entry_identity.
  - split.
    + intros q Hq. cbn [sc_env Prop_Model.to_vector]. unfold to_vector. rewrite !app_nth1 by (cbn [length]; lia).
      reflexivity.
    + intros r c Hr Hc. cbn [sc_env Prop_Model.to_vector]. unfold to_vector. rewrite cell_entry.
      rewrite HM. cbn [with_stm with_stm_value stm].
      rewrite (sum9_ext _ (fun q => delta9 c q * entry M r q)).
      * symmetry. exact (sum9_delta c (fun q => entry M r q) Hc).
      * intros q Hq. rewrite cell_entry, entry_identity by assumption. unfold delta9. rewrite Nat.eqb_sym. ring.
  - cbn [sc_env Prop_Model.finally Prop_Model.set_state Prop_Model.epoch] in Hfin.
    assert (Hn : forall g, guid_law d = Some g -> mode_only g) by (intros g Hg; congruence).
    destruct (finally_body _ _ _ Hn Hfin) as [Sb Hp]. cbn [set prop_mass_kg] in Hp.
    destruct Hv as [V1 V2].
    set (u := set (with_stm s) (epoch (sc_orbit (with_stm s)) + Prop_Model.step_size i)%Z v').
    assert (Hfin' : finally d u = Ok (mut_thrust_direction u None)).
    { unfold finally. rewrite G. destruct (Rlt_dec (prop_mass_kg u) 0) as [Hlt|_]; [|reflexivity].
      exfalso. unfold u in Hlt. cbn [set prop_mass_kg] in Hlt. rewrite <- V1 in Hlt by lia. lra. }
    destruct (fixed_step_result env (Prop_Model.with_state i (with_stm s)) v' err' (mut_thrust_direction u None))
      as (i2 & E1 & E2 & _ & _).
    + exact Hf.
    + exact Ht'.
    + exact Hfin'.
    + exists i2, (skipn 9 v), (skipn 9 v'). split; [exact E1|].
      rewrite (same_body_stm _ _ Sb), (same_body_orbit _ _ Sb), E2.
      split; [cbn [set stm]; now rewrite HM|]. split; [reflexivity|]. split.
      * unfold u. cbn [mut_thrust_direction with_direction sc_orbit set]. rewrite !V1 by lia. reflexivity.
      * intros r c Hr Hc. rewrite entry_skipn, V2 by assumption. apply sum9_ext. intros l Hl. now rewrite entry_skipn.
Qed.

(** The transition matrix after a step whose gradients are a function of the time since the
    start of the step. *)
Lemma step_stm_timed i i' M (g : R -> matrix9) : Prop_Model.fixed_step i = true ->
  stm (Prop_Model.state i) = Some M ->
  (forall dt v dr dv g', dual_eom d (at_stage of_secs (Prop_Model.state i) dt v) = Ok (dr, dv, g') -> g' = g dt) ->
  Prop_Model.single_step env i = (i', Ok tt) ->
  exists M', stm (Prop_Model.state i') = Some M' /\
    epoch (sc_orbit (Prop_Model.state i')) = (epoch (sc_orbit (Prop_Model.state i)) + Prop_Model.step_size i)%Z /\
    forall r c, (r < 9)%nat -> (c < 9)%nat ->
      let h := Prop_Model.to_secs (Prop_Model.step_size i) in
      entry M' r c = entry M r c + h * Prop_Inv.weighted env
        (map (fun dt => sum9 (fun l => entry M r l * g dt l c))
             (0 :: Prop_Inv.stage_times env h (Prop_Model.stages m - 1) 0 1)) 0.
Proof.
  intros Hf HM Hg H.
  apply Prop_Inv.single_step_state in H as (i1 & t & v & Hd & Hfin).
  destruct (Prop_Inv.derive_step _ _ _ _ _ Hd) as (h & err & Ht & Hh & _ & _).
  destruct (Hh Hf) as [-> ->]. clear Hh. rewrite Hf in Ht.
  set (s := Prop_Model.state i) in *.
  assert (G : guid_law d = None).
  { unfold Prop_Model.try_step in Ht.
    destruct (Prop_Model.eom env 0 (Prop_Model.to_vector env s) s) as [k0|x| |] eqn:He;
      cbn [bind] in Ht; try discriminate.
    now apply (eom_stm _ _ _ _ M HM) in He as [G _]. }
  cbn [sc_env Prop_Model.finally Prop_Model.set_state Prop_Model.epoch] in Hfin.
  assert (Hn : forall g, guid_law d = Some g -> mode_only g) by (intros g0 Hg0; congruence).
  destruct (finally_body _ _ _ Hn Hfin) as [Sb _].
  exists (skipn 9 v). rewrite (same_body_stm _ _ Sb), (same_body_orbit _ _ Sb). cbn [set stm]. rewrite HM.
  split; [reflexivity|]. split; [reflexivity|]. intros r c Hr Hc. cbv zeta. rewrite entry_skipn.
  destruct (Prop_Inv.try_step_functional env (cell r c) (fun a b => cell_add r c a b Hr Hc)
              (fun x a => cell_scale r c x a Hr Hc)
              (fun dt x => x = sum9 (fun l => entry M r l * g dt l c)) s true
              (Prop_Model.to_secs (Prop_Model.step_size i)) v err) as (rates & Hr1 & Hr2 & Hr3).
  - intros dt w k He. cbn [sc_env Prop_Model.eom] in He.
    destruct (eom_stm _ _ _ _ M HM He) as (_ & dr & dv & g' & Hdual & _ & Kc).
    rewrite (Hg _ _ _ _ _ Hdual) in Kc. now apply Kc.
  - exact Ht.
  - rewrite Hr3. f_equal.
    + cbn [sc_env Prop_Model.to_vector]. unfold to_vector. rewrite cell_entry. now rewrite HM.
    + f_equal. f_equal. clear - Hr1. cbn [sc_env Prop_Model.meth] in Hr1.
      set (l := 0 :: _) in Hr1 |- *. clearbody l. induction Hr1 as [|x y l1 l2 E _ IH]; cbn [map]; congruence.
Qed.
End Stm.
