(** C102: the parquet files of the solutions of ground assets. *)
From Coq Require Import Reals String Lra Lia.
From Verif Require Import Base Arc_Model Vec3 Gnd_Model Pq_Model Spq_Model Gpq_Model.
Local Open Scope R_scope.

(** The cell of line [n] of the column [k] holds [v]. *)
Definition holds (f : list (gkey * column)) (k : gkey) (n : nat) (v : option R) : Prop :=
  exists l, In (k, Floats l) f /\ nth_error l n = Some v.

Definition aligned (s : gsolution) : Prop :=
  g_estimates s <> [] /\ length (g_residuals s) = length (g_estimates s) /\
  length (g_gains s) = length (g_estimates s) /\ length (g_ratios s) = length (g_estimates s).

(** What the file says of an estimate, with its residual, gain and ratio. *)
Definition line_of (f : list (gkey * column)) (n : nat) (t u : msr_type) (e : gestimate) (r : option residual)
    (k : option (nat -> nat -> R)) (q : option (nat -> R)) : Prop :=
  let dev := g_deviation e in
  holds f (GValue 0) n (Some (lat_deg (g_nominal e) + dev 0%nat)) /\
  holds f (GValue 1) n (Some (lon_deg (g_nominal e) + dev 1%nat)) /\
  holds f (GValue 2) n (Some (height_km (g_nominal e) + dev 2%nat)) /\
  (forall i, (i < 3)%nat -> holds f (GSigma i) n (Some (sqrt (g_covar e i i)))) /\
  (forall i j, (i <= j < 3)%nat -> holds f (GCov i j) n (Some (g_covar e i j))) /\
  (forall ty, ty = t \/ ty = u ->
     match r with
     | None => holds f (GPrefit ty) n None /\ holds f (GPostfit ty) n None /\ holds f (GNoise ty) n None /\
               holds f (GReal ty) n None /\ holds f (GComputed ty) n None
     | Some r => forall j, nth_error (msr_types r) j = Some ty -> NoDup (msr_types r) ->
               holds f (GPrefit ty) n (Some (prefit r j)) /\ holds f (GPostfit ty) n (Some (postfit r j)) /\
               holds f (GNoise ty) n (Some (noise r j)) /\ holds f (GReal ty) n (Some (real_obs r j)) /\
               holds f (GComputed ty) n (Some (computed_obs r j))
     end) /\
  holds f GRatio n (match r with Some r => Some (ratio r) | None => None end) /\
  (forall i, (i < 3)%nat ->
     holds f (GGain i t) n (match k with Some k => Some (k i 0%nat) | None => None end) /\
     holds f (GGain i u) n (match k with Some k => Some (k i 1%nat) | None => None end) /\
     holds f (GFsr i) n (match q with Some q => Some (q i) | None => None end)).

Lemma some_no_null {A B} (g : A -> B) (l : list A) :
  existsb (fun x : option B => match x with None => true | Some _ => false end) (map (fun a => Some (g a)) l) = false.
Proof. induction l; [reflexivity|exact IHl]. Qed.

Lemma index_of_nth t : forall l j, NoDup l -> nth_error l j = Some t -> index_of t l = Some j.
Proof.
  induction l as [|x l IH]; intros j N E; [destruct j; discriminate|]. inversion N as [|? ? Nx Nl]; subst. cbn [index_of].
  unfold type_eqb. destruct j as [|j]; cbn in E.
  - assert (x = t) as -> by congruence. destruct (msr_type_eq_dec t t) as [_|W]; [reflexivity|now elim W].
  - destruct (msr_type_eq_dec x t) as [->|_]; [elim Nx; eapply nth_error_In, E|]. now rewrite (IH j Nl E).
Qed.

Lemma batch_ok h c : length h = length c ->
  (forall x, In x (combine h c) -> rows (snd x) = match c with [] => 0%nat | y :: _ => rows y end /\ (snd (fst x) = true \/ nulls (snd x) = false)) ->
  g_batch h c = Ok (combine (map fst h) c).
Proof.
  intros L H. unfold g_batch. rewrite L, Nat.eqb_refl. cbn [negb]. cbv zeta.
  match goal with |- (if ?b then _ else _) = _ => assert (b = true) as -> end; [|reflexivity].
  apply forallb_forall. intros x I. destruct (H x I) as (A & B). rewrite A, Nat.eqb_refl. cbn.
  destruct B as [->| ->]; [reflexivity|]. now destruct (snd (fst x)).
Qed.

(** C102: a solution with two observables whose parts have the same length is written whole, one
    line per estimate with the coordinates of its state, their deviations and covariances, its
    residuals, its gains under the names of their observables, and its ratios. *)
Theorem C102_writes_partial : forall show cfg s t u,
  aligned s -> start_epoch cfg = None -> end_epoch cfg = None -> step cfg = None -> g_types s = [t; u] ->
  exists f, g_to_parquet show cfg s = Ok f /\
    (forall k c, In (k, c) f -> rows c = length (g_estimates s)) /\
    forall n e r k q, nth_error (g_estimates s) n = Some e -> nth_error (g_residuals s) n = Some r ->
      nth_error (g_gains s) n = Some k -> nth_error (g_ratios s) n = Some q -> line_of f n t u e r k q.
Proof.
  intros show cfg s t u (Ne & Lr & Lg & Lq) C1 C2 C3 T.
  assert (E : g_to_parquet show cfg s = Ok (combine (map fst (g_headers [t; u])) (g_columns show s (g_estimates s) (g_residuals s)))).
  { unfold g_to_parquet. destruct (g_estimates s) as [|first rest] eqn:Es; [now elim Ne|]. rewrite <- Es in *.
    rewrite Lr, Lg, Lq, Nat.eqb_refl. cbn [negb orb]. unfold g_selected. rewrite C1, C2, C3, T.
    apply batch_ok.
    - unfold g_columns. rewrite T. reflexivity.
    - intros x I. unfold g_columns in *. rewrite T in *. cbn [app map] in *. cbn [rows]. rewrite map_length.
      cbn in I.
      repeat (destruct I as [<-|I]; [cbn [fst snd rows nulls]; unfold over; rewrite ?map_length; split; [congruence|];
        first [left; reflexivity|right; apply some_no_null]|]). destruct I. }
  eexists. split; [exact E|]. clear E. unfold g_columns. rewrite T. split.
  - intros k c I. cbn in I.
    repeat (destruct I as [I|I]; [assert (c = snd (k, c)) as -> by reflexivity; rewrite <- I; cbn [snd rows]; unfold over; rewrite ?map_length; congruence|]).
    destruct I.
  - intros n e r k q Ee Er Ek Eq.
    assert (MI : forall (g : gestimate -> R), nth_error (map (fun e => Some (g e)) (g_estimates s)) n = Some (Some (g e))).
    { intros g. now apply (map_nth_error (fun e => Some (g e))). }
    assert (MR : forall g : residual -> option R, nth_error (over g (g_residuals s)) n = Some (match r with Some r => g r | None => None end)).
    { intros g. unfold over. now apply (map_nth_error (fun r => match r with Some r => g r | None => None end)). }
    assert (MK : forall i j, nth_error (map (option_map (fun k : nat -> nat -> R => k i j)) (g_gains s)) n = Some (match k with Some k => Some (k i j) | None => None end)).
    { intros i j. now rewrite (map_nth_error _ n _ Ek). }
    assert (MQ : forall i, nth_error (map (option_map (fun f : nat -> R => f i)) (g_ratios s)) n = Some (match q with Some q => Some (q i) | None => None end)).
    { intros i. now rewrite (map_nth_error _ n _ Eq). }
    assert (B : forall (v : residual -> nat -> R) ty, match r with
        | None => nth_error (over (fun r => by_type v r ty) (g_residuals s)) n = Some None
        | Some r => forall j, nth_error (msr_types r) j = Some ty -> NoDup (msr_types r) ->
            nth_error (over (fun r => by_type v r ty) (g_residuals s)) n = Some (Some (v r j))
        end).
    { intros v ty. pose proof (MR (fun r => by_type v r ty)) as M. destruct r as [r|]; [|exact M].
      intros j Ej N. rewrite M. unfold by_type. now rewrite (index_of_nth ty (msr_types r) j N Ej). }
    cbn. unfold line_of, holds.
    Local Ltac here := eexists; split; [repeat (first [left; reflexivity|right])|].
    split; [here; exact (MI (fun e => lat_deg (g_nominal e) + g_deviation e 0%nat))|].
    split; [here; exact (MI (fun e => lon_deg (g_nominal e) + g_deviation e 1%nat))|].
    split; [here; exact (MI (fun e => height_km (g_nominal e) + g_deviation e 2%nat))|].
    split. { intros i Hi. destruct i as [|[|[|i]]]; [| | |lia]; here; apply (MI (fun e => sqrt (g_covar e _ _))). }
    split. { intros i j Hij. destruct i as [|[|[|i]]]; [| | |lia]; destruct j as [|[|[|j]]]; try lia; here; apply (MI (fun e => g_covar e _ _)). }
    split. { intros ty Hty. destruct r as [r|].
      - intros j Ej N. destruct Hty as [->| ->];
          (split; [here; exact (B prefit _ j Ej N)|]); (split; [here; exact (B postfit _ j Ej N)|]);
          (split; [here; exact (B noise _ j Ej N)|]); (split; [here; exact (B real_obs _ j Ej N)|]); here; exact (B computed_obs _ j Ej N).
      - destruct Hty as [->| ->];
          (split; [here; exact (B prefit _)|]); (split; [here; exact (B postfit _)|]);
          (split; [here; exact (B noise _)|]); (split; [here; exact (B real_obs _)|]); here; exact (B computed_obs _). }
    split. { here. exact (MR (fun r => Some (ratio r))). }
    intros i Hi. destruct i as [|[|[|i]]]; [| | |lia]; (split; [here; apply MK|]); (split; [here; apply MK|]); here; apply MQ.
Qed.

(** A solution of another number of observables, such as one of ranges alone, is not written at
    all: there are two columns of gains per coordinate, whatever the number of their names. *)
Theorem C102_observables_refuted : forall show cfg s f, g_to_parquet show cfg s = Ok f -> length (g_types s) = 2%nat.
Proof.
  intros show cfg s f H. unfold g_to_parquet in H. destruct (g_estimates s) as [|first rest] eqn:Es; [discriminate|].
  match type of H with (if ?b then _ else _) = _ => destruct b; [discriminate|] end.
  destruct (g_selected _ _ _ _) as [ests resids]. unfold g_batch in H.
  match type of H with (if negb (?a =? ?b)%nat then _ else _) = _ => destruct (Nat.eqb_spec a b) as [L|]; [|discriminate] end.
  clear H. unfold g_headers, g_columns in L. cbn [flat_map] in L. rewrite !app_length, !map_length, !app_length, !map_length in L. cbn in L. lia.
Qed.

(** Nor is one of which the dates asked for leave out an estimate: the gains and the ratios are not
    selected. *)
Theorem C102_selection_refuted : forall show cfg s f e, g_to_parquet show cfg s = Ok f -> In e (g_estimates s) ->
  (forall t, start_epoch cfg = Some t -> (t <= asset_epoch (g_nominal e))%Z) /\
  (forall t, end_epoch cfg = Some t -> (asset_epoch (g_nominal e) <= t)%Z).
Proof.
  intros show cfg s f e H I. pose proof (C102_observables_refuted _ _ _ _ H) as T2.
  unfold g_to_parquet in H. destruct (g_estimates s) as [|first rest] eqn:Es; [destruct I|]. rewrite <- Es in *.
  destruct (Nat.eqb_spec (length (g_estimates s)) (length (g_residuals s))) as [Lr|]; [|discriminate].
  destruct (Nat.eqb_spec (length (g_estimates s)) (length (g_gains s))) as [Lg|]; [|discriminate].
  destruct (Nat.eqb_spec (length (g_estimates s)) (length (g_ratios s))) as [Lq|]; [|discriminate]. cbn [negb orb] in H.
  destruct (g_selected cfg s first (last (g_estimates s) first)) as [ests resids] eqn:Sel.
  assert (L : length ests = length (g_ratios s)).
  { unfold g_batch in H. destruct (negb _) eqn:Nb; [discriminate|]. apply Bool.negb_false_iff, Nat.eqb_eq in Nb. cbv zeta in H.
    match type of H with (if ?b then _ else _) = _ => destruct b eqn:F; [|discriminate] end.
    rewrite forallb_forall in F.
    assert (I2 : In ((GFsr 2, true), Floats (map (option_map (fun f : nat -> R => f 2%nat)) (g_ratios s)))
                 (combine (g_headers (g_types s)) (g_columns show s ests resids))).
    { clear - T2. unfold g_headers, g_columns. destruct (g_types s) as [|a [|b [|c l]]]; try discriminate. cbn.
      repeat (first [left; reflexivity|right]). }
    specialize (F _ I2). apply andb_prop in F as [F _]. apply Nat.eqb_eq in F. unfold g_columns in F. cbn [app map rows snd] in F.
    rewrite !map_length in F. congruence. }
  unfold g_selected in Sel.
  set (keep := fun er : gestimate * option residual => _) in Sel.
  assert (K : (start_epoch cfg = None /\ end_epoch cfg = None) \/ keep (e, None) = true).
  { destruct (start_epoch cfg) as [lo|] eqn:E1, (end_epoch cfg) as [hi|] eqn:E2; [| | |now left];
      right; (assert (ests = map fst (filter keep (combine (g_estimates s) (g_residuals s)))) as -> by congruence);
      rewrite map_length in L; rewrite <- Lq in L;
      (assert (A : forall x, In x (combine (g_estimates s) (g_residuals s)) -> keep x = true);
       [ assert (LL : length (combine (g_estimates s) (g_residuals s)) = length (g_estimates s)) by (rewrite combine_length; lia);
         rewrite <- LL in L; revert L; generalize (combine (g_estimates s) (g_residuals s)); clear;
         intros l; induction l as [|x l IH]; [intros _ y []|]; cbn [filter]; intros L y [<-|Iy];
         [ destruct (keep x) eqn:Kx; [reflexivity|]; exfalso; cbn [length] in L;
           assert (length (filter keep l) <= length l)%nat by (clear; induction l as [|z l IH]; cbn; [lia|destruct (keep z); cbn; lia]); lia
         | apply IH; [|exact Iy]; destruct (keep x); cbn [length] in L; [lia|];
           assert (length (filter keep l) <= length l)%nat by (clear; induction l as [|z l IH]; cbn; [lia|destruct (keep z); cbn; lia]); lia ]
       | apply In_nth_error in I as (n & En);
         assert (exists r, nth_error (g_residuals s) n = Some r) as (r & Er)
           by (destruct (nth_error (g_residuals s) n) eqn:Er; [eauto|]; apply nth_error_None in Er;
               assert (n < length (g_estimates s))%nat by (apply nth_error_Some; congruence); lia);
         assert (Ic : In (e, r) (combine (g_estimates s) (g_residuals s)))
           by (clear - En Er; revert n En Er; generalize (g_estimates s), (g_residuals s); intros l; induction l as [|x l IH]; intros [|y l'] [|n] En Er; try discriminate;
               [cbn in En, Er; left; congruence|right; now apply (IH _ n)]);
         exact (A _ Ic) ]). }
  destruct K as [[-> ->]|K]; [split; intros t [=]|].
  unfold keep in K. cbn [fst] in K. apply andb_prop in K as [K1 K2]. apply Z.leb_le in K1, K2.
  change (asset_epoch (g_state e)) with (asset_epoch (g_nominal e)) in *.
  split; intros t Et; rewrite Et in *; assumption.
Qed.

(** Two estimates of an asset from ranges and Dopplers are written; from ranges alone they are not. *)
Definition case_estimate (t : Z) : gestimate :=
  {| g_nominal := from_fixed 10 20 1 t {| frame_id := 1; shape := None |}; g_deviation := fun _ => 1;
     g_covar := fun i j => if Nat.eqb i j then 4 else 0 |}.
Definition case_solution (types : list msr_type) : gsolution :=
  {| g_estimates := [case_estimate 0; case_estimate 60]; g_residuals := [None; None]; g_gains := [None; Some (fun _ _ => 5)];
     g_ratios := [None; None]; g_types := types |}.
Definition whole_cfg : export_cfg := {| start_epoch := None; end_epoch := None; step := None; fields_of := None |}.
Example writes_case : exists f, g_to_parquet (fun _ => EmptyString) whole_cfg (case_solution [Range; Doppler]) = Ok f /\
  holds f (GValue 1) 1 (Some (20 + 1)) /\ holds f (GGain 2 Doppler) 1 (Some 5) /\ holds f (GGain 2 Doppler) 0 None.
Proof.
  destruct (C102_writes_partial (fun _ => EmptyString) whole_cfg (case_solution [Range; Doppler]) Range Doppler) as (f & E & _ & L);
    [repeat split; discriminate|reflexivity|reflexivity|reflexivity|reflexivity|].
  exists f. split; [exact E|].
  destruct (L 1%nat (case_estimate 60) None (Some (fun _ _ => 5)) None eq_refl eq_refl eq_refl eq_refl) as (_ & A & _ & _ & _ & _ & _ & B).
  destruct (L 0%nat (case_estimate 0) None None None eq_refl eq_refl eq_refl eq_refl) as (_ & _ & _ & _ & _ & _ & _ & C).
  split; [exact A|]. split; [exact (proj1 (proj2 (B 2%nat ltac:(lia))))|exact (proj1 (proj2 (C 2%nat ltac:(lia))))].
Qed.
Example ranges_alone : aligned (case_solution [Range]) /\ g_to_parquet (fun _ => EmptyString) whole_cfg (case_solution [Range]) = Err ODArrow.
Proof. split; [repeat split; discriminate|reflexivity]. Qed.

Print Assumptions C102_writes_partial.
Print Assumptions C102_observables_refuted.
Print Assumptions C102_selection_refuted.
