(** C92: what survives writing an orbit determination solution to a parquet file and reading it back. *)
From Coq Require Import Reals String Lra Lia Permutation.
From Verif Require Import Base RustStd Arc_Model Vec3 Angles Util_Model Sc_Model Pq_Model Tpq_Model Tpq_Props Spq_Model.
Local Open Scope string_scope.
Local Open Scope list_scope.

Lemma key_eqb_refl k : key_eqb k k = true.
Proof. unfold key_eqb. destruct (key_eq_dec k k); congruence. Qed.
Lemma key_eqb_neq a b : a <> b -> key_eqb a b = false.
Proof. unfold key_eqb. destruct (key_eq_dec a b); congruence. Qed.
Lemma type_eqb_eq a b : type_eqb a b = true <-> a = b.
Proof. unfold type_eqb. destruct (msr_type_eq_dec a b); intuition congruence. Qed.

Lemma traverse_map {E A B} (f : A -> res E B) (g : A -> B) l r :
  (forall a b, f a = Ok b -> b = g a) -> traverse f l = Ok r -> r = map g l.
Proof.
  intros H. revert r. induction l as [|a l IH]; cbn [traverse map]; intros r K; [congruence|].
  destruct (f a) as [b| | |] eqn:Fa; try discriminate. cbn [bind] in K.
  destruct (traverse f l) as [bs| | |]; try discriminate. cbn [bind] in K. injection K as <-.
  rewrite (H a b Fa), (IH bs eq_refl). reflexivity.
Qed.
Lemma traverse_forall {E A B} (f : A -> res E B) (P : B -> Prop) l r :
  (forall a b, f a = Ok b -> P b) -> traverse f l = Ok r -> Forall P r.
Proof.
  intros H. revert r. induction l as [|a l IH]; cbn [traverse]; intros r K; [injection K as <-; constructor|].
  destruct (f a) as [b| | |] eqn:Fa; try discriminate. cbn [bind] in K.
  destruct (traverse f l) as [bs| | |]; try discriminate. cbn [bind] in K. injection K as <-.
  constructor; [exact (H a b Fa)|exact (IH bs eq_refl)].
Qed.
Lemma traverse_all_ok {E A B} (f : A -> res E B) (g : A -> B) l : (forall a, In a l -> f a = Ok (g a)) -> traverse f l = Ok (map g l).
Proof.
  induction l as [|a l IH]; intros H; [reflexivity|]. cbn [traverse map]. rewrite (H a (or_introl eq_refl)). cbn [bind].
  rewrite IH by (intros x X; apply H; now right). reflexivity.
Qed.

(** looking up columns *)
Lemma get_app_r k a b : Forall (fun e => e_key e <> k) a -> get_col k (a ++ b) = get_col k b.
Proof. induction 1 as [|e l H F IH]; [reflexivity|]. cbn [app get_col]. now rewrite (key_eqb_neq _ _ H). Qed.
Lemma get_app_l k a b c : get_col k a = Some c -> get_col k (a ++ b) = Some c.
Proof. induction a as [|e l IH]; [discriminate|]. cbn [app get_col]. destruct (key_eqb (e_key e) k); auto. Qed.
Lemma get_map {A} (mk : A -> entry) l x : In x l -> (forall y, In y l -> e_key (mk y) = e_key (mk x) -> y = x) ->
  get_col (e_key (mk x)) (map mk l) = Some (e_col (mk x)).
Proof.
  induction l as [|a l IH]; [intros []|]. intros I J. cbn [map get_col].
  destruct (key_eq_dec (e_key (mk a)) (e_key (mk x))) as [E|N].
  - rewrite (J a (or_introl eq_refl) E). now rewrite key_eqb_refl.
  - rewrite (key_eqb_neq _ _ N). destruct I as [->|I]; [congruence|]. apply IH; [exact I|intros y Y; apply J; now right].
Qed.
Lemma get_none k t : Forall (fun e => e_key e <> k) t -> get_col k t = None.
Proof. induction 1 as [|e l H F IH]; [reflexivity|]. cbn [get_col]. now rewrite (key_eqb_neq _ _ H). Qed.

(** the upper triangle *)
Lemma sym_upper (F : nat * nat -> R) i j : (i < size)%nat -> (j < size)%nat ->
  sym (map F upper) i j = F (Nat.min i j, Nat.max i j).
Proof.
  intros Hi Hj. assert (C : forallb (fun i => forallb (fun j =>
     match find (fun k => match nth k upper (0, 0)%nat with (a, b) => (a =? Nat.min i j)%nat && (b =? Nat.max i j)%nat end) (seq 0 (length upper)) with
     | Some k => (k <? length upper)%nat && (fst (nth k upper (0, 0)%nat) =? Nat.min i j)%nat && (snd (nth k upper (0, 0)%nat) =? Nat.max i j)%nat
     | None => false end) (seq 0 size)) (seq 0 size) = true) by (vm_compute; reflexivity).
  rewrite forallb_forall in C. specialize (C i). rewrite in_seq in C. specialize (C ltac:(lia)).
  rewrite forallb_forall in C. specialize (C j). rewrite in_seq in C. specialize (C ltac:(lia)).
  unfold sym. destruct (find _ _) as [k|]; [|discriminate]. apply andb_prop in C as [C C3]. apply andb_prop in C as [C1 C2].
  apply Nat.ltb_lt in C1. apply Nat.eqb_eq in C2, C3.
  rewrite (nth_indep _ 0%R (F (0, 0)%nat)) by (rewrite map_length; exact C1). rewrite map_nth. f_equal.
  destruct (nth k upper (0, 0)%nat). cbn in C2, C3. congruence.
Qed.
Lemma in_upper i j : In (i, j) upper <-> (i <= j < size)%nat.
Proof.
  unfold upper. rewrite in_flat_map. split.
  - intros (a & Ha & H). apply in_map_iff in H as (b & [= <- <-] & Hb). apply in_seq in Ha, Hb. lia.
  - intros H. exists i. split; [apply in_seq; lia|]. apply in_map_iff. exists j. split; [reflexivity|apply in_seq; lia].
Qed.

Lemma nth_prod {A} (l : list A) d n s a b : (a < n)%nat -> (b < length l)%nat ->
  nth_error (list_prod (seq s n) l) (a * length l + b) = Some ((s + a)%nat, nth b l d).
Proof.
  revert s a. induction n as [|n IH]; intros s a Ha Hb; [lia|]. cbn [seq list_prod]. destruct a as [|a].
  - cbn [Nat.mul Nat.add]. rewrite nth_error_app1 by (rewrite map_length; exact Hb).
    rewrite (map_nth_error _ _ _ (nth_error_nth' l d Hb)), Nat.add_0_r. reflexivity.
  - rewrite nth_error_app2 by (rewrite map_length; cbn; lia). rewrite map_length.
    replace (S a * length l + b - length l)%nat with (a * length l + b)%nat by (cbn; lia).
    rewrite IH by lia. do 2 f_equal. lia.
Qed.

(** the cells of a line *)
Lemma cells_read {A O} (g : A -> O -> R) (xs : list A) (l : list (option O)) i o : nth_error l i = Some o -> xs <> [] ->
  cells (length xs) (map (fun x => map (option_map (g x)) l) xs) i = Ok (option_map (fun v => map (fun x => g x v) xs) o).
Proof.
  intros E N. assert (V : forall x, valid_at (map (option_map (g x)) l) i = option_map (g x) o).
  { intros x. unfold valid_at. apply nth_error_nth. now apply (map_nth_error (option_map (g x))). }
  destruct o as [v|].
  - clear N. induction xs as [|x xs IH]; [reflexivity|]. cbn [length map cells]. rewrite V. cbn [option_map] in *. rewrite IH. reflexivity.
  - destruct xs as [|x xs]; [congruence|]. cbn [length map cells]. rewrite V. reflexivity.
Qed.

(** the index of a type *)
Lemma index_nth t l k : index_of t l = Some k -> nth_error l k = Some t.
Proof.
  revert k. induction l as [|x l IH]; [discriminate|]. cbn [index_of]. intros k.
  destruct (type_eqb x t) eqn:E; [intros [= <-]; apply type_eqb_eq in E; now subst|].
  destruct (index_of t l) as [k'|] eqn:I; [|discriminate]. intros [= <-]. apply IH. reflexivity.
Qed.
Lemma index_in t l : (exists k, index_of t l = Some k) <-> In t l.
Proof.
  induction l as [|x l IH]; cbn [index_of In]; [split; [intros (k & H); discriminate|intros []]|].
  destruct (type_eqb x t) eqn:E.
  - apply type_eqb_eq in E as ->. split; [now left|intros _; now exists 0%nat].
  - rewrite <- IH. split.
    + intros (k & H). destruct (index_of t l) as [k'|]; [|discriminate]. right. now exists k'.
    + intros [->|(k & ->)]; [|now exists (S k)]. rewrite (proj2 (type_eqb_eq t t) eq_refl) in E. discriminate.
Qed.
Lemma index_none t l : ~ In t l -> index_of t l = None.
Proof. intros N. destruct (index_of t l) eqn:E; [|reflexivity]. destruct N. apply index_in. eauto. Qed.

Section Parquet.
Context (M : nat).
Context (evaluate : element -> orbit -> option R)
        (bplane : orbit -> option (R * R * R)) (dcm_to_inertial : nat -> orbit -> option m3)
        (sigma_for : element -> estimate -> option R) (ric_sigma : nat -> estimate -> option R)
        (show : Z -> string) (parse : string -> option Z) (null_slot nan : R)
        (order : list msr_type -> list msr_type).
Notation value := (value evaluate bplane dcm_to_inertial).
Notation to_parquet := (to_parquet M evaluate bplane dcm_to_inertial sigma_for ric_sigma show).
Notation from_parquet := (from_parquet M parse null_slot nan order).
Notation residual_cols := (residual_cols M).
Notation gain_cols := (gain_cols M).

(** ** The specification *)
Record est_back (fr : nat) (srp drag : R) (e e' : estimate) : Prop := {
  same_orbit : sc_orbit (state e') = Orbit (epoch (sc_orbit (state e))) fr (radius_km (sc_orbit (state e))) (velocity_km_s (sc_orbit (state e)));
  same_masses : dry_mass_kg (state e') = dry_mass_kg (state e) /\ prop_mass_kg (state e') = prop_mass_kg (state e) /\ extra_mass_kg (state e') = 0%R;
  same_coeffs : coeff_reflectivity (state e') = coeff_reflectivity (state e) /\ coeff_drag (state e') = coeff_drag (state e);
  these_areas : srp_area_m2 (state e') = srp /\ drag_area_m2 (state e') = drag;
  same_covar : forall i j, (i < size)%nat -> (j < size)%nat -> covar e' i j = covar e (Nat.min i j) (Nat.max i j);
  same_sym : forall i j, (i < size)%nat -> (j < size)%nat -> covar e' i j = covar e' j i
}.
Record res_back_some (r q : residual) : Prop := {
  same_ratio : ratio q = ratio r;
  same_rejected : rejected q = rejected r;
  same_tracker : tracker q = Some (match tracker r with Some s => s | None => "Undefined tracker" end);
  same_types : forall t, In t (msr_types q) <-> In t (msr_types r) /\ readable t = true;
  same_values : forall t, readable t = true ->
    by_type prefit q t = by_type prefit r t /\ by_type postfit q t = by_type postfit r t /\ by_type noise q t = by_type noise r t /\
    by_type real_obs q t = by_type real_obs r t /\ by_type computed_obs q t = by_type computed_obs r t;
  whitened_lost : forall t, In t (msr_types q) -> by_type whitened q t = Some nan
}.
Definition res_back (r q : option residual) : Prop :=
  match r, q with Some r, Some q => res_back_some r q | None, None => True | _, _ => False end.
Definition gain_back (keep : bool) (g h : option (nat -> nat -> R)) : Prop :=
  match g, h with
  | Some g, Some h => keep = true /\ forall i j, (i < size)%nat -> (j < M)%nat -> h i j = g i j
  | None, None => True
  | Some _, None => keep = false
  | None, Some _ => False
  end.
Definition ratio_back (f g : option (nat -> R)) : Prop :=
  match f, g with Some f, Some g => forall i, (i < size)%nat -> g i = f i | None, None => True | _, _ => False end.

(** ** What is written *)
Definition ok (p : parameter) (e : estimate) : option R := match value (state e) p with Ok x => Some x | _ => None end.
Definition param_entry (meta : nat * R * R) (l : list estimate) (p : parameter) : entry :=
  {| e_key := KParam p; e_nullable := false; e_meta := Some meta; e_col := Floats (map (ok p) l) |}.
Lemma param_inv meta l p e : param_col evaluate bplane dcm_to_inertial meta l p = Ok e -> e = param_entry meta l p.
Proof.
  unfold param_col. destruct (traverse _ l) as [c| | |] eqn:T; try discriminate. cbn [bind]. intros [= <-].
  unfold param_entry. apply (traverse_map _ (ok p)) in T; [now subst c|].
  intros a b. unfold ok. destruct (value (state a) p); congruence.
Qed.

Definition written (meta : nat * R * R) (ests : list estimate) (resids : list (option residual)) (s : solution)
    (fields : list parameter) (sigmas rics : list entry) : list entry :=
  plain_col KEpoch (Text (map (fun e => Some (show (epoch (sc_orbit (state e))))) ests))
  :: map (param_entry meta ests) fields ++ sigmas
  ++ map (fun ij => plain_col (KCov (fst ij) (snd ij)) (Floats (map (fun e => Some (covar e (fst ij) (snd ij))) ests))) upper
  ++ map (fun i => plain_col (KSigma i) (Floats (map (fun e => Some (sqrt (covar e i i))) ests))) (seq 0 size)
  ++ rics ++ residual_cols (measurement_types s) resids
  ++ gain_cols (measurement_types s) (gains s) ++ fsr_cols (ratios s).

Lemma writes_inv cfg s f first rest : estimates s = first :: rest -> to_parquet cfg s = Ok f ->
  let meta := (frame (sc_orbit (state first)), srp_area_m2 (nominal first), drag_area_m2 (nominal first)) in
  let fields := filter (retained evaluate bplane dcm_to_inertial first) (match fields_of cfg with Some l => l | None => export_params end) in
  length (residuals s) = length (estimates s) /\ length (gains s) = length (estimates s) /\ length (ratios s) = length (estimates s) /\
  exists sigmas rics, f = written meta (fst (selected cfg s first (last (estimates s) first))) (snd (selected cfg s first (last (estimates s) first))) s fields sigmas rics /\
    Forall (fun e => (exists p, e_key e = KSigmaParam p) /\ e_meta e = Some meta) sigmas /\
    Forall (fun e => (exists i, e_key e = KRic i) /\ e_meta e = None) rics /\ batch f = Ok f.
Proof.
  intros E H meta fields. unfold Spq_Model.to_parquet in H. rewrite E in H. rewrite <- E in H.
  destruct (_ || _ || _) eqn:L; [discriminate|]. apply orb_false_iff in L as [L L3]. apply orb_false_iff in L as [L1 L2].
  apply negb_false_iff, Nat.eqb_eq in L1, L2, L3. split; [congruence|]. split; [congruence|]. split; [congruence|].
  fold meta in H. fold fields in H. destruct (selected cfg s first (last (estimates s) first)) as [ests resids]. cbn [fst snd].
  destruct (traverse (param_col _ _ _ _ _) _) as [ps| | |] eqn:Tp; try discriminate. cbn [bind] in H.
  apply (traverse_map _ (param_entry meta ests)) in Tp; [|intros; now apply param_inv]. subst ps.
  destruct (traverse (sigma_col _ _ _) _) as [sigmas| | |] eqn:Ts; try discriminate. cbn [bind] in H.
  destruct (traverse (ric_col _ _) _) as [rics| | |] eqn:Tr; try discriminate. cbn [bind] in H.
  exists sigmas, rics. assert (B : f = written meta ests resids s fields sigmas rics).
  { unfold batch in H. match type of H with (if ?c then _ else _) = _ => destruct c; [|discriminate] end. injection H as <-. reflexivity. }
  split; [exact B|]. split; [|split].
  - eapply traverse_forall, Ts. intros p e. unfold sigma_col. destruct (traverse _ ests) as [c| | |]; try discriminate. cbn [bind].
    intros [= <-]. cbn. split; [now exists p|reflexivity].
  - eapply traverse_forall, Tr. intros p e. unfold ric_col. destruct (traverse _ ests) as [c| | |]; try discriminate. cbn [bind].
    intros [= <-]. cbn. split; [now exists p|reflexivity].
  - rewrite B. unfold batch in *. fold (written meta ests resids s fields sigmas rics) in H.
    match type of H with (if ?c then _ else _) = _ => destruct c eqn:C; [|discriminate] end. unfold written in *. rewrite C. reflexivity.
Qed.

(** ** Looking up *)
Section Lookup.
Context (meta : nat * R * R) (ests : list estimate) (resids : list (option residual)) (s : solution)
  (fields : list parameter) (sigmas rics : list entry)
  (Hsig : Forall (fun e => (exists p, e_key e = KSigmaParam p) /\ e_meta e = Some meta) sigmas)
  (Hric : Forall (fun e => (exists i, e_key e = KRic i) /\ e_meta e = None) rics).
Notation w := (written meta ests resids s fields sigmas rics).
Notation types := (measurement_types s).

Lemma no_map {A} (mk : A -> entry) l k : (forall x, e_key (mk x) <> k) -> Forall (fun e => e_key e <> k) (map mk l).
Proof. intros H. apply Forall_forall. intros e I. apply in_map_iff in I as (x & <- & _). apply H. Qed.
Lemma no_sig k : (forall p, KSigmaParam p <> k) -> Forall (fun e => e_key e <> k) sigmas.
Proof. intros H. eapply Forall_impl; [|exact Hsig]. intros e [[p ->] _]. apply H. Qed.
Lemma no_ric k : (forall p, KRic p <> k) -> Forall (fun e => e_key e <> k) rics.
Proof. intros H. eapply Forall_impl; [|exact Hric]. intros e [[p ->] _]. apply H. Qed.
Lemma no_gain k : (forall i j, KGainAt i j <> k) -> (forall i t, KGain i t <> k) -> Forall (fun e => e_key e <> k) (gain_cols types (gains s)).
Proof. intros H1 H2. unfold Spq_Model.gain_cols. apply no_map. intros x. cbn. unfold gain_key. destruct (_ =? _)%nat; [apply H2|apply H1]. Qed.
Ltac seg := first [apply no_map; intros; discriminate | apply no_sig; intros; discriminate | apply no_ric; intros; discriminate
  | apply no_gain; intros; discriminate | repeat (constructor; [discriminate|]); constructor].
Ltac skips := unfold written, Spq_Model.residual_cols, fsr_cols; rewrite ?app_comm_cons; rewrite <- ?app_assoc;
  repeat (rewrite get_app_r; [|solve [seg]]).

Lemma get_epoch : get_col KEpoch w = Some (Text (map (fun e => Some (show (epoch (sc_orbit (state e))))) ests)).
Proof. reflexivity. Qed.
Lemma get_param p : In p fields -> get_col (KParam p) w = Some (Floats (map (ok p) ests)).
Proof.
  intros I. unfold written. cbn [get_col plain_col e_key]. rewrite (key_eqb_neq KEpoch) by discriminate.
  apply get_app_l. apply (get_map (param_entry meta ests) fields p I). intros y _ [= E]. exact E.
Qed.
Lemma get_tail k a : KEpoch <> k -> Forall (fun e => e_key e <> k) (map (param_entry meta ests) fields ++ sigmas) ->
  get_col k (plain_col KEpoch a :: map (param_entry meta ests) fields ++ sigmas ++
     map (fun ij => plain_col (KCov (fst ij) (snd ij)) (Floats (map (fun e => Some (covar e (fst ij) (snd ij))) ests))) upper
  ++ map (fun i => plain_col (KSigma i) (Floats (map (fun e => Some (sqrt (covar e i i))) ests))) (seq 0 size)
  ++ rics ++ residual_cols types resids ++ gain_cols types (gains s) ++ fsr_cols (ratios s))
  = get_col k (map (fun ij => plain_col (KCov (fst ij) (snd ij)) (Floats (map (fun e => Some (covar e (fst ij) (snd ij))) ests))) upper
  ++ map (fun i => plain_col (KSigma i) (Floats (map (fun e => Some (sqrt (covar e i i))) ests))) (seq 0 size)
  ++ rics ++ residual_cols types resids ++ gain_cols types (gains s) ++ fsr_cols (ratios s)).
Proof.
  intros N F. cbn [get_col plain_col e_key]. rewrite (key_eqb_neq KEpoch) by exact N.
  rewrite app_assoc. now rewrite get_app_r by exact F.
Qed.
Ltac start := unfold written; rewrite get_tail; [|discriminate|apply Forall_app; split; seg]; unfold Spq_Model.residual_cols, fsr_cols; rewrite <- ?app_assoc;
  repeat (rewrite get_app_r; [|solve [seg]]).
Ltac here mk l x := match goal with |- get_col _ ?t = _ => idtac end; 
  first [apply get_app_l; apply (get_map mk l x) | apply (get_map mk l x)].

Lemma get_cov ij : In ij upper -> get_col (KCov (fst ij) (snd ij)) w = Some (Floats (map (fun e => Some (covar e (fst ij) (snd ij))) ests)).
Proof.
  intros I. start. apply get_app_l.
  apply (get_map (fun ij => plain_col (KCov (fst ij) (snd ij)) (Floats (map (fun e => Some (covar e (fst ij) (snd ij))) ests))) upper ij I).
  intros y _ [= E1 E2]. destruct y, ij. cbn in *. congruence.
Qed.
Lemma get_prefit t : In t types -> get_col (KPrefit t) w = Some (Floats (over (fun r => by_type prefit r t) resids)).
Proof. intros I. start. apply get_app_l. apply (get_map (fun t => nullable_col (KPrefit t) (Floats (over (fun r => by_type prefit r t) resids))) types t I). intros y _ [= E]. exact E. Qed.
Lemma get_postfit t : In t types -> get_col (KPostfit t) w = Some (Floats (over (fun r => by_type postfit r t) resids)).
Proof. intros I. start. apply get_app_l. apply (get_map (fun t => nullable_col (KPostfit t) (Floats (over (fun r => by_type postfit r t) resids))) types t I). intros y _ [= E]. exact E. Qed.
Lemma get_noise t : In t types -> get_col (KNoise t) w = Some (Floats (over (fun r => by_type noise r t) resids)).
Proof. intros I. start. apply get_app_l. apply (get_map (fun t => nullable_col (KNoise t) (Floats (over (fun r => by_type noise r t) resids))) types t I). intros y _ [= E]. exact E. Qed.
Lemma get_real t : In t types -> get_col (KReal t) w = Some (Floats (over (fun r => by_type real_obs r t) resids)).
Proof. intros I. start. apply get_app_l. apply (get_map (fun t => nullable_col (KReal t) (Floats (over (fun r => by_type real_obs r t) resids))) types t I). intros y _ [= E]. exact E. Qed.
Lemma get_computed t : In t types -> get_col (KComputed t) w = Some (Floats (over (fun r => by_type computed_obs r t) resids)).
Proof. intros I. start. apply get_app_l. apply (get_map (fun t => nullable_col (KComputed t) (Floats (over (fun r => by_type computed_obs r t) resids))) types t I). intros y _ [= E]. exact E. Qed.
Lemma get_whitened_of t : get_col (KWhitenedOf t) w = None.
Proof. start. apply get_none. seg. Qed.
Lemma get_ratio : get_col KRatio w = Some (Floats (over (fun r => Some (ratio r)) resids)).
Proof. start. reflexivity. Qed.
Lemma get_rejected : get_col KRejected w = Some (Bools (over (fun r => Some (rejected r)) resids)).
Proof. start. reflexivity. Qed.
Lemma get_tracker : get_col KTracker w = Some (Text (over (fun r => Some (match tracker r with Some s => s | None => "Undefined tracker" end)) resids)).
Proof. start. reflexivity. Qed.
Lemma get_gain ij : length types = M -> NoDup types -> In ij (grid M) ->
  get_col (KGain (fst ij) (nth (snd ij) types Range)) w = Some (Floats (map (option_map (fun k => k (fst ij) (snd ij))) (gains s))).
Proof.
  intros L ND I. start. apply get_app_l. unfold Spq_Model.gain_cols.
  assert (K : forall y, gain_key M types (fst y) (snd y) = KGain (fst y) (nth (snd y) types Range)) by (intros y; unfold gain_key; now rewrite L, Nat.eqb_refl).
  rewrite <- K. apply (get_map (fun ij => nullable_col (gain_key M types (fst ij) (snd ij)) (Floats (map (option_map (fun k => k (fst ij) (snd ij))) (gains s)))) (grid M) ij I).
  intros y Iy. cbn. rewrite !K. intros [= E1 E2]. destruct y as [a b], ij as [c d]. cbn [fst snd] in E1, E2. subst a. f_equal.
  apply in_prod_iff in I as [_ I]. apply in_prod_iff in Iy as [_ Iy]. apply in_seq in I, Iy.
  apply (proj1 (NoDup_nth types Range) ND); [lia..|exact E2].
Qed.
Lemma get_no_gain i t : length types <> M -> get_col (KGain i t) w = None.
Proof.
  intros L. start. apply get_none. apply Forall_app. split; [|seg]. unfold Spq_Model.gain_cols. apply no_map. intros y. cbn. unfold gain_key.
  rewrite (proj2 (Nat.eqb_neq _ _) L). discriminate.
Qed.
Lemma get_fsr i : In i (seq 0 size) -> get_col (KFsr i) w = Some (Floats (map (option_map (fun f => f i)) (ratios s))).
Proof. intros I. start. apply (get_map (fun i => nullable_col (KFsr i) (Floats (map (option_map (fun f => f i)) (ratios s)))) (seq 0 size) i I). intros y _ [= E]. exact E. Qed.

(** the metadata and the types *)
Lemma meta_none l m : Forall (fun e => e_meta e = None) l -> fold_left (fun m e => match e_meta e with Some x => Some x | None => m end) l m = m.
Proof. revert m. induction l as [|e l IH]; intros m F; [reflexivity|]. inversion F as [|? ? H1 H2]; subst. cbn [fold_left]. rewrite H1. now apply IH. Qed.
Lemma meta_some l m : Forall (fun e => e_meta e = Some meta) l -> l <> [] \/ m = Some meta ->
  fold_left (fun m e => match e_meta e with Some x => Some x | None => m end) l m = Some meta.
Proof.
  revert m. induction l as [|e l IH]; intros m F H; [destruct H; [congruence|exact H]|]. inversion F as [|? ? H1 H2]; subst. cbn [fold_left]. rewrite H1.
  apply IH; [exact H2|now right].
Qed.
Lemma none_map {A} (mk : A -> entry) l : (forall x, e_meta (mk x) = None) -> Forall (fun e => e_meta e = None) (map mk l).
Proof. intros H. apply Forall_forall. intros e I. apply in_map_iff in I as (x & <- & _). apply H. Qed.
Lemma found_meta : fields <> [] -> last_meta w = Some meta.
Proof.
  intros N. unfold last_meta, written. cbn [fold_left plain_col e_meta]. rewrite app_assoc, fold_left_app.
  rewrite (meta_some (map _ fields ++ sigmas)).
  - apply meta_none. unfold Spq_Model.residual_cols, Spq_Model.gain_cols, fsr_cols. repeat (apply Forall_app; split); try (apply none_map; reflexivity).
    + eapply Forall_impl; [|exact Hric]. intros e [_ H]. exact H.
    + repeat constructor.
  - apply Forall_app. split.
    + apply Forall_forall. intros e I. apply in_map_iff in I as (x & <- & _). reflexivity.
    + eapply Forall_impl; [|exact Hsig]. intros e [_ H]. exact H.
  - left. destruct fields; [congruence|discriminate].
Qed.
Lemma types_skip l acc : Forall (fun e => forall t, e_key e <> KPrefit t) l ->
  fold_left (fun l e => match e_key e with KPrefit ty => if readable ty && negb (existsb (type_eqb ty) l) then l ++ [ty] else l | _ => l end) l acc = acc.
Proof.
  revert acc. induction l as [|e l IH]; intros acc F; [reflexivity|]. inversion F as [|? ? H1 H2]; subst. cbn [fold_left].
  destruct (e_key e) eqn:K; try (apply IH, H2). destruct (H1 t eq_refl).
Qed.
Lemma types_seg (mk : msr_type -> entry) l acc : (forall t, e_key (mk t) = KPrefit t) -> NoDup l -> (forall t, In t l -> ~ In t acc) ->
  fold_left (fun l e => match e_key e with KPrefit ty => if readable ty && negb (existsb (type_eqb ty) l) then l ++ [ty] else l | _ => l end) (map mk l) acc
  = acc ++ filter readable l.
Proof.
  intros K. revert acc. induction l as [|t l IH]; intros acc ND D; [cbn; now rewrite app_nil_r|]. cbn [map fold_left filter]. rewrite K.
  inversion ND as [|? ? N1 N2]; subst. assert (X : existsb (type_eqb t) acc = false).
  { destruct (existsb _ acc) eqn:E; [|reflexivity]. apply existsb_exists in E as (y & Y & E). apply type_eqb_eq in E as <-. destruct (D t (or_introl eq_refl) Y). }
  rewrite X. cbn [negb]. rewrite andb_true_r. destruct (readable t).
  - rewrite IH; [now rewrite <- app_assoc|exact N2|]. intros y Y I. apply in_app_or in I as [I|[->|[]]]; [exact (D y (or_intror Y) I)|exact (N1 Y)].
  - apply IH; [exact N2|]. intros y Y. apply D. now right.
Qed.
Lemma skip_map {A} (mk : A -> entry) l : (forall x t, e_key (mk x) <> KPrefit t) -> Forall (fun e => forall t, e_key e <> KPrefit t) (map mk l).
Proof. intros H. apply Forall_forall. intros e I. apply in_map_iff in I as (x & <- & _). apply H. Qed.
Lemma found_types : NoDup types -> types_found w = filter readable types.
Proof.
  intros ND. unfold types_found, written, Spq_Model.residual_cols. cbn [fold_left plain_col e_key]. rewrite <- !app_assoc. rewrite !fold_left_app.
  rewrite (types_skip (map (param_entry _ _) _)) by (apply skip_map; discriminate).
  rewrite (types_skip sigmas) by (eapply Forall_impl; [|exact Hsig]; intros e [[p ->] _]; discriminate).
  rewrite (types_skip (map _ upper)) by (apply skip_map; discriminate).
  rewrite (types_skip (map _ (seq 0 size))) by (apply skip_map; discriminate).
  rewrite (types_skip rics) by (eapply Forall_impl; [|exact Hric]; intros e [[p ->] _]; discriminate).
  rewrite (types_seg _ types []) by (try exact ND; try reflexivity; intros ? ? []). cbn [app].
  rewrite (types_skip (map (fun j => nullable_col (KWhitened j) _) _)) by (apply skip_map; discriminate).
  rewrite (types_skip (map (fun j => nullable_col (KPostfit j) _) _)) by (apply skip_map; discriminate).
  rewrite (types_skip (map (fun j => nullable_col (KNoise j) _) _)) by (apply skip_map; discriminate).
  rewrite (types_skip (map (fun j => nullable_col (KReal j) _) _)) by (apply skip_map; discriminate).
  rewrite (types_skip (map (fun j => nullable_col (KComputed j) _) _)) by (apply skip_map; discriminate).
  rewrite (types_skip [_; _; _]) by (repeat constructor; discriminate).
  rewrite (types_skip (gain_cols _ _)) by (apply skip_map; intros x t; cbn; unfold gain_key; destruct (_ =? _)%nat; discriminate).
  apply types_skip. apply skip_map. discriminate.
Qed.
End Lookup.

(** ** Reading *)
Lemma traverse_seq {E B} (f : nat -> res E B) n k : (forall i, (i < n)%nat -> exists x, f (k + i)%nat = Ok x) ->
  exists l, traverse f (seq k n) = Ok l /\ length l = n /\ forall i x, nth_error l i = Some x -> f (k + i)%nat = Ok x.
Proof.
  revert k. induction n as [|n IH]; intros k H.
  - exists []. split; [reflexivity|]. split; [reflexivity|]. intros [|i] x; discriminate.
  - destruct (H 0%nat ltac:(lia)) as (x & Hx). rewrite Nat.add_0_r in Hx.
    destruct (IH (S k)) as (l & H1 & H2 & H3).
    { intros i Hi. destruct (H (S i) ltac:(lia)) as (y & Hy). exists y. now rewrite Nat.add_succ_comm. }
    exists (x :: l). cbn [seq traverse]. rewrite Hx. cbn [bind]. rewrite H1. cbn [bind]. split; [reflexivity|]. split; [cbn; congruence|].
    intros [|i] y Hy; [cbn in Hy; rewrite Nat.add_0_r; congruence|]. rewrite <- Nat.add_succ_comm. apply H3. exact Hy.
Qed.
Lemma forall2_nth {A B} (R : A -> B -> Prop) l l' : length l = length l' ->
  (forall i a b, nth_error l i = Some a -> nth_error l' i = Some b -> R a b) -> Forall2 R l l'.
Proof.
  revert l'. induction l as [|a l IH]; intros [|b l'] L H; try discriminate; constructor.
  - apply (H 0%nat); reflexivity.
  - apply IH; [now injection L|]. intros i x y. apply (H (S i)).
Qed.
Lemma all_floats_ok {A} (kf : A -> key) (cf : A -> list (option R)) xs t :
  (forall x, In x xs -> get_col (kf x) t = Some (Floats (cf x))) -> all_floats (map kf xs) t = Some (map cf xs).
Proof.
  induction xs as [|x xs IH]; intros H; [reflexivity|]. cbn [map all_floats]. rewrite (H x (or_introl eq_refl)).
  rewrite IH by (intros y Y; apply H; now right). reflexivity.
Qed.

Lemma clamp_clamp x a b : (a <= b)%R -> clamp (clamp x a b) a b = clamp x a b.
Proof.
  intros H. unfold clamp. destruct (Rlt_dec x a).
  - destruct (Rlt_dec a a); [lra|]. destruct (Rlt_dec b a); [lra|reflexivity].
  - destruct (Rlt_dec b x).
    + destruct (Rlt_dec b a); [lra|]. destruct (Rlt_dec b b); [lra|reflexivity].
    + destruct (Rlt_dec x a); [lra|]. destruct (Rlt_dec b x); [lra|reflexivity].
Qed.
Lemma add9_zero sc : add9 sc (repeat 0%R size) = with_cr sc (clamp (coeff_reflectivity sc) 0 2).
Proof.
  destruct sc as [[ep fr [x y z] [u v q]] dry prop extra srp cr drag cd th m dir st].
  unfold add9, add6, with_cr, with_cd, with_prop, with_orbit, vadd, size. cbn [repeat nth vx vy vz radius_km velocity_km_s epoch frame
    sc_orbit dry_mass_kg prop_mass_kg extra_mass_kg srp_area_m2 coeff_reflectivity drag_area_m2 coeff_drag sc_thruster mode thrust_direction stm].
  rewrite !Rplus_0_r. reflexivity.
Qed.
Lemma cr_state e : clamp (coeff_reflectivity (state e)) 0 2 = coeff_reflectivity (state e).
Proof. unfold state, add9. cbn [coeff_reflectivity with_prop with_cd with_cr]. apply clamp_clamp. lra. Qed.

Lemma over_at {A} (f : residual -> option A) l i r : nth_error l i = Some r ->
  valid_at (over f l) i = match r with Some r => f r | None => None end.
Proof. intros E. unfold valid_at, over. apply nth_error_nth. now rewrite (map_nth_error _ i l E). Qed.
Lemma by_type_in v r t : In t (msr_types r) -> exists x, by_type v r t = Some x.
Proof. intros I. apply index_in in I as (k & E). unfold by_type. rewrite E. now exists (v r k). Qed.
Lemma by_type_out v r t : ~ In t (msr_types r) -> by_type v r t = None.
Proof. intros N. unfold by_type. now rewrite index_none. Qed.

Section Lines.
Context (meta : nat * R * R) (ests : list estimate) (resids : list (option residual)) (s : solution)
  (fields : list parameter) (sigmas rics : list entry)
  (Hsig : Forall (fun e => (exists p, e_key e = KSigmaParam p) /\ e_meta e = Some meta) sigmas)
  (Hric : Forall (fun e => (exists i, e_key e = KRic i) /\ e_meta e = None) rics).
Notation w := (written meta ests resids s fields sigmas rics).
Notation types := (measurement_types s).

Definition well_typed (r : residual) : Prop :=
  NoDup (msr_types r) /\ incl (msr_types r) types /\ (length (msr_types r) <= M)%nat.

Lemma residual_line i r ep : (forall l, Permutation (order l) l) -> NoDup types -> nth_error resids i = Some r ->
  (forall r', r = Some r' -> well_typed r') ->
  res_back r (read_residual M nan order w (filter readable types) i ep).
Proof.
  intros HO ND E W. unfold read_residual, opt_floats. rewrite (get_rejected _ _ _ _ _ _ _ Hsig Hric), (get_tracker _ _ _ _ _ _ _ Hsig Hric), (get_ratio _ _ _ _ _ _ _ Hsig Hric).
  rewrite !(over_at _ resids i r E). destruct r as [r|]; [|exact I]. specialize (W r eq_refl). destruct W as (W1 & W2 & W3).
  set (found := filter readable types). set (ts := filter _ (order found)).
  assert (IF : forall t, In t (order found) <-> In t types /\ readable t = true).
  { intros t. unfold found. rewrite <- filter_In. split; apply Permutation_in; [apply HO|apply Permutation_sym, HO]. }
  assert (CA : forall t, In t types -> cols_at w i t = {| c_prefit := by_type prefit r t; c_whitened := None; c_postfit := by_type postfit r t;
     c_noise := by_type noise r t; c_real := by_type real_obs r t; c_computed := by_type computed_obs r t |}).
  { intros t It. unfold cols_at, cell, opt_floats. rewrite (get_prefit _ _ _ _ _ _ _ Hsig Hric t It), (get_whitened_of _ _ _ _ _ _ _ Hsig Hric),
      (get_postfit _ _ _ _ _ _ _ Hsig Hric t It), (get_noise _ _ _ _ _ _ _ Hsig Hric t It), (get_real _ _ _ _ _ _ _ Hsig Hric t It),
      (get_computed _ _ _ _ _ _ _ Hsig Hric t It). rewrite !(over_at _ resids i _ E). reflexivity. }
  assert (IT : forall t, In t ts <-> In t (msr_types r) /\ readable t = true).
  { intros t. unfold ts. rewrite filter_In, IF. split.
    - intros [[It Rt] A]. split; [|exact Rt]. rewrite (CA t It) in A. destruct (in_dec msr_type_eq_dec t (msr_types r)) as [|N]; [assumption|].
      unfold any_cell in A. cbn in A. rewrite !by_type_out in A by exact N. discriminate.
    - intros [It Rt]. split; [split; [apply W2, It|exact Rt]|]. rewrite (CA t (W2 t It)). destruct (by_type_in prefit r t It) as (x & X).
      unfold any_cell. cbn. rewrite X. reflexivity. }
  assert (NT : NoDup ts).
  { unfold ts. apply NoDup_filter. eapply Permutation_NoDup; [apply Permutation_sym, HO|]. apply NoDup_filter, ND. }
  assert (FN : firstn M ts = ts).
  { apply firstn_all2. eapply Nat.le_trans; [|exact W3]. apply NoDup_incl_length; [exact NT|]. intros t It. apply IT in It. tauto. }
  rewrite FN.
  assert (V : forall (f : type_cols -> option R) (v : residual -> nat -> R) t, readable t = true ->
     (In t types -> f (cols_at w i t) = by_type v r t) ->
     option_map (fun k => match nth_error ts k with Some ty => match f (cols_at w i ty) with Some x => x | None => nan end | None => 0%R end) (index_of t ts)
     = by_type v r t).
  { intros f v t Rt F. destruct (in_dec msr_type_eq_dec t (msr_types r)) as [It|N].
    - assert (J : In t ts) by (apply IT; auto). apply index_in in J as (k & K). rewrite K. cbn [option_map]. rewrite (index_nth _ _ _ K).
      rewrite F by (apply W2, It). destruct (by_type_in v r t It) as (x & ->). reflexivity.
    - rewrite (by_type_out v r t N), index_none; [reflexivity|]. intros J. apply IT in J. tauto. }
  constructor; try reflexivity.
  - exact IT.
  - intros t Rt. refine (conj _ (conj _ (conj _ (conj _ _)))).
    + apply (V c_prefit); [exact Rt|]. intros It. now rewrite CA.
    + apply (V c_postfit); [exact Rt|]. intros It. now rewrite CA.
    + apply (V c_noise); [exact Rt|]. intros It. now rewrite CA.
    + apply (V c_real); [exact Rt|]. intros It. now rewrite CA.
    + apply (V c_computed); [exact Rt|]. intros It. now rewrite CA.
  - cbn [msr_types]. intros t It. unfold by_type. cbn [msr_types whitened]. pose proof It as It'. apply index_in in It as (k & K). rewrite K. cbn [option_map].
    rewrite (index_nth _ _ _ K). rewrite CA; [reflexivity|]. apply IT in It'. apply W2. tauto.
Qed.
End Lines.

(** ** The theorems *)
Definition needed : list parameter :=
  [Element X; Element Y; Element Z_; Element VX; Element VY; Element VZ; Cr; Cd; DryMass; PropMass].
Lemma needed_ok p e : In p needed -> exists x, value (state e) p = Ok x.
Proof. cbn [needed In]. intros H. decompose [or] H; subst; try contradiction; eexists; reflexivity. Qed.
Lemma needed_retained p first : In p needed -> retained evaluate bplane dcm_to_inertial first p = true.
Proof.
  intros I. unfold retained. destruct (needed_ok p first I) as (x & ->). rewrite param_eqb_neq; [reflexivity|].
  intros ->. cbn in I. intuition discriminate.
Qed.

(** Without epochs or a step, and with the fields of the state among those asked for, *)
Definition whole (cfg : export_cfg) : Prop :=
  start_epoch cfg = None /\ end_epoch cfg = None /\ step cfg = None /\
  match fields_of cfg with Some l => incl needed l | None => True end.

Theorem C92_reads cfg s f first rest :
  estimates s = first :: rest -> whole cfg -> to_parquet cfg s = Ok f ->
  (0 < M)%nat -> NoDup (measurement_types s) -> (forall l, Permutation (order l) l) ->
  (length (measurement_types s) = M -> forall t, In t (measurement_types s) -> readable t = true) ->
  (forall e, In e (estimates s) -> parse (show (epoch (sc_orbit (state e)))) = Some (epoch (sc_orbit (state e)))) ->
  (forall r, In (Some r) (residuals s) -> well_typed s r) ->
  exists s', from_parquet f = Ok s' /\ measurement_types s' = filter readable (measurement_types s) /\
    Forall2 (est_back (frame (sc_orbit (state first))) (srp_area_m2 (nominal first)) (drag_area_m2 (nominal first))) (estimates s) (estimates s') /\
    Forall2 res_back (residuals s) (residuals s') /\
    Forall2 (gain_back (length (measurement_types s) =? M)%nat) (gains s) (gains s') /\
    Forall2 ratio_back (ratios s) (ratios s').
Proof.
  intros E (C1 & C2 & C3 & C4) H PM ND HO HR PE HW. destruct (writes_inv cfg s f first rest E H) as (L1 & L2 & L3 & sigmas & rics & Hf & Hsig & Hric & _).
  assert (Sel : selected cfg s first (last (estimates s) first) = (estimates s, residuals s)) by (unfold selected; now rewrite C1, C2, C3).
  rewrite Sel in Hf. cbn [fst snd] in Hf. set (meta := (_, _, _)) in *. set (fields := filter _ _) in *.
  assert (NF : forall p, In p needed -> In p fields).
  { intros p I. unfold fields. apply filter_In. split; [|now apply needed_retained]. destruct (fields_of cfg); [now apply C4|].
    revert I. cbn. intuition. }
  set (ests := estimates s) in *. set (types := measurement_types s) in *. change (est_back (frame (sc_orbit (state first))) (srp_area_m2 (nominal first)) (drag_area_m2 (nominal first)))
    with (est_back (fst (fst meta)) (snd (fst meta)) (snd meta)). clearbody meta. rewrite Hf. clear Hf H f.
  set (w := written meta ests (residuals s) s fields sigmas rics).
  unfold Spq_Model.from_parquet. change (has_key KEpoch w) with true. cbn [negb].
  unfold w at 1. rewrite (found_meta meta ests (residuals s) s fields sigmas rics Hsig Hric).
  2:{ intros Z. specialize (NF (Element X) (or_introl eq_refl)). now rewrite Z in NF. }
  unfold w at 1. rewrite get_epoch. cbn [bind]. set (eps := map _ ests).
  assert (TS : traverse (fun k => get_floats k w) state_keys = Ok (map (fun p => map (ok p) ests) needed)).
  { change state_keys with (map KParam needed). assert (G : forall l, incl l needed -> traverse (fun k => get_floats k w) (map KParam l) = Ok (map (fun p => map (ok p) ests) l)).
    { intros l. induction l as [|p l IH]; [reflexivity|]. intros J. cbn [map traverse]. unfold get_floats at 1. unfold w at 1.
      rewrite get_param by (apply NF, J; now left). cbn [bind]. rewrite IH by (intros x X; apply J; now right). reflexivity. }
    apply G, incl_refl. }
  rewrite TS. cbn [bind].
  assert (TCov : cov_cols w = Ok (map (fun ij => map (fun e => Some (covar e (fst ij) (snd ij))) ests) upper)).
  { unfold cov_cols. apply traverse_all_ok. intros ij I. unfold w. now rewrite (get_cov _ _ _ _ _ _ _ Hsig ij I). }
  rewrite TCov. cbn [bind]. pose proof (found_types meta ests (residuals s) s fields sigmas rics Hsig Hric ND) as FT. fold types w in FT. cbv zeta. rewrite !FT.
  assert (TF : all_floats (map KFsr (seq 0 size)) w = Some (map (fun i => map (option_map (fun f => f i)) (ratios s)) (seq 0 size))).
  { apply all_floats_ok. intros i I. apply (get_fsr _ _ _ _ _ _ _ Hsig Hric i I). }
  rewrite TF. cbn [or_empty].
  set (gcols := or_empty _).
  assert (TG : gcols = if (length types =? M)%nat then map (fun ij => map (option_map (fun k => k (fst ij) (snd ij))) (gains s)) (grid M) else []).
  { unfold gcols. destruct (Nat.eqb_spec (length types) M) as [EL|NL].
    - assert (FR : filter readable types = types).
      { clear -HR EL. specialize (HR EL). revert HR. generalize types. intros l. induction l as [|t l IH]; intros HR; [reflexivity|]. cbn [filter].
        rewrite (HR t (or_introl eq_refl)), IH; [reflexivity|]. intros x X. apply HR. now right. }
      assert (LP : list_prod (seq 0 size) (filter readable types) = map (fun ij => (fst ij, nth (snd ij) types Range)) (grid M)).
      { rewrite FR. unfold grid. assert (TT : types = map (fun j => nth j types Range) (seq 0 M)).
        { rewrite <- EL. clear. induction types as [|t l IH]; [reflexivity|]. cbn [length seq map nth]. rewrite <- seq_shift, map_map. cbn [nth]. now rewrite <- IH. }
        rewrite TT at 1. generalize (seq 0 size) as A. generalize (seq 0 M) as B. clear. intros B A. induction A as [|a A IH]; [reflexivity|].
        cbn [list_prod]. rewrite map_app, IH. f_equal. rewrite !map_map. reflexivity. }
      rewrite LP, map_map. rewrite (all_floats_ok (fun ij => KGain (fst ij) (nth (snd ij) types Range)) (fun ij => map (option_map (fun k => k (fst ij) (snd ij))) (gains s))); [reflexivity|].
      intros ij I. apply (get_gain _ _ _ _ _ _ _ Hsig Hric ij EL ND I).
    - destruct (filter readable types) as [|t l]; [reflexivity|].
      change (or_empty (all_floats (KGain 0 t :: map (fun it => KGain (fst it) (snd it)) (skipn 1 (list_prod (seq 0 size) (t :: l)))) w) = []).
      cbn [all_floats]. unfold w. now rewrite (get_no_gain _ _ _ _ _ _ _ Hsig Hric 0 t NL). }
  clearbody gcols. subst gcols.
  assert (NG : grid M <> []).
  { unfold grid. destruct M as [|m]; [lia|]. discriminate. }
  set (line := read_line _ _ _ _ _ _ _ _ _ _ _ _ _).
  assert (LL : forall i e r g h, nth_error ests i = Some e -> nth_error (residuals s) i = Some r -> nth_error (gains s) i = Some g -> nth_error (ratios s) i = Some h ->
     exists e' r' g' h', line i = Ok (e', r', g', h') /\ est_back (fst (fst meta)) (snd (fst meta)) (snd meta) e e' /\ res_back r r' /\ gain_back (length types =? M)%nat g g' /\ ratio_back h h').
  { intros i e r g h Ee Er Eg Eh. unfold line, read_line.
    assert (Pe : text_at eps i = show (epoch (sc_orbit (state e)))) by (unfold text_at, eps; now rewrite (nth_error_nth _ i None (map_nth_error _ i _ Ee))).
    rewrite Pe, (PE e (nth_error_In _ _ Ee)). destruct meta as [[fr srp] drag].
    assert (Gx : exists g', match (if (length types =? M)%nat then map (fun ij => map (option_map (fun k : nat -> nat -> R => k (fst ij) (snd ij))) (gains s)) (grid M) else []) with
       | [] => Ok None | _ => cells (size * M) (if (length types =? M)%nat then map (fun ij => map (option_map (fun k : nat -> nat -> R => k (fst ij) (snd ij))) (gains s)) (grid M) else []) i end = Ok g' /\
       gain_back (length types =? M)%nat g (option_map (fun l a b => nth (a * M + b) l 0%R) g')).
    { destruct (length types =? M)%nat; [|exists None; split; [reflexivity|destruct g; cbn; auto]].
      assert (LG : (size * M)%nat = length (grid M)) by (unfold grid; rewrite prod_length, !seq_length; reflexivity).
      eexists. split.
      { destruct (map _ (grid M)) as [|c cs] eqn:Q; [destruct (grid M); [congruence|discriminate]|]. rewrite <- Q, LG.
        apply (cells_read (fun ij (k : nat -> nat -> R) => k (fst ij) (snd ij)) (grid M) (gains s) i g Eg NG). }
      destruct g as [g|]; [|exact I]. cbn [option_map gain_back]. split; [reflexivity|]. intros a b Ha Hb.
      assert (NP := nth_prod (seq 0 M) 0%nat size 0 a b Ha). rewrite seq_length in NP. specialize (NP Hb).
      erewrite nth_error_nth by (apply map_nth_error; exact NP). cbn [fst snd Nat.add]. now rewrite seq_nth. }
    destruct Gx as (g' & -> & GB). cbn [bind].
    assert (Hx : exists h', cells size (map (fun k => map (option_map (fun f : nat -> R => f k)) (ratios s)) (seq 0 size)) i = Ok h' /\
       ratio_back h (option_map (fun l a => nth a l 0%R) h')).
    { eexists. split; [apply (cells_read (fun k (f : nat -> R) => f k) (seq 0 size) (ratios s) i h Eh); discriminate|].
      destruct h as [h|]; [|exact I]. intros k Hk. cbn [option_map]. rewrite (nth_indep _ 0%R (h 0%nat)) by (rewrite map_length, seq_length; exact Hk).
      rewrite map_nth, seq_nth by exact Hk. reflexivity. }
    destruct Hx as (h' & Hh & HB).
    match goal with |- context [match map ?F (seq 0 size) with [] => Ok None | _ :: _ => ?C end] =>
      change (match map F (seq 0 size) with [] => Ok None | _ :: _ => C end) with C end.
    rewrite Hh. cbn [bind]. do 4 eexists. split; [reflexivity|]. split; [|split; [|split; [exact GB|exact HB]]].
    2:{ apply (residual_line _ _ _ _ _ _ _ Hsig Hric i r _ HO ND Er). intros r' ->. apply HW. eapply nth_error_In, Er. }
    assert (FA : forall p x, value (state e) p = Ok x -> float_at null_slot (map (ok p) ests) i = x).
    { intros p x Hp. unfold float_at. rewrite (nth_error_nth _ i None (map_nth_error (ok p) i _ Ee)). unfold ok. now rewrite Hp. }
    cbn [needed map nth fst snd].
    rewrite (FA (Element X) _ eq_refl), (FA (Element Y) _ eq_refl), (FA (Element Z_) _ eq_refl), (FA (Element VX) _ eq_refl), (FA (Element VY) _ eq_refl), (FA (Element VZ) _ eq_refl),
      (FA Cr _ eq_refl), (FA Cd _ eq_refl), (FA DryMass _ eq_refl), (FA PropMass _ eq_refl).
    assert (SC : forall cov, (forall a b, (a < size)%nat -> (b < size)%nat -> sym cov a b = covar e (Nat.min a b) (Nat.max a b)) -> forall sc, coeff_reflectivity sc = coeff_reflectivity (state e) ->
       sc_orbit sc = Orbit (epoch (sc_orbit (state e))) fr (radius_km (sc_orbit (state e))) (velocity_km_s (sc_orbit (state e))) ->
       dry_mass_kg sc = dry_mass_kg (state e) /\ prop_mass_kg sc = prop_mass_kg (state e) /\ extra_mass_kg sc = 0%R ->
       coeff_drag sc = coeff_drag (state e) -> srp_area_m2 sc = srp /\ drag_area_m2 sc = drag ->
       est_back fr srp drag e {| nominal := sc; deviation := repeat 0%R size; covar := sym cov; covar_bar := sym cov; e_stm := fun a b => if (a =? b)%nat then 1%R else 0%R; predicted := false |}).
    { intros cov Hc sc K1 K2 K3 K4 K5. set (e' := Build_estimate _ _ _ _ _ _). assert (SE : state e' = with_cr sc (clamp (coeff_reflectivity sc) 0 2)) by (unfold state, e'; cbn [nominal deviation]; apply add9_zero).
      constructor; rewrite ?SE.
      - exact K2.
      - exact K3.
      - split; [cbn [coeff_reflectivity with_cr]; rewrite K1; apply cr_state|exact K4].
      - exact K5.
      - exact Hc.
      - intros a b Ha Hb. cbn [covar e']. rewrite !Hc by assumption. now rewrite Nat.min_comm, Nat.max_comm. }
    apply SC; try reflexivity; try (repeat split; reflexivity).
    - intros a b Ha Hb. rewrite map_map. erewrite map_ext.
      + apply (sym_upper (fun ij => covar e (fst ij) (snd ij)) a b Ha Hb).
      + intros ij. unfold float_at. now rewrite (nth_error_nth _ i None (map_nth_error (fun e => Some (covar e (fst ij) (snd ij))) i _ Ee)). }
  assert (LE : length eps = length ests) by (unfold eps; apply map_length).
  rewrite LE. destruct (traverse_seq line (length ests) 0) as (l & T1 & T2 & T3).
  { intros i Hi. destruct (nth_error ests i) as [e|] eqn:Ee; [|apply nth_error_None in Ee; lia].
    destruct (nth_error (residuals s) i) as [r|] eqn:Er; [|apply nth_error_None in Er; lia].
    destruct (nth_error (gains s) i) as [g|] eqn:Eg; [|apply nth_error_None in Eg; lia].
    destruct (nth_error (ratios s) i) as [h|] eqn:Eh; [|apply nth_error_None in Eh; lia].
    destruct (LL i e r g h Ee Er Eg Eh) as (e' & r' & g' & h' & Q & _). cbn [Nat.add]. eauto. }
  rewrite T1. cbn [bind]. eexists. split; [reflexivity|]. cbn [measurement_types estimates residuals gains ratios]. split; [reflexivity|].
  assert (ALL : forall i x, nth_error l i = Some x -> exists e r g h, nth_error ests i = Some e /\ nth_error (residuals s) i = Some r /\ nth_error (gains s) i = Some g /\ nth_error (ratios s) i = Some h /\
     est_back (fst (fst meta)) (snd (fst meta)) (snd meta) e (fst (fst (fst x))) /\ res_back r (snd (fst (fst x))) /\ gain_back (length types =? M)%nat g (snd (fst x)) /\ ratio_back h (snd x)).
  { intros i x Ex. assert (Hi : (i < length l)%nat) by (apply nth_error_Some; congruence).
    destruct (nth_error ests i) as [e|] eqn:Ee; [|apply nth_error_None in Ee; lia].
    destruct (nth_error (residuals s) i) as [r|] eqn:Er; [|apply nth_error_None in Er; lia].
    destruct (nth_error (gains s) i) as [g|] eqn:Eg; [|apply nth_error_None in Eg; lia].
    destruct (nth_error (ratios s) i) as [h|] eqn:Eh; [|apply nth_error_None in Eh; lia].
    destruct (LL i e r g h Ee Er Eg Eh) as (e' & r' & g' & h' & Q & Q1 & Q2 & Q3 & Q4).
    specialize (T3 i x Ex). cbn [Nat.add] in T3. rewrite Q in T3. injection T3 as <-. exists e, r, g, h. cbn [fst snd]. auto 10. }
  refine (conj _ (conj _ (conj _ _))); apply forall2_nth; rewrite ?map_length; try lia; intros i a b Ha Hb;
  rewrite nth_error_map in Hb; destruct (nth_error l i) as [x|] eqn:Ex; try discriminate; cbn [option_map] in Hb; injection Hb as <-;
  destruct (ALL i x Ex) as (e & r & g & h & A1 & A2 & A3 & A4 & B1 & B2 & B3 & B4); fold ests in Ha; try congruence.
Qed.

(** It is written if what the first estimate has, they all have; and only then. *)
Lemma traverse_exists {E A B} (f : A -> res E B) l : (forall a, In a l -> exists b, f a = Ok b) -> exists r, traverse f l = Ok r.
Proof.
  induction l as [|a l IH]; intros H; [now exists []|]. cbn [traverse]. destruct (H a (or_introl eq_refl)) as (b & ->). cbn [bind].
  destruct IH as (r & ->); [intros x X; apply H; now right|]. cbn [bind]. eauto.
Qed.
Definition full (n : nat) (e : entry) : Prop := rows (e_col e) = n /\ (e_nullable e = true \/ nulls (e_col e) = false).
Lemma full_map {A} (mk : A -> entry) n l : (forall x, In x l -> full n (mk x)) -> Forall (full n) (map mk l).
Proof. intros H. apply Forall_forall. intros e I. apply in_map_iff in I as (x & <- & J). now apply H. Qed.
Lemma nulls_some {A} (g : A -> R) l : nulls (Floats (map (fun x => Some (g x)) l)) = false.
Proof. cbn [nulls]. induction l as [|x l IH]; [reflexivity|exact IH]. Qed.
Lemma traverse_some {E A} (f : A -> res E (option R)) l r : (forall a b, f a = Ok b -> b <> None) -> traverse f l = Ok r ->
  length r = length l /\ nulls (Floats r) = false.
Proof.
  intros H. revert r. induction l as [|a l IH]; cbn [traverse]; intros r K; [injection K as <-; split; reflexivity|].
  destruct (f a) as [b| | |] eqn:Fa; try discriminate. cbn [bind] in K.
  destruct (traverse f l) as [bs| | |]; try discriminate. cbn [bind] in K. injection K as <-.
  destruct (IH bs eq_refl) as [I1 I2]. split; [cbn; congruence|]. specialize (H a b Fa). destruct b; [|congruence]. exact I2.
Qed.
Lemma full_batch n e t : Forall (full n) (e :: t) -> batch (e :: t) = Ok (e :: t).
Proof.
  intros F. unfold batch. inversion F as [|? ? [R _] _]; subst.
  match goal with |- (if ?c then _ else _) = _ => assert (C : c = true) end; [|now rewrite C].
  apply forallb_forall. intros x I. rewrite Forall_forall in F. destruct (F x I) as [R1 R2]. rewrite R1, Nat.eqb_refl. cbn [andb].
  destruct R2 as [->| ->]; [reflexivity|apply orb_true_r].
Qed.

Theorem C92_writes cfg s first rest : estimates s = first :: rest -> whole cfg ->
  length (residuals s) = length (estimates s) -> length (gains s) = length (estimates s) -> length (ratios s) = length (estimates s) ->
  (forall oe e, In e (estimates s) -> sigma_for oe e <> None) -> (forall i e, In e (estimates s) -> ric_sigma i e <> None) ->
  ((exists f, to_parquet cfg s = Ok f) <->
   forall p e, In p (match fields_of cfg with Some l => l | None => export_params end) -> p <> GuidanceModeP -> In e (estimates s) ->
     (exists x, value (state first) p = Ok x) -> exists x, value (state e) p = Ok x).
Proof.
  intros E (C1 & C2 & C3 & C4) L1 L2 L3 HS HR. split.
  - intros (f & H) p e Ip Np Ie (x & Hx). unfold Spq_Model.to_parquet in H. rewrite E in H. rewrite <- E in H.
    destruct (_ || _ || _) eqn:L; [discriminate|]. unfold selected in H. rewrite C1, C2, C3 in H.
    destruct (traverse (param_col _ _ _ _ _) _) as [ps| | |] eqn:Tp; try discriminate. clear H.
    set (fields := filter _ _) in Tp. assert (If : In p fields).
    { unfold fields. apply filter_In. split; [exact Ip|]. unfold retained. rewrite Hx, (param_eqb_neq _ _ Np). reflexivity. }
    clearbody fields. revert ps Tp. induction fields as [|q l IH]; [destruct If|]. intros ps Tp. cbn [traverse] in Tp.
    destruct (param_col _ _ _ _ _ q) as [c| | |] eqn:Q; try discriminate. cbn [bind] in Tp.
    destruct If as [->|If].
    + unfold param_col in Q. destruct (traverse _ (estimates s)) as [cs| | |] eqn:T; try discriminate. clear -T Ie.
      revert cs T Ie. generalize (estimates s). intros l. induction l as [|a l IH]; intros cs T Ie; [destruct Ie|]. cbn [traverse] in T.
      destruct (value (state a) p) as [y| | |] eqn:V; try discriminate. cbn [bind] in T. destruct Ie as [->|Ie]; [eauto|].
      destruct (traverse _ l) as [cs'| | |] eqn:T'; try discriminate. eapply IH; [reflexivity|exact Ie].
    + destruct (traverse _ l) as [ps'| | |]; try discriminate. eapply IH; [exact If|reflexivity].
  - intros HV. unfold Spq_Model.to_parquet. rewrite E. rewrite <- E. rewrite L1, L2, L3, Nat.eqb_refl. cbn [negb orb].
    unfold selected. rewrite C1, C2, C3. set (meta := (_, _, _)). set (fields := filter _ _). set (ests := estimates s) in *.
    destruct (traverse_exists (param_col evaluate bplane dcm_to_inertial meta ests) fields) as (ps & Tp).
    { intros p Ip. unfold param_col. destruct (traverse_exists (fun e => match value (state e) p with Ok x => Ok (Some x) | _ => Err ODState end) ests) as (c & ->); [|cbn [bind]; eauto].
      intros e Ie. unfold fields in Ip. apply filter_In in Ip as [Ip Rp]. unfold retained in Rp.
      destruct (value (state first) p) as [x| | |] eqn:V; try discriminate.
      destruct (HV p e Ip) as (y & ->); [|exact Ie|eauto|eauto]. intros ->. discriminate. }
    destruct (traverse_exists (sigma_col sigma_for meta ests) (filter is_element fields)) as (sigmas & Ts).
    { intros p Ip. apply filter_In in Ip as [_ Ep]. destruct p; try discriminate. unfold sigma_col.
      destruct (traverse_exists (fun e0 => bind (or_panic (sigma_for e e0)) (fun x => Ok (Some x))) ests) as (c & ->); [|cbn [bind]; eauto].
      intros a Ia. specialize (HS e a Ia). destruct (sigma_for e a); [cbn; eauto|congruence]. }
    destruct (traverse_exists (ric_col ric_sigma ests) (seq 0 6)) as (rics & Tr).
    { intros i _. unfold ric_col. destruct (traverse_exists (fun e => bind (or_panic (ric_sigma i e)) (fun x => Ok (Some x))) ests) as (c & ->); [|cbn [bind]; eauto].
      intros a Ia. specialize (HR i a Ia). destruct (ric_sigma i a); [cbn; eauto|congruence]. }
    rewrite Tp. cbn [bind]. rewrite Ts. cbn [bind]. rewrite Tr. cbn [bind]. eexists. apply (full_batch (length ests)).
    constructor; [split; [cbn; apply map_length|right; cbn [nulls e_col plain_col]; clear; induction ests as [|x l IH]; [reflexivity|exact IH]]|].
    assert (O : forall A (g : residual -> option A), length (over g (residuals s)) = length ests) by (intros; unfold over; now rewrite map_length).
    repeat (apply Forall_app; split).
    + eapply traverse_forall, Tp. intros p e. unfold param_col. destruct (traverse _ ests) as [c| | |] eqn:T; try discriminate. cbn [bind]. intros [= <-].
      apply traverse_some in T as [T1 T2]; [|intros a b; destruct (value (state a) p); congruence]. split; [exact T1|right; exact T2].
    + eapply traverse_forall, Ts. intros p e. unfold sigma_col. destruct (traverse _ ests) as [c| | |] eqn:T; try discriminate. cbn [bind]. intros [= <-].
      apply traverse_some in T as [T1 T2]; [split; [exact T1|right; exact T2]|]. intros a b. destruct p; try discriminate. destruct (sigma_for e a); [|discriminate]. cbn. congruence.
    + apply full_map. intros ij _. split; [cbn; apply map_length|right; apply nulls_some].
    + apply full_map. intros i _. split; [cbn; apply map_length|right; apply nulls_some].
    + eapply traverse_forall, Tr. intros i e. unfold ric_col. destruct (traverse _ ests) as [c| | |] eqn:T; try discriminate. cbn [bind]. intros [= <-].
      apply traverse_some in T as [T1 T2]; [split; [exact T1|right; exact T2]|]. intros a b. destruct (ric_sigma i a); [|discriminate]. cbn. congruence.
    + apply full_map; intros t _; split; [cbn; apply O|left; reflexivity].
    + apply full_map; intros t _; split; [cbn; apply O|left; reflexivity].
    + apply full_map; intros t _; split; [cbn; apply O|left; reflexivity].
    + apply full_map; intros t _; split; [cbn; apply O|left; reflexivity].
    + apply full_map; intros t _; split; [cbn; apply O|left; reflexivity].
    + apply full_map; intros t _; split; [cbn; apply O|left; reflexivity].
    + repeat constructor; cbn; try apply O; now left.
    + apply full_map. intros ij _. split; [cbn; rewrite map_length; exact L2|left; reflexivity].
    + apply full_map. intros i _. split; [cbn; rewrite map_length; exact L3|left; reflexivity].
Qed.

Lemma filter_le {A} (P : A -> bool) l : (length (filter P l) <= length l)%nat.
Proof. induction l as [|a l IH]; [apply le_n|]. cbn. destruct (P a); cbn; lia. Qed.

(** With epochs, it is only written if all the estimates are selected. *)
Theorem C92_selection_refuted cfg s f e : to_parquet cfg s = Ok f -> In e (estimates s) ->
  (forall t, start_epoch cfg = Some t -> (t <= epoch (sc_orbit (state e)))%Z) /\
  (forall t, end_epoch cfg = Some t -> (epoch (sc_orbit (state e)) <= t)%Z).
Proof.
  intros H I. destruct (estimates s) as [|first rest] eqn:E; [destruct I|]. rewrite <- E in I.
  destruct (writes_inv cfg s f first rest E H) as (L1 & L2 & L3 & sigmas & rics & Hf & _ & _ & B).
  assert (LL : length (fst (selected cfg s first (last (estimates s) first))) = length (estimates s)).
  { set (sel := selected _ _ _ _) in *. assert (F : forallb (fun x => (rows (e_col x) =? length (fst sel))%nat && (e_nullable x || negb (nulls (e_col x)))) f = true).
    { unfold batch in B. set (n := match f with [] => _ | _ :: _ => _ end) in B.
      assert (N : n = length (fst sel)) by (unfold n; rewrite Hf; cbn; apply map_length). rewrite N in B.
      destruct (forallb _ f); [reflexivity|discriminate]. }
    rewrite forallb_forall in F. specialize (F (nullable_col (KFsr 0) (Floats (map (option_map (fun f => f 0%nat)) (ratios s))))).
    assert (J : In (nullable_col (KFsr 0) (Floats (map (option_map (fun f => f 0%nat)) (ratios s)))) f).
    { rewrite Hf. unfold written. right. do 7 (apply in_or_app; right). now left. }
    apply F, andb_prop in J as [J _]. apply Nat.eqb_eq in J. cbn in J. rewrite map_length in J. congruence. }
  clear -LL I L1. unfold selected in LL.
  assert (K : forall (P : estimate * option residual -> bool), length (map fst (filter P (combine (estimates s) (residuals s)))) = length (estimates s) ->
     forall e, In e (estimates s) -> exists r, P (e, r) = true).
  { intros P. rewrite map_length. revert L1. generalize (estimates s) (residuals s). intros l. induction l as [|a l IH]; intros m L1 Q x X; [destruct X|].
    destruct m as [|b m]; [discriminate|]. cbn [combine filter] in Q. destruct (P (a, b)) eqn:Pab.
    - destruct X as [->|X]; [eauto|]. apply (IH m); [now injection L1|cbn in Q; lia|exact X].
    - exfalso. assert (N : (length (filter P (combine l m)) <= length l)%nat).
      { eapply Nat.le_trans; [apply filter_le|]. rewrite combine_length. lia. }
      cbn [length] in Q. lia. }
  destruct (start_epoch cfg) as [a|] eqn:Sa, (end_epoch cfg) as [b|] eqn:Sb.
  1-3: cbn [fst] in LL; destruct (K _ LL e I) as (r & Q); cbn [fst] in Q; apply andb_prop in Q as [Q1 Q2]; apply Z.leb_le in Q1, Q2;
       split; intros t [= <-]; assumption.
  split; intros t; discriminate.
Qed.
(** Reading panics if a type cannot be read but another one can, the types being as many as the measurements. *)
Lemma cells_short n cols i : (length cols < n)%nat -> (forall c, In c cols -> valid_at c i <> None) -> cells n cols i = Panic.
Proof.
  revert cols. induction n as [|n IH]; intros cols L V; [lia|]. cbn [cells]. destruct cols as [|c cols]; [reflexivity|].
  destruct (valid_at c i) eqn:E; [|destruct (V c (or_introl eq_refl) E)]. rewrite IH; [reflexivity|cbn in L; lia|intros x X; apply V; now right].
Qed.
Lemma filter_lt {A} (P : A -> bool) l x : In x l -> P x = false -> (length (filter P l) < length l)%nat.
Proof.
  induction l as [|a l IH]; [intros []|]. intros [->|I] N; cbn [filter length].
  - rewrite N. pose proof (filter_le P l). lia.
  - specialize (IH I N). destruct (P a); cbn; lia.
Qed.
Theorem C92_unreadable_refuted cfg s f first rest g gs t u :
  estimates s = first :: rest -> whole cfg -> to_parquet cfg s = Ok f -> NoDup (measurement_types s) -> length (measurement_types s) = M ->
  gains s = Some g :: gs -> In t (measurement_types s) -> readable t = false -> In u (measurement_types s) -> readable u = true ->
  parse (show (epoch (sc_orbit (state first)))) <> None -> from_parquet f = Panic.
Proof.
  intros E (C1 & C2 & C3 & C4) H ND EL EG It Nt Iu Ru PE. destruct (writes_inv cfg s f first rest E H) as (L1 & L2 & L3 & sigmas & rics & Hf & Hsig & Hric & _).
  assert (Sel : selected cfg s first (last (estimates s) first) = (estimates s, residuals s)) by (unfold selected; now rewrite C1, C2, C3).
  rewrite Sel in Hf. cbn [fst snd] in Hf. set (meta := (_, _, _)) in *. set (fields := filter _ _) in *.
  assert (NF : forall p, In p needed -> In p fields).
  { intros p I. unfold fields. apply filter_In. split; [|now apply needed_retained]. destruct (fields_of cfg); [now apply C4|].
    revert I. cbn. intuition. }
  set (ests := estimates s) in *. set (types := measurement_types s) in *. clearbody meta. rewrite Hf. clear Hf H f.
  set (w := written meta ests (residuals s) s fields sigmas rics).
  unfold Spq_Model.from_parquet. change (has_key KEpoch w) with true. cbn [negb].
  unfold w at 1. rewrite (found_meta meta ests (residuals s) s fields sigmas rics Hsig Hric).
  2:{ intros Z. specialize (NF (Element X) (or_introl eq_refl)). now rewrite Z in NF. }
  unfold w at 1. rewrite get_epoch. cbn [bind]. set (eps := map _ ests).
  assert (TS : traverse (fun k => get_floats k w) state_keys = Ok (map (fun p => map (ok p) ests) needed)).
  { change state_keys with (map KParam needed). assert (G : forall l, incl l needed -> traverse (fun k => get_floats k w) (map KParam l) = Ok (map (fun p => map (ok p) ests) l)).
    { intros l. induction l as [|p l IH]; [reflexivity|]. intros J. cbn [map traverse]. unfold get_floats at 1. unfold w at 1.
      rewrite get_param by (apply NF, J; now left). cbn [bind]. rewrite IH by (intros x X; apply J; now right). reflexivity. }
    apply G, incl_refl. }
  rewrite TS. cbn [bind].
  assert (TCov : cov_cols w = Ok (map (fun ij => map (fun e => Some (covar e (fst ij) (snd ij))) ests) upper)).
  { unfold cov_cols. apply traverse_all_ok. intros ij I. unfold w. now rewrite (get_cov _ _ _ _ _ _ _ Hsig ij I). }
  rewrite TCov. cbn [bind]. pose proof (found_types meta ests (residuals s) s fields sigmas rics Hsig Hric ND) as FT. fold types w in FT. cbv zeta. rewrite !FT.
  set (gcols := or_empty (all_floats (map (fun it => _) _) w)).
  assert (TG : (exists c cs, gcols = c :: cs) /\ (length gcols < size * M)%nat /\ forall c, In c gcols -> valid_at c 0 <> None).
  { set (at_ := fun it : nat * msr_type => match index_of (snd it) types with Some j => j | None => 0%nat end).
    assert (LP : gcols = map (fun it => map (option_map (fun k => k (fst it) (at_ it))) (gains s)) (list_prod (seq 0 size) (filter readable types))).
    { unfold gcols. rewrite (all_floats_ok (fun it => KGain (fst it) (snd it)) (fun it => map (option_map (fun k => k (fst it) (at_ it))) (gains s))); [reflexivity|].
      intros [i ty] I. apply in_prod_iff in I as [Ii Ity]. apply filter_In in Ity as [Ity _]. cbn [fst snd].
      assert (IX : exists j, index_of ty types = Some j /\ (j < length types)%nat /\ nth j types Range = ty).
      { clear -Ity. revert Ity. generalize types. intros l. induction l as [|a l IH]; [intros []|]. intros I. cbn [index_of].
        destruct (type_eqb a ty) eqn:Q.
        - apply type_eqb_eq in Q as ->. exists 0%nat. split; [reflexivity|]. split; [cbn; lia|reflexivity].
        - destruct I as [->|I]; [rewrite (proj2 (type_eqb_eq ty ty) eq_refl) in Q; discriminate|]. destruct (IH I) as (j & -> & Lj & Nj).
          exists (S j). split; [reflexivity|]. split; [cbn; lia|exact Nj]. }
      destruct IX as (j & J1 & J2 & J3). unfold at_. cbn [snd]. rewrite J1.
      pose proof (get_gain meta ests (residuals s) s fields sigmas rics Hsig Hric (i, j) EL ND) as K. cbn [fst snd] in K. fold types in K. rewrite J3 in K. apply K.
      unfold grid. apply in_prod; [exact Ii|apply in_seq; lia]. }
    rewrite LP. split; [|split].
    - assert (In u (filter readable types)) by (apply filter_In; now split). destruct (filter readable types) as [|a l]; [contradiction|]. cbn. eauto.
    - rewrite map_length, prod_length, seq_length. pose proof (filter_lt readable types t It Nt). unfold size in *. lia.
    - intros c I. apply in_map_iff in I as (x & <- & _). rewrite EG. discriminate. }
  clearbody gcols. destruct TG as ((c & cs & ->) & G2 & G3).
  unfold eps. rewrite E. cbn [length map seq traverse]. unfold read_line at 1. cbn [text_at nth].
  unfold text_at. cbn [nth]. destruct (parse _) as [ep|] eqn:P; [|contradiction]. destruct meta as [[fr srp] drag].
  rewrite (cells_short _ _ _ G2 G3). reflexivity.
Qed.
End Parquet.

(** ** Cases *)
Section Case.
Definition no_value (e : element) (o : orbit) : option R := None.
Definition no_plane (o : orbit) : option (R * R * R) := None.
Definition no_dcm (f : nat) (o : orbit) : option m3 := None.
Definition one_for {A} (x : A) (e : estimate) : option R := Some 1%R.
Notation write M := (to_parquet M no_value no_plane no_dcm one_for one_for Apq_Props.show_unary).
Notation read M := (from_parquet M Apq_Props.parse_unary 0 (-1) (fun l => l)).
Definition cfg0 := {| start_epoch := None; end_epoch := None; step := None; fields_of := None |}.

Definition craft (t : Z) (extra area : R) (th : option thruster) : spacecraft :=
  Spacecraft (Orbit t 3 (V3 7000 1 0) (V3 0 7 1)) 500 50 extra area 1 area 2 th Coast None None.
Definition est_of (sc : spacecraft) : estimate :=
  {| nominal := sc; deviation := repeat 0%R 9; covar := fun i j => if (i =? j)%nat then 4%R else 1%R; covar_bar := fun _ _ => 0%R;
     e_stm := fun _ _ => 0%R; predicted := false |}.
Definition res_of (types : list msr_type) : residual :=
  {| r_epoch := 0; prefit := fun i => INR i; postfit := fun _ => 2%R; whitened := fun _ => 5%R; ratio := 1%R; noise := fun _ => 3%R;
     rejected := false; tracker := Some "Madrid"; msr_types := types; real_obs := fun _ => 4%R; computed_obs := fun _ => 5%R |}.
Definition sol (ests : list spacecraft) (types rt : list msr_type) : solution :=
  {| estimates := map est_of ests; residuals := map (fun _ => Some (res_of rt)) ests;
     gains := map (fun _ => Some (fun i j => INR (i + j))) ests; ratios := map (fun _ => None) ests; measurement_types := types |}.

Lemma writes_case M sc l types rt : (forall s, In s (sc :: l) -> sc_thruster s = sc_thruster sc /\ thrust_direction s = thrust_direction sc) ->
  exists f, write M cfg0 (sol (sc :: l) types rt) = Ok f.
Proof.
  intros H. apply (C92_writes M no_value no_plane no_dcm one_for one_for Apq_Props.show_unary cfg0 (sol (sc :: l) types rt) (est_of sc) (map est_of l)).
  - reflexivity.
  - repeat split.
  - cbn [sol residuals estimates]. now rewrite !map_length.
  - cbn [sol gains estimates]. now rewrite !map_length.
  - cbn [sol ratios estimates]. now rewrite !map_length.
  - discriminate.
  - discriminate.
  - intros p e _ Np I (x & V). apply in_map_iff in I as (s & <- & I). destruct (H s I) as [H1 H2].
    assert (T : forall s, sc_thruster (state (est_of s)) = sc_thruster s) by reflexivity.
    assert (D : forall s, thrust_direction (state (est_of s)) = thrust_direction s) by reflexivity.
    destruct p; try (eexists; reflexivity); try discriminate; unfold value in V |- *; unfold thrust_angles_deg in *; rewrite ?T, ?D in *;
      rewrite ?H1, ?H2; try (eexists; exact V).
    destruct e; try discriminate V; eexists; reflexivity.
Qed.

Lemma reads_case M sc l types rt : (forall s, In s (sc :: l) -> sc_thruster s = sc_thruster sc /\ thrust_direction s = thrust_direction sc) ->
  (forall s, In s (sc :: l) -> (0 <= epoch (sc_orbit s))%Z) -> (0 < M)%nat -> NoDup types -> NoDup rt -> incl rt types -> (length rt <= M)%nat ->
  (length types = M -> forall t, In t types -> readable t = true) ->
  exists f s', write M cfg0 (sol (sc :: l) types rt) = Ok f /\ read M f = Ok s' /\ measurement_types s' = filter readable types /\
    Forall2 (est_back (frame (sc_orbit sc)) (srp_area_m2 sc) (drag_area_m2 sc)) (estimates (sol (sc :: l) types rt)) (estimates s') /\
    Forall2 (res_back (-1)) (residuals (sol (sc :: l) types rt)) (residuals s') /\
    Forall2 (gain_back M (length types =? M)%nat) (gains (sol (sc :: l) types rt)) (gains s') /\
    Forall2 ratio_back (ratios (sol (sc :: l) types rt)) (ratios s').
Proof.
  intros H P PM ND NR IR LM RM. destruct (writes_case M sc l types rt H) as (f & W).
  destruct (C92_reads M no_value no_plane no_dcm one_for one_for Apq_Props.show_unary Apq_Props.parse_unary 0 (-1) (fun l => l) cfg0 (sol (sc :: l) types rt) f
     (est_of sc) (map est_of l)) as (s' & Rd & E1 & E2 & E3 & E4 & E5); try assumption.
  - reflexivity.
  - repeat split.
  - reflexivity.
  - intros e I. apply in_map_iff in I as (s & <- & I). apply Apq_Props.unary. exact (P s I).
  - intros r I. cbn [sol residuals] in I. apply in_map_iff in I as (s & [= <-] & _). repeat split; cbn; assumption || easy.
  - exists f, s'. split; [exact W|]. split; [exact Rd|]. split; [exact E1|]. split; [exact E2|]. split; [exact E3|]. split; [exact E4|exact E5].
Qed.

Definition engine := Thruster (1/10) 1000.

(** two estimates, with their gains and residuals *)
Example C92_case : exists f s', write 1 cfg0 (sol [craft 1 0 2 (Some engine); craft 5 0 2 (Some engine)] [Range] [Range]) = Ok f /\ read 1 f = Ok s' /\
  Forall2 (est_back 3 2 2) (map est_of [craft 1 0 2 (Some engine); craft 5 0 2 (Some engine)]) (estimates s') /\
  length (gains s') = 2%nat /\ (forall g, In g (gains s') -> exists h, g = Some h /\ h 3%nat 0%nat = 3%R).
Proof.
  destruct (reads_case 1 (craft 1 0 2 (Some engine)) [craft 5 0 2 (Some engine)] [Range] [Range]) as (f & s' & W & Rd & _ & E & _ & G & _).
  - intros s [<-|[<-|[]]]; split; reflexivity.
  - intros s [<-|[<-|[]]]; cbn; lia.
  - lia.
  - repeat constructor. intros [].
  - repeat constructor. intros [].
  - apply incl_refl.
  - apply le_n.
  - intros _ t [<-|[]]. reflexivity.
  - exists f, s'. split; [exact W|]. split; [exact Rd|]. split; [exact E|]. 
    cbn in G. inversion G as [|? g1 ? l1 G1 GT]; subst. inversion GT as [|? g2 ? l2 G2 GN]; subst. inversion GN; subst.
    split; [reflexivity|]. intros g I. destruct I as [<-|[<-|[]]]; [destruct g1 as [h|]|destruct g2 as [h|]]; try discriminate;
      exists h; (split; [reflexivity|]); [destruct G1 as [_ G1]|destruct G2 as [_ G2]]; [rewrite G1|rewrite G2]; unfold size; try lia; cbn; lra.
Qed.

(** A solution read back does not have the whitened residuals: they are written under a name that is not read. *)
Theorem C92_whitened_refuted : exists s f s' r r', write 1 cfg0 s = Ok f /\ read 1 f = Ok s' /\
  residuals s = [Some r] /\ residuals s' = [Some r'] /\ by_type whitened r Range = Some 5%R /\ by_type whitened r' Range = Some (-1)%R.
Proof.
  destruct (reads_case 1 (craft 1 0 2 None) [] [Range] [Range]) as (f & s' & W & Rd & _ & _ & Q & _ & _).
  - intros s [<-|[]]; split; reflexivity.
  - intros s [<-|[]]; cbn; lia.
  - lia.
  - repeat constructor. intros [].
  - repeat constructor. intros [].
  - apply incl_refl.
  - apply le_n.
  - intros _ t [<-|[]]. reflexivity.
  - cbn in Q. inversion Q as [|? q ? l1 Q1 QT]; subst. inversion QT; subst. destruct q as [q|]; [|destruct Q1].
    exists (sol [craft 1 0 2 None] [Range] [Range]), f, s', (res_of [Range]), q. split; [exact W|]. split; [exact Rd|]. split; [reflexivity|].
    split; [congruence|]. split; [reflexivity|]. apply (whitened_lost _ _ _ Q1). apply (same_types _ _ _ Q1). split; [now left|reflexivity].
Qed.

(** Filtering scalars of a solution with two types, the gains are lost: they are written with a number and sought with a type. *)
Theorem C92_gains_refuted : exists s f s' g, write 1 cfg0 s = Ok f /\ read 1 f = Ok s' /\ gains s = [Some g] /\ gains s' = [None].
Proof.
  destruct (reads_case 1 (craft 1 0 2 None) [] [Range; Doppler] [Range]) as (f & s' & W & Rd & _ & _ & _ & G & _).
  - intros s [<-|[]]; split; reflexivity.
  - intros s [<-|[]]; cbn; lia.
  - lia.
  - repeat constructor; cbn; intuition discriminate.
  - repeat constructor. intros [].
  - intros t [<-|[]]. now left.
  - apply le_n.
  - discriminate.
  - cbn in G. inversion G as [|? g ? l1 G1 GT]; subst. inversion GT; subst. destruct g as [g|]; [destruct G1; discriminate|].
    do 3 eexists. eexists. split; [exact W|]. split; [exact Rd|]. split; [reflexivity|congruence].
Qed.

(** The measurements of a frequency are lost. *)
Theorem C92_frequency_refuted : exists s f s' r r', write 2 cfg0 s = Ok f /\ read 2 f = Ok s' /\
  residuals s = [Some r] /\ residuals s' = [Some r'] /\ by_type prefit r ReceiveFrequency = Some 0%R /\ by_type prefit r' ReceiveFrequency = None.
Proof.
  destruct (reads_case 2 (craft 1 0 2 None) [] [ReceiveFrequency] [ReceiveFrequency]) as (f & s' & W & Rd & _ & _ & Q & _ & _).
  - intros s [<-|[]]; split; reflexivity.
  - intros s [<-|[]]; cbn; lia.
  - lia.
  - repeat constructor. intros [].
  - repeat constructor. intros [].
  - apply incl_refl.
  - cbn. lia.
  - discriminate.
  - cbn in Q. inversion Q as [|? q ? l1 Q1 QT]; subst. inversion QT; subst. destruct q as [q|]; [|destruct Q1].
    exists (sol [craft 1 0 2 None] [ReceiveFrequency] [ReceiveFrequency]), f, s', (res_of [ReceiveFrequency]), q.
    split; [exact W|]. split; [exact Rd|]. split; [reflexivity|]. split; [congruence|]. split; [reflexivity|].
    assert (N : msr_types q = []).
    { destruct (msr_types q) as [|t l] eqn:Mq; [reflexivity|]. exfalso. pose proof (proj1 (same_types _ _ _ Q1 t)) as K.
      rewrite Mq in K. destruct (K (or_introl eq_refl)) as [[<-|[]] K2]. discriminate. }
    unfold by_type. now rewrite N.
Qed.

(** The areas are those of the first estimate; the other masses and the thrusters are lost. *)
Theorem C92_spacecraft_refuted : exists s f s' e e', write 1 cfg0 s = Ok f /\ read 1 f = Ok s' /\
  nth_error (estimates s) 1 = Some e /\ nth_error (estimates s') 1 = Some e' /\
  srp_area_m2 (state e) = 5%R /\ srp_area_m2 (state e') = 2%R /\ mass_kg (state e) = 557%R /\ mass_kg (state e') = 550%R.
Proof.
  destruct (reads_case 1 (craft 1 0 2 None) [craft 5 7 5 None] [Range] [Range]) as (f & s' & W & Rd & _ & E & _).
  - intros s [<-|[<-|[]]]; split; reflexivity.
  - intros s [<-|[<-|[]]]; cbn; lia.
  - lia.
  - repeat constructor. intros [].
  - repeat constructor. intros [].
  - apply incl_refl.
  - apply le_n.
  - intros _ t [<-|[]]. reflexivity.
  - cbn [map] in E. inversion E as [|? e1 ? l1 E1 ET]; subst. inversion ET as [|? e2 ? l2 E2 EN]; subst.
    exists (sol [craft 1 0 2 None; craft 5 7 5 None] [Range] [Range]), f, s', (est_of (craft 5 7 5 None)), e2.
    split; [exact W|]. split; [exact Rd|]. split; [reflexivity|]. split; [match goal with H : _ = estimates s' |- _ => now rewrite <- H end|].
    split; [reflexivity|]. split; [exact (proj1 (these_areas _ _ _ _ _ E2))|].
    destruct (same_masses _ _ _ _ _ E2) as (M1 & M2 & M3). unfold mass_kg. rewrite M1, M2, M3.
    assert (D : forall s, dry_mass_kg (state (est_of s)) = dry_mass_kg s) by reflexivity.
    assert (X : forall s, extra_mass_kg (state (est_of s)) = extra_mass_kg s) by reflexivity.
    assert (P : prop_mass_kg (state (est_of (craft 5 7 5 None))) = 50%R).
    { unfold state, add9, est_of. cbn. lra. }
    rewrite D, X, P. cbn [craft dry_mass_kg extra_mass_kg]. split; lra.
Qed.

(** A solution whose first estimate has a thruster, but not another one, is not written. *)
Theorem C92_thruster_refuted : write 1 cfg0 (sol [craft 1 0 2 (Some engine); craft 5 0 2 None] [Range] [Range]) = Err ODState.
Proof. reflexivity. Qed.

(** A start after the first estimate: the file is not written. *)
Example C92_selection_case f :
  write 1 {| start_epoch := Some 2%Z; end_epoch := None; step := None; fields_of := None |} (sol [craft 1 0 2 None; craft 5 0 2 None] [Range] [Range]) <> Ok f.
Proof.
  intros W. destruct (C92_selection_refuted _ _ _ _ _ _ _ _ _ _ (est_of (craft 1 0 2 None)) W (or_introl eq_refl)) as [K _].
  specialize (K 2%Z eq_refl). change (2 <= 1)%Z in K. lia.
Qed.

(** A range and a frequency at a time: reading panics. *)
Example C92_unreadable_case : exists f, write 2 cfg0 (sol [craft 1 0 2 None] [Range; ReceiveFrequency] [Range]) = Ok f /\ read 2 f = Panic.
Proof.
  destruct (writes_case 2 (craft 1 0 2 None) [] [Range; ReceiveFrequency] [Range]) as (f & W).
  { intros s [<-|[]]; split; reflexivity. }
  exists f. split; [exact W|].
  eapply (C92_unreadable_refuted 2) with (t := ReceiveFrequency) (u := Range) (s := sol [craft 1 0 2 None] [Range; ReceiveFrequency] [Range]);
    [reflexivity| |exact W| |reflexivity|reflexivity| |reflexivity| |reflexivity|discriminate].
  - repeat split.
  - repeat constructor; cbn; intuition discriminate.
  - right. now left.
  - now left.
Qed.
End Case.

Print Assumptions C92_reads.
Print Assumptions C92_writes.
Print Assumptions C92_selection_refuted.
Print Assumptions C92_case.
Print Assumptions C92_whitened_refuted.
Print Assumptions C92_gains_refuted.
Print Assumptions C92_frequency_refuted.
Print Assumptions C92_spacecraft_refuted.
Print Assumptions C92_thruster_refuted.
Print Assumptions C92_unreadable_refuted.
Print Assumptions C92_unreadable_case.
Print Assumptions C92_selection_case.
