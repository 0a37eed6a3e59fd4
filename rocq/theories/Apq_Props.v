(** C90: tracking arcs through parquet files. *)
From Coq Require Import Reals String Lra.
From Verif Require Import Base RustStd Arc_Model Arc_Spec Arc_Proofs Tdm_Proofs Pq_Model Apq_Model.
Local Open Scope string_scope.
Local Open Scope Z_scope.

(** ** Specification *)

(** The types that are read *)
Definition read_type (t : msr_type) : Prop := t = Range \/ t = Doppler \/ t = Azimuth \/ t = Elevation.
(** Some measurement of the list has an observable of this type. *)
Definition observed (t : msr_type) (l : list measurement) : Prop := exists m v, In m l /\ get t (obs m) = Some v.

(** What comes back for a measurement of an arc. *)
Record comes_back (null_slot : R) (l : list measurement) (m m' : measurement) : Prop := {
  cb_tracker : tracker m' = tracker m;
  cb_epoch : epoch m' = epoch m;
  cb_rejected : rejected m' = false;
  cb_read : forall t v, read_type t -> get t (obs m) = Some v -> get t (obs m') = Some v;
  cb_missing : forall t, read_type t -> get t (obs m) = None -> observed t l -> get t (obs m') = Some null_slot;
  cb_absent : forall t, (~ read_type t \/ ~ observed t l) -> get t (obs m') = None }.

(** The same but for the order of the observables *)
Record same (m m' : measurement) : Prop := {
  sm_tracker : tracker m' = tracker m; sm_epoch : epoch m' = epoch m; sm_rejected : rejected m' = rejected m;
  sm_obs : forall t, get t (obs m') = get t (obs m) }.

(** ** Proofs *)
Lemma name_inj a b : column_name a = column_name b -> a = b.
Proof. destruct a, b; intros H; try reflexivity; discriminate H. Qed.
Lemma name_not_text t : column_name t <> "Epoch (UTC)" /\ column_name t <> "Tracking device".
Proof. destruct t; split; discriminate. Qed.

Section Columns.
Context (f : msr_type -> list (option R)).
Notation typed ts := (combine (map to_field ts) (map (fun t => Floats (f t)) ts)).
Lemma typed_map ts : typed ts = map (fun t => (to_field t, Floats (f t))) ts.
Proof. induction ts as [|t ts IH]; cbn; [reflexivity|]. rewrite <- IH. reflexivity. Qed.
Lemma has_typed t ts : has_field (column_name t) (map (fun t => (to_field t, Floats (f t))) ts) = true <-> In t ts.
Proof.
  unfold has_field. rewrite existsb_exists. split.
  - intros (x & Hx & E). apply in_map_iff in Hx as (u & <- & Hu). apply String.eqb_eq in E. cbn in E.
    apply name_inj in E as ->. exact Hu.
  - intros H. exists (to_field t, Floats (f t)). split; [apply in_map_iff; eauto|]. apply String.eqb_refl.
Qed.
Lemma find_typed t ts : In t ts -> column_by_name (column_name t) (map (fun t => (to_field t, Floats (f t))) ts) = Some (Floats (f t)).
Proof.
  induction ts as [|u ts IH]; [intros []|]. cbn. intros [->|H].
  - rewrite String.eqb_refl. reflexivity.
  - destruct (String.eqb_spec (column_name u) (column_name t)) as [E|_]; [|exact (IH H)].
    apply name_inj in E as ->. reflexivity.
Qed.
End Columns.

Lemma traverse_ok {E A B} (f : A -> res E B) (g : A -> B) l : (forall a, In a l -> f a = Ok (g a)) -> traverse f l = Ok (map g l).
Proof.
  induction l as [|a l IH]; cbn; intros H; [reflexivity|].
  rewrite (H a (or_introl eq_refl)). cbn. rewrite IH by auto. reflexivity.
Qed.
Lemma nth_map_error {A B} (f : A -> option B) l i : nth i (map f l) None = match nth_error l i with Some a => f a | None => None end.
Proof. revert i. induction l as [|a l IH]; intros [|i]; cbn; auto. Qed.
Lemma get_inserts null_slot i t c1 c2 c3 c4 :
  get t (insert_at null_slot i Elevation c4 (insert_at null_slot i Azimuth c3 (insert_at null_slot i Doppler c2 (insert_at null_slot i Range c1 [])))) =
  option_map (fun l => float_at null_slot l i)
    (match t with Range => c1 | Doppler => c2 | Azimuth => c3 | Elevation => c4 | _ => None end).
Proof.
  unfold get, insert_at. destruct c1, c2, c3, c4; rewrite ?get_insert; destruct t; reflexivity.
Qed.

Section Theorems.
Context (show : Z -> string) (parse : string -> option Z) (null_slot : R).
Notation to_parquet := (to_parquet show).
Notation from_parquet := (from_parquet parse null_slot).

(** The table that is written *)
Definition written (types : list msr_type) (l : list measurement) : table :=
  (plain "Epoch (UTC)" Utf8 false, Text (map (fun m => Some (show (epoch m))) l))
  :: (plain "Tracking device" Utf8 false, Text (map (fun m => Some (tracker m)) l))
  :: map (fun t => (to_field t, Floats (map (fun m => get t (obs m)) l))) types.

Lemma no_nulls {A} (f : measurement -> A) l :
  existsb (fun x : option A => match x with Some _ => false | None => true end) (map (fun m => Some (f m)) l) = false.
Proof. induction l; cbn; auto. Qed.

Lemma writes cfg a m0 l0 : measurements a = m0 :: l0 ->
  to_parquet cfg a = Ok (written (unique_types (measurements a)) (selected cfg m0 (measurements a))).
Proof.
  intros H. unfold Apq_Model.to_parquet. rewrite H. rewrite <- H. set (l := selected cfg m0 (measurements a)).
  set (ts := unique_types (measurements a)). unfold record_batch.
  replace (negb _) with false by (symmetry; cbn [length]; rewrite !map_length; apply negb_false_iff, Nat.eqb_refl).
  cbn [combine]. rewrite typed_map. cbn [rows].
  replace (forallb _ _) with true; [reflexivity|]. symmetry. apply forallb_forall.
  intros x Hx. cbn in Hx. destruct Hx as [<-|[<-|Hx]].
  - cbn. rewrite !map_length, Nat.eqb_refl, no_nulls. reflexivity.
  - cbn. rewrite !map_length, Nat.eqb_refl, no_nulls. reflexivity.
  - apply in_map_iff in Hx as (t & <- & _). cbn. rewrite !map_length, Nat.eqb_refl. reflexivity.
Qed.

Lemma has_written types l t : has_field (column_name t) (written types l) = true <-> In t types.
Proof.
  unfold written. cbn [has_field existsb fst f_name plain].
  destruct (String.eqb_spec "Epoch (UTC)" (column_name t)) as [E|_]; [destruct (name_not_text t); congruence|].
  destruct (String.eqb_spec "Tracking device" (column_name t)) as [E|_]; [destruct (name_not_text t); congruence|].
  cbn [orb]. apply (has_typed (fun t => map (fun m => get t (obs m)) l)).
Qed.
Lemma find_written types l t : In t types ->
  column_by_name (column_name t) (written types l) = Some (Floats (map (fun m => get t (obs m)) l)).
Proof.
  intros H. unfold written. cbn [column_by_name f_name plain].
  destruct (String.eqb_spec "Epoch (UTC)" (column_name t)) as [E|_]; [destruct (name_not_text t); congruence|].
  destruct (String.eqb_spec "Tracking device" (column_name t)) as [E|_]; [destruct (name_not_text t); congruence|].
  apply (find_typed (fun t => map (fun m => get t (obs m)) l)), H.
Qed.
Lemma floats_written types l t :
  floats (written types l) t = Ok (if in_dec msr_type_eq_dec t types then Some (map (fun m => get t (obs m)) l) else None).
Proof.
  unfold floats. destruct (has_field (column_name t) (written types l)) eqn:E.
  - apply has_written in E. rewrite (find_written _ _ _ E). destruct (in_dec _ t types); [reflexivity|contradiction].
  - destruct (in_dec _ t types) as [H|H]; [|reflexivity]. apply (has_written _ l) in H. congruence.
Qed.

Lemma in_unique t l : In t (unique_types l) <-> observed t l.
Proof.
  rewrite unique_types_in. split.
  - intros (m & H1 & H2). destruct (get t (obs m)) as [v|] eqn:E; [exists m, v; auto|].
    apply get_none in E. contradiction.
  - intros (m & v & H1 & H2). exists m. split; [exact H1|].
    destruct (in_dec msr_type_eq_dec t (map fst (obs m))) as [H|H]; [exact H|]. apply get_none in H. unfold get in H2. congruence.
Qed.

Lemma reads types l : (exists t, read_type t /\ In t types) ->
  (forall m, In m l -> parse (show (epoch m)) = Some (epoch m)) ->
  exists l', from_parquet (written types l) = Ok {| measurements := l'; moduli := None; force_reject := false |} /\
    Forall2 (fun m m' => tracker m' = tracker m /\ epoch m' = epoch m /\ rejected m' = false /\
      forall t, get t (obs m') = if in_dec msr_type_eq_dec t types then
        (match t with
         | Range | Doppler | Azimuth | Elevation => Some (match get t (obs m) with Some v => v | None => null_slot end)
         | _ => None end) else None) l l'.
Proof.
  intros (t0 & R0 & I0) Hp. unfold Apq_Model.from_parquet.
  assert (H1 : has_field "Epoch (UTC)" (written types l) = true) by reflexivity.
  assert (H2 : has_field "Tracking device" (written types l) = true) by reflexivity.
  assert (H3 : has_field "Range (km)" (written types l) || has_field "Doppler (km/s)" (written types l)
                || has_field "Azimuth (deg)" (written types l) || has_field "Elevation (deg)" (written types l) = true).
  { apply (has_written types l) in I0. change "Range (km)" with (column_name Range). change "Doppler (km/s)" with (column_name Doppler).
    change "Azimuth (deg)" with (column_name Azimuth). change "Elevation (deg)" with (column_name Elevation).
    destruct R0 as [->|[->|[->| ->]]]; rewrite I0, ?orb_true_r; reflexivity. }
  rewrite H1, H2, H3. cbn [negb].
  assert (T1 : texts "Tracking device" (written types l) = Ok (map (fun m => Some (tracker m)) l)) by reflexivity.
  assert (T2 : texts "Epoch (UTC)" (written types l) = Ok (map (fun m => Some (show (epoch m))) l)) by reflexivity.
  rewrite T1, T2. cbn [bind]. rewrite !floats_written. cbn [bind].
  assert (N : num_rows (written types l) = length l) by (cbn; apply map_length). rewrite N. clear T1 T2 N H1 H2 H3 I0 R0 t0.
  set (c k := if in_dec msr_type_eq_dec k types then Some (map (fun m => get k (obs m)) l) else None).
  set (d i := insert_at null_slot i Elevation (c Elevation) (insert_at null_slot i Azimuth (c Azimuth)
                (insert_at null_slot i Doppler (c Doppler) (insert_at null_slot i Range (c Range) [])))).
  set (row i := {| tracker := text_at (map (fun m => Some (tracker m)) l) i;
                   epoch := match nth_error l i with Some m => epoch m | None => 0 end; obs := d i; rejected := false |}).
  rewrite (traverse_ok _ row).
  - cbn [bind]. eexists. split; [reflexivity|].
    assert (G : forall i m, nth_error l i = Some m -> tracker (row i) = tracker m /\ epoch (row i) = epoch m /\ rejected (row i) = false /\
      forall t, get t (obs (row i)) = if in_dec msr_type_eq_dec t types then
        (match t with
         | Range | Doppler | Azimuth | Elevation => Some (match get t (obs m) with Some v => v | None => null_slot end)
         | _ => None end) else None).
    { intros i m E. unfold row. cbn [tracker epoch rejected obs]. rewrite E. unfold text_at. rewrite nth_map_error, E.
      split; [reflexivity|]. split; [reflexivity|]. split; [reflexivity|]. intros t. unfold d. rewrite get_inserts.
      destruct t; unfold c; destruct (in_dec _ _ types); cbn [option_map]; try reflexivity;
        unfold float_at; rewrite nth_map_error, E; reflexivity. }
    clearbody row. clear - G. revert row G. induction l as [|m l IH]; intros row G; [constructor|].
    cbn [length seq map]. constructor; [exact (G 0%nat m eq_refl)|]. rewrite <- seq_shift, map_map.
    apply (IH (fun i => row (S i))). intros i m' E. exact (G (S i) m' E).
  - intros i Hi. apply in_seq in Hi. unfold text_at at 1. rewrite nth_map_error.
    destruct (nth_error l i) as [m|] eqn:E; [|apply nth_error_None in E; lia].
    rewrite (Hp m (nth_error_In _ _ E)). unfold row, d, c. rewrite E. reflexivity.
Qed.

(** C90: every arc that is not empty can be written, *)
Theorem C90_writes cfg a : measurements a <> [] <-> exists f, to_parquet cfg a = Ok f.
Proof.
  split.
  - destruct (measurements a) as [|m l] eqn:E; [congruence|]. intros _. exists (written (unique_types (measurements a)) (selected cfg m (measurements a))).
    apply (writes _ _ _ _ E).
  - intros [f H] E. unfold Apq_Model.to_parquet in H. rewrite E in H. discriminate.
Qed.

(** and, with an observable that is read, read: the same trackers and epochs in the same order, with
    the observables that are read, and the content of a null slot for those that are missing. *)
Theorem C90_reads cfg a f m0 l0 : measurements a = m0 :: l0 ->
  to_parquet cfg a = Ok f -> (exists t, read_type t /\ observed t (measurements a)) ->
  (forall m, In m (selected cfg m0 (measurements a)) -> parse (show (epoch m)) = Some (epoch m)) ->
  exists a', from_parquet f = Ok a' /\ moduli a' = None /\ force_reject a' = false /\
    Forall2 (comes_back null_slot (measurements a)) (selected cfg m0 (measurements a)) (measurements a').
Proof.
  intros E H (t & R & O) Hp. rewrite (writes _ _ _ _ E) in H. injection H as <-.
  destruct (reads (unique_types (measurements a)) (selected cfg m0 (measurements a))) as (l' & H1 & H2); [exists t; split; [exact R|]; apply in_unique, O|exact Hp|].
  exists {| measurements := l'; moduli := None; force_reject := false |}. split; [exact H1|]. split; [reflexivity|]. split; [reflexivity|].
  cbn [measurements]. assert (sub : forall m, In m (selected cfg m0 (measurements a)) -> In m (measurements a)).
  { intros m Hm. unfold selected in Hm. assert (K : forall r l, In m (filter_by_epoch r l) -> In m l).
    { intros r l. unfold filter_by_epoch. destruct (resolve_bounds r l) as [s e]. destruct (_ || _); [intros []|].
      intros I. assert (K : forall A (x : A) n l, In x (skipn n l) -> In x l).
      { intros A x n; induction n as [|n IH]; intros [|y k]; cbn; auto. }
      assert (K2 : forall A (x : A) n l, In x (firstn n l) -> In x l).
      { intros A x n; induction n as [|n IH]; intros [|y k]; cbn; intuition auto. }
      exact (K2 _ _ _ _ (K _ _ _ _ I)). }
    destruct (start_epoch cfg), (end_epoch cfg), (step cfg); eauto. }
  clear H1 Hp. revert sub H2. generalize (selected cfg m0 (measurements a)) as l. intros l sub F. induction F as [|m m' l l' (G1 & G2 & G3 & G4) F IH]; constructor.
  - split; [exact G1|exact G2|exact G3| | |].
    + intros u v Ru Gu. rewrite G4. destruct (in_dec _ u _) as [I|I].
      * rewrite Gu. destruct Ru as [->|[->|[->| ->]]]; reflexivity.
      * exfalso. apply I, in_unique. exists m, v. split; [apply sub; left; reflexivity|exact Gu].
    + intros u Ru Gu Ou. rewrite G4. destruct (in_dec _ u _) as [I|I]; [|exfalso; apply I, in_unique, Ou].
      rewrite Gu. destruct Ru as [->|[->|[->| ->]]]; reflexivity.
    + intros u Hu. rewrite G4. destruct (in_dec _ u _) as [I|I]; [|reflexivity]. apply in_unique in I. destruct Hu as [Hu|Hu]; [|contradiction].
      destruct u; try reflexivity; exfalso; apply Hu; unfold read_type; auto.
  - apply IH. intros x Hx. apply sub. right. exact Hx.
Qed.

(** C90: in particular an arc comes back the same if nothing is rejected, its observables are all
    of types that are read, and each measurement has all the types of the arc. *)
Theorem C90_round_trip a f :
  to_parquet default_cfg a = Ok f ->
  (forall m, In m (measurements a) -> parse (show (epoch m)) = Some (epoch m) /\ rejected m = false /\
     forall t, (get t (obs m) <> None <-> observed t (measurements a)) /\ (observed t (measurements a) -> read_type t)) ->
  (exists t, observed t (measurements a)) ->
  exists a', from_parquet f = Ok a' /\ Forall2 same (measurements a) (measurements a').
Proof.
  intros H Hm (t0 & O0). destruct (measurements a) as [|m0 l0] eqn:E; [destruct O0 as (? & ? & [] & _)|].
  assert (R0 : read_type t0) by (exact (proj2 (proj2 (proj2 (Hm m0 (or_introl eq_refl))) t0) O0)).
  destruct (C90_reads default_cfg a f m0 l0 E H) as (a' & H1 & _ & _ & F).
  - exists t0. rewrite E. auto.
  - rewrite E. intros m I. apply Hm. exact I.
  - exists a'. split; [exact H1|]. rewrite E in F. cbn [selected default_cfg start_epoch end_epoch step] in F.
    assert (G : forall m m', In m (m0 :: l0) -> comes_back null_slot (m0 :: l0) m m' -> same m m').
    { intros m m' I [C1 C2 C3 C4 C5 C6]. destruct (Hm m I) as (_ & Hr & Ht). split; [exact C1|exact C2|congruence|].
      intros t. destruct (Ht t) as [[T1 T2] T3]. destruct (get t (obs m)) as [v|] eqn:Eg.
      - apply C4; [|exact Eg]. apply T3, T1. discriminate.
      - apply C6. right. intros O. exact (T2 O eq_refl). }
    revert G F. generalize (comes_back null_slot (m0 :: l0)). generalize (m0 :: l0) (measurements a'). clear.
    intros l l' P G F. induction F as [|m m' l l' H F IH]; constructor; [apply G; [left; reflexivity|exact H]|].
    apply IH. intros x x' I. apply G. right. exact I.
Qed.

(** C90: an arc without any observable that is read cannot be read back. *)
Theorem C90_unreadable cfg a f :
  to_parquet cfg a = Ok f -> (forall t, observed t (measurements a) -> ~ read_type t) ->
  exists which, from_parquet f = Err (MissingData which).
Proof.
  intros H N. destruct (measurements a) as [|m0 l0] eqn:E; [unfold Apq_Model.to_parquet in H; rewrite E in H; discriminate|].
  rewrite (writes _ _ _ _ E) in H. injection H as <-. set (l := selected _ _ _).
  assert (B : forall t, read_type t -> has_field (column_name t) (written (unique_types (measurements a)) l) = false).
  { intros t R. destruct (has_field _ _) eqn:K; [|reflexivity]. apply has_written, in_unique in K. rewrite E in K. destruct (N t K R). }
  unfold Apq_Model.from_parquet. set (w := written _ l) in *.
  assert (H1 : has_field "Epoch (UTC)" w = true) by reflexivity.
  assert (H2 : has_field "Tracking device" w = true) by reflexivity.
  pose proof (B Range) as B1. pose proof (B Doppler) as B2. pose proof (B Azimuth) as B3. pose proof (B Elevation) as B4.
  change (column_name Range) with "Range (km)" in B1. change (column_name Doppler) with "Doppler (km/s)" in B2.
  change (column_name Azimuth) with "Azimuth (deg)" in B3. change (column_name Elevation) with "Elevation (deg)" in B4.
  unfold read_type in *. rewrite H1, H2, B1, B2, B3, B4 by auto. eexists. reflexivity.
Qed.

(** What is selected from an arc in order of time: everything by default; with any of start, end and
    step, the epochs from the start on and before the end, which are those of the arc by default. *)
Theorem C90_selected cfg m0 l0 : time_ordered (m0 :: l0) ->
  forall m, In m (selected cfg m0 (m0 :: l0)) <-> In m (m0 :: l0) /\
    ((start_epoch cfg = None /\ end_epoch cfg = None /\ step cfg = None) \/
     ((start_epoch cfg <> None \/ end_epoch cfg <> None \/ step cfg <> None) /\
      match start_epoch cfg with Some t => t <= epoch m | None => True end /\
      match end_epoch cfg with Some t => epoch m < t | None => exists m', In m' (m0 :: l0) /\ epoch m < epoch m' end)).
Proof.
  intros T m. assert (First : In m (m0 :: l0) -> epoch m0 <= epoch m).
  { intros [->|I]; [lia|]. apply StronglySorted_inv in T as [_ F]. rewrite Forall_forall in F. apply F, I. }
  assert (Last : forall x, In x (m0 :: l0) -> epoch x <= epoch (last (m0 :: l0) m0)).
  { clear First. intros x. assert (G : forall l d, time_ordered l -> In x l -> epoch x <= epoch (last l d)).
    { clear. intros l. induction l as [|y l IH]; [intros ? _ []|]. intros d T [->|I].
      - destruct l as [|z l]; [cbn; lia|]. apply StronglySorted_inv in T as [_ F]. rewrite Forall_forall in F.
        apply F. clear. revert z. induction l as [|w l IH]; intros z; [left; reflexivity|]. right. exact (IH w).
      - destruct l as [|z l]; [destruct I|]. apply StronglySorted_inv in T as [T _]. exact (IH d T I). }
    apply G, T. }
  assert (LastIn : In (last (m0 :: l0) m0) (m0 :: l0)).
  { rewrite (app_removelast_last m0 (l := m0 :: l0)) at 2 by discriminate. apply in_or_app. right. left. reflexivity. }
  assert (K : forall s e, In m (filter_by_epoch (Included s, Excluded e) (m0 :: l0)) <-> In m (m0 :: l0) /\ s <= epoch m /\ epoch m < e).
  { intros s e. rewrite (filter_by_epoch_exact _ _ T), filter_In. apply and_iff_compat_l.
    rewrite range_within. cbn. reflexivity. }
  set (ls := last (m0 :: l0) m0) in *.
  unfold selected. destruct cfg as [[s|] [e|] [d|]]; cbn [start_epoch end_epoch step]; fold ls; rewrite ?K.
  all: assert (A : (exists m', In m' (m0 :: l0) /\ epoch m < epoch m') <-> epoch m < epoch ls) by
         (split; [intros (x & I & L); specialize (Last x I); lia|intros L; exists ls; auto]).
  all: rewrite ?A; split; [intros I|].
  all: try (destruct I as (I & I2 & I3); split; [exact I|right]; split; [auto; try (left; discriminate); right; first [left; discriminate|right; discriminate]|auto]).
  all: try (intros (I & [(Q1 & Q2 & Q3)|(_ & I2 & I3)]); [discriminate|]; split; [exact I|]; split; auto; apply First; exact I).
  - split; [exact I|]. left. auto.
  - intros [I _]. exact I.
Qed.
End Theorems.

(** ** Cases *)
Section Case.
Local Open Scope R_scope.
Definition show_unary (t : Z) : string := (fix go n := match n with O => "" | S n => String Ascii.zero (go n) end) (Z.to_nat t).
Definition parse_unary (s : string) : option Z := Some (Z.of_nat (String.length s)).
Lemma unary t : (0 <= t)%Z -> parse_unary (show_unary t) = Some t.
Proof.
  intros H. unfold parse_unary, show_unary. f_equal. rewrite <- (Z2Nat.id t H) at 2. f_equal.
  generalize (Z.to_nat t). induction n; cbn; auto.
Qed.
Definition ranging (e : Z) (rej : bool) (d : data) : measurement := {| tracker := "DSS-65"; epoch := e; obs := d; rejected := rej |}.
Definition arc_of (l : list measurement) : arc := {| measurements := l; moduli := None; force_reject := false |}.
Definition two : arc := arc_of [ranging 1 false [(Range, 7000); (Doppler, 2)]; ranging 3 false [(Doppler, -1); (Range, 7001)]].
Definition sparse : arc := arc_of [ranging 1 false [(Range, 7000)]; ranging 3 false [(Doppler, -1)]].
Definition marked : arc := arc_of [ranging 1 true [(Range, 7000)]].
Definition freq : arc := arc_of [ranging 1 false [(ReceiveFrequency, 7000)]].

Example C90_case : exists f a', to_parquet show_unary default_cfg two = Ok f /\ from_parquet parse_unary 0 f = Ok a' /\
  Forall2 same (measurements two) (measurements a').
Proof.
  eexists. eexists. split; [reflexivity|]. split; [reflexivity|].
  repeat constructor; cbn; try reflexivity; intros []; reflexivity.
Qed.

(** C90: a measurement comes back with observables that it does not have, *)
Theorem C90_missing_refuted : forall null_slot, exists a f a' m m',
  to_parquet show_unary default_cfg a = Ok f /\ from_parquet parse_unary null_slot f = Ok a' /\
  nth_error (measurements a) 0 = Some m /\ nth_error (measurements a') 0 = Some m' /\
  get Doppler (obs m) = None /\ get Doppler (obs m') = Some null_slot.
Proof.
  intros x. exists sparse. do 4 eexists. split; [reflexivity|]. split; [reflexivity|]. repeat split; reflexivity.
Qed.
(** a rejected one comes back as good, *)
Theorem C90_rejected_refuted : exists a f a' m m',
  to_parquet show_unary default_cfg a = Ok f /\ from_parquet parse_unary 0 f = Ok a' /\
  nth_error (measurements a) 0 = Some m /\ nth_error (measurements a') 0 = Some m' /\
  rejected m = true /\ rejected m' = false.
Proof. exists marked. do 4 eexists. split; [reflexivity|]. split; [reflexivity|]. repeat split; reflexivity. Qed.
(** frequencies are written but not read, *)
Theorem C90_frequency_refuted : exists a f which,
  to_parquet show_unary default_cfg a = Ok f /\ from_parquet parse_unary 0 f = Err (MissingData which).
Proof. exists freq. do 2 eexists. split; reflexivity. Qed.
(** and asking for the epochs from the first one on loses the last measurement. *)
Theorem C90_last_refuted : exists a f a' cfg, time_ordered (measurements a) /\
  start_epoch cfg = Some 1%Z /\ end_epoch cfg = None /\ (forall m, In m (measurements a) -> (1 <= epoch m)%Z) /\
  to_parquet show_unary cfg a = Ok f /\ from_parquet parse_unary 0 f = Ok a' /\
  length (measurements a) = 2%nat /\ length (measurements a') = 1%nat.
Proof.
  exists two. do 2 eexists. exists {| start_epoch := Some 1%Z; end_epoch := None; step := None |}.
  split; [repeat constructor; cbn; lia|]. split; [reflexivity|]. split; [reflexivity|].
  split; [intros m [<-|[<-|[]]]; cbn; lia|]. repeat split; reflexivity.
Qed.
End Case.
Print Assumptions C90_writes. Print Assumptions C90_reads. Print Assumptions C90_round_trip. Print Assumptions C90_unreadable.
Print Assumptions C90_selected. Print Assumptions C90_missing_refuted. Print Assumptions C90_rejected_refuted.
Print Assumptions C90_frequency_refuted. Print Assumptions C90_last_refuted.
