(** What the TDM reader makes of the lines that the TDM writer writes. *)
From Coq Require Import Reals String Ascii Lra.
From Verif Require Import Base RustStd Arc_Model Arc_Spec Arc_Proofs Tdm_Model Tdm_Text.
Local Open Scope string_scope.

(** * Maps *)
Lemma smap_get_insert (V : Type) (k k' : string) (v : V) m :
  im_get String.eqb k (im_insert String.eqb k' v m)
  = if String.eqb k k' then Some v else im_get String.eqb k m.
Proof.
  induction m as [|[a b] m IH]; cbn [im_insert im_get].
  - destruct (String.eqb_spec k k'); reflexivity.
  - destruct (String.eqb_spec k' a) as [->|E]; cbn [im_get].
    + destruct (String.eqb_spec k a); reflexivity.
    + rewrite IH. destruct (String.eqb_spec k a) as [->|E']; [|reflexivity].
      destruct (String.eqb_spec a k'); [congruence|reflexivity].
Qed.

Lemma get_in t v (d : data) : NoDup (map fst d) -> (get t d = Some v <-> In (t, v) d).
Proof.
  intros N. unfold get. induction d as [|[k w] d IH]; cbn [im_get].
  - split; [discriminate|intros []].
  - inversion N as [|? ? N1 N2]; subst. destruct (type_eqb t k) eqn:E.
    + apply type_eqb_eq in E. subst k. split.
      * intros H. left. congruence.
      * intros [H|H]; [congruence|]. exfalso. apply N1. now apply (in_map fst) in H.
    + rewrite (IH N2). split; [now right|]. intros [H|H]; [|exact H].
      assert (k = t) by congruence. subst k. rewrite type_eqb_refl in E. discriminate.
Qed.

(** * Removing the frequencies *)
Lemma swap_remove_absent t d : get t d = None -> swap_remove t d = d.
Proof. intros H. unfold swap_remove. now rewrite H. Qed.

Lemma get_app t (d d' : data) :
  get t (d ++ d')%list = match get t d with Some v => Some v | None => get t d' end.
Proof.
  unfold get. induction d as [|[k v] d IH]; cbn [List.app im_get]; [reflexivity|].
  destruct (type_eqb t k); [reflexivity|exact IH].
Qed.

Lemma replace_key_spec t e d : fst e <> t -> In t (map fst d) -> ~ In (fst e) (map fst d) ->
  NoDup (map fst d) ->
  NoDup (map fst (replace_key t e d)) /\
  (forall k, In k (map fst (replace_key t e d)) <-> k = fst e \/ (k <> t /\ In k (map fst d))) /\
  forall k, get k (replace_key t e d) =
    if type_eqb k t then None else if type_eqb k (fst e) then Some (snd e) else get k d.
Proof.
  intros D I F N. induction d as [|[a v] d IH]; [destruct I|].
  cbn [replace_key map fst In] in *. inversion N as [|? ? N1 N2]; subst.
  destruct (type_eqb t a) eqn:E.
  - apply type_eqb_eq in E. subst a. split; [|split].
    + cbn [map]. constructor; [|exact N2]. intros H. apply F. now right.
    + intros k. cbn [map In]. split.
      * intros [H|H]; [left; congruence|]. right. split; [|now right]. intros ->. contradiction.
      * intros [H|[H1 [H|H]]]; [left; congruence|congruence|now right].
    + intros k. unfold get. destruct e as [ek ev]. cbn [im_get fst snd] in *.
      destruct (type_eqb k ek) eqn:E1.
      * apply type_eqb_eq in E1. subst k. destruct (type_eqb ek t) eqn:E2; [|reflexivity].
        apply type_eqb_eq in E2. contradiction.
      * destruct (type_eqb k t) eqn:E2; [|reflexivity]. apply type_eqb_eq in E2. subst k.
        now apply get_none.
  - destruct I as [I|I]; [subst a; rewrite type_eqb_refl in E; discriminate|].
    destruct (IH I (fun H => F (or_intror H)) N2) as (J1 & J2 & J3). split; [|split].
    + cbn [map fst]. constructor; [|exact J1]. rewrite J2. intros [H|[_ H]]; [|contradiction].
      apply F. now left.
    + intros k. cbn [map fst In]. rewrite J2. split.
      * intros [H|[H|[H1 H]]]; [|now left|right; split; [exact H1|now right]].
        subst k. right. split; [|now left]. intros ->. rewrite type_eqb_refl in E. discriminate.
      * intros [H|[H1 [H|H]]]; [right; now left|now left|right; right; now split].
    + intros k. specialize (J3 k). unfold get in *. cbn [im_get].
      destruct (type_eqb k a) eqn:E1; [|exact J3]. apply type_eqb_eq in E1. subst k.
      destruct (type_eqb a t) eqn:E2.
      * apply type_eqb_eq in E2. subst a. rewrite type_eqb_refl in E. discriminate.
      * destruct (type_eqb a (fst e)) eqn:E3; [|reflexivity].
        apply type_eqb_eq in E3. exfalso. apply F. now left.
Qed.

Lemma swap_remove_spec t d : NoDup (map fst d) ->
  NoDup (map fst (swap_remove t d)) /\
  forall k, get k (swap_remove t d) = if type_eqb k t then None else get k d.
Proof.
  intros N. unfold swap_remove. destruct (get t d) as [v|] eqn:G.
  2:{ split; [exact N|]. intros k. destruct (type_eqb k t) eqn:E; [|reflexivity].
      apply type_eqb_eq in E. now subst. }
  destruct (exists_last (l := d)) as (front & e & ->); [intros ->; discriminate|].
  rewrite last_last, removelast_last. rewrite map_app in N. cbn [map] in N.
  assert (N1 : NoDup (map fst front)).
  { clear -N. induction (map fst front) as [|x l IH]; [constructor|]. cbn [List.app] in N.
    inversion N as [|? ? A B]; subst. constructor; [|now apply IH]. intros H. apply A.
    apply in_or_app. now left. }
  assert (N2 : ~ In (fst e) (map fst front)).
  { intros H. apply NoDup_remove_2 in N. apply N. apply in_or_app. now left. }
  destruct (type_eqb t (fst e)) eqn:E.
  - apply type_eqb_eq in E. split; [exact N1|]. intros k. rewrite get_app.
    destruct (type_eqb k t) eqn:E1.
    + apply type_eqb_eq in E1. subst k. apply get_none. now rewrite E.
    + destruct (get k front); [reflexivity|]. destruct e as [ek ev]. unfold get. cbn [im_get fst] in *.
      subst ek. now rewrite E1.
  - assert (D : fst e <> t).
    { intros H. rewrite H, type_eqb_refl in E. discriminate. }
    assert (I : In t (map fst front)).
    { rewrite get_app in G. destruct (get t front) eqn:G1.
      - destruct (in_dec msr_type_eq_dec t (map fst front)) as [I|I]; [exact I|].
        apply get_none in I. unfold get in G1. congruence.
      - destruct e as [ek ev]. unfold get in G. cbn [im_get fst] in *. rewrite E in G. discriminate. }
    destruct (replace_key_spec t e front D I N2 N1) as (J1 & _ & J3). split; [exact J1|].
    intros k. rewrite J3, get_app. destruct (type_eqb k t); [reflexivity|].
    destruct e as [ek ev]. unfold get in *. cbn [im_get fst snd] in *.
    destruct (type_eqb k ek) eqn:E1; [|now destruct (im_get type_eqb k front)].
    apply type_eqb_eq in E1. subst ek. apply get_none in N2. now rewrite N2.
Qed.

Lemma drop_freqs_spec m : well_formed m ->
  well_formed (drop_freqs m) /\ same (drop_freqs m) m /\ rejected (drop_freqs m) = rejected m /\
  forall k, get k (obs (drop_freqs m)) = if is_freq k then None else get k (obs m).
Proof.
  intros W. unfold drop_freqs, well_formed. cbn [with_obs obs fold_left rejected].
  destruct (swap_remove_spec ReceiveFrequency _ W) as [W1 G1].
  destruct (swap_remove_spec TransmitFrequency _ W1) as [W2 G2].
  destruct (swap_remove_spec TransmitFrequencyRate _ W2) as [W3 G3].
  split; [exact W3|]. split; [split; reflexivity|]. split; [reflexivity|].
  intros k. rewrite G3, G2, G1. now destruct k.
Qed.

(** * The data read so far *)
Definition point : Type := string * Z * msr_type * R.
Definition push_point (l : list measurement) (p : point) : list measurement :=
  let '(tr, e, t, v) := p in push_value tr e t v l.

(** The measurements hold these points and no others. *)
Definition holds (l : list measurement) (pts : list point) : Prop :=
  Forall (fun m => well_formed m /\ rejected m = false /\ obs m <> []) l /\
  forall tr e t v,
    (exists m, In m l /\ tracker m = tr /\ epoch m = e /\ get t (obs m) = Some v) <->
    In (tr, e, t, v) pts.

(** One value per tracker, epoch and type. *)
Definition functional (pts : list point) : Prop :=
  forall tr e t v v', In (tr, e, t, v) pts -> In (tr, e, t, v') pts -> v = v'.

Lemma insert_not_nil t v (d : data) : im_insert type_eqb t v d <> [].
Proof. destruct d as [|[k w] d]; cbn; [discriminate|]. destruct (type_eqb t k); discriminate. Qed.

Lemma holds_push l pts p : functional (pts ++ [p])%list -> holds l pts ->
  holds (push_point l p) (pts ++ [p])%list.
Proof.
  destruct p as [[[tr e] t] v]. cbn [push_point]. intros U [H1 H2].
  assert (New : forall m, tracker m = tr -> epoch m = e -> obs m = [(t, v)] -> rejected m = false ->
            holds (m :: l) (pts ++ [(tr, e, t, v)])%list).
  { intros m T E O R. split.
    - constructor; [|exact H1]. unfold well_formed. rewrite O. repeat split; [|exact R|discriminate].
      cbn. constructor; [intros []|constructor].
    - intros tr' e' t' v'. rewrite in_app_iff, <- H2. split.
      + intros (m' & [<-|I] & A & B & C); [|left; exists m'; auto].
        right. left. rewrite O in C. unfold get in C. cbn [im_get] in C.
        destruct (type_eqb t' t) eqn:Q; [|discriminate]. apply type_eqb_eq in Q. congruence.
      + intros [(m' & I & A)|[A|[]]]; [exists m'; split; [now right|exact A]|].
        exists m. split; [now left|]. rewrite O. unfold get. cbn [im_get].
        assert (t' = t /\ v' = v /\ e' = e /\ tr' = tr) as (-> & -> & -> & ->) by (repeat split; congruence).
        rewrite type_eqb_refl. auto. }
  unfold push_value. destruct l as [|last l]; [apply New; reflexivity|].
  destruct ((epoch last =? e)%Z && String.eqb (tracker last) tr)%bool eqn:K;
    [|apply New; reflexivity].
  apply andb_true_iff in K. destruct K as [K1 K2]. apply Z.eqb_eq in K1. apply String.eqb_eq in K2.
  inversion H1 as [|? ? (A & B & C) H3]; subst. split.
  - constructor; [|exact H3]. unfold well_formed. cbn [with_obs obs rejected]. repeat split.
    + now apply nodup_insert.
    + exact B.
    + apply insert_not_nil.
  - intros tr' e' t' v'. rewrite in_app_iff. split.
    + intros (m & [<-|I] & D & E & F).
      * cbn [with_obs obs tracker epoch] in *. unfold get in F. rewrite get_insert in F.
        destruct (type_eqb t' t) eqn:Q.
        -- apply type_eqb_eq in Q. right. left. congruence.
        -- left. apply H2. exists last. repeat split; auto. now left.
      * left. apply H2. exists m. repeat split; auto. now right.
    + intros [I|[I|[]]].
      * pose proof I as I'. apply H2 in I. destruct I as (m & [<-|I] & D & E & F).
        -- exists (with_obs last (im_insert type_eqb t v (obs last))). split; [now left|].
           cbn [with_obs obs tracker epoch]. repeat split; auto. unfold get. rewrite get_insert.
           destruct (type_eqb t' t) eqn:Q; [|exact F]. apply type_eqb_eq in Q. subst t'.
           f_equal. apply (U (tracker last) (epoch last) t); apply in_or_app; [right; now left|].
           left. rewrite D, E. exact I'.
        -- exists m. split; [now right|]. auto.
      * exists (with_obs last (im_insert type_eqb t v (obs last))). split; [now left|].
        cbn [with_obs obs tracker epoch]. unfold get. rewrite get_insert.
        assert (t' = t) by congruence. subst t'. rewrite type_eqb_refl. repeat split; congruence.
Qed.

Lemma holds_push_all pts : forall l before_, functional (before_ ++ pts)%list -> holds l before_ ->
  holds (fold_left push_point pts l) (before_ ++ pts)%list.
Proof.
  induction pts as [|p pts IH]; intros l b U H; cbn [fold_left].
  - now rewrite app_nil_r.
  - replace (b ++ p :: pts)%list with ((b ++ [p]) ++ pts)%list in * by (rewrite <- app_assoc; reflexivity).
    apply IH; [exact U|]. apply holds_push; [|exact H].
    intros tr e t v v' I I'. apply (U tr e t); apply in_or_app; now left.
Qed.
Lemma holds_nil : holds [] [].
Proof. split; [constructor|]. intros. split; [intros (m & [] & _)|intros []]. Qed.

(** * Unique trackers and types *)
Lemma unique_fold {A B : Type} (eqb : B -> B -> bool) (f : A -> B)
    (Heq : forall a b, eqb a b = true <-> a = b) (l : list A) : forall acc x,
  In x (fold_left (fun acc m => if existsb (eqb (f m)) acc then acc else acc ++ [f m])%list l acc)
  <-> In x acc \/ exists m, In m l /\ f m = x.
Proof.
  induction l as [|a l IH]; intros acc x; cbn [fold_left].
  - split; [now left|]. intros [H|(m & [] & _)]. exact H.
  - rewrite IH. destruct (existsb (eqb (f a)) acc) eqn:E.
    + apply existsb_exists in E. destruct E as (y & I & Q). apply Heq in Q. split.
      * intros [H|(m & H1 & H2)]; [now left|]. right. exists m. split; [now right|exact H2].
      * intros [H|(m & [<-|H1] & H2)]; [now left| |right; now exists m]. left. congruence.
    + rewrite in_app_iff. split.
      * intros [[H|[H|[]]]|(m & H1 & H2)]; [now left|right; exists a; split; [now left|exact H]|].
        right. exists m. split; [now right|exact H2].
      * intros [H|(m & [<-|H1] & H2)]; [now left; left|left; right; now left|right; now exists m].
Qed.
Lemma unique_trackers_in l x : In x (unique_trackers l) <-> exists m, In m l /\ tracker m = x.
Proof.
  unfold unique_trackers. rewrite (unique_fold String.eqb tracker String.eqb_eq). split.
  - now intros [[]|H].
  - now right.
Qed.
Lemma unique_types_in l t : In t (unique_types l) <-> exists m, In m l /\ In t (map fst (obs m)).
Proof.
  unfold unique_types.
  enough (G : forall l acc, In t (fold_left (fun acc m =>
      fold_left (fun acc t => if existsb (type_eqb t) acc then acc else acc ++ [t])%list
        (map fst (obs m)) acc) l acc) <-> In t acc \/ exists m, In m l /\ In t (map fst (obs m))).
  { rewrite G. split; [now intros [[]|H]|now right]. }
  clear l. induction l as [|m l IH]; intros acc; cbn [fold_left].
  - split; [now left|]. intros [H|(m & [] & _)]. exact H.
  - rewrite IH, (unique_fold type_eqb (fun x => x) type_eqb_eq). split.
    + intros [[H|(x & H & <-)]|(n & H1 & H2)]; [now left| |].
      * right. exists m. split; [now left|exact H].
      * right. exists n. split; [now right|exact H2].
    + intros [H|(n & [<-|H1] & H2)]; [now left; left| |right; now exists n].
      left. right. now exists t.
Qed.
Lemma existsb_type t l : existsb (type_eqb t) l = true <-> In t l.
Proof.
  rewrite existsb_exists. split.
  - intros (x & H & E). apply type_eqb_eq in E. now subst.
  - intros H. exists t. split; [exact H|apply type_eqb_refl].
Qed.

(** * What is asked of names and metadata *)
Definition no_line_end (s : string) : Prop := without LF s.
(** A name on one line, without an equal sign and without white space around it. *)
Definition plain_name (s : string) : Prop :=
  without LF s /\ without EQS s /\ trim s = s.
(** A keyword that the reader only remembers. *)
Definition quiet_key (k : string) : Prop :=
  k <> "" /\ plain_name k /\ prefix "PARTICIPANT_1" k = false /\
  prefix "TIME_SYSTEM" k = false /\ prefix "PATH" k = false.

Section Reading.
Context {scale : Type} (UTC : scale) (scale_of_str : string -> option scale).
Context (fmt_epoch : scale -> Z -> string) (parse_epoch : string -> scale -> option Z).
Context (fmt_fixed fmt_exp : R -> string) (parse_f64 : string -> option R)
        (parse_i32 : string -> option Z).
Hypothesis utc_name : scale_of_str "UTC" = Some UTC.
Context (stored : scale) (read : Z -> Z) (rd : R -> R).
Hypothesis epoch_word : forall e, word (fmt_epoch stored e).
Hypothesis epoch_read : forall e, parse_epoch (fmt_epoch stored e) UTC = Some (read e).
Hypothesis fixed_word : forall x, word (fmt_fixed x).
Hypothesis fixed_read : forall x, parse_f64 (fmt_fixed x) = Some (rd x).
Hypothesis exp_word : forall x, word (fmt_exp x).
Context (al : aliases).

Notation read_line := (Tdm_Model.read_line scale_of_str parse_epoch parse_f64 al).
Notation read_lines := (Tdm_Model.read_lines scale_of_str parse_epoch parse_f64 al).

Lemma read_line_trim r s s' : trim s = trim s' -> read_line r s = read_line r s'.
Proof. intros H. unfold Tdm_Model.read_line. now rewrite H. Qed.
Lemma read_line_tab r s : read_line r (tab s) = read_line r s.
Proof. apply read_line_trim, trim_tab. Qed.
Lemma read_lines_cr l : forall r, read_lines r (map drop_cr l) = read_lines r l.
Proof.
  induction l as [|s l IH]; intros r; [reflexivity|]. cbn [map Tdm_Model.read_lines].
  rewrite (read_line_trim r (drop_cr s) s) by apply trim_drop_cr.
  destruct (read_line r s); [apply IH|reflexivity..].
Qed.
Lemma read_lines_app l : forall r r' l', read_lines r l = Ok r' ->
  read_lines r (l ++ l')%list = read_lines r' l'.
Proof.
  induction l as [|s l IH]; intros r r' l' H; cbn [List.app Tdm_Model.read_lines] in *.
  - now injection H as ->.
  - destruct (read_line r s) as [r1| | |] eqn:E; [|discriminate..]. cbn [bind] in *. now apply IH.
Qed.

Definition set_meta (r : @reader scale) (md : list (string * string)) : @reader scale :=
  {| in_data := in_data r; current := current r; time_system := time_system r;
     has_freq := has_freq r; divider := divider r; msrs := msrs r; meta := md |}.

(** The value of a line [k = v]. *)
Definition value_of (v : string) : string :=
  match split EQS (trim_end (" " ++ v)) with x :: _ => trim x | [] => "" end.
Lemma value_of_free v : without EQS v -> value_of v = trim v.
Proof.
  intros H. unfold value_of. rewrite split_whole.
  - rewrite trim_trim_end. now apply trim_ws.
  - apply without_trim_end. apply without_cons. split; [discriminate|exact H].
Qed.

Lemma trim_first a s : trim (String a s) = String a s -> is_ws a = false.
Proof.
  intros H. destruct (is_ws a) eqn:E; [|reflexivity]. exfalso.
  rewrite trim_ws in H by exact E.
  assert (L : forall s, (String.length (trim s) <= String.length s)%nat).
  { clear. intros s. unfold trim.
    assert (A : forall s, (String.length (trim_start s) <= String.length s)%nat).
    { clear. induction s as [|a s IH]; cbn; [lia|]. destruct (is_ws a); cbn; lia. }
    assert (B : forall s, (String.length (trim_end s) <= String.length s)%nat).
    { clear. induction s as [|a s IH]; cbn; [lia|]. destruct (trim_end s); cbn in *; [|lia].
      destruct (is_ws a); cbn; lia. }
    specialize (B (trim_start s)). specialize (A s). lia. }
  specialize (L s). rewrite H in L. cbn in L. lia.
Qed.

Lemma key_line k v : k <> "" -> plain_name k ->
  trim (k ++ " = " ++ v) = k ++ " =" ++ trim_end (" " ++ v) /\
  split EQS (trim (k ++ " = " ++ v)) = (k ++ " ") :: split EQS (trim_end (" " ++ v)) /\
  trim (k ++ " ") = k.
Proof.
  intros N (L & F & T). destruct k as [|a k]; [congruence|].
  pose proof (trim_first a k T) as W.
  split; [now apply trim_key_value|]. rewrite trim_key_value by exact W. split.
  - now apply split_key_value.
  - change " " with (String " " ""). rewrite trim_app_ws by reflexivity. exact T.
Qed.

Lemma with_equal s c : without c s -> forall t, String.eqb (t ++ String c "" ) s = false.
Proof.
  intros H t. destruct (String.eqb_spec (t ++ String c "") s) as [E|E]; [|reflexivity].
  exfalso. apply H. rewrite <- E. apply occurs_app. right. now left.
Qed.
Lemma not_mark k w s : without EQS s -> String.eqb (k ++ " =" ++ w) s = false.
Proof.
  intros H. destruct (String.eqb_spec (k ++ " =" ++ w) s) as [E|E]; [|reflexivity].
  exfalso. apply H. rewrite <- E. apply occurs_app. right. right. now left.
Qed.
Lemma prefix_key p k w : without " "%char p -> prefix p k = false ->
  prefix p (k ++ " =" ++ w) = false.
Proof.
  intros H E. destruct (prefix p (k ++ " =" ++ w)) eqn:Q; [|reflexivity].
  change (" =" ++ w) with (String " " (String "=" w)) in Q. apply prefix_app in Q; [congruence|exact H].
Qed.

Ltac wo := repeat (apply without_cons; split; [discriminate|]); apply without_empty.

Lemma quiet_line k v r : quiet_key k -> in_data r = false ->
  read_line r (k ++ " = " ++ v) =
    Ok (set_meta r (im_insert String.eqb k (value_of v) (meta r))).
Proof.
  intros (N & P & P1 & P2 & P3) D. destruct (key_line k v N P) as (T & S & K).
  unfold Tdm_Model.read_line. rewrite T. rewrite not_mark by wo. rewrite not_mark by wo. rewrite D.
  cbn [negb]. unfold read_meta. rewrite prefix_key by (exact P1 || wo).
  rewrite prefix_key by (exact P2 || wo). rewrite prefix_key by (exact P3 || wo).
  cbn [bind]. unfold insert_meta. rewrite <- T, S. unfold value_of.
  destruct (split EQS (trim_end (" " ++ v))) as [|x xs] eqn:E; [exfalso; exact (split_not_nil _ _ E)|].
  rewrite K. reflexivity.
Qed.

Lemma mark_line s r : in_data r = false -> without EQS (trim s) -> trim s <> "DATA_START" ->
  prefix "PARTICIPANT_1" (trim s) = false -> prefix "TIME_SYSTEM" (trim s) = false ->
  prefix "PATH" (trim s) = false ->
  read_line r s = Ok r.
Proof.
  intros D F N P1 P2 P3. unfold Tdm_Model.read_line.
  destruct (String.eqb_spec (trim s) "DATA_START") as [E|_]; [contradiction|].
  assert (Q : (if String.eqb (trim s) "DATA_STOP" then set_in_data r false else r) = r).
  { destruct (String.eqb (trim s) "DATA_STOP"); [|reflexivity]. destruct r. cbn in *. now subst. }
  rewrite Q, D. cbn [negb]. unfold read_meta. rewrite P1, P2, P3. cbn [bind].
  unfold insert_meta. now rewrite split_whole.
Qed.

Lemma start_line r : read_line r "DATA_START" = Ok (set_in_data r true).
Proof. reflexivity. Qed.
Lemma stop_line r : read_line r "DATA_STOP" = Ok (set_in_data r false).
Proof. reflexivity. Qed.
Lemma empty_line r : in_data r = false -> read_line r "" = Ok r.
Proof. intros H. apply mark_line; try reflexivity; [exact H|apply without_empty|discriminate]. Qed.

Definition set_current (r : @reader scale) (s : string) : @reader scale :=
  {| in_data := in_data r; current := s; time_system := time_system r;
     has_freq := has_freq r; divider := divider r; msrs := msrs r; meta := meta r |}.
Lemma participant_line v r : in_data r = false -> without EQS v ->
  read_line r ("PARTICIPANT_1 = " ++ v) =
    Ok (set_meta (set_current r (alias al (trim v)))
          (im_insert String.eqb "PARTICIPANT_1" (trim v) (meta r))).
Proof.
  intros D F. assert (N : "PARTICIPANT_1" <> "") by discriminate.
  assert (P : plain_name "PARTICIPANT_1") by (split; [wo|split; [wo|reflexivity]]).
  destruct (key_line "PARTICIPANT_1" v N P) as (T & S & K).
  change ("PARTICIPANT_1 = " ++ v) with ("PARTICIPANT_1" ++ " = " ++ v).
  unfold Tdm_Model.read_line. rewrite T. rewrite not_mark by wo. rewrite not_mark by wo. rewrite D.
  cbn [negb]. unfold read_meta.
  assert (Q : prefix "PARTICIPANT_1" ("PARTICIPANT_1" ++ " =" ++ trim_end (" " ++ v)) = true) by reflexivity.
  rewrite Q. cbn [bind]. unfold insert_meta. rewrite <- T, S.
  pose proof (value_of_free v F) as V. unfold value_of in V.
  destruct (split EQS (trim_end (" " ++ v))) as [|x xs] eqn:E; [exfalso; exact (split_not_nil _ _ E)|].
  rewrite K, V. reflexivity.
Qed.

Definition set_utc (r : @reader scale) : @reader scale :=
  {| in_data := in_data r; current := current r; time_system := UTC;
     has_freq := has_freq r; divider := divider r; msrs := msrs r; meta := meta r |}.
Lemma time_line r : in_data r = false ->
  read_line r "TIME_SYSTEM = UTC" =
    Ok (set_meta (set_utc r) (im_insert String.eqb "TIME_SYSTEM" "UTC" (meta r))).
Proof.
  intros D. unfold Tdm_Model.read_line.
  change (trim "TIME_SYSTEM = UTC") with "TIME_SYSTEM = UTC". cbn [String.eqb Ascii.eqb Bool.eqb].
  rewrite D. cbn [negb]. unfold read_meta.
  change (prefix "PARTICIPANT_1" "TIME_SYSTEM = UTC") with false.
  change (prefix "TIME_SYSTEM" "TIME_SYSTEM = UTC") with true.
  change (split EQS "TIME_SYSTEM = UTC") with ["TIME_SYSTEM "; " UTC"].
  cbv beta iota zeta. change (trim " UTC") with "UTC". rewrite utc_name. cbn [bind]. reflexivity.
Qed.

Definition set_divider (r : @reader scale) (d : R) : @reader scale :=
  {| in_data := in_data r; current := current r; time_system := time_system r;
     has_freq := has_freq r; divider := d; msrs := msrs r; meta := meta r |}.
Lemma path_line (two : bool) r : in_data r = false ->
  read_line r (if two then "PATH = 1,2,1" else "PATH = 1,2") =
    Ok (set_meta (set_divider r (if two then 2 else 1))
          (im_insert String.eqb "PATH" (if two then "1,2,1" else "1,2") (meta r))).
Proof.
  intros D. destruct two; unfold Tdm_Model.read_line.
  - change (trim "PATH = 1,2,1") with "PATH = 1,2,1". cbn [String.eqb Ascii.eqb Bool.eqb].
    rewrite D. reflexivity.
  - change (trim "PATH = 1,2") with "PATH = 1,2". cbn [String.eqb Ascii.eqb Bool.eqb].
    rewrite D. reflexivity.
Qed.

(** * The header of a section *)
Definition queried : list string :=
  ["RANGE_MODULUS"; "CORRECTIONS_APPLIED"; "TURNAROUND_NUMERATOR"; "TURNAROUND_DENOMINATOR"].

(** [r'] differs from [r] by what the reader remembers, and that only by these keys. *)
Definition only_meta (keys : list string) (r r' : @reader scale) : Prop :=
  r' = set_meta r (meta r') /\
  forall k, ~ In k keys -> im_get String.eqb k (meta r') = im_get String.eqb k (meta r).

Lemma only_meta_refl keys r : only_meta keys r r.
Proof. split; [now destruct r|reflexivity]. Qed.
Lemma only_meta_insert keys k v r r' : only_meta keys r r' -> In k keys ->
  only_meta keys r (set_meta r' (im_insert String.eqb k v (meta r'))).
Proof.
  intros [H1 H2] I. split.
  - rewrite H1. reflexivity.
  - intros q Hq. cbn [set_meta meta]. rewrite smap_get_insert.
    destruct (String.eqb_spec q k) as [->|_]; [contradiction|]. now apply H2.
Qed.

Lemma extra_lines md : forall keys r0 r, (forall kv, In kv md -> quiet_key (fst kv)) ->
  in_data r = false -> only_meta keys r0 r -> (forall kv, In kv md -> In (fst kv) keys) ->
  exists r', read_lines r (flat_map (fun kv => if String.eqb (fst kv) "originator" then []
                             else [tab (fst kv ++ " = " ++ snd kv)]) md) = Ok r' /\
             in_data r' = false /\ only_meta keys r0 r'.
Proof.
  induction md as [|[k v] md IH]; intros keys r0 r Q D O I.
  - exists r. split; [reflexivity|]. split; assumption.
  - cbn [flat_map fst snd]. destruct (String.eqb k "originator").
    + cbn [List.app]. apply IH; auto; intros kv H; [apply Q|apply I]; now right.
    + cbn [List.app Tdm_Model.read_lines]. rewrite read_line_tab.
      rewrite quiet_line; [|exact (Q (k, v) (or_introl eq_refl))|exact D]. cbn [bind].
      apply IH; auto; [intros kv H; apply Q; now right| |intros kv H; apply I; now right].
      apply only_meta_insert; [exact O|]. exact (I (k, v) (or_introl eq_refl)).
Qed.

Ltac quiet := split; [discriminate|]; split; [split; [wo|split; [wo|reflexivity]]|];
  split; [reflexivity|split; reflexivity].

Section Header.
Context (out : aliases) (spacecraft : string) (md : list (string * string))
        (mods : option (list (msr_type * R))) (tr : string) (first last_ : Z)
        (two : bool) (types : list msr_type).
Hypothesis name_ok : plain_name (alias out tr).
Hypothesis extra_ok : forall kv, In kv md -> quiet_key (fst kv).

Definition header : list string :=
  (["META_START"; tab "TIME_SYSTEM = UTC"; tab ("START_TIME = " ++ fmt_epoch stored first);
    tab ("STOP_TIME = " ++ fmt_epoch stored last_);
    tab (if two then "PATH = 1,2,1" else "PATH = 1,2");
    tab ("PARTICIPANT_1 = " ++ alias out tr); tab ("PARTICIPANT_2 = " ++ spacecraft);
    tab "MODE = SEQUENTIAL"] ++
   flat_map (fun kv => if String.eqb (fst kv) "originator" then []
                       else [tab (fst kv ++ " = " ++ snd kv)%string]) md ++
   (if existsb (type_eqb Range) types
    then tab "RANGE_UNITS = km" ::
         match mods with
         | Some ms => match im_get type_eqb Range ms with
                      | Some x => [tab ("RANGE_MODULUS = " ++ fmt_exp x)]
                      | None => []
                      end
         | None => []
         end
    else []) ++
   (if (existsb (type_eqb Azimuth) types || existsb (type_eqb Elevation) types)%bool
    then [tab "ANGLE_TYPE = AZEL"] else []) ++
   ["META_STOP"; ""; "DATA_START"])%list.

Definition written_modulus : option string :=
  if existsb (type_eqb Range) types then
    match mods with
    | Some ms => match im_get type_eqb Range ms with
                 | Some x => Some (fmt_exp x)
                 | None => None
                 end
    | None => None
    end
  else None.

Definition fixed_keys : list string :=
  ["TIME_SYSTEM"; "START_TIME"; "STOP_TIME"; "PATH"; "PARTICIPANT_1"; "PARTICIPANT_2"; "MODE";
   "RANGE_UNITS"; "ANGLE_TYPE"].

Lemma header_reads r : in_data r = false ->
  exists r', read_lines r header = Ok r' /\ in_data r' = true /\
    current r' = alias al (alias out tr) /\ time_system r' = UTC /\
    has_freq r' = has_freq r /\ divider r' = (if two then 2 else 1)%R /\ msrs r' = msrs r /\
    (forall k, In k queried -> ~ In k (map fst md) ->
       im_get String.eqb k (meta r') =
         match written_modulus with
         | Some s => if String.eqb k "RANGE_MODULUS" then Some s else im_get String.eqb k (meta r)
         | None => im_get String.eqb k (meta r)
         end).
Proof.
  intros D. destruct name_ok as (_ & NF & NT).
  unfold header. cbn [List.app Tdm_Model.read_lines].
  rewrite mark_line; [|exact D|wo|discriminate|reflexivity..]. cbn [bind]. rewrite read_line_tab.
  rewrite time_line by exact D. cbn [bind]. rewrite read_line_tab.
  change ("START_TIME = " ++ fmt_epoch stored first) with ("START_TIME" ++ " = " ++ fmt_epoch stored first).
  rewrite quiet_line; [|quiet|exact D]. cbn [bind]. rewrite read_line_tab.
  change ("STOP_TIME = " ++ fmt_epoch stored last_) with ("STOP_TIME" ++ " = " ++ fmt_epoch stored last_).
  rewrite quiet_line; [|quiet|exact D]. cbn [bind]. rewrite read_line_tab.
  rewrite path_line by exact D. cbn [bind]. rewrite read_line_tab.
  rewrite participant_line by (exact D || exact NF). cbn [bind]. rewrite read_line_tab.
  change ("PARTICIPANT_2 = " ++ spacecraft) with ("PARTICIPANT_2" ++ " = " ++ spacecraft).
  rewrite quiet_line; [|quiet|exact D]. cbn [bind]. rewrite read_line_tab.
  change "MODE = SEQUENTIAL" with ("MODE" ++ " = " ++ "SEQUENTIAL").
  rewrite quiet_line; [|quiet|exact D]. cbn [bind].
  match goal with |- exists r', Tdm_Model.read_lines _ _ _ _ ?x _ = _ /\ _ => set (r1 := x) end.
  assert (A : in_data r1 = false /\ current r1 = alias al (alias out tr) /\ time_system r1 = UTC /\
    has_freq r1 = has_freq r /\ divider r1 = (if two then 2 else 1)%R /\ msrs r1 = msrs r /\
    forall k, In k queried -> im_get String.eqb k (meta r1) = im_get String.eqb k (meta r)).
  { repeat split; [exact D|exact (f_equal (alias al) NT)|].
    intros k [<-|[<-|[<-|[<-|[]]]]]; unfold r1; cbn [set_meta meta set_current set_divider set_utc];
      rewrite !smap_get_insert; reflexivity. }
  clearbody r1. destruct A as (D1 & A1 & A2 & A3 & A4 & A5 & A6).
  destruct (extra_lines md (map fst md) r1 r1 extra_ok D1 (only_meta_refl _ _)
              (fun kv => in_map fst md kv)) as (r2 & E2 & D2 & O2).
  rewrite (read_lines_app _ _ _ _ E2).
  (* the range units and the modulus *)
  set (B := if existsb (type_eqb Range) types then _ else _).
  set (C := if (existsb (type_eqb Azimuth) types || _)%bool then _ else _).
  assert (HB : exists r3, read_lines r2 B = Ok r3 /\ in_data r3 = false /\
     r3 = set_meta r2 (meta r3) /\
     forall k, In k queried -> im_get String.eqb k (meta r3) =
       match written_modulus with
       | Some s => if String.eqb k "RANGE_MODULUS" then Some s else im_get String.eqb k (meta r2)
       | None => im_get String.eqb k (meta r2)
       end).
  { unfold B, written_modulus. destruct (existsb (type_eqb Range) types).
    2:{ exists r2. split; [reflexivity|]. split; [exact D2|]. split; [now destruct r2|reflexivity]. }
    cbn [Tdm_Model.read_lines]. rewrite read_line_tab.
    change "RANGE_UNITS = km" with ("RANGE_UNITS" ++ " = " ++ "km").
    rewrite quiet_line; [|quiet|exact D2]. cbn [bind].
    assert (Z0 : exists r3, Ok (set_meta r2 (im_insert String.eqb "RANGE_UNITS" (value_of "km") (meta r2)))
               = @Ok tdm_err reader r3 /\ in_data r3 = false /\ r3 = set_meta r2 (meta r3) /\
       forall k, In k queried -> im_get String.eqb k (meta r3) = im_get String.eqb k (meta r2)).
    { eexists. split; [reflexivity|]. split; [exact D2|]. split; [reflexivity|].
      intros k [<-|[<-|[<-|[<-|[]]]]]; cbn [set_meta meta]; rewrite smap_get_insert; reflexivity. }
    destruct mods as [ms|]; [|exact Z0]. destruct (im_get type_eqb Range ms) as [x|]; [|exact Z0].
    cbn [Tdm_Model.read_lines]. rewrite read_line_tab.
    change ("RANGE_MODULUS = " ++ fmt_exp x) with ("RANGE_MODULUS" ++ " = " ++ fmt_exp x).
    rewrite quiet_line; [|quiet|exact D2]. cbn [bind]. eexists. split; [reflexivity|].
    split; [exact D2|]. split; [reflexivity|].
    destruct (exp_word x) as (_ & X1 & _). rewrite (value_of_free _ X1), (trim_word _ (exp_word x)).
    intros k [<-|[<-|[<-|[<-|[]]]]]; cbn [set_meta meta]; rewrite !smap_get_insert; reflexivity. }
  destruct HB as (r3 & E3 & D3 & S3 & M3). rewrite (read_lines_app _ _ _ _ E3).
  assert (HC : exists r4, read_lines r3 C = Ok r4 /\ in_data r4 = false /\
     r4 = set_meta r3 (meta r4) /\
     forall k, In k queried -> im_get String.eqb k (meta r4) = im_get String.eqb k (meta r3)).
  { unfold C. destruct (_ || _)%bool.
    2:{ exists r3. split; [reflexivity|]. split; [exact D3|]. split; [now destruct r3|reflexivity]. }
    cbn [Tdm_Model.read_lines]. rewrite read_line_tab.
    change "ANGLE_TYPE = AZEL" with ("ANGLE_TYPE" ++ " = " ++ "AZEL").
    rewrite quiet_line; [|quiet|exact D3]. cbn [bind]. eexists. split; [reflexivity|].
    split; [exact D3|]. split; [reflexivity|].
    intros k [<-|[<-|[<-|[<-|[]]]]]; cbn [set_meta meta]; rewrite smap_get_insert; reflexivity. }
  destruct HC as (r4 & E4 & D4 & S4 & M4). rewrite (read_lines_app _ _ _ _ E4).
  cbn [Tdm_Model.read_lines].
  rewrite mark_line; [|exact D4|wo|discriminate|reflexivity..]. cbn [bind].
  rewrite empty_line by exact D4. cbn [bind]. rewrite start_line. cbn [bind].
  exists (set_in_data r4 true). split; [reflexivity|]. split; [reflexivity|].
  destruct O2 as [S2 M2]. cbn [set_in_data current time_system has_freq divider msrs meta].
  assert (S : r4 = set_meta r1 (meta r4)).
  { rewrite S4, S3, S2. reflexivity. }
  rewrite S. cbn [set_meta current time_system has_freq divider msrs meta].
  repeat (split; [assumption|]).
  intros k Hk Hm. rewrite M4, M3 by exact Hk. rewrite M2 by exact Hm. now rewrite A6.
Qed.
End Header.

(** * The data of a section *)
Definition recognized (t : msr_type) : Prop :=
  match t with MX | MY | MZ => False | _ => True end.
Definition factor (t : msr_type) : R := if may_be_two_way t then 2 else 1.

Lemma name_recognized t : recognized t ->
  type_of_name (trim (pad 20 (ccsds_name t) ++ " ")) = Some t.
Proof. destruct t; intros []; reflexivity. Qed.
Lemma name_start t : exists a k, pad 20 (ccsds_name t) = String a k /\ is_ws a = false /\
  without EQS (String a k) /\ without LF (String a k) /\ without " "%char (ccsds_name t).
Proof.
  destruct t; (do 2 eexists; split; [unfold pad; cbn [ccsds_name append]; reflexivity|
    split; [reflexivity|split; [wo|split; [wo|wo]]]]).
Qed.

Lemma data_line_split mult e t v :
  exists w, trim (data_line fmt_epoch fmt_fixed stored mult e (t, v)) =
              pad 20 (ccsds_name t) ++ " =" ++ w /\
    split EQS (pad 20 (ccsds_name t) ++ " =" ++ w) = [pad 20 (ccsds_name t) ++ " "; w] /\
    split_whitespace (trim w) = [fmt_epoch stored e; fmt_fixed (v * mult)].
Proof.
  unfold data_line. cbn [fst snd]. rewrite trim_tab.
  destruct (name_start t) as (a & k & E & W & F & _ & _).
  exists (trim_end (" " ++ pad 23 (fmt_epoch stored e) ++ String TAB (fmt_fixed (v * mult)))).
  rewrite E. split; [now rewrite trim_key_value|]. split.
  - rewrite split_key_value by exact F. rewrite split_whole; [reflexivity|].
    apply without_trim_end. apply without_cons. split; [discriminate|]. apply without_app. split.
    + unfold pad. apply without_app. split; [exact (proj1 (proj2 (epoch_word e)))|]. apply without_blanks. discriminate.
    + apply without_cons. split; [discriminate|]. exact (proj1 (proj2 (fixed_word (v * mult)))).
  - rewrite trim_trim_end. apply two_words; [apply epoch_word|apply fixed_word].
Qed.

Definition value_read (k v : R) : R := (rd (v * k) / k)%R.


Lemma data_line_reads k e t v r : recognized t -> in_data r = true -> time_system r = UTC ->
  divider r = k -> (is_freq t = true -> k = 1%R) ->
  read_line r (data_line fmt_epoch fmt_fixed stored k e (t, v)) =
    Ok {| in_data := true; current := current r; time_system := UTC;
          has_freq := (has_freq r || is_freq t)%bool; divider := k;
          msrs := push_point (msrs r) (current r, read e, t, value_read k v);
          meta := meta r |}.
Proof.
  intros Q D T K F. destruct (data_line_split k e t v) as (w & E1 & E2 & E3).
  unfold Tdm_Model.read_line. rewrite E1. rewrite not_mark by wo. rewrite not_mark by wo. rewrite D.
  cbn [negb]. unfold parse_line. rewrite E2, name_recognized by exact Q. rewrite E3, T.
  rewrite epoch_read, fixed_read. cbn [bind push_point]. unfold value_read. rewrite K.
  destruct (is_freq t); [rewrite (F eq_refl)|]; reflexivity.
Qed.

Definition freq_point (p : point) : bool := is_freq (snd (fst p)).
Definition range_point (p : point) : bool := type_eqb Range (snd (fst p)).

Definition sec_points (name : string) (k : R) (types : list msr_type) (l : list measurement)
    : list point :=
  flat_map (fun m =>
    flat_map (fun kv => if existsb (type_eqb (fst kv)) types
                        then [(name, read (epoch m), fst kv, value_read k (snd kv))] else [])
      (obs m)) l.

Definition in_section (name : string) (k : R) (pts : list point) (r r' : @reader scale) : Prop :=
  in_data r' = true /\ current r' = name /\ time_system r' = UTC /\ divider r' = k /\
  has_freq r' = (has_freq r || existsb freq_point pts)%bool /\
  msrs r' = fold_left push_point pts (msrs r) /\ meta r' = meta r.

Lemma obs_lines_read name k types e (d : data) : forall r,
  (forall t, In t types -> recognized t) ->
  (forall t, In t types -> is_freq t = true -> k = 1%R) ->
  in_section name k [] r r ->
  exists r', read_lines r
      (flat_map (fun kv => if existsb (type_eqb (fst kv)) types
                           then [data_line fmt_epoch fmt_fixed stored k e kv] else []) d) = Ok r' /\
    in_section name k
      (flat_map (fun kv => if existsb (type_eqb (fst kv)) types
                           then [(name, read e, fst kv, value_read k (snd kv))] else []) d) r r'.
Proof.
  induction d as [|[t v] d IH]; intros r Q F I.
  - exists r. split; [reflexivity|exact I].
  - cbn [flat_map fst snd map] in *.
    destruct (existsb (type_eqb t) types) eqn:E; [|now apply IH].
    apply existsb_type in E. pose proof (Q t E) as Q1. destruct I as (I1 & I2 & I3 & I4 & _).
    cbn [List.app Tdm_Model.read_lines].
    rewrite (data_line_reads k e t v r Q1 I1 I3 I4 (F t E)). cbn [bind].
    match goal with |- context [Tdm_Model.read_lines _ _ _ _ ?x _] => set (r1 := x) end.
    destruct (IH r1 Q F) as (r' & R & J).
    { repeat split; [exact I2|]. cbn. now rewrite orb_false_r. }
    exists r'. split; [exact R|]. destruct J as (J1 & J2 & J3 & J4 & J5 & J6 & J7).
    split; [exact J1|]. split; [exact J2|]. split; [exact J3|]. split; [exact J4|].
    split; [|split].
    + rewrite J5. cbn [r1 has_freq existsb]. unfold freq_point at 2. cbn [fst snd].
      now rewrite orb_assoc.
    + rewrite J6. cbn [r1 msrs fold_left]. now rewrite I2.
    + exact J7.
Qed.

Lemma data_lines_read name k types l : forall r,
  (forall t, In t types -> recognized t) ->
  (forall t, In t types -> is_freq t = true -> k = 1%R) ->
  in_section name k [] r r ->
  exists r', read_lines r (data_lines fmt_epoch fmt_fixed stored k types l) = Ok r' /\
    in_section name k (sec_points name k types l) r r'.
Proof.
  induction l as [|m l IH]; intros r Q F I.
  - exists r. split; [reflexivity|exact I].
  - unfold data_lines, sec_points. cbn [flat_map].
    destruct (obs_lines_read name k types (epoch m) (obs m) r Q F I) as (r1 & R1 & J).
    rewrite (read_lines_app _ _ _ _ R1). destruct J as (J1 & J2 & J3 & J4 & J5 & J6 & J7).
    destruct (IH r1 Q F) as (r2 & R2 & K).
    { repeat split; auto. cbn. now rewrite orb_false_r. }
    exists r2. split; [exact R2|]. destruct K as (K1 & K2 & K3 & K4 & K5 & K6 & K7).
    split; [exact K1|]. split; [exact K2|]. split; [exact K3|]. split; [exact K4|].
    split; [|split].
    + rewrite K5, J5. rewrite existsb_app. now rewrite orb_assoc.
    + rewrite K6, J6. now rewrite fold_left_app.
    + now rewrite K7, J7.
Qed.

(** * Sections, trackers, the file *)
Section Whole.
Context (out : aliases) (spacecraft : string) (md : list (string * string))
        (mods : option (list (msr_type * R))).
Hypothesis extra_ok : forall kv, In kv md -> quiet_key (fst kv).

Definition modulus : option R :=
  match mods with Some ms => im_get type_eqb Range ms | None => None end.

(** The reader went from [r] to [r'] by reading these points. *)
Definition follows (pts : list point) (r r' : @reader scale) : Prop :=
  in_data r' = false /\ has_freq r' = (has_freq r || existsb freq_point pts)%bool /\
  msrs r' = fold_left push_point pts (msrs r) /\
  forall k, In k queried -> ~ In k (map fst md) ->
    im_get String.eqb k (meta r') =
      match modulus with
      | Some x => if (String.eqb k "RANGE_MODULUS" && existsb range_point pts)%bool
                  then Some (fmt_exp x) else im_get String.eqb k (meta r)
      | None => im_get String.eqb k (meta r)
      end.

Lemma follows_app p q r r1 r2 : follows p r r1 -> follows q r1 r2 -> follows (p ++ q)%list r r2.
Proof.
  intros (A1 & A2 & A3 & A4) (B1 & B2 & B3 & B4). split; [exact B1|]. split; [|split].
  - now rewrite B2, A2, existsb_app, orb_assoc.
  - now rewrite B3, A3, fold_left_app.
  - intros k K1 K2. rewrite B4, A4 by assumption. destruct modulus as [x|]; [|reflexivity].
    rewrite existsb_app. destruct (String.eqb k "RANGE_MODULUS"); [|reflexivity]. cbn [andb].
    destruct (existsb range_point p), (existsb range_point q); reflexivity.
Qed.

Lemma section_reads tr first last_ two types l r : plain_name (alias out tr) ->
  (forall t, In t types -> recognized t) ->
  (forall t, In t types -> is_freq t = true -> two = false) ->
  (In Range types -> exists m, In m l /\ In Range (map fst (obs m))) ->
  in_data r = false ->
  exists r', read_lines r (section_lines fmt_epoch fmt_fixed fmt_exp stored out spacecraft md mods
                             tr first last_ two types l) = Ok r' /\
    follows (sec_points (alias al (alias out tr)) (if two then 2 else 1) types l) r r'.
Proof.
  intros N Q F G D.
  set (name := alias al (alias out tr)). set (k := (if two then 2 else 1)%R).
  destruct (header_reads out spacecraft md mods tr first last_ two types N extra_ok r D)
    as (r1 & E1 & D1 & A1 & A2 & A3 & A4 & A5 & A6).
  assert (S : section_lines fmt_epoch fmt_fixed fmt_exp stored out spacecraft md mods
                tr first last_ two types l =
              (header out spacecraft md mods tr first last_ two types ++
               data_lines fmt_epoch fmt_fixed stored k types l ++ ["DATA_STOP"; ""])%list).
  { unfold section_lines, header. rewrite <- !app_assoc. reflexivity. }
  rewrite S, (read_lines_app _ _ _ _ E1).
  destruct (data_lines_read name k types l r1 Q) as (r2 & E2 & B1 & B2 & B3 & B4 & B5 & B6 & B7).
  { intros t Ht Hf. unfold k. now rewrite (F t Ht Hf). }
  { repeat split; auto. cbn. now rewrite orb_false_r. }
  rewrite (read_lines_app _ _ _ _ E2). cbn [Tdm_Model.read_lines]. rewrite stop_line. cbn [bind].
  rewrite empty_line by reflexivity. cbn [bind]. eexists. split; [reflexivity|].
  split; [reflexivity|]. split; [|split]; cbn [set_in_data has_freq msrs meta].
  - now rewrite B5, A3.
  - now rewrite B6, A5.
  - intros q K1 K2. rewrite B7, A6 by assumption. unfold written_modulus, modulus.
    assert (X : existsb (type_eqb Range) types = existsb range_point (sec_points name k types l)).
    { apply Bool.eq_iff_eq_true. rewrite existsb_type, existsb_exists. split.
      - intros H. destruct (G H) as (m & I & J). apply in_map_iff in J.
        destruct J as ([t v] & J1 & J2). cbn [fst] in J1. subst t.
        exists (name, read (epoch m), Range, value_read k v). split; [|reflexivity].
        apply in_flat_map. exists m. split; [exact I|]. apply in_flat_map. exists (Range, v).
        split; [exact J2|]. cbn [fst snd]. apply existsb_type in H. rewrite H. now left.
      - intros (p & I & J). apply in_flat_map in I. destruct I as (m & _ & I).
        apply in_flat_map in I. destruct I as ([t v] & _ & I). cbn [fst snd] in I.
        destruct (existsb (type_eqb t) types) eqn:E; [|destruct I].
        destruct I as [<-|[]]. unfold range_point in J. cbn [fst snd] in J.
        apply type_eqb_eq in J. subst t. now apply existsb_type. }
    rewrite X. destruct mods as [ms|]; [|now destruct (existsb range_point _)].
    destruct (im_get type_eqb Range ms) as [x|]; [|now destruct (existsb range_point _)].
    destruct (existsb range_point _); [|now rewrite andb_false_r].
    now destruct (String.eqb q "RANGE_MODULUS").
Qed.

(** The points of one tracker, and of the trackers of a list. *)
Definition tracker_points (l : list measurement) (tr : string) : list point :=
  let td := filter_by_tracker tr l in
  let types := unique_types td in
  let name := alias al (alias out tr) in
  (sec_points name 2 (filter may_be_two_way types) td ++
   sec_points name 1 (filter (fun t => negb (may_be_two_way t)) types) td)%list.

Lemma tracker_reads l tr r : plain_name (alias out tr) ->
  (exists m, In m l /\ tracker m = tr) ->
  Forall (fun m => Forall recognized (map fst (obs m))) l -> in_data r = false ->
  exists ls r', tracker_lines fmt_epoch fmt_fixed fmt_exp stored out spacecraft md mods l tr = Ok ls /\
    read_lines r ls = Ok r' /\ follows (tracker_points l tr) r r'.
Proof.
  intros N (m & I & E) Q D. unfold tracker_lines, tracker_points.
  assert (Im : In m (filter_by_tracker tr l)).
  { apply filter_In. split; [exact I|]. now apply String.eqb_eq. }
  assert (Q' : Forall (fun m => Forall recognized (map fst (obs m))) (filter_by_tracker tr l)).
  { rewrite Forall_forall in *. intros n Hn. apply Q. now apply filter_In in Hn. }
  generalize dependent (filter_by_tracker tr l). intros td Im Q'.
  destruct td as [|m0 td]; [destruct Im|]. set (l0 := m0 :: td) in *.
  set (first := epoch m0). set (last_ := epoch (last l0 m0)). clearbody first last_.
  assert (QT : forall t, In t (unique_types l0) -> recognized t).
  { intros t Ht. apply unique_types_in in Ht. destruct Ht as (n & A & B).
    rewrite Forall_forall in Q'. specialize (Q' n A). rewrite Forall_forall in Q'. now apply Q'. }
  destruct (section_reads tr first last_ true (filter may_be_two_way (unique_types l0)) l0 r N)
    as (r1 & E1 & F1).
  { intros t Ht. apply filter_In in Ht. now apply QT. }
  { intros t Ht Hf. apply filter_In in Ht. destruct Ht as [_ Ht]. destruct t; discriminate. }
  { intros H. apply filter_In in H. now apply unique_types_in. }
  { exact D. }
  destruct (section_reads tr first last_ false
              (filter (fun t => negb (may_be_two_way t)) (unique_types l0)) l0 r1 N)
    as (r2 & E2 & F2).
  { intros t Ht. apply filter_In in Ht. now apply QT. }
  { reflexivity. }
  { intros H. apply filter_In in H. now apply unique_types_in. }
  { exact (proj1 F1). }
  eexists _, r2. split; [reflexivity|]. split; [now rewrite (read_lines_app _ _ _ _ E1)|].
  exact (follows_app _ _ _ _ _ F1 F2).
Qed.

Lemma trackers_read l ts : (forall tr, In tr ts -> plain_name (alias out tr)) ->
  (forall tr, In tr ts -> exists m, In m l /\ tracker m = tr) ->
  Forall (fun m => Forall recognized (map fst (obs m))) l ->
  forall r, in_data r = false ->
  exists body r', all_trackers (tracker_lines fmt_epoch fmt_fixed fmt_exp stored out spacecraft md
                     mods l) ts = Ok body /\
    read_lines r body = Ok r' /\ follows (flat_map (tracker_points l) ts) r r'.
Proof.
  intros N H Q. induction ts as [|tr ts IH]; intros r D.
  - exists [], r. split; [reflexivity|]. split; [reflexivity|]. split; [exact D|].
    split; [now rewrite orb_false_r|]. split; [reflexivity|]. intros k _ _. cbn [flat_map existsb].
    rewrite andb_false_r. now destruct modulus.
  - destruct (tracker_reads l tr r (N tr (or_introl eq_refl)) (H tr (or_introl eq_refl)) Q D)
      as (ls & r1 & E1 & E2 & F1).
    destruct (IH (fun x Hx => N x (or_intror Hx)) (fun x Hx => H x (or_intror Hx)) r1 (proj1 F1))
      as (body & r2 & E3 & E4 & F2).
    exists (ls ++ body)%list, r2. cbn [all_trackers]. rewrite E1. cbn [bind]. rewrite E3.
    split; [reflexivity|]. split; [now rewrite (read_lines_app _ _ _ _ E2)|].
    exact (follows_app _ _ _ _ _ F1 F2).
Qed.

(** Which points a list of measurements gives. *)
Lemma sec_points_in name k types l tr e t v :
  In (tr, e, t, v) (sec_points name k types l) <->
  tr = name /\ In t types /\
  exists m x, In m l /\ In (t, x) (obs m) /\ e = read (epoch m) /\ v = value_read k x.
Proof.
  unfold sec_points. rewrite in_flat_map. split.
  - intros (m & I & J). apply in_flat_map in J. destruct J as ([t' x] & J & K). cbn [fst snd] in K.
    destruct (existsb (type_eqb t') types) eqn:E; [|destruct K]. destruct K as [K|[]].
    apply existsb_type in E. assert (t' = t) by congruence. subst t'.
    split; [congruence|]. split; [exact E|]. exists m, x. repeat split; auto; congruence.
  - intros (-> & T & m & x & I & J & -> & ->). exists m. split; [exact I|]. apply in_flat_map.
    exists (t, x). split; [exact J|]. cbn [fst snd]. apply existsb_type in T. rewrite T. now left.
Qed.

Lemma tracker_points_in l tr0 tr e t v :
  In (tr, e, t, v) (tracker_points l tr0) <->
  tr = alias al (alias out tr0) /\
  exists m x, In m l /\ tracker m = tr0 /\ In (t, x) (obs m) /\ e = read (epoch m) /\
    v = value_read (factor t) x.
Proof.
  unfold tracker_points. rewrite in_app_iff, !sec_points_in. split.
  - intros [(A & B & m & x & C & D & E & F)|(A & B & m & x & C & D & E & F)];
      (split; [exact A|]); apply filter_In in C; destruct C as [C1 C2]; apply String.eqb_eq in C2;
      apply filter_In in B; destruct B as [_ B]; exists m, x; repeat split; auto; unfold factor.
    + now rewrite B.
    + destruct (may_be_two_way t); [discriminate|exact F].
  - intros (A & m & x & C & T & D & E & F). unfold factor in F.
    assert (C' : In m (filter_by_tracker tr0 l)).
    { apply filter_In. split; [exact C|]. now apply String.eqb_eq. }
    assert (U : In t (unique_types (filter_by_tracker tr0 l))).
    { apply unique_types_in. exists m. split; [exact C'|]. now apply (in_map fst) in D. }
    destruct (may_be_two_way t) eqn:W; [left|right]; (split; [exact A|]); split.
    + apply filter_In. now split.
    + exists m, x. auto.
    + apply filter_In. split; [exact U|]. now rewrite W.
    + exists m, x. auto.
Qed.

Lemma points_in l tr e t v :
  In (tr, e, t, v) (flat_map (tracker_points l) (unique_trackers l)) <->
  exists m x, In m l /\ tr = alias al (alias out (tracker m)) /\ In (t, x) (obs m) /\
    e = read (epoch m) /\ v = value_read (factor t) x.
Proof.
  rewrite in_flat_map. split.
  - intros (tr0 & _ & H). apply tracker_points_in in H.
    destruct H as (A & m & x & B & C & D & E & F). exists m, x. subst tr0. auto.
  - intros (m & x & A & B & C & D & E). exists (tracker m). split.
    + apply unique_trackers_in. now exists m.
    + apply tracker_points_in. split; [exact B|]. exists m, x. auto.
Qed.

(** The text above the sections. *)
Lemma preamble_reads version now_ : without EQS version -> 
  exists r', read_lines (start_reader UTC)
    ["CCSDS_TDM_VERS = 2.0"; "";
     "COMMENT Build by " ++ version ++ " -- https://nyxspace.com";
     "COMMENT Nyx Space provided under the AGPL v3 open source license -- https://nyxspace.com/pricing";
     "";
     "CREATION_DATE = " ++ now_;
     "ORIGINATOR = " ++ match im_get String.eqb "originator" md with
                        | Some o => o | None => "Nyx Space" end;
     ""] = Ok r' /\ follows [] (start_reader UTC) r'.
Proof.
  intros V. set (o := match im_get String.eqb "originator" md with Some o => o | None => _ end).
  clearbody o. cbn [Tdm_Model.read_lines].
  change "CCSDS_TDM_VERS = 2.0" with ("CCSDS_TDM_VERS" ++ " = " ++ "2.0").
  rewrite quiet_line; [|quiet|reflexivity]. cbn [bind].
  rewrite empty_line by reflexivity. cbn [bind].
  assert (T : trim ("COMMENT Build by " ++ version ++ " -- https://nyxspace.com") =
      "COMMENT Build by" ++ trim_end (" " ++ version ++ " -- https://nyxspace.com"))
    by exact (trim_end_app "COMMENT Build b" "y" (" " ++ version ++ " -- https://nyxspace.com") eq_refl).
  rewrite mark_line; [|reflexivity| |rewrite T; discriminate|rewrite T; reflexivity..].
  2:{ apply without_trim. apply without_app. split; [wo|]. apply without_app. split; [exact V|wo]. }
  cbn [bind]. rewrite mark_line; [|reflexivity|apply without_trim; wo|discriminate|reflexivity..].
  cbn [bind]. rewrite empty_line by reflexivity. cbn [bind].
  change ("CREATION_DATE = " ++ now_) with ("CREATION_DATE" ++ " = " ++ now_).
  rewrite quiet_line; [|quiet|reflexivity]. cbn [bind].
  change ("ORIGINATOR = " ++ o) with ("ORIGINATOR" ++ " = " ++ o).
  rewrite quiet_line; [|quiet|reflexivity]. cbn [bind].
  rewrite empty_line by reflexivity. cbn [bind]. eexists. split; [reflexivity|].
  split; [reflexivity|]. split; [reflexivity|]. split; [reflexivity|].
  intros k K _. cbn [existsb]. rewrite andb_false_r.
  assert (im_get String.eqb k (meta (set_meta (set_meta (set_meta (start_reader UTC)
     (im_insert String.eqb "CCSDS_TDM_VERS" (value_of "2.0") (meta (start_reader UTC))))
     (im_insert String.eqb "CREATION_DATE" (value_of now_) (meta (set_meta (start_reader UTC)
     (im_insert String.eqb "CCSDS_TDM_VERS" (value_of "2.0") (meta (start_reader UTC))))))) 
     (im_insert String.eqb "ORIGINATOR" (value_of o) (meta (set_meta (set_meta (start_reader UTC)
     (im_insert String.eqb "CCSDS_TDM_VERS" (value_of "2.0") (meta (start_reader UTC))))
     (im_insert String.eqb "CREATION_DATE" (value_of now_) (meta (set_meta (start_reader UTC)
     (im_insert String.eqb "CCSDS_TDM_VERS" (value_of "2.0") (meta (start_reader UTC)))))))))))
     = im_get String.eqb k (meta (start_reader UTC))) as Z.
  { cbn [set_meta meta]. rewrite !smap_get_insert.
    destruct K as [<-|[<-|[<-|[<-|[]]]]]; reflexivity. }
  rewrite <- Z. now destruct modulus.
Qed.
End Whole.
End Reading.
