(** C72: transmit and receive frequencies of a tracking data message become range rates. *)
From Coq Require Import Reals String Ascii Lra.
From Verif Require Import Base RustStd Arc_Model Arc_Spec Arc_Proofs Arc_Props
  Tdm_Model Tdm_Text Tdm_Proofs Tdm_Finish Tdm_Props Tdm_Cases.
Local Open Scope string_scope.
Local Open Scope R_scope.

(** * Specification *)
(** The record changes the transmitter. *)
Definition sends (m : measurement) : Prop :=
  get TransmitFrequency (obs m) <> None \/ get TransmitFrequencyRate (obs m) <> None.

Definition seconds (d : Z) : R := IZR d / 1000000000.

(** The records, in the order of the file, describe a transmitter of frequency [tau] (Hz) and
    rate [rho] (Hz/s): from one record of the transmitter to the next the frequency is a ramp. *)
Definition uplink (tau rho : Z -> R) (l : list measurement) : Prop :=
  (forall m f, In m l -> get TransmitFrequency (obs m) = Some f -> tau (epoch m) = f) /\
  (forall m r, In m l -> get TransmitFrequencyRate (obs m) = Some r -> rho (epoch m) = r) /\
  (forall l1 m l2, l = (l1 ++ m :: l2)%list -> (forall x, In x l1 -> ~ sends x) -> sends m ->
     get TransmitFrequencyRate (obs m) = None -> rho (epoch m) = 0) /\
  (forall l1 m l2 m' l3, l = (l1 ++ m :: l2 ++ m' :: l3)%list -> sends m ->
     (forall x, In x l2 -> ~ sends x) ->
     (get TransmitFrequency (obs m') = None ->
        tau (epoch m') = tau (epoch m) + rho (epoch m) * seconds (epoch m' - epoch m)) /\
     (sends m' -> get TransmitFrequencyRate (obs m') = None -> rho (epoch m') = rho (epoch m))).

(** The receive frequency of a two-way link with turn-around ratio [q], to first order in the
    range rate [v] (km/s): CCSDS 503.0-B-2, section 3.5.2.8. *)
Definition received (q f v : R) : R := q * f * (1 - 2 * v / SPEED_OF_LIGHT).
Definition received_one_way (q f v : R) : R := q * f * (1 - v / SPEED_OF_LIGHT).

(** * Proofs *)
Section Convert.
Context (parse_f64 : string -> option R) (md : list (string * string)).
Context (tau rho : Z -> R) (V : string -> Z -> R) (q : R) (all : list measurement).
Hypothesis law : uplink tau rho all.
Hypothesis q_pos : q <> 0.
Hypothesis tau_pos : forall m, In m all -> tau (epoch m) <> 0.
Hypothesis hears : forall m fr, In m all -> get ReceiveFrequency (obs m) = Some fr ->
  fr = received q (tau (epoch m)) (V (tracker m) (epoch m)).

Definition tracked (p : list measurement) (c : carrier) : Prop :=
  (c = start_carrier /\ forall x, In x p -> ~ sends x) \/
  exists p1 s p2, p = (p1 ++ s :: p2)%list /\ sends s /\ (forall x, In x p2 -> ~ sends x) /\
    since c = Some (epoch s) /\ rate c = rho (epoch s) /\
    ((freq c = Some (tau (epoch s)) /\ exists m, In m p /\ get TransmitFrequency (obs m) <> None) \/
     (freq c = None /\ forall m, In m p -> get TransmitFrequency (obs m) = None)).

Lemma not_sends m : ~ sends m ->
  get TransmitFrequency (obs m) = None /\ get TransmitFrequencyRate (obs m) = None.
Proof.
  unfold sends. destruct (get TransmitFrequency (obs m)), (get TransmitFrequencyRate (obs m));
    intros H; split; try reflexivity; exfalso; apply H; (left; discriminate) || (right; discriminate).
Qed.

Lemma sends_dec m : sends m \/ ~ sends m.
Proof.
  unfold sends. destruct (get TransmitFrequency (obs m)), (get TransmitFrequencyRate (obs m));
    (left; left; discriminate) || (left; right; discriminate) || (right; tauto).
Qed.

Lemma seconds_zero e : to_seconds (e - e) = 0.
Proof. unfold to_seconds. rewrite Z.sub_diag. lra. Qed.

(** The carrier follows the transmitter. *)
Lemma tracked_next p c m rest : all = (p ++ m :: rest)%list -> tracked p c ->
  tracked (p ++ [m])%list (update_carrier c m) /\
  forall f e, freq (update_carrier c m) = Some f -> since (update_carrier c m) = Some e ->
    f + rate (update_carrier c m) * to_seconds (epoch m - e) = tau (epoch m).
Proof.
  intros A T. destruct law as (L1 & L2 & L3 & L4).
  assert (I : In m all) by (rewrite A; apply in_or_app; right; now left).
  destruct (sends_dec m) as [S|S].
  - (* the transmitter changes here *)
    assert (K : since (update_carrier c m) = Some (epoch m) /\
        rate (update_carrier c m) = rho (epoch m) /\
        ((freq (update_carrier c m) = Some (tau (epoch m)) /\
          exists x, In x (p ++ [m])%list /\ get TransmitFrequency (obs x) <> None) \/
         (freq (update_carrier c m) = None /\
          forall x, In x (p ++ [m])%list -> get TransmitFrequency (obs x) = None))).
    { assert (Hr : forall r, get TransmitFrequencyRate (obs m) = Some r -> r = rho (epoch m))
        by (intros r E; symmetry; now apply L2).
      assert (Hn : get TransmitFrequencyRate (obs m) = None -> rate c = rho (epoch m)).
      { intros E. destruct T as [[-> N]|(p1 & s & p2 & -> & S1 & S2 & _ & B & _)].
        - cbn [start_carrier rate]. symmetry. now apply (L3 p m rest).
        - rewrite B. symmetry.
          apply (proj2 (L4 p1 s p2 m rest ltac:(now rewrite A, <- app_assoc) S1 S2) S E). }
      unfold update_carrier.
      destruct (get TransmitFrequency (obs m)) as [f|] eqn:F.
      - assert (Hf : f = tau (epoch m)) by (symmetry; now apply L1).
        destruct (get TransmitFrequencyRate (obs m)) as [r|] eqn:E; cbn [since rate freq];
          (split; [reflexivity|]; split; [auto|]; left; split; [congruence|];
           exists m; split; [apply in_or_app; right; now left|congruence]).
      - destruct (get TransmitFrequencyRate (obs m)) as [r|] eqn:E;
          [|exfalso; destruct S as [S|S]; congruence].
        cbn [since rate freq]. split; [reflexivity|]. split; [auto|].
        destruct T as [[-> N]|(p1 & s & p2 & Q & S1 & S2 & B1 & B2 & [[B3 (x & X1 & X2)]|[B3 B4]])].
        + right. cbn [start_carrier freq]. split; [reflexivity|]. intros x J.
          apply in_app_iff in J. destruct J as [J|[<-|[]]]; [|exact F].
          exact (proj1 (not_sends x (N x J))).
        + left. rewrite B1, B3, B2. split.
          * f_equal. symmetry.
            apply (proj1 (L4 p1 s p2 m rest ltac:(now rewrite A, Q, <- app_assoc) S1 S2) F).
          * exists x. split; [apply in_or_app; now left|exact X2].
        + right. rewrite B3. split; [reflexivity|]. intros x J.
          apply in_app_iff in J. destruct J as [J|[<-|[]]]; [now apply B4|exact F]. }
    split.
    + right. exists p, m, []. destruct K as (K1 & K2 & K3). repeat split; auto.
    + intros f e Hf He. destruct K as (K1 & K2 & K3). rewrite K1 in He.
      assert (e = epoch m) by congruence. subst e. rewrite seconds_zero.
      destruct K3 as [[K3 _]|[K3 _]]; [|congruence].
      assert (f = tau (epoch m)) by congruence. lra.
  - (* nothing new *)
    destruct (not_sends m S) as [F E].
    assert (U : update_carrier c m = c) by (unfold update_carrier; now rewrite F, E).
    rewrite U. destruct T as [[-> N]|(p1 & s & p2 & -> & S1 & S2 & B1 & B2 & B3)].
    + split; [|discriminate]. left. split; [reflexivity|]. intros x J.
      apply in_app_iff in J. destruct J as [J|[<-|[]]]; auto.
    + split.
      * right. exists p1, s, (p2 ++ [m])%list. rewrite <- app_assoc. split; [reflexivity|].
        split; [exact S1|]. split.
        { intros x J. apply in_app_iff in J. destruct J as [J|[<-|[]]]; auto. }
        split; [exact B1|]. split; [exact B2|].
        destruct B3 as [[B3 (x & X1 & X2)]|[B3 B4]].
        -- left. split; [exact B3|]. exists x. split; [|exact X2].
           apply in_app_iff in X1. apply in_or_app. destruct X1 as [X1|[X1|X1]]; [now left|right; now left|].
           right. right. apply in_or_app. now left.
        -- right. split; [exact B3|]. intros x J. apply in_app_iff in J.
           destruct J as [J|[J|J]]; [apply B4; apply in_or_app; now left|
             apply B4; apply in_or_app; right; now left|].
           apply in_app_iff in J. destruct J as [J|[<-|[]]]; [|exact F].
           apply B4. apply in_or_app. right. now right.
      * intros f e Hf He. rewrite B1 in He. assert (e = epoch s) by congruence. subst e.
        destruct B3 as [[B3 _]|[B3 _]]; [|congruence]. assert (f = tau (epoch s)) by congruence. subst f.
        rewrite B2. symmetry.
        apply (proj1 (L4 p1 s p2 m rest ltac:(now rewrite A, <- app_assoc) S1 S2) F).
Qed.

(** What becomes of a record. *)
Definition converted (m m' : measurement) : Prop :=
  same m' m /\ well_formed m' /\ rejected m' = rejected m /\
  (forall t, is_freq t = true -> get t (obs m') = None) /\
  (forall t, is_freq t = false -> t <> Doppler -> get t (obs m') = get t (obs m)) /\
  (get Doppler (obs m') = get Doppler (obs m) \/
   get Doppler (obs m') = Some (V (tracker m) (epoch m))).

Lemma drop_converted m : well_formed m -> converted m (drop_freqs m).
Proof.
  intros W. destruct (drop_freqs_spec m W) as (W' & S & R & G). unfold converted.
  split; [exact S|]. split; [exact W'|]. split; [exact R|].
  split; [intros t F; now rewrite G, F|]. split; [intros t F _; now rewrite G, F|].
  left. rewrite G. reflexivity.
Qed.

Lemma rate_of f v : f <> 0 ->
  (f * q - received q f v) * SPEED_OF_LIGHT / (2 * f * q) = v.
Proof.
  intros H. unfold received. assert (SPEED_OF_LIGHT <> 0) by (unfold SPEED_OF_LIGHT; lra).
  field. tauto.
Qed.

Lemma convert_one p c m rest : all = (p ++ m :: rest)%list -> tracked p c -> well_formed m ->
  exists m', convert_freq q c m = Ok (update_carrier c m, m') /\ converted m m' /\
    (get ReceiveFrequency (obs m) <> None ->
     (exists x, In x (p ++ [m])%list /\ get TransmitFrequency (obs x) <> None) ->
     get Doppler (obs m') = Some (V (tracker m) (epoch m))).
Proof.
  intros A T W. destruct (tracked_next p c m rest A T) as [N F]. unfold convert_freq.
  assert (I : In m all) by (rewrite A; apply in_or_app; right; now left).
  destruct (get ReceiveFrequency (obs m)) as [fr|] eqn:E.
  2:{ exists (drop_freqs m). split; [reflexivity|]. split; [now apply drop_converted|congruence]. }
  destruct (freq (update_carrier c m)) as [f|] eqn:Q.
  2:{ exists (drop_freqs m). split; [reflexivity|]. split; [now apply drop_converted|].
      intros _ (x & X1 & X2). exfalso.
      destruct N as [[_ N]|(p1 & s & p2 & _ & _ & _ & _ & _ & [[B _]|[_ B]])].
      - apply (N x X1). now left.
      - congruence.
      - now rewrite (B x X1) in X2. }
  assert (Hs : exists e, since (update_carrier c m) = Some e).
  { destruct N as [[N _]|(p1 & s & p2 & _ & _ & _ & B & _)]; [|now exists (epoch s)].
    rewrite N in Q. discriminate. }
  destruct Hs as (e & Hs). rewrite Hs. specialize (F f e eq_refl Hs). rewrite F.
  rewrite (hears m fr I E), rate_of by (now apply tau_pos).
  eexists. split; [reflexivity|].
  destruct (drop_freqs_spec m W) as (W' & S & R & G).
  assert (D : forall t, get t (im_insert type_eqb Doppler (V (tracker m) (epoch m)) (obs (drop_freqs m)))
              = if type_eqb t Doppler then Some (V (tracker m) (epoch m)) else get t (obs (drop_freqs m))).
  { intros t. apply get_insert. }
  split.
  - split; [exact S|]. split; [unfold well_formed; cbn [with_obs obs]; now apply nodup_insert|].
    split; [exact R|]. cbn [with_obs obs]. split; [|split].
    + intros t Ht. rewrite D. destruct (type_eqb t Doppler) eqn:X.
      * apply type_eqb_eq in X. subst t. discriminate.
      * now rewrite G, Ht.
    + intros t Ht Hd. rewrite D. destruct (type_eqb t Doppler) eqn:X.
      * apply type_eqb_eq in X. contradiction.
      * now rewrite G, Ht.
    + right. rewrite D. now rewrite type_eqb_refl.
  - intros _ _. cbn [with_obs obs]. rewrite D. now rewrite type_eqb_refl.
Qed.

Lemma process_freq rest : forall p c, all = (p ++ rest)%list -> tracked p c ->
  Forall well_formed rest ->
  exists l', process parse_f64 true md (Some q) c rest = Ok l' /\
    Forall2 converted rest l' /\
    forall l1 m l2, rest = (l1 ++ m :: l2)%list -> get ReceiveFrequency (obs m) <> None ->
      (exists x, In x (p ++ l1 ++ [m])%list /\ get TransmitFrequency (obs x) <> None) ->
      exists m', In m' l' /\ same m' m /\ get Doppler (obs m') = Some (V (tracker m) (epoch m)).
Proof.
  induction rest as [|m rest IH]; intros p c A T W.
  - exists []. split; [reflexivity|]. split; [constructor|]. intros [|? ?]; discriminate.
  - pose proof (Forall_inv W) as W1. pose proof (Forall_inv_tail W) as W2.
    destruct (convert_one p c m rest A T W1) as (m' & E & C & D).
    destruct (IH (p ++ [m])%list (update_carrier c m)) as (l' & E' & C' & D').
    { now rewrite <- app_assoc. } { apply (tracked_next p c m rest A T). } { exact W2. }
    exists (m' :: l'). cbn [process]. rewrite E. cbn [bind fst snd]. rewrite E'. cbn [bind].
    split; [reflexivity|]. split; [now constructor|].
    intros [|y l1] x l2 Q R X; cbn [List.app] in Q.
    + assert (m = x) by congruence. subst x. exists m'. split; [now left|].
      split; [exact (proj1 C)|]. apply D; [exact R|]. exact X.
    + assert (m = y) by congruence. subst y. assert (rest = l1 ++ x :: l2)%list as Q' by congruence.
      destruct (D' l1 x l2 Q' R) as (z & Z1 & Z2).
      { destruct X as (w & X1 & X2). exists w. split; [|exact X2].
        rewrite <- app_assoc. exact X1. }
      exists z. split; [now right|exact Z2].
Qed.
End Convert.

Section Reading.
Context {scale : Type} (UTC : scale) (scale_of_str : string -> option scale).
Context (parse_epoch : string -> scale -> option Z).
Context (parse_f64 : string -> option R) (parse_i32 : string -> option Z).
Context (usort : list measurement -> list measurement) (al : aliases).
Notation from_tdm := (Tdm_Model.from_tdm UTC scale_of_str parse_epoch parse_f64 parse_i32 usort).
Notation read_line := (Tdm_Model.read_line scale_of_str parse_epoch parse_f64 al).
Notation read_lines := (Tdm_Model.read_lines scale_of_str parse_epoch parse_f64 al).

Lemma push_well_formed tr e t v l : Forall well_formed l -> Forall well_formed (push_value tr e t v l).
Proof.
  intros H. unfold push_value. destruct H as [|m l Hm H].
  - constructor; [|constructor]. unfold well_formed. cbn. repeat constructor. intros [].
  - destruct ((epoch m =? e)%Z && String.eqb (tracker m) tr)%bool.
    + constructor; [|exact H]. unfold well_formed. cbn [with_obs obs]. now apply nodup_insert.
    + constructor; [|now constructor]. unfold well_formed. cbn. repeat constructor. intros [].
Qed.

Lemma line_well_formed r s r' : Forall well_formed (msrs r) -> read_line r s = Ok r' ->
  Forall well_formed (msrs r').
Proof.
  intros H. unfold Tdm_Model.read_line.
  destruct (String.eqb (trim s) "DATA_START"); [intros E; assert (r' = set_in_data r true) as -> by congruence; exact H|].
  set (x := if String.eqb (trim s) "DATA_STOP" then set_in_data r false else r).
  assert (X : Forall well_formed (msrs x)) by (unfold x; destruct (String.eqb (trim s) "DATA_STOP"); exact H).
  clearbody x. destruct (negb (in_data x)).
  - unfold read_meta. intros E.
    assert (J : exists y, r' = insert_meta y (trim s) /\ msrs y = msrs x).
    { destruct (prefix "PARTICIPANT_1" (trim s));
        [cbn [bind] in E; eexists; split; [symmetry; apply (f_equal (fun z => match z with Ok w => w | _ => r' end)) in E; exact E|reflexivity]|].
      destruct (prefix "TIME_SYSTEM" (trim s)).
      { destruct (scale_of_str _); cbn [bind] in E; [|discriminate].
        eexists; split; [symmetry; apply (f_equal (fun z => match z with Ok w => w | _ => r' end)) in E; exact E|reflexivity]. }
      destruct (prefix "PATH" (trim s)).
      { destruct (length (split COMMA (trim s))) as [|[|[|[|n]]]]; cbn [bind] in E; try discriminate;
        (eexists; split; [symmetry; apply (f_equal (fun z => match z with Ok w => w | _ => r' end)) in E; exact E|reflexivity]). }
      cbn [bind] in E. exists x. split; [congruence|reflexivity]. }
    destruct J as (y & -> & Y). unfold insert_meta.
    destruct (split EQS (trim s)) as [|k [|v ps]]; cbn [msrs]; now rewrite Y.
  - destruct (parse_line parse_epoch parse_f64 (trim s) (time_system x)) as [p| | |]; cbn [bind]; try discriminate.
    destruct p as [[[t e] v]|]; intros E.
    + apply (f_equal (fun z => match z with Ok w => msrs w | _ => [] end)) in E. cbn [msrs] in E.
      rewrite <- E. now apply push_well_formed.
    + assert (r' = x) as -> by congruence. exact X.
Qed.

Lemma lines_well_formed l : forall r r', Forall well_formed (msrs r) -> read_lines r l = Ok r' ->
  Forall well_formed (msrs r').
Proof.
  induction l as [|s l IH]; intros r r' H; cbn [Tdm_Model.read_lines].
  - intros E. assert (r' = r) as -> by congruence. exact H.
  - destruct (read_line r s) as [x| | |] eqn:E; cbn [bind]; try discriminate.
    apply IH. now apply (line_well_formed r s).
Qed.

Lemma Forall2_in_l {A B : Type} (P : A -> B -> Prop) l l' x : Forall2 P l l' -> In x l ->
  exists y, In y l' /\ P x y.
Proof.
  induction 1 as [|a b l l' H F IH]; [intros []|]. intros [<-|I]; [exists b; split; [now left|exact H]|].
  destruct (IH I) as (y & Y1 & Y2). exists y. split; [now right|exact Y2].
Qed.
Lemma Forall2_in_r {A B : Type} (P : A -> B -> Prop) l l' y : Forall2 P l l' -> In y l' ->
  exists x, In x l /\ P x y.
Proof.
  induction 1 as [|a b l l' H F IH]; [intros []|]. intros [<-|I]; [exists a; split; [now left|exact H]|].
  destruct (IH I) as (x & X1 & X2). exists x. split; [now right|exact X2].
Qed.

(** ** C72.  A file whose records follow one transmitter, with a turn-around ratio and two-way
    paths: every receive frequency after the first transmit frequency becomes the range rate of
    the link, no frequency is left, and the other observables are those of the file. *)
Theorem C72_range_rates_partial :
  forall file r q tau rho V a,
    sorts usort -> read_lines (start_reader UTC) (lines file) = Ok r ->
    turnaround parse_i32 r = Some q -> corrections_applied r = true ->
    q <> 0 -> (forall m, In m (msrs r) -> tau (epoch m) <> 0) -> uplink tau rho (rev (msrs r)) ->
    (forall m fr, In m (msrs r) -> get ReceiveFrequency (obs m) = Some fr ->
       fr = received q (tau (epoch m)) (V (tracker m) (epoch m))) ->
    (forall m v, In m (msrs r) -> get Doppler (obs m) = Some v -> v = V (tracker m) (epoch m)) ->
    from_tdm al file = Ok a ->
    (forall l1 m l2, rev (msrs r) = (l1 ++ m :: l2)%list -> get ReceiveFrequency (obs m) <> None ->
       (exists x, In x (l1 ++ [m])%list /\ get TransmitFrequency (obs x) <> None) ->
       exists m', In m' (measurements a) /\ same m' m /\
         get Doppler (obs m') = Some (V (tracker m) (epoch m))) /\
    (forall m' v, In m' (measurements a) -> get Doppler (obs m') = Some v ->
       v = V (tracker m') (epoch m')) /\
    (forall m' t, In m' (measurements a) -> is_freq t = true -> get t (obs m') = None) /\
    (forall m' t v, In m' (measurements a) -> t <> Doppler -> get t (obs m') = Some v ->
       exists m, In m (msrs r) /\ same m' m /\ get t (obs m) = Some v) /\
    (forall m t v, In m (msrs r) -> is_freq t = false -> get t (obs m) = Some v ->
       exists m', In m' (measurements a) /\ same m' m /\ get t (obs m') <> None).
Proof.
  intros file r q tau rho V a S E Q C Hq Ht U H1 H2 I.
  assert (W : Forall well_formed (msrs r)).
  { apply (lines_well_formed (lines file) (start_reader UTC)); [constructor|exact E]. }
  assert (W' : Forall well_formed (rev (msrs r))).
  { apply Forall_rev. exact W. }
  unfold Tdm_Model.from_tdm in I. rewrite E in I. cbn [bind] in I. unfold finish in I.
  rewrite Q, C in I.
  assert (H1' : forall m fr, In m (rev (msrs r)) -> get ReceiveFrequency (obs m) = Some fr ->
       fr = received q (tau (epoch m)) (V (tracker m) (epoch m))).
  { intros m fr J. apply H1. now apply in_rev. }
  assert (Ht' : forall m, In m (rev (msrs r)) -> tau (epoch m) <> 0).
  { intros m J. apply Ht. now apply in_rev. }
  destruct (process_freq parse_f64 (meta r) tau rho V q (rev (msrs r)) U Hq Ht' H1' (rev (msrs r)) []
              start_carrier eq_refl) as (l' & P & F & D); [|exact W'|].
  { left. split; [reflexivity|]. intros x []. }
  rewrite P in I. cbn [bind] in I.
  set (kept := filter _ l') in I.
  assert (K : forall m', In m' kept <-> In m' l' /\ obs m' <> []).
  { intros m'. unfold kept. rewrite filter_In. destruct (obs m'); split; intros [A B]; split; auto;
      try discriminate; congruence. }
  assert (M : measurements a = sort_measurements usort kept).
  { destruct (unique_types (sort_measurements usort kept)); [discriminate|].
    apply (f_equal (fun z => match z with Ok w => measurements w | _ => [] end)) in I.
    cbn [measurements] in I. now symmetry. }
  assert (WK : Forall well_formed kept).
  { apply Forall_forall. intros m' J. apply K in J. destruct J as [J _].
    destruct (Forall2_in_r _ _ _ _ F J) as (m & _ & G). apply G. }
  pose proof (sort_merged usort S kept WK) as SM. rewrite Forall_forall in SM. rewrite <- M in SM.
  assert (SA : forall m', In m' kept -> exists m2, In m2 (measurements a) /\ same m2 m').
  { intros m' J. rewrite M. destruct (sort_all usort S kept m' J) as (m2 & A & B). exists m2.
    split; [exact A|exact B]. }
  assert (DV : forall m' v, In m' (measurements a) -> get Doppler (obs m') = Some v ->
       v = V (tracker m') (epoch m')).
  { intros m' v J G. destruct (SM m' J) as (_ & _ & _ & M4). destruct (M4 Doppler v G) as (k & K1 & [K2 K3] & K4).
    apply K in K1. destruct K1 as [K1 _]. destruct (Forall2_in_r _ _ _ _ F K1) as (m & Hm & (S1 & S2) & _ & _ & _ & _ & G2).
    assert (Hm' : In m (msrs r)) by (now apply in_rev).
    destruct G2 as [G2|G2].
    - rewrite K4 in G2. rewrite (H2 m v Hm') by congruence. congruence.
    - rewrite K4 in G2. assert (v = V (tracker m) (epoch m)) as -> by congruence. congruence. }
  split; [|split; [exact DV|split; [|split]]].
  - intros l1 m l2 Sp R X. destruct (D l1 m l2 Sp R X) as (m' & J & [S1 S2] & G).
    assert (Jk : In m' kept) by (apply K; split; [exact J|exact (obs_of_get _ _ _ G)]).
    destruct (SA m' Jk) as (m2 & A & B1 & B2). exists m2. split; [exact A|].
    split; [split; congruence|].
    assert (N : get Doppler (obs m2) <> None).
    { destruct (SM m2 A) as (_ & _ & M3 & _). apply M3. exists m'. split; [exact Jk|].
      split; [split; congruence|congruence]. }
    destruct (get Doppler (obs m2)) as [v|] eqn:Gv; [|congruence].
    f_equal. rewrite (DV m2 v A Gv). congruence.
  - intros m' t J T. destruct (get t (obs m')) as [v|] eqn:G; [|reflexivity]. exfalso.
    destruct (SM m' J) as (_ & _ & _ & M4). destruct (M4 t v G) as (k & K1 & _ & K4).
    apply K in K1. destruct (Forall2_in_r _ _ _ _ F (proj1 K1)) as (m & _ & _ & _ & _ & G1 & _).
    rewrite (G1 t T) in K4. discriminate.
  - intros m' t v J N G. destruct (SM m' J) as (_ & _ & _ & M4). destruct (M4 t v G) as (k & K1 & [K2 K3] & K4).
    apply K in K1. destruct (Forall2_in_r _ _ _ _ F (proj1 K1)) as (m & Hm & [S1 S2] & _ & _ & G1 & G2 & _).
    exists m. split; [now apply in_rev|]. split; [split; congruence|].
    destruct (is_freq t) eqn:T; [rewrite (G1 t T) in K4; discriminate|].
    now rewrite <- (G2 t T N).
  - intros m t v J T G. apply in_rev in J. destruct (Forall2_in_l _ _ _ _ F J) as (m' & Hm & [S1 S2] & _ & _ & _ & G2 & G3).
    assert (N : get t (obs m') <> None).
    { destruct (type_eqb t Doppler) eqn:X.
      - apply type_eqb_eq in X. subst t. destruct G3 as [G3|G3]; congruence.
      - rewrite (G2 t T); [congruence|]. intros ->. rewrite type_eqb_refl in X. discriminate. }
    assert (Jk : In m' kept).
    { apply K. split; [exact Hm|]. intros Z. rewrite Z in N. now apply N. }
    destruct (SA m' Jk) as (m2 & A & B1 & B2). exists m2. split; [exact A|].
    split; [split; congruence|]. destruct (SM m2 A) as (_ & _ & M3 & _). apply M3.
    exists m'. split; [exact Jk|]. split; [split; congruence|exact N].
Qed.
End Reading.
Print Assumptions C72_range_rates_partial.

(** * Files *)
From Verif Require Import Tdm_Units.
(** Numbers without a point. *)
Definition whole (s : string) : option R := option_map IZR (of_digits s).
Definition utc (s : string) : option unit := if String.eqb s "UTC" then Some tt else None.
Definition read_file (l : list string) : res tdm_err (@reader unit) :=
  read_lines utc (fun s _ => of_digits s) whole None (start_reader tt) (lines (concat_all (map ln l))).
Definition import (usort : list measurement -> list measurement) (l : list string) :=
  from_tdm tt utc (fun s _ => of_digits s) whole of_digits usort None (concat_all (map ln l)).

Definition section (station path : string) (records : list string) : list string :=
  ["META_START"; "TIME_SYSTEM = UTC"; ("PARTICIPANT_1 = " ++ station)%string; ("PATH = " ++ path)%string;
   "TURNAROUND_NUMERATOR = 1"; "TURNAROUND_DENOMINATOR = 1"; "META_STOP"; "DATA_START"]
  ++ records ++ ["DATA_STOP"].

(** A ramp of 1 kHz/s and two receptions from a spacecraft receding at 0.5 km/s. *)
Definition ramp_file : list string := section "DSS-65" "1,2,1"
  ["TRANSMIT_FREQ_1 = 0 299792458"; "TRANSMIT_FREQ_RATE_1 = 0 1000"; "RECEIVE_FREQ = 0 299791458";
   "RECEIVE_FREQ = 299792458000000 599582916"].
(** One reception over a one-way path, from a spacecraft receding at 1 km/s. *)
Definition one_way_file : list string := section "DSS-65" "2,1"
  ["TRANSMIT_FREQ_1 = 0 299792458"; "RECEIVE_FREQ = 0 299791458"].
(** A ramp of one station, and another station that transmits at a constant frequency to a
    spacecraft at rest. *)
Definition two_station_file : list string :=
  section "DSS-65" "1,2,1" ["TRANSMIT_FREQ_1 = 0 299792458"; "TRANSMIT_FREQ_RATE_1 = 0 1000"] ++
  section "DSS-34" "1,2,1" ["TRANSMIT_FREQ_1 = 0 299792458"; "RECEIVE_FREQ = 1000000000 299792458"].

Definition rec (tr : string) (e : Z) (d : data) : measurement :=
  {| tracker := tr; epoch := e; obs := d; rejected := false |}.
Definition state_after (tr path : string) (d : R) (l : list measurement) : @reader unit :=
  {| in_data := false; current := tr; time_system := tt; has_freq := true; divider := d;
     msrs := l;
     meta := [("TIME_SYSTEM", "UTC"); ("PARTICIPANT_1", tr); ("PATH", path);
              ("TURNAROUND_NUMERATOR", "1"); ("TURNAROUND_DENOMINATOR", "1")] |}.

Ltac read_all := match goal with |- read_file ?f = ?r =>
  let x := eval cbv -[Rdiv IZR Rplus Rmult] in (read_file f) in
  transitivity x; [cbv -[Rdiv IZR Rplus Rmult]|]; reflexivity end.

Definition ramp_records : list measurement :=
  [rec "DSS-65" 299792458000000 [(ReceiveFrequency, 599582916 / 1)];
   rec "DSS-65" 0 [(TransmitFrequency, 299792458 / 1); (TransmitFrequencyRate, 1000 / 1);
                   (ReceiveFrequency, 299791458 / 1)]].
Definition one_way_records : list measurement :=
  [rec "DSS-65" 0 [(TransmitFrequency, 299792458 / 1); (ReceiveFrequency, 299791458 / 1)]].
Definition two_station_records : list measurement :=
  [rec "DSS-34" 1000000000 [(ReceiveFrequency, 299792458 / 1)];
   rec "DSS-34" 0 [(TransmitFrequency, 299792458 / 1)];
   rec "DSS-65" 0 [(TransmitFrequency, 299792458 / 1); (TransmitFrequencyRate, 1000 / 1)]].

Lemma ramp_reads : read_file ramp_file = Ok (state_after "DSS-65" "1,2,1" 2 ramp_records).
Proof. read_all. Qed.
Lemma one_way_reads : read_file one_way_file = Ok (state_after "DSS-65" "2,1" 1 one_way_records).
Proof. read_all. Qed.
Lemma two_station_reads :
  read_file two_station_file = Ok (state_after "DSS-34" "1,2,1" 2 two_station_records).
Proof. read_all. Qed.

Lemma light : SPEED_OF_LIGHT = 299792458 / 1000.
Proof. unfold SPEED_OF_LIGHT. lra. Qed.
Lemma ratio_one tr path d l : turnaround of_digits (state_after tr path d l) = Some (IZR 1 / IZR 1).
Proof. reflexivity. Qed.

(** The hypotheses of C72 hold of a ramp. *)
Example C72_example : exists r q tau rho,
  read_file ramp_file = Ok r /\ turnaround of_digits r = Some q /\ corrections_applied r = true /\
  q <> 0 /\ (forall m, In m (msrs r) -> tau (epoch m) <> 0) /\ uplink tau rho (rev (msrs r)) /\
  (forall m fr, In m (msrs r) -> get ReceiveFrequency (obs m) = Some fr ->
     fr = received q (tau (epoch m)) (/ 2)) /\ length (msrs r) = 2%nat.
Proof.
  exists (state_after "DSS-65" "1,2,1" 2 ramp_records).
  exists (IZR 1 / IZR 1), (fun e => 299792458 + 1000 * seconds e), (fun _ => 1000).
  split; [exact ramp_reads|]. split; [reflexivity|]. split; [reflexivity|]. split; [lra|].
  split. { intros m [<-|[<-|[]]]; cbn [rec epoch]; unfold seconds; lra. }
  split; [|split; [|reflexivity]].
  - change (rev (msrs _)) with (rev ramp_records). unfold ramp_records. cbn [rev List.app].
    split; [|split; [|split]].
    + intros m f [<-|[<-|[]]] G; cbn in G; [|discriminate]. injection G as <-.
      cbn [rec epoch]. unfold seconds. lra.
    + intros m r [<-|[<-|[]]] G; cbn in G; [|discriminate]. injection G as <-. lra.
    + intros [|x l1] m l2 E N S G.
      * cbn [List.app] in E. assert (m = rec "DSS-65" 0 [(TransmitFrequency, 299792458 / 1); (TransmitFrequencyRate, 1000 / 1);
                   (ReceiveFrequency, 299791458 / 1)]) as -> by congruence. discriminate.
      * exfalso. cbn [List.app] in E. injection E as E1 E2. apply (N x (or_introl eq_refl)).
        rewrite <- E1. left. discriminate.
    + intros l1 m l2 m' l3 E _ _. split.
      * intros _. unfold seconds. rewrite minus_IZR. lra.
      * reflexivity.
  - intros m fr [<-|[<-|[]]] G; apply (f_equal (fun o => match o with Some x => x | None => 0 end)) in G;
      cbn [rec obs get im_get type_eqb] in G; unfold get in G; cbn -[Rdiv IZR] in G; rewrite <- G; cbn [rec epoch]; unfold received, seconds, SPEED_OF_LIGHT; lra.
Qed.

Lemma import_reads usort l r : read_file l = Ok r -> import usort l = finish whole of_digits usort r.
Proof. intros H. unfold import, from_tdm. unfold read_file in H. now rewrite H. Qed.

(** ** The path is not looked at: over a one-way path half of the range rate comes out. *)
Theorem C72_one_way_refuted : forall usort, sorts usort ->
  exists l r m fr f a m', read_file l = Ok r /\ meta r = [("TIME_SYSTEM", "UTC");
      ("PARTICIPANT_1", "DSS-65"); ("PATH", "2,1"); ("TURNAROUND_NUMERATOR", "1");
      ("TURNAROUND_DENOMINATOR", "1")] /\
    msrs r = [m] /\ get TransmitFrequency (obs m) = Some f /\ get ReceiveFrequency (obs m) = Some fr /\
    fr = received_one_way 1 f 1 /\
    import usort l = Ok a /\ measurements a = [m'] /\ get Doppler (obs m') = Some (1 / 2).
Proof.
  intros usort S.
  exists one_way_file, (state_after "DSS-65" "2,1" 1 one_way_records).
  exists (rec "DSS-65" 0 [(TransmitFrequency, 299792458 / 1); (ReceiveFrequency, 299791458 / 1)]).
  exists (299791458 / 1), (299792458 / 1).
  set (m' := rec "DSS-65" 0 [(Doppler, 1 / 2)]).
  exists {| measurements := [m']; moduli := None; force_reject := false |}, m'.
  split; [exact one_way_reads|]. split; [reflexivity|]. split; [reflexivity|]. split; [reflexivity|].
  split; [reflexivity|]. split. { unfold received_one_way. rewrite light. lra. }
  split; [|split; reflexivity].
  rewrite (import_reads _ _ _ one_way_reads). unfold finish. rewrite ratio_one.
  change (corrections_applied (state_after "DSS-65" "2,1" 1 one_way_records)) with true.
  assert (P : process whole true (meta (state_after "DSS-65" "2,1" 1 one_way_records))
      (Some (IZR 1 / IZR 1)) start_carrier (rev (msrs (state_after "DSS-65" "2,1" 1 one_way_records)))
      = Ok [m']).
  { change (rev (msrs (state_after "DSS-65" "2,1" 1 one_way_records))) with one_way_records.
    unfold one_way_records, m'. cbn [process]. unfold convert_freq, update_carrier.
    cbn -[Rdiv IZR Rplus Rmult Rminus SPEED_OF_LIGHT to_seconds]. do 2 f_equal. unfold with_obs, rec.
    cbn -[Rdiv IZR Rplus Rmult Rminus SPEED_OF_LIGHT to_seconds]. do 3 f_equal.
    unfold to_seconds. rewrite light. cbn [start_carrier rate]. field. }
  rewrite P. cbn [bind filter]. unfold m'. cbn [rec obs]. rewrite sort_single by exact S. reflexivity.
Qed.

(** ** The rate of the transmitter of one station is kept for the next one: a spacecraft at rest
    seems to move. *)
Theorem C72_other_station_refuted : forall usort, sorts usort ->
  exists l r f a m' v, read_file l = Ok r /\ turnaround of_digits r = Some (IZR 1 / IZR 1) /\
    uplink (fun _ => f) (fun _ => 0)
      (filter (fun m => String.eqb (tracker m) "DSS-34") (rev (msrs r))) /\
    (forall m fr, In m (msrs r) -> get ReceiveFrequency (obs m) = Some fr ->
       tracker m = "DSS-34"%string /\ fr = received 1 f 0) /\
    import usort l = Ok a /\ measurements a = [m'] /\ tracker m' = "DSS-34"%string /\
    get Doppler (obs m') = Some v /\ 1 / 4 < v.
Proof.
  intros usort S.
  exists two_station_file, (state_after "DSS-34" "1,2,1" 2 two_station_records), 299792458.
  set (v := 1000 * SPEED_OF_LIGHT / (2 * 299793458)).
  set (m' := rec "DSS-34" 1000000000 [(Doppler, v)]).
  exists {| measurements := [m']; moduli := None; force_reject := false |}, m', v.
  split; [exact two_station_reads|]. split; [reflexivity|]. split; [|split].
  - change (filter _ _) with [rec "DSS-34" 0 [(TransmitFrequency, 299792458 / 1)];
       rec "DSS-34" 1000000000 [(ReceiveFrequency, 299792458 / 1)]].
    split; [|split; [|split]].
    + intros m f [<-|[<-|[]]] G; cbn in G; [injection G as <-; lra|discriminate].
    + intros m f [<-|[<-|[]]] G; cbn in G; discriminate.
    + reflexivity.
    + intros l1 m l2 x l3 E _ _. split; [intros _; lra|reflexivity].
  - intros m fr [<-|[<-|[<-|[]]]] G; cbn in G; try discriminate. injection G as <-.
    split; [reflexivity|]. unfold received. rewrite light. lra.
  - split; [|split; [reflexivity|]; split; [reflexivity|]; split; [reflexivity|unfold v; rewrite light; lra]].
    rewrite (import_reads _ _ _ two_station_reads). unfold finish. rewrite ratio_one.
    change (corrections_applied _) with true.
    assert (P : process whole true (meta (state_after "DSS-34" "1,2,1" 2 two_station_records))
        (Some (IZR 1 / IZR 1)) start_carrier
        (rev (msrs (state_after "DSS-34" "1,2,1" 2 two_station_records)))
        = Ok [rec "DSS-65" 0 []; rec "DSS-34" 0 []; m']).
    { change (rev (msrs _)) with (rev two_station_records).
      unfold two_station_records, m', v. cbn [rev List.app process]. unfold convert_freq, update_carrier.
      cbn -[Rdiv IZR Rplus Rmult Rminus SPEED_OF_LIGHT to_seconds]. do 4 f_equal. unfold with_obs, rec.
      cbn -[Rdiv IZR Rplus Rmult Rminus SPEED_OF_LIGHT to_seconds]. do 3 f_equal.
      unfold to_seconds. rewrite light. cbn [Z.sub Z.opp Z.add]. field. }
    rewrite P. cbn [bind filter]. unfold m'. cbn [rec obs]. rewrite sort_single by exact S. reflexivity.
Qed.
Print Assumptions C72_one_way_refuted.
Print Assumptions C72_other_station_refuted.
