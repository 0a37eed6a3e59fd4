(** C21: an ordered arc comes back as it was; what does not come back. *)
From Coq Require Import Reals String Ascii Lra.
From Coq Require Decimal DecimalString DecimalZ DecimalPos.
From Verif Require Import Base RustStd Arc_Model Arc_Spec Arc_Proofs Arc_Props
  Tdm_Model Tdm_Text Tdm_Proofs Tdm_Finish Tdm_Props.
Local Open Scope string_scope.

Lemma sorted_tail x l : StronglySorted before (x :: l) ->
  StronglySorted before l /\ forall y, In y l -> before x y.
Proof. intros H. inversion H as [|? ? A B]; subst. rewrite Forall_forall in B. now split. Qed.
Lemma sorted_one l m m' : StronglySorted before l -> In m l -> In m' l -> same m m' -> m = m'.
Proof.
  intros S. induction l as [|x l IH]; [intros []|]. destruct (sorted_tail x l S) as [S1 S2].
  intros [<-|I] [<-|J] K; [reflexivity| | |now apply IH].
  - exfalso. apply (same_not_before _ _ K). now apply S2.
  - exfalso. apply same_sym in K. apply (same_not_before _ _ K). now apply S2.
Qed.
Lemma same_lists l : forall l', StronglySorted before l -> StronglySorted before l' ->
  (forall m, In m l -> exists m', In m' l' /\ same m m') ->
  (forall m', In m' l' -> exists m, In m l /\ same m m') -> Forall2 same l l'.
Proof.
  induction l as [|x l IH]; intros l' S S' A B.
  - destruct l' as [|y l']; [constructor|]. destruct (B y (or_introl eq_refl)) as (m & [] & _).
  - destruct l' as [|y l']; [destruct (A x (or_introl eq_refl)) as (m & [] & _)|].
    destruct (sorted_tail x l S) as [S1 S2]. destruct (sorted_tail y l' S') as [S3 S4].
    assert (E : same x y).
    { destruct (A x (or_introl eq_refl)) as (y' & [<-|I] & K); [exact K|].
      destruct (B y (or_introl eq_refl)) as (x' & [<-|J] & K'); [exact K'|].
      exfalso. (* x < x' ~ y < y' ~ x *)
      apply (before_irrefl x). apply before_trans with (b := y).
      - apply (before_same_r x x' y); [now apply S2|exact K'].
      - apply (before_same_r y y' x); [now apply S4|now apply same_sym]. }
    constructor; [exact E|]. apply IH; auto.
    + intros m I. destruct (A m (or_intror I)) as (m' & [<-|J] & K); [|now exists m'].
      exfalso. apply (same_not_before x m); [|now apply S2].
      apply same_trans with (b := y); [exact E|now apply same_sym].
    + intros m' I. destruct (B m' (or_intror I)) as (m & [<-|J] & K); [|now exists m].
      exfalso. apply (same_not_before y m'); [|now apply S4].
      apply same_trans with (b := x); [now apply same_sym|exact K].
Qed.

(** Both have the same observables, with nearly the same values. *)
Definition alike_obs (m m' : measurement) : Prop :=
  same m m' /\ forall t, match get t (obs m), get t (obs m') with
                         | Some v, Some v' => near_value t v v'
                         | None, None => True
                         | _, _ => False
                         end.

Definition whole_arc (cfg : export_cfg) : Prop := start_epoch cfg = None /\ end_epoch cfg = None.

Section Cases.
Context {scale : Type} (UTC : scale) (scale_of_str : string -> option scale).
Context (fmt_epoch : scale -> Z -> string) (parse_epoch : string -> scale -> option Z).
Context (fmt_fixed fmt_exp : R -> string) (parse_f64 : string -> option R)
        (parse_i32 : string -> option Z) (double : R -> Prop).
Context (usort : list measurement -> list measurement).

Notation to_tdm := (Tdm_Model.to_tdm fmt_epoch fmt_fixed fmt_exp).
Notation from_tdm := (Tdm_Model.from_tdm UTC scale_of_str parse_epoch parse_f64 parse_i32 usort).
Notation formats := (formats UTC scale_of_str fmt_epoch parse_epoch fmt_fixed fmt_exp parse_f64 double).

(** An arc in order (C16) comes back measurement by measurement. *)
Theorem C21_same_arc :
  forall out al version now spacecraft cfg (a : arc),
    formats -> sorts usort -> harmless version now spacecraft cfg -> whole_arc cfg ->
    measurements a <> [] -> StronglySorted before (measurements a) ->
    Forall (fun m => well_formed m /\ obs m <> []) (measurements a) ->
    named out al (measurements a) -> plain_types (measurements a) ->
    exists f a', to_tdm version now UTC spacecraft out cfg a = Ok f /\ from_tdm al f = Ok a' /\
      Forall2 alike_obs (measurements a) (measurements a').
Proof.
  intros out al version now spacecraft cfg a F S H [B1 B2] NE O W N Q.
  assert (CH : forall e, chosen cfg e) by (intros e; unfold chosen; rewrite B1, B2; now split).
  assert (W' : Forall well_formed (measurements a)) by (eapply Forall_impl; [|exact W]; cbv beta; tauto).
  rewrite Forall_forall in W.
  destruct (C21_round_trip_partial UTC scale_of_str fmt_epoch parse_epoch fmt_fixed fmt_exp
      parse_f64 parse_i32 double usort out al version now spacecraft cfg a F S H
      (strict_time_ordered _ O) W' N Q) as (f & a' & E1 & E2 & S' & W2 & C1 & C2 & _).
  { intros m m' t v v' I J K G G'. assert (m = m') by (now apply (sorted_one (measurements a))).
    subst m'. congruence. }
  { destruct (measurements a) as [|m l] eqn:E; [congruence|].
    destruct (obs_some (obs m)) as (t & T); [apply (W m); now left|].
    destruct (get t (obs m)) as [v|] eqn:G; [|congruence].
    exists m, t, v. split; [now left|]. split; [apply CH|exact G]. }
  exists f, a'. split; [exact E1|]. split; [exact E2|].
  assert (L : Forall2 same (measurements a) (measurements a')).
  { apply same_lists; auto.
    - intros m I. destruct (obs_some (obs m)) as (t & T); [apply (W m I)|].
      destruct (get t (obs m)) as [v|] eqn:G; [|congruence].
      destruct (C1 m t v I (CH _) G) as (m' & v' & I' & K & _). exists m'. split; [exact I'|now apply same_sym].
    - intros m' I. rewrite Forall_forall in W2. destruct (obs_some (obs m')) as (t & T); [apply (W2 m' I)|].
      destruct (get t (obs m')) as [v'|] eqn:G; [|congruence].
      destruct (C2 m' t v' I G) as (m & v & I' & _ & K & _). exists m. now split. }
  assert (G : forall l l', Forall2 same l l' -> (forall m, In m l -> In m (measurements a)) ->
     (forall m, In m l' -> In m (measurements a')) -> Forall2 alike_obs l l').
  { intros l l' K. induction K as [|m m' l l' K1 K2 IH]; intros X Y; [constructor|].
    constructor; [|apply IH; intros z Hz; [apply X|apply Y]; now right].
    split; [exact K1|]. intros t. pose proof (X m (or_introl eq_refl)) as I.
    pose proof (Y m' (or_introl eq_refl)) as I'.
    destruct (get t (obs m)) as [v|] eqn:G1.
    - destruct (C1 m t v I (CH _) G1) as (m2 & v' & I2 & K3 & G2 & NV).
      assert (m2 = m').
      { apply (sorted_one (measurements a')); auto. now apply same_trans with (b := m). }
      subst m2. now rewrite G2.
    - destruct (get t (obs m')) as [v'|] eqn:G2; [|exact Logic.I].
      destruct (C2 m' t v' I' G2) as (m2 & v & I2 & _ & K3 & G3 & _).
      assert (m2 = m).
      { apply (sorted_one (measurements a)); auto. apply same_trans with (b := m'); [exact K3|now apply same_sym]. }
      subst m2. congruence. }
  now apply G.
Qed.

(** * What does not come back *)
Definition plain_cfg : export_cfg := {| start_epoch := None; end_epoch := None; metadata := [] |}.
Lemma plain_harmless : harmless "nyx-space" "2024-01-01T00:00:00" "LRO" plain_cfg.
Proof. split; [wo|]. split; [wo|]. split; [wo|]. split; [wo|]. intros k v []. Qed.
Definition one (d : data) (rej : bool) : arc :=
  {| measurements := [{| tracker := "DSS-65"; epoch := 0; obs := d; rejected := rej |}];
     moduli := None; force_reject := false |}.
Notation export stored := (to_tdm "nyx-space" "2024-01-01T00:00:00" stored "LRO" None plain_cfg).

Lemma one_ok d rej : NoDup (map fst d) ->
  time_ordered (measurements (one d rej)) /\ Forall well_formed (measurements (one d rej)) /\
  named None None (measurements (one d rej)) /\ consistent (measurements (one d rej)).
Proof.
  intros N. split; [repeat constructor|]. split; [repeat constructor; exact N|]. split.
  - intros m [<-|[]]. split; [|reflexivity]. split; [wo|]. split; [wo|reflexivity].
  - intros m m' t v v' [<-|[]] [<-|[]] _ A B. congruence.
Qed.

(** A rejected measurement comes back accepted: the export does not look at the flag. *)
Theorem C21_rejected_refuted : formats -> sorts usort ->
  exists a f a', (exists m, measurements a = [m] /\ rejected m = true) /\
    export UTC a = Ok f /\ from_tdm None f = Ok a' /\
    exists m', measurements a' = [m'] /\ rejected m' = false.
Proof.
  intros F S. exists (one [(Range, 1%R)] true).
  destruct (one_ok [(Range, 1%R)] true) as (T & W & N & C); [repeat constructor; intros []|].
  destruct (round_trip UTC scale_of_str fmt_epoch parse_epoch fmt_fixed fmt_exp parse_f64 parse_i32
      double usort UTC (fun e => e) None None _ _ _ _ _ F S plain_harmless (proj1 (proj2 F))
      (fun e e' H => H) T W N C) as (f & ms & mo & E1 & E2 & S1 & R & P & _).
  { intros m t v [<-|[]] G. destruct t; try discriminate. constructor. }
  { left. intros []. }
  { eexists _, Range, 1%R. split; [now left|]. split; [now split|]. split; reflexivity. }
  exists f. eexists. split; [eexists; split; reflexivity|]. split; [exact E1|]. split; [exact E2|].
  cbn [measurements]. rewrite Forall_forall in R.
  assert (K : forall m, In m ms -> tracker m = "DSS-65" /\ epoch m = 0%Z).
  { intros m I. destruct (R m I) as (_ & _ & O). destruct (obs_some _ O) as (t & G).
    destruct (get t (obs m)) as [v|] eqn:E; [|congruence].
    destruct (proj1 (P (tracker m) (epoch m) t v)) as (_ & m2 & x & [<-|[]] & _ & A & B & _).
    - exists m. auto.
    - now split. }
  destruct ms as [|m ms].
  - assert (has_point [] "DSS-65" 0 Range (value_read (rd fmt_fixed parse_f64) (factor Range) 1))
      as (m & [] & _).
    apply P. split; [reflexivity|]. eexists _, 1%R. split; [now left|]. repeat split.
  - exists m. destruct ms as [|m2 ms].
    + split; [reflexivity|]. apply (R m). now left.
    + exfalso. destruct (sorted_tail _ _ S1) as [_ B]. specialize (B m2 (or_introl eq_refl)).
      destruct (K m (or_introl eq_refl)) as [K1 K2].
      destruct (K m2 (or_intror (or_introl eq_refl))) as [K3 K4].
      apply (same_not_before m m2); [split; congruence|exact B].
Qed.

(** Frequencies are written, and dropped when the file is read: the export does not write the
    turn-around ratio that the import asks for. *)
Theorem C21_frequency_refuted : formats -> sorts usort ->
  exists a f a' m x, In m (measurements a) /\ get ReceiveFrequency (obs m) = Some x /\
    export UTC a = Ok f /\ from_tdm None f = Ok a' /\
    forall m', In m' (measurements a') -> get ReceiveFrequency (obs m') = None.
Proof.
  intros F S. set (d := [(Range, 1%R); (TransmitFrequency, 7%R); (ReceiveFrequency, 8%R)]).
  destruct (one_ok d false) as (T & W & N & C).
  { repeat constructor; cbn; intuition discriminate. }
  destruct (round_trip UTC scale_of_str fmt_epoch parse_epoch fmt_fixed fmt_exp parse_f64 parse_i32
      double usort UTC (fun e => e) None None _ _ _ _ _ F S plain_harmless (proj1 (proj2 F))
      (fun e e' H => H) T W N C) as (f & ms & mo & E1 & E2 & S1 & R & P & _).
  { intros m t v [<-|[]] G. destruct t; try discriminate; constructor. }
  { left. intros []. }
  { eexists _, Range, 1%R. split; [now left|]. split; [now split|]. split; reflexivity. }
  exists (one d false), f. do 3 eexists. split; [now left|]. split; [reflexivity|].
  split; [exact E1|]. split; [exact E2|]. cbn [measurements].
  intros m' I. destruct (get ReceiveFrequency (obs m')) as [v|] eqn:G; [|reflexivity].
  destruct (proj1 (P (tracker m') (epoch m') ReceiveFrequency v)) as (X & _); [|discriminate].
  exists m'. auto.
Qed.

(** An arc stored in another time scale comes back at other epochs: the export always says
    UTC, and writes the dates in the time scale they are stored in. *)
Theorem C21_time_scale_refuted : formats -> sorts usort -> forall stored shift, shift <> 0%Z ->
  (forall e, word (fmt_epoch stored e) /\
             parse_epoch (fmt_epoch stored e) UTC = Some (e + shift)%Z) ->
  exists a f a' m, In m (measurements a) /\
    export stored a = Ok f /\ from_tdm None f = Ok a' /\ measurements a' <> [] /\
    forall m', In m' (measurements a') -> epoch m' = (epoch m + shift)%Z.
Proof.
  intros F S stored shift NZ E.
  destruct (one_ok [(Range, 1%R)] false) as (T & W & N & C); [repeat constructor; intros []|].
  destruct (round_trip UTC scale_of_str fmt_epoch parse_epoch fmt_fixed fmt_exp parse_f64 parse_i32
      double usort stored (fun e => (e + shift)%Z) None None _ _ _ _ (one [(Range, 1%R)] false)
      F S plain_harmless E)
    as (f & ms & mo & E1 & E2 & S1 & R & P & _); auto.
  { intros e e' H. lia. }
  { intros m t v [<-|[]] G. destruct t; try discriminate. constructor. }
  { eexists _, Range, 1%R. split; [now left|]. split; [now split|]. split; reflexivity. }
  exists (one [(Range, 1%R)] false), f. do 2 eexists. split; [now left|].
  split; [exact E1|]. split; [exact E2|]. cbn [measurements]. split.
  - intros ->.
    assert (has_point [] "DSS-65" (0 + shift) Range (value_read (rd fmt_fixed parse_f64) (factor Range) 1))
      as (m & [] & _).
    apply P. split; [reflexivity|]. eexists _, 1%R. split; [now left|]. repeat split.
  - intros m' I. rewrite Forall_forall in R. destruct (R m' I) as (_ & _ & O).
    destruct (obs_some _ O) as (t & G). destruct (get t (obs m')) as [v|] eqn:G'; [|congruence].
    destruct (proj1 (P (tracker m') (epoch m') t v)) as (_ & m2 & x & [<-|[]] & _ & A & B & _).
    + exists m'. auto.
    + exact B.
Qed.

(** The coordinates of a position fix are written under keywords that the import refuses: the
    whole file is lost, ranges included. *)
Theorem C21_position_refuted : formats ->
  exists a f m x, In m (measurements a) /\ get Range (obs m) = Some x /\
    export UTC a = Ok f /\ from_tdm None f = Err (BadKeyword "X").
Proof.
  intros (F1 & F2 & F3 & F4 & F5).
  set (d := [(Range, 1%R); (MX, 2%R)]). set (a := one d false). set (l := measurements a).
  set (sec := section_lines fmt_epoch fmt_fixed fmt_exp UTC None "LRO" [] None "DSS-65" 0 0).
  set (body := (sec true [Range] l ++ sec false [MX] l)%list).
  assert (EB : all_trackers (tracker_lines fmt_epoch fmt_fixed fmt_exp UTC None "LRO" [] None l)
                 (unique_trackers l) = Ok body).
  { unfold body. rewrite <- (app_nil_r (sec true [Range] l ++ sec false [MX] l)). reflexivity. }
  assert (NM : plain_name (alias None "DSS-65")) by (split; [wo|split; [wo|reflexivity]]).
  destruct (preamble_reads UTC scale_of_str parse_epoch fmt_exp parse_f64 None [] None
              "nyx-space" "2024-01-01T00:00:00") as (r0 & E0 & G0); [wo|].
  exists a. eexists. exists {| tracker := "DSS-65"; epoch := 0; obs := d; rejected := false |}, 1%R.
  split; [now left|]. split; [reflexivity|]. split.
  { unfold Tdm_Model.to_tdm. change (measurements a) with l.
    change (select plain_cfg l) with l. change (metadata plain_cfg) with (@nil (string * string)).
    change (moduli a) with (@None (list (msr_type * R))). cbv zeta. rewrite EB. reflexivity. }
  unfold Tdm_Model.from_tdm. rewrite lines_of.
  2:{ rewrite !Forall_app. split; [|split].
      - repeat constructor; wo.
      - apply (body_clean fmt_epoch fmt_fixed fmt_exp UTC (fun e => proj1 (F2 e))
                 (fun x => proj1 (F3 x)) F4 None "LRO" [] None) with (4 := EB).
        + wo.
        + intros kv [].
        + intros tr H. apply unique_trackers_in in H. destruct H as (m & [<-|[]] & <-). exact (proj1 NM).
      - repeat constructor. wo. }
  rewrite read_lines_cr. rewrite (read_lines_app _ _ _ _ _ _ _ _ E0).
  assert (FR : forall x, parse_f64 (fmt_fixed x) = Some (rd fmt_fixed parse_f64 x)).
  { intros x. unfold rd. destruct (F3 x) as (_ & y & -> & _). reflexivity. }
  destruct (section_reads UTC scale_of_str fmt_epoch parse_epoch fmt_fixed fmt_exp parse_f64 F1
     UTC (fun e => e) (rd fmt_fixed parse_f64) (fun e => proj1 (F2 e)) (fun e => proj2 (F2 e))
     (fun x => proj1 (F3 x)) FR F4 None None "LRO" [] None (fun kv (H : In kv []) => match H with end)
     "DSS-65" 0%Z 0%Z true [Range] l r0 NM) as (r1 & E1 & G1).
  { intros t [<-|[]]. exact Logic.I. }
  { intros t [<-|[]]. discriminate. }
  { intros _. eexists. split; [now left|]. now left. }
  { exact (proj1 G0). }
  unfold body. rewrite <- !app_assoc. rewrite (read_lines_app _ _ _ _ _ _ _ _ E1).
  destruct (header_reads UTC scale_of_str fmt_epoch parse_epoch fmt_exp parse_f64 F1 UTC F4
     None None "LRO" [] None "DSS-65" 0%Z 0%Z false [MX] NM (fun kv (H : In kv []) => match H with end)
     r1 (proj1 G1)) as (r2 & E2 & D2 & _ & T2 & _).
  assert (SE : sec false [MX] l =
     (header fmt_epoch fmt_exp UTC None "LRO" [] None "DSS-65" 0 0 false [MX] ++
      data_line fmt_epoch fmt_fixed UTC 1 0 (MX, 2%R) :: ["DATA_STOP"; ""])%list) by reflexivity.
  rewrite SE, <- app_assoc. rewrite (read_lines_app _ _ _ _ _ _ _ _ E2).
  cbn [List.app read_lines].
  destruct (data_line_split fmt_epoch fmt_fixed UTC (fun e => proj1 (F2 e))
     (fun x => proj1 (F3 x)) 1 0 MX 2) as (w & W1 & W2 & W3).
  assert (RL : read_line scale_of_str parse_epoch parse_f64 None r2
                 (data_line fmt_epoch fmt_fixed UTC 1 0 (MX, 2%R)) = Err (BadKeyword "X")).
  { unfold read_line. rewrite W1. rewrite not_mark by wo. rewrite not_mark by wo. rewrite D2.
    cbn [negb]. unfold parse_line. rewrite W2. reflexivity. }
  rewrite RL. reflexivity.
Qed.

(** * Files of others *)
Notation read_lines := (Tdm_Model.read_lines scale_of_str parse_epoch parse_f64).
Lemma sort_single m : sorts usort -> sort_measurements usort [m] = [m].
Proof.
  intros S. unfold sort_measurements. destruct (S [m]) as [P _].
  apply Permutation_length_1_inv in P. now rewrite P.
Qed.

(** A two-way section with a pointing angle. *)
Definition angle_file : list string :=
  ["META_START"; "TIME_SYSTEM = UTC"; "PATH = 1,2,1"; "PARTICIPANT_1 = DSS-65"; "META_STOP";
   "DATA_START"; "ANGLE_1 = 2024-01-01T00:00:00 90.0"; "DATA_STOP"].

(** All values of a two-way section are halved, angles included. *)
Theorem C21_angle_refuted : sorts usort -> forall e,
  scale_of_str "UTC" = Some UTC -> parse_epoch "2024-01-01T00:00:00" UTC = Some e ->
  parse_f64 "90.0" = Some 90%R ->
  exists a' m, from_tdm None (concat_all (map ln angle_file)) = Ok a' /\ measurements a' = [m] /\
    get Azimuth (obs m) = Some 45%R.
Proof.
  intros S e U E V.
  set (m := {| tracker := "DSS-65"; epoch := e; obs := [(Azimuth, 90 / 2)%R]; rejected := false |}).
  exists {| measurements := [m]; moduli := None; force_reject := false |}, m.
  split; [|split; [reflexivity|]].
  2:{ unfold get, m. cbn [obs im_get type_eqb]. destruct (type_eqb Azimuth Azimuth) eqn:Q;
      [f_equal; lra|rewrite type_eqb_refl in Q; discriminate]. }
  unfold Tdm_Model.from_tdm. rewrite lines_of by (repeat constructor; wo). rewrite read_lines_cr.
  unfold angle_file. cbn [Tdm_Model.read_lines].
  rewrite mark_line; [|reflexivity|wo|discriminate|reflexivity..]. cbn [bind].
  rewrite (time_line UTC) by (exact U || reflexivity). cbn [bind].
  rewrite (path_line scale_of_str parse_epoch parse_f64 None true) by reflexivity. cbn [bind].
  change "PARTICIPANT_1 = DSS-65" with ("PARTICIPANT_1 = " ++ "DSS-65").
  rewrite participant_line; [|reflexivity|wo]. cbn [bind].
  rewrite mark_line; [|reflexivity|wo|discriminate|reflexivity..]. cbn [bind].
  rewrite start_line. cbn [bind].
  match goal with |- context [Tdm_Model.read_line _ _ _ _ ?r "ANGLE_1 = 2024-01-01T00:00:00 90.0"] =>
    set (r1 := r) end.
  assert (X : Tdm_Model.read_line scale_of_str parse_epoch parse_f64 None r1
                "ANGLE_1 = 2024-01-01T00:00:00 90.0" =
      Ok {| in_data := true; current := "DSS-65"; time_system := UTC; has_freq := false;
            divider := 2; msrs := [m]; meta := meta r1 |}).
  { unfold Tdm_Model.read_line.
    change (trim "ANGLE_1 = 2024-01-01T00:00:00 90.0") with "ANGLE_1 = 2024-01-01T00:00:00 90.0".
    change (String.eqb "ANGLE_1 = 2024-01-01T00:00:00 90.0" "DATA_START") with false.
    change (String.eqb "ANGLE_1 = 2024-01-01T00:00:00 90.0" "DATA_STOP") with false.
    cbv iota. change (negb (in_data r1)) with false. cbv iota.
    assert (Y : parse_line parse_epoch parse_f64 "ANGLE_1 = 2024-01-01T00:00:00 90.0" (time_system r1)
                = Ok (Some (Azimuth, e, 90%R))).
    { unfold parse_line.
      change (split EQS "ANGLE_1 = 2024-01-01T00:00:00 90.0") with
        ["ANGLE_1 "; " 2024-01-01T00:00:00 90.0"].
      cbv iota. change (type_of_name (trim "ANGLE_1 ")) with (Some Azimuth). cbv iota.
      change (split_whitespace (trim " 2024-01-01T00:00:00 90.0")) with ["2024-01-01T00:00:00"; "90.0"].
      cbv iota. change (time_system r1) with UTC. now rewrite E, V. }
    rewrite Y. reflexivity. }
  rewrite X. cbn [bind]. rewrite stop_line. cbn [bind]. unfold finish.
  change (corrections_applied _) with true.
  change (turnaround parse_i32 _) with (@None R).
  rewrite process_plain. cbn [bind]. cbn [set_in_data msrs rev List.app map].
  change (drop_freqs m) with m. cbn [filter]. change (obs m) with [(Azimuth, (90 / 2)%R)].
  cbv iota. rewrite sort_single by exact S. reflexivity.
Qed.
End Cases.
Print Assumptions C21_same_arc.
Print Assumptions C21_rejected_refuted.
Print Assumptions C21_frequency_refuted.
Print Assumptions C21_time_scale_refuted.
Print Assumptions C21_position_refuted.
Print Assumptions C21_angle_refuted.
