(** From the lines read to the imported arc. *)
From Coq Require Import Reals String Ascii Lra.
From Verif Require Import Base RustStd Arc_Model Arc_Spec Arc_Proofs Tdm_Model Tdm_Text Tdm_Proofs.
Local Open Scope string_scope.

(** No line of the file has a line end inside. *)
Ltac wo := repeat (apply without_cons; split; [discriminate|]); apply without_empty.
Lemma word_no_lf s : word s -> without LF s.
Proof. intros (_ & _ & W). now apply W. Qed.

Section Clean.
Context {scale : Type}.
Context (fmt_epoch : scale -> Z -> string) (fmt_fixed fmt_exp : R -> string) (stored : scale).
Hypothesis epoch_word : forall e, word (fmt_epoch stored e).
Hypothesis fixed_word : forall x, word (fmt_fixed x).
Hypothesis exp_word : forall x, word (fmt_exp x).
Context (out : aliases) (spacecraft : string) (md : list (string * string))
        (mods : option (list (msr_type * R))).
Hypothesis spacecraft_ok : without LF spacecraft.
Hypothesis md_ok : forall kv, In kv md -> without LF (fst kv) /\ without LF (snd kv).

Lemma data_line_clean k e kv : without LF (data_line fmt_epoch fmt_fixed stored k e kv).
Proof.
  unfold data_line, tab. apply without_cons. split; [discriminate|].
  destruct (name_start (fst kv)) as (a & s & E & _ & _ & L & _). rewrite E.
  apply without_app. split; [exact L|]. apply without_app. split; [wo|].
  apply without_app. split.
  - unfold pad. apply without_app. split; [apply word_no_lf, epoch_word|].
    apply without_blanks. discriminate.
  - apply without_cons. split; [discriminate|]. apply word_no_lf, fixed_word.
Qed.

Lemma section_clean tr first last_ two types l : without LF (alias out tr) ->
  Forall (without LF) (section_lines fmt_epoch fmt_fixed fmt_exp stored out spacecraft md mods
                         tr first last_ two types l).
Proof.
  intros N. unfold section_lines, tab. rewrite !Forall_app. repeat split.
  - repeat constructor; try wo; repeat (apply without_cons; split; [discriminate|]);
      try (apply word_no_lf, epoch_word); try exact N; try exact spacecraft_ok.
    destruct two; wo.
  - apply Forall_forall. intros s I. apply in_flat_map in I. destruct I as (kv & I & J).
    destruct (String.eqb (fst kv) "originator"); [destruct J|]. destruct J as [<-|[]].
    destruct (md_ok kv I) as [K V]. apply without_cons. split; [discriminate|].
    apply without_app. split; [exact K|]. apply without_app. split; [wo|exact V].
  - destruct (existsb _ types); [|constructor]. constructor; [wo|].
    destruct mods as [ms|]; [|constructor]. destruct (im_get _ _ ms) as [x|]; [|constructor].
    constructor; [|constructor]. repeat (apply without_cons; split; [discriminate|]).
    apply word_no_lf, exp_word.
  - destruct (_ || _)%bool; [|constructor]. constructor; [wo|constructor].
  - repeat constructor; wo.
  - apply Forall_forall. intros s I. apply in_flat_map in I. destruct I as (m & _ & I).
    apply in_flat_map in I. destruct I as (kv & _ & I). destruct (existsb _ types); [|destruct I].
    destruct I as [<-|[]]. apply data_line_clean.
  - repeat constructor; wo.
Qed.

Lemma body_clean l ts : (forall tr, In tr ts -> without LF (alias out tr)) -> forall body,
  all_trackers (tracker_lines fmt_epoch fmt_fixed fmt_exp stored out spacecraft md mods l) ts = Ok body ->
  Forall (without LF) body.
Proof.
  induction ts as [|tr ts IH]; intros N body H; cbn [all_trackers] in H.
  - injection H as <-. constructor.
  - destruct (tracker_lines fmt_epoch fmt_fixed fmt_exp stored out spacecraft md mods l tr)
      as [x| | |] eqn:E; [|discriminate..]. cbn [bind] in H.
    destruct (all_trackers (tracker_lines fmt_epoch fmt_fixed fmt_exp stored out spacecraft md mods l) ts)
      as [y| | |]; [|discriminate..]. cbn [bind] in H. injection H as <-.
    apply Forall_app. split; [|apply IH; [intros t Ht; apply N; now right|reflexivity]].
    unfold tracker_lines in E. destruct (filter_by_tracker tr l) as [|m0 td]; [discriminate|].
    apply (f_equal (fun r => match r with Ok q => q | _ => [] end)) in E. cbv beta iota zeta in E.
    rewrite <- E. apply Forall_app. split; apply section_clean; apply N; now left.
Qed.
End Clean.

(** * Reading the file back *)
Section File.
Context {scale : Type} (UTC : scale) (scale_of_str : string -> option scale).
Context (fmt_epoch : scale -> Z -> string) (parse_epoch : string -> scale -> option Z).
Context (fmt_fixed fmt_exp : R -> string) (parse_f64 : string -> option R)
        (parse_i32 : string -> option Z).
Hypothesis utc_name : scale_of_str "UTC" = Some UTC.
Context (stored : scale) (read : Z -> Z) (rd : R -> R).
Hypothesis epoch_word : forall e, word (fmt_epoch stored e).
Hypothesis epoch_read : forall e, parse_epoch (fmt_epoch stored e) UTC = Some (read e).
Hypothesis fixed_word : forall x, word (fmt_fixed x).
Hypothesis fixed_read : forall x, parse_f64 (fmt_fixed x) = Some (rd x).
Hypothesis exp_word : forall x, word (fmt_exp x).
Context (al out : aliases) (version now spacecraft : string) (cfg : export_cfg) (a : arc).
Hypothesis version_ok : without LF version /\ without EQS version.
Hypothesis now_ok : without LF now.
Hypothesis spacecraft_ok : without LF spacecraft.
Hypothesis md_ok : forall kv, In kv (metadata cfg) -> quiet_key (fst kv) /\ without LF (snd kv).
Hypothesis names_ok : forall m, In m (measurements a) -> plain_name (alias out (tracker m)).
Hypothesis types_ok : Forall (fun m => Forall recognized (map fst (obs m))) (measurements a).

Notation l := (select cfg (measurements a)).

Lemma filter_by_epoch_in r m ms : In m (filter_by_epoch r ms) -> In m ms.
Proof.
  unfold filter_by_epoch. destruct (resolve_bounds r ms) as [s e].
  destruct (_ || _)%bool; [intros []|]. intros H.
  assert (A : forall (A : Type) n (x : A) q, In x (skipn n q) -> In x q).
  { clear. intros A n x. induction n as [|n IH]; intros [|y q] H; cbn in *; auto. }
  assert (B : forall (A : Type) n (x : A) q, In x (firstn n q) -> In x q).
  { clear. intros A n x. induction n as [|n IH]; intros [|y q] H; cbn in *; auto; [destruct H|].
    destruct H; auto. }
  eapply B, A, H.
Qed.
Lemma select_in m : In m l -> In m (measurements a).
Proof.
  unfold select. destruct (start_epoch cfg), (end_epoch cfg); auto; apply filter_by_epoch_in.
Qed.

Lemma originator_ok : without LF (match im_get String.eqb "originator" (metadata cfg) with
                                  | Some o => o | None => "Nyx Space" end).
Proof.
  destruct (im_get String.eqb "originator" (metadata cfg)) as [o|] eqn:E; [|wo].
  assert (G : forall m : list (string * string), im_get String.eqb "originator" m = Some o ->
            exists k, In (k, o) m).
  { clear. induction m as [|[k v] m IH]; cbn [im_get]; [discriminate|].
    destruct (String.eqb "originator" k); intros H.
    - exists k. left. congruence.
    - destruct (IH H) as (k' & I). exists k'. now right. }
  destruct (G _ E) as (k & I). exact (proj2 (md_ok _ I)).
Qed.

Lemma file_reads : measurements a <> [] ->
  exists f r, to_tdm fmt_epoch fmt_fixed fmt_exp version now stored spacecraft out cfg a = Ok f /\
    read_lines scale_of_str parse_epoch parse_f64 al (start_reader UTC) (lines f) = Ok r /\
    follows fmt_exp (metadata cfg) (moduli a)
      (flat_map (tracker_points read rd al out l) (unique_trackers l)) (start_reader UTC) r.
Proof.
  intros NE. unfold to_tdm. destruct (measurements a) as [|m0 ms] eqn:Ea; [congruence|].
  rewrite <- Ea in *.
  destruct (preamble_reads UTC scale_of_str parse_epoch fmt_exp parse_f64 al
              (metadata cfg) (moduli a) version now (proj2 version_ok)) as (r0 & E0 & F0).
  destruct (trackers_read UTC scale_of_str fmt_epoch parse_epoch fmt_fixed fmt_exp parse_f64
              utc_name stored read rd epoch_word epoch_read fixed_word fixed_read exp_word al out
              spacecraft (metadata cfg) (moduli a) (fun kv H => proj1 (md_ok kv H)) l
              (unique_trackers l)) with (r := r0) as (body & r & E1 & E2 & F1).
  { intros tr H. apply unique_trackers_in in H. destruct H as (m & I & <-).
    apply names_ok. now apply select_in. }
  { intros tr H. now apply unique_trackers_in. }
  { rewrite Forall_forall in *. intros m I. apply types_ok. now apply select_in. }
  { exact (proj1 F0). }
  cbv zeta. rewrite E1. cbn [bind].
  match goal with |- exists f r, Ok (concat_all (map ln ?x)) = _ /\ _ => set (all := x) end.
  exists (concat_all (map ln all)), r. split; [reflexivity|].
  assert (C : Forall (without LF) all).
  { unfold all. rewrite !Forall_app. repeat split.
    - repeat constructor; try wo.
      + repeat (apply without_cons; split; [discriminate|]).
        apply without_app. split; [exact (proj1 version_ok)|wo].
      + repeat (apply without_cons; split; [discriminate|]). exact now_ok.
      + repeat (apply without_cons; split; [discriminate|]). exact originator_ok.
    - apply (body_clean fmt_epoch fmt_fixed fmt_exp stored epoch_word fixed_word exp_word out
               spacecraft (metadata cfg) (moduli a) spacecraft_ok) with (3 := E1).
      + intros kv H. destruct (md_ok kv H) as [(_ & (K & _) & _) V]. now split.
      + intros tr H. apply unique_trackers_in in H. destruct H as (m & I & <-).
        exact (proj1 (names_ok m (select_in m I))).
    - repeat constructor. wo. }
  rewrite lines_of by exact C. rewrite read_lines_cr. unfold all.
  rewrite (read_lines_app _ _ _ _ _ _ _ _ E0). rewrite (read_lines_app _ _ _ _ _ _ _ _ E2).
  cbn [read_lines]. rewrite empty_line by exact (proj1 F1). cbn [bind].
  split; [reflexivity|]. exact (follows_app _ _ _ _ _ _ _ _ F0 F1).
Qed.
End File.

(** * From the reader to the arc *)
(** The points of an arc. *)
Definition has_point (l : list measurement) (tr : string) (e : Z) (t : msr_type) (v : R) : Prop :=
  exists m, In m l /\ tracker m = tr /\ epoch m = e /\ get t (obs m) = Some v.

Section Finish.
Context {scale : Type}.
Context (parse_f64 : string -> option R) (parse_i32 : string -> option Z).
Context (usort : list measurement -> list measurement).
Hypothesis sorts_ok : sorts usort.

Lemma obs_some (d : data) : d <> [] -> exists t, get t d <> None.
Proof.
  destruct d as [|[t v] d]; [congruence|]. intros _. exists t. unfold get. cbn [im_get].
  now rewrite type_eqb_refl.
Qed.
Lemma obs_of_get t (d : data) v : get t d = Some v -> d <> [].
Proof. intros H ->. discriminate. Qed.

Lemma process_plain md l : forall c,
  process parse_f64 true md None c l = Ok (map drop_freqs l).
Proof. induction l as [|m l IH]; intros c; cbn [process map]; [reflexivity|]. now rewrite IH. Qed.

Definition non_empty (m : measurement) : bool := match obs m with [] => false | _ => true end.

(** Sorting measurements that hold consistent points. *)
Lemma sorted_points l :
  Forall (fun m => well_formed m /\ rejected m = false /\ obs m <> []) l ->
  (forall tr e t v v', has_point l tr e t v -> has_point l tr e t v' -> v = v') ->
  let s := sort_measurements usort l in
  StronglySorted before s /\
  Forall (fun m => well_formed m /\ rejected m = false /\ obs m <> []) s /\
  forall tr e t v, has_point s tr e t v <-> has_point l tr e t v.
Proof.
  intros H U s. rewrite Forall_forall in H.
  assert (W : Forall well_formed l) by (apply Forall_forall; intros m I; apply (H m I)).
  pose proof (sort_merged usort sorts_ok l W) as M. rewrite Forall_forall in M.
  split; [now apply sort_time_ordered|]. split.
  - apply Forall_forall. intros m I. destruct (M m I) as (M1 & M2 & M3 & M4).
    split; [exact M1|]. split.
    + destruct (rejected m) eqn:E; [|reflexivity]. destruct (proj1 M2 eq_refl) as (m' & A & _ & B).
      destruct (H m' A) as (_ & C & _). congruence.
    + destruct (sort_keys usort sorts_ok l m I) as (m' & A & B).
      destruct (H m' A) as (_ & _ & C). destruct (obs_some _ C) as (t & T).
      assert (get t (obs m) <> None) as Q.
      { apply M3. exists m'. split; [exact A|]. split; [now apply same_sym|exact T]. }
      intros Z. rewrite Z in Q. now apply Q.
  - intros tr e t v. split.
    + intros (m & I & A & B & C). destruct (M m I) as (_ & _ & _ & M4).
      destruct (M4 t v C) as (m' & D & [E F] & G). exists m'. repeat split; auto; congruence.
    + intros (m' & I & A & B & C). destruct (sort_all usort sorts_ok l m' I) as (m & J & [K1 K2]).
      destruct (M m J) as (_ & _ & M3 & M4).
      assert (get t (obs m) <> None) as Q.
      { apply M3. exists m'. split; [exact I|]. split; [split; congruence|congruence]. }
      destruct (get t (obs m)) as [w|] eqn:G; [|congruence].
      destruct (M4 t w G) as (m2 & D & [E F] & G2).
      assert (w = v).
      { apply (U tr e t); [exists m2|exists m']; repeat split; auto; congruence. }
      subst w. exists m. repeat split; auto; congruence.
Qed.

(** Without frequencies to convert and corrections to apply: the points that are not
    frequencies, one measurement per epoch and tracker, in order. *)
Lemma finish_plain (r : @reader scale) pts : holds (msrs r) pts -> functional pts ->
  turnaround parse_i32 r = None -> corrections_applied r = true ->
  (exists tr e t v, In (tr, e, t, v) pts /\ is_freq t = false) ->
  exists ms, finish parse_f64 parse_i32 usort r =
      Ok {| measurements := ms; moduli := imported_moduli parse_f64 (meta r); force_reject := false |} /\
    StronglySorted before ms /\
    Forall (fun m => well_formed m /\ rejected m = false /\ obs m <> []) ms /\
    forall tr e t v, has_point ms tr e t v <-> In (tr, e, t, v) pts /\ is_freq t = false.
Proof.
  intros [H1 H2] U T C (tr0 & e0 & t0 & v0 & P0 & Q0). unfold finish.
  rewrite T, C, process_plain. cbn [bind].
  set (kept := filter _ (map drop_freqs (rev (msrs r)))).
  assert (K : forall m', In m' kept <-> exists m, In m (msrs r) /\ m' = drop_freqs m /\ obs m' <> []).
  { intros m'. unfold kept. rewrite filter_In, in_map_iff. split.
    - intros [(m & E & I) N]. exists m. split; [now apply in_rev|]. split; [now symmetry|].
      destruct (obs m'); [discriminate|discriminate].
    - intros (m & I & E & N). split; [exists m; split; [now symmetry|now apply -> in_rev]|].
      now destruct (obs m'). }
  rewrite Forall_forall in H1.
  assert (P : forall tr e t v, has_point kept tr e t v <-> In (tr, e, t, v) pts /\ is_freq t = false).
  { intros tr e t v. rewrite <- H2. split.
    - intros (m' & I & A & B & G). apply K in I. destruct I as (m & I & -> & N).
      destruct (drop_freqs_spec m (proj1 (H1 m I))) as (_ & [S1 S2] & _ & D).
      rewrite D in G. destruct (is_freq t) eqn:F; [discriminate|]. split; [|reflexivity].
      exists m. repeat split; auto; congruence.
    - intros [(m & I & A & B & G) F].
      destruct (drop_freqs_spec m (proj1 (H1 m I))) as (_ & [S1 S2] & _ & D).
      assert (X : get t (obs (drop_freqs m)) = Some v) by (rewrite D, F; exact G).
      exists (drop_freqs m). split; [|repeat split; auto; congruence].
      apply K. exists m. repeat split; auto. exact (obs_of_get _ _ _ X). }
  destruct (sorted_points kept) as (S1 & S2 & S3).
  { apply Forall_forall. intros m' I. apply K in I. destruct I as (m & I & -> & N).
    destruct (H1 m I) as (W & R & _). destruct (drop_freqs_spec m W) as (W' & _ & R' & _).
    repeat split; [exact W'|congruence|exact N]. }
  { intros tr e t v v' A B. apply P in A. apply P in B. apply (U tr e t); tauto. }
  exists (sort_measurements usort kept).
  assert (NE : unique_types (sort_measurements usort kept) <> []).
  { assert (has_point (sort_measurements usort kept) tr0 e0 t0 v0) as (m & I & _ & _ & G)
      by (apply S3, P; auto).
    assert (J : In t0 (unique_types (sort_measurements usort kept))).
    { apply unique_types_in. exists m. split; [exact I|].
      destruct (in_dec msr_type_eq_dec t0 (map fst (obs m))) as [J|J]; [exact J|].
      apply get_none in J. unfold get in G. congruence. }
    intros Z. rewrite Z in J. exact J. }
  destruct (unique_types (sort_measurements usort kept)) as [|u us]; [congruence|].
  split; [reflexivity|]. split; [exact S1|]. split; [exact S2|].
  intros tr e t v. rewrite S3. apply P.
Qed.
End Finish.
