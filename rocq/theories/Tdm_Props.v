(** C21: exporting a tracking arc to a TDM file and importing it. *)
From Coq Require Import Reals String Ascii Lra.
From Coq Require Decimal DecimalString DecimalZ DecimalPos.
From Verif Require Import Base RustStd Arc_Model Arc_Spec Arc_Proofs Arc_Props
  Tdm_Model Tdm_Text Tdm_Proofs Tdm_Finish.
Local Open Scope string_scope.

(** * What is asked of hifitime and of the Rust library *)
(** Calendar dates in UTC and numbers are written as words and read back: dates exactly,
    numbers with twelve decimals to within that precision, numbers in the scientific notation
    exactly if they are doubles. *)
Definition formats {scale : Type} (UTC : scale) (scale_of_str : string -> option scale)
    (fmt_epoch : scale -> Z -> string) (parse_epoch : string -> scale -> option Z)
    (fmt_fixed fmt_exp : R -> string) (parse_f64 : string -> option R) (double : R -> Prop) : Prop :=
  scale_of_str "UTC" = Some UTC /\
  (forall e, word (fmt_epoch UTC e) /\ parse_epoch (fmt_epoch UTC e) UTC = Some e) /\
  (forall x, word (fmt_fixed x) /\
     exists y, parse_f64 (fmt_fixed x) = Some y /\ (Rabs (y - x) <= / 1000000000000)%R) /\
  (forall x, word (fmt_exp x)) /\
  (forall x, double x -> parse_f64 (fmt_exp x) = Some x).

(** * What is asked of the arc and of the export settings *)
(** One line texts and keywords that do not take part in the reading of the data. *)
Definition harmless (version now spacecraft : string) (cfg : export_cfg) : Prop :=
  without LF version /\ without EQS version /\ without LF now /\ without LF spacecraft /\
  (forall k v, In (k, v) (metadata cfg) -> quiet_key k /\ without LF v /\
     k <> "RANGE_MODULUS" /\ k <> "CORRECTIONS_APPLIED").

(** Each tracker has a plain name in the file, which is mapped back to the tracker. *)
Definition named (out al : aliases) (l : list measurement) : Prop :=
  forall m, In m l -> plain_name (alias out (tracker m)) /\
    alias al (alias out (tracker m)) = tracker m.

(** Only these observables. *)
Definition plain_types (l : list measurement) : Prop :=
  forall m t v, In m l -> get t (obs m) = Some v -> In t [Range; Doppler; Azimuth; Elevation].

(** No two values for the same observable of a tracker at an epoch. *)
Definition consistent (l : list measurement) : Prop :=
  forall m m' t v v', In m l -> In m' l -> same m m' ->
    get t (obs m) = Some v -> get t (obs m') = Some v' -> v = v'.

(** The epochs that the export keeps. *)
Definition chosen (cfg : export_cfg) (e : Z) : Prop :=
  (match start_epoch cfg with Some s => (s <= e)%Z | None => True end) /\
  (match end_epoch cfg with Some s => (e < s)%Z | None => True end).

(** A value written once or, doubled, for the way there and back. *)
Definition near_value (t : msr_type) (v v' : R) : Prop :=
  (Rabs (v' - v) <= match t with Range | Doppler => / 2000000000000 | _ => / 1000000000000 end)%R.

Lemma select_spec cfg l m : time_ordered l ->
  (In m (select cfg l) <-> In m l /\ chosen cfg (epoch m)).
Proof.
  intros T. unfold select, chosen. destruct (start_epoch cfg) as [s|], (end_epoch cfg) as [x|].
  - destruct (C18_epoch_filters (Included s, Excluded x) l T) as (p & P & -> & _).
    rewrite filter_In, P. reflexivity.
  - destruct (C18_epoch_filters (Included s, Unbounded) l T) as (p & P & -> & _).
    rewrite filter_In, P. reflexivity.
  - destruct (C18_epoch_filters (Unbounded, Excluded x) l T) as (p & P & -> & _).
    rewrite filter_In, P. reflexivity.
  - tauto.
Qed.

Section Props.
Context {scale : Type} (UTC : scale) (scale_of_str : string -> option scale).
Context (fmt_epoch : scale -> Z -> string) (parse_epoch : string -> scale -> option Z).
Context (fmt_fixed fmt_exp : R -> string) (parse_f64 : string -> option R)
        (parse_i32 : string -> option Z) (double : R -> Prop).
Context (usort : list measurement -> list measurement).

Notation to_tdm := (Tdm_Model.to_tdm fmt_epoch fmt_fixed fmt_exp).
Notation from_tdm := (Tdm_Model.from_tdm UTC scale_of_str parse_epoch parse_f64 parse_i32 usort).
Notation formats := (formats UTC scale_of_str fmt_epoch parse_epoch fmt_fixed fmt_exp parse_f64 double).

Definition rd (x : R) : R := match parse_f64 (fmt_fixed x) with Some y => y | None => 0%R end.

Lemma near_read t v : formats -> near_value t v (value_read rd (factor t) v).
Proof.
  intros (_ & _ & F & _). unfold near_value, value_read, factor, rd.
  destruct (F (v * (if may_be_two_way t then 2 else 1))%R) as (_ & y & -> & Y).
  destruct t; cbn [may_be_two_way] in *;
    [replace (y / 2 - v)%R with ((y - v * 2) / 2)%R by lra; unfold Rdiv;
     rewrite Rabs_mult, (Rabs_right (/ 2)) by lra; lra
    |replace (y / 2 - v)%R with ((y - v * 2) / 2)%R by lra; unfold Rdiv;
     rewrite Rabs_mult, (Rabs_right (/ 2)) by lra; lra
    |replace (y / 1 - v)%R with (y - v * 1)%R by lra; exact Y..].
Qed.

Lemma harmless_md version now spacecraft cfg : harmless version now spacecraft cfg ->
  (without LF version /\ without EQS version) /\ without LF now /\ without LF spacecraft /\
  (forall kv, In kv (metadata cfg) -> quiet_key (fst kv) /\ without LF (snd kv)) /\
  ~ In "RANGE_MODULUS" (map fst (metadata cfg)) /\
  ~ In "CORRECTIONS_APPLIED" (map fst (metadata cfg)).
Proof.
  intros (A & B & C & D & E). split; [now split|]. split; [exact C|]. split; [exact D|].
  split; [intros [k v] H; destruct (E k v H) as (X & Y & _); now split|].
  split; intros H; apply in_map_iff in H; destruct H as ([k v] & H1 & H2);
    destruct (E k v H2) as (_ & _ & X & Y); cbn [fst] in H1; congruence.
Qed.

Lemma in_get (l : list measurement) m t v : Forall well_formed l -> In m l ->
  (In (t, v) (obs m) <-> get t (obs m) = Some v).
Proof. intros W I. rewrite Forall_forall in W. symmetry. now apply get_in, W. Qed.

Definition range_modulus (a : arc) : option R :=
  match moduli a with Some ms => get Range ms | None => None end.

(** Reading back the file: any arc that is written and not refused, with its frequencies
    dropped. *)
Lemma round_trip (stored : scale) (read : Z -> Z) out al version now spacecraft cfg (a : arc) :
  formats -> sorts usort -> harmless version now spacecraft cfg ->
  (forall e, word (fmt_epoch stored e) /\ parse_epoch (fmt_epoch stored e) UTC = Some (read e)) ->
  (forall e e', read e = read e' -> e = e') ->
  time_ordered (measurements a) -> Forall well_formed (measurements a) ->
  named out al (measurements a) -> consistent (measurements a) ->
  (forall m t v, In m (measurements a) -> get t (obs m) = Some v -> recognized t) ->
  ~ In "TURNAROUND_NUMERATOR" (map fst (metadata cfg)) \/
    (forall m t v, In m (measurements a) -> get t (obs m) = Some v -> is_freq t = false) ->
  (exists m t v, In m (measurements a) /\ chosen cfg (epoch m) /\ get t (obs m) = Some v /\
     is_freq t = false) ->
  exists f ms mo, to_tdm version now stored spacecraft out cfg a = Ok f /\
    from_tdm al f = Ok {| measurements := ms; moduli := mo; force_reject := false |} /\
    StronglySorted before ms /\
    Forall (fun m => well_formed m /\ rejected m = false /\ obs m <> []) ms /\
    (forall tr e t v, has_point ms tr e t v <->
       is_freq t = false /\
       exists m x, In m (measurements a) /\ chosen cfg (epoch m) /\ tr = tracker m /\
         e = read (epoch m) /\ get t (obs m) = Some x /\ v = value_read rd (factor t) x) /\
    mo = match range_modulus a with
         | Some x =>
             if existsb range_point
                  (flat_map (tracker_points read rd al out (select cfg (measurements a)))
                     (unique_trackers (select cfg (measurements a))))
             then match parse_f64 (fmt_exp x) with
                  | Some y => if Rlt_dec 0 y then Some [(Range, y)] else None
                  | None => None
                  end
             else None
         | None => None
         end.
Proof.
  intros F S H E RI T W N C Q TA (m0 & t0 & v0 & P1 & P2 & P3 & P4).
  destruct (harmless_md _ _ _ _ H) as (H1 & H2 & H3 & H4 & H5 & H6).
  destruct F as (F1 & F2 & F3 & F4 & F5).
  assert (NE : measurements a <> []) by (intros Z; rewrite Z in P1; destruct P1).
  assert (FR : forall x, parse_f64 (fmt_fixed x) = Some (rd x)).
  { intros x. unfold rd. destruct (F3 x) as (_ & y & -> & _). reflexivity. }
  destruct (file_reads UTC scale_of_str fmt_epoch parse_epoch fmt_fixed fmt_exp parse_f64
              F1 stored read rd (fun e => proj1 (E e)) (fun e => proj2 (E e))
              (fun x => proj1 (F3 x)) FR F4 al out version now spacecraft cfg a H1 H2 H3 H4
              (fun m I => proj1 (N m I))) as (f & r & Ef & Er & Fo).
  { apply Forall_forall. intros m I. apply Forall_forall. intros t J. apply in_map_iff in J.
    destruct J as ([t' v] & <- & J). cbn [fst]. apply (Q m t' v I). now apply (in_get _ m t' v W I). }
  { exact NE. }
  set (pts := flat_map (tracker_points read rd al out (select cfg (measurements a)))
                (unique_trackers (select cfg (measurements a)))) in *.
  assert (PT : forall tr e t v, In (tr, e, t, v) pts <->
     exists m x, In m (measurements a) /\ chosen cfg (epoch m) /\ tr = tracker m /\
         e = read (epoch m) /\ get t (obs m) = Some x /\ v = value_read rd (factor t) x).
  { intros tr e t v. unfold pts. rewrite points_in. split.
    - intros (m & x & A & B & D & G & K). apply (select_spec cfg _ m T) in A. destruct A as [A1 A2].
      exists m, x. rewrite (proj2 (N m A1)) in B. apply (in_get _ m t x W A1) in D. tauto.
    - intros (m & x & A1 & A2 & B & G & D & K). exists m, x. rewrite (proj2 (N m A1)).
      apply (in_get _ m t x W A1) in D. repeat split; auto. now apply select_spec. }
  assert (FU : functional pts).
  { intros tr e t v v' A B. apply PT in A. apply PT in B.
    destruct A as (m & x & A1 & _ & A2 & A3 & A4 & ->).
    destruct B as (m' & x' & B1 & _ & B2 & B3 & B4 & ->). f_equal.
    apply (C m m' t); auto. split; [apply RI|]; congruence. }
  destruct Fo as (_ & Fq & Fm & Fg).
  assert (Ho : holds (msrs r) pts).
  { rewrite Fm. apply (holds_push_all pts [] []); [exact FU|apply holds_nil]. }
  assert (TN : turnaround parse_i32 r = None).
  { unfold turnaround. destruct TA as [TA|TA].
    - rewrite (Fg "TURNAROUND_NUMERATOR") by (exact TA || (cbn; tauto)).
      destruct (modulus (moduli a)); cbn; now destruct (has_freq r).
    - rewrite Fq. cbn [start_reader has_freq orb].
      assert (Z : existsb freq_point pts = false).
      { destruct (existsb freq_point pts) eqn:Z; [|reflexivity]. apply existsb_exists in Z.
        destruct Z as ([[[tr e] t] v] & A & B). apply PT in A.
        destruct A as (m & x & A1 & _ & _ & _ & A4 & _). unfold freq_point in B. cbn [fst snd] in B.
        rewrite (TA m t x A1 A4) in B. discriminate. }
      now rewrite Z. }
  assert (CA : corrections_applied r = true).
  { unfold corrections_applied. rewrite (Fg "CORRECTIONS_APPLIED") by (exact H6 || (cbn; tauto)).
    now destruct (modulus (moduli a)). }
  destruct (finish_plain parse_f64 parse_i32 usort S r pts Ho FU TN CA) as (ms & Ems & A & B & D).
  { exists (tracker m0), (read (epoch m0)), t0, (value_read rd (factor t0) v0).
    split; [|exact P4]. apply PT. exists m0, v0. tauto. }
  exists f, ms, (imported_moduli parse_f64 (meta r)). split; [exact Ef|]. split.
  { unfold Tdm_Model.from_tdm. rewrite Er. exact Ems. }
  split; [exact A|]. split; [exact B|]. split.
  { intros tr e t v. rewrite D, PT. tauto. }
  unfold imported_moduli. rewrite (Fg "RANGE_MODULUS") by (exact H5 || (cbn; tauto)).
  change (modulus (moduli a)) with (range_modulus a).
  destruct (range_modulus a) as [x|]; [|reflexivity].
  change (String.eqb "RANGE_MODULUS" "RANGE_MODULUS") with true. cbn [andb].
  destruct (existsb range_point pts); reflexivity.
Qed.

(** ** C21.  Range, Doppler, azimuth and elevation come back for the same trackers and epochs
    and within the precision of the file, one measurement per epoch and tracker, in order; the
    range modulus comes back too.  Partial: accepted measurements stored in UTC, trackers with
    plain names; see below for the others. *)
Theorem C21_round_trip_partial :
  forall out al version now spacecraft cfg (a : arc),
    formats -> sorts usort -> harmless version now spacecraft cfg ->
    time_ordered (measurements a) -> Forall well_formed (measurements a) ->
    named out al (measurements a) -> plain_types (measurements a) -> consistent (measurements a) ->
    (exists m t v, In m (measurements a) /\ chosen cfg (epoch m) /\ get t (obs m) = Some v) ->
    exists f a', to_tdm version now UTC spacecraft out cfg a = Ok f /\ from_tdm al f = Ok a' /\
      StronglySorted before (measurements a') /\
      Forall (fun m => well_formed m /\ obs m <> []) (measurements a') /\
      (forall m t v, In m (measurements a) -> chosen cfg (epoch m) -> get t (obs m) = Some v ->
         exists m' v', In m' (measurements a') /\ same m' m /\ get t (obs m') = Some v' /\
           near_value t v v') /\
      (forall m' t v', In m' (measurements a') -> get t (obs m') = Some v' ->
         exists m v, In m (measurements a) /\ chosen cfg (epoch m) /\ same m m' /\
           get t (obs m) = Some v /\ near_value t v v') /\
      (forall x, range_modulus a = Some x -> double x -> (0 < x)%R ->
         (exists m v, In m (measurements a) /\ chosen cfg (epoch m) /\ get Range (obs m) = Some v) ->
         moduli a' = Some [(Range, x)]) /\
      (range_modulus a = None -> moduli a' = None).
Proof.
  intros out al version now spacecraft cfg a F S H T W N Q C (m0 & t0 & v0 & P1 & P2 & P3).
  assert (NF : forall m t v, In m (measurements a) -> get t (obs m) = Some v -> is_freq t = false).
  { intros m t v I G. destruct (Q m t v I G) as [<-|[<-|[<-|[<-|[]]]]]; reflexivity. }
  destruct (round_trip UTC (fun e => e) out al version now spacecraft cfg a F S H)
    as (f & ms & mo & Ef & Ei & A & B & D & M); auto.
  { exact (proj1 (proj2 F)). }
  { intros m t v I G. destruct (Q m t v I G) as [<-|[<-|[<-|[<-|[]]]]]; constructor. }
  { exists m0, t0, v0. split; [exact P1|]. split; [exact P2|]. split; [exact P3|]. exact (NF m0 t0 v0 P1 P3). }
  exists f, {| measurements := ms; moduli := mo; force_reject := false |}.
  split; [exact Ef|]. split; [exact Ei|]. cbn [measurements moduli]. split; [exact A|].
  split. { eapply Forall_impl; [|exact B]. cbv beta. tauto. }
  split; [|split; [|split]].
  - intros m t v I K G.
    assert (X : has_point ms (tracker m) (epoch m) t (value_read rd (factor t) v)).
    { apply D. split; [now apply (NF m t v)|]. exists m, v. tauto. }
    destruct X as (m' & I' & X1 & X2 & X3). exists m', (value_read rd (factor t) v).
    split; [exact I'|]. split; [split; congruence|]. split; [exact X3|]. now apply near_read.
  - intros m' t v' I G. destruct (proj1 (D (tracker m') (epoch m') t v')) as (_ & m & x & X1 & X2 & X3 & X4 & X5 & ->).
    { exists m'. auto. }
    exists m, x. split; [exact X1|]. split; [exact X2|]. split; [split; congruence|].
    split; [exact X5|]. now apply near_read.
  - intros x Rm Dx Px (m & v & I & K & G). rewrite M, Rm.
    assert (X : existsb range_point (flat_map (tracker_points (fun e => e) rd al out
              (select cfg (measurements a))) (unique_trackers (select cfg (measurements a)))) = true).
    { apply existsb_exists.
      exists (tracker m, epoch m, Range, value_read rd (factor Range) v). split; [|reflexivity].
      apply points_in. exists m, v. split; [now apply select_spec|].
      split; [symmetry; apply (N m I)|]. split; [now apply (in_get _ m Range v W I)|]. auto. }
    rewrite X. destruct F as (_ & _ & _ & _ & F5). rewrite (F5 x Dx).
    destruct (Rlt_dec 0 x); [reflexivity|contradiction].
  - intros Rm. now rewrite M, Rm.
Qed.
End Props.
Print Assumptions C21_round_trip_partial.
