(** C21: the units of the ranges are not read; a program for which the theorems of C21 hold. *)
From Coq Require Import Reals String Ascii Lra.
From Coq Require Decimal DecimalString DecimalZ DecimalPos.
From Verif Require Import Base RustStd Arc_Model Arc_Spec Arc_Proofs Arc_Props
  Tdm_Model Tdm_Text Tdm_Proofs Tdm_Finish Tdm_Props Tdm_Cases.
Local Open Scope string_scope.

Section Units.
Context {scale : Type} (UTC : scale) (scale_of_str : string -> option scale).
Context (parse_epoch : string -> scale -> option Z).
Context (parse_f64 : string -> option R) (parse_i32 : string -> option Z).
Context (usort : list measurement -> list measurement) (al : aliases).

Notation from_tdm := (Tdm_Model.from_tdm UTC scale_of_str parse_epoch parse_f64 parse_i32 usort).
Notation read_line := (Tdm_Model.read_line scale_of_str parse_epoch parse_f64 al).
Notation read_lines := (Tdm_Model.read_lines scale_of_str parse_epoch parse_f64 al).

(** Equal but for what is remembered of the units. *)
Definition but_units (r r' : @reader scale) : Prop :=
  in_data r = in_data r' /\ current r = current r' /\ time_system r = time_system r' /\
  has_freq r = has_freq r' /\ divider r = divider r' /\ msrs r = msrs r' /\
  forall k, k <> "RANGE_UNITS" -> im_get String.eqb k (meta r) = im_get String.eqb k (meta r').

Definition same_outcome (x y : res tdm_err (@reader scale)) : Prop :=
  match x, y with
  | Ok r, Ok r' => but_units r r'
  | Err e, Err e' => e = e'
  | Panic, Panic => True
  | NoFuel, NoFuel => True
  | _, _ => False
  end.

Lemma but_units_line r r' s : but_units r r' -> same_outcome (read_line r s) (read_line r' s).
Proof.
  intros (A1 & A2 & A3 & A4 & A5 & A6 & A7). unfold Tdm_Model.read_line.
  set (line := trim s).
  destruct (String.eqb line "DATA_START"); [repeat split; auto|].
  set (q := if String.eqb line "DATA_STOP" then set_in_data r false else r).
  set (q' := if String.eqb line "DATA_STOP" then set_in_data r' false else r').
  assert (Q : but_units q q').
  { unfold q, q'. destruct (String.eqb line "DATA_STOP"); repeat split; auto. }
  clearbody q q'. clear A1 A2 A3 A4 A5 A6 A7. destruct Q as (A1 & A2 & A3 & A4 & A5 & A6 & A7).
  rewrite A1. destruct (in_data q') eqn:D; cbn [negb].
  - rewrite A3. destruct (parse_line parse_epoch parse_f64 line (time_system q')) as [p|e| |];
      cbn [bind]; try exact I; try reflexivity.
    destruct p as [[[t e] v]|]; [|repeat split; auto; now rewrite D].
    rewrite A2, A4, A5, A6. repeat split; auto.
  - assert (J : forall x x', but_units x x' ->
        same_outcome (Ok (insert_meta x line)) (Ok (insert_meta x' line))).
    { intros x x' (B1 & B2 & B3 & B4 & B5 & B6 & B7). unfold insert_meta.
      destruct (split EQS line) as [|k [|v ps]]; [repeat split; auto..|].
      repeat split; auto. intros n N. cbn [meta]. rewrite !smap_get_insert.
      destruct (String.eqb n (trim k)); auto. }
    unfold read_meta. assert (A0 : in_data q = in_data q') by congruence.
    destruct (prefix "PARTICIPANT_1" line).
    { cbn [bind]. apply J. repeat split; auto. }
    destruct (prefix "TIME_SYSTEM" line).
    { destruct (scale_of_str _); cbn [bind]; [|reflexivity]. apply J. repeat split; auto. }
    destruct (prefix "PATH" line).
    { destruct (length (split COMMA line)) as [|[|[|[|n]]]]; cbn [bind]; try reflexivity;
        apply J; repeat split; auto. }
    cbn [bind]. apply J. repeat split; auto.
Qed.

Lemma but_units_lines l : forall r r', but_units r r' ->
  same_outcome (read_lines r l) (read_lines r' l).
Proof.
  induction l as [|s l IH]; intros r r' H; [exact H|]. cbn [Tdm_Model.read_lines].
  pose proof (but_units_line r r' s H) as K.
  destruct (read_line r s) as [x| | |], (read_line r' s) as [x'| | |]; cbn [same_outcome bind] in *;
    try contradiction; auto.
Qed.

Lemma but_units_finish r r' : but_units r r' ->
  finish parse_f64 parse_i32 usort r = finish parse_f64 parse_i32 usort r'.
Proof.
  intros (A1 & A2 & A3 & A4 & A5 & A6 & A7). unfold finish.
  assert (T : turnaround parse_i32 r = turnaround parse_i32 r').
  { unfold turnaround. rewrite A4. rewrite !A7 by discriminate. reflexivity. }
  assert (C : corrections_applied r = corrections_applied r').
  { unfold corrections_applied. rewrite A7 by discriminate. reflexivity. }
  assert (M : imported_moduli parse_f64 (meta r) = imported_moduli parse_f64 (meta r')).
  { unfold imported_moduli. rewrite A7 by discriminate. reflexivity. }
  assert (P : forall corr q c l, process parse_f64 corr (meta r) q c l = process parse_f64 corr (meta r') q c l).
  { intros corr q c l. revert c. induction l as [|m l IH]; intros c; [reflexivity|].
    cbn [process].
    assert (X : apply_corrections parse_f64 (meta r) m = apply_corrections parse_f64 (meta r') m).
    { unfold apply_corrections. cbn [fold_left]. rewrite !A7 by discriminate. reflexivity. }
    rewrite X. destruct q as [q|]; [|now rewrite IH].
    destruct (convert_freq q c _) as [[c' m']| | |]; cbn [bind]; try reflexivity. now rewrite IH. }
  now rewrite T, C, A6, P, M.
Qed.

(** The same file, with other units. *)
Definition with_units (above below : list string) (units : string) : string :=
  concat_all (map ln (above ++ ("RANGE_UNITS = " ++ units)%string :: below)%list).

(** ** The arc does not depend on the units written in the file: a range in seconds or in range
    units is taken for kilometers. *)
Theorem C21_units_ignored :
  forall above below units units',
    Forall (without LF) above -> Forall (without LF) below ->
    without LF units -> without LF units' -> without EQS units -> without EQS units' ->
    from_tdm al (with_units above below units) = from_tdm al (with_units above below units').
Proof.
  intros above below u u' A B L L' E E'.
  assert (X : forall u, without LF u -> lines (with_units above below u) =
      map drop_cr (above ++ ("RANGE_UNITS = " ++ u)%string :: below)%list).
  { intros w W. apply lines_of. apply Forall_app. split; [exact A|]. constructor; [|exact B].
    apply without_app. split; [wo|exact W]. }
  unfold Tdm_Model.from_tdm. rewrite !X by assumption. rewrite !read_lines_cr.
  assert (Y : same_outcome (read_lines (start_reader UTC) (above ++ ("RANGE_UNITS = " ++ u)%string :: below)%list)
      (read_lines (start_reader UTC) (above ++ ("RANGE_UNITS = " ++ u')%string :: below)%list)).
  { clear X. generalize (start_reader UTC). induction above as [|s above IH]; intros r.
    - cbn [List.app Tdm_Model.read_lines].
      assert (Z : same_outcome (read_line r ("RANGE_UNITS = " ++ u)) (read_line r ("RANGE_UNITS = " ++ u'))).
      { change ("RANGE_UNITS = " ++ u) with ("RANGE_UNITS" ++ " = " ++ u).
        change ("RANGE_UNITS = " ++ u') with ("RANGE_UNITS" ++ " = " ++ u').
        assert (Q : quiet_key "RANGE_UNITS").
        { split; [discriminate|]. split; [split; [wo|split; [wo|reflexivity]]|]. repeat split. }
        destruct (in_data r) eqn:D.
        - assert (K : forall w, without EQS w -> read_line r ("RANGE_UNITS" ++ " = " ++ w) = Err (BadKeyword "RANGE_UNITS")).
          { intros w W. destruct Q as (Q1 & Q2 & _). destruct (key_line "RANGE_UNITS" w Q1 Q2) as (T & S & _).
            unfold Tdm_Model.read_line. rewrite T. rewrite not_mark by wo. rewrite not_mark by wo.
            rewrite D. cbn [negb]. unfold parse_line. rewrite <- T, S.
            rewrite split_whole; [reflexivity|]. apply without_trim_end. apply without_cons.
            split; [discriminate|exact W]. }
          rewrite (K u E), (K u' E'). reflexivity.
        - rewrite !quiet_line by assumption. cbn [same_outcome].
          repeat split; auto. intros k N. cbn [set_meta meta]. rewrite !smap_get_insert.
          destruct (String.eqb_spec k "RANGE_UNITS"); [contradiction|reflexivity]. }
      destruct (read_line r ("RANGE_UNITS = " ++ u)) as [x| | |],
        (read_line r ("RANGE_UNITS = " ++ u')) as [x'| | |]; cbn [same_outcome bind] in *;
        try contradiction; auto. now apply but_units_lines.
    - cbn [List.app Tdm_Model.read_lines]. inversion A as [|? ? A1 A2]; subst.
      destruct (read_line r s) as [x| | |]; cbn [bind]; [|reflexivity|exact I..]. now apply IH. }
  destruct (read_lines (start_reader UTC) (above ++ ("RANGE_UNITS = " ++ u)%string :: below)%list)
    as [x| | |], (read_lines (start_reader UTC) (above ++ ("RANGE_UNITS = " ++ u')%string :: below)%list)
    as [x'| | |]; cbn [same_outcome bind] in *; try contradiction; try reflexivity.
  - now apply but_units_finish.
  - congruence.
Qed.
End Units.
Print Assumptions C21_units_ignored.

(** * Dates and numbers written in decimal *)
Definition digits (z : Z) : string := DecimalString.NilZero.string_of_int (Z.to_int z).
Definition of_digits (s : string) : option Z :=
  match DecimalString.NilZero.int_of_string s with Some d => Some (Z.of_int d) | None => None end.

Lemma to_int_nonnil z : Z.to_int z <> Decimal.Pos Decimal.Nil /\ Z.to_int z <> Decimal.Neg Decimal.Nil.
Proof.
  destruct z as [|p|p]; cbn [Z.to_int]; split; try discriminate; intros H;
    apply (DecimalPos.Unsigned.to_uint_nonnil p); congruence.
Qed.
Lemma of_digits_digits z : of_digits (digits z) = Some z.
Proof.
  unfold of_digits, digits. rewrite DecimalString.NilZero.isi; [|apply to_int_nonnil..].
  now rewrite DecimalZ.of_to.
Qed.
Lemma uint_word c d : occurs c (DecimalString.NilEmpty.string_of_uint d) ->
  (48 <= nat_of_ascii c <= 57)%nat.
Proof.
  induction d; cbn; [intros []|..]; (intros [<-|H]; [vm_compute; lia|auto]).
Qed.
Lemma digits_word z : word (digits z).
Proof.
  destruct (to_int_nonnil z) as [N1 N2].
  assert (O : forall c, occurs c (digits z) -> (48 <= nat_of_ascii c <= 57)%nat \/ c = "-"%char).
  { unfold digits. destruct (Z.to_int z) as [u|u]; cbn [DecimalString.NilZero.string_of_int].
    - intros c H. left. apply (uint_word c u). destruct u; [congruence|exact H..].
    - intros c [<-|H]; [now right|]. left. apply (uint_word c u). destruct u; [congruence|exact H..]. }
  split; [|split].
  - unfold digits. destruct (Z.to_int z) as [[]|[]]; cbn; try discriminate; congruence.
  - intros H. destruct (O _ H) as [H1|H1]; [vm_compute in H1; lia|discriminate].
  - intros c W H. unfold is_ws in W. destruct (O _ H) as [H1|H1].
    + apply orb_true_iff in W. destruct W as [W|W]; [apply Nat.eqb_eq in W; lia|].
      apply andb_true_iff in W. destruct W as [W1 W2]. apply Nat.leb_le in W1, W2. lia.
    + subst c. discriminate.
Qed.

(** Numbers are written as multiples of 1e-12. *)
Definition fmt12 (x : R) : string := digits (up (x * 1000000000000 - / 2)).
Definition parse12 (s : string) : option R :=
  match of_digits s with Some z => Some (IZR z / 1000000000000)%R | None => None end.
Definition double12 (x : R) : Prop := exists z, x = (IZR z / 1000000000000)%R.

Lemma decimal_formats : formats tt (fun s => if String.eqb s "UTC" then Some tt else None)
  (fun _ => digits) (fun s _ => of_digits s) fmt12 fmt12 parse12 double12.
Proof.
  split; [reflexivity|]. split; [|split; [|split]].
  - intros e. split; [apply digits_word|apply of_digits_digits].
  - intros x. split; [apply digits_word|]. unfold parse12, fmt12. rewrite of_digits_digits.
    eexists. split; [reflexivity|].
    destruct (archimed (x * 1000000000000 - / 2)) as [A1 A2].
    set (z := IZR (up (x * 1000000000000 - / 2))) in *. clearbody z.
    replace (z / 1000000000000 - x)%R with ((z - x * 1000000000000) * / 1000000000000)%R by field.
    rewrite Rabs_mult, (Rabs_right (/ 1000000000000)) by lra.
    assert (Rabs (z - x * 1000000000000) <= 1)%R by (apply Rabs_le; lra). lra.
  - intros x. apply digits_word.
  - intros x (z & ->). unfold parse12, fmt12. rewrite of_digits_digits. do 2 f_equal.
    replace (IZR z / 1000000000000 * 1000000000000)%R with (IZR z) by field. f_equal. symmetry.
    apply tech_up; lra.
Qed.

(** Two stations, simultaneous observables, a modulus and an alias. *)
Definition two_stations : arc :=
  {| measurements :=
       [{| tracker := "DSS-34"; epoch := 0; obs := [(Range, 1); (Azimuth, 2)]%R; rejected := false |};
        {| tracker := "DSS-65"; epoch := 0; obs := [(Doppler, 3)]%R; rejected := false |};
        {| tracker := "DSS-34"; epoch := 60; obs := [(Elevation, 4); (Doppler, 5)]%R; rejected := false |}];
     moduli := Some [(Range, 1000)]%R; force_reject := false |}.
Definition to_alias : aliases := Some [("DSS-34", "Canberra")].
Definition from_alias : aliases := Some [("Canberra", "DSS-34")].

Example C21_example :
  harmless "nyx-space" "2024" "LRO" plain_cfg /\ whole_arc plain_cfg /\
  measurements two_stations <> [] /\ StronglySorted before (measurements two_stations) /\
  Forall (fun m => well_formed m /\ obs m <> []) (measurements two_stations) /\
  named to_alias from_alias (measurements two_stations) /\
  plain_types (measurements two_stations) /\ consistent (measurements two_stations) /\
  range_modulus two_stations = Some 1000%R /\ double12 1000.
Proof.
  assert (S : StronglySorted before (measurements two_stations)).
  { repeat constructor; unfold before; cbn; try (right; split; reflexivity); left; lia. }
  split. { split; [wo|]. split; [wo|]. split; [wo|]. split; [wo|]. intros k v []. }
  split; [now split|]. split; [discriminate|]. split; [exact S|]. split; [|split; [|split; [|split; [|split]]]].
  - repeat constructor; cbn; try discriminate; intuition discriminate.
  - intros m [<-|[<-|[<-|[]]]]; (split; [split; [wo|split; [wo|reflexivity]]|reflexivity]).
  - intros m t v [<-|[<-|[<-|[]]]] G; destruct t; try discriminate; cbn; tauto.
  - intros m m' t v v' I J K G G'.
    assert (m = m') by (now apply (sorted_one (measurements two_stations))). subst m'. congruence.
  - reflexivity.
  - exists 1000000000000000%Z. field.
Qed.

(** Atomic clocks are ahead of UTC: the condition of [C21_time_scale_refuted]. *)
Example C21_time_scale_example : exists fmt_epoch : bool -> Z -> string,
  formats true (fun s => if String.eqb s "UTC" then Some true else None)
    fmt_epoch (fun s _ => of_digits s) fmt12 fmt12 parse12 double12 /\
  forall e, word (fmt_epoch false e) /\ of_digits (fmt_epoch false e) = Some (e + 37000000000)%Z.
Proof.
  exists (fun (b : bool) (e : Z) => digits (if b then e else e + 37000000000)%Z). split.
  - destruct decimal_formats as (_ & A & B). split; [reflexivity|]. split; [exact A|exact B].
  - intros e. split; [apply digits_word|apply of_digits_digits].
Qed.
