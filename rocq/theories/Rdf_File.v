(** What the file of differences between two trajectories holds (C103). *)
From Coq Require Import Reals String Lra.
From Verif Require Import Base RustStd Vec3 Angles Util_Model Sc_Model Traj_Model Pq_Model Tpq_Model Rdf_Model Rdf_Props.
From Verif Require Import Vec3.
Local Open Scope string_scope.
Local Open Scope R_scope.

(** ** The states sampled *)

Lemma iterate_nth {S F} (o : state_ops S F) l : forall fuel ts items i x,
  iterate_traj o fuel l ts = Ok items -> nth_error items i = Some x ->
  let e := (ts_start ts + (ts_cur ts + Z.of_nat i) * ts_step ts)%Z in
  at_epoch o l e = Ok x /\ (ts_incl ts = true -> (e <= ts_start ts + ts_duration ts)%Z).
Proof.
  induction fuel as [|fuel IH]; intros ts items i x H N; cbn [iterate_traj] in H; [discriminate|].
  unfold ts_next in H.
  destruct (if ts_incl ts then (ts_duration ts <? ts_cur ts * ts_step ts)%Z
            else (ts_duration ts <=? ts_cur ts * ts_step ts)%Z) eqn:D.
  { assert (items = []) as -> by congruence. destruct i; discriminate. }
  destruct (at_epoch o l (ts_start ts + ts_cur ts * ts_step ts)) as [s|y| |] eqn:A; try discriminate.
  - destruct (iterate_traj o fuel l _) as [r|y| |] eqn:R in H; cbn [bind] in H; try discriminate.
    assert (items = s :: r) as -> by congruence.
    destruct i as [|i]; cbn [nth_error] in N.
    + assert (x = s) as -> by congruence. cbv zeta.
      replace (ts_cur ts + Z.of_nat 0)%Z with (ts_cur ts) by lia. split; [exact A|].
      intros I. rewrite I in D. apply Z.ltb_ge in D. lia.
    + destruct (IH _ _ _ _ R N) as [P Q]. cbn [ts_start ts_cur ts_step ts_incl ts_duration] in P, Q.
      cbv zeta. replace (ts_cur ts + Z.of_nat (Datatypes.S i))%Z with (ts_cur ts + 1 + Z.of_nat i)%Z by lia.
      split; assumption.
  - destruct (first l); [|discriminate]. assert (items = []) as -> by congruence. destruct i; discriminate.
Qed.

Lemma traverse_forall2 {E A B} (f : A -> res E B) : forall l out, traverse f l = Ok out ->
  Forall2 (fun a b => f a = Ok b) l out.
Proof.
  induction l as [|a l IH]; intros out H; cbn [traverse] in H.
  - assert (out = []) as -> by congruence. constructor.
  - destruct (f a) as [b|x| |] eqn:F; cbn [bind] in H; try discriminate.
    destruct (traverse f l) as [bs|x| |]; cbn [bind] in H; try discriminate.
    assert (out = b :: bs) as -> by congruence. constructor; [exact F|]. now apply IH.
Qed.

Lemma f2_length {A B} (P : A -> B -> Prop) l l' : Forall2 P l l' -> length l = length l'.
Proof. induction 1; cbn [length]; congruence. Qed.

Lemma forall2_nth {A B} (P : A -> B -> Prop) l l' : Forall2 P l l' ->
  forall i a b, nth_error l i = Some a -> nth_error l' i = Some b -> P a b.
Proof.
  induction 1 as [|x y l l' H F IH]; intros [|i] a b N N'; cbn [nth_error] in *; try discriminate.
  - congruence.
  - now apply (IH i).
Qed.

Lemma combine_nth_error {A B} (l : list A) : forall (l' : list B) i a b,
  nth_error l i = Some a -> nth_error l' i = Some b -> nth_error (combine l l') i = Some (a, b).
Proof.
  induction l as [|x l IH]; intros [|y l'] [|i] a b N N'; cbn [nth_error combine] in *; try discriminate.
  - congruence.
  - now apply IH.
Qed.

Lemma in_combine_nth {A B} (l : list A) (l' : list B) i a b :
  nth_error l i = Some a -> nth_error l' i = Some b -> In (a, b) (combine l l').
Proof. intros N N'. eapply nth_error_In. now apply combine_nth_error with (i := i). Qed.

Section File.
Context (evaluate : element -> orbit -> option R)
        (bplane : orbit -> option (R * R * R)) (dcm_to_inertial : nat -> orbit -> option m3)
        (element_name : element -> string) (frame_name : nat -> string)
        (ric_difference : orbit -> orbit -> option orbit)
        (show : Z -> string) (show_frame : nat -> string) (ops : state_ops spacecraft nat).
Notation value := (value evaluate bplane dcm_to_inertial).
Notation export := (ric_diff_to_parquet evaluate bplane dcm_to_inertial element_name frame_name
                      ric_difference show show_frame ops).
Notation ep := (st_epoch ops).

(** The names of the columns of the differences. *)
Definition diff_names : list string :=
  ["Delta X (RIC) (km)"; "Delta Y (RIC) (km)"; "Delta Z (RIC) (km)";
   "Delta Vx (RIC) (km/s)"; "Delta Vy (RIC) (km/s)"; "Delta Vz (RIC) (km/s)"].

(** A column of the table of that name. *)
Definition holds (t : table) (name : string) (c : column) : Prop :=
  exists f, f_name f = name /\ In (f, c) t.

(** The file has a row for each date from the later of the first dates, every step (a minute
    unless asked otherwise), not after the earlier of the last dates.  A row has the date, the
    smoothed difference in the frame of the other trajectory between the states of both at
    this date (see C103_median for what is smoothed), and for each field asked for, available
    in the first state and not the guidance mode, its value in this trajectory minus its value
    in the other. *)
Theorem C103_rows_partial : forall fuel self other cfg t a b a' b',
  first self = Some a -> last_state self = Some b -> first other = Some a' -> last_state other = Some b' ->
  export fuel self other cfg = Ok t ->
  let start := Z.max (ep a) (ep a') in
  let stop := Z.min (ep b) (ep b') in
  let step := match cfg_step cfg with Some s => s | None => 60000000000%Z end in
  exists mine theirs raw diffs,
    let n := length mine in
    length raw = n /\ num_rows t = n /\
    (forall i s, nth_error mine i = Some s ->
       let e := (start + Z.of_nat i * step)%Z in
       (e <= stop)%Z /\ at_epoch ops self e = Ok s /\
       exists o d, nth_error theirs i = Some o /\ at_epoch ops other e = Ok o /\
         nth_error raw i = Some d /\ ric_difference (sc_orbit s) (sc_orbit o) = Some d) /\
    @smooth diff_error (if (5 <? length theirs)%nat then 5 else 1)%nat raw = Ok diffs /\
    holds t "Epoch (UTC)" (Text (map (fun s => Some (show (ep s))) mine)) /\
    (forall c, (c < 6)%nat ->
       holds t (nth c diff_names "") (Floats (map (fun d => Some (component c d)) diffs))) /\
    forall p, In p (match cfg_fields cfg with Some l => l | None => export_params end) ->
      p <> GuidanceModeP -> (exists x, value a p = Ok x) ->
      exists col, holds t (name element_name frame_name p) (Floats col) /\
        forall i s o, nth_error mine i = Some s -> nth_error theirs i = Some o ->
          exists x y, value s p = Ok x /\ value o p = Ok y /\ nth_error col i = Some (Some (x - y)).
Proof.
  intros fuel self other cfg t a b a' b' Fa La Fa' La' H start stop step.
  unfold ric_diff_to_parquet in H. rewrite Fa, La, Fa', La' in H. cbv zeta in H.
  assert (S1 : (if (ep a' <? ep a)%Z then ep a else ep a') = start).
  { unfold start. destruct (Z.ltb_spec (ep a') (ep a)); lia. }
  assert (S2 : (if (ep b' <? ep b)%Z then ep b' else ep b) = stop).
  { unfold stop. destruct (Z.ltb_spec (ep b') (ep b)); lia. }
  rewrite S1, S2 in H. change (match cfg_step cfg with Some s => s | None => MINUTE end) with step in H.
  unfold sampled in H.
  destruct (every_between ops fuel self step start stop) as [mine|x| |] eqn:M; cbn [bind] in H; try discriminate.
  destruct (every_between ops fuel other step start stop) as [theirs|x| |] eqn:M'; cbn [bind] in H; try discriminate.
  destruct (traverse (one_difference ric_difference) (combine theirs mine)) as [raw|x| |] eqn:D;
    cbn [bind] in H; try discriminate.
  destruct (@smooth diff_error (if (5 <? length theirs)%nat then 5 else 1)%nat raw) as [diffs|x| |] eqn:Sm;
    cbn [bind] in H; try discriminate.
  set (fields := diff_fields evaluate bplane dcm_to_inertial cfg a) in H.
  destruct (traverse (fun f => traverse (one_value evaluate bplane dcm_to_inertial f) (combine theirs mine)) fields)
    as [cols|x| |] eqn:Fs; cbn [bind] in H; try discriminate.
  unfold record_batch in H.
  match type of H with context [negb (length ?h =? length ?c)%nat] =>
    set (hdrs := h) in H; set (columns := c) in H end.
  destruct (Nat.eqb_spec (length hdrs) (length columns)) as [Le|]; [|discriminate]. cbn [negb] in H.
  match type of H with context [if ?c then _ else _] => destruct c eqn:All end; [|discriminate].
  assert (t = combine hdrs columns) as -> by congruence. clear H.
  rewrite forallb_forall in All.
  assert (LD : length diffs = length raw) by exact (proj1 (C103_median _ _ _ _ Sm)).
  assert (DF := traverse_forall2 _ _ _ D).
  assert (LR : length raw = length (combine theirs mine)) by (symmetry; eapply f2_length; exact DF).
  assert (Col : forall k h c, nth_error hdrs k = Some h -> nth_error columns k = Some c ->
    In (h, c) (combine hdrs columns)).
  { intros k h c. apply in_combine_nth. }
  assert (Rows : length raw = length mine).
  { specialize (All (nth 0 ric_headers (plain "" Utf8 false),
      Floats (map (fun o => Some (component 0 o)) diffs))).
    assert (I : In (nth 0 ric_headers (plain "" Utf8 false),
      Floats (map (fun o => Some (component 0 o)) diffs)) (combine hdrs columns)).
    { apply (Col 1%nat); reflexivity. }
    specialize (All I). apply andb_prop in All as [All _]. apply andb_prop in All as [All _].
    apply Nat.eqb_eq in All. cbn [snd rows columns] in All. rewrite !map_length in All. congruence. }
  exists mine, theirs, raw, diffs. cbv zeta.
  split; [exact Rows|]. split; [cbn [hdrs columns combine num_rows rows]; now rewrite map_length|].
  assert (Lt : (length mine <= length theirs)%nat).
  { rewrite LR, combine_length in Rows. lia. }
  split.
  { intros i s N.
    assert (I : (i < length mine)%nat) by (apply nth_error_Some; congruence).
    unfold every_between in M, M'. rewrite Fa, La in M. rewrite Fa', La' in M'.
    replace (Z.max start (ep a)) with start in M by (unfold start; lia).
    replace (Z.min stop (ep b)) with stop in M by (unfold stop; lia).
    replace (Z.max start (ep a')) with start in M' by (unfold start; lia).
    replace (Z.min stop (ep b')) with stop in M' by (unfold stop; lia).
    destruct (iterate_nth _ _ _ _ _ _ _ M N) as [P Q].
    cbn [ts_inclusive ts_start ts_cur ts_step ts_incl ts_duration] in P, Q. rewrite Z.add_0_l in P, Q.
    specialize (Q eq_refl). split; [lia|]. split; [exact P|].
    destruct (nth_error theirs i) as [o|] eqn:No; [|apply nth_error_None in No; lia].
    destruct (iterate_nth _ _ _ _ _ _ _ M' No) as [P' _].
    cbn [ts_inclusive ts_start ts_cur ts_step] in P'. rewrite Z.add_0_l in P'.
    destruct (nth_error raw i) as [d|] eqn:Nd; [|apply nth_error_None in Nd; lia].
    exists o, d. split; [reflexivity|]. split; [exact P'|]. split; [reflexivity|].
    assert (X := forall2_nth _ _ _ DF i (o, s) d (combine_nth_error _ _ _ _ _ No N) Nd).
    cbv beta in X. unfold one_difference in X. cbn [fst snd] in X.
    destruct (ric_difference (sc_orbit s) (sc_orbit o)); congruence. }
  split; [exact Sm|]. split.
  { eexists. split; [|apply (Col 0%nat); reflexivity]. reflexivity. }
  split.
  { intros c C. eexists. split; [|apply (Col (S c)); [|]].
    - instantiate (1 := nth c ric_headers (plain "" Utf8 false)).
      destruct c as [|[|[|[|[|[|c]]]]]]; try lia; reflexivity.
    - destruct c as [|[|[|[|[|[|c]]]]]]; try lia; reflexivity.
    - destruct c as [|[|[|[|[|[|c]]]]]]; try lia; reflexivity. }
  intros p I G (x & V).
  assert (IF : In p fields).
  { unfold fields, diff_fields. apply filter_In. split; [exact I|]. rewrite V. rewrite andb_true_r.
    unfold param_eqb. destruct (parameter_eq_dec p GuidanceModeP); [contradiction|reflexivity]. }
  apply In_nth_error in IF as (k & K).
  assert (FF := traverse_forall2 _ _ _ Fs).
  assert (LF : length cols = length fields) by (symmetry; eapply f2_length; exact FF).
  destruct (nth_error cols k) as [col|] eqn:Kc.
  2:{ apply nth_error_None in Kc. assert (k < length fields)%nat by (apply nth_error_Some; congruence). lia. }
  exists col. split.
  { exists (diff_header element_name frame_name (show_frame (frame (sc_orbit a))) p).
    split; [reflexivity|]. apply (Col (7 + k)%nat).
    - cbn [hdrs ric_headers map app Nat.add nth_error]. now apply map_nth_error.
    - cbn [columns seq map app Nat.add nth_error]. now apply map_nth_error. }
  intros i s o N No.
  assert (CF := traverse_forall2 _ _ _ (forall2_nth _ _ _ FF k p col K Kc)).
  assert (LC : length col = length (combine theirs mine)) by (symmetry; eapply f2_length; exact CF).
  destruct (nth_error col i) as [v|] eqn:Nv.
  2:{ apply nth_error_None in Nv. assert (i < length mine)%nat by (apply nth_error_Some; congruence). lia. }
  assert (X := forall2_nth _ _ _ CF i (o, s) v (combine_nth_error _ _ _ _ _ No N) Nv).
  cbv beta in X. unfold one_value in X. cbn [fst snd] in X.
  destruct (value s p) as [u| | |] eqn:U; try discriminate.
  destruct (value o p) as [w| | |] eqn:W; try discriminate.
  exists u, w. split; [reflexivity|]. split; [reflexivity|]. congruence.
Qed.

End File.

(** ** Concrete trajectories *)

(** A spacecraft on the first axis, and a trajectory of six of them, one a minute. *)
Definition craft_at (minutes : Z) (x : R) : spacecraft :=
  Spacecraft (Orbit (minutes * 60000000000) 0 (V3 x 0 0) vzero) 100 50 0 1 (18/10) 2 (22/10) None Coast None None.
Definition traj6 (x0 x1 x2 x3 x4 x5 : R) : list spacecraft :=
  [craft_at 0 x0; craft_at 1 x1; craft_at 2 x2; craft_at 3 x3; craft_at 4 x4; craft_at 5 x5].
Definition no_elements (e : element) (o : orbit) : option R := None.
Definition no_bplane (o : orbit) : option (R * R * R) := None.
Definition no_rotation (f : nat) (o : orbit) : option m3 := None.
Definition minus (o o' : orbit) : option orbit := Some (along (vx (radius_km o) - vx (radius_km o'))).
Definition demo_export := ric_diff_to_parquet no_elements no_bplane no_rotation (fun _ => "element") (fun _ => "frame")
  minus (fun z => if (z <? 60000000000)%Z then "before one minute" else "later") (fun _ => "frame") sc_ops.
Definition no_fields (start : option Z) : export_cfg :=
  {| cfg_fields := Some []; cfg_start := start; cfg_end := None; cfg_step := None |}.

Lemma sampled6 x0 x1 x2 x3 x4 x5 :
  sampled sc_ops 10 (traj6 x0 x1 x2 x3 x4 x5) 60000000000 0 300000000000 = Ok (traj6 x0 x1 x2 x3 x4 x5).
Proof. unfold traj6, craft_at. generalize (18/10), (22/10). intros. vm_compute. reflexivity. Qed.

(** The exported file of two such trajectories. *)
Lemma export6 x0 x1 x2 x3 x4 x5 y0 y1 y2 y3 y4 y5 start : exists t diffs,
  demo_export 10 (traj6 x0 x1 x2 x3 x4 x5) (traj6 y0 y1 y2 y3 y4 y5) (no_fields start) = Ok t /\
  @smooth diff_error 5 (map along [x0 - y0; x1 - y1; x2 - y2; x3 - y3; x4 - y4; x5 - y5]) = Ok diffs /\
  column_by_name "Epoch (UTC)" t
  = Some (Text [Some "before one minute"; Some "later"; Some "later"; Some "later"; Some "later"; Some "later"]) /\
  column_by_name "Delta X (RIC) (km)" t = Some (Floats (map (fun d => Some (component 0 d)) diffs)).
Proof.
  destruct (smooth_ok (map along [x0 - y0; x1 - y1; x2 - y2; x3 - y3; x4 - y4; x5 - y5])) as [diffs D].
  assert (L := proj1 (C103_median _ _ _ _ D)). change (length (map along _)) with 6%nat in L.
  destruct diffs as [|d0 [|d1 [|d2 [|d3 [|d4 [|d5 [|d6 diffs]]]]]]]; try discriminate L.
  eexists. exists [d0; d1; d2; d3; d4; d5]. split; [|split; [exact D|split]].
  - unfold demo_export, ric_diff_to_parquet.
    change (first (traj6 x0 x1 x2 x3 x4 x5)) with (Some (craft_at 0 x0)).
    change (first (traj6 y0 y1 y2 y3 y4 y5)) with (Some (craft_at 0 y0)).
    change (last_state (traj6 x0 x1 x2 x3 x4 x5)) with (Some (craft_at 5 x5)).
    change (last_state (traj6 y0 y1 y2 y3 y4 y5)) with (Some (craft_at 5 y5)).
    cbv iota zeta.
    change (st_epoch sc_ops (craft_at 0 x0)) with 0%Z. change (st_epoch sc_ops (craft_at 0 y0)) with 0%Z.
    change (st_epoch sc_ops (craft_at 5 x5)) with 300000000000%Z. change (st_epoch sc_ops (craft_at 5 y5)) with 300000000000%Z.
    change (0 <? 0)%Z with false. change (300000000000 <? 300000000000)%Z with false. cbv iota.
    change (match cfg_step (no_fields start) with Some s => s | None => MINUTE end) with 60000000000%Z.
    rewrite !sampled6. cbn [bind].
    change (traverse (one_difference minus) (combine (traj6 y0 y1 y2 y3 y4 y5) (traj6 x0 x1 x2 x3 x4 x5)))
      with (@Ok diff_error _ (map along [x0 - y0; x1 - y1; x2 - y2; x3 - y3; x4 - y4; x5 - y5])).
    cbn [bind]. change (if (5 <? length (traj6 y0 y1 y2 y3 y4 y5))%nat then 5%nat else 1%nat) with 5%nat.
    rewrite D. cbn [bind].
    change (diff_fields no_elements no_bplane no_rotation (no_fields start) (craft_at 0 x0)) with (@nil parameter).
    cbn [bind traverse map]. reflexivity.
  - reflexivity.
  - reflexivity.
Qed.

(** Two trajectories which start at the same point and drift apart by one km a minute: the file
    says that they are one km apart at the start and two a minute later. *)
Theorem C103_drift_refuted : exists self other t,
  first self = first other /\
  demo_export 10 self other (no_fields None) = Ok t /\
  column_by_name "Delta X (RIC) (km)" t
  = Some (Floats [Some 1; Some 2; Some 2; Some 3; Some 4; Some 4]).
Proof.
  destruct (export6 0 1 2 3 4 5 0 0 0 0 0 0 None) as (t & diffs & T & D & _ & C).
  exists (traj6 0 1 2 3 4 5), (traj6 0 0 0 0 0 0), t. split; [reflexivity|]. split; [exact T|]. rewrite C.
  set (raw := [0 - 0; 1 - 0; 2 - 0; 3 - 0; 4 - 0; 5 - 0]) in D.
  assert (R : map (component 0) (map along raw) = raw) by apply along_first.
  destruct (C103_drift _ _ _ 0%nat D) as (A & B & M & Z); [lia|cbn; lia| |].
  { rewrite R. change (length (map along raw)) with 6%nat. intros i j [I J].
    destruct j as [|[|[|[|[|[|j]]]]]]; try lia;
    destruct i as [|[|[|[|[|i]]]]]; try lia; cbn [nth raw]; lra. }
  rewrite R in A, B, M, Z. change (length (map along raw)) with 6%nat in M, Z.
  pose proof (M 2%nat ltac:(lia)) as M2. pose proof (M 3%nat ltac:(lia)) as M3. pose proof (M 4%nat ltac:(lia)) as M4.
  assert (L := proj1 (C103_median _ _ _ _ D)). change (length (map along _)) with 6%nat in L.
  destruct diffs as [|d0 [|d1 [|d2 [|d3 [|d4 [|d5 [|d6 diffs]]]]]]]; try discriminate L.
  cbn [nth map raw Nat.sub] in A, B, M2, M3, M4, Z. cbn [map].
  rewrite A, B, M2, M3, M4, Z. do 2 f_equal.
  rewrite !Rminus_0_r. reflexivity.
Qed.

(** A start date asked for is not used: here the first row is before it. *)
Theorem C103_dates_refuted : exists self other t,
  demo_export 10 self other (no_fields (Some 60000000000%Z)) = Ok t /\
  column_by_name "Epoch (UTC)" t
  = Some (Text [Some "before one minute"; Some "later"; Some "later"; Some "later"; Some "later"; Some "later"]).
Proof.
  destruct (export6 0 1 2 3 4 5 0 0 0 0 0 0 (Some 60000000000%Z)) as (t & diffs & T & _ & C & _).
  exists (traj6 0 1 2 3 4 5), (traj6 0 0 0 0 0 0), t. split; assumption.
Qed.

(** Trajectories with no date in common: the file is written, without any row. *)
Theorem C103_disjoint_refuted : exists self other t,
  (forall s o, In s self -> In o other -> (epoch (sc_orbit s) < epoch (sc_orbit o))%Z) /\
  demo_export 10 self other (no_fields None) = Ok t /\ num_rows t = 0%nat.
Proof.
  exists [craft_at 0 0; craft_at 1 1], [craft_at 5 0; craft_at 6 1]. eexists.
  split; [|split; [reflexivity|reflexivity]].
  intros s o [<-|[<-|[]]] [<-|[<-|[]]]; reflexivity.
Qed.

(** The export of a field: the mass, which both trajectories share. *)
Example field_case : exists t,
  demo_export 10 [craft_at 0 0; craft_at 1 1] [craft_at 0 0; craft_at 1 0]
    {| cfg_fields := Some [DryMass; GuidanceModeP]; cfg_start := None; cfg_end := None; cfg_step := None |} = Ok t /\
  num_rows t = 2%nat /\
  column_by_name "dry_mass (kg)" t = Some (Floats [Some (100 - 100); Some (100 - 100)]) /\
  has_field "guidance_mode" t = false.
Proof.
  eexists. split; [reflexivity|]. split; [reflexivity|]. split; reflexivity.
Qed.

Print Assumptions C103_median.
Print Assumptions C103_among_differences.
Print Assumptions C103_unsmoothed.
Print Assumptions C103_drift.
Print Assumptions C103_spike_refuted.
Print Assumptions C103_in_place_refuted.
Print Assumptions C103_rows_partial.
Print Assumptions C103_drift_refuted.
Print Assumptions C103_dates_refuted.
Print Assumptions C103_disjoint_refuted.
