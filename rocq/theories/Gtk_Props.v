(** C110: the file of a ground track (Gtk_Model). *)
From Coq Require Import Reals String Lra Lia.
From Verif Require Import Base RustStd Prop_Spec Angles Util_Model Sc_Model Traj_Model Traj_Spec Traj_Proofs Traj_Props Pq_Model Apq_Props Tpq_Model Tpq_Props Gtk_Model.
From Verif Require Import Vec3.
Local Open Scope string_scope.
Local Open Scope Z_scope.

(** ** Specification *)

Definition date (s : spacecraft) : Z := Sc_Model.epoch (sc_orbit s).
(** A date is a whole number of minutes after the first one, and not after the last one. *)
Definition on_the_minute (first last d : Z) : Prop := exists k, 0 <= k /\ d = first + k * 60000000000 /\ d <= last.
(** The columns of elements: those that some row has, a row without it having a null. *)
Definition element_columns (element_name : element -> string) (evaluate : element -> orbit -> option R) (frame_text : string)
    (rows : list spacecraft) (elements : list element) (t : table) : Prop :=
  Forall2 (fun e fc => snd fc = Floats (map (fun s => evaluate e (sc_orbit s)) rows) /\ f_name (fst fc) = element_name e /\
                       f_type (fst fc) = Float64 /\ f_meta (fst fc) = [("Frame", frame_text)] /\
                       (f_nullable (fst fc) = true <-> exists s, In s rows /\ evaluate e (sc_orbit s) = None))
          (filter (fun e => existsb (fun s => match evaluate e (sc_orbit s) with Some _ => true | None => false end) rows) elements) t.

Section Props.
Context (ops : state_ops spacecraft nat).
Context (evaluate : element -> orbit -> option R) (bplane : orbit -> option (R * R * R)) (dcm_to_inertial : nat -> orbit -> option m3)
        (element_name : element -> string) (frame_name : nat -> string) (show : Z -> string) (show_frame : nat -> string).
Context (transform : spacecraft -> res unit spacecraft).
Notation track := (to_groundtrack_parquet ops evaluate bplane dcm_to_inertial element_name frame_name show show_frame transform).

(** ** Lemmas *)

Lemma available_element e s : available evaluate bplane dcm_to_inertial (Element e) s = match element_value evaluate e (sc_orbit s) with Some _ => true | None => false end.
Proof. unfold available, value. now destruct (element_value evaluate e (sc_orbit s)). Qed.

Lemma kept_element rows e : kept evaluate bplane dcm_to_inertial rows (Element e)
  = existsb (fun s => match element_value evaluate e (sc_orbit s) with Some _ => true | None => false end) rows.
Proof. unfold kept. induction rows as [|s rows IH]; [reflexivity|]. cbn [existsb]. rewrite available_element, IH. reflexivity. Qed.

Lemma element_cells rows e : cells evaluate bplane dcm_to_inertial rows (Element e) = Floats (map (fun s => element_value evaluate e (sc_orbit s)) rows).
Proof.
  unfold cells. change (param_eqb (Element e) GuidanceModeP) with false. cbn [negb]. f_equal. apply map_ext. intros s.
  unfold value. now destruct (element_value evaluate e (sc_orbit s)).
Qed.

Lemma track_columns text rows elements :
  element_columns element_name (element_value evaluate) text rows elements
    (body evaluate bplane dcm_to_inertial element_name frame_name text rows (filter (kept evaluate bplane dcm_to_inertial rows) (map Element elements))).
Proof.
  unfold element_columns, body. induction elements as [|e l IH]; [constructor|]. cbn [map filter].
  rewrite kept_element. destruct (existsb _ rows); [|exact IH]. cbn [map]. constructor; [|exact IH]. cbn [fst snd].
  split; [apply element_cells|]. split; [reflexivity|]. split; [reflexivity|]. split; [reflexivity|].
  cbn [f_nullable to_field]. unfold nullable. rewrite existsb_exists. split; intros (s & Hs & H); exists s; (split; [exact Hs|]).
  - rewrite available_element in H. now destruct (element_value evaluate e (sc_orbit s)).
  - rewrite available_element, H. reflexivity.
Qed.

Lemma transformed_ends : forall l own a z, Forall2 (fun s s' => transform s = Ok s') l own -> first l = Some a -> last_state l = Some z ->
  exists a' z', first own = Some a' /\ transform a = Ok a' /\ last_state own = Some z' /\ transform z = Ok z'.
Proof.
  assert (N : forall l own k x, Forall2 (fun s s' => transform s = Ok s') l own -> nth_error l k = Some x -> exists x', nth_error own k = Some x' /\ transform x = Ok x').
  { intros l own k x H. revert k. induction H as [|s s' l own Hs _ IH]; intros [|k] E; try discriminate; [|now apply IH].
    injection E as <-. exists s'. split; [reflexivity|exact Hs]. }
  intros l own a z H Ha Hz. unfold first, last_state in *.
  assert (L : length own = length l) by (clear -H; induction H; cbn; congruence).
  destruct (N _ _ _ _ H Ha) as (a' & A1 & A2). destruct (N _ _ _ _ H Hz) as (z' & Z1 & Z2). rewrite L. exists a', z'. auto.
Qed.

(** ** Theorems *)

(** The file has a row for every whole minute from the first state of the trajectory to its last, in
    order, with the latitude, longitude, height and distance of the state there in the body fixed frame,
    provided the states are transformed and interpolated. *)
Theorem C110_track_partial : forall fuel states own a z,
  (forall s, st_epoch ops s = date s) -> (forall s s', transform s = Ok s' -> date s' = date s) ->
  strictly_chronological date states -> first states = Some a -> last_state states = Some z ->
  Forall2 (fun s s' => transform s = Ok s') states own ->
  (forall d, date a <= d <= date z -> exists s, at_epoch ops own d = Ok s /\ date s = d) ->
  (Z.to_nat ((date z - date a) / 60000000000 + 1) < fuel)%nat ->
  exists dates rows a' columns, track fuel states = Ok ((plain "Epoch (UTC)" Utf8 false, Text (map (fun d => Some (show d)) dates)) :: columns) /\
    strictly_chronological (fun d => d) dates /\ (forall d, In d dates <-> on_the_minute (date a) (date z) d) /\
    Forall2 (fun d s => at_epoch ops own d = Ok s /\ date s = d) dates rows /\
    transform a = Ok a' /\
    element_columns element_name (element_value evaluate) (show_frame (frame (sc_orbit a'))) rows [Latitude; Longitude; Height; Rmag] columns.
Proof.
  intros fuel states own a z He Ht C Ha Hz H Hat Hf.
  destruct (transformed_ends _ _ _ _ H Ha Hz) as (a' & z' & A1 & A2 & Z1 & Z2).
  assert (Da : st_epoch ops a' = date a) by (rewrite He; eauto). assert (Dz : st_epoch ops z' = date z) by (rewrite He; eauto).
  assert (T : to_frame ops transform states = Ok own).
  { apply C57_to_frame; [|destruct states; [discriminate|discriminate]|intros s s' E; rewrite !He; eauto|exact H].
    clear -C He. induction states as [|s l IH]; [exact I|]. destruct C as [C1 C2]. split; [|now apply IH]. intros y Hy. rewrite !He. now apply C1. }
  destruct (C13_grid_partial _ _ ops own a' z' 60000000000 (date a) (date z) fuel A1 Z1 eq_refl) as (visited & items & EB & F & CH & IN).
  - cbv zeta. rewrite Da, Dz, Z.max_id, Z.min_id. exact Hf.
  - rewrite Da, Dz, Z.max_id, Z.min_id. intros d Hd. destruct (Hat d Hd) as (s & A & _). exists s. exact A.
  - rewrite Da, Dz, Z.max_id, Z.min_id in IN.
    assert (F' : Forall2 (fun d s => at_epoch ops own d = Ok s /\ date s = d) visited items).
    { assert (P : forall d, In d visited -> date a <= d <= date z).
      { intros d Hd. apply IN in Hd. destruct Hd as [Hd (k & Hk & ->)]. nia. }
      clear -F P Hat. induction F as [|d s v i A F IH]; [constructor|]. constructor; [|apply IH; intros; apply P; now right].
      split; [exact A|]. destruct (Hat d) as (s' & A' & E'); [apply P; now left|]. congruence. }
    unfold to_groundtrack_parquet. rewrite T. cbn [in_track bind]. rewrite A1, Z1, Da, Dz. unfold one_minute. rewrite EB. cbn [in_track bind].
    destruct own as [|a0 own']; [discriminate|]. injection A1 as ->.
    rewrite (writes evaluate bplane dcm_to_inertial element_name frame_name show show_frame track_fields _ items a' own' eq_refl). cbn [in_track].
    exists visited, items, a'. eexists. split; [|split; [exact CH|split; [|split; [exact F'|split; [exact A2|]]]]].
    + unfold written. do 2 f_equal. f_equal. unfold epochs. f_equal.
      clear -F'. induction F' as [|d s v i [_ E] _ IH]; [reflexivity|]. cbn [map]. rewrite IH. unfold date in E. rewrite E. reflexivity.
    + intros d. rewrite IN. unfold on_the_minute. split; [intros (B & k & K & ->)|intros (k & K & -> & B)]; eauto.
    + exact (track_columns _ items [Latitude; Longitude; Height; Rmag]).
Qed.

(** No file without states, or when a state has no orbit in the body fixed frame. *)
Theorem C110_refused : forall fuel states, states = [] \/ (exists l s l' e, states = (l ++ s :: l')%list /\ (forall x, In x l -> is_ok (transform x)) /\ transform s = Err e) ->
  track fuel states = Err (TrackFrame CreationError).
Proof.
  intros fuel states [->|(l & s & l' & e & -> & G & E)]; [reflexivity|]. unfold to_groundtrack_parquet, to_frame.
  assert (T : transform_all transform (l ++ s :: l')%list = Err CreationError).
  { induction l as [|x l IH]; cbn; [now rewrite E|]. destruct (G x (or_introl eq_refl)) as [y ->]. rewrite IH; [reflexivity|]. intros; apply G; now right. }
  destruct (l ++ s :: l')%list eqn:El; [now destruct l|]. rewrite T. reflexivity.
Qed.
End Props.

(** ** Cases *)

Definition over (d : Z) : spacecraft := Spacecraft (Orbit d 0 (V3 7000 0 0) (V3 0 7 0)) 100 20 0 1 1 1 2 None Coast None None.
Definition over_ops : state_ops spacecraft nat :=
  {| st_epoch := date; st_frame := fun s => Sc_Model.frame (sc_orbit s); st_frame_eqb := Nat.eqb;
     st_interpolate := fun s e _ => Ok (with_orbit s (Orbit e 1 (V3 7000 0 0) (V3 0 7 0))) |}.
Definition to_fixed (s : spacecraft) : res unit spacecraft :=
  Ok (with_orbit s (Orbit (date s) 1 (radius_km (sc_orbit s)) (velocity_km_s (sc_orbit s)))).
Definition spherical (e : element) (o : orbit) : option R :=
  match e with OtherElement 5 | OtherElement 6 => Some 0%R | OtherElement 7 => Some (norm (radius_km o) - 6378)%R | Rmag => Some (norm (radius_km o)) | _ => None end.
Definition fixed (d : Z) : spacecraft := with_orbit (over d) (Orbit d 1 (V3 7000 0 0) (V3 0 7 0)).

(** The hypotheses hold of two states a minute and a half apart. *)
Example track_case : exists own, let states := [over 0; over 90000000000] in
  strictly_chronological date states /\ Forall2 (fun s s' => to_fixed s = Ok s') states own /\
  (forall d, 0 <= d <= 90000000000 -> exists s, at_epoch over_ops own d = Ok s /\ date s = d).
Proof.
  exists [fixed 0; fixed 90000000000]. cbv zeta. split; [|split].
  - split; [|split; [intros y []|exact I]]. intros y [<-|[]]. reflexivity.
  - constructor; [reflexivity|]. constructor; [reflexivity|]. constructor.
  - intros d Hd. unfold at_epoch, first, last_state. cbn [length nth_error Nat.sub].
    change (st_epoch over_ops) with date. change (date (fixed 0)) with 0. change (date (fixed 90000000000)) with 90000000000.
    replace (d <? 0) with false by (symmetry; apply Z.ltb_ge; lia).
    replace (90000000000 <? d) with false by (symmetry; apply Z.ltb_ge; lia). cbn [orb].
    destruct (Z.eq_dec d 90000000000) as [->|N]; [eexists; split; reflexivity|].
    unfold binary_search_by. cbn [length search_loop Nat.leb Nat.div Nat.divmod fst Nat.add Nat.sub].
    unfold cmp_at. cbn [nth_error]. change (date (fixed 0)) with 0. change (date (fixed 90000000000)) with 90000000000.
    assert ((90000000000 ?= d) = Gt) as -> by (apply Z.compare_gt_iff; lia). cbn [nth_error].
    change (date (fixed 0)) with 0.
    destruct (Z.compare_spec 0 d) as [<-|L|L]; [eexists; split; reflexivity| |lia].
    eexists. split; reflexivity.
Qed.

(** The last state is not in the file when it is not a whole number of minutes after the first. *)
Theorem C110_end_refuted : exists ops transform states columns,
  strictly_chronological date states /\ Forall (fun s => is_ok (transform s)) states /\ (exists s, In s states /\ date s = 90000000000) /\
  to_groundtrack_parquet ops spherical (fun _ => None) (fun _ _ => None) (fun _ => "e") (fun _ => "f") (fun d => if d =? 90000000000 then "end" else "before")
    (fun _ => "frame") transform 10 states = Ok ((plain "Epoch (UTC)" Utf8 false, Text [Some "before"; Some "before"]) :: columns).
Proof.
  exists over_ops, to_fixed, [over 0; over 90000000000]. eexists. split; [|split; [|split]].
  - split; [|split; [intros y []|exact I]]. intros y [<-|[]]. reflexivity.
  - constructor; [eexists; reflexivity|]. constructor; [eexists; reflexivity|]. constructor.
  - exists (over 90000000000). split; [right; left; reflexivity|reflexivity].
  - reflexivity.
Qed.

Example refused_case : exists transform s e, transform s = Err e /\ is_ok (transform (over 0)) /\
  to_groundtrack_parquet over_ops spherical (fun _ => None) (fun _ _ => None) (fun _ => "e") (fun _ => "f") (fun _ => "d") (fun _ => "frame") transform 10 [over 0; s]
  = Err (TrackFrame CreationError).
Proof.
  exists (fun s => if date s =? 0 then Ok s else Err tt), (over 5), tt. split; [reflexivity|]. split; [eexists; reflexivity|].
  apply C110_refused. right. exists [over 0], (over 5), [], tt. split; [reflexivity|]. split; [|reflexivity].
  intros x [<-|[]]. eexists. reflexivity.
Qed.

Print Assumptions C110_track_partial.
Print Assumptions C110_refused.
Print Assumptions C110_end_refuted.
