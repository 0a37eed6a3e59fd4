(** C91: what survives writing a trajectory to a parquet file and reading it back. *)
From Coq Require Import Reals String Lra Lia.
From Verif Require Import Base RustStd Prop_Spec Traj_Model Traj_Spec Traj_Proofs Vec3 Angles Util_Model Sc_Model Pq_Model Apq_Props Tpq_Model.
Local Open Scope string_scope.
Local Open Scope R_scope.

(** The specification. *)
Definition normalised (v : v3) : v3 := vscale (/ norm v) v.
(** a thrust direction as it is read: one component after the other *)
Definition one_by_one (d : v3) : v3 :=
  let a := normalised (V3 (vx d) 0 0) in
  let b := normalised (V3 (vx a) (vy d) (vz a)) in
  normalised (V3 (vx b) (vy b) (vz d)).


Lemma norm_x x : norm (V3 x 0 0) = Rabs x.
Proof. unfold norm, dot. cbn. replace (x * x + 0 * 0 + 0 * 0) with (Rsqr x) by (unfold Rsqr; ring). apply sqrt_Rsqr_abs. Qed.
Lemma one_by_one_eq d : vx d <> 0 ->
  let n2 := sqrt (1 + vy d * vy d) in let n3 := sqrt (1 + vz d * vz d) in
  one_by_one d = V3 (vx d / Rabs (vx d) / n2 / n3) (vy d / n2 / n3) (vz d / n3).
Proof.
  intros N n2 n3. assert (A : Rabs (vx d) <> 0) by (apply Rabs_no_R0, N).
  assert (P2 : n2 * n2 = 1 + vy d * vy d) by (apply sqrt_sqrt; nra). assert (P3 : n3 * n3 = 1 + vz d * vz d) by (apply sqrt_sqrt; nra).
  assert (N2 : n2 <> 0) by (intros E; rewrite E in P2; nra). assert (N3 : n3 <> 0) by (intros E; rewrite E in P3; nra).
  unfold one_by_one. assert (Ea : normalised (V3 (vx d) 0 0) = V3 (vx d / Rabs (vx d)) 0 0).
  { unfold normalised. rewrite norm_x. unfold vscale. cbn. f_equal; field; exact A. }
  rewrite Ea. cbn [vx vy vz].
  assert (S : vx d / Rabs (vx d) * (vx d / Rabs (vx d)) = 1).
  { replace (_ * _) with ((vx d * vx d) / (Rabs (vx d) * Rabs (vx d))) by (field; exact A).
    rewrite <- Rabs_mult, (Rabs_right (vx d * vx d)) by nra. field. exact N. }
  set (s := vx d / Rabs (vx d)) in *.
  assert (Eb : normalised (V3 s (vy d) 0) = V3 (s / n2) (vy d / n2) 0).
  { unfold normalised. replace (norm (V3 s (vy d) 0)) with n2.
    - unfold vscale. cbn. f_equal; field; exact N2.
    - unfold norm, dot. cbn. unfold n2. f_equal. rewrite S. ring. }
  rewrite Eb. cbn [vx vy vz].
  unfold normalised. replace (norm (V3 (s / n2) (vy d / n2) (vz d))) with n3.
  - unfold vscale. cbn. f_equal; field; auto.
  - unfold norm, dot. cbn. unfold n3. f_equal.
    replace (s / n2 * (s / n2) + vy d / n2 * (vy d / n2)) with ((s * s + vy d * vy d) / (n2 * n2)) by (field; exact N2).
    rewrite S, P2. field. nra.
Qed.

(** A unit direction with a component along X is unchanged only if it is along X. *)
Theorem C91_direction d : norm d = 1 -> vx d <> 0 -> (one_by_one d = d <-> vy d = 0 /\ vz d = 0).
Proof.
  intros U N. pose proof (one_by_one_eq d N) as E. cbv zeta in E. set (n2 := sqrt (1 + vy d * vy d)) in *. set (n3 := sqrt (1 + vz d * vz d)) in *.
  assert (P2 : n2 * n2 = 1 + vy d * vy d) by (apply sqrt_sqrt; nra). assert (P3 : n3 * n3 = 1 + vz d * vz d) by (apply sqrt_sqrt; nra).
  assert (G2 : 0 <= n2) by apply sqrt_pos. assert (G3 : 0 <= n3) by apply sqrt_pos.
  assert (N2 : 1 <= n2) by nra. assert (N3 : 1 <= n3) by nra. rewrite E. split.
  - intros H. assert (Hz : vz d / n3 = vz d) by (rewrite <- H at 2; reflexivity). assert (Hy : vy d / n2 / n3 = vy d) by (rewrite <- H at 2; reflexivity).
    assert (Z0 : vz d = 0).
    { assert (Q : vz d = vz d * n3) by (rewrite <- Hz at 1; rewrite Hz; rewrite <- Hz at 2; field; lra).
      destruct (Req_dec (vz d) 0) as [|K]; [assumption|]. assert (n3 = 1) by (apply (Rmult_eq_reg_l (vz d)); [lra|exact K]). nra. }
    split; [|exact Z0]. assert (E3 : n3 = 1) by (unfold n3; rewrite Z0; replace (1 + 0 * 0) with 1 by ring; apply sqrt_1).
    rewrite E3 in Hy. assert (Q : vy d = vy d * n2) by (rewrite <- Hy at 2; field; lra).
    destruct (Req_dec (vy d) 0) as [|K]; [assumption|]. assert (n2 = 1) by (apply (Rmult_eq_reg_l (vy d)); [lra|exact K]). nra.
  - intros [Y0 Z0]. assert (E2 : n2 = 1) by (unfold n2; rewrite Y0; replace (1 + 0 * 0) with 1 by ring; apply sqrt_1).
    assert (E3 : n3 = 1) by (unfold n3; rewrite Z0; replace (1 + 0 * 0) with 1 by ring; apply sqrt_1).
    destruct d as [x y z]. cbn [vx vy vz] in *. subst y z. rewrite norm_x in U. rewrite U, E2, E3. f_equal; field.
Qed.

Lemma param_eqb_eq p q : param_eqb p q = true <-> p = q.
Proof. unfold param_eqb. destruct (parameter_eq_dec p q); intuition congruence. Qed.
Lemma param_eqb_refl p : param_eqb p p = true. Proof. now apply param_eqb_eq. Qed.
Lemma param_eqb_neq p q : p <> q -> param_eqb p q = false.
Proof. intros N. destruct (param_eqb p q) eqn:E; [|reflexivity]. apply param_eqb_eq in E. contradiction. Qed.

Section Parquet.
Context (evaluate : element -> orbit -> option R)
        (set_kepler : element -> orbit -> R -> option orbit)
        (bplane : orbit -> option (R * R * R)) (dcm_to_inertial : nat -> orbit -> option m3)
        (element_name : element -> string) (frame_name : nat -> string)
        (show : Z -> string) (parse : string -> option Z)
        (show_frame : nat -> string) (parse_frame : string -> option nat)
        (orbit0 : orbit) (dry0 prop0 extra0 srp0 cr0 drag0 cd0 : R).
Notation value := (value evaluate bplane dcm_to_inertial).
Notation name := (name element_name frame_name).
Notation to_parquet := (to_parquet evaluate bplane dcm_to_inertial element_name frame_name show show_frame).
Notation from_parquet := (from_parquet set_kepler element_name frame_name parse parse_frame
  orbit0 dry0 prop0 extra0 srp0 cr0 drag0 cd0).
Notation kept := (kept evaluate bplane dcm_to_inertial).
Notation cells := (cells evaluate bplane dcm_to_inertial).
Notation to_field := (to_field evaluate bplane dcm_to_inertial element_name frame_name).
Notation scan := (scan element_name frame_name parse_frame).

(** The state read from a line: [thrusts] tells whether a thruster is written for some state *)
Record comes_back (fr : nat) (thrusts : Prop) (s s' : spacecraft) : Prop := {
  same_epoch : epoch (sc_orbit s') = epoch (sc_orbit s);
  that_frame : frame (sc_orbit s') = fr;
  same_radius : radius_km (sc_orbit s') = radius_km (sc_orbit s);
  same_velocity : velocity_km_s (sc_orbit s') = velocity_km_s (sc_orbit s);
  same_dry : dry_mass_kg s' = dry_mass_kg s;
  same_prop : prop_mass_kg s' = prop_mass_kg s;
  same_mode : mode s' = mode s;
  same_thruster : match sc_thruster s with
                  | Some th => sc_thruster s' = Some th
                  | None => (thrusts -> sc_thruster s' = Some (Thruster 0 0)) /\ (~ thrusts -> sc_thruster s' = None)
                  end;
  direction_so : thrust_direction s' = option_map one_by_one (thrust_direction s);
  no_stm : stm s' = None;
  the_defaults : extra_mass_kg s' = extra0 /\ srp_area_m2 s' = srp0 /\ coeff_reflectivity s' = cr0 /\
                 drag_area_m2 s' = drag0 /\ coeff_drag s' = cd0
}.

Definition ok (p : parameter) (s : spacecraft) : option R := match value s p with Ok x => Some x | _ => None end.

Lemma kept_iff states p : kept states p = true <-> exists s, In s states /\ ok p s <> None.
Proof.
  unfold Tpq_Model.kept. rewrite existsb_exists. split; intros (s & I & H); exists s; (split; [exact I|]);
  unfold available, ok in *; destruct (value s p); congruence.
Qed.

Definition body (text : string) (states : list spacecraft) (fields : list parameter) : table :=
  map (fun p => (to_field text states p, cells states p)) fields.
Definition epochs (states : list spacecraft) : list (option string) := map (fun s => Some (show (epoch (sc_orbit s)))) states.
Definition written (text : string) (states : list spacecraft) (fields : list parameter) : table :=
  (plain "Epoch (UTC)" Utf8 false, Text (epochs states)) :: body text states fields.

Lemma rows_cells states p : rows (cells states p) = length states.
Proof. unfold Tpq_Model.cells. destruct (param_eqb p GuidanceModeP); cbn; now rewrite map_length. Qed.
Lemma nulls_cells states p : nullable evaluate bplane dcm_to_inertial states p = false -> nulls (cells states p) = false.
Proof.
  unfold nullable. intros H. assert (G : forall s, In s states -> exists x, value s p = Ok x).
  { intros s I. destruct (value s p) as [x| | |] eqn:E; [now exists x| | |];
    (assert (X : existsb (fun s => negb (available evaluate bplane dcm_to_inertial p s)) states = true)
       by (apply existsb_exists; exists s; split; [exact I|]; unfold available; now rewrite E); congruence). }
  clear H. unfold Tpq_Model.cells. destruct (param_eqb p GuidanceModeP); cbn [nulls]; induction states as [|s l IH]; try reflexivity;
  cbn [map existsb]; destruct (G s (or_introl eq_refl)) as (x & ->); cbn; (apply IH; intros; apply G; now right).
Qed.
Lemma type_cells text states p : data_type_eqb (f_type (to_field text states p)) (type_of (cells states p)) = true.
Proof. unfold Tpq_Model.cells, Tpq_Model.to_field. cbn [f_type]. now destruct (param_eqb p GuidanceModeP). Qed.

Lemma writes requested own states s0 own' : own = s0 :: own' ->
  to_parquet requested own states
  = Ok (written (show_frame (frame (sc_orbit s0))) states (filter (kept states) requested)).
Proof.
  intros ->. unfold Tpq_Model.to_parquet. set (fields := filter _ _). set (text := show_frame _).
  unfold record_batch. cbn [length]. rewrite !map_length, Nat.eqb_refl. cbn [negb combine].
  assert (C : combine (map (to_field text states) fields) (map (cells states) fields) = body text states fields).
  { unfold body. clear. induction fields as [|p l IH]; [reflexivity|]. cbn [map combine]. now rewrite IH. }
  rewrite C. cbn [rows forallb fst snd f_nullable plain f_type type_of data_type_eqb]. rewrite map_length, Nat.eqb_refl.
  assert (N : nulls (Text (map (fun s => Some (show (epoch (sc_orbit s)))) states)) = false)
    by (clear; cbn [nulls]; induction states as [|s l IH]; [reflexivity|exact IH]).
  rewrite N. cbn [negb orb andb].
  assert (F : forallb (fun fc : field * column => (rows (snd fc) =? length states)%nat && (f_nullable (fst fc) || negb (nulls (snd fc))) && data_type_eqb (f_type (fst fc)) (type_of (snd fc))) (body text states fields) = true).
  { apply forallb_forall. intros fc I. unfold body in I. apply in_map_iff in I as (p & <- & _). cbn [fst snd].
    rewrite rows_cells, Nat.eqb_refl, type_cells. cbn [f_nullable Tpq_Model.to_field].
    destruct (nullable evaluate bplane dcm_to_inertial states p) eqn:E; [reflexivity|]. now rewrite (nulls_cells _ _ E). }
  rewrite F. reflexivity.
Qed.

Section Read.
Context (requested : list parameter)
  (names_differ : forall p q, In p (requested ++ read_params) -> In q (requested ++ read_params) -> name p = name q -> p = q)
  (no_epoch : forall p, In p requested -> name p <> "Epoch (UTC)")
  (all_read : incl (GuidanceModeP :: read_params) requested).

Lemma name_found p : In p requested -> p <> GuidanceModeP ->
  find (fun q => String.eqb (name p) (name q)) read_params = if existsb (param_eqb p) read_params then Some p else None.
Proof.
  intros I _. assert (G : forall l, incl l read_params -> find (fun q => String.eqb (name p) (name q)) l = if existsb (param_eqb p) l then Some p else None).
  { intros l. induction l as [|q l IH]; [reflexivity|]. intros J. cbn [find existsb].
    destruct (String.eqb (name p) (name q)) eqn:E.
    - apply String.eqb_eq in E. assert (p = q) as <-.
      { apply names_differ; [apply in_or_app; now left| |exact E]. apply in_or_app; right; apply J; now left. }
      now rewrite param_eqb_refl.
    - rewrite (param_eqb_neq p q) by (intros ->; now rewrite String.eqb_refl in E). cbn [orb]. apply IH. intros x X. apply J. now right. }
  apply G. apply incl_refl.
Qed.

Lemma scans text fr states fields s : incl fields requested -> parse_frame text = Some fr ->
  exists s', scan (body text states fields) s = Ok s' /\ has_epoch s' = has_epoch s /\
    has_guidance s' = has_guidance s || existsb (param_eqb GuidanceModeP) fields /\
    (forall p, In p (found s') <-> In p (found s) \/ (In p fields /\ In p read_params)) /\
    ((exists p, In p fields /\ In p read_params /\ p <> PropMass) -> the_frame s' = Some fr) /\
    (the_frame s = Some fr -> the_frame s' = Some fr).
Proof.
  intros I P. revert s. induction fields as [|p l IH]; intros s.
  - exists s. cbn. split; [reflexivity|]. split; [reflexivity|]. split; [now rewrite orb_false_r|].
    split; [intros p; tauto|]. split; [intros (p & [] & _)|auto].
  - assert (Ip : In p requested) by (apply I; now left). assert (Il : incl l requested) by (intros x X; apply I; now right).
    change (scan (body text states (p :: l)) s)
      with (bind (scan_field element_name frame_name parse_frame (to_field text states p) s) (scan (body text states l))).
    unfold scan_field. cbn [f_name Tpq_Model.to_field f_meta].
    rewrite (proj2 (String.eqb_neq _ _) (no_epoch p Ip)).
    destruct (parameter_eq_dec p GuidanceModeP) as [->|Np].
    + cbn [Tpq_Model.name]. rewrite String.eqb_refl. cbn [bind].
      destruct (IH Il {| has_epoch := has_epoch s; has_guidance := true; found := found s; the_frame := the_frame s |})
        as (s' & H1 & H2 & H3 & H4 & H5 & H6). exists s'. split; [exact H1|]. split; [exact H2|].
      split; [rewrite H3; cbn [existsb has_guidance]; rewrite param_eqb_refl; now rewrite orb_true_r|].
      split; [intros q; rewrite H4; cbn [found In]; split; [tauto|intros [K|[[<-|K] R]]; auto; exfalso; cbn in R; intuition congruence]|].
      split; [intros (q & [<-|K] & R & N); [exfalso; cbn in R; intuition congruence|apply H5; eauto]|exact H6].
    + assert (E : String.eqb (name p) "guidance_mode" = false).
      { apply String.eqb_neq. intros E. apply Np, names_differ; [apply in_or_app; now left| |exact E].
        apply in_or_app; left. apply all_read. now left. }
      rewrite E, (name_found p Ip Np).
      destruct (existsb (param_eqb p) read_params) eqn:R.
      * apply existsb_exists in R as (p' & R & R'). apply param_eqb_eq in R' as <-.
        assert (G : exists s1, (if param_eqb p PropMass then Ok {| has_epoch := has_epoch s; has_guidance := has_guidance s; found := p :: found s; the_frame := the_frame s |}
          else match meta "Frame" [("Frame", text)] with
               | Some text => match parse_frame text with Some fr => Ok {| has_epoch := has_epoch s; has_guidance := has_guidance s; found := p :: found s; the_frame := Some fr |} | None => Err ParseDhall end
               | None => Ok {| has_epoch := has_epoch s; has_guidance := has_guidance s; found := p :: found s; the_frame := the_frame s |} end) = Ok s1
          /\ has_epoch s1 = has_epoch s /\ has_guidance s1 = has_guidance s /\ found s1 = p :: found s /\
             (p <> PropMass -> the_frame s1 = Some fr) /\ (the_frame s = Some fr -> the_frame s1 = Some fr)).
        { destruct (param_eqb p PropMass) eqn:Q.
          - eexists; split; [reflexivity|]. cbn. apply param_eqb_eq in Q. intuition congruence.
          - cbn [meta]. rewrite String.eqb_refl, P. eexists; split; [reflexivity|]. cbn. intuition congruence. }
        destruct G as (s1 & -> & K1 & K2 & K3 & K4 & K5). cbn [bind].
        destruct (IH Il s1) as (s' & H1 & H2 & H3 & H4 & H5 & H6). exists s'. split; [exact H1|]. split; [congruence|].
        split; [rewrite H3, K2; cbn [existsb]; now rewrite (param_eqb_neq GuidanceModeP p) by congruence|].
        split; [intros q; rewrite H4, K3; cbn [In]; split; [intros [[<-|K]|K]; [right; auto|auto|right; tauto]|intros [K|[[<-|K] K']]; auto]|].
        split; [intros (q & [<-|K] & R' & N); [apply H6, K4, N|apply H5; eauto]|auto].
      * cbn [bind]. assert (R' : ~ In p read_params).
        { intros X. assert (Y : existsb (param_eqb p) read_params = true) by (apply existsb_exists; exists p; split; [exact X|apply param_eqb_refl]). congruence. }
        destruct (IH Il s) as (s' & H1 & H2 & H3 & H4 & H5 & H6). exists s'. split; [exact H1|]. split; [exact H2|].
        split; [rewrite H3; cbn [existsb]; now rewrite (param_eqb_neq GuidanceModeP p) by congruence|].
        split; [intros q; rewrite H4; cbn [In]; split; [tauto|intros [K|[[<-|K] K']]; tauto]|].
        split; [intros (q & [<-|K] & X & N); [tauto|apply H5; eauto]|exact H6].
Qed.

Lemma column_of text states fields p : incl fields requested -> In p fields ->
  column_by_name (name p) (written text states fields) = Some (cells states p).
Proof.
  intros I Ip. unfold written. cbn [column_by_name f_name plain].
  rewrite (proj2 (String.eqb_neq "Epoch (UTC)" (name p))) by (apply not_eq_sym, no_epoch, I, Ip).
  induction fields as [|q l IH]; [destruct Ip|]. cbn [body map column_by_name Tpq_Model.to_field f_name].
  destruct (String.eqb (name q) (name p)) eqn:E.
  - apply String.eqb_eq in E. assert (q = p) as ->; [|reflexivity].
    apply names_differ; [..|exact E]; apply in_or_app; left; apply I; [now left|exact Ip].
  - destruct Ip as [->|Ip]; [now rewrite String.eqb_refl in E|]. apply IH; [intros x X; apply I; now right|exact Ip].
Qed.

(** one line, parameter by parameter *)
Fixpoint set_each (src : spacecraft) (ps : list parameter) (s : spacecraft) : res io_error spacecraft :=
  match ps with
  | [] => Ok s
  | p :: ps' => match ok p src with
                | None => set_each src ps' s
                | Some x => match set_value set_kepler s p x with Ok s' => set_each src ps' s' | _ => Panic end
                end
  end.
Lemma set_all_each states i src (K : parameter -> bool) : nth_error states i = Some src ->
  (forall p, ok p src <> None -> K p = true) -> forall ps s,
  set_all set_kepler i (map (fun p => (p, map (ok p) states)) (filter K ps)) s = set_each src ps s.
Proof.
  intros E HK ps. induction ps as [|p ps IH]; intros s; [reflexivity|]. cbn [filter set_each].
  destruct (K p) eqn:Kp.
  - cbn [map set_all]. unfold valid_at.
    assert (N : nth i (map (ok p) states) None = ok p src).
    { apply nth_error_nth. apply map_nth_error. exact E. }
    rewrite N. destruct (ok p src); [|apply IH]. destruct (set_value set_kepler s p r); [apply IH|reflexivity..].
  - destruct (ok p src) eqn:Q; [|apply IH]. rewrite (HK p) in Kp; [discriminate|congruence].
Qed.

Lemma mode_text m : parse_mode (show_mode (mode_of_f64 (f64_of_mode m))) = m.
Proof.
  unfold mode_of_f64. destruct m; cbn [f64_of_mode]; destruct (Rle_dec 1 _); try lra; try reflexivity;
  destruct (Rlt_dec _ 0); try lra; reflexivity.
Qed.

Definition thrusts (states : list spacecraft) : Prop := exists s, In s states /\ sc_thruster s <> None.

Lemma kept_thruster states p : p = Isp \/ p = ThrustP -> (kept states p = true <-> thrusts states).
Proof.
  intros P. rewrite kept_iff. split; intros (s & I & H); exists s; (split; [exact I|]); revert H;
  unfold ok; destruct P as [->| ->]; cbn [Sc_Model.value]; destruct (sc_thruster s); congruence.
Qed.
Lemma kept_always states p : states <> [] -> In p (firstn 7 read_params) \/ p = PropMass \/ p = GuidanceModeP -> kept states p = true.
Proof.
  intros N P. apply kept_iff. destruct states as [|s l]; [congruence|]. exists s. split; [now left|].
  unfold ok. cbn in P. decompose [or] P; subst; try contradiction; discriminate.
Qed.

Lemma set_each_ok src p ps s x s' : ok p src = Some x -> set_value set_kepler s p x = Ok s' -> set_each src (p :: ps) s = set_each src ps s'.
Proof. intros H1 H2. cbn [set_each]. now rewrite H1, H2. Qed.
Lemma set_each_none src p ps s : ok p src = None -> set_each src (p :: ps) s = set_each src ps s.
Proof. intros H1. cbn [set_each]. now rewrite H1. Qed.
Lemma each_direction s ep fr r v a b c d e f g th m st :
  set_each s [ThrustX; ThrustY; ThrustZ] (Spacecraft (Orbit ep fr r v) a b c d e f g th m None st)
  = Ok (Spacecraft (Orbit ep fr r v) a b c d e f g th m (option_map one_by_one (thrust_direction s)) st).
Proof.
  destruct (thrust_direction s) as [[x y z]|] eqn:E.
  - erewrite set_each_ok; [|unfold ok; cbn [Sc_Model.value]; rewrite E; reflexivity|reflexivity].
    erewrite set_each_ok; [|unfold ok; cbn [Sc_Model.value]; rewrite E; reflexivity|reflexivity].
    erewrite set_each_ok; [|unfold ok; cbn [Sc_Model.value]; rewrite E; reflexivity|reflexivity].
    reflexivity.
  - do 3 (rewrite set_each_none; [|unfold ok; cbn [Sc_Model.value]; rewrite E; reflexivity]). reflexivity.
Qed.
Lemma each_first s ps ep fr r v a b c d e f g th m dir st :
  set_each s (firstn 7 read_params ++ ps) (Spacecraft (Orbit ep fr r v) a b c d e f g th m dir st)
  = set_each s ps (Spacecraft (Orbit ep fr (radius_km (sc_orbit s)) (velocity_km_s (sc_orbit s))) (dry_mass_kg s) b c d e f g th m dir st).
Proof.
  destruct s as [[ep' f' [x y z] [u w q]] dry prop extra srp cr drag cd th' m' dir' st'].
  cbn [firstn read_params app]. do 7 (erewrite set_each_ok; [|reflexivity|reflexivity]). reflexivity.
Qed.
Lemma each_none s ep fr r v a b c d e f g th m st : sc_thruster s = None ->
  set_each s read_params (Spacecraft (Orbit ep fr r v) a b c d e f g th m None st)
  = Ok (Spacecraft (Orbit ep fr (radius_km (sc_orbit s)) (velocity_km_s (sc_orbit s))) (dry_mass_kg s) (prop_mass_kg s) c d e f g
          th m (option_map one_by_one (thrust_direction s)) st).
Proof.
  intros E. change read_params with (firstn 7 read_params ++ [Isp; PropMass; ThrustP; ThrustX; ThrustY; ThrustZ])%list.
  rewrite each_first. rewrite set_each_none; [|unfold ok; cbn [Sc_Model.value]; rewrite E; reflexivity].
  erewrite set_each_ok; [|reflexivity|reflexivity].
  rewrite set_each_none; [|unfold ok; cbn [Sc_Model.value]; rewrite E; reflexivity].
  apply each_direction.
Qed.
Lemma each_thruster s ep fr r v a b c d e f g th th0 m st : sc_thruster s = Some th ->
  set_each s read_params (Spacecraft (Orbit ep fr r v) a b c d e f g (Some th0) m None st)
  = Ok (Spacecraft (Orbit ep fr (radius_km (sc_orbit s)) (velocity_km_s (sc_orbit s))) (dry_mass_kg s) (prop_mass_kg s) c d e f g
          (Some th) m (option_map one_by_one (thrust_direction s)) st).
Proof.
  intros E. change read_params with (firstn 7 read_params ++ [Isp; PropMass; ThrustP; ThrustX; ThrustY; ThrustZ])%list.
  rewrite each_first. erewrite set_each_ok; [|unfold ok; cbn [Sc_Model.value]; rewrite E; reflexivity|reflexivity].
  erewrite set_each_ok; [|reflexivity|reflexivity].
  erewrite set_each_ok; [|unfold ok; cbn [Sc_Model.value]; rewrite E; reflexivity|reflexivity].
  destruct th. apply each_direction.
Qed.

Lemma row fr sch eps modes states i s : nth_error states i = Some s ->
  parse (text_at eps i) = Some (epoch (sc_orbit s)) ->
  (exists_in sch Isp || exists_in sch ThrustP = true <-> thrusts states) ->
  (exists l, modes = Some l /\ parse_mode (text_at l i) = mode s) ->
  exists s', read_row set_kepler parse orbit0 dry0 prop0 extra0 srp0 cr0 drag0 cd0 sch fr eps modes
    (map (fun p => (p, map (ok p) states)) (filter (kept states) read_params)) i = Ok s' /\ comes_back fr (thrusts states) s s'.
Proof.
  intros E P T (lm & -> & M). unfold read_row. rewrite P. rewrite (set_all_each states i s (kept states) E).
  2:{ intros p Hp. apply kept_iff. exists s. split; [eapply nth_error_In, E|exact Hp]. }
  rewrite M. clear M P.
  destruct (exists_in sch Isp || exists_in sch ThrustP) eqn:X.
  - destruct T as [T _]. specialize (T eq_refl). destruct (sc_thruster s) as [th|] eqn:Eth.
    + eexists. split; [apply each_thruster, Eth|]. constructor; try reflexivity; [now rewrite Eth|repeat split; reflexivity].
    + eexists. split; [apply each_none, Eth|]. constructor; try reflexivity; [rewrite Eth; split; [reflexivity|tauto]|repeat split; reflexivity].
  - assert (NT : ~ thrusts states) by (intros H; apply T in H; discriminate).
    destruct (sc_thruster s) as [th|] eqn:Eth; [destruct NT; exists s; split; [eapply nth_error_In, E|congruence]|].
    eexists. split; [apply each_none, Eth|]. constructor; try reflexivity; [rewrite Eth; split; [tauto|reflexivity]|repeat split; reflexivity].
Qed.

Lemma existsb_In sch p : exists_in sch p = true <-> In p (found sch).
Proof.
  unfold exists_in. rewrite existsb_exists. split.
  - intros (q & I & E). apply param_eqb_eq in E as ->. exact I.
  - intros I. exists p. split; [exact I|apply param_eqb_refl].
Qed.

Lemma traverse_rows {A B} (f : nat -> res io_error B) (R : A -> B -> Prop) (l : list A) k :
  (forall i a, nth_error l i = Some a -> exists b, f (k + i)%nat = Ok b /\ R a b) ->
  exists l', traverse f (seq k (length l)) = Ok l' /\ Forall2 R l l'.
Proof.
  revert k. induction l as [|a l IH]; intros k H.
  - exists []. split; [reflexivity|constructor].
  - destruct (H 0%nat a eq_refl) as (b & Hb & Rb). rewrite Nat.add_0_r in Hb.
    destruct (IH (S k)) as (l' & H1 & H2).
    { intros i x E. destruct (H (S i) x E) as (y & Hy & Ry). exists y. split; [|exact Ry]. now rewrite Nat.add_succ_comm. }
    exists (b :: l'). cbn [length seq traverse]. rewrite Hb. cbn [bind]. rewrite H1. cbn [bind]. split; [reflexivity|now constructor].
Qed.

Lemma forall2_epochs fr T l l' : Forall2 (comes_back fr T) l l' -> map (fun s => epoch (sc_orbit s)) l' = map (fun s => epoch (sc_orbit s)) l.
Proof. induction 1 as [|s s' l l' H F IH]; [reflexivity|]. cbn [map]. now rewrite IH, (same_epoch _ _ _ _ H). Qed.
Lemma chron_epochs l l' : map (st_epoch sc_ops) l' = map (st_epoch sc_ops) l ->
  strictly_chronological (st_epoch sc_ops) l -> strictly_chronological (st_epoch sc_ops) l'.
Proof.
  revert l'. induction l as [|s l IH]; intros [|s' l']; try discriminate; [auto|]. intros H. injection H as H1 H2. cbn.
  intros [A B]. split; [|auto]. intros y Hy. apply (in_map (fun s => epoch (sc_orbit s))) in Hy. cbn [sc_ops st_epoch] in H2. rewrite H2 in Hy.
  apply in_map_iff in Hy as (z & Hz & Iz). specialize (A z Iz). cbn [sc_ops st_epoch] in *. lia.
Qed.

(** The states that are written come back, in the frame of the first state of the trajectory; the
    fields are any that contain those read, with different names. *)
Theorem C91_reads s0 own states f fr :
  to_parquet requested (s0 :: own) states = Ok f -> states <> [] ->
  strictly_chronological (fun s => epoch (sc_orbit s)) states ->
  parse_frame (show_frame (frame (sc_orbit s0))) = Some fr ->
  (forall s, In s states -> parse (show (epoch (sc_orbit s))) = Some (epoch (sc_orbit s))) ->
  exists l, from_parquet f = Ok l /\ Forall2 (comes_back fr (thrusts states)) states l.
Proof.
  intros H NE SC PF PE. rewrite (writes requested (s0 :: own) states s0 own eq_refl) in H. injection H as <-.
  set (text := show_frame _). set (fields := filter (kept states) requested).
  assert (IF : incl fields requested) by (intros p Hp; apply filter_In in Hp; tauto).
  unfold Tpq_Model.from_parquet.
  destruct (scans text fr states fields {| has_epoch := true; has_guidance := false; found := []; the_frame := None |} IF PF)
    as (sch & S1 & S2 & S3 & S4 & S5 & _).
  change (scan (written text states fields) {| has_epoch := false; has_guidance := false; found := []; the_frame := None |})
    with (scan (body text states fields) {| has_epoch := true; has_guidance := false; found := []; the_frame := None |}).
  rewrite S1. cbn [bind]. rewrite S2. cbn [has_epoch negb].
  assert (FK : forall p, In p read_params -> (In p fields <-> kept states p = true)).
  { intros p Ip. unfold fields. rewrite filter_In. split; [tauto|]. intros K. split; [apply all_read; now right|exact K]. }
  assert (EK : forall p, In p read_params -> exists_in sch p = kept states p).
  { intros p Ip. apply eq_true_iff_eq. rewrite existsb_In, S4, <- (FK p Ip). cbn [found In]. tauto. }
  rewrite S5. 2:{ exists (Element X). assert (J : In (Element X) read_params) by (cbn; auto). split; [apply (FK _ J), kept_always; [exact NE|cbn; auto]|split; [exact J|discriminate]]. }
  assert (FM : first_missing sch = None).
  { unfold first_missing. destruct (find _ _) eqn:F; [|reflexivity]. apply find_some in F as [I F].
    rewrite EK in F by (revert I; cbn; tauto). rewrite kept_always in F; [discriminate|exact NE|]. left. revert I. cbn. tauto. }
  rewrite FM. rewrite (EK PropMass) by (cbn; tauto). rewrite (kept_always states PropMass NE) by auto. cbn [negb].
  change (column_by_name "Epoch (UTC)" (written text states fields)) with (Some (Text (epochs states))). cbn [bind].
  assert (GF : In GuidanceModeP fields).
  { unfold fields. rewrite filter_In. split; [apply all_read; now left|apply kept_always; auto]. }
  rewrite S3. cbn [has_guidance orb].
  assert (GE : existsb (param_eqb GuidanceModeP) fields = true) by (apply existsb_exists; exists GuidanceModeP; split; [exact GF|reflexivity]).
  rewrite GE. rewrite (column_of text states fields GuidanceModeP IF GF).
  change (cells states GuidanceModeP) with (Text (map (fun s => option_map (fun x => show_mode (mode_of_f64 x)) (ok GuidanceModeP s)) states)). cbn [bind].
  set (modes := map _ states).
  assert (TC : traverse (read_column element_name frame_name (written text states fields)) (filter (exists_in sch) read_params)
               = Ok (map (fun p => (p, map (ok p) states)) (filter (kept states) read_params))).
  { rewrite (filter_ext_in _ _ _ EK). assert (G : forall l, incl l read_params -> traverse (read_column element_name frame_name (written text states fields)) (filter (kept states) l) = Ok (map (fun p => (p, map (ok p) states)) (filter (kept states) l))).
    { intros l. induction l as [|p l IH]; [reflexivity|]. intros I. specialize (IH (fun x X => I x (or_intror X))). cbn [filter].
      destruct (kept states p) eqn:K; [|exact IH]. cbn [traverse map]. unfold read_column at 1.
      rewrite (column_of text states fields p IF); [|apply FK; [apply I; now left|exact K]].
      assert (C : cells states p = Floats (map (ok p) states)).
      { unfold Tpq_Model.cells. rewrite param_eqb_neq; [reflexivity|]. intros ->. specialize (I GuidanceModeP (or_introl eq_refl)). cbn in I. intuition discriminate. }
      rewrite C. cbn [bind]. rewrite IH. reflexivity. }
    apply G, incl_refl. }
  rewrite TC. cbn [bind].
  assert (NR : num_rows (written text states fields) = length states) by (unfold written, num_rows, epochs; cbn [rows]; apply map_length).
  rewrite NR.
  edestruct (traverse_rows (read_row set_kepler parse orbit0 dry0 prop0 extra0 srp0 cr0 drag0 cd0 sch fr (epochs states) (Some modes)
    (map (fun p => (p, map (ok p) states)) (filter (kept states) read_params))) (comes_back fr (thrusts states)) states 0) as (l & L1 & L2).
  { intros i s E. cbn [Nat.add]. apply row; [exact E|..].
    - unfold text_at, epochs. rewrite (nth_error_nth _ i None (map_nth_error _ i _ E)). apply PE. eapply nth_error_In, E.
    - rewrite !EK by (cbn; tauto). rewrite orb_true_iff, !kept_thruster by auto. tauto.
    - exists modes. split; [reflexivity|]. unfold text_at, modes. rewrite (nth_error_nth _ i None (map_nth_error _ i _ E)).
      apply mode_text. }
  rewrite L1. cbn [bind]. exists l. split; [|exact L2]. f_equal. apply finalize_id.
  apply (chron_epochs states); [exact (forall2_epochs _ _ _ _ L2)|exact SC].
Qed.
End Read.

(** A trajectory whose states have nothing but what is written comes back as it was. *)
Theorem C91_round_trip requested s0 states f :
  (forall p q, In p (requested ++ read_params) -> In q (requested ++ read_params) -> name p = name q -> p = q) ->
  (forall p, In p requested -> name p <> "Epoch (UTC)") -> incl (GuidanceModeP :: read_params) requested ->
  to_parquet requested (s0 :: states) (s0 :: states) = Ok f ->
  strictly_chronological (fun s => epoch (sc_orbit s)) (s0 :: states) ->
  (forall fr, parse_frame (show_frame fr) = Some fr) ->
  (forall s, In s (s0 :: states) ->
     parse (show (epoch (sc_orbit s))) = Some (epoch (sc_orbit s)) /\
     frame (sc_orbit s) = frame (sc_orbit s0) /\ stm s = None /\ thrust_direction s = None /\
     (sc_thruster s = None <-> sc_thruster s0 = None) /\
     extra_mass_kg s = extra0 /\ srp_area_m2 s = srp0 /\ coeff_reflectivity s = cr0 /\ drag_area_m2 s = drag0 /\ coeff_drag s = cd0) ->
  from_parquet f = Ok (s0 :: states).
Proof.
  intros H1 H2 H3 H SC PF A. destruct (C91_reads requested H1 H2 H3 s0 states (s0 :: states) f _ H ltac:(discriminate) SC (PF _)) as (l & L & F).
  - intros s I. apply (A s I).
  - rewrite L. f_equal.
    assert (T : thrusts (s0 :: states) -> sc_thruster s0 <> None).
    { intros (s & I & N) N0. apply N. apply (A s I), N0. }
    assert (G : forall s, In s (s0 :: states) -> forall s', comes_back (frame (sc_orbit s0)) (thrusts (s0 :: states)) s s' -> s' = s).
    { intros s I s' C. destruct (A s I) as (_ & A2 & A3 & A4 & A5 & A6 & A7 & A8 & A9 & A10).
      destruct C as [C1 C2 C3 C4 C5 C6 C7 C8 C9 C10 (C11 & C12 & C13 & C14 & C15)].
      destruct s as [[ep f' r v] dry prop extra srp cr drag cd th m dir st]. destruct s' as [[ep' f'' r' v'] dry' prop' extra' srp' cr' drag' cd' th' m' dir' st'].
      cbn in *. subst. f_equal.
      destruct th as [th|]; [exact C8|]. apply (proj2 C8). intros X. apply T in X. tauto. }
    assert (K : forall L L', Forall2 (comes_back (frame (sc_orbit s0)) (thrusts (s0 :: states))) L L' -> incl L (s0 :: states) -> L' = L).
    { clear -G. intros L L' F. induction F as [|s s' L L' C F IH]; [reflexivity|]. intros I.
      rewrite (G s (I s (or_introl eq_refl)) s' C). f_equal. apply IH. intros x X. apply I. now right. }
    apply K; [exact F|apply incl_refl].
Qed.
End Parquet.

(** A file of three states and its reading. *)
Section Case.
Definition e_name (e : element) : string :=
  match e with
  | X => "X (km)" | Y => "Y (km)" | Z_ => "Z (km)" | VX => "VX (km/s)" | VY => "VY (km/s)" | VZ => "VZ (km/s)"
  | Rmag => "Rmag (km)" | Vmag => "Vmag (km/s)" | AoP => "AoP (deg)" | Eccentricity => "Eccentricity" | Inclination => "Inclination (deg)"
  | RAAN => "RAAN (deg)" | SemiMajorAxis => "SemiMajorAxis (km)" | TrueAnomaly => "TrueAnomaly (deg)"
  | OtherElement 0 => "AoL (deg)" | OtherElement _ => "TrueLongitude (deg)"
  end.
Definition f_names (f : nat) : string := "RCN".
Definition show_f (n : nat) : string := Apq_Props.show_unary (Z.of_nat n).
Definition parse_f (s : string) : option nat := option_map Z.to_nat (Apq_Props.parse_unary s).
Definition no_value (e : element) (o : orbit) : option R := None.
Definition no_set (e : element) (o : orbit) (x : R) : option orbit := None.
Definition no_plane (o : orbit) : option (R * R * R) := None.
Definition no_dcm (f : nat) (o : orbit) : option m3 := None.
Definition o0 := Orbit 0 0 vzero vzero.
Notation write := (to_parquet no_value no_plane no_dcm e_name f_names Apq_Props.show_unary show_f export_params).
Notation read := (from_parquet no_set e_name f_names Apq_Props.parse_unary parse_f o0 0 0 0 0 (18/10) 0 (22/10)).
Notation back := (comes_back 0 0 (18/10) 0 (22/10)).

Lemma case_names p q : In p (export_params ++ read_params) -> In q (export_params ++ read_params) ->
  name e_name f_names p = name e_name f_names q -> p = q.
Proof.
  assert (H : forallb (fun p => forallb (fun q => implb (String.eqb (name e_name f_names p) (name e_name f_names q)) (param_eqb p q))
     (export_params ++ read_params)) (export_params ++ read_params) = true) by (vm_compute; reflexivity).
  rewrite forallb_forall in H. intros Ip Iq E. specialize (H p Ip). rewrite forallb_forall in H. specialize (H q Iq).
  rewrite E, String.eqb_refl in H. apply param_eqb_eq, H.
Qed.
Lemma case_epoch p : In p export_params -> name e_name f_names p <> "Epoch (UTC)".
Proof.
  assert (H : forallb (fun p => negb (String.eqb (name e_name f_names p) "Epoch (UTC)")) export_params = true) by (vm_compute; reflexivity).
  rewrite forallb_forall in H. intros I E. specialize (H p I). rewrite E in H. discriminate.
Qed.
Lemma case_all : incl (GuidanceModeP :: read_params) export_params.
Proof.
  intros p I. assert (H : forallb (fun p => existsb (param_eqb p) export_params) (GuidanceModeP :: read_params) = true) by (vm_compute; reflexivity).
  rewrite forallb_forall in H. specialize (H p I). apply existsb_exists in H as (q & Iq & E). apply param_eqb_eq in E as ->. exact Iq.
Qed.

(** a state with a given epoch, thruster, direction and reflectivity *)
Definition at_ (t : Z) (th : option thruster) (d : option v3) (cr : R) : spacecraft :=
  Spacecraft (Orbit t 3 (V3 7000 (IZR t) 0) (V3 0 7 1)) 500 50 0 0 cr 0 (22/10) th Thrust d None.
Lemma read_case s0 l : (forall s, In s (s0 :: l) -> (0 <= epoch (sc_orbit s))%Z) -> frame (sc_orbit s0) = 3%nat ->
  strictly_chronological (fun s => epoch (sc_orbit s)) (s0 :: l) ->
  exists f l', write (s0 :: l) (s0 :: l) = Ok f /\ read f = Ok l' /\ Forall2 (back 3%nat (thrusts (s0 :: l))) (s0 :: l) l'.
Proof.
  intros P Fr SC. eexists.
  pose proof (writes no_value no_plane no_dcm e_name f_names Apq_Props.show_unary show_f export_params (s0 :: l) (s0 :: l) s0 l eq_refl) as W.
  destruct (C91_reads no_value no_set no_plane no_dcm e_name f_names Apq_Props.show_unary Apq_Props.parse_unary show_f parse_f o0 0 0 0 0 (18/10) 0 (22/10)
    export_params case_names case_epoch case_all s0 l (s0 :: l) _ 3 W) as (l' & H1 & H2).
  - discriminate.
  - exact SC.
  - rewrite Fr. reflexivity.
  - intros s I. apply Apq_Props.unary, P, I.
  - exists l'. split; [exact W|]. split; [exact H1|exact H2].
Qed.

Definition engine := Thruster (1/10) 1000.
Definition usual := at_ 1 (Some engine) None (18/10).
Definition later := at_ 5 (Some engine) None (18/10).

(** two states of a thrusting spacecraft come back, *)
Example C91_case : exists f, write [usual; later] [usual; later] = Ok f /\ read f = Ok [usual; later].
Proof.
  eexists. split; [apply (writes _ _ _ _ _ _ _ _ _ _ usual [later] eq_refl)|].
  apply (C91_round_trip no_value no_set no_plane no_dcm e_name f_names show_unary parse_unary show_f parse_f o0 0 0 0 0 (18/10) 0 (22/10)
    export_params usual [later] _ case_names case_epoch case_all (writes _ _ _ _ _ _ _ _ _ _ usual [later] eq_refl)).
  - cbn. split; [intros y [<-|[]]; cbn; lia|]. split; [intros y []|exact I].
  - intros fr. unfold parse_f, show_f. rewrite unary by lia. cbn. now rewrite Nat2Z.id.
  - intros s [<-|[<-|[]]]; (split; [apply unary; cbn; lia|]); repeat split; cbn; intros; discriminate.
Qed.

(** C91: but a coefficient of reflectivity that differs from the default is lost, *)
Theorem C91_coefficients_refuted : exists s0 f s', write [s0] [s0] = Ok f /\ read f = Ok [s'] /\
  coeff_reflectivity s0 = 1 /\ coeff_reflectivity s' = 18/10.
Proof.
  destruct (read_case (at_ 1 None None 1) []) as (f & l & W & R & F).
  - intros s [<-|[]]. cbn. lia.
  - reflexivity.
  - cbn. split; [intros y []|exact I].
  - inversion F as [|? s' ? ? C F']; subst. inversion F'; subst. exists (at_ 1 None None 1), f, s'. split; [exact W|]. split; [exact R|].
    split; [reflexivity|]. apply (the_defaults _ _ _ _ _ _ _ _ _ C).
Qed.
(** a state without a thruster gets one that delivers nothing if another state has one, *)
Theorem C91_thruster_refuted : exists s0 s1 f s0' s1', write [s0; s1] [s0; s1] = Ok f /\ read f = Ok [s0'; s1'] /\
  sc_thruster s0 = None /\ sc_thruster s0' = Some (Thruster 0 0).
Proof.
  destruct (read_case (at_ 1 None None 1) [later]) as (f & l & W & R & F).
  - intros s [<-|[<-|[]]]; cbn; lia.
  - reflexivity.
  - cbn. split; [intros y [<-|[]]; cbn; lia|]. split; [intros y []|exact I].
  - inversion F as [|? s' ? ? C F']; subst. inversion F' as [|? s1' ? ? C' F'']; subst. inversion F''; subst.
    exists (at_ 1 None None 1), later, f, s', s1'. split; [exact W|]. split; [exact R|].
    split; [reflexivity|]. pose proof (same_thruster _ _ _ _ _ _ _ _ _ C) as H. cbn in H. apply H.
    exists later. split; [right; now left|discriminate].
Qed.
(** and a thrust direction comes back as another direction. *)
Theorem C91_direction_refuted : exists s0 f s' d d', write [s0] [s0] = Ok f /\ read f = Ok [s'] /\
  thrust_direction s0 = Some d /\ norm d = 1 /\ thrust_direction s' = Some d' /\ cross d d' <> vzero.
Proof.
  set (d := V3 (3/5) (4/5) 0).
  destruct (read_case (at_ 1 None (Some d) 1) []) as (f & l & W & R & F).
  - intros s [<-|[]]. cbn. lia.
  - reflexivity.
  - cbn. split; [intros y []|exact I].
  - inversion F as [|? s' ? ? C F']; subst. inversion F'; subst. exists (at_ 1 None (Some d) 1), f, s', d, (one_by_one d).
    split; [exact W|]. split; [exact R|]. split; [reflexivity|].
    split; [unfold norm, dot, d; cbn; replace (_ + _) with 1 by field; apply sqrt_1|].
    split; [exact (direction_so _ _ _ _ _ _ _ _ _ C)|].
    rewrite one_by_one_eq by (unfold d; cbn; lra). unfold d. cbn [vx vy vz].
    set (n2 := sqrt (1 + 4/5 * (4/5))). set (n3 := sqrt (1 + 0 * 0)).
    assert (P2 : 0 < n2) by (apply sqrt_lt_R0; lra). assert (P3 : 0 < n3) by (apply sqrt_lt_R0; lra).
    rewrite Rabs_right by lra. intros H. apply (f_equal vz) in H. cbn in H.
    assert (K : 3 / 5 * (4 / 5 / n2 / n3) - 4 / 5 * (3 / 5 / (3 / 5) / n2 / n3) = - (8 / 25) / (n2 * n3)) by (field; lra).
    rewrite K in H. assert (0 < n2 * n3) by nra. assert (8 / 25 / (n2 * n3) > 0) by (apply Rdiv_lt_0_compat; lra).
    unfold Rdiv in *. lra.
Qed.
End Case.
Print Assumptions C91_reads. Print Assumptions C91_round_trip. Print Assumptions C91_direction.
Print Assumptions C91_coefficients_refuted. Print Assumptions C91_thruster_refuted. Print Assumptions C91_direction_refuted.
