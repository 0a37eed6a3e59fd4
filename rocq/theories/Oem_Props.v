(** C104: trajectories and solutions exchanged as ephemerides. *)
From Coq Require Import Reals String Lra Lia.
From Verif Require Import Base RustStd Vec3 Sc_Model Traj_Model Traj_Spec Traj_Proofs Traj_Props Spq_Model Oem_Model.
From Verif Require Import Vec3.
Local Open Scope Z_scope.

(** ** Specification *)

(** The last element of a list at an epoch. *)
Fixpoint last_at {A} (ep : A -> Z) (t : Z) (l : list A) : option A :=
  match l with
  | [] => None
  | x :: l' => match last_at ep t l' with Some y => Some y | None => if ep x =? t then Some x else None end
  end.
(** Nothing but the orbits differ. *)
Definition same_but_orbit (a b : spacecraft) : Prop := with_orbit a (sc_orbit b) = b.
Definition sc_epoch (s : spacecraft) : Z := Sc_Model.epoch (sc_orbit s).

(** ** Ordered maps *)

Lemma insert_in l r x : In x (eph_insert l r) -> x = r \/ In x l.
Proof.
  induction l as [|y l IH]; cbn [eph_insert]; [cbn; intuition|].
  destruct (er_epoch r <? er_epoch y); [cbn; intuition|]. destruct (er_epoch r =? er_epoch y); cbn; intuition.
Qed.
Lemma insert_chronological l r : strictly_chronological er_epoch l -> strictly_chronological er_epoch (eph_insert l r).
Proof.
  induction l as [|y l IH]; cbn [eph_insert]; intros C; [split; [intros z []|exact I]|]. destruct C as [C1 C2].
  destruct (Z.ltb_spec (er_epoch r) (er_epoch y)).
  - split; [|split; assumption]. intros z [<-|Hz]; [assumption|]. specialize (C1 z Hz). lia.
  - destruct (Z.eqb_spec (er_epoch r) (er_epoch y)) as [E|N].
    + split; [|assumption]. intros z Hz. rewrite E. now apply C1.
    + split; [|now apply IH]. intros z Hz. apply insert_in in Hz. destruct Hz as [->|Hz]; [lia|now apply C1].
Qed.
(** In a chronological list there is at most one element at an epoch. *)
Lemma last_at_none {A} (ep : A -> Z) t l : (forall x, In x l -> ep x <> t) -> last_at ep t l = None.
Proof.
  induction l as [|x l IH]; intros H; [reflexivity|]. cbn [last_at]. rewrite IH by (intros; apply H; now right).
  destruct (Z.eqb_spec (ep x) t) as [E|]; [|reflexivity]. now elim (H x (or_introl eq_refl)).
Qed.
Lemma insert_at l r t : strictly_chronological er_epoch l ->
  last_at er_epoch t (eph_insert l r) = if er_epoch r =? t then Some r else last_at er_epoch t l.
Proof.
  induction l as [|y l IH]; cbn [eph_insert]; intros C; [reflexivity|]. destruct C as [C1 C2].
  destruct (Z.ltb_spec (er_epoch r) (er_epoch y)).
  - cbn [last_at]. destruct (Z.eqb_spec (er_epoch r) t) as [E|N].
    + rewrite last_at_none by (intros x Hx; specialize (C1 x Hx); lia).
      destruct (Z.eqb_spec (er_epoch y) t); [lia|reflexivity].
    + destruct (last_at er_epoch t l); [reflexivity|]. now destruct (er_epoch y =? t).
  - destruct (Z.eqb_spec (er_epoch r) (er_epoch y)) as [E|N]; cbn [last_at].
    + destruct (Z.eqb_spec (er_epoch r) t) as [E'|N'].
      * rewrite last_at_none by (intros x Hx; specialize (C1 x Hx); lia). reflexivity.
      * destruct (last_at er_epoch t l); [reflexivity|]. destruct (Z.eqb_spec (er_epoch y) t); [lia|reflexivity].
    + rewrite IH by assumption. destruct (er_epoch r =? t); reflexivity.
Qed.
Lemma inserted {A} (f : A -> eph_record) l : forall acc, strictly_chronological er_epoch acc ->
  let m := fold_left (fun m x => eph_insert m (f x)) l acc in
  strictly_chronological er_epoch m /\
  forall t, last_at er_epoch t m =
    match last_at (fun x => er_epoch (f x)) t l with Some x => Some (f x) | None => last_at er_epoch t acc end.
Proof.
  induction l as [|x l IH]; intros acc C; cbn [fold_left]; [split; [exact C|reflexivity]|].
  destruct (IH (eph_insert acc (f x)) (insert_chronological _ _ C)) as [A1 A2]. split; [exact A1|].
  intros t. rewrite A2. cbn [last_at]. destruct (last_at (fun x => er_epoch (f x)) t l); [reflexivity|].
  rewrite insert_at by exact C. now destruct (er_epoch (f x) =? t).
Qed.
Lemma insert_last l r : (forall x, In x l -> er_epoch x < er_epoch r) -> eph_insert l r = l ++ [r].
Proof.
  induction l as [|y l IH]; intros H; [reflexivity|]. cbn [eph_insert]. pose proof (H y (or_introl eq_refl)).
  destruct (Z.ltb_spec (er_epoch r) (er_epoch y)); [lia|]. destruct (Z.eqb_spec (er_epoch r) (er_epoch y)); [lia|].
  cbn. f_equal. apply IH. intros; apply H. now right.
Qed.
Lemma inserted_in_order {A} (f : A -> eph_record) l : forall acc,
  strictly_chronological (fun x => er_epoch (f x)) l ->
  (forall a x, In a acc -> In x l -> er_epoch a < er_epoch (f x)) ->
  fold_left (fun m x => eph_insert m (f x)) l acc = acc ++ map f l.
Proof.
  induction l as [|x l IH]; intros acc C H; cbn [fold_left map]; [now rewrite app_nil_r|]. destruct C as [C1 C2].
  rewrite insert_last by (intros a Ha; apply H; [exact Ha|now left]).
  rewrite IH; [now rewrite <- app_assoc|exact C2|].
  intros a y Ha Hy. apply in_app_or in Ha. destruct Ha as [Ha|[<-|[]]]; [apply H; [exact Ha|now right]|now apply C1].
Qed.

Section Trajectories.
Context (ops : state_ops spacecraft nat).
Definition everything : eph_cfg := {| cfg_start := None; cfg_end := None; cfg_step := None |}.

(** ** Whole trajectories *)

(** Without bounds or step, the ephemeris has one record for each epoch of the trajectory, in order: the
    orbit of the last state at this epoch. *)
Theorem C104_ephemeris : forall fuel id t, exists e, to_ephemeris ops fuel id everything t = Ok e /\
  object_id e = id /\ strictly_chronological er_epoch (records e) /\
  forall d, option_map er_orbit (last_at er_epoch d (records e)) = option_map sc_orbit (last_at sc_epoch d (t_states t)).
Proof.
  intros fuel id t. eexists. split; [reflexivity|]. split; [reflexivity|]. cbn [records].
  destruct (inserted (fun s => of_orbit (sc_orbit s)) (t_states t) [] I) as [A B]. split; [exact A|].
  intros d. rewrite B. change (fun x => er_epoch (of_orbit (sc_orbit x))) with sc_epoch.
  destruct (last_at sc_epoch d (t_states t)); reflexivity.
Qed.

(** A chronological trajectory, such as those of a propagation, comes back with the same orbits, each with
    what the template has besides. *)
Theorem C104_round_trip_partial : forall fuel id t default template,
  strictly_chronological sc_epoch (t_states t) ->
  exists e, to_ephemeris ops fuel id everything t = Ok e /\
    let back := from_oem default template e in
    t_name back = Some id /\ map sc_orbit (t_states back) = map sc_orbit (t_states t) /\
    Forall (same_but_orbit (match template with Some s => s | None => default end)) (t_states back) /\
    (Forall (same_but_orbit (match template with Some s => s | None => default end)) (t_states t) ->
     t_states back = t_states t).
Proof.
  intros fuel id t default template C. eexists. split; [reflexivity|]. cbv zeta. unfold from_oem. cbn [t_name t_states object_id records].
  split; [reflexivity|]. rewrite (inserted_in_order (fun s => of_orbit (sc_orbit s)) (t_states t) [] C) by (intros a x []).
  cbn [app]. rewrite !map_map. cbn [er_orbit of_orbit].
  split; [apply map_ext; intros []; reflexivity|]. split.
  - apply Forall_forall. intros x Hx. apply in_map_iff in Hx. destruct Hx as (y & <- & _). reflexivity.
  - intros F. rewrite <- (map_id (t_states t)) at 2. apply map_ext_in. intros s Hs.
    rewrite Forall_forall in F. exact (F s Hs).
Qed.

(** ** Parts of trajectories *)

Definition given (c : eph_cfg) : Prop := cfg_start c <> None \/ cfg_end c <> None \/ cfg_step c <> None.
Definition from_of (c : eph_cfg) (a : spacecraft) : Z :=
  Z.max (match cfg_start c with Some s => s | None => st_epoch ops a end) (st_epoch ops a).
Definition until_of (c : eph_cfg) (z : spacecraft) : Z :=
  Z.min (match cfg_end c with Some s => s | None => st_epoch ops z end) (st_epoch ops z).
Definition step_of (c : eph_cfg) : Z := match cfg_step c with Some s => s | None => 60000000000 end.

Lemma given_every fuel id c t a z : given c -> first (t_states t) = Some a -> last_state (t_states t) = Some z ->
  to_ephemeris ops fuel id c t =
  bind (every_between ops fuel (t_states t) (step_of c) (from_of c a) (until_of c z)) (fun states =>
  Ok {| object_id := id; records := fold_left (fun l s => eph_insert l (of_orbit (sc_orbit s))) states [] |}).
Proof.
  intros G Ha Hz. unfold to_ephemeris, from_of, until_of, step_of, MINUTE.
  assert (X : forall e0 e1 s, every_between ops fuel (t_states t) s e0 e1 =
    every_between ops fuel (t_states t) s (Z.max e0 (st_epoch ops a)) (Z.min e1 (st_epoch ops z))).
  { intros e0 e1 s. unfold every_between. rewrite Ha, Hz. do 2 f_equal; lia. }
  destruct c as [[s|] [u|] [k|]]; cbn [cfg_start cfg_end cfg_step epoch_or bind];
    rewrite ?Ha, ?Hz; cbn [bind]; try (f_equal; apply X).
  destruct G as [G|[G|G]]; now elim G.
Qed.

(** With a start, an end or a step the orbits are interpolated every step (every minute when there is none),
    from the start asked for or that of the trajectory, provided the interpolation succeeds. *)
Theorem C104_sampled_partial : forall fuel id c t a z, given c ->
  first (t_states t) = Some a -> last_state (t_states t) = Some z -> 0 < step_of c ->
  (forall s, st_epoch ops s = sc_epoch s) ->
  (Z.to_nat ((until_of c z - from_of c a) / step_of c + 1) < fuel)%nat ->
  (forall d, from_of c a <= d <= until_of c z -> exists s, at_epoch ops (t_states t) d = Ok s /\ sc_epoch s = d) ->
  exists e, to_ephemeris ops fuel id c t = Ok e /\ strictly_chronological er_epoch (records e) /\
    (forall d, In d (map er_epoch (records e)) <-> d <= until_of c z /\ exists k, 0 <= k /\ d = from_of c a + k * step_of c) /\
    (forall r, In r (records e) -> exists s, at_epoch ops (t_states t) (er_epoch r) = Ok s /\ er_orbit r = sc_orbit s).
Proof.
  intros fuel id c t a z G Ha Hz Hs He Hf Hat. rewrite (given_every fuel id c t a z G Ha Hz).
  assert (E1 : Z.max (from_of c a) (st_epoch ops a) = from_of c a) by (unfold from_of; lia).
  assert (E2 : Z.min (until_of c z) (st_epoch ops z) = until_of c z) by (unfold until_of; lia).
  destruct (C13_grid_partial _ _ ops (t_states t) a z (step_of c) (from_of c a) (until_of c z) fuel Ha Hz Hs)
    as (visited & items & EB & F & C & IN).
  - cbv zeta. rewrite E1, E2. exact Hf.
  - rewrite E1, E2. intros d Hd. destruct (Hat d Hd) as (s & A & _). exists s. exact A.
  - rewrite E1, E2 in IN. rewrite EB. cbn [bind]. eexists. split; [reflexivity|]. cbn [records].
    assert (EP : map sc_epoch items = visited).
    { assert (P : forall d, In d visited -> from_of c a <= d <= until_of c z).
      { intros d Hd. apply IN in Hd. destruct Hd as [Hd (k & Hk & ->)]. nia. }
      clear -F P Hat. induction F as [|d s v i A F IH]; [reflexivity|]. cbn [map]. f_equal.
      - destruct (Hat d) as (s' & A' & E'); [apply P; now left|]. congruence.
      - apply IH. intros; apply P. now right. }
    assert (C' : strictly_chronological sc_epoch items).
    { rewrite <- EP in C. clear -C. induction items as [|s items IH]; [exact I|]. destruct C as [C1 C2].
      split; [|now apply IH]. intros y Hy. apply C1. now apply in_map. }
    rewrite (inserted_in_order (fun s => of_orbit (sc_orbit s)) items [] C') by (intros u x []). cbn [app].
    split; [|split].
    + clear -C'. induction items as [|s items IH]; [exact I|]. destruct C' as [C1 C2]. split; [|now apply IH].
      intros r Hr. apply in_map_iff in Hr. destruct Hr as (y & <- & Hy). exact (C1 y Hy).
    + intros d. rewrite map_map. change (map (fun x => er_epoch (of_orbit (sc_orbit x))) items) with (map sc_epoch items).
      rewrite EP. apply IN.
    + intros r Hr. apply in_map_iff in Hr. destruct Hr as (s & <- & Hi). exists s. split; [|reflexivity].
      change (er_epoch (of_orbit (sc_orbit s))) with (sc_epoch s).
      rewrite <- EP in F. clear -F Hi. induction items as [|s' items IH]; [destruct Hi|]. cbn [map] in F.
      inversion F; subst. destruct Hi as [->|Hi]; [assumption|now apply IH].
Qed.

(** A part that the trajectory does not have makes an ephemeris with nothing in it, not an error. *)
Theorem C104_outside_refuted : forall fuel id c t a z, given c ->
  first (t_states t) = Some a -> last_state (t_states t) = Some z -> until_of c z < from_of c a ->
  to_ephemeris ops (S fuel) id c t = Ok {| object_id := id; records := [] |}.
Proof.
  intros fuel id c t a z G Ha Hz H. rewrite (given_every (S fuel) id c t a z G Ha Hz).
  unfold every_between. rewrite Ha, Hz. cbn [iterate_traj]. unfold ts_next, ts_inclusive.
  cbn [ts_cur ts_step ts_incl ts_duration].
  replace (_ <? 0 * step_of c) with true; [reflexivity|]. symmetry. apply Z.ltb_lt. lia.
Qed.
End Trajectories.

(** Without states there is an empty ephemeris, or a panic when a start, an end or a step is given. *)
Theorem C104_empty_refuted : forall ops fuel id c name, given c ->
  to_ephemeris ops fuel id c {| t_name := name; t_states := [] |} = Panic /\
  to_ephemeris ops fuel id everything {| t_name := name; t_states := [] |} = Ok {| object_id := id; records := [] |}.
Proof.
  intros ops fuel id [[s|] [u|] [k|]] name G; (split; [|reflexivity]); try reflexivity.
  destruct G as [G|[G|G]]; now elim G.
Qed.

(** ** Witnesses *)

(** A spacecraft at a date, with some propellant. *)
Definition at_date (d : Z) (prop : R) : spacecraft :=
  Spacecraft (Orbit d 0 (V3 7000 0 0) (V3 0 7 0)) 100 prop 0 1 1 1 2 None Coast None None.
Definition still_ops : state_ops spacecraft nat :=
  {| st_epoch := sc_epoch; st_frame := fun s => Sc_Model.frame (sc_orbit s); st_frame_eqb := Nat.eqb;
     st_interpolate := fun s e _ => Ok (with_orbit s (Orbit e 0 (V3 7000 0 0) (V3 0 7 0))) |}.
Definition ninety : Z := 90000000000.

(** The masses are not in the file: a trajectory along which propellant is used does not come back, whatever
    the template. *)
Theorem C104_masses_refuted : exists ops t, strictly_chronological sc_epoch (t_states t) /\
  forall fuel id default template e, to_ephemeris ops fuel id everything t = Ok e ->
    t_states (from_oem default template e) <> t_states t.
Proof.
  exists still_ops, {| t_name := None; t_states := [at_date 0 20; at_date ninety 10] |}. split.
  - split; [|split; [intros y []|exact I]]. intros y [<-|[]]. cbn. reflexivity.
  - intros fuel id default template e E.
    match type of E with _ = _ => cbv [to_ephemeris everything cfg_start cfg_end cfg_step bind t_states] in E end.
    match type of E with Ok ?x = _ => assert (e = x) as -> by congruence end. clear E.
    intros H. apply (f_equal (map prop_mass_kg)) in H.
    set (tpl := match template with Some s => s | None => default end).
    assert (P : map prop_mass_kg (t_states (from_oem default template
       {| object_id := id; records := fold_left (fun l s => eph_insert l (of_orbit (sc_orbit s))) [at_date 0 20; at_date ninety 10] [] |}))
       = [prop_mass_kg tpl; prop_mass_kg tpl]) by reflexivity.
    rewrite P in H. assert (H' : [prop_mass_kg tpl; prop_mass_kg tpl] = [20%R; 10%R]) by exact H. clear H P. clearbody tpl.
    assert (prop_mass_kg tpl = 20%R) by congruence. assert (prop_mass_kg tpl = 10%R) by congruence. lra.
Qed.

(** Asking only for a start makes a record every minute: the last state, and those between, are lost. *)
Theorem C104_start_refuted : exists ops t start e, 
  to_ephemeris ops 10 "sc"%string {| cfg_start := Some start; cfg_end := None; cfg_step := None |} t = Ok e /\
  In ninety (map sc_epoch (t_states t)) /\ start < ninety /\ ~ In ninety (map er_epoch (records e)).
Proof.
  exists still_ops, {| t_name := None; t_states := [at_date 0 20; at_date ninety 10] |}, 0.
  exists {| object_id := "sc"; records := [of_orbit (Orbit 0 0 (V3 7000 0 0) (V3 0 7 0));
                                           of_orbit (Orbit 60000000000 0 (V3 7000 0 0) (V3 0 7 0))] |}.
  split; [reflexivity|]. split; [right; left; reflexivity|]. split; [reflexivity|].
  cbn. unfold ninety. intros [H|[H|[]]]; discriminate H.
Qed.

(** ** SPICE files *)

Section Bsp.
Context (orbit_at : Z -> option orbit).

Lemma bsp_grid tpl start stop step n : forall fuel cur orbits,
  0 < step -> 0 <= cur -> (n < fuel)%nat ->
  (Z.of_nat n = 0 \/ start + (cur + Z.of_nat n - 1) * step <= stop) ->
  stop < start + (cur + Z.of_nat n) * step ->
  Forall2 (fun e o => orbit_at e = Some o) (Traj_Spec.grid (start + cur * step) step n) orbits ->
  bsp_states orbit_at fuel tpl (Traj_Proofs.series start stop step cur) = Ok (map (with_orbit tpl) orbits).
Proof.
  induction n as [|n IH]; intros fuel cur orbits Hs Hc Hf Hin Hout F; (destruct fuel as [|fuel]; [lia|]);
    cbn [bsp_states]; rewrite ts_next_series.
  - replace (stop <? start + cur * step) with true by (symmetry; apply Z.ltb_lt; nia). inversion F. reflexivity.
  - replace (stop <? start + cur * step) with false by (symmetry; apply Z.ltb_ge; nia).
    cbn [Traj_Spec.grid] in F. inversion F as [|e o es os H1 H2]; subst. rewrite H1.
    rewrite (IH fuel (cur + 1) os); [reflexivity|lia|lia|lia| |nia|].
    + right. nia.
    + replace (start + (cur + 1) * step) with (start + cur * step + step) by ring. exact H2.
Qed.

(** A trajectory read from an SPK file has the orbits of the file every step from the start to the end, the
    domain of the file when they are not given, with what the template has besides. *)
Theorem C104_bsp : forall fuel tpl d0 d1 step start stop name, 0 < step ->
  let s := match start with Some e => e | None => d0 end in
  let u := match stop with Some e => e | None => d1 end in
  (Z.to_nat ((u - s) / step + 1) < fuel)%nat ->
  (forall d, s <= d <= u -> exists o, orbit_at d = Some o /\ Sc_Model.epoch o = d) ->
  exists t, from_bsp (Some (d0, d1)) orbit_at fuel tpl step start stop name = Ok t /\ t_name t = name /\
    strictly_chronological sc_epoch (t_states t) /\
    (forall d, In d (map sc_epoch (t_states t)) <-> d <= u /\ exists k, 0 <= k /\ d = s + k * step) /\
    (forall x, In x (t_states t) -> orbit_at (sc_epoch x) = Some (sc_orbit x) /\ same_but_orbit tpl x).
Proof.
  intros fuel tpl d0 d1 step start stop name Hs s u Hf Hat.
  set (n := grid_count s u step). pose proof (grid_count_spec s u step Hs) as [G1 G2]. fold n in G1, G2.
  assert (IN : forall e, In e (Traj_Spec.grid s step n) <-> e <= u /\ exists k, 0 <= k /\ e = s + k * step).
  { intros e. rewrite grid_in. split.
    - intros (k & Hk & ->). split; [nia|]. exists k. lia.
    - intros [He (k & Hk & ->)]. exists k. split; [|reflexivity]. nia. }
  assert (AT : exists os, Forall2 (fun e o => orbit_at e = Some o) (Traj_Spec.grid s step n) os /\ map Sc_Model.epoch os = Traj_Spec.grid s step n).
  { assert (P : forall e, In e (Traj_Spec.grid s step n) -> exists o, orbit_at e = Some o /\ Sc_Model.epoch o = e).
    { intros e He. apply IN in He. destruct He as [H1 (k & H2 & ->)]. apply Hat. nia. }
    clear -P. induction (Traj_Spec.grid s step n) as [|e g IH]; [exists []; split; [constructor|reflexivity]|].
    destruct (P e (or_introl eq_refl)) as (o & Ho & Ee). destruct IH as (os & F & M); [intros; apply P; now right|].
    exists (o :: os). split; [now constructor|]. cbn [map]. congruence. }
  destruct AT as (os & AT & M).
  exists {| t_name := name; t_states := map (with_orbit tpl) os |}.
  assert (ME : map sc_epoch (map (with_orbit tpl) os) = Traj_Spec.grid s step n).
  { rewrite map_map. rewrite <- M. apply map_ext. intros o. reflexivity. }
  split; [|split; [reflexivity|split; [|split]]].
  - unfold from_bsp. fold s u. change (ts_inclusive s u step) with (Traj_Proofs.series s u step 0).
    rewrite (bsp_grid tpl s u step n fuel 0 os); [reflexivity|lia|lia| |lia|lia|].
    + unfold n, grid_count. destruct (Z.ltb_spec u s); [lia|exact Hf].
    + replace (s + 0 * step) with s by ring. exact AT.
  - cbn [t_states].
    assert (C : strictly_chronological (fun e => e) (Traj_Spec.grid s step n)).
    { clear -Hs. clearbody n s. revert s. induction n as [|n IH]; intros s; cbn; [trivial|]. split; [|apply IH].
      intros y Hy. apply grid_in in Hy. destruct Hy as (k & Hk & ->). nia. }
    rewrite <- ME in C. clear -C. induction (map (with_orbit tpl) os) as [|x l IH]; [exact I|]. destruct C as [C1 C2].
    split; [|now apply IH]. intros y Hy. apply C1. now apply in_map.
  - intros d. cbn [t_states]. rewrite ME. apply IN.
  - intros x Hx. cbn [t_states] in Hx. apply in_map_iff in Hx. destruct Hx as (o & <- & Ho). split; [|reflexivity].
    change (sc_epoch (with_orbit tpl o)) with (Sc_Model.epoch o). change (sc_orbit (with_orbit tpl o)) with o.
    clear -AT M Ho. revert M. induction AT as [|e o' g os H F IH]; intros M; [destruct Ho|]. cbn [map] in M.
    assert (Sc_Model.epoch o' = e /\ map Sc_Model.epoch os = g) as [E1 E2] by (split; congruence).
    destruct Ho as [->|Ho]; [now rewrite E1|]. now apply IH.
Qed.

(** One orbit that is missing is an error. *)
Theorem C104_bsp_missing : forall fuel tpl d0 d1 step start stop name k, 0 < step -> 0 <= k ->
  let s := match start with Some e => e | None => d0 end in
  let u := match stop with Some e => e | None => d1 end in
  s + k * step <= u -> orbit_at (s + k * step) = None ->
  ~ is_ok (from_bsp (Some (d0, d1)) orbit_at fuel tpl step start stop name).
Proof.
  intros fuel tpl d0 d1 step start stop name k Hs Hk s u Hin Hno. unfold from_bsp. fold s u.
  change (ts_inclusive s u step) with (Traj_Proofs.series s u step 0).
  assert (G : forall fuel cur, 0 <= cur <= k -> forall l, bsp_states orbit_at fuel tpl (Traj_Proofs.series s u step cur) <> Ok l).
  { clear fuel. induction fuel as [|fuel IH]; intros cur Hc l; cbn [bsp_states]; [discriminate|]. rewrite ts_next_series.
    destruct (Z.ltb_spec u (s + cur * step)) as [H|H]; [nia|].
    destruct (Z.eq_dec cur k) as [->|N]; [rewrite Hno; discriminate|].
    destruct (orbit_at (s + cur * step)); [|discriminate].
    specialize (IH (cur + 1) ltac:(lia)). destruct (bsp_states orbit_at fuel tpl (Traj_Proofs.series s u step (cur + 1))) as [l'|x| |];
      cbn [bind]; try discriminate. now elim (IH l'). }
  specialize (G fuel 0 ltac:(lia)). destruct (bsp_states orbit_at fuel tpl (Traj_Proofs.series s u step 0)) as [l|x| |];
    cbn [bind]; intros [t Ht]; try discriminate Ht. now elim (G l).
Qed.
End Bsp.

(** The domain of the file is needed even when both epochs are given; an end before the start makes a
    trajectory without states, on which the iterators panic. *)
Theorem C104_bsp_refuted :
  (forall orbit_at fuel tpl step s u name, from_bsp None orbit_at fuel tpl step (Some s) (Some u) name = Err NoDomain) /\
  (forall domain orbit_at fuel tpl step s u name, u < s ->
     from_bsp (Some domain) orbit_at (S fuel) tpl step (Some s) (Some u) name = Ok {| t_name := name; t_states := [] |}) /\
  (forall (ops : state_ops spacecraft nat) fuel step, every ops fuel [] step = Panic).
Proof.
  split; [reflexivity|]. split; [|reflexivity]. intros [d0 d1] orbit_at fuel tpl step s u name H.
  unfold from_bsp. cbn [bsp_states]. unfold ts_next, ts_inclusive. cbn [ts_cur ts_step ts_incl ts_duration].
  replace (u - s <? 0 * step) with true; [reflexivity|]. symmetry. apply Z.ltb_lt. lia.
Qed.

(** ** Solutions *)

(** The ephemeris of a solution has one record for each date of its estimates, in order: the estimated orbit
    of the last one at this date and the covariance of its position and velocity. *)
Definition est_epoch (e : estimate) : Z := Sc_Model.epoch (sc_orbit (state e)).
Theorem C104_solution : forall id l, let e := solution_ephemeris id l in
  object_id e = id /\ strictly_chronological er_epoch (records e) /\
  forall d, match last_at est_epoch d l, last_at er_epoch d (records e) with
            | Some x, Some r => er_orbit r = sc_orbit (state x) /\
                exists p, er_covar r = Some p /\ (forall i j, (i < 6)%nat -> (j < 6)%nat -> p i j = covar x i j) /\
                  forall i j, (6 <= i \/ 6 <= j)%nat -> p i j = 0%R
            | None, None => True
            | _, _ => False
            end.
Proof.
  intros id l e. split; [reflexivity|]. unfold e, solution_ephemeris. cbn [records].
  destruct (inserted of_estimate l [] I) as [A B]. split; [exact A|]. intros d. rewrite B.
  change (fun x => er_epoch (of_estimate x)) with est_epoch.
  destruct (last_at est_epoch d l) as [x|]; [|exact I]. split; [reflexivity|]. eexists. split; [reflexivity|].
  cbv beta. split; intros i j; [intros Hi Hj|intros H]; destruct (Nat.ltb_spec i 6); destruct (Nat.ltb_spec j 6); cbn [andb]; reflexivity || lia.
Qed.

(** ** Examples *)

Example round_trip_case : strictly_chronological sc_epoch [at_date 0 20; at_date ninety 20] /\
  Forall (same_but_orbit (at_date 5 20)) [at_date 0 20; at_date ninety 20].
Proof.
  split; [|repeat constructor]. split; [|split; [intros y []|exact I]]. intros y [<-|[]]. cbn. reflexivity.
Qed.
Example sampled_case : let t := {| t_name := None; t_states := [at_date 0 20; at_date ninety 10] |} in
  let c := {| cfg_start := Some 5; cfg_end := Some 200000000000; cfg_step := Some 40000000000 |} in
  from_of still_ops c (at_date 0 20) = 5 /\ until_of still_ops c (at_date ninety 10) = ninety /\
  (forall d, 5 <= d <= ninety -> exists s, at_epoch still_ops (t_states t) d = Ok s /\ sc_epoch s = d) /\
  exists e, to_ephemeris still_ops 10 "sc"%string c t = Ok e /\ map er_epoch (records e) = [5; 40000000005; 80000000005].
Proof.
  cbv zeta. split; [reflexivity|]. split; [reflexivity|]. split.
  - intros d Hd. unfold at_epoch, first, last_state, ninety in *. cbn [t_states length nth_error Nat.sub].
    change (st_epoch still_ops) with sc_epoch. change (sc_epoch (at_date 0 20)) with 0.
    change (sc_epoch (at_date 90000000000 10)) with 90000000000.
    replace (d <? 0) with false by (symmetry; apply Z.ltb_ge; lia).
    replace (90000000000 <? d) with false by (symmetry; apply Z.ltb_ge; lia). cbn [orb].
    destruct (Z.eq_dec d 90000000000) as [->|N]; [eexists; split; reflexivity|].
    unfold binary_search_by. cbn [length search_loop Nat.leb Nat.div Nat.divmod fst Nat.add Nat.sub].
    unfold cmp_at. cbn [nth_error]. change (sc_epoch (at_date 0 20)) with 0.
    change (sc_epoch (at_date 90000000000 10)) with 90000000000.
    assert ((90000000000 ?= d) = Gt) as -> by (apply Z.compare_gt_iff; lia). cbn [nth_error].
    change (sc_epoch (at_date 0 20)) with 0.
    destruct (Z.compare_spec 0 d) as [<-|L|L]; [eexists; split; reflexivity| |lia].
    eexists. split; reflexivity.
  - eexists. split; reflexivity.
Qed.
Example bsp_case : exists t, from_bsp (Some (0, 100)) (fun d => Some (Orbit d 0 (V3 7000 0 0) (V3 0 7 0))) 10 (at_date 0 20) 40 None (Some 90) None = Ok t /\
  map sc_epoch (t_states t) = [0; 40; 80].
Proof. eexists. split; reflexivity. Qed.

Print Assumptions C104_ephemeris.
Print Assumptions C104_round_trip_partial.
Print Assumptions C104_sampled_partial.
Print Assumptions C104_outside_refuted.
Print Assumptions C104_empty_refuted.
Print Assumptions C104_masses_refuted.
Print Assumptions C104_start_refuted.
Print Assumptions C104_bsp.
Print Assumptions C104_bsp_missing.
Print Assumptions C104_bsp_refuted.
Print Assumptions C104_solution.
