(** C22-C24: tracking schedules, simulated measurements and tracking configurations.  The
    vocabulary is in [Sched_Spec]. *)
From Coq Require Import Reals String Sorted Permutation.
From Verif Require Import Base RustStd Arc_Model Arc_Spec Arc_Proofs Arc_Props.
From Verif Require Import Sched_Model Sched_Spec Sched_Proofs.
Local Open Scope string_scope.
Local Open Scope Z_scope.

(** hifitime's rounding, for positive epochs and alignments *)
Definition nearest (x a : Z) : Z :=
  let f := x - x mod a in if x - f <? f + a - x then f else f + a.
Example nearest_rounds : rounds nearest.
Proof.
  intros x a Ha. unfold nearest. pose proof (Z.mod_pos_bound x a Ha).
  destruct (Z.ltb_spec (x - (x - x mod a)) (x - x mod a + a - x)); lia.
Qed.

(** Schedulers for the examples, and trackers seeing the vehicle in given windows. *)
Definition scheduler_of (h : handoff_policy) (c : cadence_policy) (n : Z) (a : option Z) : scheduler :=
  {| handoff := h; cadence := c; min_samples := n; sample_alignment := a |}.
Definition config_of (h : handoff_policy) (n : Z) (d : Z) : trkconfig :=
  {| sched := Some (scheduler_of h Continuous n None); sampling := d; strands := None |}.
Definition seen (ws : list (string * list (Z * Z))) (name : string) (_ : Z) : res unit (list (Z * Z)) :=
  match find name ws with Some l => Ok l | None => Ok [] end.
Definition trackers : list string := ["A"; "B"; "C"].
Definition network (c : trkconfig) : list (string * trkconfig) := [("A", c); ("B", c); ("C", c)].
Lemma network_keyed c : keyed (network c).
Proof. repeat constructor; cbn; intuition discriminate. Qed.
Lemma network_find c name c' : find name (network c) = Some c' -> c' = c.
Proof.
  unfold find, network. cbn. destruct (String.eqb name "A"); [congruence|].
  destruct (String.eqb name "B"); [congruence|]. destruct (String.eqb name "C"); congruence.
Qed.

(** ** C22.  With eager trackers no two strands of the schedule share an instant, whatever the
    windows, their number, the cadence and the alignment. *)
Theorem C22_eager_no_overlap :
  forall {E} round (visibility : string -> Z -> res E (list (Z * Z))) oc devices configs out,
    keyed configs ->
    all_scheduled (fun c sc => handoff sc = Eager /\ 0 < sampling c) configs ->
    generate_schedule round visibility oc devices configs = Ok out ->
    forall n1 p1 s1 n2 p2 s2,
      strand_at out n1 p1 = Some s1 -> strand_at out n2 p2 = Some s2 -> (n1, p1) <> (n2, p2) ->
      ~ overlap s1 s2.
Proof.
  intros E round vis oc devices configs out K A H.
  apply (generate_disjoint round vis oc devices configs out K H).
  - intros name c Hc. destruct (A name c Hc) as (sc & _ & _ & _ & P). exact P.
  - left. intros name c Hc. destruct (A name c Hc) as (sc & S & _ & P & _). now exists sc.
Qed.
Print Assumptions C22_eager_no_overlap.

(** Three stations in view together. *)
Definition busy := seen [("A", [(0, 100)]); ("B", [(50, 150); (300, 400)]); ("C", [(120, 350)])].
Example eager_network :
  all_scheduled (fun c sc => handoff sc = Eager /\ 0 < sampling c) (network (config_of Eager 3 10)) /\
  generate_schedule nearest busy true trackers (network (config_of Eager 3 10)) =
    Ok [("A", {| sched := None; sampling := 10; strands := Some [{| s_start := 0; s_end := 40 |}] |});
        ("B", {| sched := None; sampling := 10;
                 strands := Some [{| s_start := 50; s_end := 110 |}; {| s_start := 300; s_end := 400 |}] |});
        ("C", {| sched := None; sampling := 10; strands := Some [{| s_start := 120; s_end := 290 |}] |})].
Proof.
  split; [|reflexivity]. intros name c Hc. apply network_find in Hc. subst c.
  eexists. repeat split; cbn; lia.
Qed.

(** With greedy trackers the same holds when no visibility window contains another one (and
    without cadence or alignment). *)
Theorem C22_greedy_no_overlap_partial :
  forall {E} round (visibility : string -> Z -> res E (list (Z * Z))) oc devices configs out,
    keyed configs ->
    all_scheduled (fun c sc => handoff sc = Greedy /\ cadence sc = Continuous /\
                               sample_alignment sc = None /\ 0 < sampling c) configs ->
    (forall n1 c1 ws1 w1 n2 c2 ws2 w2,
        find n1 configs = Some c1 -> visibility n1 (sampling c1) = Ok ws1 -> In w1 ws1 ->
        find n2 configs = Some c2 -> visibility n2 (sampling c2) = Ok ws2 -> In w2 ws2 ->
        fst w1 <= fst w2 -> snd w1 <= snd w2) ->
    generate_schedule round visibility oc devices configs = Ok out ->
    forall n1 p1 s1 n2 p2 s2,
      strand_at out n1 p1 = Some s1 -> strand_at out n2 p2 = Some s2 -> (n1, p1) <> (n2, p2) ->
      ~ overlap s1 s2.
Proof.
  intros E round vis oc devices configs out K A V H.
  apply (generate_disjoint round vis oc devices configs out K H).
  - intros name c Hc. destruct (A name c Hc) as (sc & _ & _ & _ & _ & _ & P). exact P.
  - right. split.
    + intros name c Hc. destruct (A name c Hc) as (sc & S & _ & P & _). now exists sc.
    + assert (Win : forall n c a, planned round vis configs n c ->
                (exists l, strands c = Some l /\ In a l) ->
                exists c0 ws, find n configs = Some c0 /\ vis n (sampling c0) = Ok ws /\
                              In (s_start a, s_end a) ws).
      { intros n c a (c0 & F & _ & [P|(sc & ws & P1 & P2 & P3)]) (l & L & I).
        - destruct (A n c0 F) as (sc & _ & N & _). congruence.
        - exists c0, ws. split; [assumption|]. split; [assumption|].
          rewrite L in P3. injection P3 as ->. apply build_strands_in in I.
          destruct I as [[]|([lo hi] & Hw & S)]. unfold scheduled_in in S.
          destruct (A n c0 F) as (sc' & S1 & _ & _ & S2 & S3 & _). rewrite P1 in S1. injection S1 as <-.
          rewrite S2, S3 in S. cbn in S. destruct S as (_ & _ & _ & -> & ->). exact Hw. }
      intros n1 c1 n2 c2 a b P1 P2 I1 I2 L.
      destruct (Win n1 c1 a P1 I1) as (d1 & ws1 & A1 & A2 & A3).
      destruct (Win n2 c2 b P2 I2) as (d2 & ws2 & B1 & B2 & B3).
      exact (V _ _ _ _ _ _ _ _ A1 A2 A3 B1 B2 B3 L).
Qed.
Print Assumptions C22_greedy_no_overlap_partial.

Definition chain := seen [("A", [(0, 100)]); ("B", [(50, 150)]); ("C", [(90, 350)])].
Example greedy_network :
  all_scheduled (fun c sc => handoff sc = Greedy /\ cadence sc = Continuous /\
                             sample_alignment sc = None /\ 0 < sampling c) (network (config_of Greedy 3 10)) /\
  (forall n1 c1 ws1 w1 n2 c2 ws2 w2,
     find n1 (network (config_of Greedy 3 10)) = Some c1 -> chain n1 (sampling c1) = Ok ws1 -> In w1 ws1 ->
     find n2 (network (config_of Greedy 3 10)) = Some c2 -> chain n2 (sampling c2) = Ok ws2 -> In w2 ws2 ->
     fst w1 <= fst w2 -> snd w1 <= snd w2) /\
  generate_schedule nearest chain true trackers (network (config_of Greedy 3 10)) =
    Ok [("A", {| sched := None; sampling := 10; strands := Some [{| s_start := 0; s_end := 100 |}] |});
        ("B", {| sched := None; sampling := 10; strands := Some [{| s_start := 110; s_end := 150 |}] |});
        ("C", {| sched := None; sampling := 10; strands := Some [{| s_start := 160; s_end := 350 |}] |})].
Proof.
  split; [|split; [|reflexivity]].
  - intros name c Hc. apply network_find in Hc. subst c. eexists. repeat split; cbn; lia.
  - assert (W : forall n d ws w, chain n d = Ok ws -> In w ws ->
              w = (0, 100) \/ w = (50, 150) \/ w = (90, 350)).
    { intros n d ws w. unfold chain, seen, find. cbn.
      destruct (String.eqb n "A"); [intros [= <-] [<-|[]]; auto|].
      destruct (String.eqb n "B"); [intros [= <-] [<-|[]]; auto|].
      destruct (String.eqb n "C"); [intros [= <-] [<-|[]]; auto|]. intros [= <-] []. }
    intros n1 c1 ws1 w1 n2 c2 ws2 w2 _ A2 A3 _ B2 B3.
    destruct (W _ _ _ _ A2 A3) as [->|[->| ->]], (W _ _ _ _ B2 B3) as [->|[->| ->]]; cbn; lia.
Qed.

(** Not in general: each strand is only compared with the next one, so a station still in view
    of the third is not told about it (arc.rs:411-437). *)
Theorem C22_greedy_overlap_refuted :
  exists (visibility : string -> Z -> res unit (list (Z * Z))) out s1 s3,
    generate_schedule nearest visibility true trackers (network (config_of Greedy 3 10)) = Ok out /\
    strand_at out "A" 0 = Some s1 /\ strand_at out "C" 0 = Some s3 /\ overlap s1 s3.
Proof.
  exists (seen [("A", [(0, 1000)]); ("B", [(100, 200)]); ("C", [(300, 400)])]).
  do 3 eexists. split; [reflexivity|]. split; [reflexivity|]. split; [reflexivity|].
  exists 350. unfold tracks. cbn. lia.
Qed.
Print Assumptions C22_greedy_overlap_refuted.

(** Without alignment every strand lies in a visibility window of its tracker that is long
    enough for the minimum number of samples, whatever the handoff and the cadence. *)
Theorem C22_visible :
  forall {E} round (visibility : string -> Z -> res E (list (Z * Z))) oc devices configs out,
    keyed configs ->
    all_scheduled (fun c sc => sample_alignment sc = None /\ 0 < sampling c) configs ->
    generate_schedule round visibility oc devices configs = Ok out ->
    forall n p s, strand_at out n p = Some s ->
      exists c sc ws rise fall, find n configs = Some c /\ sched c = Some sc /\
        visibility n (sampling c) = Ok ws /\ In (rise, fall) ws /\
        rise <= s_start s /\ s_end s <= fall /\ sampling c * min_samples sc <= fall - rise.
Proof.
  intros E round vis oc devices configs out K A H n p s Hs.
  destruct (generate_at round vis oc devices configs out n p s K) as (c & s0 & F & L1 & L2 & Q); auto.
  - intros name c Hc. destruct (A name c Hc) as (sc & _ & _ & _ & P). exact P.
  - destruct (A n c F) as (sc & S & N & S1 & _).
    destruct Q as [(l & Q & _)|(sc' & ws & [rise fall] & Q1 & Q2 & Q3 & Q4)]; [congruence|].
    rewrite S in Q1. injection Q1 as <-.
    exists c, sc, ws, rise, fall. unfold scheduled_in in Q4. rewrite S1 in Q4. cbn in Q4.
    destruct Q4 as (Q5 & Q6 & Q7 & _). repeat split; auto; lia.
Qed.
Print Assumptions C22_visible.
Example visible_network :
  all_scheduled (fun c sc => sample_alignment sc = None /\ 0 < sampling c) (network (config_of Greedy 3 10)).
Proof. intros name c Hc. apply network_find in Hc. subst c. eexists. repeat split; cbn; lia. Qed.

(** With an alignment, to within half of it. *)
Theorem C22_visible_aligned :
  forall {E} round (visibility : string -> Z -> res E (list (Z * Z))) oc devices configs out,
    rounds round -> keyed configs ->
    all_scheduled (fun c sc => (exists a, sample_alignment sc = Some a /\ 0 < a) /\ 0 < sampling c) configs ->
    generate_schedule round visibility oc devices configs = Ok out ->
    forall n p s, strand_at out n p = Some s ->
      exists c sc ws rise fall a, find n configs = Some c /\ sched c = Some sc /\
        visibility n (sampling c) = Ok ws /\ In (rise, fall) ws /\ sample_alignment sc = Some a /\
        2 * rise - a <= 2 * s_start s /\ 2 * s_end s <= 2 * fall + a /\
        sampling c * min_samples sc <= fall - rise.
Proof.
  intros E round vis oc devices configs out R K A H n p s Hs.
  destruct (generate_at round vis oc devices configs out n p s K) as (c & s0 & F & L1 & L2 & Q); auto.
  - intros name c Hc. destruct (A name c Hc) as (sc & _ & _ & _ & P). exact P.
  - destruct (A n c F) as (sc & S & N & (a & S1 & S2) & _).
    destruct Q as [(l & Q & _)|(sc' & ws & [rise fall] & Q1 & Q2 & Q3 & Q4)]; [congruence|].
    rewrite S in Q1. injection Q1 as <-.
    exists c, sc, ws, rise, fall, a. unfold scheduled_in in Q4. rewrite S1 in Q4. cbn in Q4.
    destruct Q4 as (Q5 & Q6 & Q7 & _). pose proof (R rise a S2). pose proof (R fall a S2).
    repeat split; auto; lia.
Qed.
Print Assumptions C22_visible_aligned.
Definition aligned : trkconfig :=
  {| sched := Some (scheduler_of Eager Continuous 2 (Some 60)); sampling := 10; strands := None |}.
Example aligned_network :
  all_scheduled (fun c sc => (exists a, sample_alignment sc = Some a /\ 0 < a) /\ 0 < sampling c)
    (network aligned) /\
  generate_schedule nearest (seen [("A", [(20, 110)])]) true ["A"] (network aligned) =
    Ok [("A", {| sched := None; sampling := 10; strands := Some [{| s_start := 0; s_end := 120 |}] |});
        ("B", aligned); ("C", aligned)].
Proof.
  split; [|reflexivity]. intros name c Hc. apply network_find in Hc. subst c. eexists.
  split; [reflexivity|]. split; [reflexivity|]. cbn. split; [|lia]. exists 60. split; [reflexivity|lia].
Qed.
(** The rounding does move strands out of sight (arc.rs:356-359). *)
Theorem C22_visible_refuted :
  exists (visibility : string -> Z -> res unit (list (Z * Z))) out s,
    generate_schedule nearest visibility true ["A"] (network aligned) = Ok out /\
    visibility "A" 10 = Ok [(20, 110)] /\
    strand_at out "A" 0 = Some s /\ s_start s < 20 /\ 110 < s_end s.
Proof.
  exists (seen [("A", [(20, 110)])]). do 2 eexists. split; [reflexivity|]. split; [reflexivity|].
  split; [reflexivity|]. cbn. lia.
Qed.
Print Assumptions C22_visible_refuted.

(** An eager handoff may leave a strand that ends before it starts, or too short. *)
Theorem C22_ordered_refuted :
  exists (visibility : string -> Z -> res unit (list (Z * Z))) out s,
    generate_schedule nearest visibility true trackers (network (config_of Eager 3 10)) = Ok out /\
    strand_at out "A" 0 = Some s /\ s_end s < s_start s.
Proof.
  exists (seen [("A", [(0, 100)]); ("B", [(5, 150)])]). do 2 eexists.
  split; [reflexivity|]. split; [reflexivity|]. cbn. lia.
Qed.
Print Assumptions C22_ordered_refuted.
Theorem C22_samples_refuted :
  exists (visibility : string -> Z -> res unit (list (Z * Z))) out s,
    generate_schedule nearest visibility true trackers (network (config_of Eager 3 10)) = Ok out /\
    strand_at out "A" 0 = Some s /\ s_start s < s_end s < s_start s + 3 * 10.
Proof.
  exists (seen [("A", [(0, 100)]); ("B", [(25, 150)])]). do 2 eexists.
  split; [reflexivity|]. split; [reflexivity|]. cbn. lia.
Qed.
Print Assumptions C22_samples_refuted.

(** Overlapping trackers, without cadence or alignment, get exactly their windows that are long
    enough. *)
Theorem C22_overlap_exact :
  forall {E} round (visibility : string -> Z -> res E (list (Z * Z))) oc devices configs out,
    keyed configs ->
    (forall name c sc, find name configs = Some c -> sched c = Some sc -> handoff sc = Overlap) ->
    generate_schedule round visibility oc devices configs = Ok out ->
    forall n c sc, In n devices -> find n configs = Some c -> sched c = Some sc ->
      cadence sc = Continuous -> sample_alignment sc = None ->
      exists ws, visibility n (sampling c) = Ok ws /\
      forall s, (exists p, strand_at out n p = Some s) <->
        In (s_start s, s_end s) ws /\ sampling c * min_samples sc <= s_end s - s_start s.
Proof.
  intros E round vis oc devices configs out K O H n c sc I Hc Hsc C A.
  destruct (generate_overlap round vis oc devices configs out n c sc K H O I Hc Hsc) as (ws & c' & V & F & S).
  exists ws. split; [assumption|]. intros s. unfold strand_at. rewrite F, S. split.
  - intros [p Hp]. apply nth_error_In, build_strands_in in Hp. destruct Hp as [[]|([rise fall] & Hw & Q)].
    unfold scheduled_in in Q. rewrite A, C in Q. cbn in Q. destruct Q as (Q1 & _ & _ & -> & ->). auto.
  - intros [Hw L]. destruct (build_strands_all round c sc ws C [] _ Hw L) as (s' & I' & Q).
    unfold scheduled_in in Q. rewrite A, C in Q. cbn in Q. destruct Q as (_ & _ & _ & Q1 & Q2).
    apply In_nth_error in I'. destruct I' as [p Hp]. exists p. rewrite Hp. f_equal.
    destruct s, s'. cbn in *. congruence.
Qed.
Print Assumptions C22_overlap_exact.
Example overlap_network :
  generate_schedule nearest busy true trackers (network (config_of Overlap 10 10)) =
    Ok [("A", {| sched := None; sampling := 10; strands := Some [{| s_start := 0; s_end := 100 |}] |});
        ("B", {| sched := None; sampling := 10;
                 strands := Some [{| s_start := 50; s_end := 150 |}; {| s_start := 300; s_end := 400 |}] |});
        ("C", {| sched := None; sampling := 10; strands := Some [{| s_start := 120; s_end := 350 |}] |})].
Proof. reflexivity. Qed.

(** On and off durations are respected (before handoffs). *)
Theorem C22_cadence :
  forall {E} round (visibility : string -> Z -> res E (list (Z * Z))) oc devices configs out,
    keyed configs ->
    (forall name c sc, find name configs = Some c -> sched c = Some sc -> handoff sc = Overlap) ->
    generate_schedule round visibility oc devices configs = Ok out ->
    forall n c sc on off, In n devices -> find n configs = Some c -> sched c = Some sc ->
      cadence sc = Intermittent on off ->
      (forall p s, strand_at out n p = Some s -> s_end s - s_start s <= on) /\
      (forall p a b, strand_at out n p = Some a -> strand_at out n (S p) = Some b ->
         s_end a + off <= s_start b).
Proof.
  intros E round vis oc devices configs out K O H n c sc on off I Hc Hsc C.
  destruct (generate_overlap round vis oc devices configs out n c sc K H O I Hc Hsc) as (ws & c' & V & F & S).
  unfold strand_at. rewrite F, S. split.
  - intros p s Hp. apply nth_error_In, build_strands_in in Hp. destruct Hp as [[]|(w & _ & Q)].
    unfold scheduled_in in Q. rewrite C in Q.
    destruct (match sample_alignment sc with Some a => (round (fst w) a, round (snd w) a) | None => w end).
    apply Q.
  - intros p a b Ha Hb.
    eapply (build_strands_apart round c sc on off ws C []); [|exact Ha|exact Hb].
    intros k x y Hx. destruct k; discriminate.
Qed.
Print Assumptions C22_cadence.
Definition on_off : trkconfig :=
  {| sched := Some (scheduler_of Overlap (Intermittent 30 50) 2 None); sampling := 10; strands := None |}.
Example cadence_network :
  generate_schedule nearest (seen [("A", [(0, 100); (60, 120); (125, 180)])]) true ["A"] (network on_off) =
    Ok [("A", {| sched := None; sampling := 10;
                 strands := Some [{| s_start := 0; s_end := 30 |}; {| s_start := 80; s_end := 110 |};
                                  {| s_start := 160; s_end := 180 |}] |});
        ("B", on_off); ("C", on_off)].
Proof. reflexivity. Qed.

(** When nothing is scheduled the computation of the last index underflows (arc.rs:412): with
    overflow checks the call panics instead of returning an empty schedule. *)
Theorem C22_empty_schedule_refuted :
  exists (visibility : string -> Z -> res unit (list (Z * Z))),
    generate_schedule nearest visibility true trackers (network (config_of Eager 3 10)) = Panic.
Proof. exists (seen []). reflexivity. Qed.
Print Assumptions C22_empty_schedule_refuted.

(** ** C23.  There is a measurement by a tracker at an epoch exactly when the epoch is a sampling
    instant of one of its strands, where the device sees the vehicle and has not failed earlier
    in that strand; the arc is in order with one measurement per tracker and epoch. *)
Theorem C23_sampling_grid :
  forall {E W} (measure : string -> Z -> W -> W * res E (option measurement)) sight_of,
    behaves measure sight_of ->
  forall usort, sorts usort ->
  forall configs, (forall name c, find name configs = Some c -> 0 < sampling c) ->
  forall fuel devices w w' arc,
    generate_measurements W measure usort fuel configs devices w = Ok (w', arc) ->
    StronglySorted before (measurements arc) /\
    forall name e, (exists m, In m (measurements arc) /\ epoch m = e /\ tracker m = name) <->
      In name devices /\
      exists c l s k, find name configs = Some c /\ strands c = Some l /\ In s l /\
        sampled sight_of name (sampling c) s k /\ e = s_start s + Z.of_nat k * sampling c.
Proof.
  intros E W measure sight_of B usort U configs P fuel devices w w' arc H.
  destruct (simulate_spec measure sight_of B configs P usort fuel devices w (w', arc) U H) as [A1 A2].
  split; [exact A1|]. intros name e. cbn [snd] in A2. rewrite A2.
  unfold from_device, from_strands, instant. split.
  - intros (I & c & l & C1 & C2 & s & k & C3 & C4 & C5). split; [assumption|]. now exists c, l, s, k.
  - intros (I & c & l & s & k & C1 & C2 & C3 & C4 & C5). split; [assumption|]. exists c, l.
    repeat split; auto. now exists s, k.
Qed.
Print Assumptions C23_sampling_grid.

(** The simulation ends, and fails only for a tracker whose schedule was not built. *)
Theorem C23_terminates :
  forall {E W} (measure : string -> Z -> W -> W * res E (option measurement)) sight_of,
    behaves measure sight_of ->
  forall usort configs devices,
    (forall name c, find name configs = Some c -> 0 < sampling c) ->
    (forall name c, find name configs = Some c -> sched c <> None -> strands c <> None) ->
    exists n, forall fuel, (n <= fuel)%nat -> forall w,
      is_ok (generate_measurements W measure usort fuel configs devices w).
Proof.
  intros E W measure sight_of B usort configs devices P S.
  destruct (measure_devices_ends measure sight_of B configs P devices S) as [n H].
  exists n. intros fuel Hf w. unfold generate_measurements.
  destruct (H fuel Hf w []) as [r ->]. eexists; reflexivity.
Qed.
Print Assumptions C23_terminates.

(** A device with noise drawn from a generator: in view for 25 seconds out of every 40, lost
    after the epoch 100. *)
Definition antenna (name : string) (e : Z) (rng : Z) : Z * res unit (option measurement) :=
  if 100 <? e then (rng, Err tt)
  else if e mod 40 <? 25 then
    (rng + 1, Ok (Some {| tracker := name; epoch := e; obs := [(Range, IZR rng)]; rejected := false |}))
  else (rng, Ok None).
Definition antenna_sight (_ : string) (e : Z) : sight :=
  if 100 <? e then Fails else if e mod 40 <? 25 then Sees else Blind.
Example antenna_behaves : behaves antenna antenna_sight.
Proof.
  intros name e w. unfold antenna, antenna_sight. destruct (100 <? e); [now exists tt|].
  destruct (e mod 40 <? 25); [|reflexivity]. eexists. repeat split.
Qed.
Definition two_strands : trkconfig :=
  {| sched := None; sampling := 10;
     strands := Some [{| s_start := 75; s_end := 200 |}; {| s_start := 0; s_end := 33 |}] |}.
Example antenna_run :
  exists w arc,
    generate_measurements Z antenna stable_sort 20 (network two_strands) ["B"] 7 = Ok (w, arc) /\
    map epoch (measurements arc) = [0; 10; 20; 85; 95] /\
    map (fun m => obs m) (measurements arc) =
      [[(Range, 9%R)]; [(Range, 10%R)]; [(Range, 11%R)]; [(Range, 7%R)]; [(Range, 8%R)]].
Proof. do 2 eexists. split; [reflexivity|]. split; reflexivity. Qed.

(** ** C24.  A configuration is accepted exactly when it has a scheduler and no strands, or no
    scheduler and at least one strand, all ordered and at least one sampling long. *)
Theorem C24_accepted_iff :
  forall c, is_ok (sanity_check c) <->
    (sched c <> None /\ strands c = None) \/
    (sched c = None /\ exists s l, strands c = Some (s :: l) /\
       forall x, In x (s :: l) -> s_start x <= s_end x /\ s_start x + sampling c <= s_end x).
Proof.
  intros c. rewrite sanity_spec. split.
  - intros [(sc & S1 & S2)|(l & S1 & S2 & S3 & S4)]; [left; split; congruence|right].
    split; [assumption|]. destruct l as [|s l]; [congruence|]. exists s, l. split; [assumption|].
    now apply Forall_forall.
  - intros [(S1 & S2)|(S1 & s & l & S2 & S3)].
    + left. destruct (sched c) as [sc|]; [|congruence]. now exists sc.
    + right. exists (s :: l). repeat split; auto; [discriminate|]. now apply Forall_forall.
Qed.
Print Assumptions C24_accepted_iff.
Example accepted_and_not :
  is_ok (sanity_check two_strands) /\ is_ok (sanity_check default_config) /\
  sanity_check {| sched := None; sampling := MINUTE; strands := Some [{| s_start := 0; s_end := SECOND |}] |}
    = Err (TooShort 0) /\
  sanity_check {| sched := Some default_scheduler; sampling := MINUTE; strands := Some [] |}
    = Err BothConfigured.
Proof. repeat split; eexists; reflexivity. Qed.

(** A simulator is built exactly when at least one of its devices is accepted. *)
Theorem C24_simulator_iff :
  forall devices configs, is_ok (with_rng devices configs) <->
    exists name c, In name devices /\ find name configs = Some c /\ is_ok (sanity_check c).
Proof.
  intros devices configs. unfold with_rng.
  assert (V : valid_samplings devices configs <> [] <->
              exists name c, In name devices /\ find name configs = Some c /\ is_ok (sanity_check c)).
  { unfold valid_samplings. induction devices as [|d ds IH]; cbn [flat_map].
    - split; [congruence|]. intros (n & c & [] & _).
    - assert (D : (match find d configs with
                   | Some cfg => match sanity_check cfg with Ok _ => [sampling cfg] | _ => [] end
                   | None => [] end) <> [] <-> exists c, find d configs = Some c /\ is_ok (sanity_check c)).
      { destruct (find d configs) as [c|].
        - destruct (sanity_check c) as [u| | |] eqn:Es.
          + split; [|discriminate]. intros _. exists c. split; [reflexivity|]. rewrite Es. now exists u.
          + split; [congruence|]. intros (? & [= <-] & [? R]). congruence.
          + split; [congruence|]. intros (? & [= <-] & [? R]). congruence.
          + split; [congruence|]. intros (? & [= <-] & [? R]). congruence.
        - split; [congruence|]. intros (? & R & _). discriminate. }
      split.
      + intros H. match type of H with app ?a ?b <> nil => destruct a as [|x a'] eqn:Ea end.
        * destruct (proj1 IH H) as (n & c & I & Q). exists n, c. split; [now right|assumption].
        * destruct (proj1 D ltac:(discriminate)) as (c & C1 & C2). exists d, c. split; [now left|]. auto.
      + intros (n & c & [<-|I] & C1 & C2) H; apply app_eq_nil in H; destruct H as [H1 H2].
        * apply (proj2 D); [now exists c|assumption].
        * apply (proj2 IH); [now exists n, c|assumption]. }
  rewrite <- V. destruct (valid_samplings devices configs) as [|x l].
  - split; [intros [? H]; discriminate|congruence].
  - split; [discriminate|]. intros _. eexists; reflexivity.
Qed.
Print Assumptions C24_simulator_iff.
Example simulator_built : is_ok (with_rng ["A"; "Z"] (network two_strands)).
Proof. eexists; reflexivity. Qed.

(** A device whose configuration is rejected is reported as ignored but still measures
    (arc.rs:94-97 only skips its sampling rate, arc.rs:180-243 does not check again). *)
Definition too_fast : trkconfig :=
  {| sched := None; sampling := 60; strands := Some [{| s_start := 0; s_end := 33 |}] |}.
Theorem C24_rejected_device_ignored_refuted :
  exists configs devices w arc m,
    find "A" configs = Some too_fast /\ sanity_check too_fast = Err (TooShort 0) /\
    is_ok (with_rng devices configs) /\
    generate_measurements Z antenna stable_sort 20 configs devices 7 = Ok (w, arc) /\
    In m (measurements arc) /\ tracker m = "A".
Proof.
  exists [("A", too_fast); ("B", two_strands)], ["A"; "B"]. do 3 eexists.
  split; [reflexivity|]. split; [reflexivity|]. split; [eexists; reflexivity|].
  split; [reflexivity|]. split; [left; reflexivity|reflexivity].
Qed.
Print Assumptions C24_rejected_device_ignored_refuted.

(** A zero sampling is accepted, and the simulation then never ends as long as the device does
    not fail at the start of the strand. *)
Theorem C24_zero_sampling_refuted :
  exists c, is_ok (sanity_check c) /\
    forall fuel w, generate_measurements Z antenna stable_sort fuel [("A", c)] ["A"] w = NoFuel.
Proof.
  exists {| sched := None; sampling := 0; strands := Some [{| s_start := 0; s_end := 33 |}] |}.
  split; [eexists; reflexivity|]. intros fuel w. unfold generate_measurements.
  cbn [measure_devices find im_get String.eqb Ascii.eqb Bool.eqb sched strands sampling measure_strands
       s_start s_end bind].
  assert (H : forall fuel cur w msrs, measure_strand Z antenna fuel "A"
            {| ts_start := 0; ts_duration := 33 - 0; ts_step := 0; ts_cur := cur; ts_incl := true |} w msrs = NoFuel).
  { clear. induction fuel as [|fuel IH]; intros cur w msrs; [reflexivity|].
    cbn [measure_strand]. unfold ts_next. cbn [ts_cur ts_step ts_incl ts_duration ts_start].
    rewrite Z.mul_0_r. change (33 - 0 <? 0) with false. cbv iota beta zeta.
    unfold antenna at 1. cbn -[measure_strand antenna]. apply IH. }
  unfold ts_inclusive. rewrite H. reflexivity.
Qed.
Print Assumptions C24_zero_sampling_refuted.

(** The configurations built by default and from a sampling rate are accepted, whatever the rate; they
    schedule an eager and continuous tracking of at least ten samples, every minute aligned on the
    seconds or at the rate given and aligned on it. *)
Theorem C24_built : forall d,
  is_ok (sanity_check default_config) /\ is_ok (sanity_check (from_sample_rate d)) /\
  sampling default_config = 60 * 1000000000 /\ sampling (from_sample_rate d) = d /\
  (exists s, sched default_config = Some s /\ sample_alignment s = Some 1000000000 /\
     handoff s = Eager /\ cadence s = Continuous /\ min_samples s = 10) /\
  (exists s, sched (from_sample_rate d) = Some s /\ sample_alignment s = Some d /\
     handoff s = Eager /\ cadence s = Continuous /\ min_samples s = 10).
Proof. intros d. split; [eexists; reflexivity|]. split; [eexists; reflexivity|]. do 2 (split; [reflexivity|]). split; eexists; repeat split; reflexivity. Qed.
Print Assumptions C24_built.
