(** C16-C20: tracking data arcs.  The vocabulary is in [Arc_Spec]. *)
From Coq Require Import Reals Lra String Sorted Permutation.
From Verif Require Import Base RustStd Traj_Spec Arc_Model Arc_Spec Arc_Proofs.
Local Open Scope Z_scope.

(** Two legal sorts: a stable one, and one that reverses the order of equal keys. *)
Lemma msr_leb_spec a b : msr_leb a b = true <-> ~ before b a.
Proof.
  unfold msr_leb, before. destruct (Z.compare_spec (epoch a) (epoch b)) as [E|E|E].
  - rewrite (String.compare_antisym (tracker b)).
    destruct (String.compare (tracker a) (tracker b)); cbn; split; try congruence; intros H.
    + intros [L|[_ L]]; [lia|discriminate].
    + intros [L|[_ L]]; [lia|discriminate].
    + exfalso. apply H. auto.
  - split; [|reflexivity]. intros _ [L|[L _]]; lia.
  - split; [discriminate|]. intros H. exfalso. apply H. left. lia.
Qed.
Definition stable_sort := sort_by msr_leb.
Definition reversing_sort (l : list measurement) := sort_by msr_leb (rev l).
Lemma leb_sorts l : StronglySorted (fun a b => ~ before b a) (sort_by msr_leb l).
Proof.
  assert (O : ordered msr_leb (sort_by msr_leb l)).
  { apply sort_sorted.
    - intros a b. rewrite !msr_leb_spec. destruct (before_tri a b) as [H|[H|H]].
      + left. intros B. apply (before_irrefl a). eapply before_trans; eassumption.
      + left. apply same_not_before. now apply same_sym.
      + right. intros B. apply (before_irrefl a). eapply before_trans; eassumption.
    - intros a b c. rewrite !msr_leb_spec. apply not_before_trans. }
  unfold ordered in O. induction O as [|x r H1 IH H2]; constructor; [exact IH|].
  rewrite Forall_forall in *. intros y Hy. apply msr_leb_spec. auto.
Qed.
Lemma stable_sorts : sorts stable_sort.
Proof. intros l. split; [apply sort_perm|apply leb_sorts]. Qed.
Lemma reversing_sorts : sorts reversing_sort.
Proof.
  intros l. split; [|apply leb_sorts].
  eapply Permutation_trans; [apply Permutation_rev|apply sort_perm].
Qed.

(** ** C16.  Sorting an arc leaves one measurement per epoch and tracker, in order, with the
    observables of all the inputs with that key, whatever the sorting function does with equal
    keys. *)
Theorem C16_sort_partial :
  forall usort, sorts usort -> forall l, Forall well_formed l ->
    let out := sort_measurements usort l in
    StronglySorted before out /\
    (forall m', In m' l -> exists m, In m out /\ same m m') /\
    (forall m, In m out ->
       (exists m', In m' l /\ same m m') /\
       (rejected m = true <-> exists m', In m' l /\ same m' m /\ rejected m' = true) /\
       (forall t, get t (obs m) <> None <->
          exists m', In m' l /\ same m' m /\ get t (obs m') <> None) /\
       (forall t v, get t (obs m) = Some v ->
          exists m', In m' l /\ same m' m /\ get t (obs m') = Some v)).
Proof.
  intros usort Hu l W out. split; [now apply sort_time_ordered|].
  split; [intros m' H; now apply sort_all|].
  intros m Hm. split; [now apply (sort_keys usort Hu)|].
  pose proof (sort_merged usort Hu l W) as M. rewrite Forall_forall in M. apply (M m Hm).
Qed.
Print Assumptions C16_sort_partial.

(** ** The sum of two arcs has the measurements of both, sorted as above, and the moduli of the left one;
    it is not forced to be rejected. *)
Theorem C16_sum :
  forall usort, sorts usort -> forall a b, Forall well_formed (measurements a) -> Forall well_formed (measurements b) ->
    let out := add usort a b in
    StronglySorted before (measurements out) /\
    (forall m', In m' (measurements a) \/ In m' (measurements b) -> exists m, In m (measurements out) /\ same m m') /\
    (forall m, In m (measurements out) ->
       (exists m', (In m' (measurements a) \/ In m' (measurements b)) /\ same m m') /\
       (forall t v, get t (obs m) = Some v ->
          exists m', (In m' (measurements a) \/ In m' (measurements b)) /\ same m' m /\ get t (obs m') = Some v)) /\
    moduli out = moduli a /\ force_reject out = false.
Proof.
  intros usort Hu a b Wa Wb out.
  destruct (C16_sort_partial usort Hu (measurements a ++ measurements b)) as (S1 & S2 & S3); [now apply Forall_app|].
  split; [exact S1|]. split; [intros m' H; apply S2, in_or_app, H|]. split; [|split; reflexivity].
  intros m Hm. destruct (S3 m Hm) as ((m' & H1 & H2) & _ & _ & H4). apply in_app_or in H1.
  split; [now exists m'|]. intros t v G. destruct (H4 t v G) as (x & X1 & X2 & X3). apply in_app_or in X1. now exists x.
Qed.
Print Assumptions C16_sum.
(** The moduli of the right one are lost. *)
Theorem C16_sum_moduli_refuted :
  exists usort a b ms, sorts usort /\ moduli b = Some ms /\ ms <> [] /\ moduli (add usort a b) = None.
Proof.
  exists stable_sort, {| measurements := []; moduli := None; force_reject := false |},
    {| measurements := []; moduli := Some [(Range, 75000%R)]; force_reject := false |}, [(Range, 75000%R)].
  split; [exact stable_sorts|]. split; [reflexivity|]. split; [discriminate|reflexivity].
Qed.
Print Assumptions C16_sum_moduli_refuted.

(** With two values for the same observable, the later input need not win: the sort is
    unstable (mod.rs:91). *)
Definition ranging (e : Z) (v : R) : measurement :=
  {| tracker := "DSS"; epoch := e; obs := [(Range, v)]; rejected := false |}.
Theorem C16_later_wins_refuted :
  exists usort, sorts usort /\ exists first later,
    Forall well_formed [first; later] /\ same first later /\
    get Range (obs first) = Some 1%R /\ get Range (obs later) = Some 2%R /\
    exists m, sort_measurements usort [first; later] = [m] /\ get Range (obs m) = Some 1%R.
Proof.
  exists reversing_sort. split; [apply reversing_sorts|].
  exists (ranging 0 1), (ranging 0 2). split; [|repeat split].
  - repeat constructor; cbn; auto.
  - eexists. split; reflexivity.
Qed.
Print Assumptions C16_later_wins_refuted.

(** Sorting again changes nothing; the order of the input and the sorting function do not
    matter when no key occurs twice. *)
Theorem C16_idempotent :
  forall usort, sorts usort -> forall l,
    sort_measurements usort (sort_measurements usort l) = sort_measurements usort l.
Proof. intros usort Hu l. apply sort_fixed; [exact Hu|]. now apply sort_time_ordered. Qed.
Print Assumptions C16_idempotent.

Theorem C16_order_independent :
  forall usort usort', sorts usort -> sorts usort' -> forall l l',
    Permutation l l' ->  ForallOrdPairs (fun a b => ~ same a b) l ->
    sort_measurements usort l = sort_measurements usort' l'.
Proof.
  intros u u' Hu Hu' l l' P D.
  assert (DP : forall m, Permutation l m -> ForallOrdPairs (fun a b => ~ same a b) m).
  { intros m Q. clear -D Q. induction Q as [|x l m Q IH|x y l|l m n Q1 IH1 Q2 IH2]; auto.
    - inversion D as [|? ? D1 D2]; subst. constructor; [|auto].
      rewrite Forall_forall in *. intros z Hz. apply D1.
      eapply Permutation_in; [apply Permutation_sym, Q|exact Hz].
    - inversion D as [|? ? D1 D2]; subst. inversion D2 as [|? ? D3 D4]; subst.
      inversion D1 as [|? ? D5 D6]; subst. constructor; [|constructor; assumption].
      constructor; [|exact D3]. intros S. apply D5. now apply same_sym. }
  assert (ST : forall m, ForallOrdPairs (fun a b => ~ same a b) m ->
             StronglySorted (fun a b => ~ before b a) m -> StronglySorted before m).
  { induction m as [|x m IH]; intros A B; [constructor|].
    inversion A as [|? ? A1 A2]; subst. inversion B as [|? ? B1 B2]; subst.
    constructor; [auto|]. rewrite Forall_forall in *. intros y Hy.
    destruct (before_tri x y) as [T|[T|T]]; [exact T| |]; exfalso.
    - now apply (A1 y).
    - now apply (B2 y). }
  destruct (Hu l) as [P1 S1]. destruct (Hu' l') as [P2 S2].
  assert (E : u' l' = u l).
  { apply strict_unique; [apply ST; auto| |exact S2].
    eapply Permutation_trans; [apply Permutation_sym, P1|].
    eapply Permutation_trans; [exact P|exact P2]. }
  unfold sort_measurements. now rewrite E.
Qed.
Print Assumptions C16_order_independent.

Example C16_example :
  let a := {| tracker := "A"; epoch := 5; obs := [(Range, 1%R)]; rejected := false |} in
  let a' := {| tracker := "A"; epoch := 5; obs := [(Doppler, 2%R)]; rejected := true |} in
  let b := {| tracker := "B"; epoch := 5; obs := []; rejected := false |} in
  let c := {| tracker := "B"; epoch := 3; obs := []; rejected := false |} in
  sort_measurements stable_sort [b; a; c; a'] =
    [c; {| tracker := "A"; epoch := 5; obs := [(Range, 1%R); (Doppler, 2%R)]; rejected := true |}; b]
  /\ sorts stable_sort /\ Forall well_formed [b; a; c; a'].
Proof.
  cbv zeta. split; [reflexivity|]. split; [apply stable_sorts|].
  repeat constructor; cbn; auto.
Qed.

(** ** C17.  Chunks of a positive duration partition the arc; the split ends for every arc,
    even an unsorted one. *)
Theorem C17_chunk :
  forall (a : arc) (d : Z) (fuel : nat), 0 < d -> (length (measurements a) < fuel)%nat ->
    exists cs, chunk fuel a d = Ok cs /\
      concat (map measurements cs) = measurements a /\
      Forall (fun c => measurements c <> [] /\ moduli c = moduli a /\
                       force_reject c = force_reject a) cs /\
      (time_ordered (measurements a) ->
       Forall (fun c => forall first x, nth_error (measurements c) 0 = Some first ->
                 In x (measurements c) -> epoch first <= epoch x <= epoch first + d) cs /\
       (forall k c c' first first',
          nth_error cs k = Some c -> nth_error cs (S k) = Some c' ->
          nth_error (measurements c) 0 = Some first ->
          nth_error (measurements c') 0 = Some first' -> epoch first + d < epoch first')).
Proof.
  intros a d fuel Hd Hf. unfold chunk.
  destruct (measurements a) as [|m0 r] eqn:E.
  { exists []. cbn. repeat split; try constructor. intros [|k]; discriminate. }
  rewrite <- E in *. replace (d <=? 0) with false by (symmetry; apply Z.leb_gt; lia).
  destruct (chunk_loop_spec a d Hd fuel 0) as (cs & C1 & C2 & C3 & C4); [lia|lia|].
  exists cs. split; [exact C1|]. split; [exact C2|]. split; [exact C3|].
  intros T. destruct (C4 T) as [C5 C6]. split.
  - rewrite Forall_forall in *. intros c Hc first x Hx Hin.
    destruct (C5 (measurements c)) as (m & r' & Em & Q); [now apply in_map|].
    rewrite Em in *. injection Hx as ->. now apply Q.
  - clear -C6 C5. revert C6. induction cs as [|c0 cs IH]; intros C6 k c c' f f' H1 H2 H3 H4;
      [destruct k; discriminate|].
    cbn [map] in *. inversion C5 as [|? ? (m & r & Em & _) C7]; subst.
    destruct cs as [|c1 cs]; [destruct k as [|[|k]]; discriminate|].
    cbn [map] in *. inversion C7 as [|? ? (m1 & r1 & Em1 & _) C8]; subst.
    rewrite Em, Em1 in C6. destruct C6 as [C9 C10]. destruct k as [|k].
    + injection H1 as <-. injection H2 as <-. rewrite Em in H3. rewrite Em1 in H4.
      injection H3 as <-. injection H4 as <-. exact C9.
    + cbn in H1, H2. apply (IH C7) with (k := k) (c := c) (c' := c') (first := f) (first' := f'); auto.
      rewrite Em1. exact C10.
Qed.
Print Assumptions C17_chunk.

(** No chunk for a duration that is not positive. *)
Theorem C17_not_positive : forall a d fuel, d <= 0 -> chunk fuel a d = Ok [].
Proof.
  intros a d fuel Hd. unfold chunk. destruct (measurements a); [reflexivity|].
  now replace (d <=? 0) with true by (symmetry; apply Z.leb_le; lia).
Qed.
Print Assumptions C17_not_positive.

Definition at_ (e : Z) : measurement :=
  {| tracker := "A"; epoch := e; obs := []; rejected := false |}.
Definition arc_at (l : list Z) : arc :=
  {| measurements := map at_ l; moduli := None; force_reject := false |}.
Example C17_example :
  chunk 9 (arc_at [0; 4; 10; 11; 30]) 10 = Ok [arc_at [0; 4; 10]; arc_at [11]; arc_at [30]] /\
  time_ordered (measurements (arc_at [0; 4; 10; 11; 30])) /\
  is_ok (chunk 9 (arc_at [40; 4; 10]) 10).
Proof.
  split; [reflexivity|]. split; [repeat constructor; cbn; lia|]. eexists. reflexivity.
Qed.

(** ** C18.  Filters by epoch and by tracker of a time-ordered arc. *)
Theorem C18_epoch_filters :
  forall (r : range) (l : list measurement), time_ordered l ->
    exists p, (forall m, p m = true <-> within r (epoch m)) /\
      filter_by_epoch r l = filter p l /\
      exclude_by_epoch r l = filter (fun m => negb (p m)) l /\
      reject_by_epoch r l = map (fun m => if p m then reject m else m) l.
Proof.
  intros r l T. exists (fun m => range_contains r (epoch m)).
  split; [intros m; apply range_within|].
  split; [now apply filter_by_epoch_exact|]. split; [now apply exclude_by_epoch_exact|].
  now apply reject_by_epoch_exact.
Qed.
Print Assumptions C18_epoch_filters.

Theorem C18_tracker_filters :
  forall (t : string) (l : list measurement),
    exists p, (forall m, p m = true <-> tracker m = t) /\
      filter_by_tracker t l = filter p l /\
      exclude_tracker t l = filter (fun m => negb (p m)) l /\
      reject_by_tracker t l = map (fun m => if p m then reject m else m) l.
Proof.
  intros t l. exists (fun m => String.eqb (tracker m) t).
  split; [intros m; apply String.eqb_eq|]. repeat split; reflexivity.
Qed.
Print Assumptions C18_tracker_filters.

(** Rejecting sets the flag and nothing else. *)
Theorem C18_reject : forall m, tracker (reject m) = tracker m /\ epoch (reject m) = epoch m /\
  obs (reject m) = obs m /\ rejected (reject m) = true.
Proof. repeat split. Qed.
Print Assumptions C18_reject.

(** The offset filter keeps the measurements from the start offset up to, not including, the
    end offset; without an end, up to, not including, the last epoch. *)
Theorem C18_offset_filter_partial :
  forall (r : range) (l : list measurement) (first last_ : measurement), time_ordered l ->
    nth_error l 0 = Some first -> nth_error l (length l - 1) = Some last_ ->
    exists p, filter_by_offset r l = filter p l /\
      (forall m, In m l -> p m = true <->
         match fst r with
         | Unbounded => True
         | Included d | Excluded d => epoch first + d <= epoch m
         end /\
         match snd r with
         | Unbounded => epoch m < epoch last_
         | Included d | Excluded d => epoch m < epoch first + d
         end).
Proof.
  intros r l first last_ T Hf Hl. destruct l as [|m0 l0]; [discriminate|].
  injection Hf as <-. set (l := m0 :: l0) in *.
  assert (L : last l m0 = last_).
  { assert (G : forall (q : list measurement) d, q <> [] ->
       nth_error q (length q - 1) = Some (last q d)).
    { induction q as [|x q IH]; intros d H; [contradiction|]. destruct q as [|y q]; [reflexivity|].
      cbn [length Nat.sub last]. specialize (IH d ltac:(discriminate)).
      cbn [length Nat.sub] in IH. rewrite Nat.sub_0_r in IH. exact IH. }
    rewrite (G l m0) in Hl by discriminate. now injection Hl. }
  unfold filter_by_offset. fold l. change (match l with [] => [] | m :: _ => _ end) with
    (let first := epoch m0 in
     let last_ := epoch (last l m0) in
     let start := match fst r with
                  | Unbounded => first
                  | Included d | Excluded d => first + d
                  end in
     let stop := match snd r with
                 | Unbounded => last_
                 | Included d | Excluded d => first + d
                 end in
     filter_by_epoch (Included start, Excluded stop) l).
  cbv zeta. rewrite L. rewrite filter_by_epoch_exact by exact T.
  eexists. split; [reflexivity|]. intros m Hm. rewrite range_within. unfold within. cbn [fst snd].
  assert (epoch m0 <= epoch m).
  { apply In_nth_error in Hm. destruct Hm as [j Hj].
    apply (time_ordered_nth l T 0 j m0 m); [lia|reflexivity|exact Hj]. }
  destruct (fst r), (snd r); intuition lia.
Qed.
Print Assumptions C18_offset_filter_partial.

(** So an included end and a missing end lose measurements, and an excluded start keeps one
    too many. *)
Theorem C18_offset_refuted :
  exists l, time_ordered l /\ nth_error l 0 = Some (at_ 0) /\
    (within (Included 0, Included 20) (20 - 0) /\ In (at_ 20) l /\
     ~ In (at_ 20) (filter_by_offset (Included 0, Included 20) l)) /\
    (within (Unbounded, Unbounded) (20 - 0) /\
     ~ In (at_ 20) (filter_by_offset (Unbounded, Unbounded) l)) /\
    (~ within (Excluded 10, Excluded 20) (10 - 0) /\
     In (at_ 10) (filter_by_offset (Excluded 10, Excluded 20) l)).
Proof.
  exists (map at_ [0; 10; 20]). split; [repeat constructor; cbn; lia|]. split; [reflexivity|].
  assert (NI : ~ In (at_ 20) [at_ 0; at_ 10]).
  { intros [H|[H|[]]]; apply (f_equal epoch) in H; cbn in H; lia. }
  split; [|split].
  - split; [unfold within; cbn; lia|]. split; [cbn; auto|exact NI].
  - split; [unfold within; cbn; auto|exact NI].
  - split; [unfold within; cbn; lia|left; reflexivity].
Qed.
Print Assumptions C18_offset_refuted.

(** Filtering by type keeps the measurements with that type, reduced to it. *)
Theorem C18_type_filter :
  forall (t : msr_type) (l : list measurement),
    exists p, (forall m, p m = true <-> get t (obs m) <> None) /\
      Forall2 (fun m m' => alike m m' /\
                 forall k, get k (obs m') = if msr_type_eq_dec k t then get k (obs m) else None)
        (filter p l) (filter_by_measurement_type t l).
Proof.
  intros t l. exists (fun m => match get t (obs m) with Some _ => true | None => false end).
  split; [intros m; destruct (get t (obs m)); split; congruence|].
  unfold filter_by_measurement_type. induction l as [|m l IH]; cbn [map filter]; [constructor|].
  assert (E : match obs (retain (fun k => type_eqb k t) m) with [] => false | _ => true end =
              match get t (obs m) with Some _ => true | None => false end).
  { cbn [retain obs]. unfold get. induction (obs m) as [|[k v] d IHd]; [reflexivity|].
    cbn [filter fst im_get]. destruct (type_eqb k t) eqn:Q.
    - apply type_eqb_eq in Q. subst k. now rewrite type_eqb_refl.
    - replace (type_eqb t k) with false; [exact IHd|]. symmetry.
      destruct (type_eqb t k) eqn:Q2; [|reflexivity]. apply type_eqb_eq in Q2. subst k.
      now rewrite type_eqb_refl in Q. }
  rewrite E. destruct (get t (obs m)) eqn:G; [|exact IH]. constructor; [|exact IH].
  split; [repeat split|]. intros k. cbn [retain obs]. unfold get.
  rewrite (get_filter (fun k => type_eqb k t)). unfold type_eqb at 1.
  destruct (msr_type_eq_dec k t); reflexivity.
Qed.
Print Assumptions C18_type_filter.

(** Excluding a type removes that observable everywhere... *)
Theorem C18_type_exclusion_partial :
  forall (t : msr_type) (l : list measurement),
    Forall2 (fun m m' => alike m m' /\
               forall k, get k (obs m') = if msr_type_eq_dec k t then None else get k (obs m))
      l (exclude_measurement_type t l).
Proof.
  intros t l. unfold exclude_measurement_type. induction l as [|m l IH]; cbn [map]; constructor; auto.
  split; [repeat split|]. intros k. cbn [retain obs]. unfold get.
  rewrite (get_filter (fun k => negb (type_eqb k t))). unfold type_eqb at 1.
  destruct (msr_type_eq_dec k t); reflexivity.
Qed.
Print Assumptions C18_type_exclusion_partial.

(** ...but leaves measurements without any observable behind (mod.rs:469-479). *)
Theorem C18_type_exclusion_refuted :
  exists l m, In m (exclude_measurement_type Range l) /\ obs m = [] /\
    Forall (fun m => obs m <> []) l.
Proof.
  exists [ranging 0 1]. eexists. split; [now left|]. split; [reflexivity|].
  constructor; [discriminate|constructor].
Qed.
Print Assumptions C18_type_exclusion_refuted.

Example C18_example :
  filter_by_epoch (Excluded 0, Included 20) (map at_ [0; 10; 20; 30]) = map at_ [10; 20] /\
  exclude_by_epoch (Included 10, Excluded 20) (map at_ [0; 10; 20]) = map at_ [0; 20] /\
  filter_by_offset (Included 10, Excluded 20) (map at_ [0; 10; 20]) = map at_ [10] /\
  filter_by_measurement_type Range [ranging 0 1; at_ 3] = [ranging 0 1] /\
  time_ordered (map at_ [0; 10; 20; 30]).
Proof. repeat split; try reflexivity. repeat constructor; cbn; lia. Qed.

(** ** C19.  Applying the moduli changes each observable with a modulus by a whole number of
    moduli, to less than one modulus in magnitude and without changing its sign; the rest is
    unchanged. *)
Theorem C19_apply :
  forall (a : arc) (ms : list (msr_type * R)),
    moduli a = Some ms -> NoDup (map fst ms) -> Forall (fun tm => snd tm <> 0%R) ms ->
    Forall well_formed (measurements a) ->
    moduli (apply_moduli a) = moduli a /\ force_reject (apply_moduli a) = force_reject a /\
    Forall2 (fun m m' => alike m m' /\
        forall t,
          match im_get type_eqb t ms, get t (obs m), get t (obs m') with
          | Some md, Some v, Some v' =>
              whole md (v - v') /\ (Rabs v' < Rabs md)%R /\
              (0 <= v -> 0 <= v')%R /\ (v <= 0 -> v' <= 0)%R
          | Some _, None, None => True
          | None, x, y => x = y
          | _, _, _ => False
          end)
      (measurements a) (measurements (apply_moduli a)).
Proof.
  intros a ms Hm N Z W. unfold apply_moduli. rewrite Hm. cbn [moduli force_reject measurements
    with_measurements]. split; [exact Hm|]. split; [reflexivity|].
  induction (measurements a) as [|m l IH]; cbn [map]; [constructor|].
  inversion W as [|? ? W1 W2]; subst. constructor; [|auto]. split; [repeat split|].
  intros t. cbn [obs]. rewrite (get_moduli ms t N (obs m) W1).
  destruct (im_get type_eqb t ms) as [md|] eqn:G; [|reflexivity].
  destruct (get t (obs m)) as [v|]; cbn [option_map]; [|exact I].
  assert (NZ : md <> 0%R).
  { rewrite Forall_forall in Z. assert (In (t, md) ms).
    { clear -G. induction ms as [|[k x] ms IH]; [discriminate|]. cbn in G.
      destruct (type_eqb t k) eqn:E; [|right; auto]. apply type_eqb_eq in E. injection G as <-.
      subst. now left. }
    exact (Z _ H). }
  destruct (rem_spec v md NZ) as (R1 & R2 & R3).
  repeat split; auto; intros; [now apply rem_pos|now apply rem_neg].
Qed.
Print Assumptions C19_apply.

(** A modulus that was set is not zero. *)
Theorem C19_set_moduli :
  forall a t m, (forall ms, moduli a = Some ms -> Forall (fun tm => snd tm <> 0%R) ms) ->
    forall ms, moduli (set_moduli a t m) = Some ms -> Forall (fun tm => snd tm <> 0%R) ms.
Proof.
  intros a t m H ms. unfold set_moduli. destruct (Rlt_dec (Rabs m) (/ 2 ^ 52)) as [L|L]; [apply H|].
  cbn [moduli]. intros E. injection E as <-.
  assert (NZ : m <> 0%R).
  { intros ->. apply L. rewrite Rabs_R0. apply Rinv_0_lt_compat. apply pow_lt. lra. }
  assert (G : forall d, Forall (fun tm : msr_type * R => snd tm <> 0%R) d ->
              Forall (fun tm => snd tm <> 0%R) (im_insert type_eqb t m d)).
  { induction d as [|[k v] d IH]; intros Hd; cbn; [constructor; [exact NZ|constructor]|].
    inversion Hd; subst. destruct (type_eqb t k); constructor; auto. }
  apply G. destruct (moduli a) as [ms|]; [now apply H|constructor].
Qed.
Print Assumptions C19_set_moduli.

(** In the filter, an observation within [0, modulus) ends up less than one modulus away from
    the computed one. *)
Theorem C19_resolve_partial :
  forall (ms : list (msr_type * R)) t md measured computed,
    im_get type_eqb t ms = Some md -> md <> 0%R -> (0 <= measured < Rabs md)%R ->
    let real := resolve_ambiguity (Some ms) t measured computed in
    whole md (real - measured) /\ (Rabs (real - computed) < Rabs md)%R.
Proof.
  intros ms t md x c G NZ Hx real. unfold real, resolve_ambiguity. rewrite G.
  destruct (div_euclid_spec c md NZ) as ((k & Hk) & D). rewrite Hk in *. split.
  - exists k. ring.
  - apply Rabs_def1; lra.
Qed.
Print Assumptions C19_resolve_partial.

(** The true observation is recovered when the computed one is in the same interval. *)
Theorem C19_recovers_partial :
  forall (ms : list (msr_type * R)) t md (k : Z) truth computed,
    im_get type_eqb t ms = Some md -> (0 < md)%R -> (0 <= truth)%R ->
    (IZR k * md <= truth < (IZR k + 1) * md)%R ->
    (IZR k * md <= computed < (IZR k + 1) * md)%R ->
    resolve_ambiguity (Some ms) t (rem truth md) computed = truth.
Proof.
  intros ms t md k x c G P Hx H1 H2. unfold resolve_ambiguity. rewrite G.
  rewrite (div_euclid_unique c md k P) by lra.
  pose proof (rem_pos x md ltac:(lra) Hx) as R0.
  destruct (rem_spec x md ltac:(lra)) as ((j & Hj) & R2 & _).
  rewrite (Rabs_pos_eq (rem x md)), (Rabs_pos_eq md) in R2 by lra.
  assert (Q : (-1 < IZR (j - k) < 1)%R).
  { rewrite minus_IZR. split; apply (Rmult_lt_reg_r md); lra. }
  apply int_between in Q. assert (j = k) by lia. subst j. lra.
Qed.
Print Assumptions C19_recovers_partial.

(** A negative observable is reduced to a negative one by [%] but the number of moduli is
    rounded down by [div_euclid]: even a perfect prediction is off by one modulus. *)
Theorem C19_negative_refuted :
  forall (ms : list (msr_type * R)) t md truth,
    im_get type_eqb t ms = Some md -> (0 < md)%R -> (truth < 0)%R -> ~ whole md truth ->
    resolve_ambiguity (Some ms) t (rem truth md) truth = (truth - md)%R.
Proof.
  intros ms t md x G P Hx NW. unfold resolve_ambiguity. rewrite G.
  unfold div_euclid. destruct (Rlt_dec (rem x md) 0) as [L|L].
  - destruct (Rlt_dec 0 md); [|lra]. unfold rem. ring.
  - exfalso. apply NW. pose proof (rem_neg x md ltac:(lra) ltac:(lra)).
    destruct (rem_spec x md ltac:(lra)) as ((j & Hj) & _). exists j. lra.
Qed.
Print Assumptions C19_negative_refuted.

(** A prediction arbitrarily close to the truth, on the other side of a wrap, is off by one
    modulus. *)
Theorem C19_boundary_refuted :
  forall delta : R, (0 < delta < 10)%R ->
    exists truth computed, (Rabs (truth - computed) <= delta)%R /\
      resolve_ambiguity (Some [(Range, 10%R)]) Range (rem truth 10) computed = (truth - 10)%R.
Proof.
  intros d Hd. exists 10%R, (10 - d)%R. split; [rewrite Rabs_pos_eq; lra|].
  unfold resolve_ambiguity. cbn [im_get]. rewrite type_eqb_refl.
  rewrite (div_euclid_unique (10 - d) 10 0) by lra.
  pose proof (rem_pos 10 10 ltac:(lra) ltac:(lra)) as R0.
  destruct (rem_spec 10 10 ltac:(lra)) as ((j & Hj) & R2 & _).
  rewrite (Rabs_pos_eq (rem 10 10)), (Rabs_pos_eq 10) in R2 by lra.
  assert (Q : (-1 < IZR (j - 1) < 1)%R) by (rewrite minus_IZR; lra).
  apply int_between in Q. assert (j = 1)%Z by lia. subst j. lra.
Qed.
Print Assumptions C19_boundary_refuted.

Example C19_example :
  resolve_ambiguity (Some [(Doppler, 3%R); (Range, 75660%R)]) Range (rem 75661 75660) 75700 = 75661%R.
Proof.
  apply (C19_recovers_partial _ Range 75660 1); try lra. reflexivity.
Qed.

(** ** C20.  Downsampling a time-ordered arc to a longer interval. *)
Theorem C20_downsample :
  forall usort, sorts usort -> forall (a : arc) (target : Z), time_ordered (measurements a) ->
    exists b, downsample usort a target = Ok b /\
      (length (measurements b) <= length (measurements a))%nat /\
      time_ordered (measurements b) /\
      (forall x, In x (measurements b) ->
         (exists m, In m (measurements a) /\ epoch x = epoch m) /\
         (exists m, In m (measurements a) /\ tracker x = tracker m) /\
         (forall t lo hi v,
            (forall m y, In m (measurements a) -> get t (obs m) = Some y -> (lo <= y <= hi)%R) ->
            get t (obs x) = Some v -> (lo <= v <= hi)%R)) /\
      (spaced target (measurements a) -> target <= DURATION_MAX -> b = a).
Proof.
  intros usort Hu a target T. unfold downsample.
  assert (SAME : exists b, @Ok unit arc a = Ok b /\
      (length (measurements b) <= length (measurements a))%nat /\
      time_ordered (measurements b) /\
      (forall x, In x (measurements b) ->
         (exists m, In m (measurements a) /\ epoch x = epoch m) /\
         (exists m, In m (measurements a) /\ tracker x = tracker m) /\
         (forall t lo hi v,
            (forall m y, In m (measurements a) -> get t (obs m) = Some y -> (lo <= y <= hi)%R) ->
            get t (obs x) = Some v -> (lo <= v <= hi)%R)) /\
      (spaced target (measurements a) -> target <= DURATION_MAX -> b = a)).
  { exists a. split; [reflexivity|]. split; [lia|]. split; [exact T|]. split; [|reflexivity].
    intros x Hx. split; [eauto|]. split; [eauto|]. intros t lo hi v H Hv. eauto. }
  destruct (min_duration_sep (measurements a)) as [cur|] eqn:E; [|exact SAME].
  destruct (Z.leb_spec target cur) as [L|L]; [exact SAME|]. clear SAME.
  destruct (measurements a) as [|m0 r] eqn:M; [discriminate|]. injection E as E.
  assert (C0 : 0 <= cur).
  { rewrite <- E. inversion T as [|? ? T1 T2]; subst. rewrite Forall_forall in T2.
    apply min_sep_nonneg; [discriminate|exact T1|exact T2]. }
  rewrite <- M in *.
  assert (W : 0 < window_size cur target).
  { destruct (Z.eq_dec cur 0) as [->|N]; [reflexivity|]. apply window_positive; lia. }
  destruct (Z.eqb_spec (window_size cur target) 0) as [Z0|_]; [lia|].
  destruct (downsample_loop_spec (measurements a) (window_size cur target) W (measurements a) 0 eq_refl)
    as (out & O1 & O2 & O3 & O4).
  rewrite O1. eexists. split; [reflexivity|]. cbn [measurements].
  split; [etransitivity; [apply sort_shorter; exact Hu|exact O2]|].
  split; [apply strict_time_ordered, sort_time_ordered, Hu|].
  split.
  - assert (WF : Forall well_formed out).
    { rewrite Forall_forall. intros x Hx. destruct (O3 x Hx) as (j & m & _ & _ & _ & F). apply F. }
    intros x Hx. pose proof (sort_merged usort Hu out WF) as MM. rewrite Forall_forall in MM.
    destruct (MM x Hx) as (_ & _ & _ & M3).
    destruct (sort_keys usort Hu out x Hx) as (x' & X1 & X2 & X3).
    destruct (O3 x' X1) as (j & m & J1 & _ & _ & F1 & _ & _ & (y & Y1 & Y2) & _).
    split; [exists m; split; [eapply nth_error_In; eassumption|congruence]|].
    split; [exists y; split; [eapply window_in; eassumption|congruence]|].
    intros t lo hi v B Hv. destruct (M3 t v Hv) as (z & Z1 & _ & Z3).
    destruct (O3 z Z1) as (j' & m' & _ & _ & _ & _ & _ & _ & _ & F5). rewrite F5 in Z3.
    apply (average_bounds t _ lo hi v) in Z3; [exact Z3|].
    intros n q Hn Hq. apply (B n q); [eapply window_in; eassumption|exact Hq].
  - intros S D. exfalso. rewrite M in S.
    assert (target <= cur); [|lia]. rewrite <- E. apply spaced_min_sep; [exact D| |].
    + intros n Hn. apply (S 0%nat m0 n eq_refl Hn).
    + intros k x y Hx Hy. exact (S (Datatypes.S k) x y Hx Hy).
Qed.
Print Assumptions C20_downsample.

(** When no two measurements are simultaneous: with N the ratio of the intervals rounded to
    the nearest, the k-th measurement kept is the (k N)-th of the input, and each of its
    observables is the mean over the measurements at most N/2 places away. *)
Theorem C20_decimation :
  forall usort, sorts usort -> forall (a : arc) (target cur : Z),
    strictly_chronological epoch (measurements a) ->
    (exists k m n, nth_error (measurements a) k = Some m /\
       nth_error (measurements a) (S k) = Some n /\ epoch n - epoch m = cur) ->
    spaced cur (measurements a) -> 0 < cur < target -> target < DURATION_MAX ->
    forall N : nat, 2 * cur * Z.of_nat N <= 2 * target + cur < 2 * cur * (Z.of_nat N + 1) ->
    Z.of_nat N <= USIZE_MAX ->
    exists b, downsample usort a target = Ok b /\
      forall k, match nth_error (measurements a) (k * N), nth_error (measurements b) k with
                | Some m, Some x =>
                    epoch x = epoch m /\
                    forall t, let vs := values t (near (measurements a) (k * N) (N / 2)) in
                      match get t (obs x) with
                      | Some v => is_mean vs v
                      | None => vs = []
                      end
                | None, None => True
                | _, _ => False
                end.
Proof.
  intros usort Hu a target cur SC (k0 & m & n & K1 & K2 & K3) Sp [C0 C1] DM w W WM.
  assert (T : time_ordered (measurements a)).
  { clear -SC. induction (measurements a) as [|x l IH]; constructor.
    - apply IH. apply SC.
    - rewrite Forall_forall. intros y Hy. destruct SC as [S _]. specialize (S y Hy). lia. }
  assert (MS : min_duration_sep (measurements a) = Some cur).
  { destruct (measurements a) as [|x l]; [destruct k0; discriminate|]. cbn [min_duration_sep]. f_equal.
    assert (A : cur <= min_sep (epoch x) DURATION_MAX l).
    { apply spaced_min_sep; [lia| |].
      - intros y Hy. exact (Sp 0%nat x y eq_refl Hy).
      - intros k y z Hy Hz. exact (Sp (Datatypes.S k) y z Hy Hz). }
    enough (min_sep (epoch x) DURATION_MAX l <= cur) by lia. rewrite <- K3. destruct k0 as [|k0].
    - injection K1 as ->. destruct l as [|y l]; [discriminate|]. injection K2 as ->.
      cbn [min_sep]. etransitivity; [apply min_sep_acc|]. lia.
    - cbn in K1, K2. eapply min_sep_le; eassumption. }
  unfold downsample. rewrite MS.
  destruct (Z.leb_spec target cur) as [L|_]; [lia|].
  assert (WS : window_size cur target = Z.of_nat w).
  { unfold window_size. destruct (Z.eqb_spec cur 0); [lia|]. destruct (Z.ltb_spec cur 0); [lia|].
    replace ((2 * target + cur) / (2 * cur)) with (Z.of_nat w); [lia|].
    apply (Z.div_unique _ _ _ (2 * target + cur - 2 * cur * Z.of_nat w)); lia. }
  rewrite WS. assert (W0 : (0 < w)%nat) by nia.
  destruct (Z.eqb_spec (Z.of_nat w) 0) as [Z0|_]; [lia|].
  destruct (downsample_loop_spec (measurements a) (Z.of_nat w) ltac:(lia) (measurements a) 0 eq_refl)
    as (out & O1 & _).
  rewrite O1. eexists. split; [reflexivity|]. cbn [measurements].
  pose proof (downsample_loop_nth (measurements a) w W0 (measurements a) 0 0 out eq_refl eq_refl W0 O1) as D.
  assert (SO : StronglySorted before out).
  { assert (P : forall i j x y, (i < j)%nat -> nth_error out i = Some x -> nth_error out j = Some y ->
              epoch x < epoch y).
    { intros i j x y Hij Hx Hy. pose proof (D i) as Di. pose proof (D j) as Dj.
      rewrite Hx in Di. rewrite Hy in Dj.
      destruct (nth_error (measurements a) (0 + i * w)) as [p|] eqn:Ep; [|contradiction].
      destruct (nth_error (measurements a) (0 + j * w)) as [q|] eqn:Eq; [|contradiction].
      destruct Di as [-> _]. destruct Dj as [-> _].
      assert (Q : forall l, strictly_chronological epoch l -> forall s t p q, (s < t)%nat ->
        nth_error l s = Some p -> nth_error l t = Some q -> epoch p < epoch q).
      { clear. induction l as [|z l IH]; intros SC s t p q L Hp Hq; [destruct s; discriminate|].
        destruct SC as [S1 S2]. destruct t as [|t]; [lia|]. destruct s as [|s]; cbn in *.
        - injection Hp as ->. apply S1. eapply nth_error_In; eassumption.
        - eapply (IH S2 s t); [lia|eassumption|eassumption]. }
      eapply (Q _ SC _ _ _ _ _ Ep Eq). Unshelve. nia. }
    clear -P. induction out as [|x l IH]; constructor.
    - apply IH. intros i j p q L Hp Hq. apply (P (S i) (S j) p q); [lia|exact Hp|exact Hq].
    - rewrite Forall_forall. intros y Hy. apply In_nth_error in Hy. destruct Hy as [j Hj].
      left. apply (P 0%nat (S j) x y); [lia|reflexivity|exact Hj]. }
  rewrite (sort_fixed usort Hu out SO). intros k. specialize (D k). cbn [Nat.add] in D.
  destruct (nth_error (measurements a) (k * w)) as [p|] eqn:Ep;
    destruct (nth_error out k) as [x|]; auto.
  destruct D as (D1 & _ & _ & _ & D5). split; [exact D1|]. intros t.
  assert (LW : (k * w < length (measurements a))%nat) by (apply nth_error_Some; congruence).
  assert (H2 : (w / 2)%nat = Z.to_nat (Z.of_nat w / 2)).
  { change 2 with (Z.of_nat 2). rewrite <- Nat2Z.inj_div. now rewrite Nat2Z.id. }
  rewrite D5, (window_near (measurements a) (Z.of_nat w) (k * w) (proj1 (Nat2Z.inj_lt 0 w) W0) LW), <- H2.
  destruct (average t _) eqn:A; [now apply mean_average|now apply no_average].
Qed.
Print Assumptions C20_decimation.

(** Simultaneous measurements of two trackers collapse into a single one: the second tracker
    disappears (the interval between them is zero, so the window is the whole arc). *)
Theorem C20_coverage_refuted :
  exists a b, time_ordered (measurements a) /\
    downsample stable_sort a 10 = Ok b /\
    (exists m, In m (measurements a) /\ tracker m = "B"%string) /\
    ~ (exists m, In m (measurements b) /\ tracker m = "B"%string) /\
    length (measurements b) = 1%nat /\ length (measurements a) = 6%nat.
Proof.
  set (trk := fun s e => {| tracker := s; epoch := e; obs := []; rejected := false |}).
  exists {| measurements := [trk "A"%string 0; trk "B"%string 0; trk "A"%string 60; trk "B"%string 60;
                             trk "A"%string 120; trk "B"%string 120];
            moduli := None; force_reject := false |}.
  eexists. split; [repeat constructor; cbn; lia|]. split; [vm_compute; reflexivity|].
  split; [exists (trk "B"%string 0); cbn; auto|]. cbn [measurements].
  split; [|split; reflexivity]. intros (m & [<-|[]] & H). discriminate.
Qed.
Print Assumptions C20_coverage_refuted.

(** Flags of manually rejected measurements are lost. *)
Theorem C20_rejected_refuted :
  exists a b, time_ordered (measurements a) /\
    (forall m, In m (measurements a) -> epoch m = 0 -> rejected m = true) /\
    downsample stable_sort a 2 = Ok b /\
    exists m, In m (measurements b) /\ epoch m = 0 /\ rejected m = false.
Proof.
  exists {| measurements := [reject (at_ 0); at_ 1; at_ 2]; moduli := None; force_reject := false |}.
  eexists. split; [repeat constructor; cbn; lia|].
  split; [intros m [<-|[<-|[<-|[]]]] H; (reflexivity || discriminate)|].
  split; [vm_compute; reflexivity|]. eexists. split; [now left|]. split; reflexivity.
Qed.
Print Assumptions C20_rejected_refuted.

(** An arc that is not time ordered can make it panic. *)
Theorem C20_unsorted_panics : downsample stable_sort (arc_at [10; 0]) 5 = Panic.
Proof. reflexivity. Qed.
Print Assumptions C20_unsorted_panics.

Example C20_example :
  downsample stable_sort (arc_at [0; 10; 20; 30; 40]) 20 = Ok (arc_at [0; 20; 40]) /\
  strictly_chronological epoch (measurements (arc_at [0; 10; 20; 30; 40])) /\
  spaced 10 (measurements (arc_at [0; 10; 20; 30; 40])) /\
  2 * 10 * Z.of_nat 2 <= 2 * 20 + 10 < 2 * 10 * (Z.of_nat 2 + 1).
Proof.
  split; [reflexivity|]. split; [|split; [|cbn; lia]].
  - repeat (split; [intros y Hy; repeat (destruct Hy as [<-|Hy]; [cbn; lia|]); destruct Hy|]). exact I.
  - intros k m n Hm Hn. do 5 (destruct k as [|k];
      [try discriminate; injection Hm as <-; try discriminate; injection Hn as <-; cbn; lia|]).
    destruct k; discriminate.
Qed.
