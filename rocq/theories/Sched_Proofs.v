(** Proofs about schedules and simulated measurements. *)
From Coq Require Import String Sorted Permutation.
From Verif Require Import Base RustStd Arc_Model Arc_Spec Arc_Proofs Sched_Model Sched_Spec.
Local Open Scope Z_scope.

(** * Maps *)
Lemma find_modify {A} n m (f : A -> A) l :
  find n (modify m f l) = if String.eqb n m then option_map f (find n l) else find n l.
Proof.
  unfold find. induction l as [|[k v] l IH]; cbn [modify im_get]; [now destruct (String.eqb n m)|].
  destruct (String.eqb_spec m k) as [->|Hk]; cbn [im_get].
  - destruct (String.eqb_spec n k); reflexivity.
  - destruct (String.eqb_spec n k) as [->|Hn].
    + destruct (String.eqb_spec k m); [congruence|reflexivity].
    + exact IH.
Qed.
Lemma modify_keys {A} m (f : A -> A) l : map fst (modify m f l) = map fst l.
Proof.
  induction l as [|[k v] l IH]; [reflexivity|]. cbn. destruct (String.eqb m k); cbn; [reflexivity|].
  now rewrite IH.
Qed.
Lemma keyed_modify {A} m (f : A -> A) l : keyed l -> keyed (modify m f l).
Proof. unfold keyed. now rewrite modify_keys. Qed.
Lemma find_in {A} n (v : A) l : keyed l -> (find n l = Some v <-> In (n, v) l).
Proof.
  unfold keyed, find. induction l as [|[k u] l IH]; cbn; [now split|].
  intros N. inversion N as [|? ? N1 N2]; subst. destruct (String.eqb_spec n k) as [->|Hk].
  - split; [intros [= ->]; now left|]. intros [[= ->]|H]; [reflexivity|].
    exfalso. apply N1. now apply (in_map fst) in H.
  - rewrite IH by assumption. split; [now right|]. intros [[= -> ->]|H]; [congruence|assumption].
Qed.
Lemma find_keys {A} n (l : list (string * A)) : find n l <> None <-> In n (map fst l).
Proof.
  unfold find. induction l as [|[k u] l IH]; cbn; [now split|].
  destruct (String.eqb_spec n k) as [->|Hk].
  - split; [now left|congruence].
  - rewrite IH. split; [now right|]. intros [H|H]; [congruence|assumption].
Qed.

(** * The sanity check *)
Lemma check_strands_spec d l : forall ii, is_ok (check_strands d ii l) <-> Forall (long_enough d) l.
Proof.
  induction l as [|s l IH]; intros ii; cbn.
  - split; [constructor|intros _; now exists tt].
  - unfold strand_duration.
    assert (B : s_end s - s_start s <? d = false /\ s_end s - s_start s <? 0 = false
                <-> long_enough d s).
    { unfold long_enough. rewrite !Z.ltb_ge. lia. }
    rewrite Forall_cons_iff, <- (IH (S ii)), <- B.
    destruct (s_end s - s_start s <? d); [split; [intros [? ?]; discriminate|intros [[H _] _]; discriminate]|].
    destruct (s_end s - s_start s <? 0); [split; [intros [? ?]; discriminate|intros [[_ H] _]; discriminate]|].
    split; [intros H; now repeat split|intros [_ H]; exact H].
Qed.

Lemma sanity_spec c : is_ok (sanity_check c) <->
  (exists sc, sched c = Some sc /\ strands c = None) \/
  (exists l, sched c = None /\ strands c = Some l /\ l <> [] /\ Forall (long_enough (sampling c)) l).
Proof.
  unfold sanity_check. destruct (strands c) as [l|], (sched c) as [sc|].
  - split; [intros [? ?]; destruct l; discriminate|].
    intros [(? & _ & H)|(? & H & _)]; discriminate.
  - destruct l as [|s l].
    + split; [intros [? ?]; discriminate|].
      intros [(? & H & _)|(l & _ & H & H' & _)]; [discriminate|]. injection H as <-. congruence.
    + rewrite check_strands_spec. split.
      * intros H. right. exists (s :: l). repeat split; auto. discriminate.
      * intros [(? & H & _)|(l' & _ & H & _ & H')]; [discriminate|]. injection H as <-. exact H'.
  - split; [|intros; now exists tt]. left. now exists sc.
  - split; [intros [? ?]; discriminate|]. intros [(? & H & _)|(? & _ & H & _)]; discriminate.
Qed.

(** * Flattening *)
Lemma enumerate_nth {A} (l : list A) : forall i k x,
  In (k, x) (enumerate i l) <-> (i <= k)%nat /\ nth_error l (k - i) = Some x.
Proof.
  induction l as [|y l IH]; intros i k x; cbn.
  - split; [tauto|]. intros [_ H]. destruct (k - i)%nat; discriminate.
  - rewrite IH. split.
    + intros [[= -> ->]|[H1 H2]]; [rewrite Nat.sub_diag; split; [lia|reflexivity]|].
      replace (k - i)%nat with (S (k - S i)) by lia. cbn. split; [lia|assumption].
    + intros [H1 H2]. destruct (Nat.eq_dec i k) as [->|Hk].
      * rewrite Nat.sub_diag in H2. cbn in H2. left. congruence.
      * right. split; [lia|]. replace (k - i)%nat with (S (k - S i)) in H2 by lia. exact H2.
Qed.
Lemma enumerate_keys {A} (l : list A) : forall i, map fst (enumerate i l) = seq i (List.length l).
Proof. induction l as [|y l IH]; intros i; cbn; [reflexivity|]. now rewrite IH. Qed.

Lemma flatten_in cfgs n p s : keyed cfgs ->
  In (n, p, s) (flatten cfgs) <-> strand_at cfgs n p = Some s.
Proof.
  intros K. unfold flatten, strand_at. rewrite in_flat_map. split.
  - intros ([k c] & Hc & Hi). cbn in Hi. destruct (strands c) as [l|] eqn:El; [|destruct Hi].
    apply in_map_iff in Hi. destruct Hi as ([j s'] & [= -> -> ->] & Hj).
    apply enumerate_nth in Hj. rewrite Nat.sub_0_r in Hj.
    apply find_in in Hc; [|assumption]. rewrite Hc, El. apply Hj.
  - destruct (find n cfgs) as [c|] eqn:Ec; [|discriminate].
    destruct (strands c) as [l|] eqn:El; [|discriminate]. intros H.
    exists (n, c). split; [now apply find_in|]. cbn. rewrite El. apply in_map_iff.
    exists (p, s). split; [reflexivity|]. apply enumerate_nth. rewrite Nat.sub_0_r. split; [lia|assumption].
Qed.

Lemma nodup_app {A} (l m : list A) : NoDup l -> NoDup m -> (forall x, In x l -> ~ In x m) -> NoDup (l ++ m).
Proof.
  induction l as [|x l IH]; cbn; [auto|]. intros Nl Nm D. inversion Nl; subst. constructor.
  - rewrite in_app_iff. intros [H'|H']; [contradiction|]. apply (D x); auto.
  - apply IH; auto.
Qed.
Lemma flatten_nodup cfgs : keyed cfgs -> NoDup (map fst (flatten cfgs)).
Proof.
  unfold keyed, flatten. induction cfgs as [|[k c] cfgs IH]; cbn; [constructor|].
  intros N. inversion N as [|? ? N1 N2]; subst. rewrite map_app. apply nodup_app.
  - destruct (strands c) as [l|]; [|constructor].
    rewrite map_map. cbn.
    replace (map (fun x : nat * strand => (k, fst x)) (enumerate 0 l))
      with (map (fun i => (k, i)) (seq 0 (List.length l))) by (rewrite <- enumerate_keys, map_map; reflexivity).
    apply FinFun.Injective_map_NoDup; [intros a b [=]; assumption|apply seq_NoDup].
  - now apply IH.
  - intros [n p] H1 H2. apply N1. apply in_map_iff in H1. destruct H1 as ([[n1 p1] s1] & [= -> ->] & H1).
    assert (n = k).
    { destruct (strands c) as [l|]; [|destruct H1]. apply in_map_iff in H1.
      now destruct H1 as (? & [= -> _ _] & _). }
    subst n. apply in_map_iff in H2. destruct H2 as ([[n2 p2] s2] & [= -> ->] & H2).
    apply in_flat_map in H2. destruct H2 as ([k' c'] & H2 & H3). cbn in H3.
    destruct (strands c') as [l|]; [|destruct H3]. apply in_map_iff in H3.
    destruct H3 as (? & [= -> _ _] & _). now apply (in_map fst) in H2.
Qed.

(** * Changing one strand *)
Lemma set_nth_nth {A} (f : A -> A) l : forall n m,
  nth_error (set_nth n f l) m = if Nat.eqb n m then option_map f (nth_error l m) else nth_error l m.
Proof.
  induction l as [|x l IH]; intros [|n] [|m]; cbn; try reflexivity.
  - now destruct (Nat.eqb n m).
  - apply IH.
Qed.
Lemma change_at n p f cfgs n' p' :
  strand_at (change_strand n p f cfgs) n' p' =
  if (String.eqb n n' && Nat.eqb p p')%bool then option_map f (strand_at cfgs n' p')
  else strand_at cfgs n' p'.
Proof.
  unfold strand_at, change_strand. rewrite find_modify.
  destruct (String.eqb_spec n n') as [->|Hn].
  - rewrite String.eqb_refl. destruct (find n' cfgs) as [c|]; cbn; [|now destruct (Nat.eqb p p')].
    destruct (strands c) as [l|]; cbn; [|now destruct (Nat.eqb p p')].
    rewrite set_nth_nth. reflexivity.
  - destruct (String.eqb_spec n' n); [congruence|]. reflexivity.
Qed.
Lemma change_sampling n p f cfgs n' : sampling_of n' (change_strand n p f cfgs) = sampling_of n' cfgs.
Proof.
  unfold sampling_of, change_strand. rewrite find_modify.
  destruct (String.eqb n' n); [|reflexivity]. now destruct (find n' cfgs).
Qed.

(** * The handoff *)
Section HandOff.
Variable configs : list (string * trkconfig).

Definition policy (name : string) : option handoff_policy :=
  match find name configs with
  | Some c => option_map handoff (sched c)
  | None => None
  end.

(** The start and end of a strand [c] (the current value of [x]) after the handoffs from [prev]
    and to [next]. *)
Definition moved_start (sm : Z) (prev x : flat_entry) (c : strand) : Z :=
  match policy (fst (fst prev)) with
  | Some Greedy => if s_start (snd x) <=? s_end (snd prev) then s_end (snd prev) + sm else s_start c
  | _ => s_start c
  end.
Definition moved_end (sm : Z) (x next : flat_entry) (c : strand) : Z :=
  match policy (fst (fst x)) with
  | Some Eager => if s_start (snd next) <=? s_end (snd x) then s_start (snd next) - sm else s_end c
  | _ => s_end c
  end.

Lemma hand_over_sampling this next built n :
  sampling_of n (hand_over configs this next built) = sampling_of n built.
Proof.
  destruct this as [[tn tp] ts], next as [[nn np] ns]. unfold hand_over.
  destruct (find tn configs) as [[[sc|] sm st]|]; try reflexivity.
  destruct (s_start ns <=? s_end ts); [|reflexivity].
  destruct (handoff sc); try reflexivity; apply change_sampling.
Qed.

Lemma hand_over_this this next built c : fst this <> fst next ->
  strand_at built (fst (fst this)) (snd (fst this)) = Some c ->
  strand_at (hand_over configs this next built) (fst (fst this)) (snd (fst this)) =
    Some {| s_start := s_start c; s_end := moved_end (sampling_of (fst (fst this)) built) this next c |}.
Proof.
  destruct this as [[tn tp] ts], next as [[nn np] ns]. unfold hand_over, moved_end, policy. cbn [fst snd].
  intros D H. destruct (find tn configs) as [[[sc|] sm st]|]; cbn [option_map Sched_Model.sched];
    try (rewrite H; now destruct c).
  destruct (handoff sc).
  - destruct (s_start ns <=? s_end ts); [|rewrite H; now destruct c].
    rewrite change_at, String.eqb_refl, Nat.eqb_refl. cbn. now rewrite H.
  - destruct (s_start ns <=? s_end ts); [|rewrite H; now destruct c].
    rewrite change_at. destruct (String.eqb_spec nn tn), (Nat.eqb_spec np tp); cbn;
      try (rewrite H; now destruct c). subst. now destruct D.
  - destruct (s_start ns <=? s_end ts); rewrite H; now destruct c.
Qed.
Lemma hand_over_next this next built c : fst this <> fst next ->
  strand_at built (fst (fst next)) (snd (fst next)) = Some c ->
  strand_at (hand_over configs this next built) (fst (fst next)) (snd (fst next)) =
    Some {| s_start := moved_start (sampling_of (fst (fst next)) built) this next c; s_end := s_end c |}.
Proof.
  destruct this as [[tn tp] ts], next as [[nn np] ns]. unfold hand_over, moved_start, policy. cbn [fst snd].
  intros D H. destruct (find tn configs) as [[[sc|] sm st]|]; cbn [option_map Sched_Model.sched];
    try (rewrite H; now destruct c).
  destruct (handoff sc).
  - destruct (s_start ns <=? s_end ts); [|rewrite H; now destruct c].
    rewrite change_at. destruct (String.eqb_spec tn nn), (Nat.eqb_spec tp np); cbn;
      try (rewrite H; now destruct c). subst. now destruct D.
  - destruct (s_start ns <=? s_end ts); [|rewrite H; now destruct c].
    rewrite change_at, String.eqb_refl, Nat.eqb_refl. cbn. now rewrite H.
  - destruct (s_start ns <=? s_end ts); rewrite H; now destruct c.
Qed.
Lemma hand_over_other this next built n p : fst this <> (n, p) -> fst next <> (n, p) ->
  strand_at (hand_over configs this next built) n p = strand_at built n p.
Proof.
  destruct this as [[tn tp] ts], next as [[nn np] ns]. unfold hand_over. cbn [fst snd].
  intros D1 D2. destruct (find tn configs) as [[[sc|] sm st]|]; try reflexivity.
  destruct (s_start ns <=? s_end ts); [|reflexivity].
  destruct (handoff sc); try reflexivity; rewrite change_at.
  - destruct (String.eqb_spec tn n), (Nat.eqb_spec tp p); try reflexivity. subst. now destruct D1.
  - destruct (String.eqb_spec nn n), (Nat.eqb_spec np p); try reflexivity. subst. now destruct D2.
Qed.

Lemma hand_overs_other l : forall built n p, ~ In (n, p) (map fst l) ->
  strand_at (hand_overs configs l built) n p = strand_at built n p.
Proof.
  induction l as [|x l IH]; intros built n p H; [reflexivity|].
  destruct l as [|y l]; [reflexivity|].
  change (hand_overs configs (x :: y :: l) built)
    with (hand_overs configs (y :: l) (hand_over configs x y built)).
  rewrite IH.
  - apply hand_over_other; intros E; apply H; cbn; auto.
  - intros E. apply H. now right.
Qed.

Lemma hand_overs_at l : forall built i x c,
  NoDup (map fst l) -> nth_error l i = Some x ->
  strand_at built (fst (fst x)) (snd (fst x)) = Some c ->
  strand_at (hand_overs configs l built) (fst (fst x)) (snd (fst x)) =
    Some {| s_start := match i with
                       | O => s_start c
                       | S j => match nth_error l j with
                                | Some p => moved_start (sampling_of (fst (fst x)) built) p x c
                                | None => s_start c
                                end
                       end;
            s_end := match nth_error l (S i) with
                     | Some n => moved_end (sampling_of (fst (fst x)) built) x n c
                     | None => s_end c
                     end |}.
Proof.
  induction l as [|y l IH]; intros built i x c N Hi Hc; [destruct i; discriminate|].
  destruct l as [|z l].
  { destruct i as [|i]; [|destruct i; discriminate]. cbn in Hi |- *. now rewrite Hc; destruct c. }
  change (hand_overs configs (y :: z :: l) built)
    with (hand_overs configs (z :: l) (hand_over configs y z built)).
  inversion N as [|? ? N1 N2]; subst.
  assert (D : fst y <> fst z) by (intros E; apply N1; rewrite E; now left).
  destruct i as [|i].
  - cbn in Hi. injection Hi as <-. rewrite hand_overs_other.
    + cbn [nth_error]. now apply hand_over_this.
    + destruct y as [[yn yp] ys]. exact N1.
  - cbn [nth_error] in Hi. destruct i as [|i].
    + cbn in Hi. injection Hi as <-.
      pose proof (hand_over_next y z built c D Hc) as H1.
      rewrite (IH _ 0%nat z _ N2 eq_refl H1).
      cbn [nth_error s_start s_end]. rewrite hand_over_sampling.
      destruct l as [|w l]; cbn [nth_error]; reflexivity.
    + assert (Hx : In (fst x) (map fst l)).
      { cbn in Hi. apply nth_error_In in Hi. now apply in_map. }
      rewrite (IH _ (S i) x c N2 Hi).
      * cbn [nth_error]. now rewrite hand_over_sampling.
      * rewrite hand_over_other; [exact Hc| |].
        -- intros E. apply N1. right. rewrite E. now destruct x as [[? ?] ?].
        -- inversion N2 as [|? ? N3 N4]; subst. intros E. apply N3. rewrite E. now destruct x as [[? ?] ?].
Qed.

(** Key facts about the schedule after the handoffs, for the strands [x] before [y] in order of
    start. *)
Section Sorted.
Variables (l : list flat_entry) (built : list (string * trkconfig)).
Hypothesis nodup : NoDup (map fst l).
Hypothesis sorted : StronglySorted (fun x y => entry_start x <= entry_start y) l.
Hypothesis here : forall x, In x l -> strand_at built (fst (fst x)) (snd (fst x)) = Some (snd x).
Hypothesis positive : forall x, In x l -> 0 < sampling_of (fst (fst x)) built.

Lemma sorted_nth i j x y : (i <= j)%nat -> nth_error l i = Some x -> nth_error l j = Some y ->
  s_start (snd x) <= s_start (snd y).
Proof.
  clear nodup here positive. revert i j x y. induction sorted as [|a r Hr IH F]; intros i j x y Hij Hi Hj.
  - destruct i; discriminate.
  - destruct i as [|i], j as [|j]; cbn in Hi, Hj; try lia.
    + injection Hi as <-. injection Hj as <-. lia.
    + injection Hi as <-. rewrite Forall_forall in F. apply nth_error_In in Hj. apply (F y Hj).
    + apply (IH Hr i j); auto. lia.
Qed.

Lemma result_at i x : nth_error l i = Some x ->
  exists s, strand_at (hand_overs configs l built) (fst (fst x)) (snd (fst x)) = Some s /\
    s_start (snd x) <= s_start s /\ s_end s <= s_end (snd x) /\
    (i = 0%nat -> s_start s = s_start (snd x)) /\
    (forall p, i <> 0%nat -> nth_error l (i - 1) = Some p ->
        (policy (fst (fst p)) = Some Greedy -> s_end (snd p) < s_start s) /\
        (policy (fst (fst p)) <> Some Greedy -> s_start s = s_start (snd x))) /\
    (forall n, nth_error l (S i) = Some n -> policy (fst (fst x)) = Some Eager ->
        s_end s < s_start (snd n)) /\
    (policy (fst (fst x)) <> Some Eager -> s_end s = s_end (snd x)).
Proof.
  intros Hi. pose proof (nth_error_In _ _ Hi) as Hin.
  pose proof (hand_overs_at l built i x (snd x) nodup Hi (here x Hin)) as R.
  pose proof (positive x Hin) as Hp. set (sm := sampling_of (fst (fst x)) built) in *.
  eexists. split; [exact R|]. cbn [s_start s_end]. clear R.
  split; [|split; [|split; [|split; [|split]]]].
  - destruct i as [|j]; [lia|]. destruct (nth_error l j) as [p|]; [|apply Z.le_refl].
    unfold moved_start. destruct (policy (fst (fst p))) as [[]|]; try lia.
    destruct (Z.leb_spec (s_start (snd x)) (s_end (snd p))); lia.
  - destruct (nth_error l (S i)) as [n|]; [|lia]. unfold moved_end.
    destruct (policy (fst (fst x))) as [[]|]; try lia.
    destruct (Z.leb_spec (s_start (snd n)) (s_end (snd x))); lia.
  - intros ->. reflexivity.
  - intros p Hi0 Hpn. destruct i as [|j]; [congruence|]. cbn in Hpn. rewrite Nat.sub_0_r in Hpn.
    rewrite Hpn. unfold moved_start. split.
    + intros ->. destruct (Z.leb_spec (s_start (snd x)) (s_end (snd p))); lia.
    + destruct (policy (fst (fst p))) as [[]|]; congruence.
  - intros n Hn Pe. rewrite Hn. unfold moved_end. rewrite Pe.
    destruct (Z.leb_spec (s_start (snd n)) (s_end (snd x))); lia.
  - intros Pe. destruct (nth_error l (S i)) as [n|]; [|reflexivity]. unfold moved_end.
    destruct (policy (fst (fst x))) as [[]|]; congruence.
Qed.

(** A strand ends before every later one starts, if its tracker is eager, or greedy with no
    strand in between ending before it. *)
Lemma before_later i j x y sx sy : (i < j)%nat ->
  nth_error l i = Some x -> nth_error l j = Some y ->
  strand_at (hand_overs configs l built) (fst (fst x)) (snd (fst x)) = Some sx ->
  strand_at (hand_overs configs l built) (fst (fst y)) (snd (fst y)) = Some sy ->
  (policy (fst (fst x)) = Some Eager \/
   (exists p, nth_error l (j - 1) = Some p /\ policy (fst (fst p)) = Some Greedy /\
      s_end (snd x) <= s_end (snd p))) ->
  s_end sx < s_start sy.
Proof.
  intros Hij Hi Hj Hx Hy C.
  destruct (result_at i x Hi) as (sx' & Ex & _ & X2 & _ & _ & X5 & _).
  destruct (result_at j y Hj) as (sy' & Ey & Y1 & _ & _ & Y4 & _ & _).
  rewrite Ex in Hx. injection Hx as <-. rewrite Ey in Hy. injection Hy as <-.
  destruct C as [C|(p & Hp & Pp & Le)].
  - destruct (nth_error l (S i)) as [n|] eqn:En.
    + specialize (X5 n eq_refl C). pose proof (sorted_nth (S i) j n y ltac:(lia) En Hj). lia.
    + apply nth_error_None in En. assert (j < List.length l)%nat by (apply nth_error_Some; congruence). lia.
  - destruct (Y4 p ltac:(lia) Hp) as [Y _]. specialize (Y Pp). lia.
Qed.
End Sorted.
End HandOff.

(** * Building the strands *)
Section Build.
Context {E : Type} (round : Z -> Z -> Z) (visibility : string -> Z -> res E (list (Z * Z))).
Notation generate := (generate_schedule round visibility).
Notation strands_from := (build_strands round).

(** The strand [s] was scheduled in the visibility window [w] that is long enough. *)
Definition scheduled_in (c : trkconfig) (sc : scheduler) (w : Z * Z) (s : strand) : Prop :=
  let (lo, hi) := match sample_alignment sc with
                  | Some a => (round (fst w) a, round (snd w) a)
                  | None => w
                  end in
  sampling c * min_samples sc <= snd w - fst w /\
  lo <= s_start s /\ s_end s <= hi /\
  match cadence sc with
  | Continuous => s_start s = lo /\ s_end s = hi
  | Intermittent on off =>
      s_end s - s_start s <= on /\ (s_start s = lo \/ s_start s <= snd w) /\
      (s_end s = hi \/ s_end s = s_start s + on)
  end.

Lemma build_one_cases c sc built w :
  build_one round c sc built w = built \/
  exists s, build_one round c sc built w = built ++ [s] /\ scheduled_in c sc w s /\
    match cadence sc, last (map Some built) None with
    | Intermittent _ off, Some prev => s_end prev + off <= s_start s
    | _, _ => True
    end.
Proof.
  destruct w as [rise fall]. unfold build_one.
  destruct (Z.ltb_spec (fall - rise) (sampling c * min_samples sc)) as [L|L]; [now left|].
  unfold scheduled_in. cbn [fst snd].
  set (lohi := match sample_alignment sc with Some a => (round rise a, round fall a) | None => (rise, fall) end).
  destruct lohi as [lo hi]. destruct (cadence sc) as [|on off].
  - right. eexists. split; [reflexivity|]. cbn. repeat split; auto; lia.
  - destruct (last (map Some built) None) as [prev|].
    + destruct (Z.ltb_spec lo (s_end prev + off)) as [P|P].
      * destruct (Z.ltb_spec fall (s_end prev + off)) as [F|F]; [now left|].
        right. eexists. split; [reflexivity|]. cbn.
        destruct (Z.ltb_spec on (hi - (s_end prev + off))); repeat split; auto; lia.
      * right. eexists. split; [reflexivity|]. cbn.
        destruct (Z.ltb_spec on (hi - lo)); repeat split; auto; lia.
    + right. eexists. split; [reflexivity|]. cbn.
      destruct (Z.ltb_spec on (hi - lo)); repeat split; auto; lia.
Qed.

Lemma build_strands_in c sc ws : forall built s, In s (strands_from c sc built ws) ->
  In s built \/ exists w, In w ws /\ scheduled_in c sc w s.
Proof.
  induction ws as [|w ws IH]; intros built s; cbn [build_strands]; [auto|].
  intros H. apply IH in H. destruct H as [H|(w' & Hw & H)]; [|right; exists w'; split; [now right|assumption]].
  destruct (build_one_cases c sc built w) as [->|(s' & -> & Hs & _)] in H; [now left|].
  apply in_app_iff in H. destruct H as [H|[<-|[]]]; [now left|]. right. exists w. split; [now left|assumption].
Qed.

(** Without a cadence each window that is long enough has its strand. *)
Lemma build_strands_all c sc ws : cadence sc = Continuous -> forall built w, In w ws ->
  sampling c * min_samples sc <= snd w - fst w ->
  exists s, In s (strands_from c sc built ws) /\ scheduled_in c sc w s.
Proof.
  intros C. assert (Keep : forall ws built s, In s built -> In s (strands_from c sc built ws)).
  { induction ws0 as [|v vs IH]; intros built s H; cbn; [assumption|]. apply IH.
    destruct (build_one_cases c sc built v) as [->|(s' & -> & _)]; [assumption|].
    apply in_app_iff. now left. }
  induction ws as [|v ws IH]; intros built w Hw L; [destruct Hw|]. cbn [build_strands].
  destruct Hw as [->|Hw]; [|now apply IH].
  destruct w as [rise fall]. cbn [fst snd] in L.
  destruct (build_one_cases c sc built (rise, fall)) as [H|(s & -> & Hs & _)].
  - exfalso. unfold build_one in H. destruct (Z.ltb_spec (fall - rise) (sampling c * min_samples sc)); [lia|].
    destruct (match sample_alignment sc with Some a => (round rise a, round fall a) | None => (rise, fall) end).
    rewrite C in H. apply (f_equal (@List.length _)) in H. rewrite app_length in H. cbn in H. lia.
  - exists s. split; [|assumption]. apply Keep. apply in_app_iff. right. now left.
Qed.

(** Off durations. *)
Definition apart (off : Z) (l : list strand) : Prop :=
  forall k a b, nth_error l k = Some a -> nth_error l (S k) = Some b -> s_end a + off <= s_start b.
Lemma apart_snoc off l s : apart off l ->
  (forall p, last (map Some l) None = Some p -> s_end p + off <= s_start s) -> apart off (l ++ [s]).
Proof.
  intros A L k a b Ha Hb.
  assert (K : (S k < List.length (l ++ [s]))%nat) by (apply nth_error_Some; congruence).
  rewrite app_length in K. cbn in K.
  destruct (Nat.lt_ge_cases (S k) (List.length l)) as [K2|K2].
  - rewrite nth_error_app1 in Ha, Hb by lia. eapply A; eassumption.
  - rewrite nth_error_app1 in Ha by lia. rewrite nth_error_app2 in Hb by lia.
    replace (S k - List.length l)%nat with 0%nat in Hb by lia. injection Hb as <-.
    apply L. destruct l as [|x l] using rev_ind; [destruct k; discriminate|].
    rewrite app_length in K2, K. cbn in K2, K. rewrite map_app. cbn [map]. rewrite last_last. rewrite nth_error_app2 in Ha by lia.
    replace (k - List.length l)%nat with 0%nat in Ha by lia. now injection Ha as <-.
Qed.
Lemma build_strands_apart c sc on off ws : cadence sc = Intermittent on off ->
  forall built, apart off built -> apart off (strands_from c sc built ws).
Proof.
  intros C. induction ws as [|w ws IH]; intros built A; cbn [build_strands]; [assumption|].
  apply IH. destruct (build_one_cases c sc built w) as [->|(s & -> & _ & H)]; [assumption|].
  rewrite C in H. apply apart_snoc; [assumption|]. intros p Hp. now rewrite Hp in H.
Qed.

(** What the built configuration of a tracker is. *)
Definition planned (configs : list (string * trkconfig)) (name : string) (c' : trkconfig) : Prop :=
  exists c, find name configs = Some c /\ sampling c' = sampling c /\
    (strands c' = strands c \/
     exists sc ws, sched c = Some sc /\ visibility name (sampling c) = Ok ws /\
       strands c' = Some (strands_from c sc [] ws)).

Lemma build_all_planned configs devices : forall b out,
  keyed b -> (forall name c', find name b = Some c' -> planned configs name c') ->
  build_all round visibility configs b devices = Ok out ->
  keyed out /\ forall name c', find name out = Some c' -> planned configs name c'.
Proof.
  induction devices as [|name devices IH]; intros b out K I H; cbn [build_all] in H.
  - injection H as <-. auto.
  - destruct (find name configs) as [c|] eqn:Ec; [|now apply (IH b)].
    destruct (sched c) as [sc|] eqn:Es; [|now apply (IH b)].
    destruct (visibility name (sampling c)) as [ws| | |] eqn:Ev; cbn [bind] in H; try discriminate.
    revert H. apply IH; [now apply keyed_modify|].
    intros n c' Hn. rewrite find_modify in Hn. destruct (String.eqb_spec n name) as [->|Hne]; [|now apply I].
    destruct (find name b) as [c0|] eqn:E0; cbn [option_map] in Hn; [|discriminate]. injection Hn as <-.
    destruct (I name c0 E0) as (c1 & H1 & H2 & _). rewrite Ec in H1. injection H1 as <-.
    exists c. cbn. repeat split; auto. right. exists sc, ws. repeat split; auto.
Qed.

Lemma build_all_done configs devices name c sc : find name configs = Some c -> sched c = Some sc ->
  forall b out, find name b <> None -> build_all round visibility configs b devices = Ok out ->
  In name devices ->
  exists ws c', visibility name (sampling c) = Ok ws /\ find name out = Some c' /\
    strands c' = Some (strands_from c sc [] ws).
Proof.
  intros Hc Hsc.
  assert (Keep : forall ws devs b out, visibility name (sampling c) = Ok ws ->
            (exists c', find name b = Some c' /\ strands c' = Some (strands_from c sc [] ws)) ->
            build_all round visibility configs b devs = Ok out ->
            exists c', find name out = Some c' /\ strands c' = Some (strands_from c sc [] ws)).
  { intros ws. induction devs as [|d devs IH]; intros b out V I H; cbn [build_all] in H.
    - now injection H as <-.
    - destruct (find d configs) as [cd|] eqn:Ed; [|now apply (IH b)].
      destruct (sched cd) as [sd|] eqn:Es; [|now apply (IH b)].
      destruct (visibility d (sampling cd)) as [wd| | |] eqn:Ev; cbn [bind] in H; try discriminate.
      revert H. apply IH; [assumption|]. rewrite find_modify. destruct (String.eqb_spec name d) as [<-|]; [|assumption].
      destruct I as (c' & I1 & I2). rewrite I1. cbn. eexists. split; [reflexivity|]. cbn. congruence. }
  induction devices as [|d devices IH]; intros b out Hb H I; [destruct I|]. cbn [build_all] in H.
  destruct (String.eqb_spec name d) as [<-|Hd].
  - rewrite Hc, Hsc in H. destruct (visibility name (sampling c)) as [ws| | |] eqn:Ev; cbn [bind] in H; try discriminate.
    exists ws. eapply (Keep ws) in H; [|reflexivity|].
    + destruct H as (c' & C1 & C2). exists c'. auto.
    + rewrite find_modify, String.eqb_refl. destruct (find name b) as [c0|]; [|congruence].
      cbn. eexists. split; reflexivity.
  - destruct I as [I|I]; [congruence|].
    destruct (find d configs) as [cd|] eqn:Ed; [|now apply (IH b)].
    destruct (sched cd) as [sd|] eqn:Es; [|now apply (IH b)].
    destruct (visibility d (sampling cd)) as [wd| | |] eqn:Ev; cbn [bind] in H; try discriminate.
    revert H I. apply IH. rewrite find_modify. destruct (String.eqb_spec name d); [congruence|assumption].
Qed.

Lemma hand_overs_origin configs l built n p s :
  (forall x, In x l -> strand_at built (fst (fst x)) (snd (fst x)) = Some (snd x)) ->
  strand_at (hand_overs configs l built) n p = Some s -> exists c, strand_at built n p = Some c.
Proof.
  intros Here H. destruct (in_dec (fun a b : string * nat => ltac:(decide equality; [apply Nat.eq_dec|apply String.string_dec]))
                             (n, p) (map fst l)) as [I|I].
  - apply in_map_iff in I. destruct I as (x & Ex & Hx). exists (snd x).
    pose proof (Here x Hx) as Q. rewrite Ex in Q. exact Q.
  - rewrite hand_overs_other in H by assumption. now exists s.
Qed.

(** The schedule: the planned strands in order of start, after the handoffs. *)
Lemma generate_spec oc devices configs out : keyed configs ->
  generate oc devices configs = Ok out ->
  exists built l,
    (forall name c', find name built = Some c' -> planned configs name c') /\
    NoDup (map fst l) /\
    StronglySorted (fun x y => entry_start x <= entry_start y) l /\
    (forall n p s, In (n, p, s) l <-> strand_at built n p = Some s) /\
    out = hand_overs configs l built.
Proof.
  intros K H. unfold generate_schedule in H.
  destruct (build_all round visibility configs configs devices) as [built| | |] eqn:Eb; cbn [bind] in H;
    try discriminate.
  destruct (build_all_planned configs devices configs built K) as [Kb P]; [|exact Eb|].
  { intros name c Hc. exists c. repeat split; auto. }
  exists built, (sort_by (key_leb entry_start) (flatten built)).
  split; [exact P|]. split; [|split; [|split]].
  - eapply Permutation_NoDup; [apply Permutation_map, sort_perm|]. now apply flatten_nodup.
  - pose proof (sort_sorted (key_leb entry_start) (key_total entry_start) (key_trans entry_start) (flatten built)) as S.
    unfold ordered in S. clear H. induction S as [|x r _ IH F]; [constructor|constructor; [assumption|]].
    rewrite Forall_forall in *. intros y Hy. apply Z.leb_le. now apply F.
  - intros n p s. rewrite sort_in. now apply flatten_in.
  - destruct (sort_by (key_leb entry_start) (flatten built)) as [|x r]; [|now injection H as <-].
    destruct oc; [discriminate|]. injection H as <-. reflexivity.
Qed.

(** The strand of the schedule comes from a planned strand. *)
Lemma generate_at oc devices configs out n p s : keyed configs ->
  (forall name c, find name configs = Some c -> 0 < sampling c) ->
  generate oc devices configs = Ok out -> strand_at out n p = Some s ->
  exists c s0, find n configs = Some c /\ s_start s0 <= s_start s /\ s_end s <= s_end s0 /\
    ((exists l, strands c = Some l /\ In s0 l) \/
     exists sc ws w, sched c = Some sc /\ visibility n (sampling c) = Ok ws /\ In w ws /\
       scheduled_in c sc w s0).
Proof.
  intros K Pos H Hs. destruct (generate_spec _ _ _ _ K H) as (built & l & P & N & S & F & ->).
  assert (Here : forall x, In x l -> strand_at built (fst (fst x)) (snd (fst x)) = Some (snd x)).
  { intros [[a b] x] Hx. now apply F. }
  assert (Samp : forall x, In x l -> 0 < sampling_of (fst (fst x)) built).
  { intros [[a b] x] Hx. apply F in Hx. unfold strand_at in Hx. unfold sampling_of. cbn [fst].
    destruct (find a built) as [ca|] eqn:Ea; [|discriminate].
    destruct (P a ca Ea) as (c1 & H1 & -> & _). now apply (Pos a). }
  destruct (hand_overs_origin configs l built n p s Here Hs) as [s0 Hs0].
  pose proof (proj2 (F n p s0) Hs0) as Hin. apply In_nth_error in Hin. destruct Hin as [i Hi].
  destruct (result_at configs l built N Here Samp i (n, p, s0) Hi) as (s1 & E1 & L1 & L2 & _).
  cbn [fst snd] in E1, L1, L2. rewrite Hs in E1. injection E1 as <-.
  unfold strand_at in Hs0. destruct (find n built) as [c'|] eqn:En; [|discriminate].
  destruct (P n c' En) as (c & Hc & _ & Q). exists c, s0. repeat split; auto.
  destruct (strands c') as [l'|] eqn:El; [|discriminate]. apply nth_error_In in Hs0.
  destruct Q as [Q|(sc & ws & Q1 & Q2 & [= ->])]; [left; exists l'; auto|].
  apply build_strands_in in Hs0. destruct Hs0 as [[]|(w & Hw & Hs0)].
  right. now exists sc, ws, w.
Qed.

(** Two strands never overlap if each tracker that comes first is eager, or greedy when no
    planned strand in between ends earlier. *)
Lemma generate_disjoint oc devices configs out : keyed configs ->
  generate oc devices configs = Ok out ->
  (forall name c, find name configs = Some c -> 0 < sampling c) ->
  ((forall name c, find name configs = Some c -> exists sc, sched c = Some sc /\ handoff sc = Eager) \/
   (forall name c, find name configs = Some c -> exists sc, sched c = Some sc /\ handoff sc = Greedy) /\
   (forall n1 c1 n2 c2 a b, planned configs n1 c1 -> planned configs n2 c2 ->
      (exists l1, strands c1 = Some l1 /\ In a l1) -> (exists l2, strands c2 = Some l2 /\ In b l2) ->
      s_start a <= s_start b -> s_end a <= s_end b)) ->
  forall n1 p1 s1 n2 p2 s2, strand_at out n1 p1 = Some s1 -> strand_at out n2 p2 = Some s2 ->
    (n1, p1) <> (n2, p2) -> ~ overlap s1 s2.
Proof.
  intros K H Pos C. destruct (generate_spec _ _ _ _ K H) as (built & l & P & N & S & F & ->).
  assert (Here : forall x, In x l -> strand_at built (fst (fst x)) (snd (fst x)) = Some (snd x)).
  { intros [[a b] x] Hx. now apply F. }
  assert (Samp : forall x, In x l -> 0 < sampling_of (fst (fst x)) built).
  { intros [[a b] x] Hx. apply F in Hx. unfold strand_at in Hx. unfold sampling_of. cbn [fst].
    destruct (find a built) as [ca|] eqn:Ea; [|discriminate].
    destruct (P a ca Ea) as (c1 & H1 & -> & _). now apply (Pos a). }
  assert (Plan : forall a b x, In (a, b, x) l -> exists c', planned configs a c' /\
              exists l', strands c' = Some l' /\ In x l').
  { intros a b x Hx. apply F in Hx. unfold strand_at in Hx.
    destruct (find a built) as [ca|] eqn:Ea; [|discriminate].
    destruct (strands ca) as [la|] eqn:El; [|discriminate]. exists ca. split; [now apply P|].
    exists la. split; [assumption|]. now apply nth_error_In in Hx. }
  assert (Ord : forall i j n1 p1 t1 s1 n2 p2 t2 s2, (i < j)%nat ->
     nth_error l i = Some (n1, p1, t1) -> nth_error l j = Some (n2, p2, t2) ->
     strand_at (hand_overs configs l built) n1 p1 = Some s1 ->
     strand_at (hand_overs configs l built) n2 p2 = Some s2 -> s_end s1 < s_start s2).
  { intros i j n1 p1 t1 s1 n2 p2 t2 s2 Hij Hi Hj H1 H2.
    apply (before_later configs l built N S Here Samp i j (n1, p1, t1) (n2, p2, t2)); auto.
    cbn [fst snd].
    destruct C as [C|[C Cn]].
    - left. destruct (Plan n1 p1 t1 (nth_error_In _ _ Hi)) as (c' & (c & Hc & _) & _).
      unfold policy. rewrite Hc. destruct (C n1 c Hc) as (sc & -> & <-). reflexivity.
    - right. destruct (nth_error l (j - 1)) as [[[n3 p3] t3]|] eqn:E3.
      + exists (n3, p3, t3). split; [reflexivity|]. cbn [fst snd].
        destruct (Plan n3 p3 t3 (nth_error_In _ _ E3)) as (c3' & P3 & L3).
        destruct (Plan n1 p1 t1 (nth_error_In _ _ Hi)) as (c1' & P1 & L1). split.
        * destruct P3 as (c & Hc & _). unfold policy. rewrite Hc.
          destruct (C n3 c Hc) as (sc & -> & <-). reflexivity.
        * apply (Cn n1 c1' n3 c3' t1 t3 P1 P3 L1 L3).
          apply (sorted_nth l S i (j - 1) (n1, p1, t1) (n3, p3, t3)); auto. lia.
      + apply nth_error_None in E3. assert (j < List.length l)%nat by (apply nth_error_Some; congruence). lia. }
  intros n1 p1 s1 n2 p2 s2 H1 H2 D (t & T1 & T2).
  destruct (hand_overs_origin configs l built n1 p1 s1 Here H1) as [t1 E1]. apply F, In_nth_error in E1.
  destruct (hand_overs_origin configs l built n2 p2 s2 Here H2) as [t2 E2]. apply F, In_nth_error in E2.
  destruct E1 as [i Hi], E2 as [j Hj]. unfold tracks in *.
  destruct (Nat.lt_total i j) as [L|[L|L]].
  - pose proof (Ord _ _ _ _ _ _ _ _ _ _ L Hi Hj H1 H2). lia.
  - subst j. rewrite Hi in Hj. injection Hj as -> -> _. now apply D.
  - pose proof (Ord _ _ _ _ _ _ _ _ _ _ L Hj Hi H2 H1). lia.
Qed.

(** Overlapping trackers keep their planned strands. *)
Lemma hand_overs_overlap configs l :
  (forall name c sc, find name configs = Some c -> sched c = Some sc -> handoff sc = Overlap) ->
  forall built, hand_overs configs l built = built.
Proof.
  intros C. induction l as [|x l IH]; intros built; [reflexivity|].
  destruct l as [|y l]; [reflexivity|].
  change (hand_overs configs (x :: y :: l) built)
    with (hand_overs configs (y :: l) (hand_over configs x y built)). rewrite IH.
  destruct x as [[tn tp] ts], y as [[nn np] ns]. unfold hand_over.
  destruct (find tn configs) as [[[sc|] sm st]|] eqn:Ef; try reflexivity.
  rewrite (C tn _ sc Ef eq_refl). now destruct (s_start ns <=? s_end ts).
Qed.
Lemma generate_overlap oc devices configs out n c sc : keyed configs ->
  generate oc devices configs = Ok out ->
  (forall name c sc, find name configs = Some c -> sched c = Some sc -> handoff sc = Overlap) ->
  In n devices -> find n configs = Some c -> sched c = Some sc ->
  exists ws c', visibility n (sampling c) = Ok ws /\ find n out = Some c' /\
    strands c' = Some (strands_from c sc [] ws).
Proof.
  intros K H C I Hc Hsc. unfold generate_schedule in H.
  destruct (build_all round visibility configs configs devices) as [built| | |] eqn:Eb; cbn [bind] in H;
    try discriminate.
  assert (out = built) as ->.
  { destruct (sort_by (key_leb entry_start) (flatten built)) as [|x r].
    - destruct oc; [discriminate|]. now injection H as <-.
    - assert (R : hand_overs configs (x :: r) built = out) by congruence.
      rewrite hand_overs_overlap in R by assumption. congruence. }
  apply (build_all_done configs devices n c sc Hc Hsc configs); auto. congruence.
Qed.
End Build.

(** * Simulated measurements *)
Section Simulated.
Context {E W : Type} (measure : string -> Z -> W -> W * res E (option measurement)).
Variable sight_of : string -> Z -> sight.
Hypothesis device : behaves measure sight_of.

Notation series s d c := {| ts_start := s_start s; ts_duration := s_end s - s_start s; ts_step := d;
                            ts_cur := Z.of_nat c; ts_incl := true |}.

Definition instant (s : strand) (d : Z) (k : nat) : Z := s_start s + Z.of_nat k * d.

Lemma series_next s d c : ts_next (series s d c) =
  if (s_end s - s_start s <? Z.of_nat c * d) then None
  else Some (instant s d c, series s d (S c)).
Proof.
  unfold ts_next, instant. cbn. destruct (s_end s - s_start s <? Z.of_nat c * d); [reflexivity|].
  do 3 f_equal. lia.
Qed.

Lemma measure_strand_spec name d s : 0 < d -> forall fuel c w msrs r,
  (forall j, (j < c)%nat -> sight_of name (instant s d j) <> Fails) ->
  measure_strand W measure fuel name (series s d c) w msrs = Ok r ->
  exists new, snd r = msrs ++ new /\
    (forall m, In m new -> exists k, sampled sight_of name d s k /\
        epoch m = instant s d k /\ tracker m = name) /\
    (forall k, (c <= k)%nat -> sampled sight_of name d s k ->
        exists m, In m new /\ epoch m = instant s d k /\ tracker m = name).
Proof.
  intros Hd. induction fuel as [|fuel IH]; intros c w msrs r Hj H; [discriminate|].
  cbn [measure_strand] in H. rewrite series_next in H.
  destruct (Z.ltb_spec (s_end s - s_start s) (Z.of_nat c * d)) as [L|L].
  - injection H as <-. exists []. cbn. rewrite app_nil_r. split; [reflexivity|]. split; [intros m []|].
    intros k Hk (K1 & _). exfalso. assert (Z.of_nat c * d <= Z.of_nat k * d) by nia. lia.
  - pose proof (device name (instant s d c) w) as D.
    destruct (measure name (instant s d c) w) as [w' o] eqn:Em. cbn [snd] in D.
    destruct (sight_of name (instant s d c)) eqn:Es.
    + destruct D as (m & -> & Me & Mt).
      destruct (IH (S c) w' (msrs ++ [m]) r) as (new & N1 & N2 & N3); auto.
      { intros j Hj'. destruct (Nat.eq_dec j c) as [->|]; [congruence|apply Hj; lia]. }
      exists (m :: new). rewrite <- app_assoc in N1. split; [exact N1|]. split.
      * intros m' [<-|Hm']; [|now apply N2]. exists c. split; [|auto].
        split; [unfold instant in *; lia|]. split; [exact Es|exact Hj].
      * intros k Hk Sk. destruct (Nat.eq_dec k c) as [->|].
        -- exists m. split; [now left|auto].
        -- destruct (N3 k ltac:(lia) Sk) as (m' & I & Q). exists m'. split; [now right|assumption].
    + rewrite D in H.
      destruct (IH (S c) w' msrs r) as (new & N1 & N2 & N3); auto.
      { intros j Hj'. destruct (Nat.eq_dec j c) as [->|]; [congruence|apply Hj; lia]. }
      exists new. split; [exact N1|]. split; [exact N2|]. intros k Hk Sk.
      destruct (Nat.eq_dec k c) as [->|]; [|apply N3; [lia|assumption]].
      destruct Sk as (_ & Sk & _). unfold instant in Es. congruence.
    + destruct D as (x & ->). injection H as <-. exists []. rewrite app_nil_r.
      split; [reflexivity|]. split; [intros m []|]. intros k Hk (_ & Sk & F). exfalso.
      destruct (Nat.eq_dec k c) as [->|]; [unfold instant in Es; congruence|].
      apply (F c); [lia|exact Es].
Qed.

(** The measurement was taken at a sampling instant of a strand of the list. *)
Definition from_strands (name : string) (d : Z) (l : list strand) (e : Z) : Prop :=
  exists s k, In s l /\ sampled sight_of name d s k /\ e = instant s d k.

Lemma measure_strands_spec name d l : 0 < d -> forall fuel w msrs r,
  measure_strands W measure fuel name d l w msrs = Ok r ->
  exists new, snd r = msrs ++ new /\
    (forall m, In m new -> from_strands name d l (epoch m) /\ tracker m = name) /\
    (forall e, from_strands name d l e -> exists m, In m new /\ epoch m = e /\ tracker m = name).
Proof.
  intros Hd. induction l as [|s l IH]; intros fuel w msrs r H; cbn [measure_strands] in H.
  - injection H as <-. exists []. rewrite app_nil_r. split; [reflexivity|]. split; [intros m []|].
    intros e (s & k & [] & _).
  - destruct (measure_strand W measure fuel name (ts_inclusive (s_start s) (s_end s) d) w msrs) as [r1| | |] eqn:E1;
      cbn [bind] in H; try discriminate.
    destruct (measure_strand_spec name d s Hd fuel 0 w msrs r1) as (n1 & A1 & A2 & A3);
      [intros; lia|exact E1|].
    destruct (IH fuel (fst r1) (snd r1) r H) as (n2 & B1 & B2 & B3).
    exists (n1 ++ n2). rewrite app_assoc, <- A1. split; [exact B1|]. split.
    + intros m Hm. apply in_app_iff in Hm. destruct Hm as [Hm|Hm].
      * destruct (A2 m Hm) as (k & K1 & K2 & K3). split; [|assumption].
        exists s, k. split; [now left|]. auto.
      * destruct (B2 m Hm) as ((s' & k & I & K) & T). split; [|assumption].
        exists s', k. split; [now right|assumption].
    + intros e (s' & k & [->|I] & K1 & K2).
      * destruct (A3 k ltac:(lia) K1) as (m & Hm & Q1 & Q2). exists m. split; [apply in_app_iff; now left|].
        split; congruence.
      * destruct (B3 e) as (m & Hm & Q); [now exists s', k|]. exists m.
        split; [apply in_app_iff; now right|assumption].
Qed.

Variable configs : list (string * trkconfig).
Hypothesis positive : forall name c, find name configs = Some c -> 0 < sampling c.

Definition from_device (name : string) (e : Z) : Prop :=
  exists c l, find name configs = Some c /\ strands c = Some l /\ from_strands name (sampling c) l e.

Lemma measure_devices_spec devices : forall fuel w msrs r,
  measure_devices W measure fuel configs devices w msrs = Ok r ->
  exists new, snd r = msrs ++ new /\
    (forall m, In m new -> In (tracker m) devices /\ from_device (tracker m) (epoch m)) /\
    (forall name e, In name devices -> from_device name e ->
        exists m, In m new /\ epoch m = e /\ tracker m = name).
Proof.
  induction devices as [|name devices IH]; intros fuel w msrs r H; cbn [measure_devices] in H.
  - injection H as <-. exists []. rewrite app_nil_r. split; [reflexivity|]. split; [intros m []|intros ? ? []].
  - assert (Skip : (forall e, ~ from_device name e) ->
              measure_devices W measure fuel configs devices w msrs = Ok r ->
              exists new, snd r = msrs ++ new /\
                (forall m, In m new -> In (tracker m) (name :: devices) /\ from_device (tracker m) (epoch m)) /\
                (forall n e, In n (name :: devices) -> from_device n e ->
                    exists m, In m new /\ epoch m = e /\ tracker m = n)).
    { intros No R. destruct (IH fuel w msrs r R) as (new & N1 & N2 & N3). exists new.
      split; [exact N1|]. split; [intros m Hm; destruct (N2 m Hm); split; [now right|assumption]|].
      intros n e [<-|I] Fe; [exfalso; now apply (No e)|now apply N3]. }
    destruct (find name configs) as [c|] eqn:Ec.
    2: { apply Skip; [|exact H]. intros e (c & l & C1 & _). congruence. }
    assert (Go : forall l, strands c = Some l ->
              bind (measure_strands W measure fuel name (sampling c) l w msrs) (fun wm =>
                measure_devices W measure fuel configs devices (fst wm) (snd wm)) = Ok r ->
              exists new, snd r = msrs ++ new /\
                (forall m, In m new -> In (tracker m) (name :: devices) /\ from_device (tracker m) (epoch m)) /\
                (forall n e, In n (name :: devices) -> from_device n e ->
                    exists m, In m new /\ epoch m = e /\ tracker m = n)).
    { intros l El R.
      destruct (measure_strands W measure fuel name (sampling c) l w msrs) as [r1| | |] eqn:E1;
        cbn [bind] in R; try discriminate.
      destruct (measure_strands_spec name (sampling c) l (positive _ _ Ec) fuel w msrs r1 E1) as (n1 & A1 & A2 & A3).
      destruct (IH fuel (fst r1) (snd r1) r R) as (n2 & B1 & B2 & B3).
      exists (n1 ++ n2). rewrite app_assoc, <- A1. split; [exact B1|]. split.
      - intros m Hm. apply in_app_iff in Hm. destruct Hm as [Hm|Hm].
        + destruct (A2 m Hm) as [Q ->]. split; [now left|]. exists c, l. auto.
        + destruct (B2 m Hm). split; [now right|assumption].
      - intros n e I Fe. destruct I as [->|I].
        + destruct Fe as (c' & l' & C1 & C2 & C3). rewrite Ec in C1. injection C1 as <-.
          rewrite El in C2. injection C2 as <-. destruct (A3 e C3) as (m & Hm & Q).
          exists m. split; [apply in_app_iff; now left|assumption].
        + destruct (B3 n e I Fe) as (m & Hm & Q). exists m. split; [apply in_app_iff; now right|assumption]. }
    destruct (sched c), (strands c) as [l|] eqn:El.
    + now apply (Go l).
    + discriminate.
    + now apply (Go l).
    + apply Skip; [|exact H]. intros e (c' & l & C1 & C2 & _). congruence.
Qed.

Lemma simulate_spec usort fuel devices w r : sorts usort ->
  generate_measurements W measure usort fuel configs devices w = Ok r ->
  StronglySorted before (measurements (snd r)) /\
  forall name e, (exists m, In m (measurements (snd r)) /\ epoch m = e /\ tracker m = name) <->
                 In name devices /\ from_device name e.
Proof.
  intros U H. unfold generate_measurements in H.
  destruct (measure_devices W measure fuel configs devices w []) as [r1| | |] eqn:E1; cbn [bind] in H; try discriminate.
  injection H as <-. cbn. destruct (measure_devices_spec devices fuel w [] r1 E1) as (new & N1 & N2 & N3).
  cbn in N1. rewrite N1. split; [now apply sort_time_ordered|]. intros name e. split.
  - intros (m & Hm & <- & <-). destruct (sort_keys usort U new m Hm) as (m' & Hm' & Q1 & Q2).
    rewrite Q1, Q2. now apply N2.
  - intros [I Fe]. destruct (N3 name e I Fe) as (m' & Hm' & Q1 & Q2).
    destruct (sort_all usort U new m' Hm') as (m & Hm & Q3 & Q4). exists m.
    split; [assumption|]. split; congruence.
Qed.

(** With positive samplings the simulation ends. *)
Lemma measure_strand_ends name d s : 0 < d -> forall fuel c w msrs,
  s_end s - s_start s < (Z.of_nat c + Z.of_nat fuel - 1) * d ->
  is_ok (measure_strand W measure fuel name (series s d c) w msrs) \/ fuel = 0%nat.
Proof.
  intros Hd. induction fuel as [|fuel IH]; intros c w msrs H; [now right|]. left.
  cbn [measure_strand]. rewrite series_next.
  destruct (Z.ltb_spec (s_end s - s_start s) (Z.of_nat c * d)) as [L|L]; [eexists; reflexivity|].
  pose proof (device name (instant s d c) w) as D.
  destruct (measure name (instant s d c) w) as [w' o]. cbn [snd] in D.
  assert (Hf : fuel <> 0%nat) by (intros ->; nia).
  destruct (sight_of name (instant s d c)).
  - destruct D as (m & -> & _). destruct (IH (S c) w' (msrs ++ [m])) as [G|G]; [nia|exact G|contradiction].
  - rewrite D. destruct (IH (S c) w' msrs) as [G|G]; [nia|exact G|contradiction].
  - destruct D as (x & ->). eexists; reflexivity.
Qed.

Lemma measure_strands_ends name d l : 0 < d ->
  exists n, forall fuel, (n <= fuel)%nat -> forall w msrs,
    is_ok (measure_strands W measure fuel name d l w msrs).
Proof.
  intros Hd. induction l as [|s l [n IH]]; [exists 0%nat; intros; eexists; reflexivity|].
  set (k := Z.to_nat (Z.max 0 (s_end s - s_start s) / d + 3)).
  assert (Q : 0 <= Z.max 0 (s_end s - s_start s) / d) by (apply Z.div_pos; lia).
  pose proof (Z_div_mod_eq_full (Z.max 0 (s_end s - s_start s)) d) as DM.
  pose proof (Z.mod_pos_bound (Z.max 0 (s_end s - s_start s)) d Hd) as MB.
  exists (Nat.max k n). intros fuel Hf w msrs. cbn [measure_strands].
  destruct (measure_strand_ends name d s Hd fuel 0 w msrs) as [[r Hr]|Z0].
  - unfold k in Hf. nia.
  - change (ts_inclusive (s_start s) (s_end s) d) with (series s d 0%nat). rewrite Hr. cbn [bind]. apply IH. lia.
  - unfold k in Hf. lia.
Qed.

Lemma measure_devices_ends devices :
  (forall name c, find name configs = Some c -> sched c <> None -> strands c <> None) ->
  exists n, forall fuel, (n <= fuel)%nat -> forall w msrs,
    is_ok (measure_devices W measure fuel configs devices w msrs).
Proof.
  intros B. induction devices as [|name devices [n IH]]; [exists 0%nat; intros; eexists; reflexivity|].
  cbn [measure_devices]. destruct (find name configs) as [c|] eqn:Ec; [|exists n; exact IH].
  destruct (strands c) as [l|] eqn:El.
  - destruct (measure_strands_ends name (sampling c) l (positive _ _ Ec)) as [k K].
    exists (Nat.max k n). intros fuel Hf w msrs.
    destruct (K fuel ltac:(lia) w msrs) as [r Hr]. rewrite Hr. cbn [bind].
    destruct (sched c); apply IH; lia.
  - destruct (sched c) eqn:Es; [|exists n; exact IH].
    exfalso. apply (B name c Ec); congruence.
Qed.
End Simulated.
