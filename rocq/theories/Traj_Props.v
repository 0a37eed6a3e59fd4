(** C10-C15, C56, C57: trajectories.  The vocabulary is in [Traj_Spec]. *)
From Coq Require Import Reals Lra.
From Verif Require Import Base RustStd Prop_Model Prop_Spec Prop_Loop Prop_Examples.
From Verif Require Import Traj_Model Traj_Spec Traj_Proofs Prop_Props.
Local Open Scope Z_scope.

(** A state that is just an epoch; its interpolation succeeds when the samples surround the
    epoch. *)
Definition tick_ops : state_ops Z unit :=
  {| st_epoch := fun x => x; st_frame := fun _ => tt; st_frame_eqb := fun _ _ => true;
     st_interpolate := fun _ e w =>
       if existsb (fun x => x <? e) w && existsb (fun x => e <? x) w then Ok e else Err tt |}.

(** ** C10.  Finalizing orders the states, invents none, loses no epoch, and leaves each epoch
    once when states with the same epoch are next to each other (in particular when the
    states are handed over in time order). *)
Theorem C10_finalize_partial :
  forall (S F : Type) (o : state_ops S F) (l : list S),
    let t := finalize o l in
    chronological (st_epoch o) t /\
    (forall s, In s t -> In s l) /\
    (forall s, In s l -> exists s', In s' t /\ st_epoch o s' = st_epoch o s) /\
    (grouped (st_epoch o) l -> NoDup (map (st_epoch o) t)) /\
    (chronological (st_epoch o) l -> strictly_chronological (st_epoch o) t) /\
    (strictly_chronological (st_epoch o) l -> t = l).
Proof.
  intros S F o l t. split; [apply finalize_chron|]. split; [intros s; apply finalize_in|].
  split; [intros s; apply finalize_epochs|]. split; [apply finalize_nodup|].
  split; [apply finalize_sorted_input|apply finalize_id].
Qed.
Print Assumptions C10_finalize_partial.

(** The removal of duplicates runs before the sort (traj.rs:77-79), so it misses duplicates
    that are not adjacent. *)
Theorem C10_distinct_epochs_refuted : exists l : list Z,
  ~ NoDup (map (st_epoch tick_ops) (finalize tick_ops l)).
Proof.
  exists [0; 1; 0]. change (finalize tick_ops [0; 1; 0]) with [0; 0; 1].
  cbn. intros H. inversion H as [|? ? H1 _]. apply H1. now left.
Qed.
Print Assumptions C10_distinct_epochs_refuted.

Example C10_example : finalize tick_ops [7; 7; 3; 3; 9] = [3; 7; 9] /\
  grouped (st_epoch tick_ops) [7; 3].
Proof.
  split; [reflexivity|].
  intros pre x mid y post E _ z Hz. exfalso.
  destruct pre as [|a [|b pre]]; cbn in E.
  - destruct mid as [|m mid]; [destruct Hz|]. injection E as _ E. destruct mid; discriminate.
  - injection E as _ _ E. destruct mid; discriminate.
  - injection E as _ _ E. destruct pre; discriminate.
Qed.

(** ** C11.  Whatever the order in which the worker threads hand over the states, the
    trajectory is the start state followed by the states in the order of their production
    (the reverse for a backward propagation). *)
Theorem C11_forward_traj :
  forall (St V F E : Type) (e : env St V F E) (o : state_ops St F) (arrange : list St -> list St),
    keeps_epoch e -> (forall s, st_epoch o s = epoch e s) ->
    (forall l, Permutation l (arrange l)) ->
  forall lo fuel duration i s t,
    0 <= lo -> steps_forward e lo i -> 0 < duration ->
    for_duration_with_traj e o arrange fuel duration i = Ok (s, t) ->
    t = state i :: o_sent (for_duration e fuel duration i) /\
    strictly_chronological (epoch e) t /\ o_res (for_duration e fuel duration i) = Ok s.
Proof.
  intros St V F E e o arrange Hk He Ha lo fuel duration i s t Hlo Hf Hd H.
  unfold for_duration_with_traj in H. set (out := for_duration e fuel duration i) in *.
  destruct (o_res out) as [s0|x| |] eqn:R; try discriminate. injection H as <- <-.
  pose proof (proj1 (C02_forward_epochs _ _ _ _ _ e never Hk lo fuel duration i tt Hlo Hf Hd)) as I.
  fold (for_duration e fuel duration i) in I. fold out in I.
  assert (G : forall l a b, increasing_within a b (map (epoch e) l) ->
     strictly_chronological (epoch e) l /\ forall y, In y l -> a < epoch e y).
  { induction l as [|x l IH]; intros a b; cbn; [intros _; split; [trivial|intros y []]|].
    intros [H1 H2]. destruct (IH _ _ H2) as [I1 I2]. split; [split; [exact I2|exact I1]|].
    intros y [->|Hy]; [lia|]. specialize (I2 y Hy). lia. }
  destruct (G _ _ _ I) as [G1 G2].
  assert (SC : strictly_chronological (epoch e) (state i :: o_sent out)) by (split; assumption).
  assert (SC' : strictly_chronological (st_epoch o) (state i :: o_sent out)).
  { revert SC. generalize (state i :: o_sent out). clear -He.
    induction l as [|x l IH]; cbn; [trivial|]. intros [H1 H2]. split; [|auto].
    intros y Hy. rewrite !He. auto. }
  assert (T : finalize o (arrange (o_sent out) ++ [state i]) = state i :: o_sent out).
  { rewrite (finalize_perm o (state i :: o_sent out)).
    - now apply finalize_id.
    - now apply schron_nodup.
    - eapply Permutation_trans; [apply Permutation_cons_append|].
      apply Permutation_app_tail. apply Ha. }
  rewrite T. auto.
Qed.
Print Assumptions C11_forward_traj.

Theorem C11_backward_traj :
  forall (St V F E : Type) (e : env St V F E) (o : state_ops St F) (arrange : list St -> list St),
    keeps_epoch e -> (forall s, st_epoch o s = epoch e s) ->
    (forall l, Permutation l (arrange l)) ->
  forall lo fuel duration i s t,
    0 <= lo -> steps_backward e lo i -> duration < 0 ->
    for_duration_with_traj e o arrange fuel duration i = Ok (s, t) ->
    t = rev (o_sent (for_duration e fuel duration i)) ++ [state i] /\
    strictly_chronological (epoch e) t /\ o_res (for_duration e fuel duration i) = Ok s.
Proof.
  intros St V F E e o arrange Hk He Ha lo fuel duration i s t Hlo Hf Hd H.
  unfold for_duration_with_traj in H. set (out := for_duration e fuel duration i) in *.
  destruct (o_res out) as [s0|x| |] eqn:R; try discriminate. injection H as <- <-.
  pose proof (proj1 (C02_backward_epochs _ _ _ _ _ e never Hk lo fuel duration i tt Hlo Hf Hd)) as I.
  fold (for_duration e fuel duration i) in I. fold out in I.
  assert (SCo : forall l, strictly_chronological (epoch e) l ->
     strictly_chronological (st_epoch o) l).
  { clear -He. induction l as [|x l IH]; cbn; [trivial|]. intros [H1 H2]. split; [|auto].
    intros y Hy. rewrite !He. auto. }
  assert (SCe : forall l, strictly_chronological (st_epoch o) l ->
     strictly_chronological (epoch e) l).
  { clear -He. induction l as [|x l IH]; cbn; [trivial|]. intros [H1 H2]. split; [|auto].
    intros y Hy. specialize (H1 y Hy). rewrite !He in H1. exact H1. }
  assert (G : forall l a b, decreasing_within a b (map (epoch e) l) ->
     strictly_chronological (st_epoch o) (rev l) /\ forall y, In y l -> epoch e y < a).
  { induction l as [|x l IH]; intros a b; cbn; [intros _; split; [trivial|intros y []]|].
    intros [H1 H2]. destruct (IH _ _ H2) as [I1 I2]. split.
    - apply schron_app; [exact I1|split; [intros y []|exact Logic.I]|].
      intros p q Hp [<-|[]]. rewrite !He. apply I2. now apply in_rev.
    - intros y [->|Hy]; [lia|]. specialize (I2 y Hy). lia. }
  destruct (G _ _ _ I) as [G1 G2].
  assert (SC : strictly_chronological (st_epoch o) (rev (o_sent out) ++ [state i])).
  { apply schron_app; [exact G1|split; [intros y []|exact Logic.I]|].
    intros p q Hp [<-|[]]. rewrite !He. apply G2. now apply in_rev. }
  assert (T : finalize o (arrange (o_sent out) ++ [state i]) = rev (o_sent out) ++ [state i]).
  { rewrite (finalize_perm o (rev (o_sent out) ++ [state i])).
    - now apply finalize_id.
    - now apply schron_nodup.
    - apply Permutation_app_tail. eapply Permutation_trans; [|apply Ha].
      apply Permutation_sym, Permutation_rev. }
  rewrite T. auto.
Qed.
Print Assumptions C11_backward_traj.

(** Two runs that differ only in thread scheduling return the same result. *)
Theorem C11_schedule_independent :
  forall (St V F E : Type) (e : env St V F E) (o : state_ops St F)
    (arrange arrange' : list St -> list St),
    keeps_epoch e -> (forall s, st_epoch o s = epoch e s) ->
    (forall l, Permutation l (arrange l)) -> (forall l, Permutation l (arrange' l)) ->
  forall lo fuel duration i,
    0 <= lo -> (0 < duration -> steps_forward e lo i) -> (duration < 0 -> steps_backward e lo i) ->
    for_duration_with_traj e o arrange fuel duration i =
    for_duration_with_traj e o arrange' fuel duration i.
Proof.
  intros St V F E e o a a' Hk He Ha Ha' lo fuel duration i Hlo Hf Hb.
  destruct (o_res (for_duration e fuel duration i)) as [s|x| |] eqn:R;
    try (unfold for_duration_with_traj; rewrite R; reflexivity).
  assert (D : forall ar, exists t, for_duration_with_traj e o ar fuel duration i = Ok (s, t)).
  { intros ar. unfold for_duration_with_traj. rewrite R. eauto. }
  destruct (D a) as [t T], (D a') as [t' T']. rewrite T, T'. do 2 f_equal.
  destruct (Z.lt_trichotomy duration 0) as [L|[Z0|L]].
  - apply (C11_backward_traj _ _ _ _ e o a Hk He Ha lo) in T; auto.
    apply (C11_backward_traj _ _ _ _ e o a' Hk He Ha' lo) in T'; auto.
    destruct T as [-> _], T' as [-> _]. reflexivity.
  - subst duration. unfold for_duration_with_traj in *. rewrite R in *.
    injection T as <-. injection T' as <-. unfold for_duration, propagate. cbn [Z.eqb o_sent].
    pose proof (Permutation_nil (Ha [])) as ->. pose proof (Permutation_nil (Ha' [])) as ->.
    reflexivity.
  - apply (C11_forward_traj _ _ _ _ e o a Hk He Ha lo) in T; auto.
    apply (C11_forward_traj _ _ _ _ e o a' Hk He Ha' lo) in T'; auto.
    destruct T as [-> _], T' as [-> _]. reflexivity.
Qed.
Print Assumptions C11_schedule_independent.

Example C11_example :
  for_duration_with_traj (clock 0 Ok) tick_ops (@rev Z) 5 500 (clock_inst 7 10 false)
  = Ok (507, [7; 17; 507]).
Proof.
  unfold for_duration_with_traj.
  destruct C02_example as (_ & _ & H & _). destruct C01_example as (_ & R & _).
  rewrite R, H. reflexivity.
Qed.

(** ** C12.  Querying a time-ordered trajectory. *)
Theorem C12_stored :
  forall (S F : Type) (o : state_ops S F) (l : list S) (s : S),
    strictly_chronological (st_epoch o) l -> In s l -> at_epoch o l (st_epoch o s) = Ok s.
Proof. intros S F o l s. exact (at_stored o l s). Qed.
Print Assumptions C12_stored.

Theorem C12_outside :
  forall (S F : Type) (o : state_ops S F) (l : list S) (e : Z),
    chronological (st_epoch o) l ->
    at_epoch o l e = Err (NoInterpolationData e) <->
    (l = [] \/ (forall s, In s l -> e < st_epoch o s) \/ (forall s, In s l -> st_epoch o s < e)).
Proof.
  intros S F o l e H. split.
  - intros Q. destruct (at_cases o l e H) as [[_ H1]|[(s & H1 & _)|
      (pre & lf & an & rt & post & _ & _ & _ & _ & _ & _ & _ & H1)]]; [exact H1|congruence|].
    rewrite H1 in Q. destruct (st_interpolate o an e _); discriminate.
  - intros Q. destruct (at_cases o l e H) as [[H1 _]|[(s & _ & H2 & H3)|
      (pre & lf & an & rt & post & H1 & H2 & H3 & H4 & _)]]; [exact H1| |].
    + exfalso. destruct Q as [->|[Q|Q]]; [destruct H2|specialize (Q s H2); lia|
        specialize (Q s H2); lia].
    + exfalso. destruct Q as [->|[Q|Q]].
      * apply H2. destruct pre; [|discriminate]. destruct lf; [reflexivity|discriminate].
      * destruct (pre ++ lf) as [|x m] eqn:E; [contradiction|].
        assert (Ix : In x (x :: m)) by now left.
        specialize (H3 x Ix). rewrite <- E in Ix. specialize (Q x). rewrite H1 in Q.
        rewrite <- !app_assoc, app_assoc in Q.
        specialize (Q (in_or_app _ _ _ (or_introl Ix))). lia.
      * specialize (H4 an (or_introl eq_refl)). specialize (Q an). rewrite H1 in Q.
        assert (In an (pre ++ (lf ++ an :: rt) ++ post)).
        { apply in_or_app. right. apply in_or_app. left. apply in_or_app. right. now left. }
        specialize (Q H0). lia.
Qed.
Print Assumptions C12_outside.

(** Between two stored states, the state right after the epoch is interpolated with a
    contiguous window of at most 13 stored states that contains it: all the states of a
    trajectory of fewer than 13, at least 12 otherwise.  The window also holds the state right
    before the epoch, unless the trajectory has exactly 13 states and only the first one
    precedes the epoch. *)
Theorem C12_between_partial :
  forall (S F : Type) (o : state_ops S F) (l : list S) (e : Z),
    chronological (st_epoch o) l ->
    (exists a b, In a l /\ In b l /\ st_epoch o a < e < st_epoch o b) ->
    (forall s, In s l -> st_epoch o s <> e) ->
    exists pre left_ anchor right_ post,
      l = pre ++ (left_ ++ anchor :: right_) ++ post /\
      (forall s, In s (pre ++ left_) -> st_epoch o s < e) /\
      (forall s, In s (anchor :: right_ ++ post) -> e < st_epoch o s) /\
      (length (left_ ++ anchor :: right_) <= 13)%nat /\
      (length (left_ ++ anchor :: right_) = length l \/
       12 <= length (left_ ++ anchor :: right_))%nat /\
      (left_ = [] -> length l = 13%nat /\ length pre = 1%nat) /\
      at_epoch o l e =
        match st_interpolate o anchor e (left_ ++ anchor :: right_) with
        | Ok r => Ok r
        | Err _ => Err Interpolation
        | Panic => Panic
        | NoFuel => NoFuel
        end.
Proof.
  intros S F o l e H (a & b & Ha & Hb & Hab) Hn.
  destruct (at_cases o l e H) as [[_ [H1|[H1|H1]]]|[(s & _ & H2 & H3)|
      (pre & lf & an & rt & post & H1 & _ & H2)]].
  - subst l. destruct Ha.
  - specialize (H1 a Ha). lia.
  - specialize (H1 b Hb). lia.
  - destruct (Hn s H2 H3).
  - exists pre, lf, an, rt, post. split; [exact H1|exact H2].
Qed.
Print Assumptions C12_between_partial.

(** With exactly 13 states, an epoch between the first two is handed to the interpolation
    with the last 12 states only (traj.rs:109-113): it is extrapolated. *)
Theorem C12_window_refuted :
  exists (l : list Z) (e : Z),
    strictly_chronological (st_epoch tick_ops) l /\
    (exists a b, In a l /\ In b l /\ st_epoch tick_ops a < e < st_epoch tick_ops b) /\
    at_epoch tick_ops l e = Err Interpolation /\
    at_epoch tick_ops (l ++ [1000]) e = Ok e.
Proof.
  exists [0; 2; 4; 6; 8; 10; 12; 14; 16; 18; 20; 22; 24], 1.
  split.
  { repeat (split; [intros y Hy; repeat (destruct Hy as [<-|Hy]; [cbn; lia|]); destruct Hy|]).
    exact I. }
  split; [exists 0, 2; cbn; repeat split; auto; lia|].
  split; vm_compute; reflexivity.
Qed.
Print Assumptions C12_window_refuted.

(** Never out of bounds: a query panics only if the interpolation does. *)
Theorem C12_no_panic :
  forall (S F : Type) (o : state_ops S F) (l : list S) (e : Z),
    chronological (st_epoch o) l ->
    (forall s w, (1 <= length w <= 13)%nat ->
       st_interpolate o s e w <> Panic /\ st_interpolate o s e w <> NoFuel) ->
    at_epoch o l e <> Panic /\ at_epoch o l e <> NoFuel.
Proof.
  intros S F o l e H Hi. destruct (at_cases o l e H) as [[H1 _]|[(s & H1 & _)|
      (pre & lf & an & rt & post & _ & _ & _ & _ & H4 & _ & _ & H1)]];
    rewrite H1; try (split; discriminate).
  destruct (Hi an (lf ++ an :: rt)) as [I1 I2].
  { split; [|exact H4]. rewrite app_length. cbn. lia. }
  destruct (st_interpolate o an e (lf ++ an :: rt)); split; congruence.
Qed.
Print Assumptions C12_no_panic.

Example C12_example :
  strictly_chronological (st_epoch tick_ops) [0; 10; 20] /\
  at_epoch tick_ops [0; 10; 20] 10 = Ok 10 /\ at_epoch tick_ops [0; 10; 20] 13 = Ok 13 /\
  at_epoch tick_ops [0; 10; 20] 21 = Err (NoInterpolationData 21) /\
  at_epoch tick_ops [] 21 = Err (NoInterpolationData 21).
Proof.
  split; [|repeat split; vm_compute; reflexivity].
  repeat (split; [intros y Hy; repeat (destruct Hy as [<-|Hy]; [cbn; lia|]); destruct Hy|]).
  exact I.
Qed.

(** ** C13.  Iterating with a positive step visits exactly the epochs s, s + step, ... up to
    the end, each once and in order, where s is the requested start or the start of the
    trajectory, whichever is later, provided the interpolation succeeds there. *)
Theorem C13_grid_partial :
  forall (S F : Type) (o : state_ops S F) (l : list S) (a z : S) (step start stop : Z) (fuel : nat),
    first l = Some a -> last_state l = Some z -> 0 < step ->
    let s := Z.max start (st_epoch o a) in
    let t := Z.min stop (st_epoch o z) in
    (Z.to_nat ((t - s) / step + 1) < fuel)%nat ->
    (forall e, s <= e <= t -> is_ok (at_epoch o l e)) ->
    exists visited items,
      every_between o fuel l step start stop = Ok items /\
      Forall2 (fun e x => at_epoch o l e = Ok x) visited items /\
      strictly_chronological (fun e => e) visited /\
      (forall e, In e visited <-> e <= t /\ exists k, 0 <= k /\ e = s + k * step).
Proof.
  intros S F o l a z step start stop fuel Ha Hz Hs s t Hf Hok.
  set (n := grid_count s t step).
  pose proof (grid_count_spec s t step Hs) as [G1 G2]. fold n in G1, G2.
  assert (IN : forall e, In e (grid s step n) <-> e <= t /\ exists k, 0 <= k /\ e = s + k * step).
  { intros e. rewrite grid_in. split.
    - intros (k & Hk & ->). split; [nia|]. exists k. lia.
    - intros [He (k & Hk & ->)]. exists k. split; [|reflexivity]. nia. }
  assert (AT : exists items, Forall2 (fun e x => at_epoch o l e = Ok x) (grid s step n) items).
  { assert (P : forall e, In e (grid s step n) -> is_ok (at_epoch o l e)).
    { intros e He. apply IN in He. destruct He as [H1 (k & H2 & ->)]. apply Hok. nia. }
    clear -P. induction (grid s step n) as [|e g IH]; [exists []; constructor|].
    destruct (P e (or_introl eq_refl)) as [x Hx].
    destruct IH as [xs Hxs]; [intros; apply P; now right|].
    exists (x :: xs). now constructor. }
  destruct AT as [items AT]. exists (grid s step n), items.
  split; [|split; [exact AT|split; [|exact IN]]].
  - unfold every_between. rewrite Ha, Hz.
    apply (iterate_ok o l s t step n); try lia.
    + unfold n, grid_count. destruct (Z.ltb_spec t s); [|exact Hf]. lia.
    + replace (s + 0 * step) with s by ring. exact AT.
  - clear -Hs. clearbody n. clearbody s. revert s. induction n as [|n IH]; intros s; cbn;
      [trivial|].
    split; [|apply IH]. intros y Hy. apply grid_in in Hy. destruct Hy as (k & Hk & ->). nia.
Qed.
Print Assumptions C13_grid_partial.

(** A start before the trajectory moves the grid: it is anchored at the first state. *)
Theorem C13_early_start_refuted :
  exists (l : list Z) (step start stop : Z) (items : list Z),
    every_between tick_ops 10 l step start stop = Ok items /\ 0 < step /\
    In 11 [start + 0 * step; start + 1 * step; start + 2 * step] /\
    first l = Some 10 /\ last_state l = Some 16 /\ stop = 16 /\ ~ In 11 items.
Proof.
  exists [10; 16], 2, 9, 16, [10; 12; 14; 16]. cbn. repeat split; auto; try lia.
Qed.
Print Assumptions C13_early_start_refuted.

(** A failing interpolation silently ends the iteration (traj_it.rs:43-58). *)
Theorem C13_truncated :
  forall (S F : Type) (o : state_ops S F) (l : list S) (a z : S) (step start stop : Z)
         (fuel k : nat) (items : list S),
    first l = Some a -> last_state l = Some z -> 0 < step ->
    let s := Z.max start (st_epoch o a) in
    let t := Z.min stop (st_epoch o z) in
    (k < fuel)%nat -> s + Z.of_nat k * step <= t ->
    length items = k ->
    (forall j x, nth_error items j = Some x -> at_epoch o l (s + Z.of_nat j * step) = Ok x) ->
    (exists x, at_epoch o l (s + Z.of_nat k * step) = Err x) ->
    every_between o fuel l step start stop = Ok items.
Proof.
  intros S F o l a z step start stop fuel k items Ha Hz Hs s t Hf Hk Hl Hi He.
  unfold every_between. rewrite Ha, Hz. fold s t.
  apply (iterate_prefix o l s t step k); try lia; [congruence| |exact He].
  rewrite Z.mul_0_l, Z.add_0_r. clear -Hl Hi. clearbody s. revert s k Hl Hi.
  induction items as [|x items IH]; intros s k Hl Hi; cbn in Hl; subst k; cbn [grid]; constructor.
  - specialize (Hi 0%nat x eq_refl). rewrite Z.mul_0_l, Z.add_0_r in Hi. exact Hi.
  - apply IH; [reflexivity|]. intros j y Hj. specialize (Hi (Datatypes.S j) y Hj).
    rewrite <- Hi. f_equal. lia.
Qed.
Print Assumptions C13_truncated.

(** A zero step never ends. *)
Theorem C13_zero_step_refuted :
  forall (S F : Type) (o : state_ops S F) (l : list S) (a z s0 : S) (start stop : Z),
    first l = Some a -> last_state l = Some z ->
    Z.max start (st_epoch o a) <= Z.min stop (st_epoch o z) ->
    at_epoch o l (Z.max start (st_epoch o a)) = Ok s0 ->
    forall fuel, every_between o fuel l 0 start stop = NoFuel.
Proof.
  intros S F o l a z s0 start stop Ha Hz Hst H0 fuel. unfold every_between. rewrite Ha, Hz.
  set (s := Z.max start (st_epoch o a)) in *. set (t := Z.min stop (st_epoch o z)) in *.
  change (ts_inclusive s t 0) with (series s t 0 0). generalize 0 at 2 as cur.
  induction fuel as [|fuel IH]; intros cur; [reflexivity|]. cbn [iterate_traj].
  rewrite ts_next_series. rewrite Z.mul_0_r, Z.add_0_r.
  replace (t <? s) with false by (symmetry; apply Z.ltb_ge; lia).
  rewrite H0, IH. reflexivity.
Qed.
Print Assumptions C13_zero_step_refuted.

Example C13_example :
  every_between tick_ops 10 [0; 10; 20] 7 3 100 = Ok [3; 10; 17] /\
  every tick_ops 10 [0; 10; 20] 10 = Ok [0; 10; 20] /\
  at_epoch tick_ops [0; 10] 0 = Ok 0.
Proof. repeat split; vm_compute; reflexivity. Qed.

(** ** C14.  The epoch filter keeps exactly the states within the bounds, in order. *)
Theorem C14_filter_by_epoch :
  forall (S F : Type) (o : state_ops S F) (r : range) (l : list S),
    exists p, (forall s, p s = true <-> within r (st_epoch o s)) /\
              filter_by_epoch o r l = filter p l.
Proof.
  intros S F o r l. exists (fun s => range_contains r (st_epoch o s)). split; [|reflexivity].
  intros s. unfold range_contains, within. rewrite andb_true_iff.
  destruct r as [[a|a|] [b|b|]]; cbn; rewrite ?Z.leb_le, ?Z.ltb_lt; tauto.
Qed.
Print Assumptions C14_filter_by_epoch.

(** The offset filter does the same relative to the first epoch, for included and missing
    bounds. *)
Theorem C14_filter_by_offset_partial :
  forall (S F : Type) (o : state_ops S F) (r : range) (l : list S) (a : S),
    chronological (st_epoch o) l -> first l = Some a -> closed r ->
    exists p, (forall s, p s = true <-> within r (st_epoch o s - st_epoch o a)) /\
              filter_by_offset o r l = filter p l.
Proof.
  intros S F o r l a H Ha [C1 C2].
  exists (fun s => range_contains r (st_epoch o s - st_epoch o a)). split.
  { intros s. unfold range_contains, within. rewrite andb_true_iff.
    destruct r as [[x|x|] [y|y|]]; cbn; rewrite ?Z.leb_le, ?Z.ltb_lt; tauto. }
  unfold filter_by_offset. rewrite Ha.
  destruct (last_state l) as [z|] eqn:Hz.
  2: { apply first_some in Ha. destruct Ha as [l' ->]. unfold last_state in Hz.
       apply nth_error_None in Hz. cbn in Hz. lia. }
  unfold filter_by_epoch. apply filter_ext_in. intros s Hs.
  pose proof (chron_first o l a s H Ha Hs). pose proof (chron_last o l z s H Hz Hs).
  destruct r as [[x|x|] [y|y|]]; cbn in *;
    try (exfalso; now apply (C1 x)); try (exfalso; now apply (C2 y));
    apply Bool.eq_iff_eq_true; unfold range_contains; cbn;
    rewrite ?andb_true_iff, ?Z.leb_le; lia.
Qed.
Print Assumptions C14_filter_by_offset_partial.

(** An excluded bound is treated as included: the end of [0 .. 20] is kept by
    [filter_by_offset(0..20)] (traj.rs:182-192). *)
Theorem C14_offset_excluded_refuted :
  exists (l : list Z) (s : Z), strictly_chronological (st_epoch tick_ops) l /\
    first l = Some 0 /\
    In s (filter_by_offset tick_ops (Included 0, Excluded 20) l) /\
    ~ within (Included 0, Excluded 20) (s - 0).
Proof.
  exists [0; 10; 20], 20. split.
  { repeat (split; [intros y Hy; repeat (destruct Hy as [<-|Hy]; [cbn; lia|]); destruct Hy|]).
    exact I. }
  split; [reflexivity|]. split; [vm_compute; auto|]. unfold within. cbn. lia.
Qed.
Print Assumptions C14_offset_excluded_refuted.

Example C14_example :
  filter_by_epoch tick_ops (Excluded 0, Included 20) [0; 10; 20; 30] = [10; 20] /\
  filter_by_offset tick_ops (Included 10, Unbounded) [5; 10; 15; 20] = [15; 20] /\
  closed (Included 10, Unbounded).
Proof. repeat split; try reflexivity; intros x; discriminate. Qed.

(** ** C15.  Adding two time-ordered trajectories. *)
Theorem C15_add :
  forall (S F : Type) (o : state_ops S F) (l m : list S) (a b z : S),
    strictly_chronological (st_epoch o) l -> strictly_chronological (st_epoch o) m ->
    first l = Some a -> first m = Some b -> last_state l = Some z ->
    (st_frame_eqb o (st_frame o a) (st_frame o b) = true ->
     exists newer p, add o l m = Ok (l ++ newer) /\ newer = filter p m /\
       (forall s, p s = true <-> st_epoch o z < st_epoch o s) /\
       strictly_chronological (st_epoch o) (l ++ newer) /\
       add_assign o l m = Ok (l ++ newer)) /\
    (st_frame_eqb o (st_frame o a) (st_frame o b) = false ->
     add o l m = Err CreationError /\ add_assign o l m = Panic).
Proof.
  intros S F o l m a b z Hl Hm Ha Hb Hz. unfold add_assign, add. rewrite Ha, Hb, Hz.
  split; intros Q; rewrite Q; cbn [negb]; [|split; reflexivity].
  set (p := fun s => st_epoch o z <? st_epoch o s).
  assert (SC : strictly_chronological (st_epoch o) (l ++ filter p m)).
  { apply schron_app; [exact Hl|now apply schron_filter|].
    intros x y Hx Hy. apply filter_In in Hy. destruct Hy as [_ Hy]. unfold p in Hy.
    apply Z.ltb_lt in Hy.
    pose proof (chron_last o l z x (schron_chron o l Hl) Hz Hx). lia. }
  exists (filter p m), p. rewrite (finalize_id o _ SC).
  repeat split; auto; try apply Z.ltb_lt.
Qed.
Print Assumptions C15_add.

Example C15_example :
  add tick_ops [0; 10; 20] [15; 20; 25; 30] = Ok [0; 10; 20; 25; 30] /\
  first [0; 10; 20] = Some 0 /\ last_state [0; 10; 20] = Some 20.
Proof. repeat split; vm_compute; reflexivity. Qed.

(** ** C56.  Interpolating a spacecraft gives a state at the requested epoch in the frame of
    the neighbouring state, without panicking for the windows that a query builds. *)
Theorem C56_interpolated_state :
  forall (F X : Type) hermite to_et (self : craft F X) (epoch : Z) (w : list (craft F X)),
    (1 <= length w <= 13)%nat ->
    (exists c, interpolate hermite to_et self epoch w = Ok c /\ c_epoch c = epoch /\
       c_frame c = c_frame self /\ c_rest c = c_rest self /\
       hermite (map (fun s => to_et (c_epoch s)) w) (map px w) (map vx w) (to_et epoch)
         = Some (px c, vx c) /\
       hermite (map (fun s => to_et (c_epoch s)) w) (map py w) (map vy w) (to_et epoch)
         = Some (py c, vy c) /\
       hermite (map (fun s => to_et (c_epoch s)) w) (map pz w) (map vz w) (to_et epoch)
         = Some (pz c, vz c)) \/
    interpolate hermite to_et self epoch w = Err tt.
Proof.
  intros F X hermite to_et self epoch w [L1 L2]. unfold interpolate.
  replace (INTERPOLATION_SAMPLES <? length w)%nat with false
    by (symmetry; apply Nat.ltb_ge; exact L2).
  cbv zeta.
  destruct (hermite _ (map px w) _ _) as [[x x']|] eqn:Ex; [|now right].
  destruct (hermite _ (map py w) _ _) as [[y y']|] eqn:Ey; [|now right].
  destruct (hermite _ (map pz w) _ _) as [[z z']|] eqn:Ez; [|now right].
  destruct (nth_error w 0) as [a|] eqn:Ea; [|apply nth_error_None in Ea; lia].
  destruct (nth_error w (length w - 1)) as [b|] eqn:Eb; [|apply nth_error_None in Eb; lia].
  left. eexists. split; [reflexivity|]. cbn. repeat split; auto.
Qed.
Print Assumptions C56_interpolated_state.

(** The propellant mass is off the line through the first and last samples by the amount
    burnt between the first sample and the neighbouring state: line 103 of interpolatable.rs
    starts from the neighbour's mass instead of the first sample's. *)
Theorem C56_mass_partial :
  forall (F X : Type) hermite to_et (self : craft F X) (epoch : Z) (w : list (craft F X)) a b c,
    nth_error w 0 = Some a -> nth_error w (length w - 1) = Some b ->
    interpolate hermite to_et self epoch w = Ok c ->
    c_prop c = (c_prop a + (c_prop b - c_prop a) / to_secs (c_epoch b - c_epoch a)
                  * to_secs (epoch - c_epoch a) + (c_prop self - c_prop a))%R.
Proof.
  intros F X hermite to_et self epoch w a b c Ha Hb H. unfold interpolate in H.
  destruct (INTERPOLATION_SAMPLES <? length w)%nat; [discriminate|]. cbv zeta in H.
  destruct (hermite _ (map px w) _ _) as [[x x']|]; [|discriminate].
  destruct (hermite _ (map py w) _ _) as [[y y']|]; [|discriminate].
  destruct (hermite _ (map pz w) _ _) as [[z z']|]; [|discriminate].
  rewrite Ha, Hb in H. injection H as <-. cbn. lra.
Qed.
Print Assumptions C56_mass_partial.

(** 100 kg at 0 s and 90 kg at 10 s: the trajectory reports 85 kg at 5 s. *)
Definition craft_at (t : Z) (m : R) : craft unit unit :=
  {| c_epoch := t * 1000000000; c_pos := (0, 0, 0)%R; c_vel := (0, 0, 0)%R; c_frame := tt;
     c_prop := m; c_thrust := None; c_rest := tt |}.
Definition flat_ops : state_ops (craft unit unit) unit :=
  craft_ops (fun _ _ _ _ => Some (0, 0)%R) (fun _ => 0%R) (fun _ _ => true).
Theorem C56_mass_refuted :
  exists c, at_epoch flat_ops [craft_at 0 100; craft_at 10 90] 5000000000 = Ok c /\
    ~ (90 <= c_prop c <= 100)%R /\ c_prop c = 85%R.
Proof.
  eexists. split.
  - cbv - [Rplus Rminus Rdiv Rmult to_secs IZR]. reflexivity.
  - cbn [c_prop]. unfold to_secs. split; lra.
Qed.
Print Assumptions C56_mass_refuted.

Example C56_example :
  interpolate (fun _ _ _ _ => Some (1, 2)%R) (fun _ => 0%R) (craft_at 1 5) 1
    [craft_at 0 5; craft_at 1 5] <> Err tt.
Proof. discriminate. Qed.

(** ** C57.  Rebuilding, resampling or changing the frame of a trajectory. *)
Theorem C57_rebuild :
  forall (S F : Type) (o : state_ops S F) (l : list S) (epochs : list Z),
    l <> [] ->
    (forall e s, In e epochs -> at_epoch o l e = Ok s -> st_epoch o s = e) ->
    forall t, rebuild o l epochs = Ok t ->
    chronological (st_epoch o) t /\
    (forall s, In s t -> at_epoch o l (st_epoch o s) = Ok s /\ In (st_epoch o s) epochs) /\
    (forall e, In e epochs -> exists s, In s t /\ st_epoch o s = e /\ at_epoch o l e = Ok s).
Proof.
  intros S F o l epochs Hl He t H. destruct l as [|x l]; [contradiction|].
  unfold rebuild in H. destruct (at_all o (x :: l) epochs) as [r|y| |] eqn:A; try discriminate.
  cbn in H. injection H as <-. apply at_all_spec in A.
  assert (A1 : forall s, In s r -> exists e, In e epochs /\ at_epoch o (x :: l) e = Ok s).
  { clear He. induction A as [|e s es ss H1 H2 IH]; intros q []; [subst; exists e; split; [now left|auto]|].
    destruct (IH q H) as (e' & I1 & I2). exists e'. split; [now right|assumption]. }
  assert (A2 : forall e, In e epochs -> exists s, In s r /\ at_epoch o (x :: l) e = Ok s).
  { clear He A1. induction A as [|e s es ss H1 H2 IH]; intros q []; [subst; exists s; split; [now left|auto]|].
    destruct (IH q H) as (e' & I1 & I2). exists e'. split; [now right|assumption]. }
  split; [apply finalize_chron|]. split.
  - intros s Hs. apply finalize_in in Hs. destruct (A1 s Hs) as (e & I1 & I2).
    pose proof (He e s I1 I2) as E. rewrite E. auto.
  - intros e Hin. destruct (A2 e Hin) as (s & I1 & I2). pose proof (He e s Hin I2) as E.
    destruct (finalize_epochs o r s I1) as (s' & J1 & J2). exists s'. split; [exact J1|].
    split; [congruence|]. pose proof (finalize_in o s' r J1) as K.
    destruct (A1 s' K) as (e' & K1 & K2). pose proof (He e' s' K1 K2). congruence.
Qed.
Print Assumptions C57_rebuild.

(** One epoch outside of the trajectory makes the rebuild fail. *)
Theorem C57_rebuild_outside :
  forall (S F : Type) (o : state_ops S F) (l : list S) (epochs : list Z) (e : Z),
    In e epochs -> (exists x, at_epoch o l e = Err x) ->
    forall t, rebuild o l epochs <> Ok t.
Proof.
  intros S F o l epochs e Hin [x Hx] t H. unfold rebuild in H. destruct l as [|y l]; [discriminate|].
  destruct (at_all o (y :: l) epochs) as [r|z| |] eqn:A; try discriminate.
  apply at_all_spec in A. clear H.
  induction A as [|e' s es ss H1 H2 IH]; [destruct Hin|].
  destruct Hin as [->|Hin]; [congruence|auto].
Qed.
Print Assumptions C57_rebuild_outside.

(** Resampling keeps the visited states as they are: they are already in order. *)
Theorem C57_resample :
  forall (S F : Type) (o : state_ops S F) (l : list S) (a z : S) (step : Z) (fuel : nat),
    first l = Some a -> last_state l = Some z -> 0 < step ->
    (Z.to_nat ((st_epoch o z - st_epoch o a) / step + 1) < fuel)%nat ->
    (forall e, st_epoch o a <= e <= st_epoch o z ->
       exists s, at_epoch o l e = Ok s /\ st_epoch o s = e) ->
    exists t, resample o fuel l step = Ok t /\
      strictly_chronological (st_epoch o) t /\
      (forall s, In s t -> at_epoch o l (st_epoch o s) = Ok s) /\
      (forall e, In e (map (st_epoch o) t) <->
         e <= st_epoch o z /\ exists k, 0 <= k /\ e = st_epoch o a + k * step).
Proof.
  intros S F o l a z step fuel Ha Hz Hs Hf Hok.
  destruct (C13_grid_partial S F o l a z step (st_epoch o a) (st_epoch o z) fuel Ha Hz Hs)
    as (visited & items & H1 & H2 & H3 & H4).
  - rewrite Z.max_id, Z.min_id. exact Hf.
  - rewrite Z.max_id, Z.min_id. intros e He. destruct (Hok e He) as (s & E & _). now exists s.
  - rewrite Z.max_id, Z.min_id in H4.
    assert (M : map (st_epoch o) items = visited).
    { assert (P : forall e, In e visited -> st_epoch o a <= e <= st_epoch o z).
      { intros e He. apply H4 in He. destruct He as [J1 (k & J2 & ->)]. nia. }
      clear -H2 P Hok. induction H2 as [|e s es ss J1 J2 IH]; [reflexivity|]. cbn. f_equal.
      - destruct (Hok e (P e (or_introl eq_refl))) as (s' & K1 & K2). congruence.
      - apply IH. intros; apply P; now right. }
    assert (SC : strictly_chronological (st_epoch o) items).
    { rewrite <- M in H3. clear -H3. induction items as [|x items IH]; cbn in *; [trivial|].
      destruct H3 as [J1 J2]. split; [|auto]. intros y Hy. apply J1. now apply in_map. }
    exists items. unfold resample. destruct l as [|x l]; [discriminate|].
    unfold every. rewrite Ha, Hz, H1. cbn. rewrite (finalize_id o _ SC).
    split; [reflexivity|]. split; [exact SC|]. split.
    + intros s Hin. clear -H2 M Hin. induction H2 as [|e q es qs J1 J2 IH]; [destruct Hin|].
      cbn in M. injection M as E1 E2. destruct Hin as [->|Hin]; [now rewrite E1|auto].
    + rewrite M. exact H4.
Qed.
Print Assumptions C57_resample.

(** Changing the frame transforms every state, when the transformation keeps epochs. *)
Theorem C57_to_frame :
  forall (S F : Type) (o : state_ops S F) (f : S -> res unit S) (l : list S),
    strictly_chronological (st_epoch o) l -> l <> [] ->
    (forall s s', f s = Ok s' -> st_epoch o s' = st_epoch o s) ->
    forall t, to_frame o f l = Ok t <-> Forall2 (fun s s' => f s = Ok s') l t.
Proof.
  intros S F o f l Hl Hn He t.
  assert (A : forall l r, transform_all f l = Ok r <-> Forall2 (fun s s' => f s = Ok s') l r).
  { clear. induction l as [|s l IH]; intros r; cbn.
    - split; [intros E; injection E as <-; constructor|inversion 1; reflexivity].
    - split.
      + destruct (f s) as [s'|y| |] eqn:E; try discriminate.
        destruct (transform_all f l) as [q|y| |]; cbn; try discriminate.
        intros Q. injection Q as <-. constructor; [assumption|]. now apply IH.
      + inversion 1 as [|? s' ? q H1 H2]; subst. rewrite H1. apply IH in H2. rewrite H2.
        reflexivity. }
  assert (B : forall r, Forall2 (fun s s' => f s = Ok s') l r -> finalize o r = r).
  { intros r H. apply finalize_id.
    assert (SC : strictly_chronological (st_epoch o) r /\
                 forall y', In y' r -> exists y, In y l /\ st_epoch o y' = st_epoch o y).
    { clear Hn. induction H as [|s s' l r H1 H2 IH]; [split; [exact I|intros y []]|].
      cbn in Hl. destruct Hl as [L1 L2]. destruct (IH L2) as [I1 I2]. split.
      - split; [|exact I1]. intros y Hy. destruct (I2 y Hy) as (x & J1 & J2).
        rewrite (He _ _ H1), J2. auto.
      - intros y' [<-|Hy]; [exists s; split; [now left|eauto]|].
        destruct (I2 y' Hy) as (x & J1 & J2). exists x. split; [now right|assumption]. }
    apply SC. }
  unfold to_frame. destruct l as [|x l]; [contradiction|].
  split.
  - destruct (transform_all f (x :: l)) as [r|y| |] eqn:E; cbn; try discriminate.
    intros Q. injection Q as <-. apply A in E. now rewrite (B r E).
  - intros H. pose proof (B t H) as Bt. apply A in H. rewrite H. cbn. now rewrite Bt.
Qed.
Print Assumptions C57_to_frame.

Example C57_example :
  rebuild tick_ops [0; 10; 20] [15; 5; 10] = Ok [5; 10; 15] /\
  resample tick_ops 9 [0; 10; 20] 5 = Ok [0; 5; 10; 15; 20] /\
  to_frame tick_ops (fun x => Ok x) [0; 10] = Ok [0; 10].
Proof. repeat split; vm_compute; reflexivity. Qed.
