(** C47 and C70: Monte Carlo runs and their reports. *)
From Coq Require Import Reals.
From Verif Require Import Base RustStd Mc_Model.
Local Open Scope nat_scope.

Section Runs.
Context {rng state param res_t error : Type}.
Notation dispersed := (dispersed state param).
Notation run := (run state param res_t error).
Context (draw : rng -> dispersed * rng) (seeded : Z -> rng) (system : rng)
  (propagate : state -> error + res_t).

(** ** Specification *)

(** The draw of number [k] of a generator. *)
Definition sample (g : rng) (k : nat) : dispersed := fst (draw (Nat.iter k (fun g => snd (draw g)) g)).
Definition start (seed : option Z) : rng := match seed with Some s => seeded s | None => system end.

(** ** Proofs *)
Lemma skip_iter n : forall g, skip_samples draw n g = Nat.iter n (fun g => snd (draw g)) g.
Proof.
  induction n as [|n IH]; intros g; cbn [skip_samples]; [reflexivity|]. rewrite IH.
  clear IH. induction n as [|n IH]; [reflexivity|]. cbn in IH |- *. f_equal. f_equal. exact IH.
Qed.
Lemma sample_next g k : sample (snd (draw g)) k = sample g (S k).
Proof. unfold sample. rewrite <- !skip_iter. reflexivity. Qed.
Lemma sample_skip g skip k : sample (skip_samples draw skip g) k = sample g (skip + k).
Proof.
  revert g. induction skip as [|n IH]; intros g; [reflexivity|]. cbn [skip_samples]. rewrite IH, sample_next. reflexivity.
Qed.
Lemma take_nth n : forall g k, k < n -> nth_error (take_samples draw n g) k = Some (sample g k).
Proof.
  induction n as [|n IH]; intros g k H; [lia|]. destruct k as [|k]; [reflexivity|].
  cbn [take_samples nth_error]. rewrite IH by lia. now rewrite sample_next.
Qed.
Lemma take_length n : forall g, length (take_samples draw n g) = n.
Proof. induction n as [|n IH]; intros g; cbn; [|rewrite IH]; reflexivity. Qed.

Lemma enumerate_nth {A} (l : list A) : forall i k, nth_error (enumerate_from i l) k = option_map (pair (i + k)) (nth_error l k).
Proof.
  induction l as [|x l IH]; intros i k; destruct k as [|k]; try reflexivity.
  - cbn. now rewrite Nat.add_0_r.
  - cbn [enumerate_from nth_error]. rewrite IH. now replace (S i + k) with (i + S k) by lia.
Qed.
Lemma enumerate_length {A} (l : list A) : forall i, length (enumerate_from i l) = length l.
Proof. induction l as [|x l IH]; intros i; cbn; [|rewrite IH]; reflexivity. Qed.

Lemma execution_perm (tasks : list (nat * dispersed)) sent : execution propagate tasks sent -> Permutation (map (task propagate) tasks) sent.
Proof.
  induction 1 as [|before t after sent _ IH]; [constructor|]. rewrite map_app in *. cbn [map].
  eapply Permutation_trans; [apply Permutation_sym, Permutation_middle|]. now constructor.
Qed.

(** There is always an execution: in order. *)
Lemma execution_in_order (tasks : list (nat * dispersed)) : execution propagate tasks (map (task propagate) tasks).
Proof. induction tasks as [|t l IH]; [constructor|]. exact (execution_send propagate [] t l _ IH). Qed.

Lemma ordered_tasks (l : list dispersed) : forall i, ordered (key_leb (fun r : run => Z.of_nat (index r)))
  (map (task propagate) (enumerate_from i l)).
Proof.
  assert (B : forall (l : list dispersed) i r, In r (map (task propagate) (enumerate_from i l)) -> i <= index r).
  { clear. induction l as [|x l IH]; intros i r; [intros []|]. cbn [enumerate_from map].
    intros [<-|H]; [apply Nat.le_refl|]. apply IH in H. lia. }
  induction l as [|x l IH]; intros i; cbn [enumerate_from map]; constructor; [apply IH|].
  apply Forall_forall. intros r H. apply B in H. unfold key_leb. apply Z.leb_le. cbn [task index fst]. lia.
Qed.

Lemma tasks_distinct (l : list dispersed) i (a b : run) : In a (map (task propagate) (enumerate_from i l)) ->
  In b (map (task propagate) (enumerate_from i l)) -> index a = index b -> a = b.
Proof.
  intros Ha Hb E. apply in_map_iff in Ha as ([ia xa] & <- & Ha). apply in_map_iff in Hb as ([ib xb] & <- & Hb).
  apply In_nth_error in Ha as [ka Ha]. apply In_nth_error in Hb as [kb Hb].
  rewrite enumerate_nth in Ha, Hb. destruct (nth_error l ka) eqn:Na; [|discriminate].
  destruct (nth_error l kb) eqn:Nb; [|discriminate]. cbn in Ha, Hb, E.
  assert (ka = kb) by (inversion Ha; inversion Hb; lia). subst kb. congruence.
Qed.

Lemma resume_value skip n seed runs : resume_run draw seeded system propagate skip n seed runs ->
  runs = map (task propagate) (generate_states draw seeded system skip n seed).
Proof.
  intros (sent & He & ->). unfold collect_runs, generate_states in *.
  set (l := take_samples _ _ _) in *. apply execution_perm in He.
  symmetry. transitivity (sort_by (key_leb (fun r : run => Z.of_nat (index r))) (map (task propagate) (enumerate_from 0 l))).
  - symmetry. apply sort_id. apply ordered_tasks.
  - apply (sort_permutation _ (key_total _) (key_trans _)); [|exact He].
    intros a b Ha Hb L1 L2. apply (tasks_distinct l 0); [exact Ha|exact Hb|].
    unfold key_leb in L1, L2. apply Z.leb_le in L1, L2. lia.
Qed.

Lemma resume_nth skip n seed runs k : resume_run draw seeded system propagate skip n seed runs ->
  nth_error runs k = if k <? n then
    let s := sample (start seed) (skip + k) in
    Some {| index := k; dispersed_state := s; result := propagate (sampled s) |} else None.
Proof.
  intros H. rewrite (resume_value _ _ _ _ H), nth_error_map. unfold generate_states. fold (start seed).
  rewrite enumerate_nth. destruct (Nat.ltb_spec k n) as [L|L].
  - rewrite take_nth by exact L. rewrite sample_skip. reflexivity.
  - assert (nth_error (take_samples draw n (skip_samples draw skip (start seed))) k = None) as ->; [|reflexivity].
    apply nth_error_None. now rewrite take_length.
Qed.

(** C47: whatever the order in which the threads end, there are as many runs as asked, the run at
    position [k] is the one of number [k], its state is the [k]-th draw of the seeded generator and
    its result the propagation of that state. *)
Theorem C47_schedule_independent : forall n seed runs,
  run_all draw seeded system propagate n seed runs ->
  length runs = n /\
  forall k, k < n -> nth_error runs k =
    Some {| index := k; dispersed_state := sample (start seed) k; result := propagate (sampled (sample (start seed) k)) |}.
Proof.
  intros n seed runs H. split.
  - rewrite (resume_value _ _ _ _ H), map_length. unfold generate_states. now rewrite enumerate_length, take_length.
  - intros k L. rewrite (resume_nth _ _ _ _ k H). destruct (Nat.ltb_spec k n); [reflexivity|lia].
Qed.

(** C47: some execution exists, and any two give the same results. *)
Theorem C47_reproducible : forall skip n seed,
  exists runs, resume_run draw seeded system propagate skip n seed runs /\
  forall runs', resume_run draw seeded system propagate skip n seed runs' -> runs' = runs.
Proof.
  intros skip n seed. eexists. split.
  - eexists. split; [apply execution_in_order|reflexivity].
  - intros runs' H. rewrite (resume_value _ _ _ _ H). symmetry. apply (resume_value skip n seed).
    eexists. split; [apply execution_in_order|reflexivity].
Qed.

Lemma nth_error_same {A} (l : list A) : forall m, (forall k, nth_error l k = nth_error m k) -> l = m.
Proof.
  induction l as [|x l IH]; intros [|y m] H; [reflexivity|specialize (H 0); discriminate|specialize (H 0); discriminate|].
  f_equal; [specialize (H 0); cbn in H; congruence|]. apply IH. intros k. exact (H (S k)).
Qed.

(** C47: asking for more runs only appends. *)
Theorem C47_more_runs_append : forall skip n m seed short long,
  resume_run draw seeded system propagate skip n seed short ->
  resume_run draw seeded system propagate skip (n + m) seed long ->
  exists rest, long = short ++ rest.
Proof.
  intros skip n m seed short long H1 H2. exists (skipn n long).
  assert (E : short = firstn n long); [|rewrite E; symmetry; apply firstn_skipn].
  apply nth_error_same. intros k. rewrite (resume_nth _ _ _ _ k H1).
  destruct (Nat.ltb_spec k n) as [L|L].
  - transitivity (nth_error long k).
    + rewrite (resume_nth _ _ _ _ k H2). destruct (Nat.ltb_spec k (n + m)); [reflexivity|lia].
    + rewrite <- (firstn_skipn n long) at 1. rewrite nth_error_app1; [reflexivity|].
      assert (length long = n + m).
      { rewrite (resume_value _ _ _ _ H2), map_length. unfold generate_states. now rewrite enumerate_length, take_length. }
      rewrite firstn_length. lia.
  - symmetry. apply nth_error_None. rewrite firstn_length. lia.
Qed.

(** C47: a resumed run continues the full one: same states, same results.  Partial: the numbers
    are not those of the full run (refuted below). *)
Theorem C47_resume_partial : forall skip n seed full resumed k r,
  run_all draw seeded system propagate (skip + n) seed full ->
  resume_run draw seeded system propagate skip n seed resumed ->
  nth_error resumed k = Some r ->
  exists r', nth_error full (skip + k) = Some r' /\
    dispersed_state r' = dispersed_state r /\ result r' = result r.
Proof.
  intros skip n seed full resumed k r H1 H2 H. rewrite (resume_nth _ _ _ _ k H2) in H.
  destruct (Nat.ltb_spec k n) as [L|L]; [|discriminate].
  eexists. rewrite (resume_nth _ _ _ _ (skip + k) H1). destruct (Nat.ltb_spec (skip + k) (skip + n)); [|lia].
  split; [reflexivity|]. assert (E : r = {| index := k; dispersed_state := sample (start seed) (skip + k);
    result := propagate (sampled (sample (start seed) (skip + k))) |}) by congruence.
  rewrite E. split; reflexivity.
Qed.

(** C47: the number of every resumed run is too small by the number of skipped runs. *)
Theorem C47_resume_numbers : forall skip n seed full resumed k r,
  run_all draw seeded system propagate (skip + n) seed full ->
  resume_run draw seeded system propagate skip n seed resumed ->
  nth_error resumed k = Some r ->
  exists r', nth_error full (skip + k) = Some r' /\ index r' = skip + index r.
Proof.
  intros skip n seed full resumed k r H1 H2 H. rewrite (resume_nth _ _ _ _ k H2) in H.
  destruct (Nat.ltb_spec k n) as [L|L]; [|discriminate].
  eexists. rewrite (resume_nth _ _ _ _ (skip + k) H1). destruct (Nat.ltb_spec (skip + k) (skip + n)); [|lia].
  split; [reflexivity|]. assert (index r = k) as -> by (inversion H; reflexivity). reflexivity.
Qed.

(** ** Reports *)
Context (states : res_t -> list state) (value : param -> state -> option R)
  (every : Z -> res_t -> list state) (same_param : param -> param -> bool).

(** What the report of one run should be. *)
Definition run_value (pick : list state -> option state) (p : param) (r : run) : option R :=
  match result r with
  | inr t => match pick (states t) with Some s => value p s | None => None end
  | inl _ => None
  end.
Definition complete (runs : list run) : Prop := forall r t, In r runs -> result r = inr t -> states t <> [].

Lemma values_of_spec pick runs p default :
  (forall l, l <> [] -> pick l <> None) -> complete runs ->
  values_of states value pick runs p default = Ok (flat_map (fun r => or_skip (run_value pick p r) default) runs).
Proof.
  intros Hp. induction runs as [|r runs IH]; intros Hc; [reflexivity|]. cbn [values_of flat_map].
  unfold run_value at 1. destruct (result r) as [e|t] eqn:E.
  - cbn [bind]. rewrite IH; [reflexivity|]. intros r' t' Hr. apply Hc. now right.
  - destruct (pick (states t)) as [s|] eqn:P.
    + cbn [bind]. rewrite IH; [reflexivity|]. intros r' t' Hr. apply Hc. now right.
    + exfalso. apply (Hp (states t)); [|exact P]. apply (Hc r); [now left|exact E].
Qed.

Lemma head_some (l : list state) : l <> [] -> head l <> None.
Proof. destruct l; [congruence|discriminate]. Qed.
Lemma last_some (l : list state) : l <> [] -> head (rev l) <> None.
Proof.
  intros H. apply head_some. intros E. apply H. rewrite <- (rev_involutive l), E. reflexivity.
Qed.

(** C70: with a value for the failed runs, the reports of the first and of the last states have
    one value per run, in order. *)
Theorem C70_one_value_per_run : forall runs p d, complete runs ->
  (exists vs, first_values_of states value runs p (Some d) = Ok vs /\ length vs = length runs /\
     forall k r, nth_error runs k = Some r ->
       nth_error vs k = Some (match run_value head p r with Some v => v | None => d end)) /\
  (exists vs, last_values_of states value runs p (Some d) = Ok vs /\ length vs = length runs /\
     forall k r, nth_error runs k = Some r ->
       nth_error vs k = Some (match run_value (fun l => head (rev l)) p r with Some v => v | None => d end)).
Proof.
  assert (A : forall pick p d (runs : list run), flat_map (fun r => or_skip (run_value pick p r) (Some d)) runs =
    map (fun r => match run_value pick p r with Some v => v | None => d end) runs).
  { intros pick p d. induction runs as [|r runs IH]; [reflexivity|]. cbn [flat_map map]. rewrite IH.
    destruct (run_value pick p r); reflexivity. }
  intros runs p d Hc. split; eexists; (split; [apply values_of_spec; [first [exact head_some|exact last_some]|exact Hc]|]);
    rewrite A, map_length; (split; [reflexivity|]); intros k r H; rewrite nth_error_map, H; reflexivity.
Qed.

(** C70: without it, the runs that failed or that do not have the parameter are left out. *)
Theorem C70_failures_left_out : forall runs p, complete runs ->
  (forall v vs, first_values_of states value runs p None = Ok vs -> In v vs ->
     exists r, In r runs /\ run_value head p r = Some v) /\
  exists vs, first_values_of states value runs p None = Ok vs /\
    length vs = length (filter (fun r => match run_value head p r with Some _ => true | None => false end) runs).
Proof.
  intros runs p Hc. unfold first_values_of. rewrite (values_of_spec head runs p None head_some Hc). split.
  - intros v vs E Hv. assert (E' : vs = flat_map (fun r => or_skip (run_value head p r) None) runs) by congruence.
    rewrite E' in Hv. apply in_flat_map in Hv as (r & Hr & Hv). exists r. split; [exact Hr|].
    destruct (run_value head p r) as [x|]; cbn in Hv; [destruct Hv as [<-|[]]; reflexivity|destruct Hv].
  - eexists. split; [reflexivity|]. clear Hc. induction runs as [|r runs IH]; [reflexivity|]. cbn [flat_map filter].
    rewrite app_length, IH. destruct (run_value head p r); reflexivity.
Qed.

(** What the states of a run report: their values, in order, and the default value, when there is
    one, for those without a value. *)
Inductive reports (p : param) (default : option R) : list state -> list R -> Prop :=
| reports_nil : reports p default [] []
| reports_value s l v vs : value p s = Some v -> reports p default l vs -> reports p default (s :: l) (v :: vs)
| reports_default s l d vs : value p s = None -> default = Some d -> reports p default l vs ->
    reports p default (s :: l) (d :: vs)
| reports_nothing s l vs : value p s = None -> default = None -> reports p default l vs ->
    reports p default (s :: l) vs.
(** C70: the report of every state is made, run by run and in order, of the values of the states of
    the run, or of the default value alone, when there is one, for a run that failed. *)
Theorem C70_every_value : forall (runs : list run) p step default, exists parts,
  every_value_of value every runs p step default = concat parts /\
  Forall2 (fun r part => match result r with
    | inr t => reports p default (every step t) part
    | inl _ => match default with Some d => part = [d] | None => part = [] end
    end) runs parts.
Proof.
  intros runs p step default. induction runs as [|r runs (parts & E & F)]; [exists []; split; [reflexivity|constructor]|].
  assert (H : exists part, every_value_of value every (r :: runs) p step default =
      part ++ every_value_of value every runs p step default /\
    match result r with
    | inr t => reports p default (every step t) part
    | inl _ => match default with Some d => part = [d] | None => part = [] end
    end).
  { eexists. split; [reflexivity|]. destruct (result r) as [x|t]; [destruct default; reflexivity|].
    induction (every step t) as [|s l IH]; [constructor|]. cbn [flat_map].
    destruct (value p s) as [v|] eqn:V; [cbn; now constructor|].
    destruct default as [d|]; cbn; [now eapply reports_default|now apply reports_nothing]. }
  destruct H as (part & H1 & H2). exists (part :: parts). split; [rewrite H1, E; reflexivity|now constructor].
Qed.

(** C70: the report of the dispersions has the dispersion of every run, in order, and is an error
    when one of them does not have it. *)
Theorem C70_dispersion_values : forall (runs : list run) p,
  match dispersion_values_of same_param runs p with
  | Ok vs => length vs = length runs /\ forall k r, nth_error runs k = Some r ->
      exists v, nth_error vs k = Some v /\
        exists d, In (d, v) (actual_dispersions (dispersed_state r)) /\ same_param d p = true
  | Err e => e = Unavailable p /\ exists r, In r runs /\
      forall d v, In (d, v) (actual_dispersions (dispersed_state r)) -> same_param d p = false
  | _ => False
  end.
Proof.
  assert (F : forall p l v, find_dispersion same_param p l = Some v -> exists d, In (d, v) l /\ same_param d p = true).
  { intros p. induction l as [|[d x] l IH]; intros v H; [discriminate|]. cbn in H. destruct (same_param d p) eqn:E.
    - exists d. split; [left; congruence|exact E].
    - destruct (IH v H) as (d' & I & S). exists d'. split; [now right|exact S]. }
  assert (N : forall p l, find_dispersion same_param p l = None -> forall d v, In (d, v) l -> same_param d p = false).
  { intros p. induction l as [|[d x] l IH]; intros H d' v I; [destruct I|]. cbn in H. destruct (same_param d p) eqn:E; [discriminate|].
    destruct I as [I|I]; [congruence|]. exact (IH H d' v I). }
  intros runs p. induction runs as [|r runs IH]; cbn [dispersion_values_of].
  - split; [reflexivity|]. intros k r H. destruct k; discriminate.
  - destruct (find_dispersion same_param p (actual_dispersions (dispersed_state r))) as [v|] eqn:E.
    + destruct (dispersion_values_of same_param runs p) as [vs|e| |]; cbn [bind].
      * destruct IH as [L IH]. split; [cbn; now rewrite L|]. intros k r' H. destruct k as [|k]; cbn in H |- *.
        -- exists v. split; [reflexivity|]. assert (r' = r) as -> by congruence. now apply F.
        -- exact (IH k r' H).
      * destruct IH as (-> & r' & Hr & Hn). split; [reflexivity|]. exists r'. split; [now right|exact Hn].
      * exact IH.
      * exact IH.
    + split; [reflexivity|]. exists r. split; [now left|]. now apply N.
Qed.
End Runs.

(** ** Cases *)
Definition counter (g : nat) : dispersed nat unit * nat := ({| sampled := g; actual_dispersions := [(tt, 1%R)] |}, S g).
Definition even_ok (s : nat) : unit + nat := if Nat.even s then inr (s * 10) else inl tt.

(** Three runs, ended in the order 2, 0, 1. *)
Example three_runs : exists runs, run_all counter Z.to_nat 0 even_ok 3 (Some 5%Z) runs /\
  map index runs = [0; 1; 2] /\ map result runs = [inl tt; inr 60; inl tt].
Proof.
  eexists. split.
  - eexists. split; [|reflexivity].
    refine (execution_send even_ok [_; _] _ [] _ _).
    refine (execution_send even_ok [] _ [_] _ _).
    refine (execution_send even_ok [] _ [] _ _). constructor.
  - split; reflexivity.
Qed.

(** The reports of those three runs: the first one failed. *)
Example three_reports : exists runs, run_all counter Z.to_nat 0 even_ok 3 (Some 5%Z) runs /\
  complete (fun t => [t; S t]) runs /\
  first_values_of (fun t => [t; S t]) (fun _ s => Some (INR s)) runs tt (Some 0%R) = Ok [0%R; INR 60; 0%R] /\
  last_values_of (fun t => [t; S t]) (fun _ s => Some (INR s)) runs tt None = Ok [INR 61] /\
  dispersion_values_of (fun _ _ => true) runs tt = Ok [1%R; 1%R; 1%R] /\
  every_value_of (fun _ s => Some (INR s)) (fun _ t => [t; S t]) runs tt 1%Z (Some 0%R) = [0%R; INR 60; INR 61; 0%R].
Proof.
  eexists. split; [eexists; split; [apply execution_in_order|reflexivity]|].
  split; [intros r t _ _; discriminate|]. split; [|split; [|split]]; reflexivity.
Qed.

(** C47: after one run, the run resumed has the number 0 instead of 1. *)
Theorem C47_resume_refuted : exists (draw : nat -> dispersed nat unit * nat) seeded system (propagate : nat -> unit + nat) full resumed r r',
  run_all draw seeded system propagate 2 (Some 5%Z) full /\
  resume_run draw seeded system propagate 1 1 (Some 5%Z) resumed /\
  nth_error full 1 = Some r /\ nth_error resumed 0 = Some r' /\
  dispersed_state r = dispersed_state r' /\ index r <> index r'.
Proof.
  exists counter, Z.to_nat, 0, even_ok. do 4 eexists.
  split; [eexists; split; [apply execution_in_order|reflexivity]|].
  split; [eexists; split; [apply execution_in_order|reflexivity]|].
  split; [reflexivity|]. split; [reflexivity|]. split; [reflexivity|]. discriminate.
Qed.

(** C70: the report of every state counts a failed run once, a successful one once per step: with
    a value for the failed runs, the values of run [k] are not at any fixed place. *)
Theorem C70_every_value_refuted : exists (every : nat -> list nat) (value : unit -> nat -> option R) (runs : list (run nat unit nat unit)),
  (forall t, length (every t) = 2) /\ length runs = 2 /\
  length (every_value_of value (fun _ => every) runs tt 1%Z (Some 0%R)) <> 2 * length runs.
Proof.
  exists (fun t => [t; t]), (fun _ s => Some (INR s)),
    (map (task even_ok) [(0, fst (counter 5)); (1, fst (counter 6))]).
  split; [reflexivity|]. split; [reflexivity|]. cbn. discriminate.
Qed.

Print Assumptions C47_schedule_independent.
Print Assumptions C47_reproducible.
Print Assumptions C47_more_runs_append.
Print Assumptions C47_resume_partial.
Print Assumptions C47_resume_numbers.
Print Assumptions C47_resume_refuted.
Print Assumptions C70_one_value_per_run.
Print Assumptions C70_failures_left_out.
Print Assumptions C70_dispersion_values.
Print Assumptions C70_every_value.
Print Assumptions C70_every_value_refuted.
