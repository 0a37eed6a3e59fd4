(** C105: the file of the results of a Monte Carlo. *)
From Coq Require Import Reals String Lia.
From Verif Require Import Base RustStd Traj_Model Mc_Model Mpq_Model.
Local Open Scope Z_scope.

(** ** Specification *)
Section Spec.
Context {S F P E : Type} (ops : state_ops S F) (value : P -> S -> option R) (is_mode : P -> bool) (mode_text : R -> string).
Notation run := (mc_run S P E).

(** What the results hold: the successful runs, in order. *)
Fixpoint successes (l : list run) : list (nat * prop_result S) :=
  match l with
  | [] => []
  | r :: l' => match result r with inr t => (index r, t) :: successes l' | inl _ => successes l' end
  end.
(** What the file should have in one line. *)
Definition line_of (p : P) (s : S) : option cell :=
  option_map (fun x => if is_mode p then Mode (mode_text x) else Number x) (value p s).
(** [lines] are the lines of the file: a run and a state each. *)
Definition holds (t : mc_table P) (requested : list P) (lines : list (nat * S)) : Prop :=
  tb_epochs t = map (fun x => st_epoch ops (snd x)) lines /\
  tb_indexes t = map (fun x => Z.of_nat (fst x)) lines /\
  map (fun c => fst (fst c)) (tb_columns t) =
    filter (fun p => existsb (fun x => match value p (snd x) with Some _ => true | None => false end) lines) requested /\
  Forall (fun c => snd c = map (fun x => line_of (fst (fst c)) (snd x)) lines /\
                   (snd (fst c) = true <-> In None (snd c))) (tb_columns t).
Definition lines_of (x : nat * list S) : list (nat * S) := map (pair (fst x)) (snd x).
Definition whole (requested : list P) : mc_cfg P := {| requested := requested; c_start := None; c_end := None; c_step := None |}.
(** The states of a run that are asked for, when the bounds default to those. *)
Definition part (fuel : nat) (cfg : mc_cfg P) (b : Z * Z) (traj l : list S) : Prop :=
  (c_start cfg = None /\ c_end cfg = None /\ c_step cfg = None /\ l = traj) \/
  ((c_start cfg <> None \/ c_end cfg <> None \/ c_step cfg <> None) /\
   every_between ops fuel traj (match c_step cfg with Some s => s | None => 60000000000 end)
     (match c_start cfg with Some s => s | None => fst b end) (match c_end cfg with Some s => s | None => snd b end) = Ok l).
End Spec.

Section Proofs.
Context {S F P E : Type} (ops : state_ops S F) (value : P -> S -> option R) (is_mode : P -> bool) (mode_text : R -> string).
Notation run := (mc_run S P E).
Notation to_parquet := (mc_to_parquet (E := E) ops value is_mode mode_text).

Lemma as_i32_small n : (Z.of_nat n < 2147483648) -> as_i32 n = Z.of_nat n.
Proof. intros H. unfold as_i32. rewrite Z.mod_small by lia. lia. Qed.

Lemma states_of_part fuel (cfg : mc_cfg P) b traj l : states_of ops fuel cfg b traj = Ok l <-> part ops fuel cfg b traj l.
Proof.
  unfold states_of, part, or_else, lift. destruct cfg as [rq [s|] [e|] [k|]]; cbn [c_start c_end c_step]; split; intros H;
    try (right; split; [first [left; discriminate|right; left; discriminate|right; right; discriminate]|];
         match type of H with context [every_between ?a ?b ?c ?d ?e ?f] => destruct (every_between a b c d e f) end; congruence);
    try (destruct H as [(H1 & H2 & H3 & _)|[_ H]]; [discriminate|rewrite H; reflexivity]).
  - left. repeat split. congruence.
  - destruct H as [(_ & _ & _ & ->)|[[H|[H|H]] _]]; [reflexivity|now elim H|now elim H|now elim H].
Qed.

Lemma successes_cons_l (r : run) l e : result r = inl e -> successes (r :: l) = successes l.
Proof. intros H. cbn [successes]. now rewrite H. Qed.
Lemma successes_cons_r (r : run) l t : result r = inr t -> successes (r :: l) = (index r, t) :: successes l.
Proof. intros H. cbn [successes]. now rewrite H. Qed.

Lemma collect fuel (cfg : mc_cfg P) : forall (runs : list run) c c', Forall (fun x => Z.of_nat (fst x) < 2147483648) (successes runs) ->
  add_runs ops fuel cfg c runs = Ok c' ->
  exists parts,
    Forall2 (fun x y => fst y = fst x /\ exists b, bounds c' = Some b /\ part ops fuel cfg b (pr_traj (snd x)) (snd y)) (successes runs) parts /\
    all_states c' = all_states c ++ flat_map snd parts /\
    run_indexes c' = run_indexes c ++ flat_map (fun y => repeat (Z.of_nat (fst y)) (length (snd y))) parts /\
    match bounds c with
    | Some b => bounds c' = Some b
    | None => match successes runs with
              | [] => bounds c' = None
              | (_, t) :: _ => exists a, first (pr_traj t) = Some a /\ bounds c' = Some (st_epoch ops a, st_epoch ops (pr_state t))
              end
    end.
Proof.
  induction runs as [|r runs IH]; intros c c' I H; cbn [add_runs] in H.
  - assert (c' = c) as -> by congruence. exists []. cbn. rewrite !app_nil_r. split; [constructor|].
    split; [reflexivity|]. split; [reflexivity|]. destruct (bounds c); reflexivity.
  - unfold add_run in H. destruct (result r) as [e|t] eqn:Er.
    + cbn [bind] in H. rewrite (successes_cons_l r runs e Er) in *. exact (IH c c' I H).
    + rewrite (successes_cons_r r runs t Er) in *. inversion I as [|x y I1 I2]; subst. cbn [fst] in I1.
      destruct (match bounds c with Some b => Ok b | None => match first (pr_traj t) with
                  | Some a => Ok (st_epoch ops a, st_epoch ops (pr_state t)) | None => Panic end end) as [b| | |] eqn:Eb;
        cbn [bind] in H; try discriminate.
      destruct (states_of ops fuel cfg b (pr_traj t)) as [l| | |] eqn:El; cbn [bind] in H; try discriminate.
      destruct (IH _ _ I2 H) as (parts & A1 & A2 & A3 & A4). cbn [bounds all_states run_indexes] in A2, A3, A4.
      exists ((index r, l) :: parts). split; [|split; [|split]].
      * constructor; [|exact A1]. cbn [fst snd]. split; [reflexivity|]. exists b. split; [exact A4|]. now apply states_of_part.
      * rewrite A2. cbn [flat_map snd]. now rewrite <- app_assoc.
      * rewrite A3. cbn [flat_map fst snd]. rewrite as_i32_small by exact I1. now rewrite <- app_assoc.
      * destruct (bounds c) as [b'|]; [congruence|]. destruct (first (pr_traj t)) as [a|]; [|discriminate].
        exists a. split; [reflexivity|]. congruence.
Qed.

Lemma index_column_all (l : list S) : forall n (idx pre : list Z), n = length pre -> length idx = length l ->
  index_column n l (pre ++ idx) = Some idx.
Proof.
  induction l as [|s l IH]; intros n idx pre Hn H; destruct idx as [|i idx]; cbn in H; try lia; [reflexivity|].
  cbn [index_column]. rewrite nth_error_app2 by lia. replace (n - length pre)%nat with 0%nat by lia. cbn [nth_error].
  replace (pre ++ i :: idx) with ((pre ++ [i]) ++ idx) by (now rewrite <- app_assoc).
  rewrite IH; [reflexivity|rewrite app_length; cbn; lia|lia].
Qed.

Lemma lines_snd (parts : list (nat * list S)) : map snd (flat_map lines_of parts) = flat_map snd parts.
Proof.
  induction parts as [|[i l] parts IH]; [reflexivity|]. cbn [flat_map]. rewrite map_app, IH. f_equal.
  unfold lines_of. cbn [fst snd]. rewrite map_map. cbn. apply map_id.
Qed.
Lemma lines_fst (parts : list (nat * list S)) :
  map (fun x => Z.of_nat (fst x)) (flat_map lines_of parts) = flat_map (fun y => repeat (Z.of_nat (fst y)) (length (snd y))) parts.
Proof.
  induction parts as [|[i l] parts IH]; [reflexivity|]. cbn [flat_map]. rewrite map_app, IH. f_equal.
  unfold lines_of. cbn [fst snd]. rewrite map_map. cbn [fst]. induction l; [reflexivity|]. cbn. now f_equal.
Qed.

(** The columns built from lines hold them, and arrow accepts them. *)
Lemma batch_holds (cfg : mc_cfg P) lines : 
  let states := map snd lines in
  let t := {| tb_epochs := map (st_epoch ops) states; tb_indexes := map (fun x => Z.of_nat (fst x)) lines;
              tb_columns := map (fun p => (p, nullable_field value states p, map (cell_of value is_mode mode_text p) states))
                                (filter (kept_field value states) (requested cfg)) |} in
  batch t = Some t /\ holds ops value is_mode mode_text t (requested cfg) lines.
Proof.
  intros states t.
  assert (N : forall p, nullable_field value states p = true <-> In None (map (cell_of value is_mode mode_text p) states)).
  { intros p. unfold nullable_field. rewrite existsb_exists, in_map_iff. unfold cell_of. split.
    - intros (s & Is & H). exists s. split; [|exact Is]. destruct (value p s); [discriminate|reflexivity].
    - intros (s & H & Is). exists s. split; [exact Is|]. destruct (value p s); [discriminate|reflexivity]. }
  split.
  - unfold batch. cbn [tb_epochs tb_indexes tb_columns t]. unfold states at 1 2. rewrite !map_length, Nat.eqb_refl. cbn [andb].
    match goal with |- (if ?b then _ else _) = _ => assert (b = true) as ->; [|reflexivity] end.
    apply forallb_forall. intros c Hc. apply in_map_iff in Hc. destruct Hc as (p & <- & _). cbn [fst snd].
    unfold states at 1. rewrite !map_length, Nat.eqb_refl. cbn [andb].
    destruct (nullable_field value states p) eqn:En; [reflexivity|]. cbn [orb]. apply forallb_forall. intros x Hx.
    destruct x; [reflexivity|]. apply N in Hx. congruence.
  - unfold holds. cbn [tb_epochs tb_indexes tb_columns t]. split; [unfold states; now rewrite map_map|]. split; [reflexivity|]. split.
    + rewrite map_map. cbn [fst]. rewrite map_id. apply filter_ext. intros p. unfold kept_field, states.
      clear. induction lines as [|x lines IH]; [reflexivity|]. cbn [map existsb]. now rewrite IH.
    + apply Forall_forall. intros c Hc. apply in_map_iff in Hc. destruct Hc as (p & <- & _). cbn [fst snd].
      split; [|apply N]. unfold states. rewrite map_map. apply map_ext. intros x. unfold cell_of, line_of.
      destruct (value p (snd x)); reflexivity.
Qed.

(** What is written: for each successful run, in order, the states of its trajectory that are asked for, each
    with its date, the index of its run and the fields that some state has.  The start and the end are by
    default those of the first successful run. *)
Theorem C105_lines_partial : forall fuel cfg runs t,
  Forall (fun x => Z.of_nat (fst x) < 2147483648) (successes runs) ->
  to_parquet fuel cfg runs = Ok t ->
  exists i0 t0 others a parts, successes runs = (i0, t0) :: others /\ first (pr_traj t0) = Some a /\
    Forall2 (fun x y => fst y = fst x /\
               part ops fuel cfg (st_epoch ops a, st_epoch ops (pr_state t0)) (pr_traj (snd x)) (snd y)) (successes runs) parts /\
    holds ops value is_mode mode_text t (requested cfg) (flat_map lines_of parts).
Proof.
  intros fuel cfg runs t I H. unfold mc_to_parquet in H.
  destruct (add_runs ops fuel cfg {| bounds := None; all_states := []; run_indexes := [] |} runs) as [c| | |] eqn:Ec;
    cbn [bind] in H; try discriminate.
  destruct (collect fuel cfg runs _ _ I Ec) as (parts & A1 & A2 & A3 & A4). cbn [bounds all_states run_indexes app] in A2, A3, A4.
  destruct (successes runs) as [|[i0 t0] others] eqn:Es; [rewrite A4 in H; discriminate|].
  destruct A4 as (a & Ha & Hb). rewrite Hb in H.
  rewrite <- lines_snd in A2. rewrite <- lines_fst in A3. rewrite A2, A3 in H.
  pose proof (index_column_all (map snd (flat_map lines_of parts)) 0 (map (fun x => Z.of_nat (fst x)) (flat_map lines_of parts)) []
                eq_refl ltac:(now rewrite !map_length)) as IC. cbn [app] in IC. rewrite IC in H. clear IC.
  destruct (batch_holds cfg (flat_map lines_of parts)) as [B1 B2]. rewrite B1 in H.
  assert (t = {| tb_epochs := map (st_epoch ops) (map snd (flat_map lines_of parts));
     tb_indexes := map (fun x => Z.of_nat (fst x)) (flat_map lines_of parts);
     tb_columns := map (fun p => (p, nullable_field value (map snd (flat_map lines_of parts)) p,
                                  map (cell_of value is_mode mode_text p) (map snd (flat_map lines_of parts))))
                       (filter (kept_field value (map snd (flat_map lines_of parts))) (requested cfg)) |}) as -> by congruence.
  exists i0, t0, others, a, parts. split; [reflexivity|]. split; [exact Ha|]. split; [|exact B2].
  clear -A1 Hb. induction A1 as [|x y l l' [H1 (b & H2 & H3)] F2 IH]; constructor; [|exact IH].
  split; [exact H1|]. assert (b = (st_epoch ops a, st_epoch ops (pr_state t0))) as <- by congruence. exact H3.
Qed.

(** Without bounds or step, every state of every successful run is written, and nothing is refused. *)
Theorem C105_whole : forall fuel fields runs, successes runs <> [] ->
  Forall (fun x => Z.of_nat (fst x) < 2147483648 /\ pr_traj (snd x) <> []) (successes runs) ->
  exists t, to_parquet fuel (whole fields) runs = Ok t /\
    holds ops value is_mode mode_text t fields (flat_map (fun x => map (pair (fst x)) (pr_traj (snd x))) (successes runs)).
Proof.
  intros fuel fields runs N I.
  assert (G : forall (runs : list run) c, Forall (fun x => Z.of_nat (fst x) < 2147483648 /\ pr_traj (snd x) <> []) (successes runs) ->
            exists c', add_runs ops fuel (whole fields) c runs = Ok c').
  { clear. induction runs as [|r runs IH]; intros c I; [exists c; reflexivity|]. cbn [add_runs]. unfold add_run.
    destruct (result r) as [e|t] eqn:Er.
    - rewrite (successes_cons_l r runs e Er) in I. cbn [bind]. now apply IH.
    - rewrite (successes_cons_r r runs t Er) in I. inversion I as [|x y [I1 I2] I3]; subst. cbn [snd] in I2.
      destruct (bounds c) as [b|]; [|destruct (first (pr_traj t)) as [a|] eqn:Ef;
        [|destruct (pr_traj t) as [|a l]; [now elim I2|discriminate]]]; cbn [bind states_of whole c_start c_end c_step]; now apply IH. }
  destruct (G runs {| bounds := None; all_states := []; run_indexes := [] |} I) as (c & Ec).
  assert (I' : Forall (fun x => Z.of_nat (fst x) < 2147483648) (successes runs)).
  { eapply Forall_impl; [|exact I]. intros x [H _]. exact H. }
  assert (K : exists t, to_parquet fuel (whole fields) runs = Ok t).
  { unfold mc_to_parquet. rewrite Ec. cbn [bind].
    destruct (collect fuel _ runs _ _ I' Ec) as (parts & A1 & A2 & A3 & A4). cbn [bounds all_states run_indexes app] in A2, A3, A4.
    destruct (successes runs) as [|[i0 t0] others]; [now elim N|]. destruct A4 as (a & _ & ->).
    rewrite <- lines_snd in A2. rewrite <- lines_fst in A3. rewrite A2, A3.
    pose proof (index_column_all (map snd (flat_map lines_of parts)) 0 (map (fun x => Z.of_nat (fst x)) (flat_map lines_of parts)) []
                  eq_refl ltac:(now rewrite !map_length)) as IC. cbn [app] in IC. rewrite IC.
    destruct (batch_holds (whole fields) (flat_map lines_of parts)) as [-> _]. eexists. reflexivity. }
  destruct K as (t & K). exists t. split; [exact K|].
  destruct (C105_lines_partial fuel (whole fields) runs t I' K) as (i0 & t0 & others & a & parts & _ & _ & F2 & H).
  cbn [requested whole] in H.
  replace (flat_map (fun x => map (pair (fst x)) (pr_traj (snd x))) (successes runs)) with (flat_map lines_of parts); [exact H|].
  clear -F2. induction F2 as [|x y l l' [H1 H2] G' IH]; [reflexivity|]. cbn [flat_map]. rewrite IH. f_equal.
  unfold lines_of. rewrite H1. destruct H2 as [(_ & _ & _ & ->)|[[H|[H|H]] _]]; [reflexivity|now elim H|now elim H|now elim H].
Qed.

(** The failed runs are nowhere in the file, and without a successful one there is an error. *)
Theorem C105_failed : forall fuel cfg runs, (forall r, In r runs -> exists e, result r = inl e) ->
  to_parquet fuel cfg runs = Err NoSuccessfulRuns.
Proof.
  intros fuel cfg runs H. unfold mc_to_parquet.
  assert (G : forall c, add_runs ops fuel cfg c runs = Ok c).
  { induction runs as [|r runs IH]; intros c; [reflexivity|]. cbn [add_runs]. unfold add_run.
    destruct (H r (or_introl eq_refl)) as (e & ->). cbn [bind]. apply IH. intros; apply H. now right. }
  rewrite G. reflexivity.
Qed.
Theorem C105_failed_ignored : forall fuel cfg before r after e, result r = inl e ->
  to_parquet fuel cfg (before ++ r :: after) = to_parquet fuel cfg (before ++ after).
Proof.
  intros fuel cfg before r after e He. unfold mc_to_parquet. f_equal.
  generalize (@Build_collected S None [] []). induction before as [|x before IH]; intros c; cbn [app add_runs].
  - unfold add_run at 1. rewrite He. reflexivity.
  - destruct (add_run ops fuel cfg c x); cbn [bind]; [apply IH|reflexivity|reflexivity|reflexivity].
Qed.
End Proofs.

(** ** Witnesses *)
Definition date_ops : state_ops Z unit :=
  {| st_epoch := fun d => d; st_frame := fun _ => tt; st_frame_eqb := fun _ _ => true; st_interpolate := fun _ e _ => Ok e |}.
Definition ran (i : nat) (l : list Z) : mc_run Z bool unit :=
  Build_run i (Build_dispersed 0 []) (inr {| pr_state := last l 0; pr_traj := l |}).
Definition failed (i : nat) : mc_run Z bool unit := Build_run i (Build_dispersed 0 []) (inl tt).
(** One parameter all states have, and another that those after date 5 have *)
Definition some_value (p : bool) (s : Z) : option R := if p then Some 1%R else if 5 <? s then Some 2%R else None.
Definition two_runs : list (mc_run Z bool unit) := [failed 0; ran 1 [0; 10]; ran 2 [0; 10; 20]].

(** A step without an end: the runs that last longer than the first successful one are cut, though the end
    is documented as that of the trajectory. *)
Theorem C105_end_refuted : exists t,
  mc_to_parquet date_ops some_value (fun _ => false) (fun _ => EmptyString) 10
    {| requested := [true]; c_start := None; c_end := None; c_step := Some 10 |} two_runs = Ok t /\
  (exists l, every date_ops 10 [0; 10; 20] 10 = Ok l /\ In 20 l) /\ ~ In 20 (tb_epochs t).
Proof.
  eexists. split; [reflexivity|]. split; [eexists; split; [reflexivity|cbn; auto]|].
  cbn. intros [H|[H|[H|[H|[]]]]]; discriminate H.
Qed.
(** A bound without a step: a line every minute instead of every state, as documented. *)
Theorem C105_step_refuted : exists t,
  mc_to_parquet date_ops some_value (fun _ => false) (fun _ => EmptyString) 10
    {| requested := [true]; c_start := Some 0; c_end := None; c_step := None |} two_runs = Ok t /\ ~ In 10 (tb_epochs t).
Proof. eexists. split; [reflexivity|]. cbn. intros [H|[H|[]]]; discriminate H. Qed.

Example whole_case : successes two_runs <> [] /\
  Forall (fun x => Z.of_nat (fst x) < 2147483648 /\ pr_traj (snd x) <> []) (successes two_runs) /\
  exists t, mc_to_parquet date_ops some_value (fun _ => false) (fun _ => EmptyString) 10 (whole [true; false]) two_runs = Ok t /\
    tb_indexes t = [1; 1; 2; 2; 2] /\ map (fun c => fst c) (tb_columns t) = [(true, false); (false, true)].
Proof.
  split; [discriminate|]. split; [repeat constructor; discriminate|]. eexists. split; [reflexivity|]. split; reflexivity.
Qed.

Print Assumptions C105_lines_partial.
Print Assumptions C105_whole.
Print Assumptions C105_failed.
Print Assumptions C105_failed_ignored.
Print Assumptions C105_end_refuted.
Print Assumptions C105_step_refuted.
