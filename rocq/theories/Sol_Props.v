(** C33 and C34: what the operations on an orbit determination solution do to its updates.
    The vocabulary is in [Sol_Spec]. *)
From Coq Require Import String.
From Verif Require Import Base RustStd Arc_Model Sol_Model Sol_Spec Sol_Proofs.
Local Open Scope string_scope.
Local Open Scope Z_scope.

(** A solution for the examples: estimates are epochs, residual values and gains are numbers. *)
Definition residual_of (v : Z) (rej : bool) (t : option string) (ks : list msr_type) : residual Z :=
  {| values := v; res_rejected := rej; res_tracker := t; res_types := ks |}.
Definition timed_at (e : Z) : update Z Z Z Z :=
  {| u_estimate := e; u_residual := None; u_gain := None; u_ratio := None |}.
Definition measured_at (e : Z) (r : residual Z) : update Z Z Z Z :=
  {| u_estimate := e; u_residual := Some r; u_gain := Some (e * 10); u_ratio := None |}.
Definition pass : list (update Z Z Z Z) :=
  [ timed_at 1;
    measured_at 2 (residual_of 20 false (Some "A") [Range; Doppler]);
    measured_at 3 (residual_of 30 true (Some "B") [Range]);
    timed_at 4;
    measured_at 5 (residual_of 50 false (Some "A") [Doppler]) ].

(** ** C33.  After any sequence of updates, selections and merges (with solutions that are
    themselves aligned), the four lists hold the same updates at the same indices, and these
    are the ones the operations say. *)
Theorem C33_aligned :
  forall {E V G F} (epoch_of : E -> Z) (os : list (op E V G F)),
    exists n, forall fuel, (n <= fuel)%nat ->
      exists s l, run epoch_of fuel os new = Ok s /\ holds s l /\ effects os [] l.
Proof.
  intros E V G F epoch_of os.
  assert (X : forall os m (k : nat), exists n, forall fuel, (n <= fuel)%nat ->
            forall l : list (update E V G F), (length l <= m)%nat ->
            exists s l', run epoch_of fuel os (solution_of l) = Ok s /\ holds s l' /\ effects os l l').
  { clear os. induction os as [|o os IH]; intros m k.
    - exists 0%nat. intros fuel _ l _. exists (solution_of l), l. split; [reflexivity|].
      split; [repeat split|constructor].
    - destruct (IH (m + 1 + match o with MergedWith other => length other | _ => 0 end)%nat k)
        as [n Hn].
      exists (n + S (m + match o with MergedWith other => length other | _ => 0 end))%nat.
      intros fuel Hf l Hl. cbn [run].
      destruct (run_op_effect epoch_of fuel o l) as (l1 & -> & Ef).
      { destruct o; trivial. rewrite app_length. lia. }
      cbn [bind]. destruct (Hn fuel ltac:(lia) l1) as (s & l' & R & H & Es).
      + destruct o; cbn [effect] in Ef.
        * subst l1. rewrite app_length. cbn. lia.
        * subst l1. rewrite app_length. cbn. lia.
        * assert (length l1 <= length l)%nat by (clear -Ef; induction Ef; cbn; lia). lia.
        * assert (length l1 <= length l)%nat by (clear -Ef; induction Ef; cbn; lia). lia.
        * assert (length l1 <= length l)%nat by (clear -Ef; induction Ef; cbn; lia). lia.
        * assert (length l1 <= length l)%nat by (clear -Ef; induction Ef; cbn; lia). lia.
        * apply Permutation_length in Ef. rewrite app_length in Ef. lia.
      + exists s, l'. split; [assumption|]. split; [assumption|]. econstructor; eassumption. }
  destruct (X os 0%nat 0%nat) as [n Hn]. exists n. intros fuel Hf. apply (Hn fuel Hf []). cbn. lia.
Qed.
Print Assumptions C33_aligned.

Example some_operations :
  run (fun e => e) 20
    [Timed 1; Measured 2 (residual_of 20 false (Some "A") [Range]) (Some 20);
     Measured 3 (residual_of 30 true None [Range]) None; MergedWith pass; Excluding "B";
     DropTimeUpdates] (@new Z Z Z Z)
  = Ok (solution_of
          [ measured_at 2 (residual_of 20 false (Some "A") [Range; Doppler]);
            measured_at 2 (residual_of 20 false (Some "A") [Range]);
            measured_at 5 (residual_of 50 false (Some "A") [Doppler]) ]).
Proof. reflexivity. Qed.

(** Splitting by tracker and measurement type gives one aligned solution per pair found, with
    exactly the measurements of that pair; it panics exactly when a measurement with a type has
    no tracker. *)
Theorem C33_split :
  forall {E V G F} (s : solution E V G F) l, holds s l ->
    match split s with
    | Some parts =>
        exists keys, NoDup keys /\
          (forall t k, In (t, k) keys <->
             exists u r, In u l /\ u_residual u = Some r /\ res_tracker r = Some t /\
                         In k (res_types r)) /\
          Forall2 (fun key part => exists l', holds part l' /\
                     keeps (fun u => exists r, u_residual u = Some r /\
                              res_tracker r = Some (fst key) /\ In (snd key) (res_types r)) l l')
            keys parts
    | None => exists u r, In u l /\ u_residual u = Some r /\ res_tracker r = None /\
                          res_types r <> []
    end.
Proof.
  intros E V G F s l H. apply holds_eq in H. subst s.
  destruct (split (solution_of l)) as [parts|] eqn:Q.
  - destruct (split_spec l parts Q) as (keys & N & K & Fa). exists keys. split; [assumption|].
    split.
    + intros t k. rewrite K. unfold part_of. split; intros (u & A & B); exists u.
      * destruct B as (r & B). now exists r.
      * destruct B as (B & C). split; [assumption|]. now exists A.
    + clear -Fa. induction Fa as [|key part keys parts (l' & -> & K) Fa IH]; constructor;
        [|assumption]. exists l'. split; [now apply holds_eq|exact K].
  - now apply split_none.
Qed.
Print Assumptions C33_split.

Example split_pass :
  split (solution_of pass) = Some
    [ solution_of [measured_at 2 (residual_of 20 false (Some "A") [Range; Doppler])];
      solution_of [measured_at 2 (residual_of 20 false (Some "A") [Range; Doppler]);
                   measured_at 5 (residual_of 50 false (Some "A") [Doppler])];
      solution_of [measured_at 3 (residual_of 30 true (Some "B") [Range])] ].
Proof. reflexivity. Qed.

(** The accepted and the rejected residuals partition the residuals of the updates, each kept in
    order. *)
Theorem C33_accepted_rejected :
  forall {E V G F} (s : solution E V G F) l, holds s l ->
    let all := flat_map (fun u => match u_residual u with Some r => [r] | None => [] end) l in
    Permutation (accepted_residuals s ++ rejected_residuals s) all /\
    keeps (fun r => res_rejected r = false) all (accepted_residuals s) /\
    keeps (fun r => res_rejected r = true) all (rejected_residuals s).
Proof.
  intros E V G F s l H. apply holds_eq in H. subst s. cbv zeta.
  replace (flat_map _ l) with (flatten (residuals (solution_of l))).
  2: { cbn. induction l as [|u l IH]; cbn; [reflexivity|].
       destruct (u_residual u); cbn; now rewrite IH. }
  split; [apply partition_perm|]. split; apply filter_keeps; intros r.
  - apply negb_true_iff.
  - reflexivity.
Qed.
Print Assumptions C33_accepted_rejected.

Example accepted_pass :
  accepted_residuals (solution_of pass)
    = [residual_of 20 false (Some "A") [Range; Doppler]; residual_of 50 false (Some "A") [Doppler]] /\
  rejected_residuals (solution_of pass) = [residual_of 30 true (Some "B") [Range]].
Proof. split; reflexivity. Qed.

(** A solution is that of a filter when some update has a gain, and that of a smoother when some
    update has a consistency ratio; pushing time updates changes neither. *)
Theorem C33_kind :
  forall {E V G F} (s : solution E V G F) l, holds s l ->
    (is_filter_run s = true <-> exists u g, In u l /\ u_gain u = Some g) /\
    (is_smoother_run s = true <-> exists u f, In u l /\ u_ratio u = Some f) /\
    forall e, is_filter_run (push_time_update s e) = is_filter_run s /\
              is_smoother_run (push_time_update s e) = is_smoother_run s.
Proof.
  intros E V G F s l H. apply holds_eq in H. subst s.
  assert (X : forall A (p : update E V G F -> option A),
    (0 <? length (flatten (map p l)))%nat = true <-> exists u g, In u l /\ p u = Some g).
  { intros A p. rewrite Nat.ltb_lt. induction l as [|u l IH]; cbn.
    - split; [lia|]. now intros (u & g & [] & _).
    - destruct (p u) eqn:Eu; cbn.
      + split; [|lia]. intros _. exists u, a. auto.
      + rewrite IH. split.
        * intros (v & g & I & Ev). exists v, g. auto.
        * intros (v & g & [<-|I] & Ev); [congruence|]. now exists v, g. }
  assert (Y : forall A (k : list (option A)), flatten (k ++ [None]) = flatten k).
  { induction k as [|[x|] k IH]; cbn; [reflexivity|now rewrite IH|exact IH]. }
  split; [apply X|]. split; [apply X|]. intros e.
  unfold is_filter_run, is_smoother_run, push_time_update. cbn [gains fs_ratios]. now rewrite !Y.
Qed.
Print Assumptions C33_kind.
Example kind_pass : is_filter_run (solution_of pass) = true /\ is_smoother_run (solution_of pass) = false.
Proof. split; reflexivity. Qed.

(** Looking up an epoch returns the four entries of one update at that epoch; in a
    chronological solution nothing is returned only if there is none.  It never panics. *)
Theorem C33_lookup :
  forall {E V G F} (epoch_of : E -> Z) (s : solution E V G F) l epoch, holds s l ->
    match at_epoch epoch_of s epoch with
    | Ok (Some r) => exists i u, nth_error l i = Some u /\ epoch_of (u_estimate u) = epoch /\
        rec_estimate r = u_estimate u /\ rec_residual r = u_residual u /\
        rec_gain r = u_gain u /\ rec_ratio r = u_ratio u
    | Ok None => chronological epoch_of l -> forall u, In u l -> epoch_of (u_estimate u) <> epoch
    | _ => False
    end.
Proof. intros E V G F epoch_of s l epoch H. apply holds_eq in H. subst s. apply at_spec. Qed.
Print Assumptions C33_lookup.

Example lookup_pass :
  chronological (fun e => e) pass /\
  at_epoch (fun e => e) (solution_of pass) 3
    = Ok (Some {| rec_estimate := 3; rec_residual := Some (residual_of 30 true (Some "B") [Range]);
                  rec_gain := Some 30; rec_ratio := None |}) /\
  at_epoch (fun e => e) (solution_of pass) 7 = Ok None.
Proof. split; [|split; reflexivity]. repeat constructor; cbn; lia. Qed.

(** ** C34.  A merge never fails, keeps the updates together and loses none. *)
Theorem C34_merge_partial :
  forall {E V G F} (epoch_of : E -> Z) fuel (a b : solution E V G F) la lb,
    holds a la -> holds b lb -> (length (la ++ lb) < fuel)%nat ->
    exists s l, merge epoch_of fuel a b = Ok s /\ holds s l /\ Permutation (la ++ lb) l.
Proof.
  intros E V G F epoch_of fuel a b la lb Ha Hb L. apply holds_eq in Ha, Hb. subst a b.
  destruct (merge_spec epoch_of fuel la lb L) as (l' & order & M & P & _).
  exists (solution_of l'), l'. split; [assumption|]. split; [repeat split|assumption].
Qed.
Print Assumptions C34_merge_partial.

(** Updates that are chronological once appended stay as they are. *)
Theorem C34_chronological_inputs :
  forall {E V G F} (epoch_of : E -> Z) fuel (a b : solution E V G F) la lb,
    holds a la -> holds b lb -> (length (la ++ lb) < fuel)%nat ->
    chronological epoch_of (la ++ lb) ->
    exists s, merge epoch_of fuel a b = Ok s /\ holds s (la ++ lb).
Proof.
  intros E V G F epoch_of fuel a b la lb Ha Hb L C. apply holds_eq in Ha, Hb. subst a b.
  exists (solution_of (la ++ lb)). split; [now apply merge_chronological|repeat split].
Qed.
Print Assumptions C34_chronological_inputs.

Example merge_in_order :
  chronological (fun e => e) (pass ++ [timed_at 5; timed_at 8]) /\
  merge (fun e => e) 20 (solution_of pass) (solution_of [timed_at 5; timed_at 8])
    = Ok (solution_of (pass ++ [timed_at 5; timed_at 8])).
Proof. split; [repeat constructor; cbn; lia|reflexivity]. Qed.

(** Where each update goes: with [order] the positions of the appended updates by increasing
    epoch, update [i] lands at position [order[i]].  Chronological order needs the converse,
    update [order[i]] at position [i]. *)
Theorem C34_inverse_order :
  forall {E V G F} (epoch_of : E -> Z) fuel (a b : solution E V G F) la lb,
    holds a la -> holds b lb -> (length (la ++ lb) < fuel)%nat ->
    exists s l order, merge epoch_of fuel a b = Ok s /\ holds s l /\
      Permutation order (seq 0 (length (la ++ lb))) /\
      (forall i j p q u v, (i < j)%nat -> nth_error order i = Some p -> nth_error order j = Some q ->
         nth_error (la ++ lb) p = Some u -> nth_error (la ++ lb) q = Some v ->
         epoch_of (u_estimate u) <= epoch_of (u_estimate v)) /\
      forall i t, nth_error order i = Some t -> nth_error l t = nth_error (la ++ lb) i.
Proof.
  intros E V G F epoch_of fuel a b la lb Ha Hb L. apply holds_eq in Ha, Hb. subst a b.
  destruct (merge_spec epoch_of fuel la lb L) as (l' & order & M & P & O & N).
  exists (solution_of l'), l', order. split; [assumption|]. split; [repeat split|].
  split; [rewrite O; symmetry; apply sort_perm|]. split; [|assumption].
  intros i j p q u v Hij Hi Hj Hu Hv.
  assert (S : ordered (key_leb (epoch_at epoch_of (map u_estimate (la ++ lb)))) order).
  { rewrite O. apply sort_sorted; [apply key_total|intros x y z; apply key_trans]. }
  pose proof (sorted_nth _ order S i j p q Hij Hi Hj) as K. cbv beta in K.
  unfold key_leb, epoch_at in K. rewrite !nth_error_map, Hu, Hv in K. cbn in K. now apply Z.leb_le.
Qed.
Print Assumptions C34_inverse_order.

(** Two chronological solutions whose merge is not chronological; looking up an epoch that is in
    it then finds nothing. *)
Theorem C34_chronological_refuted :
  exists (la lb : list (update Z Z Z Z)) l,
    chronological (fun e => e) la /\ chronological (fun e => e) lb /\
    merge (fun e => e) 20 (solution_of la) (solution_of lb) = Ok (solution_of l) /\
    ~ chronological (fun e => e) l /\
    (exists u, In u l /\ u_estimate u = 3) /\
    at_epoch (fun e => e) (solution_of l) 3 = Ok None.
Proof.
  exists [timed_at 2; timed_at 3], [timed_at 1], [timed_at 3; timed_at 1; timed_at 2].
  split; [repeat constructor; cbn; lia|]. split; [repeat constructor|].
  split; [reflexivity|]. split.
  - intros C. inversion C as [|? ? _ Fa]; subst. inversion Fa as [|? ? H]; subst. cbn in H. lia.
  - split; [exists (timed_at 3); split; [cbn; auto|reflexivity]|reflexivity].
Qed.
Print Assumptions C34_chronological_refuted.
