(** Properties of the schedules of impulsive burns (Dvc_Model): C87. *)
From Coq Require Import Reals ZArith Lia Lra Sorted.
From Verif Require Import Base Vec3 Angles Poly_Model Sc_Model Guid_Model Dvc_Model.
Local Open Scope Z_scope.

(** ** Specification *)

(** Maneuvers in chronological order, each starting after the end of those before it. *)
Definition before (a b : maneuver) : Prop := m_end a < m_start b.
Definition chronological (l : list maneuver) : Prop := Forall (fun m => m_start m <= m_end m) l /\ StronglySorted before l.
Definition in_progress (m : maneuver) (e : Z) : Prop := m_start m <= e <= m_end m.
(** How many of them are over at an epoch. *)
Definition over (l : list maneuver) (e : Z) : nat := length (filter (fun m => m_end m <=? e) l).

(** The schedule after it was shown states, one after the other. *)
Definition visited (b : burns) (os : list orbit) : burns := fold_left next_burn os b.
(** States close enough in time for at most one maneuver to end between one and the next. *)
Fixpoint close_enough (l : list maneuver) (done : nat) (os : list orbit) : Prop :=
  match os with
  | [] => True
  | o :: os' => (done <= over l (epoch o) <= S done)%nat /\ close_enough l (over l (epoch o)) os'
  end.
Fixpoint last_over (l : list maneuver) (done : nat) (os : list orbit) : nat :=
  match os with [] => done | o :: os' => last_over l (over l (epoch o)) os' end.

(** ** Maneuvers that are over *)

Lemma over_cons m l e : over (m :: l) e = ((if (m_end m <=? e)%Z then 1 else 0) + over l e)%nat.
Proof. unfold over. cbn [filter]. destruct (m_end m <=? e); reflexivity. Qed.
Lemma over_none l e : (forall m, In m l -> e < m_end m) -> over l e = 0%nat.
Proof.
  induction l as [|m l IH]; intros H; [reflexivity|]. rewrite over_cons, IH by (intros; apply H; now right).
  destruct (Z.leb_spec (m_end m) e); [|reflexivity]. specialize (H m (or_introl eq_refl)). lia.
Qed.

(** In a schedule the maneuvers that are over come first. *)
Lemma over_split l : chronological l -> forall e k m, nth_error l k = Some m -> ((k < over l e)%nat <-> m_end m <= e).
Proof.
  induction l as [|x l IH]; intros [HF HS] e k m Hk; [destruct k; discriminate|].
  apply Forall_cons_iff in HF. destruct HF as [Hx HF]. apply StronglySorted_inv in HS. destruct HS as [HS Hb]. rewrite Forall_forall in Hb.
  rewrite over_cons. destruct (Z.leb_spec (m_end x) e) as [He|He].
  - destruct k as [|k]; cbn in Hk.
    + injection Hk as <-. split; [auto|lia].
    + rewrite <- (IH (conj HF HS) e k m Hk). lia.
  - rewrite over_none.
    + split; [lia|]. intros Hm. destruct k as [|k]; cbn in Hk; [injection Hk as <-; lia|].
      apply nth_error_In in Hk. rewrite Forall_forall in HF. specialize (Hb _ Hk). specialize (HF _ Hk). unfold before in Hb. lia.
    + intros y Hy. rewrite Forall_forall in HF. specialize (Hb _ Hy). specialize (HF _ Hy). unfold before in Hb. lia.
Qed.
Lemma over_length l e : (over l e <= length l)%nat.
Proof. induction l as [|m l IH]; [auto|]. rewrite over_cons. cbn. destruct (m_end m <=? e); lia. Qed.

(** ** Following a schedule *)

Lemma next_mnvrs b o : mnvrs (next_burn b o) = mnvrs b.
Proof. unfold next_burn. destruct (nth_error _ _); [|reflexivity]. destruct (_ <=? _); reflexivity. Qed.
Lemma next_over l n o : chronological l -> (n <= over l (epoch o) <= S n)%nat -> next_burn (Burns l n) o = Burns l (over l (epoch o)).
Proof.
  intros Hc Hn. unfold next_burn. cbn [mnvrs mnvr_no]. destruct (nth_error l n) as [m|] eqn:E.
  - pose proof (over_split l Hc (epoch o) n m E) as H. destruct (Z.leb_spec (m_end m) (epoch o)) as [K|K]; f_equal.
    + apply H in K. lia.
    + assert (~ (n < over l (epoch o))%nat) by (rewrite H; lia). lia.
  - apply nth_error_None in E. pose proof (over_length l (epoch o)). f_equal. lia.
Qed.

(** C87: shown states close enough in time, the schedule is at the first maneuver that is not over. *)
Theorem C87_follows l os : chronological l -> close_enough l 0 os ->
  visited (from_mnvrs l) os = Burns l (last_over l 0 os).
Proof.
  intros Hc. unfold visited, from_mnvrs. generalize 0%nat as n. induction os as [|o os IH]; intros n H; cbn [fold_left last_over close_enough] in *; [reflexivity|].
  destruct H as [H1 H2]. rewrite (next_over l n o Hc H1). apply IH. exact H2.
Qed.

(** A schedule never goes back, and never further than one maneuver per state shown. *)
Theorem C87_advances b o : mnvrs (next_burn b o) = mnvrs b /\
  (mnvr_no b <= mnvr_no (next_burn b o) <= S (mnvr_no b))%nat /\
  (mnvr_no (next_burn b o) <> mnvr_no b -> exists m, nth_error (mnvrs b) (mnvr_no b) = Some m /\ m_end m <= epoch o).
Proof.
  split; [apply next_mnvrs|]. unfold next_burn. destruct (nth_error _ _) as [m|] eqn:E; [|split; [lia|tauto]].
  destruct (Z.leb_spec (m_end m) (epoch o)); cbn [mnvr_no]; split; try lia; eauto.
Qed.

Section Control.
Context (vnc_to_inertial : orbit -> option m3).
Notation ctrl := (ctrl_vector vnc_to_inertial).

(** C87: there is no thrust outside the maneuvers, whatever the states shown before. *)
Theorem C87_idle l os o : (forall m, In m l -> ~ in_progress m (epoch o)) -> ctrl (visited (from_mnvrs l) os) o = Ok vzero.
Proof.
  intros H. assert (Hm : mnvrs (visited (from_mnvrs l) os) = l).
  { unfold visited. assert (G : forall os b, mnvrs (fold_left next_burn os b) = mnvrs b).
    { clear. induction os as [|o os IH]; intros b; cbn; [reflexivity|]. now rewrite IH, next_mnvrs. }
    rewrite G. reflexivity. }
  unfold ctrl_vector. rewrite Hm. destruct (nth_error l _) as [m|] eqn:E; [|reflexivity].
  apply nth_error_In in E. specialize (H m E). unfold in_progress in H.
  destruct (Z.leb_spec (m_start m) (epoch o)); destruct (Z.leb_spec (epoch o) (m_end m)); cbn [andb]; try reflexivity. lia.
Qed.

(** C87: shown states close enough in time, the thrust is that of the maneuver in progress, in the axes of the
    velocity, the normal and the cross track; that maneuver was not over at the last state shown, and
    no other ended since. *)
Theorem C87_thrust l os o m d v : chronological l -> close_enough l 0 os ->
  In m l -> in_progress m (epoch o) ->
  last_over l 0 os = over l (m_start m - 1) ->
  vnc_to_inertial o = Some d -> m_vector m (epoch o) = Ok v ->
  ctrl (visited (from_mnvrs l) os) o = Ok (mv d v).
Proof.
  intros Hc Hos Hin Hp Hlast Hd Hv. rewrite (C87_follows _ _ Hc Hos). unfold ctrl_vector. cbn [mnvrs mnvr_no].
  apply In_nth_error in Hin. destruct Hin as [k Hk].
  assert (Hk' : k = over l (m_start m - 1)).
  { destruct (lt_eq_lt_dec k (over l (m_start m - 1))) as [[H|H]|H]; [|exact H|].
    - apply (over_split l Hc (m_start m - 1) k m Hk) in H. unfold in_progress in Hp. lia.
    - exfalso. destruct (nth_error l (over l (m_start m - 1))) as [x|] eqn:Ex.
      + assert (K : ~ (over l (m_start m - 1) < over l (m_start m - 1))%nat) by lia.
        rewrite (over_split l Hc (m_start m - 1) _ x Ex) in K. destruct Hc as [_ HS].
        assert (B : before x m).
        { clear - HS Ex Hk H. revert Ex Hk H. generalize (over l (m_start m - 1)) as j. revert k. induction HS as [|y l HS IH Hb]; intros k j Ex Hk H; [destruct j; discriminate|].
          destruct k as [|k]; [lia|]. destruct j as [|j]; cbn in Ex, Hk.
          - injection Ex as ->. rewrite Forall_forall in Hb. apply Hb. eapply nth_error_In, Hk.
          - apply (IH k j Ex Hk). lia. }
        unfold before in B. lia.
      + apply nth_error_None in Ex. assert (k < length l)%nat by (apply nth_error_Some; congruence). lia. }
  rewrite Hlast, <- Hk', Hk. unfold in_progress in Hp.
  destruct (Z.leb_spec (m_start m) (epoch o)); [|lia]. destruct (Z.leb_spec (epoch o) (m_end m)); [|lia]. cbn [andb]. rewrite Hd, Hv. reflexivity.
Qed.
End Control.

(** ** Cases and refutations *)

Definition straight (o : orbit) : option m3 := Some identity3.
Definition push (s e : Z) : maneuver := from_time_invariant s e 1 (V3 1 0 0) RCN.
Definition at_epoch (e : Z) : orbit := Orbit e 0 (V3 7000 0 0) (V3 0 7 0).

Lemma pushes_chronological : chronological [push 10 20; push 30 40; push 50 60].
Proof.
  split; [repeat constructor; cbn; lia|]. repeat (constructor; [|repeat constructor; unfold before; cbn; lia]). constructor.
Qed.

(** C87: the hypotheses hold of states every ten units of time. *)
Example thrust_case : chronological [push 10 20; push 30 40; push 50 60] /\
  close_enough [push 10 20; push 30 40; push 50 60] 0 (map at_epoch [0; 10; 20; 30]) /\
  last_over [push 10 20; push 30 40; push 50 60] 0 (map at_epoch [0; 10; 20; 30]) = over [push 10 20; push 30 40; push 50 60] (30 - 1) /\
  ctrl_vector straight (visited (from_mnvrs [push 10 20; push 30 40; push 50 60]) (map at_epoch [0; 10; 20; 30])) (at_epoch 35) = Ok (mv identity3 (V3 1 0 0))%R.
Proof. split; [apply pushes_chronological|]. split; [cbn; lia|]. split; reflexivity. Qed.

(** A maneuver in progress is missed when two others ended since the previous state. *)
Theorem C87_missed_refuted : exists l os o m,
  chronological l /\ In m l /\ in_progress m (epoch o) /\ StronglySorted (fun a b => epoch a <= epoch b) os /\
  In o os /\ ctrl_vector straight (visited (from_mnvrs l) os) o = Ok vzero.
Proof.
  exists [push 10 20; push 30 40; push 50 60], [at_epoch 0; at_epoch 55], (at_epoch 55), (push 50 60).
  split; [apply pushes_chronological|]. split; [cbn; auto|]. split; [unfold in_progress; cbn; lia|].
  split; [|split; [cbn; auto|reflexivity]]. repeat constructor; cbn; lia.
Qed.

(** Propagating back in time, a maneuver that is over is not flown again. *)
Theorem C87_backward_refuted : exists l os o m,
  chronological l /\ In m l /\ in_progress m (epoch o) /\
  ctrl_vector straight (visited (from_mnvrs l) (os ++ [o])) o = Ok vzero /\
  ctrl_vector straight (from_mnvrs l) o <> Ok vzero.
Proof.
  exists [push 10 20], [at_epoch 25], (at_epoch 15), (push 10 20).
  split; [split; [repeat constructor; cbn; lia|repeat constructor]|]. split; [cbn; auto|]. split; [unfold in_progress; cbn; lia|].
  split; [reflexivity|]. cbn. unfold mv. cbn. intros H. injection H as H _ _. unfold dot in H. cbn in H. lra.
Qed.

(** The frame of a maneuver is not looked at: a vector of the inertial frame is turned as if it were not. *)
Theorem C87_frame_refuted : exists vnc l o m, chronological l /\ In m l /\ in_progress m (epoch o) /\ m_frame m = INERTIAL /\
  m_vector m (epoch o) = Ok (V3 1 0 0)%R /\ ctrl_vector vnc (from_mnvrs l) o = Ok (V3 0 1 0)%R.
Proof.
  exists (fun _ => Some (matrix3 0 1 0 1 0 0 0 0 1)%R), [from_time_invariant 10 20 1 (V3 1 0 0) INERTIAL], (at_epoch 15), (from_time_invariant 10 20 1 (V3 1 0 0) INERTIAL).
  split; [split; [repeat constructor; cbn; lia|repeat constructor]|]. split; [cbn; auto|]. split; [unfold in_progress; cbn; lia|].
  split; [reflexivity|]. split; [reflexivity|]. cbn. f_equal. apply v3_eq; cbn; unfold dot; cbn; ring.
Qed.

Print Assumptions C87_thrust. Print Assumptions C87_idle.
