(** Rows of the sensitivity matrix. *)
From Coq Require Import Reals.
From Verif Require Import Base Arc_Model Sens_Model.

Section Rows.
Context {A : Type} (zero one : A) {De : Type}.

Lemma set_row_some i (row : list A) mat mat' : set_row i row mat = Some mat' ->
  length mat' = length mat /\ (i < length mat)%nat /\
  forall j, nth_error mat' j = if Nat.eqb j i then Some row else nth_error mat j.
Proof.
  revert i mat'. induction mat as [|r mat IH]; intros [|i] mat'; cbn [set_row]; try discriminate.
  - intros [= <-]. cbn. repeat split; try lia. intros [|j]; reflexivity.
  - destruct (set_row i row mat) as [m|] eqn:E; [|discriminate]. cbn. intros [= <-].
    destruct (IH _ _ E) as (H1 & H2 & H3). cbn. repeat split; try lia.
    intros [|j]; [reflexivity|]. cbn. apply H3.
Qed.

Lemma identity_nth m i : (i < m)%nat ->
  nth_error (identity_matrix zero one m) i = Some (identity_row zero one i).
Proof.
  intros H. unfold identity_matrix.
  rewrite (map_nth_error (identity_row zero one) i (seq 0 m) (d := i)); [reflexivity|].
  rewrite (nth_error_nth' _ 0%nat) by (rewrite seq_length; lia). now rewrite seq_nth.
Qed.

Lemma h_rows_spec (row : msr_type -> res De (list A)) av types i mat h :
  h_rows row av i types mat = Ok h ->
  length h = length mat /\
  forall j, match (if Nat.ltb j i then None else nth_error types (j - i)) with
            | Some t => if av t then exists r, row t = Ok r /\ nth_error h j = Some r
                        else nth_error h j = nth_error mat j
            | None => nth_error h j = nth_error mat j
            end.
Proof.
  revert i mat. induction types as [|t types IH]; intros i mat; cbn [h_rows].
  - intros [= <-]. split; [reflexivity|]. intros j. destruct (Nat.ltb j i), (j - i)%nat; reflexivity.
  - destruct (av t) eqn:Ha.
    + destruct (row t) as [r| | |] eqn:Hr; try discriminate. cbn [bind].
      destruct (set_row i r mat) as [mat'|] eqn:Hs; [|discriminate]. intros Hh.
      destruct (set_row_some _ _ _ _ Hs) as (H1 & H2 & H3). destruct (IH _ _ Hh) as (H4 & H5).
      split; [lia|]. intros j. specialize (H5 j).
      destruct (Nat.ltb_spec j i).
      * destruct (Nat.ltb_spec j (S i)); [|lia]. cbv iota in H5 |- *. rewrite H5, H3.
        destruct (Nat.eqb_spec j i); [lia|reflexivity].
      * destruct (Nat.ltb_spec j (S i)).
        -- replace j with i in * by lia. rewrite Nat.sub_diag. cbn [nth_error]. cbv iota in H5 |- *. rewrite Ha.
           exists r. split; [exact Hr|]. rewrite H5, H3. now rewrite Nat.eqb_refl.
        -- replace (j - i)%nat with (S (j - S i)) by lia. cbn.
           assert (Hm : nth_error mat' j = nth_error mat j).
           { rewrite H3. destruct (Nat.eqb_spec j i); [lia|reflexivity]. }
           rewrite Hm in H5. exact H5.
    + intros Hh. destruct (IH _ _ Hh) as (H4 & H5). split; [exact H4|].
      intros j. specialize (H5 j). destruct (Nat.ltb_spec j i).
      * destruct (Nat.ltb_spec j (S i)); [|lia]. exact H5.
      * destruct (Nat.ltb_spec j (S i)).
        -- replace j with i in * by lia. rewrite Nat.sub_diag. cbn. now rewrite Ha.
        -- replace (j - i)%nat with (S (j - S i)) by lia. exact H5.
Qed.

Lemma h_tilde_spec m (row : msr_type -> res De (list A)) av types h :
  h_tilde zero one m row av types = Ok h ->
  length h = m /\
  forall j, (j < m)%nat ->
    match nth_error types j with
    | Some t => if av t then exists r, row t = Ok r /\ nth_error h j = Some r
                else nth_error h j = Some (identity_row zero one j)
    | None => nth_error h j = Some (identity_row zero one j)
    end.
Proof.
  intros H. apply h_rows_spec in H as (H1 & H2).
  unfold identity_matrix in H1. rewrite map_length, seq_length in H1. split; [exact H1|].
  intros j Hj. specialize (H2 j). cbn in H2. rewrite Nat.sub_0_r in H2.
  rewrite identity_nth in H2 by exact Hj. exact H2.
Qed.

(** Enough rows and a sensitivity for every available type: there is a matrix. *)
Lemma set_row_ok i (row : list A) mat : (i < length mat)%nat -> exists mat', set_row i row mat = Some mat'.
Proof.
  revert i. induction mat as [|r mat IH]; intros [|i]; cbn; try lia.
  - eauto.
  - intros H. destruct (IH i ltac:(lia)) as (m & ->). cbn. eauto.
Qed.
Lemma h_rows_ok (row : msr_type -> res De (list A)) av types i mat :
  (i + length types <= length mat)%nat ->
  (forall t, In t types -> av t = true -> is_ok (row t)) ->
  is_ok (h_rows row av i types mat).
Proof.
  revert i mat. induction types as [|t types IH]; intros i mat Hl Hr; cbn [h_rows].
  - eexists; reflexivity.
  - cbn in Hl. destruct (av t) eqn:Ha.
    + destruct (Hr t (or_introl eq_refl) Ha) as (r & ->). cbn [bind].
      destruct (set_row_ok i r mat) as (mat' & Hs); [lia|]. rewrite Hs.
      apply IH; [|intros; apply Hr; [now right|assumption]].
      destruct (set_row_some _ _ _ _ Hs) as (-> & _). lia.
    + apply IH; [lia|]. intros; apply Hr; [now right|assumption].
Qed.
Lemma h_tilde_ok m (row : msr_type -> res De (list A)) av types :
  (length types <= m)%nat -> (forall t, In t types -> av t = true -> is_ok (row t)) ->
  is_ok (h_tilde zero one m row av types).
Proof.
  intros. apply h_rows_ok; [|assumption]. unfold identity_matrix. rewrite map_length, seq_length. lia.
Qed.
End Rows.
