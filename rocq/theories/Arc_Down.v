(** What a downsampled arc keeps besides its measurements (C20). *)
From Coq Require Import Reals Lra Lia String.
From Verif Require Import Base RustStd Arc_Model Arc_Spec Arc_Proofs Arc_Props.
Local Open Scope Z_scope.

(** C20: an arc that is not sampled is the same; otherwise the moduli and the forced rejection are lost. *)
Theorem C20_settings : forall usort a target b, downsample usort a target = Ok b ->
  b = a \/ moduli b = None /\ force_reject b = false.
Proof.
  intros usort a target b H. unfold downsample in H.
  destruct (min_duration_sep (measurements a)) as [cur|]; [|left; congruence].
  destruct (target <=? cur); [left; congruence|]. cbv zeta in H.
  destruct (window_size cur target =? 0); [discriminate|].
  destruct (downsample_loop _ _ _ _) as [l|]; [|discriminate]. injection H as <-. right. split; reflexivity.
Qed.

Lemma ambiguity_case : div_euclid 105 100 = 1%R.
Proof.
  unfold div_euclid, rem, trunc. destruct (Rle_dec 0 (105 / 100)) as [_|N]; [|exfalso; apply N; lra].
  assert (E : Int_part (105 / 100) = 1).
  { pose proof (base_Int_part (105 / 100)) as [A B]. assert (Int_part (105 / 100) < 2) by (apply lt_IZR; lra). assert (0 < Int_part (105 / 100)) by (apply lt_IZR; lra). lia. }
  rewrite E. cbv zeta. destruct (Rlt_dec _ 0) as [H|_]; [exfalso; lra|reflexivity].
Qed.

(** C20: sampling an arc changes what its observations mean: a range known modulo 100 km is taken as a whole range. *)
Theorem C20_moduli_refuted : exists a b, time_ordered (measurements a) /\ downsample stable_sort a 20 = Ok b /\
  resolve_ambiguity (moduli a) Range 5 105 = 105%R /\ resolve_ambiguity (moduli b) Range 5 105 = 5%R.
Proof.
  exists {| measurements := measurements (arc_at [0; 10; 20; 30; 40]); moduli := Some [(Range, 100%R)]; force_reject := false |}.
  eexists. split; [repeat constructor; cbn; lia|]. split; [reflexivity|]. split; [|reflexivity].
  unfold resolve_ambiguity. cbn [moduli]. change (im_get type_eqb Range [(Range, 100%R)]) with (Some 100%R). cbv iota beta.
  rewrite ambiguity_case. lra.
Qed.

Print Assumptions C20_settings.
Print Assumptions C20_moduli_refuted.
