(** Concrete environments: used to show that the hypotheses of the propagator theorems
    can be met, and as witnesses of refuted claims. *)
From Coq Require Import Reals Lra.
From Verif Require Import Base Prop_Model Prop_Spec Prop_Proofs Prop_Loop.
Local Open Scope Z_scope.

(** Seconds to nanoseconds by truncation towards zero, as hifitime does, in exact
    arithmetic. *)
Definition trunc_secs (x : R) : Z :=
  if Rle_dec 0 x then Int_part (x * 1000000000) else - Int_part (- x * 1000000000).

Lemma Int_part_spec r : (IZR (Int_part r) <= r < IZR (Int_part r) + 1)%R.
Proof. pose proof (base_Int_part r). lra. Qed.

Lemma Int_part_le r m : (r <= IZR m)%R -> Int_part r <= m.
Proof. intros H. pose proof (Int_part_spec r). apply le_IZR. lra. Qed.

Lemma Int_part_ge r m : (IZR m <= r)%R -> m <= Int_part r.
Proof.
  intros H. pose proof (Int_part_spec r).
  assert (IZR m < IZR (Int_part r) + 1)%R by lra.
  rewrite <- plus_IZR in H1. apply lt_IZR in H1. lia.
Qed.

Lemma trunc_hi x m : 0 <= m -> (x <= to_secs m)%R -> trunc_secs x <= m.
Proof.
  intros Hm Hx. unfold trunc_secs, to_secs in *. destruct (Rle_dec 0 x).
  - apply Int_part_le. lra.
  - assert (0 <= Int_part (- x * 1000000000)) by (apply Int_part_ge; cbn; lra). lia.
Qed.

Lemma trunc_lo x m : 0 <= m -> (to_secs m <= x)%R -> m <= trunc_secs x.
Proof.
  intros Hm Hx. unfold trunc_secs, to_secs in *. destruct (Rle_dec 0 x) as [|Hn].
  - apply Int_part_ge. lra.
  - apply IZR_le in Hm. lra.
Qed.

Lemma trunc_odd x : trunc_secs (- x) = - trunc_secs x.
Proof.
  unfold trunc_secs. destruct (Rle_dec 0 (- x)); destruct (Rle_dec 0 x).
  - assert (x = 0%R) by lra. subst. rewrite Ropp_0, Rmult_0_l.
    assert (H : Int_part 0 = 0).
    { pose proof (Int_part_le 0 0 ltac:(cbn; lra)).
      pose proof (Int_part_ge 0 0 ltac:(cbn; lra)). lia. }
    rewrite H. reflexivity.
  - lia.
  - now rewrite Ropp_involutive.
  - lra.
Qed.

(** The simplest method: explicit Euler, with itself as embedded solution.  (Not one of
    nyx's methods; their tables are in [RK_Model].) *)
Definition euler : method :=
  {| stages := 1; order := 2; a_coeffs := []; b_coeffs := [1%R; 1%R] |}.

(** A clock: the state is an epoch and a counter of post-step hooks; dynamics succeed. *)
Definition clock_opts : options unit :=
  {| tolerance := 1; min_step := 10; max_step := 1000; attempts := 3;
     integration_frame := None |}.

Definition clock (est : R) (fin : Z -> res unit Z) : env Z unit unit unit :=
  {| epoch := fun s => s; set_state := fun _ t _ => t; to_vector := fun _ => tt;
     finally := fin; eom := fun _ _ _ => Ok tt; vadd := fun _ _ => tt;
     vscale := fun _ _ => tt; vzero := tt; has_nan := fun _ => false;
     estimate := fun _ _ _ => est; frame_of := fun _ => tt; frame_eqb := fun _ _ => true;
     enter_frame := fun s _ => Ok s; leave_frame := fun s _ => Ok s;
     of_secs := trunc_secs; nan_error := tt; meth := euler; opts := clock_opts |}.

Definition clock_inst (t step : Z) (fixed : bool) : inst (St := Z) :=
  {| state := t; step_size := step; fixed_step := fixed;
     det := {| d_step := 0; d_error := 0%R; d_attempts := 1 |} |}.

Lemma clock_keeps est : keeps_epoch (clock est Ok).
Proof. split; cbn; try congruence. Qed.

Lemma clock_converts est fin : converts (clock est fin) 0.
Proof.
  split; cbn.
  - lia.
  - apply trunc_hi.
  - intros x m Hm Hx. pose proof (trunc_lo x m Hm Hx). lia.
  - apply trunc_odd.
Qed.

Lemma clock_sane est fin : (0 <= est)%R -> sane_options (clock est fin) 0.
Proof. intros He. split; cbn; try lia; try lra; intros; lra. Qed.

Lemma clock_forward_fixed est fin t step :
  0 < step -> steps_forward (clock est fin) step (clock_inst t step true).
Proof. intros H. left. cbn. lia. Qed.

Lemma clock_forward_adaptive est fin t step :
  (0 <= est)%R -> 10 <= step -> steps_forward (clock est fin) 10 (clock_inst t step false).
Proof.
  intros He H. right. cbn. split; [reflexivity|]. exists 0.
  split; [apply clock_converts|]. split; [apply clock_sane; exact He|]. lia.
Qed.

Lemma clock_backward_adaptive est fin t step :
  (0 <= est)%R -> 10 <= step -> steps_backward (clock est fin) 10 (clock_inst t step false).
Proof.
  intros He H. right. cbn. split; [reflexivity|]. exists 0.
  split; [apply clock_converts|]. split; [apply clock_sane; exact He|]. lia.
Qed.

Lemma clock_real {C} est (cond : C -> Z -> C * res unit bool) :
  (forall c s, snd (cond c s) <> NoFuel) -> real_outcomes (clock est Ok) cond.
Proof. intros H. split; cbn; try discriminate. exact H. Qed.

Lemma trunc_to_secs m : 0 <= m -> trunc_secs (to_secs m) = m.
Proof.
  intros H. pose proof (trunc_hi (to_secs m) m H ltac:(lra)).
  pose proof (trunc_lo (to_secs m) m H ltac:(lra)). lia.
Qed.

(** One adaptive step of the clock with a zero error: the step grows to the maximum. *)
Lemma clock_adaptive_step t step d :
  10 <= step ->
  single_step (clock 0 Ok) {| state := t; step_size := step; fixed_step := false; det := d |} =
  ({| state := t + step; step_size := 1000; fixed_step := false;
      det := {| d_step := step; d_error := 0%R; d_attempts := 1 |} |}, Ok tt).
Proof.
  intros Hs. unfold single_step, derive. cbn [derive_loop with_details state fixed_step].
  unfold try_step. cbn [clock eom meth euler stages stage_loop bind combine_stages b_coeffs
    nth_error Nat.add to_vector vzero estimate opts finally set_state epoch has_nan].
  unfold accepts. cbn [clock opts clock_opts tolerance].
  destruct (Rle_dec 0 1) as [_|Hn]; [|lra]. cbn [orb].
  destruct (Rlt_dec 0 1) as [_|Hn]; [|lra].
  unfold grow. destruct (Req_EM_T 0 0) as [_|Hn]; [|lra].
  unfold signum. cbn [step_size].
  assert (Hp : (0 < to_secs step)%R) by (apply to_secs_pos; lia).
  destruct (Rlt_dec (to_secs step) 0) as [Hn|_]; [lra|].
  unfold next_step. cbn [clock opts clock_opts max_step min_step of_secs epoch set_state finally].
  rewrite Rmult_1_r, !trunc_to_secs by lia. reflexivity.
Qed.

(** Two adaptive steps (10 ns, then the rest) cover a duration of 500 ns. *)
Lemma clock_adaptive_run :
  o_res (for_duration (clock 0 Ok) 5 500 (clock_inst 7 10 false)) = Ok 507 /\
  o_sent (for_duration (clock 0 Ok) 5 500 (clock_inst 7 10 false)) = [17; 507].
Proof.
  set (i0 := {| state := 7; step_size := 10; fixed_step := false;
                det := {| d_step := 0; d_error := 0%R; d_attempts := 1 |} |}).
  assert (E1 : for_duration (clock 0 Ok) 5 500 (clock_inst 7 10 false) =
          prop_loop (clock 0 Ok) never false 507 None 5 i0 tt []) by reflexivity.
  rewrite E1. cbn [prop_loop].
  change ((negb false && (507 <? epoch (clock 0 Ok) (state i0) + step_size i0))
          || (false && (epoch (clock 0 Ok) (state i0) + step_size i0 <=? 507))) with false.
  cbv iota. unfold i0. rewrite (clock_adaptive_step 7 10) by lia. split; reflexivity.
Qed.

(** A run of fixed 100 ns steps. *)
Lemma clock_fixed_run :
  o_res (for_duration (clock 0 Ok) 9 250 (clock_inst 7 100 true)) = Ok 257 /\
  o_sent (for_duration (clock 0 Ok) 9 250 (clock_inst 7 100 true)) = [107; 207; 257] /\
  o_res (for_duration (clock 0 Ok) 9 (-200) (clock_inst 7 100 true)) = Ok (-193) /\
  o_sent (for_duration (clock 0 Ok) 9 (-200) (clock_inst 7 100 true)) = [-93; -193].
Proof. repeat split. Qed.

(** A stop condition on the epoch. *)
Definition reached (limit : Z) (below : bool) (c : unit) (s : Z) : unit * res unit bool :=
  (tt, Ok (if below then s <=? limit else limit <=? s)).
