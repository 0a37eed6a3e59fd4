(** Proofs and statements about polynomials (C49). *)
From Coq Require Import Reals Lra Psatz.
From Verif Require Import Base Poly_Model Poly_Spec.
Local Open Scope R_scope.

(** Horner forms of the value and of the derivative, used in the proofs only. *)
Fixpoint horner (c : list R) (x : R) : R :=
  match c with [] => 0 | a :: t => a + x * horner t x end.
Fixpoint hderiv (c : list R) (x : R) : R :=
  match c with [] => 0 | a :: t => horner t x + x * hderiv t x end.

Lemma terms_horner c : forall k x, terms k c x = x ^ k * horner c x.
Proof.
  induction c as [|a t IH]; intros k x; cbn [terms horner]; [ring|].
  rewrite IH. cbn [pow]. ring.
Qed.

Lemma value_horner c x : value c x = horner c x.
Proof. unfold value. rewrite terms_horner. cbn [pow]. ring. Qed.

Lemma horner_derivable c x : derivable_pt_lim (horner c) x (hderiv c x).
Proof.
  induction c as [|a t IH]; cbn [horner hderiv].
  - apply derivable_pt_lim_const.
  - replace (horner t x + x * hderiv t x) with (0 + (1 * horner t x + x * hderiv t x)) by ring.
    apply (derivable_pt_lim_plus (fun _ => a) (fun x => x * horner t x)).
    + apply derivable_pt_lim_const.
    + apply (derivable_pt_lim_mult id (horner t)); [apply derivable_pt_lim_id|apply IH].
Qed.

Lemma value_derivable c x : derivable_pt_lim (value c) x (hderiv c x).
Proof.
  intros eps He. destruct (horner_derivable c x eps He) as [d Hd]. exists d.
  intros h H0 Hh. rewrite !value_horner. now apply Hd.
Qed.

Lemma fold_horner x s l :
  fold_left (horner_step x) (rev s) (l, l)
  = (horner (s ++ [l]) x, horner (s ++ [l]) x + x * hderiv (s ++ [l]) x).
Proof.
  induction s as [|a s IH]; cbn [rev app horner hderiv].
  - cbn [fold_left]. f_equal; ring.
  - rewrite fold_left_app, IH. cbn [fold_left]. unfold horner_step. cbn [fst snd]. f_equal; ring.
Qed.

Lemma eval_n_deriv_ok c x :
  c <> [] -> eval_n_deriv c x = Ok (value c x, hderiv c x).
Proof.
  intros Hc. rewrite value_horner. destruct c as [|c0 [|c1 t]]; [easy| |].
  - cbn. do 2 f_equal; ring.
  - destruct (exists_last (l := c1 :: t)) as [s [l Hs]]; [easy|].
    unfold eval_n_deriv.
    assert (Hl : last (c0 :: c1 :: t) 0 = l).
    { rewrite Hs. change (c0 :: s ++ [l]) with ((c0 :: s) ++ [l]). apply last_last. }
    rewrite Hl. change (skipn 1 (c0 :: c1 :: t)) with (c1 :: t). rewrite Hs, rev_app_distr.
    cbn [rev app skipn]. rewrite fold_horner. cbn [horner hderiv]. do 2 f_equal; ring.
Qed.

(** ** C49 *)

(** Evaluating a polynomial of any size returns its value and its derivative. *)
Theorem C49_eval_n_deriv_exact : forall c x, c <> [] ->
  exists v d, eval_n_deriv c x = Ok (v, d) /\ eval c x = Ok v /\ deriv c x = Ok d
    /\ v = value c x /\ derivable_pt_lim (value c) x d.
Proof.
  intros c x Hc. exists (value c x), (hderiv c x).
  unfold eval, deriv. rewrite eval_n_deriv_ok by assumption. cbn [bind fst snd].
  repeat split. apply value_derivable.
Qed.

Example eval_n_deriv_exact_nonvacuous :
  eval_n_deriv [1; 2; 3; 4] 2 = Ok (49, 62).
Proof. unfold eval_n_deriv. cbn [last skipn rev app fold_left]. unfold horner_step. cbn [fst snd].
  do 2 f_equal; ring. Qed.

(** Only the polynomial of size zero makes the evaluation panic. *)
Theorem C49_eval_panics_iff_empty : forall c x, eval_n_deriv c x = Panic <-> c = [].
Proof.
  intros c x; split; intros H; [|now subst c].
  destruct c as [|a t]; [easy|]. now rewrite eval_n_deriv_ok in H.
Qed.

Lemma zip_value f (Hf : exists s, s * s = 1 /\ forall a b, f a b = a + s * b) :
  forall p1 p2 x, (length p2 <= length p1)%nat ->
  exists s, s * s = 1 /\ (forall a b, f a b = a + s * b)
    /\ horner (zip_with f p1 p2) x = horner p1 x + s * horner p2 x.
Proof.
  destruct Hf as [s [Hs Hf]]. intros p1 p2 x H. exists s. split; [assumption|]. split; [assumption|].
  revert p2 H. induction p1 as [|c1 t1 IH]; intros [|c2 t2] H; cbn [length] in H;
    cbn [zip_with horner].
  - ring.
  - lia.
  - rewrite IH by (cbn; lia). cbn [horner]. ring.
  - rewrite IH by lia. rewrite Hf. ring.
Qed.

Lemma zip_plus p1 p2 x : (length p2 <= length p1)%nat ->
  horner (zip_with Rplus p1 p2) x = horner p1 x + horner p2 x.
Proof.
  intros H. destruct (zip_value Rplus) with (p1 := p1) (p2 := p2) (x := x) as [s [_ [Hf E]]];
    [exists 1; split; [ring|intros; ring]|assumption|].
  rewrite E. specialize (Hf 0 1). nra.
Qed.

Lemma zip_minus p1 p2 x : (length p2 <= length p1)%nat ->
  horner (zip_with Rminus p1 p2) x = horner p1 x - horner p2 x.
Proof.
  intros H. destruct (zip_value Rminus) with (p1 := p1) (p2 := p2) (x := x) as [s [_ [Hf E]]];
    [exists (-1); split; [ring|intros; ring]|assumption|].
  rewrite E. specialize (Hf 0 1). nra.
Qed.

Lemma zip_length f p1 : forall p2, length (zip_with f p1 p2) = length p1.
Proof. induction p1 as [|a t IH]; intros [|b u]; cbn; auto. Qed.

(** The sum, when it does not panic, evaluates to the sum of the values and keeps the size
    of the right operand; it does not panic when the left operand is not larger. *)
Theorem C49_sum_exact : forall p q x, (length p <= length q)%nat ->
  exists s, op_add p q = Ok s /\ length s = length q /\ value s x = value p x + value q x.
Proof.
  intros p q x H. unfold op_add, add.
  destruct (Nat.ltb_spec (length q) (length p)); [lia|].
  exists (zip_with Rplus q p). split; [easy|]. split; [apply zip_length|].
  rewrite !value_horner, zip_plus by assumption. ring.
Qed.

Example sum_exact_nonvacuous : op_add [1; 2] [3; 4; 5] = Ok [4; 6; 5].
Proof. unfold op_add, add. cbn. repeat f_equal; ring. Qed.

(** The documented domain of the addition ("Add Self and Other, IF S2 >= S1 (else panic!)",
    where [S2] is the size of [self]) is wrong: it panics inside it and works outside. *)
Theorem C49_sum_documented_domain_refuted :
  exists p q, (length p >= length q)%nat /\ op_add p q = Panic
    /\ exists s, op_add q p = Ok s.
Proof.
  exists [1; 2; 3], [1; 2]. cbn. split; [lia|]. split; [reflexivity|]. eexists. reflexivity.
Qed.

(** The sum panics exactly when the left operand is larger. *)
Theorem C49_sum_panics_iff : forall p q, op_add p q = Panic <-> (length q < length p)%nat.
Proof.
  intros p q. unfold op_add, add. destruct (Nat.ltb_spec (length q) (length p)); split; intros;
    easy || lia.
Qed.

(** The difference of a polynomial with one that is not larger is exact. *)
Theorem C49_difference_exact : forall p q x, (length q <= length p)%nat ->
  exists s, op_sub p q = Ok s /\ length s = length p /\ value s x = value p x - value q x.
Proof.
  intros p q x H. unfold op_sub, sub.
  destruct (Nat.ltb_spec (length p) (length q)); [lia|].
  exists (zip_with Rminus p q). split; [easy|]. split; [apply zip_length|].
  now rewrite !value_horner, zip_minus.
Qed.

Example difference_exact_nonvacuous : op_sub [1; 2; 3] [4; 1] = Ok [-3; 1; 3].
Proof. unfold op_sub, sub. cbn. repeat f_equal; ring. Qed.

(** As stated, for every pair of sizes, sums and differences are not exact: one of the
    two panics as soon as the sizes differ. *)
Theorem C49_arithmetic_total_refuted :
  exists p q, op_add p q = Panic /\ op_sub q p = Panic.
Proof. exists [1; 2; 3], [1; 2]. split; reflexivity. Qed.

(** Scaling. *)
Theorem C49_scaling_exact : forall p k x, value (mul p k) x = k * value p x.
Proof.
  intros p k x. rewrite !value_horner. induction p as [|a t IH]; cbn [mul map horner]; [ring|].
  unfold mul in IH. rewrite IH. ring.
Qed.

(** Adding a number with [+=]. *)
Theorem C49_offset_exact : forall p k x, p <> [] ->
  exists q, add_assign p k = Ok q /\ value q x = value p x + k.
Proof.
  intros [|a t] k x H; [easy|]. exists (a + k :: t). split; [easy|].
  rewrite !value_horner. cbn [horner]. ring.
Qed.

(** [from_most_significant] lists the coefficients from the highest power: the first one
    multiplies [x^(n-1)]. *)
Theorem C49_from_most_significant_value : forall a t x,
  value (from_most_significant (a :: t)) x
  = a * x ^ length t + value (from_most_significant t) x.
Proof.
  intros a t x. unfold from_most_significant. cbn [rev]. rewrite !value_horner.
  rewrite <- (rev_length t). generalize (rev t) as s. clear t.
  induction s as [|b s IH]; cbn [app horner length pow]; [ring|]. rewrite IH. ring.
Qed.

Lemma set_coeff_nth p : forall i j v,
  nth j (set_coeff p i v) 0
  = if andb (Nat.eqb i j) (Nat.ltb i (length p)) then v else nth j p 0.
Proof.
  induction p as [|a t IH]; intros [|i] [|j] v; cbn [set_coeff nth length]; try reflexivity.
  - now rewrite andb_false_r.
  - rewrite IH. reflexivity.
Qed.

Lemma set_coeff_length p : forall i v, length (set_coeff p i v) = length p.
Proof. induction p as [|a t IH]; intros [|i] v; cbn; auto. Qed.

Lemma zero_power_nth p i j : nth j (zero_power p i) 0 = if Nat.eqb i j then 0 else nth j p 0.
Proof.
  unfold zero_power. destruct (Nat.ltb_spec i (length p)) as [H|H].
  - rewrite set_coeff_nth. apply Nat.ltb_lt in H. rewrite H, andb_true_r. reflexivity.
  - destruct (Nat.eqb_spec i j); [subst; now rewrite nth_overflow|reflexivity].
Qed.

(** [zero_power] zeroes that power and leaves the others. *)
Theorem C49_zero_power_exact : forall p i x,
  value (zero_power p i) x = value p x - nth i p 0 * x ^ i.
Proof.
  intros p i x. unfold zero_power. destruct (Nat.ltb_spec i (length p)) as [H|H].
  - rewrite !value_horner. revert i H.
    induction p as [|a t IH]; intros [|i] H; cbn [length] in H; try lia;
      cbn [set_coeff horner nth pow].
    + ring.
    + rewrite IH by lia. ring.
  - rewrite nth_overflow by lia. ring.
Qed.

Lemma zero_below_fold tol n : forall k p j,
  nth j (fold_left (fun q i => if Rlt_dec (Rabs (nth i q 0)) tol then zero_power q i else q)
          (seq k n) p) 0
  = if andb (Nat.leb k j) (Nat.ltb j (k + n))
    then (if Rlt_dec (Rabs (nth j p 0)) tol then 0 else nth j p 0) else nth j p 0.
Proof.
  induction n as [|n IH]; intros k p j.
  - cbn [seq fold_left].
    destruct (Nat.leb_spec k j), (Nat.ltb_spec j (k + 0)); cbn; try reflexivity; lia.
  - cbn [seq fold_left]. rewrite IH.
    assert (E : nth j (if Rlt_dec (Rabs (nth k p 0)) tol then zero_power p k else p) 0
                = if Nat.eqb k j then (if Rlt_dec (Rabs (nth j p 0)) tol then 0 else nth j p 0)
                  else nth j p 0).
    { destruct (Nat.eqb_spec k j) as [->|N].
      - destruct (Rlt_dec (Rabs (nth j p 0)) tol); [|reflexivity].
        now rewrite zero_power_nth, Nat.eqb_refl.
      - destruct (Rlt_dec (Rabs (nth k p 0)) tol); [|reflexivity].
        rewrite zero_power_nth. destruct (Nat.eqb_spec k j); [easy|reflexivity]. }
    rewrite E.
    destruct (Nat.eqb_spec k j) as [->|N].
    + destruct (Nat.leb_spec (S j) j); [lia|]. cbn [andb].
      destruct (Nat.leb_spec j j); [|lia]. destruct (Nat.ltb_spec j (j + S n)); [|lia].
      reflexivity.
    + destruct (Nat.leb_spec (S k) j), (Nat.leb_spec k j), (Nat.ltb_spec j (S k + n)),
        (Nat.ltb_spec j (k + S n)); cbn [andb]; try reflexivity; lia.
Qed.

(** [zero_below_tolerance] zeroes exactly the coefficients smaller than the tolerance. *)
Theorem C49_zero_below_tolerance_exact : forall p tol, p <> [] ->
  exists q, zero_below_tolerance p tol = Ok q
    /\ forall j, (Rabs (nth j p 0) < tol -> nth j q 0 = 0)
              /\ (~ Rabs (nth j p 0) < tol -> nth j q 0 = nth j p 0).
Proof.
  intros p tol Hp. unfold zero_below_tolerance. destruct p as [|a t]; [easy|].
  cbn [order bind]. eexists. split; [reflexivity|]. intros j. rewrite zero_below_fold.
  cbn [Nat.leb]. destruct (Nat.ltb_spec j (0 + S (length t))) as [H|H]; cbn [andb].
  - destruct (Rlt_dec (Rabs (nth j (a :: t) 0)) tol); split; intros; easy.
  - rewrite nth_overflow by (cbn [length]; lia). now split.
Qed.

Example zero_below_tolerance_exact_nonvacuous :
  (Rabs (nth 1 [3; 1; 2] 0) < 2 /\ ~ Rabs (nth 0 [3; 1; 2] 0) < 2).
Proof. cbn [nth]. rewrite !Rabs_right by lra. lra. Qed.

(** Constant, linear and quadratic polynomials. *)
Definition degree (p : common) : nat :=
  match p with Constant _ => 0 | Linear _ _ => 1 | Quadratic _ _ _ => 2 end.

Theorem C49_common_polynomials_exact : forall p x, exists v d,
  common_eval p x = Ok v /\ common_deriv p x = Ok d
  /\ match p with
     | Constant a => v = a /\ d = 0
     | Linear a b => v = a * x + b /\ d = a
     | Quadratic a b c => v = a * x ^ 2 + b * x + c /\ d = 2 * a * x + b
     end.
Proof.
  intros p x. destruct p; cbn; do 2 eexists; repeat split; ring.
Qed.

(** [coeff_in_order] returns the coefficient of that power, or the order error past the
    degree. *)
Theorem C49_coeff_in_order_exact : forall p n,
  (n <= degree p)%nat /\ coeff_in_order p n = Ok (nth n (to_polynomial p) 0)
  \/ (degree p < n)%nat /\ coeff_in_order p n = Err (PolynomialOrderError n).
Proof.
  intros p n. destruct p; destruct n as [|[|[|n]]]; cbn;
    (left; split; [lia|reflexivity]) || (right; split; [lia|reflexivity]).
Qed.

(** Setting a coefficient is not what reading it back shows: the two functions number the
    coefficients from opposite ends. *)
Theorem C49_set_then_get_coefficient_refuted :
  exists p v n q w, with_val_in_order p v n = Ok q /\ coeff_in_order q n = Ok w /\ w <> v.
Proof.
  exists (Linear 1 2), 5, 0%nat, (Linear 5 2), 2.
  repeat split; try reflexivity. lra.
Qed.

(** Adding to the constant coefficient is not adding a constant. *)
Theorem C49_add_to_coefficient_refuted :
  exists p v q x, add_val_in_order p v 0 = Ok q
    /\ forall a b, common_eval p x = Ok a -> common_eval q x = Ok b -> b <> a + v.
Proof.
  exists (Quadratic 1 0 0), 1, (Quadratic (1 + 1) 0 0), 2. split; [reflexivity|].
  intros a b Ha Hb.
  assert (Ea : common_eval (Quadratic 1 0 0) 2 = Ok 4) by (cbn; f_equal; ring).
  assert (Eb : common_eval (Quadratic (1 + 1) 0 0) 2 = Ok 8) by (cbn; f_equal; ring).
  rewrite Ea in Ha. rewrite Eb in Hb.
  assert (a = 4) by congruence. assert (b = 8) by congruence. lra.
Qed.

(** What holds: order [n] of the setters is the coefficient of power [degree - n]; the
    others are unchanged.  Missing from the full statement: that it is the one
    [coeff_in_order] reads, which is only so for the constant and the middle one. *)
Theorem C49_set_coefficient_partial : forall p v n,
  (degree p < n)%nat /\ with_val_in_order p v n = Err (PolynomialOrderError n)
    /\ add_val_in_order p v n = Err (PolynomialOrderError n)
  \/ (n <= degree p)%nat /\ exists q r,
    with_val_in_order p v n = Ok q /\ add_val_in_order p v n = Ok r
    /\ coeff_in_order q (degree p - n) = Ok v
    /\ coeff_in_order r (degree p - n) = Ok (v + nth (degree p - n) (to_polynomial p) 0)
    /\ forall m, m <> (degree p - n)%nat ->
         coeff_in_order q m = coeff_in_order p m /\ coeff_in_order r m = coeff_in_order p m.
Proof.
  intros p v n. destruct p; destruct n as [|[|[|n]]]; cbn [degree];
    ((right; split; [lia|]) || (left; repeat split; lia || reflexivity));
    cbn [with_val_in_order add_val_in_order];
    do 2 eexists; repeat split; cbn [Nat.sub coeff_in_order to_polynomial nth];
    try reflexivity; destruct m as [|[|[|m]]]; easy.
Qed.

Print Assumptions C49_eval_n_deriv_exact.
Print Assumptions C49_eval_panics_iff_empty.
Print Assumptions C49_sum_exact.
Print Assumptions C49_sum_documented_domain_refuted.
Print Assumptions C49_sum_panics_iff.
Print Assumptions C49_difference_exact.
Print Assumptions C49_arithmetic_total_refuted.
Print Assumptions C49_scaling_exact.
Print Assumptions C49_offset_exact.
Print Assumptions C49_from_most_significant_value.
Print Assumptions C49_zero_power_exact.
Print Assumptions C49_zero_below_tolerance_exact.
Print Assumptions C49_common_polynomials_exact.
Print Assumptions C49_coeff_in_order_exact.
Print Assumptions C49_set_then_get_coefficient_refuted.
Print Assumptions C49_add_to_coefficient_refuted.
Print Assumptions C49_set_coefficient_partial.
