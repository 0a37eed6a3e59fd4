(** Proofs about noises and stations. *)
From Coq Require Import Reals Lra String Permutation.
From Verif Require Import Base Arc_Model Sens_Model Noise_Model Noise_Spec.
Local Open Scope R_scope.

(** * Moments *)
Section Moments.
Context (n : nat) (E : ((nat -> R) -> R) -> R) (HE : expectation n E).

Lemma E_scale a f : E (fun w => a * f w) = a * E f.
Proof.
  rewrite (E_ext _ _ HE _ (fun w => a * f w + 0 * f w)) by (intros; ring).
  rewrite (E_linear _ _ HE). ring.
Qed.
Lemma E_plus f g : E (fun w => f w + g w) = E f + E g.
Proof.
  rewrite (E_ext _ _ HE _ (fun w => 1 * f w + 1 * g w)) by (intros; ring).
  rewrite (E_linear _ _ HE). ring.
Qed.
Lemma E_const a : E (fun _ => a) = a.
Proof.
  rewrite (E_ext _ _ HE _ (fun w => a * 1)) by (intros; ring). rewrite E_scale, (E_one _ _ HE). ring.
Qed.

(** Three different draws, scaled and shifted. *)
Lemma E_three c x a y b z d : (x < n)%nat -> (y < n)%nat -> (z < n)%nat ->
  E (fun w => c + a * w x + b * w y + d * w z) = c.
Proof.
  intros Hx Hy Hz.
  rewrite (E_plus (fun w => c + a * w x + b * w y) (fun w => d * w z)).
  rewrite (E_plus (fun w => c + a * w x) (fun w => b * w y)).
  rewrite (E_plus (fun w => c) (fun w => a * w x)).
  rewrite E_const, !E_scale, !(E_mean _ _ HE) by assumption. ring.
Qed.
Lemma variance_three c x a y b z d : (x < n)%nat -> (y < n)%nat -> (z < n)%nat ->
  x <> y -> x <> z -> y <> z ->
  variance E (fun w => c + a * w x + b * w y + d * w z) = a ^ 2 + b ^ 2 + d ^ 2.
Proof.
  intros Hx Hy Hz Nxy Nxz Nyz. unfold variance. rewrite E_three by assumption.
  rewrite (E_ext _ _ HE _ (fun w => a ^ 2 * (w x * w x) + (b ^ 2 * (w y * w y) + (d ^ 2 * (w z * w z)
     + (2 * a * b * (w x * w y) + (2 * a * d * (w x * w z) + 2 * b * d * (w y * w z))))))) by (intros; ring).
  rewrite (E_plus (fun w => a ^ 2 * (w x * w x))
    (fun w => b ^ 2 * (w y * w y) + (d ^ 2 * (w z * w z)
     + (2 * a * b * (w x * w y) + (2 * a * d * (w x * w z) + 2 * b * d * (w y * w z)))))).
  rewrite (E_plus (fun w => b ^ 2 * (w y * w y)) (fun w => d ^ 2 * (w z * w z)
     + (2 * a * b * (w x * w y) + (2 * a * d * (w x * w z) + 2 * b * d * (w y * w z))))).
  rewrite (E_plus (fun w => d ^ 2 * (w z * w z))
     (fun w => 2 * a * b * (w x * w y) + (2 * a * d * (w x * w z) + 2 * b * d * (w y * w z)))).
  rewrite (E_plus (fun w => 2 * a * b * (w x * w y))
     (fun w => 2 * a * d * (w x * w z) + 2 * b * d * (w y * w z))).
  rewrite (E_plus (fun w => 2 * a * d * (w x * w z)) (fun w => 2 * b * d * (w y * w z))).
  rewrite (E_scale (a ^ 2) (fun w => w x * w x)), (E_scale (b ^ 2) (fun w => w y * w y)),
    (E_scale (d ^ 2) (fun w => w z * w z)), (E_scale (2 * a * b) (fun w => w x * w y)),
    (E_scale (2 * a * d) (fun w => w x * w z)), (E_scale (2 * b * d) (fun w => w y * w z)).
  rewrite !(E_cov _ _ HE) by assumption. rewrite !Nat.eqb_refl.
  rewrite (proj2 (Nat.eqb_neq x y)), (proj2 (Nat.eqb_neq x z)), (proj2 (Nat.eqb_neq y z)) by assumption.
  ring.
Qed.
Lemma variance_ext f g : (forall w, f w = g w) -> variance E f = variance E g.
Proof.
  intros H. unfold variance. rewrite (E_ext _ _ HE f g H).
  apply (E_ext _ _ HE). intros w. now rewrite H.
Qed.
End Moments.

(** Fair coins are such draws. *)
Definition upd (w : nat -> R) (i : nat) (v : R) : nat -> R :=
  fun j => if Nat.eqb i j then v else w j.
Fixpoint coins (n : nat) (f : (nat -> R) -> R) : R :=
  match n with
  | O => f (fun _ => 0)
  | S m => (coins m (fun w => f (upd w m 1)) + coins m (fun w => f (upd w m (-1)))) / 2
  end.
Lemma coins_ext n : forall f g, (forall w, f w = g w) -> coins n f = coins n g.
Proof.
  induction n as [|n IH]; intros f g H; cbn [coins]; [apply H|].
  rewrite (IH (fun w => f (upd w n 1)) (fun w => g (upd w n 1))),
    (IH (fun w => f (upd w n (-1))) (fun w => g (upd w n (-1)))) by (intros; apply H).
  reflexivity.
Qed.
Lemma coins_linear n : forall a b f g,
  coins n (fun w => a * f w + b * g w) = a * coins n f + b * coins n g.
Proof.
  induction n as [|n IH]; intros a b f g; cbn [coins]; [reflexivity|].
  rewrite (IH a b (fun w => f (upd w n 1)) (fun w => g (upd w n 1))),
    (IH a b (fun w => f (upd w n (-1))) (fun w => g (upd w n (-1)))). field.
Qed.
Lemma coins_const n : forall a, coins n (fun _ => a) = a.
Proof. induction n as [|n IH]; intros a; cbn [coins]; [reflexivity|]. rewrite !IH. field. Qed.
Lemma coins_scale n a f : coins n (fun w => a * f w) = a * coins n f.
Proof.
  rewrite (coins_ext _ _ (fun w => a * f w + 0 * f w)) by (intros; ring). rewrite coins_linear. ring.
Qed.
Lemma coins_mean n : forall i, (i < n)%nat -> coins n (fun w => w i) = 0.
Proof.
  induction n as [|n IH]; intros i Hi; [lia|]. cbn [coins].
  destruct (Nat.eq_dec n i) as [<-|Hne].
  - rewrite (coins_ext _ _ (fun _ => 1)) by (intros; unfold upd; now rewrite Nat.eqb_refl).
    rewrite (coins_ext _ (fun w => upd w n (-1) n) (fun _ => -1))
      by (intros; unfold upd; now rewrite Nat.eqb_refl).
    rewrite !coins_const. field.
  - rewrite (coins_ext _ (fun w => upd w n 1 i) (fun w => w i)),
      (coins_ext _ (fun w => upd w n (-1) i) (fun w => w i))
      by (intros; unfold upd; now rewrite (proj2 (Nat.eqb_neq _ _) Hne)).
    rewrite IH by lia. field.
Qed.
Lemma coins_cov n : forall i j, (i < n)%nat -> (j < n)%nat ->
  coins n (fun w => w i * w j) = if Nat.eqb i j then 1 else 0.
Proof.
  assert (Hs : forall (w : nat -> R) m v, upd w m v m = v) by (intros; unfold upd; now rewrite Nat.eqb_refl).
  assert (Ho : forall (w : nat -> R) m v j, m <> j -> upd w m v j = w j)
    by (intros w m v j Hne; unfold upd; now rewrite (proj2 (Nat.eqb_neq _ _) Hne)).
  induction n as [|n IH]; intros i j Hi Hj; [lia|]. cbn [coins].
  destruct (Nat.eq_dec n i) as [<-|Hni]; destruct (Nat.eq_dec n j) as [<-|Hnj].
  - rewrite Nat.eqb_refl.
    rewrite (coins_ext _ _ (fun _ => 1)) by (intros; rewrite Hs; ring).
    rewrite (coins_ext _ (fun w => upd w n (-1) n * upd w n (-1) n) (fun _ => 1))
      by (intros; rewrite Hs; ring).
    rewrite !coins_const. field.
  - rewrite (proj2 (Nat.eqb_neq n j)) by assumption.
    rewrite (coins_ext _ _ (fun w => 1 * w j)) by (intros; rewrite Hs, Ho by assumption; ring).
    rewrite (coins_ext _ (fun w => upd w n (-1) n * upd w n (-1) j) (fun w => (-1) * w j))
      by (intros; rewrite Hs, Ho by assumption; ring).
    rewrite !coins_scale, coins_mean by lia. field.
  - rewrite (proj2 (Nat.eqb_neq i n)) by (intro; congruence).
    rewrite (coins_ext _ _ (fun w => 1 * w i)) by (intros; rewrite Hs, Ho by assumption; ring).
    rewrite (coins_ext _ (fun w => upd w n (-1) i * upd w n (-1) n) (fun w => (-1) * w i))
      by (intros; rewrite Hs, Ho by assumption; ring).
    rewrite !coins_scale, coins_mean by lia. field.
  - rewrite (coins_ext _ (fun w => upd w n 1 i * upd w n 1 j) (fun w => w i * w j)),
      (coins_ext _ (fun w => upd w n (-1) i * upd w n (-1) j) (fun w => w i * w j))
      by (intros; rewrite !Ho by assumption; ring).
    rewrite IH by lia. destruct (Nat.eqb i j); field.
Qed.
Lemma coins_expectation n : expectation n (coins n).
Proof.
  split.
  - apply coins_ext.
  - apply coins_linear.
  - apply coins_const.
  - apply coins_mean.
  - apply coins_cov.
Qed.

(** * Histories of a process *)
Definition decay (g : gm) (dt : Z) : R := exp (- seconds dt / seconds (tau g)).
Lemma gm_history_running w : forall ts g k p init, prev_epoch g = Some p -> init_sample g = Some init ->
  forall i t, nth_error ts i = Some t ->
    nth_error (gm_samples w ts g k) i =
    Some (init * decay g (t - nth i (p :: ts) 0%Z)
          + (0 + / 2 * process_noise g * seconds (tau g) * (1 - decay g (t - nth i (p :: ts) 0%Z))
                 * w (k + i)%nat) + or_zero (constant g)).
Proof.
  induction ts as [|t ts IH]; intros g k p init Hp Hi i s Hs; [destruct i; discriminate|].
  cbn [gm_samples]. unfold gm_sample. rewrite Hp, Hi. unfold draw. cbv beta iota zeta.
  destruct i as [|i].
  - injection Hs as <-. cbn [nth_error nth]. rewrite Nat.add_0_r. unfold decay. reflexivity.
  - cbn [nth_error]. erewrite IH by (reflexivity || exact Hs).
    cbn [tau process_noise constant nth]. unfold decay. cbn [tau].
    replace (S k + i)%nat with (k + S i)%nat by lia. reflexivity.
Qed.
Lemma decay_zero g : decay g 0 = 1.
Proof.
  unfold decay, seconds. replace (- (0 / IZR 1000000000)) with 0 by field.
  unfold Rdiv at 1. rewrite Rmult_0_l. apply exp_0.
Qed.
Lemma gm_history w ts g k : prev_epoch g = None -> init_sample g = None ->
  forall i t, nth_error ts i = Some t ->
    nth_error (gm_samples w ts g k) i =
    Some (process_noise g * w k * decay g (t - previous ts i)
          + / 2 * process_noise g * seconds (tau g) * (1 - decay g (t - previous ts i))
            * w (k + 1 + i)%nat + or_zero (constant g)).
Proof.
  intros Hp Hi i t Ht. destruct ts as [|t0 ts]; [destruct i; discriminate|].
  cbn [gm_samples]. unfold gm_sample. rewrite Hp, Hi. unfold draw. cbv beta iota zeta.
  destruct i as [|i].
  - injection Ht as <-. cbn [nth_error]. unfold previous. cbn [Nat.sub nth]. rewrite Z.sub_diag.
    fold (decay g 0). replace (k + 1 + 0)%nat with (S k) by lia. f_equal. ring.
  - cbn [nth_error]. erewrite gm_history_running by (reflexivity || exact Ht).
    cbn [tau process_noise constant]. unfold previous. cbn [Nat.sub]. rewrite Nat.sub_0_r.
    unfold decay. cbn [tau]. replace (S (S k) + i)%nat with (k + 1 + S i)%nat by lia. f_equal. ring.
Qed.

(** * Maps *)
Lemma type_eqb_eq a b : type_eqb a b = true <-> a = b.
Proof. unfold type_eqb. destruct (msr_type_eq_dec a b); split; congruence. Qed.
Lemma type_eqb_refl a : type_eqb a a = true.
Proof. now apply type_eqb_eq. Qed.
Lemma type_eqb_neq a b : a <> b -> type_eqb a b = false.
Proof. unfold type_eqb. destruct (msr_type_eq_dec a b); congruence. Qed.
Lemma insert_get {V} t (v : V) l u :
  im_get type_eqb u (im_insert type_eqb t v l) = if type_eqb u t then Some v else im_get type_eqb u l.
Proof.
  induction l as [|[k x] l IH]; cbn [im_insert im_get].
  - destruct (type_eqb u t); reflexivity.
  - destruct (type_eqb t k) eqn:E1; cbn [im_get].
    + apply type_eqb_eq in E1 as ->. destruct (type_eqb u k); reflexivity.
    + destruct (type_eqb u k) eqn:E2.
      * apply type_eqb_eq in E2 as ->. destruct (type_eqb k t) eqn:E3; [|reflexivity].
        apply type_eqb_eq in E3 as ->. now rewrite type_eqb_refl in E1.
      * exact IH.
Qed.
Lemma insert_keys {V} t (v : V) l : map fst (im_insert type_eqb t v l) =
  if existsb (type_eqb t) (map fst l) then map fst l else map fst l ++ [t].
Proof.
  induction l as [|[k x] l IH]; cbn [im_insert map existsb fst app]; [reflexivity|].
  destruct (type_eqb t k); cbn [map fst orb]; [reflexivity|]. rewrite IH.
  destruct (existsb _ _); reflexivity.
Qed.
Lemma get_none {V} u (l : list (msr_type * V)) : im_get type_eqb u l = None <-> ~ In u (map fst l).
Proof.
  induction l as [|[k x] l IH]; cbn; [tauto|].
  destruct (type_eqb u k) eqn:E1.
  - apply type_eqb_eq in E1 as ->. split; [discriminate|tauto].
  - rewrite IH. split; [|tauto]. intros H [->|Hi]; [|tauto]. now rewrite type_eqb_refl in E1.
Qed.
Lemma get_in {V} u (v : V) l : im_get type_eqb u l = Some v -> In (u, v) l.
Proof.
  induction l as [|[k x] l IH]; cbn; [discriminate|].
  destruct (type_eqb u k) eqn:E1; [|auto]. apply type_eqb_eq in E1 as ->. intros [= ->]. auto.
Qed.
Lemma in_get {V} u (v : V) l : NoDup (map fst l) -> In (u, v) l -> im_get type_eqb u l = Some v.
Proof.
  induction l as [|[k x] l IH]; cbn; [contradiction|]. intros Hd [[= <- <-]|Hi].
  - now rewrite type_eqb_refl.
  - inversion Hd; subst. rewrite type_eqb_neq; [now apply IH|].
    intros ->. apply H1. now apply (in_map fst) in Hi.
Qed.
Lemma last_removelast {A} (d : A) l : l <> [] -> Permutation (last l d :: removelast l) l.
Proof.
  intros H. rewrite (app_removelast_last d H) at 3. apply Permutation_cons_append.
Qed.
Lemma swap_remove_filter {A} (p : A -> bool) l : (forall x y l1 l2, l = l1 ++ x :: l2 -> In y l2 ->
    p x = true -> p y = false) ->
  Permutation (swap_remove p l) (filter (fun x => negb (p x)) l).
Proof.
  induction l as [|x l IH]; intros H; cbn [swap_remove filter]; [constructor|].
  destruct (p x) eqn:E1; cbn [negb].
  - assert (Hl : filter (fun y => negb (p y)) l = l).
    { assert (Hy : forall y, In y l -> p y = false) by (intros y Hy; now apply (H x y [] l)).
      clear -Hy. induction l as [|y l IHl]; cbn [filter]; [reflexivity|].
      rewrite (Hy y) by now left. cbn [negb]. f_equal. apply IHl. intros z Hz. apply Hy. now right. }
    rewrite Hl. destruct l as [|y l]; [constructor|]. apply last_removelast. discriminate.
  - constructor. apply IH. intros u v l1 l2 -> Hv. apply (H u v (x :: l1) l2); auto.
Qed.
Lemma NoDup_tail_neq {A} (u : A) l1 l2 v : NoDup (l1 ++ u :: l2) -> In v l2 -> u <> v.
Proof.
  intros H Hv ->. apply NoDup_remove_2 in H. apply H. apply in_or_app. now right.
Qed.
Lemma swap_remove_types t l : NoDup l ->
  Permutation (swap_remove (type_eqb t) l) (filter (fun u => negb (type_eqb t u)) l).
Proof.
  intros H. apply swap_remove_filter. intros x y l1 l2 -> Hy Hx. apply type_eqb_eq in Hx as <-.
  apply type_eqb_neq. now apply (NoDup_tail_neq t l1 l2 y).
Qed.
Lemma swap_remove_entries {V} t (l : list (msr_type * V)) : NoDup (map fst l) ->
  Permutation (swap_remove (fun tn => type_eqb t (fst tn)) l)
              (filter (fun tn => negb (type_eqb t (fst tn))) l).
Proof.
  intros H. apply swap_remove_filter. intros x y l1 l2 -> Hy Hx. apply type_eqb_eq in Hx.
  apply type_eqb_neq. rewrite Hx. rewrite map_app in H. cbn [map] in H.
  apply (NoDup_tail_neq (fst x) (map fst l1) (map fst l2)); [exact H|now apply in_map].
Qed.
Lemma NoDup_filter {A} (p : A -> bool) l : NoDup l -> NoDup (filter p l).
Proof.
  induction 1 as [|x l Hx _ IH]; cbn [filter]; [constructor|].
  destruct (p x); [|exact IH]. constructor; [|exact IH]. intros Hi. apply filter_In in Hi. tauto.
Qed.
Lemma map_fst_filter {V} t (l : list (msr_type * V)) :
  map fst (filter (fun tn => negb (type_eqb t (fst tn))) l) = filter (fun u => negb (type_eqb t u)) (map fst l).
Proof.
  induction l as [|[k x] l IH]; cbn [filter map fst]; [reflexivity|].
  destruct (negb (type_eqb t k)); cbn [map fst]; now rewrite IH.
Qed.
Lemma get_perm {V} u (l l' : list (msr_type * V)) : NoDup (map fst l) -> Permutation l l' ->
  im_get type_eqb u l = im_get type_eqb u l'.
Proof.
  intros Hd Hp.
  assert (Hd' : NoDup (map fst l')) by (eapply Permutation_NoDup; [apply Permutation_map, Hp|exact Hd]).
  destruct (im_get type_eqb u l) as [v|] eqn:E1.
  - symmetry. apply in_get; [exact Hd'|]. apply (Permutation_in _ Hp). now apply get_in.
  - symmetry. apply get_none. intros Hi. apply get_none in E1. apply E1.
    apply (Permutation_in _ (Permutation_sym (Permutation_map fst Hp))). exact Hi.
Qed.
Lemma filter_get {V} t u (l : list (msr_type * V)) :
  im_get type_eqb u (filter (fun tn => negb (type_eqb t (fst tn))) l) =
  if type_eqb u t then None else im_get type_eqb u l.
Proof.
  induction l as [|[k x] l IH]; cbn [filter im_get fst]; [now destruct (type_eqb u t)|].
  destruct (type_eqb t k) eqn:E1; cbn [negb im_get].
  - apply type_eqb_eq in E1 as ->. rewrite IH. destruct (type_eqb u k); reflexivity.
  - rewrite IH. destruct (type_eqb u k) eqn:E2; [|reflexivity].
    apply type_eqb_eq in E2 as ->. destruct (type_eqb k t) eqn:E3; [|reflexivity].
    apply type_eqb_eq in E3 as ->. now rewrite type_eqb_refl in E1.
Qed.

(** * Stations *)
Definition noise_of (s : station) (t : msr_type) : option noise :=
  im_get type_eqb t (noises_or_empty s).

(** Also the keys of the map are distinct, which indexmap guarantees. *)
Definition good (s : station) : Prop :=
  NoDup (map fst (noises_or_empty s)) /\ well_formed (st_types s) (noise_of s).

Lemma existsb_in t l : existsb (type_eqb t) l = true <-> In t l.
Proof.
  rewrite existsb_exists. split.
  - intros (x & Hx & E1). apply type_eqb_eq in E1 as ->. exact Hx.
  - intros H. exists t. split; [exact H|apply type_eqb_refl].
Qed.
Lemma set_insert_in t l u : In u (set_insert t l) <-> u = t \/ In u l.
Proof.
  unfold set_insert. destruct (existsb (type_eqb t) l) eqn:E1.
  - apply existsb_in in E1. split; [auto|]. intros [->|]; assumption.
  - rewrite in_app_iff. cbn. intuition.
Qed.
Lemma not_existsb t l : existsb (type_eqb t) l = false -> ~ In t l.
Proof. intros H Hi. apply existsb_in in Hi. congruence. Qed.
Lemma NoDup_snoc {A} (x : A) l : NoDup l -> ~ In x l -> NoDup (l ++ [x]).
Proof.
  intros H Hx. apply (Permutation_NoDup (Permutation_cons_append l x)). now constructor.
Qed.
Lemma set_insert_NoDup t l : NoDup l -> NoDup (set_insert t l).
Proof.
  intros H. unfold set_insert. destruct (existsb (type_eqb t) l) eqn:E1; [exact H|].
  apply NoDup_snoc; [exact H|now apply not_existsb].
Qed.
Lemma with_msr_noise t n s u :
  noise_of (with_msr_type t n s) u = if type_eqb u t then Some n else noise_of s u.
Proof. unfold noise_of, noises_or_empty at 1, with_msr_type. cbn [st_noises]. apply insert_get. Qed.
Lemma with_msr_good t n s : good s -> good (with_msr_type t n s).
Proof.
  intros (Hk & Hd & Hi). split; [|split].
  - unfold noises_or_empty at 1, with_msr_type. cbn [st_noises]. rewrite insert_keys.
    destruct (existsb _ _) eqn:E1; [exact Hk|]. apply NoDup_snoc; [exact Hk|now apply not_existsb].
  - now apply set_insert_NoDup.
  - intros u. cbn [with_msr_type st_types]. rewrite set_insert_in, with_msr_noise.
    destruct (type_eqb u t) eqn:E1.
    + apply type_eqb_eq in E1. split; [discriminate|auto].
    + rewrite <- Hi. split; [|auto]. intros [->|]; [now rewrite type_eqb_refl in E1|assumption].
Qed.
Lemma without_msr_noise t s u : NoDup (map fst (noises_or_empty s)) ->
  noise_of (without_msr_type t s) u = if type_eqb u t then None else noise_of s u.
Proof.
  unfold noise_of, noises_or_empty, without_msr_type. cbn [st_noises].
  destruct (st_noises s) as [l|]; cbn [option_map]; intros Hk.
  - rewrite <- filter_get. apply get_perm; [|now apply swap_remove_entries].
    eapply Permutation_NoDup; [symmetry; apply Permutation_map, swap_remove_entries, Hk|].
    rewrite map_fst_filter. now apply NoDup_filter.
  - cbn. now destruct (type_eqb u t).
Qed.
Lemma without_msr_types t s u : NoDup (st_types s) ->
  In u (st_types (without_msr_type t s)) <-> u <> t /\ In u (st_types s).
Proof.
  intros H. cbn [without_msr_type st_types]. split.
  - intros Hi. apply (Permutation_in _ (swap_remove_types t _ H)), filter_In in Hi.
    destruct Hi as (Hi & E1). split; [|exact Hi]. intros ->. now rewrite type_eqb_refl in E1.
  - intros (Hn & Hi). apply (Permutation_in _ (Permutation_sym (swap_remove_types t _ H))).
    apply filter_In. split; [exact Hi|]. rewrite type_eqb_neq; [reflexivity|congruence].
Qed.
Lemma without_msr_good t s : good s -> good (without_msr_type t s).
Proof.
  intros (Hk & Hd & Hi). split; [|split].
  - unfold noises_or_empty, without_msr_type in *. cbn [st_noises].
    destruct (st_noises s) as [l|]; cbn [option_map]; [|constructor].
    eapply Permutation_NoDup; [symmetry; apply Permutation_map, swap_remove_entries, Hk|].
    rewrite map_fst_filter. now apply NoDup_filter.
  - cbn [without_msr_type st_types].
    eapply Permutation_NoDup; [symmetry; apply swap_remove_types, Hd|]. now apply NoDup_filter.
  - intros u. rewrite without_msr_types, without_msr_noise by assumption.
    destruct (type_eqb u t) eqn:E1.
    + apply type_eqb_eq in E1. intuition congruence.
    + rewrite <- Hi. split; [tauto|]. intros H. split; [|exact H]. intros ->. now rewrite type_eqb_refl in E1.
Qed.
Lemma insert_present_keys {V} t (v : V) l : im_get type_eqb t l <> None ->
  map fst (im_insert type_eqb t v l) = map fst l.
Proof.
  intros H. rewrite insert_keys. destruct (existsb _ _) eqn:E1; [reflexivity|].
  exfalso. apply H, get_none. now apply not_existsb.
Qed.
Lemma with_bias_good t b s s' : good s -> with_msr_bias_constant t b s = Ok s' -> good s'.
Proof.
  unfold with_msr_bias_constant. intros (Hk & Hd & Hi).
  destruct (im_get type_eqb t (noises_or_empty s)) as [n|] eqn:E1; [|discriminate].
  intros [= <-]. split; [|split].
  - unfold noises_or_empty at 1. cbn [st_noises]. rewrite insert_present_keys by congruence. exact Hk.
  - exact Hd.
  - intros u. cbn [st_types]. unfold noise_of, noises_or_empty at 1. cbn [st_noises]. rewrite insert_get.
    destruct (type_eqb u t) eqn:E2.
    + apply type_eqb_eq in E2 as ->. rewrite Hi. unfold noise_of. rewrite E1. split; discriminate.
    + apply Hi.
Qed.

Lemma sample_all_ok w t : forall types l k,
  (forall u, In u types -> im_get type_eqb u l <> None) ->
  exists l' k' xs, sample_all w t types l k = (l', k', Ok xs) /\ length xs = length types /\
    map fst l' = map fst l.
Proof.
  induction types as [|u types IH]; intros l k H; cbn [sample_all].
  - exists l, k, []. auto.
  - destruct (im_get type_eqb u l) as [n|] eqn:E1; [|exfalso; apply (H u); [now left|exact E1]].
    destruct (sample w t n k) as [[x n'] k1].
    destruct (IH (im_insert type_eqb u n' l) k1) as (l' & k' & xs & Hs & Hl & Hf).
    { intros v Hv. rewrite insert_get. destruct (type_eqb v u); [discriminate|]. apply H. now right. }
    rewrite Hs. exists l', k', (x :: xs). cbn [bind length]. rewrite Hl, Hf.
    split; [reflexivity|]. split; [reflexivity|]. apply insert_present_keys. congruence.
Qed.
Lemma noises_ok w t rng s : good s -> st_noises s <> None ->
  exists s' rng' x xs, noises w t rng s = (s', rng', Ok (x :: xs)) /\
    length xs = length (st_types s) /\ st_types s' = st_types s /\ good s'.
Proof.
  intros (Hk & Hd & Hi) Hn. unfold noises. destruct rng as [k|].
  - destruct (st_noises s) as [l|] eqn:E1; [|congruence].
    assert (Hkl : noises_or_empty s = l) by (unfold noises_or_empty; now rewrite E1).
    destruct (match timestamp_noise s with
              | Some n => let '(x, _, k0) := sample w t n k in (x, k0)
              | None => (0, k) end) as [x0 k0].
    destruct (sample_all_ok w t (st_types s) l k0) as (l' & k' & xs & Hs & Hl & Hf).
    { intros u Hu. apply Hi in Hu. unfold noise_of in Hu. now rewrite Hkl in Hu. }
    rewrite Hs. exists (with_noises s l'), (Some k'), x0, xs. cbn [bind].
    split; [reflexivity|]. split; [exact Hl|]. split; [reflexivity|].
    split; [|split].
    + unfold noises_or_empty at 1. cbn [with_noises st_noises]. rewrite Hf, <- Hkl. exact Hk.
    + exact Hd.
    + intros u. cbn [with_noises st_types]. rewrite Hi. unfold noise_of.
      rewrite Hkl. unfold noises_or_empty. cbn [with_noises st_noises]. rewrite !get_none, Hf. tauto.
  - exists s, None, 0, (repeat 0 (length (st_types s))). cbn [repeat].
    split; [reflexivity|]. split; [apply repeat_length|]. split; [reflexivity|]. split; [exact Hk|].
    split; assumption.
Qed.
