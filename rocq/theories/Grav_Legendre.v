(** Legendre polynomials and their derivatives. *)
From Coq Require Import Reals Lra Lia Psatz FunctionalExtensionality.
From Coquelicot Require Import Coquelicot.
Local Open Scope R_scope.

(** Bonnet's recursion: (P_n, P_(n+1)). *)
Fixpoint legendre2 (n : nat) (u : R) : R * R :=
  match n with
  | O => (1, u)
  | S k => let '(a, b) := legendre2 k u in
           (b, ((2 * INR n + 1) * u * b - INR n * a) / (INR n + 1))
  end.
Definition legendre (n : nat) (u : R) : R := fst (legendre2 n u).

(** The [m]-th derivative of the Legendre polynomial of degree [n]. *)
Definition dlegendre (n m : nat) (u : R) : R := Derive_n (legendre n) m u.

Lemma legendre_0 u : legendre 0 u = 1. Proof. reflexivity. Qed.
Lemma legendre_1 u : legendre 1 u = u. Proof. reflexivity. Qed.
Lemma legendre2_snd n u : snd (legendre2 n u) = legendre (S n) u.
Proof. unfold legendre. cbn [legendre2]. now destruct (legendre2 n u). Qed.
Lemma bonnet n u :
  (INR n + 2) * legendre (S (S n)) u = (2 * INR n + 3) * u * legendre (S n) u - (INR n + 1) * legendre n u.
Proof.
  rewrite <- legendre2_snd. cbn [legendre2]. pose proof (legendre2_snd n u) as E.
  unfold legendre at 2. destruct (legendre2 n u) as [a b]. cbn [fst snd] in *. rewrite <- E.
  pose proof (pos_INR n). rewrite S_INR. field. lra.
Qed.

(** Functions with derivatives of every order. *)
Definition smooth (f : R -> R) : Prop := forall m u, ex_derive (Derive_n f m) u.

Lemma smooth_const c : smooth (fun _ => c).
Proof.
  intros m u. destruct m.
  - cbn. apply ex_derive_const.
  - apply (ex_derive_ext (fun _ => 0)); [|apply ex_derive_const].
    intros t. symmetry. rewrite Derive_n_const. reflexivity.
Qed.

Lemma smooth_derive f m u : smooth f -> is_derive (Derive_n f m) u (Derive_n f (S m) u).
Proof. intros H. apply Derive_correct, H. Qed.

Lemma derive_n_lin f g a b : smooth f -> smooth g -> forall m u,
  Derive_n (fun x => a * f x + b * g x) m u = a * Derive_n f m u + b * Derive_n g m u.
Proof.
  intros F G. induction m as [|m IH]; intros u; [reflexivity|].
  cbn [Derive_n]. rewrite (Derive_ext _ _ _ IH).
  apply is_derive_unique.
  apply (is_derive_plus (fun x => a * Derive_n f m x) (fun x => b * Derive_n g m x));
    apply is_derive_scal, smooth_derive; assumption.
Qed.
Lemma smooth_lin f g a b : smooth f -> smooth g -> smooth (fun x => a * f x + b * g x).
Proof.
  intros F G m u. apply (ex_derive_ext (fun x => a * Derive_n f m x + b * Derive_n g m x)).
  - intros t. symmetry. now apply derive_n_lin.
  - apply (ex_derive_plus (fun x => a * Derive_n f m x) (fun x => b * Derive_n g m x));
      apply (ex_derive_scal (Derive_n _ m)); [apply F|apply G].
Qed.

Lemma derive_n_mulx f : smooth f -> forall m u,
  Derive_n (fun x => x * f x) m u = u * Derive_n f m u + INR m * Derive_n f (m - 1) u.
Proof.
  intros F. induction m as [|m IH]; intros u; [cbn; ring|].
  cbn [Derive_n]. rewrite (Derive_ext _ _ _ IH). apply is_derive_unique.
  evar_last.
  - apply (is_derive_plus (fun x => x * Derive_n f m x) (fun x => INR m * Derive_n f (m - 1) x)).
    + apply (is_derive_mult (fun x => x) (Derive_n f m)); [apply is_derive_id|apply (smooth_derive _ _ _ F)|].
      intros. apply Rmult_comm.
    + apply is_derive_scal. apply (smooth_derive _ _ _ F).
  - unfold plus, mult, one; cbn [Ring.mult Ring.one AbelianGroup.plus]. replace (S m - 1)%nat with m by lia.
    destruct m as [|m].
    + cbn. ring.
    + replace (S (S m - 1))%nat with (S m) by lia. rewrite (S_INR (S m)).
      change (1 * Derive_n f (S m) u + u * Derive_n f (S (S m)) u + INR (S m) * Derive_n f (S m) u
              = u * Derive_n f (S (S m)) u + (INR (S m) + 1) * Derive_n f (S m) u). ring.
Qed.
Lemma smooth_mulx f : smooth f -> smooth (fun x => x * f x).
Proof.
  intros F m u. apply (ex_derive_ext (fun x => x * Derive_n f m x + INR m * Derive_n f (m - 1) x)).
  - intros t. symmetry. now apply derive_n_mulx.
  - apply (ex_derive_plus (fun x => x * Derive_n f m x) (fun x => INR m * Derive_n f (m - 1) x)).
    + apply (ex_derive_mult (fun x => x) (Derive_n f m)); [apply ex_derive_id|apply F].
    + apply (ex_derive_scal (Derive_n f (m - 1))). apply F.
Qed.
Lemma smooth_ext f g : (forall x, f x = g x) -> smooth f -> smooth g.
Proof.
  intros E F. replace g with f; [exact F|]. now apply functional_extensionality.
Qed.

Lemma smooth_legendre n : smooth (legendre n) /\ smooth (legendre (S n)).
Proof.
  induction n as [|n [IH1 IH2]].
  - split; [apply (smooth_ext (fun _ => 1)); [reflexivity|apply smooth_const]|].
    apply (smooth_ext (fun x => x * 1)); [intros; rewrite legendre_1; ring|].
    apply (smooth_mulx (fun _ => 1)), smooth_const.
  - split; [exact IH2|].
    apply (smooth_ext (fun x => ((2 * INR n + 3) / (INR n + 2)) * (x * legendre (S n) x)
                                + (- (INR n + 1) / (INR n + 2)) * legendre n x)).
    + intros x. pose proof (bonnet n x) as B. pose proof (pos_INR n).
      apply (Rmult_eq_reg_l (INR n + 2)); [|lra]. rewrite B. field. lra.
    + apply smooth_lin; [|exact IH1]. now apply smooth_mulx.
Qed.
Lemma smooth_P n : smooth (legendre n). Proof. exact (proj1 (smooth_legendre n)). Qed.

Lemma dlegendre_derive n m u : is_derive (dlegendre n m) u (dlegendre n (S m) u).
Proof. exact (smooth_derive (legendre n) m u (smooth_P n)). Qed.

(** Bonnet's recursion, derived once. *)
Lemma bonnet_derived n u :
  (INR n + 2) * dlegendre (S (S n)) 1 u
  = (2 * INR n + 3) * (u * dlegendre (S n) 1 u + legendre (S n) u) - (INR n + 1) * dlegendre n 1 u.
Proof.
  assert (E : forall x, legendre (S (S n)) x
    = ((2 * INR n + 3) / (INR n + 2)) * (x * legendre (S n) x) + (- (INR n + 1) / (INR n + 2)) * legendre n x).
  { intros x. pose proof (bonnet n x) as B. pose proof (pos_INR n).
    apply (Rmult_eq_reg_l (INR n + 2)); [|lra]. rewrite B. field. lra. }
  unfold dlegendre. rewrite (Derive_n_ext _ _ 1 u E), derive_n_lin, derive_n_mulx.
  - cbn [Nat.sub Derive_n INR]. pose proof (pos_INR n). field. lra.
  - apply smooth_P.
  - apply smooth_mulx, smooth_P.
  - apply smooth_P.
Qed.

(** The three first order relations, together. *)
Lemma first_relations n : forall u,
  dlegendre (S n) 1 u = (INR n + 1) * legendre n u + u * dlegendre n 1 u /\
  u * dlegendre (S n) 1 u = (INR n + 1) * legendre (S n) u + dlegendre n 1 u /\
  (1 - u ^ 2) * dlegendre (S n) 1 u = (INR n + 1) * (legendre n u - u * legendre (S n) u).
Proof.
  induction n as [|n IH]; intros u.
  - assert (D1 : dlegendre 1 1 u = 1).
    { unfold dlegendre. rewrite (Derive_n_ext _ (fun x => x) 1 u legendre_1). cbn. apply Derive_id. }
    assert (D0 : dlegendre 0 1 u = 0).
    { unfold dlegendre. rewrite (Derive_n_ext _ (fun _ => 1) 1 u legendre_0). cbn. apply Derive_const. }
    rewrite D1, D0, legendre_0, legendre_1. cbn [INR]. repeat split; ring.
  - destruct (IH u) as (A & B & C). pose proof (bonnet_derived n u) as D. pose proof (bonnet n u) as E.
    pose proof (pos_INR n) as P. rewrite S_INR.
    assert (A' : dlegendre (S (S n)) 1 u = (INR n + 1 + 1) * legendre (S n) u + u * dlegendre (S n) 1 u).
    { apply (Rmult_eq_reg_l (INR n + 2)); [|lra]. rewrite D.
      replace (dlegendre n 1 u) with (u * dlegendre (S n) 1 u - (INR n + 1) * legendre (S n) u) by lra. ring. }
    split; [exact A'|].
    assert (C1 : (1 - u ^ 2) * dlegendre (S n) 1 u = (INR n + 1) * legendre n u - (INR n + 1) * u * legendre (S n) u) by (rewrite C; ring).
    split.
    + rewrite A'. replace (INR n + 1 + 1) with (INR n + 2) by ring.
      rewrite E. lra.
    + rewrite A'. replace (INR n + 1 + 1) with (INR n + 2) by ring.
      replace ((INR n + 2) * (legendre (S n) u - u * legendre (S (S n)) u))
        with ((INR n + 2) * legendre (S n) u - u * ((INR n + 2) * legendre (S (S n)) u)) by ring.
      rewrite E.
      replace ((1 - u ^ 2) * ((INR n + 2) * legendre (S n) u + u * dlegendre (S n) 1 u))
        with ((1 - u ^ 2) * (INR n + 2) * legendre (S n) u + u * ((1 - u ^ 2) * dlegendre (S n) 1 u)) by ring.
      rewrite C1. ring.
Qed.

Lemma shift_derive f m u : Derive_n (Derive_n f 1) m u = Derive_n f (S m) u.
Proof. rewrite Derive_n_comp. f_equal. lia. Qed.

Lemma smooth_d f : smooth f -> smooth (Derive_n f 1).
Proof.
  intros F m u. apply (ex_derive_ext (Derive_n f (S m))); [|apply F].
  intros t. symmetry. apply shift_derive.
Qed.

(** H(n+1, m+1) = (n + m + 1) H(n, m) + u H(n, m+1) *)
Lemma up_relation n m u :
  dlegendre (S n) (S m) u = (INR n + INR m + 1) * dlegendre n m u + u * dlegendre n (S m) u.
Proof.
  unfold dlegendre. rewrite <- shift_derive.
  rewrite (Derive_n_ext _ (fun x => (INR n + 1) * legendre n x + 1 * (x * Derive_n (legendre n) 1 x)) m u).
  2:{ intros t. destruct (first_relations n t) as (A & _). unfold dlegendre in A. rewrite A. ring. }
  rewrite derive_n_lin, derive_n_mulx.
  - rewrite shift_derive. destruct m as [|m].
    + cbn [INR Nat.sub Derive_n]. ring.
    + rewrite shift_derive. replace (S (S m - 1)) with (S m) by lia. ring.
  - apply smooth_d, smooth_P.
  - apply smooth_P.
  - apply smooth_mulx, smooth_d, smooth_P.
Qed.

(** P'_(n+2) - P'_n = (2 n + 3) P_(n+1), derived [m] times *)
Lemma skip_relation n m u :
  dlegendre (S (S n)) (S m) u - dlegendre n (S m) u = (2 * INR n + 3) * dlegendre (S n) m u.
Proof.
  unfold dlegendre. rewrite <- (shift_derive (legendre (S (S n)))).
  rewrite (Derive_n_ext _ (fun x => (2 * INR n + 3) * legendre (S n) x + 1 * Derive_n (legendre n) 1 x) m u).
  2:{ intros t. destruct (first_relations (S n) t) as (A & _). destruct (first_relations n t) as (_ & B & _).
      unfold dlegendre in A, B. rewrite A, B, S_INR. ring. }
  rewrite derive_n_lin, shift_derive; [ring|apply smooth_P|apply smooth_d, smooth_P].
Qed.

(** (n + 2 - m) H(n+2, m) = (2 n + 3) u H(n+1, m) - (n + m + 1) H(n, m) *)
Lemma degree_relation n m u :
  (INR n + 2 - INR m) * dlegendre (S (S n)) m u
  = (2 * INR n + 3) * u * dlegendre (S n) m u - (INR n + INR m + 1) * dlegendre n m u.
Proof.
  destruct m as [|m].
  - unfold dlegendre. cbn [Derive_n INR]. pose proof (bonnet n u). lra.
  - assert (E : forall x, legendre (S (S n)) x
      = ((2 * INR n + 3) / (INR n + 2)) * (x * legendre (S n) x) + (- (INR n + 1) / (INR n + 2)) * legendre n x).
    { intros x. pose proof (bonnet n x) as B. pose proof (pos_INR n).
      apply (Rmult_eq_reg_l (INR n + 2)); [|lra]. rewrite B. field. lra. }
    assert (D : (INR n + 2) * dlegendre (S (S n)) (S m) u
      = (2 * INR n + 3) * (u * dlegendre (S n) (S m) u + INR (S m) * dlegendre (S n) m u)
        - (INR n + 1) * dlegendre n (S m) u).
    { unfold dlegendre. rewrite (Derive_n_ext _ _ (S m) u E), derive_n_lin, derive_n_mulx.
      - replace (S m - 1)%nat with m by lia. pose proof (pos_INR n). field. lra.
      - apply smooth_P.
      - apply smooth_mulx, smooth_P.
      - apply smooth_P. }
    pose proof (skip_relation n m u) as K.
    replace ((2 * INR n + 3) * (u * dlegendre (S n) (S m) u + INR (S m) * dlegendre (S n) m u))
      with ((2 * INR n + 3) * u * dlegendre (S n) (S m) u
            + INR (S m) * ((2 * INR n + 3) * dlegendre (S n) m u)) in D by ring.
    rewrite <- K in D. lra.
Qed.

Lemma dlegendre_above n : forall m u, (n < m)%nat -> dlegendre n m u = 0.
Proof.
  induction n as [|n IH]; intros m u H; (destruct m as [|m]; [lia|]).
  - unfold dlegendre. rewrite (Derive_n_ext _ (fun _ => 1) (S m) u legendre_0). apply Derive_n_const.
  - rewrite up_relation, !IH by lia. ring.
Qed.

Lemma dlegendre_diag n u : dlegendre (S n) (S n) u = (2 * INR n + 1) * dlegendre n n u.
Proof. rewrite up_relation, (dlegendre_above n (S n)) by lia. ring. Qed.

Lemma dlegendre_diag0 u : dlegendre 0 0 u = 1.
Proof. reflexivity. Qed.

Lemma dlegendre_sub n u : dlegendre (S n) n u = (2 * INR n + 1) * u * dlegendre n n u.
Proof.
  destruct n as [|n].
  - change (legendre 1 u = (2 * 0 + 1) * u * legendre 0 u). rewrite legendre_1, legendre_0. ring.
  - pose proof (degree_relation n (S n) u) as D. rewrite (dlegendre_above n (S n)) in D by lia.
    rewrite S_INR in *. lra.
Qed.
