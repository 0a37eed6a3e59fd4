(** First order dual numbers: the [OHyperdual] of the crate hyperdual, which carries a real
    part and its partial derivatives.  External code, modelled from its documentation; the
    lemmas below prove that the model propagates derivatives. *)
From Coq Require Import Reals Lra Psatz Arith Lia.
From Coquelicot Require Import Coquelicot.
From Verif Require Import Vec3.
Local Open Scope R_scope.

(** [x.real()] and [x[j]], j starting from 1. *)
Record dual := Dual { re : R; du : nat -> R }.

(** [OHyperdual::from_real], [OHyperdual::from] *)
Definition dconst (x : R) : dual := Dual x (fun _ => 0).
(** component [i] of [hyperspace_from_vector]: a real and a one at the partial [i + 1] *)
Definition dvar (i : nat) (x : R) : dual := Dual x (fun j => if (j =? S i)%nat then 1 else 0).

Definition dadd (a b : dual) : dual := Dual (re a + re b) (fun j => du a j + du b j).
Definition dsub (a b : dual) : dual := Dual (re a - re b) (fun j => du a j - du b j).
Definition dmul (a b : dual) : dual :=
  Dual (re a * re b) (fun j => du a j * re b + re a * du b j).
Definition ddiv (a b : dual) : dual :=
  Dual (re a / re b) (fun j => (du a j * re b - re a * du b j) / (re b * re b)).
Definition dpow (a : dual) (n : nat) : dual :=
  Dual (re a ^ n) (fun j => INR n * re a ^ (n - 1) * du a j).
Definition dsqrt (a : dual) : dual := Dual (sqrt (re a)) (fun j => du a j / (2 * sqrt (re a))).

(** Vectors of three dual numbers. *)
Record d3 := D3 { ux : dual; uy : dual; uz : dual }.
Definition d3_add (a b : d3) : d3 := D3 (dadd (ux a) (ux b)) (dadd (uy a) (uy b)) (dadd (uz a) (uz b)).
Definition d3_sub (a b : d3) : d3 := D3 (dsub (ux a) (ux b)) (dsub (uy a) (uy b)) (dsub (uz a) (uz b)).
Definition d3_div (a : d3) (k : dual) : d3 := D3 (ddiv (ux a) k) (ddiv (uy a) k) (ddiv (uz a) k).
Definition d3_mul (a : d3) (k : dual) : d3 := D3 (dmul (ux a) k) (dmul (uy a) k) (dmul (uz a) k).
(** [hyperspace_from_vector] of three components *)
Definition hyperspace (v : v3) : d3 := D3 (dvar 0 (vx v)) (dvar 1 (vy v)) (dvar 2 (vz v)).
(** [hyperdual::linalg::norm] *)
Definition dnorm (a : d3) : dual :=
  dsqrt (dadd (dadd (dmul (ux a) (ux a)) (dmul (uy a) (uy a))) (dmul (uz a) (uz a))).
Definition reals (a : d3) : v3 := V3 (re (ux a)) (re (uy a)) (re (uz a)).
Definition dcomp (a : d3) (i : nat) : dual :=
  match i with 0%nat => ux a | 1%nat => uy a | _ => uz a end.

(** [d] carries the value at 0 and, as partial [j], the derivative at 0 of [f]. *)
Definition tracks (j : nat) (f : R -> R) (d : dual) : Prop :=
  f 0 = re d /\ is_derive f 0 (du d j).

Lemma tracks_ext j f g d : (forall h, f h = g h) -> tracks j f d -> tracks j g d.
Proof.
  intros E [A B]. split; [now rewrite <- E|]. now apply (is_derive_ext f).
Qed.

Lemma tracks_const j x : tracks j (fun _ => x) (dconst x).
Proof. split; [reflexivity|]. cbn. apply (is_derive_const x). Qed.

Lemma tracks_var j i x : tracks j (fun h => x + (if (j =? S i)%nat then h else 0)) (dvar i x).
Proof.
  split; cbn [re du dvar].
  - destruct (j =? S i)%nat; ring.
  - destruct (j =? S i)%nat; auto_derive; trivial; ring.
Qed.

Lemma tracks_add j f g a b : tracks j f a -> tracks j g b ->
  tracks j (fun h => f h + g h) (dadd a b).
Proof.
  intros [A1 A2] [B1 B2]. split; cbn [re du dadd]; [now rewrite A1, B1|].
  now apply (is_derive_plus f g).
Qed.

Lemma tracks_sub j f g a b : tracks j f a -> tracks j g b ->
  tracks j (fun h => f h - g h) (dsub a b).
Proof.
  intros [A1 A2] [B1 B2]. split; cbn [re du dsub]; [now rewrite A1, B1|].
  now apply (is_derive_minus f g).
Qed.

Lemma tracks_mul j f g a b : tracks j f a -> tracks j g b ->
  tracks j (fun h => f h * g h) (dmul a b).
Proof.
  intros [A1 A2] [B1 B2]. split; cbn [re du dmul]; [now rewrite A1, B1|].
  rewrite <- A1, <- B1. apply (is_derive_mult f g); trivial. intros n m. apply Rmult_comm.
Qed.

Lemma tracks_div j f g a b : re b <> 0 -> tracks j f a -> tracks j g b ->
  tracks j (fun h => f h / g h) (ddiv a b).
Proof.
  intros N [A1 A2] [B1 B2]. split; cbn [re du ddiv]; [now rewrite A1, B1|].
  assert (H : is_derive (fun h => f h / g h) 0
                ((du a j * g 0 - f 0 * du b j) / (g 0) ^ 2)).
  { apply is_derive_div; trivial. now rewrite B1. }
  rewrite A1, B1 in H. replace (re b * re b) with (re b ^ 2) by ring. exact H.
Qed.

Lemma tracks_pow j f a n : tracks j f a -> tracks j (fun h => f h ^ n) (dpow a n).
Proof.
  intros [A1 A2]. split; cbn [re du dpow]; [now rewrite A1|].
  rewrite <- A1. replace (INR n * f 0 ^ (n - 1) * du a j) with (INR n * du a j * f 0 ^ pred n)
    by (replace (pred n) with (n - 1)%nat by lia; ring).
  now apply is_derive_pow.
Qed.

Lemma tracks_sqrt j f a : 0 < re a -> tracks j f a -> tracks j (fun h => sqrt (f h)) (dsqrt a).
Proof.
  intros N [A1 A2]. split; cbn [re du dsqrt]; [now rewrite A1|].
  rewrite <- A1. apply is_derive_sqrt; [exact A2|now rewrite A1].
Qed.

(** The same for vectors. *)
Definition tracks3 (j : nat) (f : R -> v3) (d : d3) : Prop :=
  tracks j (fun h => vx (f h)) (ux d) /\ tracks j (fun h => vy (f h)) (uy d)
  /\ tracks j (fun h => vz (f h)) (uz d).

(** The point [p] moved by [h] along axis [j] (1, 2 or 3). *)
Definition shift (j : nat) (h : R) (p : v3) : v3 :=
  V3 (vx p + (if (j =? 1)%nat then h else 0)) (vy p + (if (j =? 2)%nat then h else 0))
     (vz p + (if (j =? 3)%nat then h else 0)).

Lemma shift_0 j p : shift j 0 p = p.
Proof.
  apply v3_eq; unfold shift; cbn [vx vy vz]; destruct (_ =? _)%nat; ring.
Qed.

Lemma tracks3_var j p : tracks3 j (fun h => shift j h p) (hyperspace p).
Proof. repeat split; apply tracks_var. Qed.

Lemma tracks3_value j f d : tracks3 j f d -> f 0 = reals d.
Proof. intros ([A _] & [B _] & [C _]). now apply v3_eq. Qed.

Lemma dot_re d : re (dadd (dadd (dmul (ux d) (ux d)) (dmul (uy d) (uy d))) (dmul (uz d) (uz d)))
  = dot (reals d) (reals d).
Proof. reflexivity. Qed.

Lemma dnorm_re d : re (dnorm d) = norm (reals d).
Proof. reflexivity. Qed.

Lemma tracks_norm j f d : reals d <> vzero -> tracks3 j f d ->
  tracks j (fun h => norm (f h)) (dnorm d).
Proof.
  intros N (A & B & C). unfold norm, dnorm. apply tracks_sqrt.
  - rewrite dot_re. now apply dot_pos.
  - unfold dot. repeat apply tracks_add; now apply tracks_mul.
Qed.

Lemma tracks3_add j f g a b : tracks3 j f a -> tracks3 j g b ->
  tracks3 j (fun h => Vec3.vadd (f h) (g h)) (d3_add a b).
Proof.
  intros (A1 & A2 & A3) (B1 & B2 & B3).
  refine (conj _ (conj _ _)); cbn [Vec3.vadd vx vy vz d3_add ux uy uz]; now apply tracks_add.
Qed.

Lemma tracks3_comp j f d i : tracks3 j f d ->
  tracks j (fun h => match i with 0%nat => vx (f h) | 1%nat => vy (f h) | _ => vz (f h) end) (dcomp d i).
Proof. intros (A & B & C). destruct i as [|[|i]]; assumption. Qed.
