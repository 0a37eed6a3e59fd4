(** Vectors of three real numbers: nalgebra's [Vector3<f64>]. *)
From Coq Require Import Reals Lra Psatz.
Local Open Scope R_scope.

Record v3 := V3 { vx : R; vy : R; vz : R }.
Definition vadd (a b : v3) : v3 := V3 (vx a + vx b) (vy a + vy b) (vz a + vz b).
Definition vsub (a b : v3) : v3 := V3 (vx a - vx b) (vy a - vy b) (vz a - vz b).
Definition vscale (k : R) (a : v3) : v3 := V3 (k * vx a) (k * vy a) (k * vz a).
Definition dot (a b : v3) : R := vx a * vx b + vy a * vy b + vz a * vz b.
Definition cross (a b : v3) : v3 :=
  V3 (vy a * vz b - vz a * vy b) (vz a * vx b - vx a * vz b) (vx a * vy b - vy a * vx b).
Definition norm (a : v3) : R := sqrt (dot a a).
Definition vzero : v3 := V3 0 0 0.

Lemma v3_eq a b : vx a = vx b -> vy a = vy b -> vz a = vz b -> a = b.
Proof. destruct a, b; cbn; congruence. Qed.

Lemma dot_self_nonneg a : 0 <= dot a a.
Proof. unfold dot. nra. Qed.

Lemma norm_nonneg a : 0 <= norm a.
Proof. apply sqrt_pos. Qed.

Lemma norm_sqr a : norm a * norm a = dot a a.
Proof. apply sqrt_sqrt, dot_self_nonneg. Qed.

Lemma dot_self_zero a : dot a a = 0 -> a = vzero.
Proof. unfold dot. intros H. apply v3_eq; cbn; nra. Qed.

Lemma dot_pos a : a <> vzero -> 0 < dot a a.
Proof.
  intros H. destruct (Rle_lt_or_eq_dec _ _ (dot_self_nonneg a)) as [|E]; [assumption|].
  now destruct H; apply dot_self_zero.
Qed.

Lemma norm_pos a : a <> vzero -> 0 < norm a.
Proof. intros H. now apply sqrt_lt_R0, dot_pos. Qed.

Lemma norm_zero_iff a : norm a = 0 <-> a = vzero.
Proof.
  split; intros H.
  - apply dot_self_zero. rewrite <- norm_sqr, H. ring.
  - subst a. unfold norm, dot, vzero. cbn. replace (0 * 0 + 0 * 0 + 0 * 0) with 0 by ring. apply sqrt_0.
Qed.

Lemma dot_comm a b : dot a b = dot b a.
Proof. unfold dot. ring. Qed.

Lemma dot_scale k a b : dot (vscale k a) b = k * dot a b.
Proof. unfold dot, vscale. cbn. ring. Qed.

Lemma norm_scale k a : norm (vscale k a) = Rabs k * norm a.
Proof.
  unfold norm. replace (dot (vscale k a) (vscale k a)) with ((k * k) * dot a a)
    by (unfold dot, vscale; cbn; ring).
  rewrite sqrt_mult_alt; [|nra]. now rewrite <- (sqrt_Rsqr_abs k).
Qed.

Lemma cross_dot_l a b : dot (cross a b) a = 0.
Proof. unfold dot, cross. cbn. ring. Qed.
Lemma cross_dot_r a b : dot (cross a b) b = 0.
Proof. unfold dot, cross. cbn. ring. Qed.
