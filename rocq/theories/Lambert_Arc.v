(** Keplerian arcs: what a solution of the Lambert problem must be, and the universal variable
    solution of the two-body problem. *)
From Coq Require Import Reals Lra.
From Coquelicot Require Import Coquelicot.
From Verif Require Import Base Vec3.
Local Open Scope R_scope.

(** ** Specification *)

(** Constants of the two-body motion around a body of gravitational parameter [mu]. *)
Definition energy (mu : R) (r v : v3) : R := dot v v / 2 - mu / norm r.
Definition eccentricity (mu : R) (r v : v3) : v3 :=
  vsub (vscale (/ mu) (cross v (cross r v))) (vscale (/ norm r) r).
Definition same_conic (mu : R) (r1 v1 r2 v2 : v3) : Prop :=
  cross r1 v1 = cross r2 v2 /\ energy mu r1 v1 = energy mu r2 v2 /\
  eccentricity mu r1 v1 = eccentricity mu r2 v2.

Definition vderiv (f : R -> v3) (x : R) (d : v3) : Prop :=
  derivable_pt_lim (fun t => vx (f t)) x (vx d) /\
  derivable_pt_lim (fun t => vy (f t)) x (vy d) /\
  derivable_pt_lim (fun t => vz (f t)) x (vz d).

(** Newton's law takes [(r1, v1)] to [(r2, v2)] in a duration [t].  The motion is described by
    a parameter along which time increases: [d pos = vel d time] and
    [d vel = - mu pos / |pos|^3 d time]. *)
Definition kepler_arc (mu : R) (r1 v1 r2 v2 : v3) (t : R) : Prop :=
  exists (last : R) (time : R -> R) (pos vel : R -> v3),
    0 < last /\ time 0 = 0 /\ time last = t /\
    pos 0 = r1 /\ vel 0 = v1 /\ pos last = r2 /\ vel last = v2 /\
    forall x, exists rate, 0 < rate /\ derivable_pt_lim time x rate /\ pos x <> vzero /\
      vderiv pos x (vscale rate (vel x)) /\
      vderiv vel x (vscale (rate * (- mu / norm (pos x) ^ 3)) (pos x)).

(** ** Universal variables *)
Section Universal.
Context (mu alpha r0 sigma : R) (r v : v3) (U1 U2 U3 : R -> R).
Hypothesis Hmu : 0 < mu.
Hypothesis Hr0 : norm r = r0.
Hypothesis Hpos : 0 < r0.
Hypothesis Hrv : dot r v = sqrt mu * sigma.
Hypothesis Hvv : dot v v = mu * (2 / r0 - alpha).
Hypothesis Hh : cross r v <> vzero.
Hypothesis D1 : forall x, is_derive U1 x (1 - alpha * U2 x).
Hypothesis D2 : forall x, is_derive U2 x (U1 x).
Hypothesis D3 : forall x, is_derive U3 x (U2 x).
Hypothesis Z1 : U1 0 = 0.
Hypothesis Z2 : U2 0 = 0.
Hypothesis Z3 : U3 0 = 0.
Hypothesis Hid : forall x, U1 x * U1 x = 2 * U2 x - alpha * (U2 x * U2 x).

Definition rho (x : R) : R := r0 * (1 - alpha * U2 x) + sigma * U1 x + U2 x.
Definition time (x : R) : R := (r0 * U1 x + sigma * U2 x + U3 x) / sqrt mu.
Definition Fc (x : R) : R := 1 - U2 x / r0.
Definition Gc (x : R) : R := (r0 * U1 x + sigma * U2 x) / sqrt mu.
Definition Fd (x : R) : R := - (sqrt mu * U1 x) / (rho x * r0).
Definition Gd (x : R) : R := 1 - U2 x / rho x.
Definition pos (x : R) : v3 := vadd (vscale (Fc x) r) (vscale (Gc x) v).
Definition vel (x : R) : v3 := vadd (vscale (Fd x) r) (vscale (Gd x) v).

Lemma smu : 0 < sqrt mu. Proof. now apply sqrt_lt_R0. Qed.
Lemma smu2 : sqrt mu * sqrt mu = mu. Proof. apply sqrt_sqrt. lra. Qed.

Lemma pos_sqr x : dot (pos x) (pos x) = rho x * rho x.
Proof.
  assert (E : dot (pos x) (pos x) = Fc x * Fc x * dot r r + 2 * Fc x * Gc x * dot r v + Gc x * Gc x * dot v v).
  { unfold pos, dot, vadd, vscale. cbn. ring. }
  assert (Hrr : dot r r = r0 * r0) by (rewrite <- Hr0; symmetry; apply norm_sqr).
  rewrite E, Hrr, Hrv, Hvv. unfold Fc, Gc, rho. pose proof smu as Hs. pose proof smu2 as Hs2.
  set (m := sqrt mu) in *. rewrite <- Hs2. pose proof (Hid x) as I. set (a := U1 x) in *. set (b := U2 x) in *.
  assert (K : (1 - b / r0) * (1 - b / r0) * (r0 * r0) +
    2 * (1 - b / r0) * ((r0 * a + sigma * b) / m) * (m * sigma) +
    (r0 * a + sigma * b) / m * ((r0 * a + sigma * b) / m) * (m * m * (2 / r0 - alpha)) =
    (r0 - b) * (r0 - b) + 2 * (1 - b / r0) * (r0 * a + sigma * b) * sigma + (r0 * a + sigma * b) * (r0 * a + sigma * b) * (2 / r0 - alpha))
    by (field; lra).
  rewrite K. apply (Rmult_eq_reg_r r0); [|lra].
  replace (((r0 - b) * (r0 - b) + 2 * (1 - b / r0) * (r0 * a + sigma * b) * sigma +
    (r0 * a + sigma * b) * (r0 * a + sigma * b) * (2 / r0 - alpha)) * r0)
    with (r0 * (r0 - b) * (r0 - b) + 2 * (r0 - b) * (r0 * a + sigma * b) * sigma +
      (r0 * r0 * (a * a) + 2 * r0 * a * sigma * b + sigma * sigma * b * b) * (2 - alpha * r0)) by (field; lra).
  replace ((r0 * (1 - alpha * b) + sigma * a + b) * (r0 * (1 - alpha * b) + sigma * a + b) * r0)
    with ((r0 * (1 - alpha * b) + b) * (r0 * (1 - alpha * b) + b) * r0 + 2 * (r0 * (1 - alpha * b) + b) * sigma * a * r0 + sigma * sigma * (a * a) * r0) by ring.
  rewrite I. ring.
Qed.

Lemma momentum : 0 < 2 * r0 - alpha * r0 * r0 - sigma * sigma.
Proof.
  assert (E : dot (cross r v) (cross r v) = dot r r * dot v v - dot r v * dot r v) by (unfold dot, cross; cbn; ring).
  pose proof (dot_pos _ Hh) as P. rewrite E, Hrv, Hvv in P.
  assert (Hrr : dot r r = r0 * r0) by (rewrite <- Hr0; symmetry; apply norm_sqr). rewrite Hrr in P.
  replace (r0 * r0 * (mu * (2 / r0 - alpha)) - sqrt mu * sigma * (sqrt mu * sigma))
    with (mu * (2 * r0 - alpha * r0 * r0) - (sqrt mu * sqrt mu) * (sigma * sigma)) in P by (field; lra).
  rewrite smu2 in P. replace (mu * (2 * r0 - alpha * r0 * r0) - mu * (sigma * sigma))
    with (mu * (2 * r0 - alpha * r0 * r0 - sigma * sigma)) in P by ring.
  apply (Rmult_lt_reg_l mu); lra.
Qed.

Lemma rho_nonzero x : rho x <> 0.
Proof.
  intros E. pose proof (pos_sqr x) as P. rewrite E, Rmult_0_r in P.
  pose proof (Hid x) as I. pose proof momentum as M. unfold rho in E.
  (* the combination of r and v vanishes, hence so do its coefficients *)
  apply dot_self_zero in P. unfold pos in P.
  assert (C : cross (vadd (vscale (Fc x) r) (vscale (Gc x) v)) v = vscale (Fc x) (cross r v)).
  { unfold cross, vadd, vscale. cbn. f_equal; ring. }
  rewrite P in C.
  assert (F0 : Fc x = 0).
  { destruct (Req_dec (Fc x) 0) as [|N]; [assumption|]. exfalso. apply Hh.
    unfold cross, vscale, vzero in C |- *. cbn in C. injection C as C1 C2 C3.
    apply v3_eq; cbn; apply (Rmult_eq_reg_l (Fc x)); try exact N; lra. }
  unfold Fc in F0. assert (U : U2 x = r0) by (apply (Rmult_eq_reg_r (/ r0)); [rewrite Rinv_r; unfold Rdiv in F0; lra|apply Rinv_neq_0_compat; lra]).
  rewrite U in *.
  assert (S : sigma * U1 x = alpha * r0 * r0 - 2 * r0) by lra.
  assert (S2 : U1 x * U1 x = 2 * r0 - alpha * r0 * r0) by lra.
  assert (Q : (sigma + U1 x) * (sigma + U1 x) = sigma * sigma - (2 * r0 - alpha * r0 * r0)).
  { replace ((sigma + U1 x) * (sigma + U1 x)) with (sigma * sigma + 2 * (sigma * U1 x) + U1 x * U1 x) by ring. rewrite S, S2. ring. }
  pose proof (Rle_0_sqr (sigma + U1 x)) as N. unfold Rsqr in N. lra.
Qed.

Ltac derivs x := change (Derive (fun z => U1 z) x) with (Derive U1 x); change (Derive (fun z => U2 z) x) with (Derive U2 x);
  change (Derive (fun z => U3 z) x) with (Derive U3 x); change (Derive (fun z => rho z) x) with (Derive rho x).
Ltac known := repeat match goal with |- _ /\ _ => split end;
  match goal with
  | |- ex_derive (fun z => U1 z) _ => eexists; apply D1
  | |- ex_derive (fun z => U2 z) _ => eexists; apply D2
  | |- ex_derive (fun z => U3 z) _ => eexists; apply D3
  | |- True => exact I
  | |- _ => idtac
  end.
Lemma rho_derive x : is_derive rho x (- (alpha * r0 * U1 x) + sigma * (1 - alpha * U2 x) + U1 x).
Proof.
  unfold rho. auto_derive.
  - known.
  - derivs x; rewrite (is_derive_unique _ _ _ (D1 x)), (is_derive_unique _ _ _ (D2 x)). ring.
Qed.

Lemma rho_pos x : 0 < rho x.
Proof.
  destruct (Rtotal_order (rho x) 0) as [L|[E|G]]; [|now apply rho_nonzero in E|exact G]. exfalso.
  assert (C : continuity rho).
  { intros z. apply derivable_continuous_pt. eexists. apply is_derive_Reals. apply rho_derive. }
  assert (R0 : rho 0 = r0) by (unfold rho; rewrite Z1, Z2; ring).
  destruct (Rtotal_order x 0) as [Hx|[Hx|Hx]].
  - destruct (IVT rho x 0 C Hx L) as (z & _ & Hz); [lra|]. now apply rho_nonzero in Hz.
  - subst x. lra.
  - destruct (IVT (fun t => - rho t) 0 x) as (z & _ & Hz); [now apply continuity_opp|exact Hx|lra|lra|].
    apply (rho_nonzero z). lra.
Qed.

Lemma pos_norm x : norm (pos x) = rho x.
Proof. unfold norm. rewrite pos_sqr. apply sqrt_square. left. apply rho_pos. Qed.

Lemma combination (A B : R -> R) x a b : is_derive A x a -> is_derive B x b ->
  vderiv (fun t => vadd (vscale (A t) r) (vscale (B t) v)) x (vadd (vscale a r) (vscale b v)).
Proof.
  intros HA HB.
  assert (G : forall k l, derivable_pt_lim (fun t => A t * k + B t * l) x (a * k + b * l)).
  { intros k l. apply is_derive_Reals. apply is_derive_Reals in HA, HB. 
    apply is_derive_Reals. apply derivable_pt_lim_plus.
    - replace (a * k) with (a * k + A x * 0) by ring. apply (derivable_pt_lim_mult A (fct_cte k)); [exact HA|apply derivable_pt_lim_const].
    - replace (b * l) with (b * l + B x * 0) by ring. apply (derivable_pt_lim_mult B (fct_cte l)); [exact HB|apply derivable_pt_lim_const]. }
  split; [|split]; cbn; apply G.
Qed.

Lemma Fc_derive x : is_derive Fc x (rho x / sqrt mu * Fd x).
Proof.
  pose proof (rho_pos x). pose proof smu. unfold Fc, Fd. auto_derive; [known|].
  derivs x; rewrite (is_derive_unique _ _ _ (D2 x)). field. lra.
Qed.
Lemma Gc_derive x : is_derive Gc x (rho x / sqrt mu * Gd x).
Proof.
  pose proof (rho_pos x). pose proof smu. unfold Gc, Gd. auto_derive.
  - known.
  - derivs x; rewrite (is_derive_unique _ _ _ (D2 x)), (is_derive_unique _ _ _ (D1 x)).
    replace (rho x / sqrt mu * (1 - U2 x / rho x)) with ((rho x - U2 x) / sqrt mu) by (field; lra).
    unfold rho. field. lra.
Qed.
Lemma Fd_derive x : is_derive Fd x (- sqrt mu / (rho x * rho x) * Fc x).
Proof.
  pose proof (rho_pos x). pose proof smu. unfold Fd, Fc. auto_derive.
  - known; [eexists; apply rho_derive|]. apply Rmult_integral_contrapositive_currified; lra.
  - derivs x; rewrite (is_derive_unique _ _ _ (D1 x)), (is_derive_unique _ _ _ (rho_derive x)).
    assert (K : (1 - alpha * U2 x) * rho x - U1 x * (- (alpha * r0 * U1 x) + sigma * (1 - alpha * U2 x) + U1 x) = r0 - U2 x).
    { unfold rho. pose proof (Hid x) as I.
      replace ((1 - alpha * U2 x) * (r0 * (1 - alpha * U2 x) + sigma * U1 x + U2 x) -
        U1 x * (- (alpha * r0 * U1 x) + sigma * (1 - alpha * U2 x) + U1 x))
        with ((1 - alpha * U2 x) * (r0 * (1 - alpha * U2 x) + U2 x) + (alpha * r0 - 1) * (U1 x * U1 x)) by ring.
      rewrite I. ring. }
    replace (1 - U2 x / r0) with ((r0 - U2 x) / r0) by (field; lra). rewrite <- K. field. lra.
Qed.
Lemma Gd_derive x : is_derive Gd x (- sqrt mu / (rho x * rho x) * Gc x).
Proof.
  pose proof (rho_pos x). pose proof smu. unfold Gd, Gc. auto_derive.
  - known; [eexists; apply rho_derive|lra].
  - derivs x; rewrite (is_derive_unique _ _ _ (D2 x)), (is_derive_unique _ _ _ (rho_derive x)).
    assert (K : U1 x * rho x - U2 x * (- (alpha * r0 * U1 x) + sigma * (1 - alpha * U2 x) + U1 x) = r0 * U1 x + sigma * U2 x).
    { unfold rho. pose proof (Hid x) as I.
      replace (U1 x * (r0 * (1 - alpha * U2 x) + sigma * U1 x + U2 x) - U2 x * (- (alpha * r0 * U1 x) + sigma * (1 - alpha * U2 x) + U1 x))
        with (r0 * U1 x - sigma * U2 x + sigma * alpha * (U2 x * U2 x) + sigma * (U1 x * U1 x)) by ring.
      rewrite I. ring. }
    rewrite <- K. field. lra.
Qed.

Lemma vscale_add k a b : vscale k (vadd a b) = vadd (vscale k a) (vscale k b).
Proof. apply v3_eq; cbn; ring. Qed.
Lemma vscale_scale k l a : vscale k (vscale l a) = vscale (k * l) a.
Proof. apply v3_eq; cbn; ring. Qed.

Lemma universal_arc last : 0 < last -> kepler_arc mu r v (pos last) (vel last) (time last).
Proof.
  intros Hl. exists last, time, pos, vel. split; [exact Hl|].
  pose proof smu as Hs. pose proof (rho_pos 0) as P0.
  split; [unfold time; rewrite Z1, Z2, Z3; field; lra|]. split; [reflexivity|].
  split; [unfold pos, Fc, Gc; rewrite Z1, Z2; apply v3_eq; cbn; field; lra|].
  split; [unfold vel, Fd, Gd; rewrite Z1, Z2; apply v3_eq; cbn; field; lra|].
  split; [reflexivity|]. split; [reflexivity|].
  intros x. pose proof (rho_pos x) as P. exists (rho x / sqrt mu). split; [now apply Rdiv_lt_0_compat|].
  split; [|split; [|split]].
  - apply is_derive_Reals. unfold time. auto_derive.
    + known.
    + derivs x; rewrite (is_derive_unique _ _ _ (D2 x)), (is_derive_unique _ _ _ (D1 x)), (is_derive_unique _ _ _ (D3 x)).
      unfold rho. field. lra.
  - intros E. assert (N : norm (pos x) = 0) by (rewrite E; apply norm_zero_iff; reflexivity). rewrite pos_norm in N. lra.
  - unfold vel. rewrite vscale_add, !vscale_scale. apply combination; [apply Fc_derive|apply Gc_derive].
  - rewrite pos_norm. unfold pos at 1. rewrite vscale_add, !vscale_scale.
    replace (rho x / sqrt mu * (- mu / rho x ^ 3) * Fc x) with (- sqrt mu / (rho x * rho x) * Fc x).
    2:{ replace (- mu) with (- (sqrt mu * sqrt mu)) by (rewrite smu2; reflexivity). field. lra. }
    replace (rho x / sqrt mu * (- mu / rho x ^ 3) * Gc x) with (- sqrt mu / (rho x * rho x) * Gc x).
    2:{ replace (- mu) with (- (sqrt mu * sqrt mu)) by (rewrite smu2; reflexivity). field. lra. }
    apply combination; [apply Fd_derive|apply Gd_derive].
Qed.
End Universal.
