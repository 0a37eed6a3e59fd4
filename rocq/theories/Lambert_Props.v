(** C51: solutions of the Lambert problem by the method of Gooding. *)
From Coq Require Import Reals Lra Lia ZArith.
From Verif Require Import Base Vec3 Angles Sc_Model Lambert_Model Lambert_Arc Lambert_Proofs.
From Verif Require Prop_Model.
Local Open Scope R_scope.

Definition departure (i : lambert_input) : v3 := radius_km (initial_state i).
Definition arrival (i : lambert_input) : v3 := radius_km (final_state i).
Definition mu_at (mu_of : nat -> R) (i : lambert_input) : R := mu_of (frame (initial_state i)).
(** Seconds between both states. *)
Definition flight (i : lambert_input) : R :=
  IZR (epoch (final_state i) - epoch (initial_state i))%Z / 1000000000.

(** A problem that has a meaning: an attracting body at none of the positions. *)
Definition posed (mu_of : nat -> R) (i : lambert_input) : Prop :=
  0 < mu_at mu_of i /\ departure i <> vzero /\ arrival i <> vzero.

Lemma cauchy p q : - (norm p * norm q) <= dot p q <= norm p * norm q.
Proof.
  assert (E : dot p q * dot p q = dot p p * dot q q - dot (cross p q) (cross p q)) by (unfold dot, cross; cbn; ring).
  pose proof (dot_self_nonneg (cross p q)) as N.
  pose proof (norm_nonneg p) as A. pose proof (norm_nonneg q) as B.
  assert (C : 0 <= norm p * norm q) by now apply Rmult_le_pos.
  assert (Q : (norm p * norm q) * (norm p * norm q) = dot p p * dot q q) by (rewrite <- (norm_sqr p), <- (norm_sqr q); ring).
  split; nra.
Qed.

Lemma a_sqr dm p q : dm = 1 \/ dm = -1 -> 0 < norm p -> 0 < norm q ->
  a_of dm p q * a_of dm p q = norm p * norm q + dot p q.
Proof.
  intros Hd Hp Hq. unfold a_of, cos_dnu.
  assert (E : norm p * norm q * (1 + dot p q / (norm p * norm q)) = norm p * norm q + dot p q) by (field; lra).
  rewrite E. pose proof (cauchy p q). replace (dm * sqrt (norm p * norm q + dot p q) * (dm * sqrt (norm p * norm q + dot p q)))
    with (dm * dm * (sqrt (norm p * norm q + dot p q) * sqrt (norm p * norm q + dot p q))) by ring.
  rewrite sqrt_sqrt by lra. destruct Hd as [-> | ->]; ring.
Qed.

Lemma direction_unit kind p q dm : direction_of_motion kind q p = Ok dm -> dm = 1 \/ dm = -1.
Proof.
  destruct kind; cbn; [|intros H; left; congruence|intros H; right; congruence|discriminate].
  match goal with |- context [Rlt_dec PI ?x] => destruct (Rlt_dec PI x) end; intros H; [right|left]; congruence.
Qed.

(** What a solution comes from. *)
Lemma gooding_ok mu_of i kind sol : posed mu_of i -> gooding mu_of i kind = Ok sol ->
  let p := departure i in let q := arrival i in let mu := mu_at mu_of i in
  exists dm a s, direction_of_motion kind q p = Ok dm /\ a = a_of dm p q /\
    a * a = norm p * norm q + dot p q /\ a * a <= 2 * norm p * norm q /\
    Rabs (cur_tof s - flight i) <= LAMBERT_EPSILON_TIME /\
    (s = gooding_start \/ exists sp, reached (norm p) (norm q) a mu (flight i) sp /\
       pass (norm p) (norm q) a mu (flight i) sp = Ok (Some s)) /\
    velocities sol = gooding_velocities p q a mu (y s) /\ phi_rad sol = phi s /\ input sol = i.
Proof.
  intros (Hm & Hp & Hq) H p q mu. apply norm_pos in Hp, Hq. unfold gooding in H. fold (departure i) (arrival i) (mu_at mu_of i) in H.
  change (Prop_Model.to_secs (epoch (final_state i) - epoch (initial_state i))) with (flight i) in H.
  apply bind_ok in H as (dm & Hd & H). set (a := a_of dm (departure i) (arrival i)) in *.
  pose proof (direction_unit _ _ _ _ Hd) as Hu. pose proof (a_sqr dm _ _ Hu Hp Hq) as Ha. fold a in Ha.
  pose proof (cauchy (departure i) (arrival i)) as Hc. cbn zeta in H.
  match type of H with (if ?b then _ else _) = _ => destruct b end; [discriminate|].
  apply bind_ok in H as (o & Hs & H).
  pose proof (search_spec (norm p) (norm q) a mu (flight i) Hp Hq ltac:(unfold p, q; lra) (S MAX_ITERATIONS) gooding_start
    (reached_start _ _ _ _ _)) as S. unfold p, q, mu in S. rewrite Hs in S.
  destruct o as [s|]; [|destruct S]. destruct S as [S1 S2].
  exists dm, a, s. split; [exact Hd|]. split; [reflexivity|]. split; [exact Ha|]. split; [unfold p, q; lra|].
  split; [exact S1|]. split; [exact S2|].
  match type of H with Ok ?x = _ => assert (E : sol = x) by congruence end. subst sol. cbn. auto.
Qed.

Lemma velocities_some p q a mu y v1 v2 : 0 < mu -> gooding_velocities p q a mu y = Some (v1, v2) ->
  0 < y /\ a <> 0 /\ v1 = v_init p q a mu y /\ v2 = v_final p q a mu y.
Proof.
  intros Hm H. unfold gooding_velocities in H. destruct (Req_EM_T (a * sqrt (y / mu)) 0) as [|N]; [discriminate|].
  split; [|split; [|split]].
  - apply Rnot_le_lt. intros L. apply N. rewrite sqrt_neg_0; [ring|].
    apply (Rmult_le_reg_r mu); [lra|]. unfold Rdiv. rewrite Rmult_assoc, Rinv_l; lra.
  - intros ->. apply N. ring.
  - unfold v_init. congruence.
  - unfold v_final. congruence.
Qed.

(** C51: both ends of the solution are on one conic: same angular momentum, energy and
    eccentricity vector. *)
Theorem C51_same_conic : forall mu_of i kind sol v1 v2,
  posed mu_of i -> gooding mu_of i kind = Ok sol -> velocities sol = Some (v1, v2) ->
  same_conic (mu_at mu_of i) (departure i) v1 (arrival i) v2.
Proof.
  intros mu_of i kind sol v1 v2 P H V. destruct (gooding_ok _ _ _ _ P H) as (dm & a & s & _ & _ & Ha & _ & _ & _ & E & _).
  destruct P as (Hm & Hp & Hq). apply norm_pos in Hp, Hq. rewrite E in V.
  apply velocities_some in V as (Hy & Hn & -> & ->); [|exact Hm]. apply conic; assumption.
Qed.

(** C51: Newton's law takes the departure to the arrival in the time the search has converged
    to, within a tenth of a millisecond of the requested one.  Partial: for the passes whose
    phi is neither replaced because of a negative y (never the long way) nor so small that the
    coefficients are those of a parabola without the arc being one. *)
Theorem C51_time_of_flight_partial : forall mu_of i kind sol v1 v2,
  posed mu_of i -> gooding mu_of i kind = Ok sol -> velocities sol = Some (v1, v2) ->
  cross (departure i) (arrival i) <> vzero ->
  exists dm a s s', direction_of_motion kind (arrival i) (departure i) = Ok dm /\
    a = a_of dm (departure i) (arrival i) /\
    let r1 := norm (departure i) in let r2 := norm (arrival i) in let mu := mu_at mu_of i in
    reached r1 r2 a mu (flight i) s /\ pass r1 r2 a mu (flight i) s = Ok (Some s') /\
    Rabs (cur_tof s' - flight i) <= 1 / 10000 /\
    (phi s = 0 \/ 1 / 10000 < Rabs (phi s) -> dm = -1 \/ 0 <= y_of r1 r2 a (phi s) (c2 s) (c3 s) ->
     kepler_arc mu (departure i) v1 (arrival i) v2 (cur_tof s')).
Proof.
  intros mu_of i kind sol v1 v2 P H V Hc.
  destruct (gooding_ok _ _ _ _ P H) as (dm & a & s' & Hd & Ea & Ha & Ha2 & Ht & [->|(s & R & Hs)] & E & _).
  { exfalso. rewrite E in V. apply velocities_some in V as [Hy _]; [|apply P]. cbn in Hy. lra. }
  destruct P as (Hm & Hp & Hq). apply norm_pos in Hp, Hq. rewrite E in V.
  apply velocities_some in V as (Hy & Hn & -> & ->); [|exact Hm].
  exists dm, a, s, s'. split; [exact Hd|]. split; [exact Ea|]. cbn zeta. split; [exact R|]. split; [exact Hs|].
  split; [exact Ht|]. intros Hphi Hok.
  pose proof (reached_inv _ _ _ _ _ Hp Hq Ha2 s R) as I.
  destruct (pass_spec _ _ _ (mu_at mu_of i) (flight i) Hp Hq Ha2 s I)
    as (x & p1 & Ex & _ & Y & _ & C2 & T & K1 & K2 & _).
  assert (x = s') as -> by congruence.
  destruct I as (_ & _ & _ & I). rewrite T.
  assert (p1 = phi s) as ->.
  { destruct Hok as [Hok|Hok].
    - apply K2. right. rewrite Ea, Hok. unfold a_of. pose proof (sqrt_pos (norm (departure i) * norm (arrival i) * (1 + cos_dnu (departure i) (arrival i)))). lra.
    - apply K1. rewrite <- I. exact Hok. }
  unfold y_of in Y. unfold stumpff in I. fold LAMBERT_EPSILON in Hphi. pose proof eps_small as Es.
  destruct (Rlt_dec LAMBERT_EPSILON (phi s)) as [L|L].
  - injection I as I2 I3. rewrite I2, I3 in *. apply elliptic; try assumption. lra.
  - destruct (Rlt_dec (phi s) (- LAMBERT_EPSILON)) as [N|N].
    + injection I as I2 I3. rewrite I2, I3 in *. apply hyperbolic; try assumption. lra.
    + injection I as I2 I3. rewrite I2, I3 in *. assert (Z : phi s = 0).
      { destruct Hphi as [Z|Z]; [exact Z|]. revert Z. unfold Rabs. destruct (Rcase_abs (phi s)); lra. }
      rewrite Z in Y. apply parabolic; assumption.
Qed.

(** C51: the search ends after at most 1001 passes.  Its only outcomes are a solution or one of
    three errors: the error of a phi that is not reasonable never is. *)
Theorem C51_outcomes : forall mu_of i kind, posed mu_of i ->
  match gooding mu_of i kind with
  | Ok _ => True
  | Err e => (e = MultiRevNotSupported /\ exists n, kind = NRevs n) \/ e = TargetsTooClose \/ e = SolverMaxIter
  | _ => False
  end.
Proof.
  intros mu_of i kind (Hm & Hp & Hq). apply norm_pos in Hp, Hq. unfold gooding.
  fold (departure i) (arrival i) (mu_at mu_of i).
  change (Prop_Model.to_secs (epoch (final_state i) - epoch (initial_state i))) with (flight i).
  destruct (direction_of_motion kind (arrival i) (departure i)) as [dm|e| |] eqn:Hd; cbn [bind].
  - pose proof (direction_unit _ _ _ _ Hd) as Hu. pose proof (a_sqr dm _ _ Hu Hp Hq) as Ha.
    pose proof (cauchy (departure i) (arrival i)) as Hc. cbn zeta.
    match goal with |- context [if ?b then _ else _] => destruct b end; [auto|].
    pose proof (search_spec _ _ (a_of dm (departure i) (arrival i)) (mu_at mu_of i) (flight i) Hp Hq ltac:(lra) (S MAX_ITERATIONS) gooding_start
      (reached_start _ _ _ _ _)) as S.
    destruct (search _ _ _ _ _ _ _) as [o|e| |]; cbn [bind]; auto.
  - destruct kind; cbn in Hd; try discriminate Hd.
    + revert Hd. match goal with |- context [Rlt_dec PI ?x] => destruct (Rlt_dec PI x) end; discriminate.
    + left. split; [congruence|eauto].
  - destruct kind; cbn in Hd; try discriminate Hd.
    revert Hd. match goal with |- context [Rlt_dec PI ?x] => destruct (Rlt_dec PI x) end; discriminate.
  - destruct kind; cbn in Hd; try discriminate Hd.
    revert Hd. match goal with |- context [Rlt_dec PI ?x] => destruct (Rlt_dec PI x) end; discriminate.
Qed.

(** C51: the velocities are finite unless the positions are opposite or the time of flight is
    below the tolerance. *)
Theorem C51_finite : forall mu_of i kind sol,
  posed mu_of i -> gooding mu_of i kind = Ok sol -> 1 / 10000 < Rabs (flight i) ->
  dot (departure i) (arrival i) <> - (norm (departure i) * norm (arrival i)) ->
  exists v1 v2, velocities sol = Some (v1, v2).
Proof.
  intros mu_of i kind sol P H Ht Ho.
  destruct (gooding_ok _ _ _ _ P H) as (dm & a & s & Hd & Ea & Ha & Ha2 & Hc & Hs & E & _).
  rewrite E. unfold gooding_velocities. destruct (Req_EM_T _ 0) as [Z|]; [|eauto]. exfalso.
  destruct P as (Hm & Hp & Hq). apply norm_pos in Hp, Hq.
  unfold LAMBERT_EPSILON_TIME in Hc.
  destruct Hs as [->|(sp & R & Hs)].
  { cbn [gooding_start cur_tof] in Hc. rewrite <- Rabs_Ropp in Hc. replace (- (0 - flight i)) with (flight i) in Hc by ring. lra. }
  pose proof (reached_inv _ _ _ _ _ Hp Hq Ha2 sp R) as I.
  destruct (pass_spec _ _ _ (mu_at mu_of i) (flight i) Hp Hq Ha2 sp I)
    as (x & p1 & Ex & _ & _ & Py & C2 & T & _). assert (x = s) as -> by congruence.
  apply Rmult_integral in Z as [Z|Z].
  - rewrite Z in Ha. lra.
  - assert (Y0 : y s = 0).
    { destruct Py as [Py|Py]; [|congruence]. exfalso.
      assert (0 < sqrt (y s / mu_at mu_of i)) by (apply sqrt_lt_R0; now apply Rdiv_lt_0_compat). lra. }
    rewrite Y0 in T. unfold Rdiv at 2 in T. rewrite Rmult_0_l, sqrt_0 in T.
    replace ((0 ^ 3 * c3 sp + a * 0) / sqrt (mu_at mu_of i)) with 0 in T by (unfold Rdiv; ring). rewrite T in Hc.
    rewrite <- Rabs_Ropp in Hc. replace (- (0 - flight i)) with (flight i) in Hc by ring. lra.
Qed.

(** C51: the short way turns by less than half a revolution (from departure towards arrival),
    the long way by more, and the automatic choice never goes against the rotation about
    the z axis. *)
Theorem C51_direction : forall mu_of i kind sol v1 v2,
  posed mu_of i -> gooding mu_of i kind = Ok sol -> velocities sol = Some (v1, v2) ->
  (kind = ShortWay -> exists k, 0 < k /\ cross (departure i) v1 = vscale k (cross (departure i) (arrival i))) /\
  (kind = LongWay -> exists k, k < 0 /\ cross (departure i) v1 = vscale k (cross (departure i) (arrival i))) /\
  (kind = Auto -> 0 <= vz (cross (departure i) v1)).
Proof.
  intros mu_of i kind sol v1 v2 P H V.
  destruct (gooding_ok _ _ _ _ P H) as (dm & a & s & Hd & Ea & Ha & _ & _ & _ & E & _).
  destruct P as (Hm & Hp & Hq). rewrite E in V.
  apply velocities_some in V as (Hy & Hn & -> & ->); [|exact Hm]. rewrite h_init.
  pose proof (root (mu_at mu_of i) (y s) Hm Hy) as Hr.
  assert (Sg : (dm = 1 -> 0 < / (a * sqrt (y s / mu_at mu_of i))) /\ (dm = -1 -> / (a * sqrt (y s / mu_at mu_of i)) < 0)).
  { pose proof (sqrt_pos (norm (departure i) * norm (arrival i) * (1 + cos_dnu (departure i) (arrival i)))) as Sp.
    unfold a_of in Ea. split; intros ->.
    - apply Rinv_0_lt_compat. apply Rmult_lt_0_compat; [|exact Hr]. lra.
    - apply Rinv_lt_0_compat. assert (0 < - a) by lra. assert (0 < - a * sqrt (y s / mu_at mu_of i)) by now apply Rmult_lt_0_compat. lra. }
  split; [|split]; intros ->.
  - exists (/ (a * sqrt (y s / mu_at mu_of i))). split; [|reflexivity]. apply Sg. cbn in Hd. congruence.
  - exists (/ (a * sqrt (y s / mu_at mu_of i))). split; [|reflexivity]. apply Sg. cbn in Hd. congruence.
  - cbn [vscale vz]. set (k := / (a * sqrt (y s / mu_at mu_of i))) in *.
    set (p := departure i) in *. set (q := arrival i) in *.
    assert (Cz : vz (cross p q) = vx p * vy q - vy p * vx q) by (unfold cross; cbn; ring).
    destruct (Req_dec (vz (cross p q)) 0) as [Z|NZ]; [rewrite Z; lra|].
    assert (Np : vx p <> 0 \/ vy p <> 0).
    { destruct (Req_dec (vx p) 0) as [A|A]; [|now left]. right. intros B. apply NZ. rewrite Cz, A, B. ring. }
    assert (Nq : vx q <> 0 \/ vy q <> 0).
    { destruct (Req_dec (vx q) 0) as [A|A]; [|now left]. right. intros B. apply NZ. rewrite Cz, A, B. ring. }
    destruct (atan2_spec (vy p) (vx p) Np) as [Px Py]. destruct (atan2_spec (vy q) (vx q) Nq) as [Qx Qy].
    set (tp := atan2 (vy p) (vx p)) in *. set (tq := atan2 (vy q) (vx q)) in *.
    set (rp := sqrt (vx p * vx p + vy p * vy p)) in *. set (rq := sqrt (vx q * vx q + vy q * vy q)) in *.
    assert (Sz : vz (cross p q) = rp * rq * sin (tq - tp)).
    { rewrite Cz, <- Px, <- Py, <- Qx, <- Qy, sin_minus. ring. }
    assert (Rp : 0 <= rp) by apply sqrt_pos. assert (Rq : 0 <= rq) by apply sqrt_pos.
    assert (Rr : 0 <= rp * rq) by now apply Rmult_le_pos.
    pose proof (atan2_bounds (vy p) (vx p)) as Bp. pose proof (atan2_bounds (vy q) (vx q)) as Bq.
    fold tp in Bp. fold tq in Bq. cbn [direction_of_motion] in Hd. fold tp tq in Hd. cbn zeta in Hd. rewrite Sz.
    set (d := if Rlt_dec (tq - tp) 0 then tq - tp + 2 * PI else tq - tp) in *.
    assert (D : sin (tq - tp) = sin d /\ 0 <= d < 2 * PI).
    { unfold d. destruct (Rlt_dec (tq - tp) 0); [|lra]. split; [|lra]. rewrite <- (sin_period (tq - tp) 1). f_equal. cbn [INR]. ring. }
    destruct D as [-> D]. destruct (Rlt_dec PI d) as [L|L].
    + assert (k < 0) by (apply Sg; congruence). assert (sin d < 0) by (apply sin_lt_0; lra). replace (k * (rp * rq * sin d)) with ((- k) * (rp * rq) * (- sin d)) by ring. apply Rmult_le_pos; [apply Rmult_le_pos|]; lra.
    + assert (0 < k) by (apply Sg; congruence). assert (0 <= sin d) by (apply sin_ge_0; lra).
      apply Rmult_le_pos; [lra|]. now apply Rmult_le_pos.
Qed.

(** ** Cases *)
Definition on_path (t : Z) (r : v3) : orbit := {| epoch := t; frame := 0; radius_km := r; velocity_km_s := vzero |}.
Definition between (t : Z) (r1 r2 : v3) : lambert_input :=
  {| initial_state := on_path 0 r1; final_state := on_path t r2 |}.

Lemma search_done r1 r2 a mu tof n s : Rabs (cur_tof s - tof) <= LAMBERT_EPSILON_TIME ->
  search r1 r2 a mu tof n s = Ok (Some s).
Proof. intros H. destruct n; cbn [search]; destruct (Rlt_dec _ _); try reflexivity; lra. Qed.

Lemma norm_of r p : 0 <= r -> dot p p = r * r -> norm p = r.
Proof. intros H E. unfold norm. rewrite E. now apply sqrt_square. Qed.

(** The short way by 73.7 degrees around a body of one fifth of a cubic kilometre per second squared. *)
Definition parabola : lambert_input := between 1866666667 (V3 1 0 0) (V3 (7 / 25) (24 / 25) 0).
Definition parabola_mu (f : nat) : R := 1 / 5.
Definition parabola_a : R := a_of 1 (V3 1 0 0) (V3 (7 / 25) (24 / 25) 0).

Example parabola_posed : posed parabola_mu parabola.
Proof.
  repeat split; [unfold mu_at, parabola_mu; lra|..]; cbn; unfold vzero; intros E; injection E; intros; lra.
Qed.

Lemma parabola_r1 : norm (departure parabola) = 1.
Proof. apply norm_of; [lra|]. unfold dot. cbn. ring. Qed.
Lemma parabola_r2 : norm (arrival parabola) = 1.
Proof. apply norm_of; [lra|]. unfold dot. cbn. field. Qed.
Lemma parabola_dot : dot (departure parabola) (arrival parabola) = 7 / 25.
Proof. unfold dot. cbn. ring. Qed.

Lemma parabola_a_val : parabola_a = 8 / 5 * sqrt (1 / 2) /\ 0 < sqrt (1 / 2) /\ sqrt (1 / 2) * sqrt (1 / 2) = 1 / 2.
Proof.
  assert (K : 0 < sqrt (1 / 2)) by (apply sqrt_lt_R0; lra).
  assert (K2 : sqrt (1 / 2) * sqrt (1 / 2) = 1 / 2) by (apply sqrt_sqrt; lra). split; [|auto].
  unfold parabola_a, a_of, cos_dnu. change (V3 1 0 0) with (departure parabola). change (V3 (7 / 25) (24 / 25) 0) with (arrival parabola).
  rewrite parabola_r1, parabola_r2, parabola_dot. rewrite Rmult_1_l.
  apply sqrt_lem_1; [lra|lra|]. nra.
Qed.

Lemma parabola_pass : exists s, pass 1 1 parabola_a (1 / 5) (flight parabola) gooding_start = Ok (Some s) /\
  cur_tof s = 28 / 15 /\ y s = 2 / 5 /\ phi s = 2 * PI ^ 2.
Proof.
  destruct parabola_a_val as (Ea & K & K2).
  destruct (pass_spec 1 1 parabola_a (1 / 5) (flight parabola) ltac:(lra) ltac:(lra) ltac:(rewrite Ea; nra) gooding_start inv_start)
    as (s & p1 & E & _ & Y & _ & _ & T & _ & P & _ & Ph & B).
  exists s. split; [exact E|]. assert (p1 = 0) as -> by (apply P; left; cbn; lra).
  assert (Y1 : y s = 2 / 5).
  { rewrite Y. unfold y_of. cbn [gooding_start c2 c3]. rewrite Ea. field. lra. }
  assert (Q : 0 < sqrt (1 / 5)) by (apply sqrt_lt_R0; lra).
  assert (Q2 : sqrt (1 / 5) * sqrt (1 / 5) = 1 / 5) by (apply sqrt_sqrt; lra).
  assert (T1 : cur_tof s = 28 / 15).
  { rewrite T, Y1. cbn [gooding_start c2 c3].
    assert (E1 : sqrt (2 / 5 / (1 / 2)) = 2 * sqrt (1 / 5)) by (apply sqrt_lem_1; [lra|lra|nra]).
    assert (E2 : parabola_a * sqrt (2 / 5) = 8 / 5 * sqrt (1 / 5)).
    { rewrite Ea, Rmult_assoc. f_equal. rewrite <- sqrt_mult_alt by lra. f_equal. field. }
    rewrite E1, E2. replace ((2 * sqrt (1 / 5)) ^ 3) with (8 * (sqrt (1 / 5) * sqrt (1 / 5)) * sqrt (1 / 5)) by ring.
    rewrite Q2. field. lra. }
  split; [exact T1|]. split; [exact Y1|].
  rewrite Ph. destruct B as [(L & _ & U)|(_ & B & _)].
  - rewrite L, U. cbn [gooding_start phi_upper]. field.
  - exfalso. revert B. rewrite T1. unfold flight. cbn. lra.
Qed.

Lemma parabola_solved : exists sol, gooding parabola_mu parabola ShortWay = Ok sol /\
  phi_rad sol = 2 * PI ^ 2 /\
  velocities sol = Some (v_init (departure parabola) (arrival parabola) parabola_a (1 / 5) (2 / 5),
                         v_final (departure parabola) (arrival parabola) parabola_a (1 / 5) (2 / 5)).
Proof.
  destruct parabola_pass as (s & E & T & Y & Ph). destruct parabola_a_val as (Ea & K & K2).
  unfold gooding. cbn [direction_of_motion bind]. fold (departure parabola) (arrival parabola).
  change (Prop_Model.to_secs (epoch (final_state parabola) - epoch (initial_state parabola))) with (flight parabola).
  change (a_of 1 (departure parabola) (arrival parabola)) with parabola_a.
  change (parabola_mu (frame (initial_state parabola))) with (1 / 5). rewrite parabola_r1, parabola_r2.
  assert (L : sqrt (1 / 2) > 1 / 2) by nra.
  assert (B : (if Rlt_dec (Rabs parabola_a) LAMBERT_EPSILON then true else false) = false).
  { destruct (Rlt_dec _ _) as [A|A]; [|reflexivity]. exfalso. rewrite Rabs_right in A by lra. unfold LAMBERT_EPSILON in A. lra. }
  rewrite B, Bool.andb_false_r. cbn [search].
  assert (F : flight parabola = 1866666667 / 1000000000) by (unfold flight; cbn; lra).
  destruct (Rlt_dec LAMBERT_EPSILON_TIME (Rabs (cur_tof gooding_start - flight parabola))) as [_|N].
  2:{ exfalso. apply N. cbn [gooding_start cur_tof]. rewrite F. unfold LAMBERT_EPSILON_TIME. rewrite Rabs_left; lra. }
  rewrite E. cbn [bind]. rewrite search_done.
  2:{ rewrite T, F. unfold LAMBERT_EPSILON_TIME. rewrite Rabs_left; lra. }
  cbn [bind]. eexists. split; [reflexivity|]. cbn [phi_rad velocities]. split; [exact Ph|].
  rewrite Y. unfold gooding_velocities. destruct (Req_EM_T _ 0) as [Z|_]; [|reflexivity].
  exfalso. assert (0 < sqrt (2 / 5 / (1 / 5))) by (apply sqrt_lt_R0; lra). apply Rmult_integral in Z as [Z|Z]; lra.
Qed.

(** The hypotheses of the time of flight hold of the last pass of that case. *)
Example parabola_exact : exists v1 v2 sol, gooding parabola_mu parabola ShortWay = Ok sol /\
  velocities sol = Some (v1, v2) /\
  cross (departure parabola) (arrival parabola) <> vzero /\
  kepler_arc (1 / 5) (departure parabola) v1 (arrival parabola) v2 (28 / 15).
Proof.
  destruct parabola_solved as (sol & E & _ & V). destruct parabola_a_val as (Ea & K & K2).
  assert (C : cross (departure parabola) (arrival parabola) <> vzero).
  { unfold cross, vzero. cbn. intros A. injection A. intros. lra. }
  do 3 eexists. split; [exact E|]. split; [exact V|]. split; [exact C|].
  assert (A2 : parabola_a * parabola_a = norm (departure parabola) * norm (arrival parabola) + dot (departure parabola) (arrival parabola)).
  { rewrite parabola_r1, parabola_r2, parabola_dot, Ea. nra. }
  assert (Yp : 2 / 5 = norm (departure parabola) + norm (arrival parabola) + parabola_a * (0 * (1 / 6) - 1) / sqrt (1 / 2)).
  { rewrite parabola_r1, parabola_r2, Ea. field. lra. }
  pose proof (parabolic (departure parabola) (arrival parabola) parabola_a (1 / 5) (2 / 5)
    ltac:(lra) ltac:(rewrite parabola_r1; lra) ltac:(rewrite parabola_r2; lra) A2 ltac:(lra) ltac:(lra) C Yp) as P.
  destruct parabola_pass as (s & Es & T & Y & _).
  destruct (pass_spec 1 1 parabola_a (1 / 5) (flight parabola) ltac:(lra) ltac:(lra) ltac:(rewrite Ea; nra) gooding_start inv_start)
    as (s0 & p1 & E0 & _ & _ & _ & _ & T0 & _). assert (s0 = s) as -> by congruence.
  rewrite <- T, T0, Y. exact P.
Qed.

(** C51: the solution documents its phi as the turn angle.  It is not: neither the one of the
    arc, nor the square of a difference in anomalies, as the value is that of the next pass.
    Here the arc is a parabola with a turn of 73.7 degrees and phi more than a revolution. *)
Theorem C51_phi_refuted : exists mu_of i sol v1 v2,
  posed mu_of i /\ gooding mu_of i ShortWay = Ok sol /\ velocities sol = Some (v1, v2) /\
  energy (mu_at mu_of i) (departure i) v1 = 0 /\ 2 * PI < phi_rad sol.
Proof.
  destruct parabola_solved as (sol & E & Ph & V). destruct parabola_a_val as (Ea & K & K2).
  exists parabola_mu, parabola, sol. do 2 eexists. split; [exact parabola_posed|]. split; [exact E|]. split; [exact V|].
  split; [|rewrite Ph; pose proof PI_bounds; nra].
  assert (A2 : parabola_a * parabola_a = norm (departure parabola) * norm (arrival parabola) + dot (departure parabola) (arrival parabola)).
  { rewrite parabola_r1, parabola_r2, parabola_dot, Ea. nra. }
  change (mu_at parabola_mu parabola) with (1 / 5). unfold energy.
  rewrite (v_init_sqr (departure parabola) (arrival parabola) parabola_a (1 / 5) (2 / 5)
    ltac:(lra) ltac:(rewrite parabola_r1; lra) A2 ltac:(lra) ltac:(lra)).
  rewrite A2, parabola_r1, parabola_r2, parabola_dot. field.
Qed.

(** C51: a time of flight below the tolerance ends the search before its first pass and the
    velocities are those of a division by zero. *)
Theorem C51_no_time_refuted : exists mu_of i sol,
  posed mu_of i /\ cross (departure i) (arrival i) <> vzero /\
  gooding mu_of i ShortWay = Ok sol /\ velocities sol = None.
Proof.
  exists parabola_mu, (between 0 (V3 1 0 0) (V3 0 1 0)). eexists.
  split. { repeat split; [unfold mu_at, parabola_mu; lra|..]; cbn; unfold vzero; intros E; injection E; intros; lra. }
  split. { unfold cross, vzero. cbn. intros E. injection E. intros. lra. }
  unfold gooding. cbn [direction_of_motion bind between initial_state final_state on_path radius_km epoch frame].
  assert (N1 : norm (V3 1 0 0) = 1) by (apply norm_of; [lra|unfold dot; cbn; ring]).
  assert (N2 : norm (V3 0 1 0) = 1) by (apply norm_of; [lra|unfold dot; cbn; ring]).
  assert (A : a_of 1 (V3 1 0 0) (V3 0 1 0) = 1).
  { unfold a_of, cos_dnu. rewrite N1, N2. unfold dot. cbn [vx vy vz].
    replace (1 * 1 * (1 + (1 * 0 + 0 * 1 + 0 * 0) / (1 * 1))) with 1 by field. rewrite sqrt_1. ring. }
  rewrite A. destruct (Rlt_dec (Rabs 1) LAMBERT_EPSILON) as [L|L].
  { exfalso. rewrite Rabs_R1 in L. unfold LAMBERT_EPSILON in L. lra. }
  rewrite Bool.andb_false_r. rewrite search_done.
  2:{ cbn [gooding_start cur_tof]. unfold Prop_Model.to_secs. cbn [Z.sub Z.add Z.opp]. 
      replace (0 - 0 / 1000000000) with 0 by field. rewrite Rabs_R0. unfold LAMBERT_EPSILON_TIME. lra. }
  cbn [bind]. split; [reflexivity|]. cbn [velocities gooding_start y].
  unfold gooding_velocities. destruct (Req_EM_T _ 0) as [_|N]; [reflexivity|]. exfalso. apply N.
  unfold Rdiv. rewrite Rmult_0_l, sqrt_0. ring.
Qed.

(** C51: between opposite positions the plane of the transfer is not determined.  One way round
    the positions are refused, but the other way round velocities of a division by zero are
    returned as a solution. *)
Definition one_body (f : nat) : R := 1.
Lemma opposite_a p : norm p = 1 -> dot p p = 1 -> a_of 1 p (vscale (-1) p) = 0 /\ a_of 1 (vscale (-1) p) p = 0.
Proof.
  intros N D. unfold a_of, cos_dnu. rewrite norm_scale, N, (dot_comm p), dot_scale, D.
  rewrite Rabs_left by lra. split.
  - replace (1 * (- (-1) * 1) * (1 + -1 * 1 / (1 * (- (-1) * 1)))) with 0 by field. rewrite sqrt_0. ring.
  - replace (- (-1) * 1 * 1 * (1 + -1 * 1 / (- (-1) * 1 * 1))) with 0 by field. rewrite sqrt_0. ring.
Qed.

Theorem C51_opposite_refuted : exists mu_of i j sol,
  posed mu_of i /\ posed mu_of j /\ departure j = arrival i /\ arrival j = departure i /\
  gooding mu_of i ShortWay = Ok sol /\ velocities sol = None /\
  gooding mu_of j ShortWay = Err TargetsTooClose.
Proof.
  set (p := V3 1 0 0). set (q := V3 (-1) 0 0).
  exists one_body, (between 1333333333 p q), (between 1333333333 q p).
  assert (N1 : norm p = 1) by (apply norm_of; [lra|unfold dot; cbn; ring]).
  assert (N2 : norm q = 1) by (apply norm_of; [lra|unfold dot; cbn; ring]).
  destruct (opposite_a p N1 ltac:(unfold dot; cbn; ring)) as [A1 A2].
  assert (Q : vscale (-1) p = q) by (unfold p, q, vscale; apply v3_eq; cbn; ring). rewrite Q in A1, A2.
  assert (P1 : atan2 0 1 = 0).
  { unfold atan2. destruct (Rlt_dec 0 1); [|lra]. unfold Rdiv. rewrite Rmult_0_l. apply atan_0. }
  assert (P2 : atan2 0 (-1) = PI).
  { unfold atan2. destruct (Rlt_dec 0 (-1)); [lra|]. destruct (Rlt_dec (-1) 0); [|lra].
    destruct (Rle_dec 0 0); [|lra]. unfold Rdiv. rewrite Rmult_0_l, atan_0. ring. }
  pose proof PI_bounds.
  assert (E0 : (if Rlt_dec (Rabs 0) LAMBERT_EPSILON then true else false) = true).
  { destruct (Rlt_dec _ _) as [|L]; [reflexivity|]. exfalso. apply L. rewrite Rabs_R0. unfold LAMBERT_EPSILON. lra. }
  unfold gooding. cbn [direction_of_motion bind between initial_state final_state on_path radius_km epoch frame].
  rewrite A1, A2, E0, N1, N2. cbn [p q vx vy vz]. rewrite P1, P2.
  destruct (Rlt_dec (PI - 0) LAMBERT_EPSILON_RAD) as [L|_].
  { exfalso. unfold LAMBERT_EPSILON_RAD in L. lra. }
  destruct (Rlt_dec (0 - PI) LAMBERT_EPSILON_RAD) as [_|L].
  2:{ exfalso. apply L. unfold LAMBERT_EPSILON_RAD. lra. }
  cbn [andb]. unfold one_body.
  set (tof := Prop_Model.to_secs (1333333333 - 0)).
  assert (F : tof = 1333333333 / 1000000000) by (unfold tof, Prop_Model.to_secs; cbn; lra).
  destruct (pass_spec 1 1 0 1 tof ltac:(lra) ltac:(lra) ltac:(lra) gooding_start inv_start)
    as (s & p1 & E & _ & Y & _ & _ & T & _).
  assert (Y1 : y s = 2) by (rewrite Y; unfold y_of; cbn [gooding_start c2 c3]; unfold Rdiv; ring).
  assert (T1 : cur_tof s = 4 / 3).
  { rewrite T, Y1. cbn [gooding_start c2 c3]. rewrite sqrt_1.
    replace (2 / (1 / 2)) with (2 * 2) by field. rewrite sqrt_square by lra. field. }
  cbn [search]. destruct (Rlt_dec LAMBERT_EPSILON_TIME (Rabs (cur_tof gooding_start - tof))) as [_|N].
  2:{ exfalso. apply N. cbn [gooding_start cur_tof]. rewrite F. unfold LAMBERT_EPSILON_TIME. rewrite Rabs_left; lra. }
  rewrite E. cbn [bind]. rewrite search_done.
  2:{ rewrite T1, F. unfold LAMBERT_EPSILON_TIME. rewrite Rabs_right; lra. }
  cbn [bind]. eexists.
  split. { unfold posed, mu_at. cbn. unfold vzero, p, q. repeat split; [lra|..]; intros B; injection B; intros; lra. }
  split. { unfold posed, mu_at. cbn. unfold vzero, p, q. repeat split; [lra|..]; intros B; injection B; intros; lra. }
  split; [reflexivity|]. split; [reflexivity|]. split; [reflexivity|]. cbn [velocities].
  split; [|reflexivity]. unfold gooding_velocities. destruct (Req_EM_T _ 0) as [_|N]; [reflexivity|]. exfalso. apply N. ring.
Qed.

(** C51: an arrival before the departure is never reached the short way: the search runs out of
    passes. *)
Lemma c3_nonneg phi : phi < 4 * PI ^ 2 -> 0 <= snd (stumpff phi).
Proof.
  intros H. destruct (Rle_dec phi 0) as [L|L]; [pose proof (stumpff_c3 phi L); lra|].
  pose proof eps_small. unfold stumpff. destruct (Rlt_dec LAMBERT_EPSILON phi) as [G|G].
  - cbn [snd]. assert (0 < sqrt phi) by (apply sqrt_lt_R0; lra).
    pose proof (sin_lt_x (sqrt phi) ltac:(lra)). left. apply Rdiv_lt_0_compat; [lra|].
    apply sqrt_lt_R0. apply pow_lt. lra.
  - destruct (Rlt_dec phi (- LAMBERT_EPSILON)); cbn [snd]; lra.
Qed.

Theorem C51_past_arrival : forall mu_of i, posed mu_of i -> flight i < - (1 / 10000) ->
  gooding mu_of i ShortWay = Err TargetsTooClose \/ gooding mu_of i ShortWay = Err SolverMaxIter.
Proof.
  intros mu_of i P Hf. pose proof (C51_outcomes mu_of i ShortWay P) as O.
  destruct (gooding mu_of i ShortWay) as [sol|e| |] eqn:E; try destruct O.
  - exfalso. destruct (gooding_ok _ _ _ _ P E) as (dm & a & s & Hd & Ea & Ha & Ha2 & Hc & Hs & _).
    assert (0 <= cur_tof s).
    { destruct Hs as [->|(sp & R & Hs)]; [cbn; lra|].
      destruct P as (Hm & Hp & Hq). apply norm_pos in Hp, Hq.
      pose proof (reached_inv _ _ _ _ _ Hp Hq Ha2 sp R) as I.
      destruct (pass_spec _ _ _ (mu_at mu_of i) (flight i) Hp Hq Ha2 sp I)
        as (x & p1 & Ex & _ & _ & Py & C2 & T & _). assert (x = s) as -> by congruence.
      rewrite T. destruct I as (_ & _ & I3 & I4). pose proof (c3_nonneg (phi sp) (proj2 I3)) as C3. rewrite <- I4 in C3. cbn [snd] in C3.
      assert (0 <= a).
      { rewrite Ea. cbn in Hd. assert (dm = 1) as -> by congruence. unfold a_of. rewrite Rmult_1_l. apply sqrt_pos. }
      pose proof (sqrt_pos (y s)). assert (0 < sqrt (mu_at mu_of i)) by now apply sqrt_lt_R0.
      apply Rmult_le_pos; [|left; now apply Rinv_0_lt_compat].
      pose proof (pow_le (sqrt (y s / c2 sp)) 3 (sqrt_pos _)).
      pose proof (Rmult_le_pos _ _ H2 C3). pose proof (Rmult_le_pos _ _ H H0). lra. }
    unfold LAMBERT_EPSILON_TIME in Hc. rewrite Rabs_right in Hc; lra.
  - destruct H as [_ [n H]]. discriminate H.
  - destruct H as [->| ->]; auto.
Qed.

Print Assumptions C51_same_conic.
Print Assumptions C51_time_of_flight_partial.
Print Assumptions C51_outcomes.
Print Assumptions C51_finite.
Print Assumptions C51_direction.
Print Assumptions C51_phi_refuted.
Print Assumptions C51_no_time_refuted.
Print Assumptions C51_opposite_refuted.
Print Assumptions C51_past_arrival.
