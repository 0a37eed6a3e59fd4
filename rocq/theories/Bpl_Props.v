(** Theorems about the B-plane and about the correction that achieves one. *)
From Coq Require Import Reals Lra Psatz.
From Coquelicot Require Import Coquelicot.
From Verif Require Import Base Vec3 Angles Dual Util_Model Util_Props Bpl_Model Bpl_Spec Bpl_Proofs.
Local Open Scope R_scope.

(** * C81: the B-plane of an encounter *)

Lemma new_pieces mu r v : bplane_new (Some mu) r v =
  if Rlt_dec 1 (re (d_ecc mu (grad_pos r) (grad_vel v))) then Ok (pieces mu (grad_pos r) (grad_vel v)) else Err NotHyperbolic.
Proof. apply from_dual_pieces. Qed.
Lemma new_ok mu r v b : bplane_new (Some mu) r v = Ok b ->
  1 < re (d_ecc mu (grad_pos r) (grad_vel v)) /\ b = pieces mu (grad_pos r) (grad_vel v).
Proof. rewrite new_pieces. destruct Rlt_dec as [H|H]; [intros E; split; congruence|discriminate]. Qed.
Lemma ecc_value mu r v : re (d_ecc mu (grad_pos r) (grad_vel v)) = norm (vscale (/ mu) (laplace mu r v)).
Proof.
  unfold d_ecc. rewrite dnorm_re, reals_evec. destruct (reals_grad r v) as [-> ->]. reflexivity.
Qed.

(** A B-plane exists exactly for the orbits of positive energy and of nonzero angular momentum; the
    others are errors. *)
Theorem C81_exists mu r v : 0 < mu -> r <> vzero ->
  ((exists b, bplane_new (Some mu) r v = Ok b) <-> (0 < dot v v - 2 * mu / norm r /\ cross r v <> vzero)) /\
  ((exists b, bplane_new (Some mu) r v = Ok b) \/ bplane_new (Some mu) r v = Err NotHyperbolic) /\
  bplane_new None r v = Err NoGravParam.
Proof.
  intros Hm Hr. split; [|split; [|reflexivity]]; rewrite new_pieces, ecc_value; destruct Rlt_dec as [H|H]; [| |left; eauto|right; reflexivity].
  - split; [|eauto]. intros _. destruct (eccentric mu r v Hm H) as (_ & _ & Hh & Hw & _). cbn zeta in Hh. split; [exact Hw|].
    intros Z. rewrite Z, (proj2 (norm_zero_iff vzero) eq_refl) in Hh. lra.
  - split; [intros [b Hb]; discriminate|]. intros [Hw Hh]. exfalso. apply H.
    assert (E : dot (vscale (/ mu) (laplace mu r v)) (vscale (/ mu) (laplace mu r v)) =
      1 + (dot v v - 2 * mu / norm r) * dot (cross r v) (cross r v) / (mu * mu)).
    { replace (dot (vscale (/ mu) (laplace mu r v)) (vscale (/ mu) (laplace mu r v)))
        with (/ mu * / mu * dot (laplace mu r v) (laplace mu r v)) by (unfold dot, vscale; cbn [vx vy vz]; ring).
      rewrite laplace_dot by exact Hr. field. split; [|lra]. apply norm_pos in Hr. lra. }
    unfold norm at 1. rewrite E. rewrite <- sqrt_1 at 1. apply sqrt_lt_1_alt. split; [lra|].
    enough (0 < (dot v v - 2 * mu / norm r) * dot (cross r v) (cross r v) / (mu * mu)) by lra.
    apply Rdiv_lt_0_compat; [apply Rmult_lt_0_compat; [exact Hw|]|nra]. now apply dot_pos.
Qed.

Lemma expand s t r b : right_handed s t r -> dot s b = 0 -> b = vadd (vscale (dot b t) t) (vscale (dot b r) r).
Proof.
  intros (Hs & Ht & Hr & Hst & Hsr & Htr & Hc) Hb.
  assert (Hr' : r = cross s t) by auto.
  assert (C2 : cross r s = t).
  { rewrite Hr'. transitivity (vsub (vscale (dot s s) t) (vscale (dot s t) s)).
    - apply v3_eq; unfold cross, vsub, vscale, dot; cbn [vx vy vz]; ring.
    - rewrite Hs, Hst. apply v3_eq; unfold vsub, vscale; cbn [vx vy vz]; ring. }
  (* b = (s x b) x s for b orthogonal to the unit s *)
  assert (B : b = cross (cross s b) s).
  { transitivity (vsub (vscale (dot s s) b) (vscale (dot s b) s)).
    - rewrite Hs, Hb. apply v3_eq; unfold vsub, vscale; cbn [vx vy vz]; ring.
    - apply v3_eq; unfold cross, vsub, vscale, dot; cbn [vx vy vz]; ring. }
  (* (b.t) t + (b.r) r = b x (t x r) turned *)
  assert (C3 : cross t r = s).
  { rewrite Hr'. transitivity (vsub (vscale (dot t t) s) (vscale (dot s t) t)).
    - apply v3_eq; unfold cross, vsub, vscale, dot; cbn [vx vy vz]; ring.
    - rewrite Ht, Hst. apply v3_eq; unfold vsub, vscale; cbn [vx vy vz]; ring. }
  (* s x b = (b.t)(s x t) ... from b x (t x r) *)
  assert (S : cross s b = vsub (vscale (dot b t) r) (vscale (dot b r) t)).
  { rewrite <- C3. apply v3_eq; unfold cross, vsub, vscale, dot; cbn [vx vy vz]; ring. }
  rewrite B at 1. rewrite S.
  transitivity (vsub (vscale (dot b t) (cross r s)) (vscale (dot b r) (cross t s))).
  - apply v3_eq; unfold cross, vsub, vscale; cbn [vx vy vz]; ring.
  - rewrite C2. replace (cross t s) with (vscale (-1) (cross s t)) by (apply v3_eq; unfold cross, vscale; cbn [vx vy vz]; ring).
    rewrite Hc. apply v3_eq; unfold vadd, vsub, vscale; cbn [vx vy vz]; ring.
Qed.

Lemma orthonormal s : dot s s = 1 -> cross s zaxis <> vzero ->
  let t := vscale (/ norm (cross s zaxis)) (cross s zaxis) in right_handed s t (cross s t) /\ exists k, 0 < k /\ cross s zaxis = vscale k t.
Proof.
  intros Hs Hz t. assert (Ht : dot t t = 1) by now apply unit_of.
  assert (Hst : dot s t = 0) by (unfold t, dot, vscale, cross, zaxis; cbn [vx vy vz]; ring).
  split; [|exists (norm (cross s zaxis)); split; [now apply norm_pos|]; apply norm_pos in Hz; unfold t;
             set (n := norm _) in *; apply v3_eq; unfold vscale; cbn [vx vy vz]; field; lra].
  unfold right_handed. refine (conj Hs (conj Ht (conj _ (conj Hst (conj _ (conj _ eq_refl)))))).
  - replace (dot (cross s t) (cross s t)) with (dot s s * dot t t - dot s t * dot s t) by (unfold dot, cross; cbn [vx vy vz]; ring).
    rewrite Hs, Ht, Hst. ring.
  - unfold dot, cross; cbn [vx vy vz]; ring.
  - unfold dot, cross; cbn [vx vy vz]; ring.
Qed.

(** The rows of the matrix are the direction of the incoming asymptote, the direction T of the product
    of S and the third axis, and R, which completes them; the point of the asymptote nearest to the body is
    (B.T) T + (B.R) R; the magnitude and the angle are its polar coordinates. *)
Theorem C81_plane mu r v b : 0 < mu -> bplane_new (Some mu) r v = Ok b -> cross (s_hat b) zaxis <> vzero ->
  exists B, incoming mu r v (s_hat b) B /\
    right_handed (s_hat b) (t_hat b) (r_hat b) /\ (exists k, 0 < k /\ cross (s_hat b) zaxis = vscale k (t_hat b)) /\
    B = vadd (vscale (b_dot_t_km b) (t_hat b)) (vscale (b_dot_r_km b) (r_hat b)) /\
    magnitude_km b = norm B.
Proof.
  intros Hm Hb Hz. apply new_ok in Hb as [He Hb].
  destruct (pieces_values mu _ _ Hm He) as (Hi & Es & _). destruct (reals_grad r v) as [Er Ev]. rewrite Er, Ev in Hi.
  assert (St : t_hat b = vscale (/ norm (cross (s_hat b) zaxis)) (cross (s_hat b) zaxis)).
  { rewrite Hb. cbn [t_hat s_hat pieces]. unfold p_that. rewrite reals_div, dnorm_re. unfold p_t. rewrite reals_cross. reflexivity. }
  assert (Sr : r_hat b = cross (s_hat b) (t_hat b)) by (rewrite Hb; reflexivity).
  assert (Ss : s_hat b = reals (p_shat mu (grad_pos r) (grad_vel v))) by (rewrite Hb; reflexivity).
  rewrite <- Ss in Hi. exists (reals (p_b mu (grad_pos r) (grad_vel v))). set (B := reals (p_b _ _ _)) in *.
  destruct (orthonormal (s_hat b) (proj1 Hi) Hz) as [RH TZ]. cbn zeta in RH, TZ. rewrite <- St in RH, TZ. rewrite <- Sr in RH.
  assert (Bt : b_dot_t_km b = dot B (t_hat b)) by (rewrite Hb; reflexivity).
  assert (Br : b_dot_r_km b = dot B (r_hat b)) by (rewrite Hb; reflexivity).
  assert (EB : B = vadd (vscale (b_dot_t_km b) (t_hat b)) (vscale (b_dot_r_km b) (r_hat b))).
  { rewrite Bt, Br. apply (expand (s_hat b)); [exact RH|apply Hi]. }
  refine (conj Hi (conj RH (conj TZ (conj EB _)))).
  unfold magnitude_km, norm. f_equal. rewrite EB at 1 2. destruct RH as (_ & Ht & Hr & _ & _ & Htr & _).
  transitivity (b_dot_t_km b ^ 2 * dot (t_hat b) (t_hat b) + b_dot_r_km b ^ 2 * dot (r_hat b) (r_hat b)
    + 2 * b_dot_t_km b * b_dot_r_km b * dot (t_hat b) (r_hat b)); [rewrite Ht, Hr, Htr; ring|].
  unfold dot, vadd, vscale; cbn [vx vy vz]; ring.
Qed.

(** The conservation laws leave no choice of the asymptote. *)
Theorem C81_asymptote_unique mu r v s1 b1 s2 b2 : 0 < mu ->
  incoming mu r v s1 b1 -> incoming mu r v s2 b2 -> s1 = s2 /\ b1 = b2.
Proof.
  intros Hm (U1 & P1 & w1 & W1 & E1 & H1 & L1) (U2 & P2 & w2 & W2 & E2 & H2 & L2).
  assert (w2 = w1) by nra. subst w2. set (h := cross r v) in *.
  set (d := vsub s1 s2).
  assert (D : vadd (cross (vscale w1 d) h) (vscale mu d) = vzero).
  { transitivity (vsub (vadd (cross (vscale w1 s1) h) (vscale mu s1)) (vadd (cross (vscale w1 s2) h) (vscale mu s2))).
    - unfold d. clearbody h. apply v3_eq; unfold vadd, vsub, vscale, cross; cbn [vx vy vz]; ring.
    - rewrite <- L1, <- L2. apply v3_eq; unfold vsub, vzero; cbn [vx vy vz]; ring. }
  assert (Dd : mu * dot d d = 0).
  { transitivity (dot d (vadd (cross (vscale w1 d) h) (vscale mu d))).
    - unfold dot, vadd, vscale, cross; cbn [vx vy vz]; ring.
    - rewrite D. unfold dot, vzero; cbn [vx vy vz]; ring. }
  assert (Z : dot d d = 0) by nra.
  assert (S : s1 = s2).
  { assert (N : d = vzero) by (apply norm_zero_iff; unfold norm; rewrite Z; apply sqrt_0).
    unfold d, vsub, vzero in N. injection N as X Y W. apply v3_eq; lra. }
  split; [exact S|]. subst s2.
  assert (B : forall b, dot s1 b = 0 -> cross b (vscale w1 s1) = h -> b = vscale (/ w1) (cross s1 h)).
  { intros b P H. rewrite <- H.
    transitivity (vsub (vscale (dot s1 s1) b) (vscale (dot s1 b) s1)).
    - rewrite U1, P. apply v3_eq; unfold vsub, vscale; cbn [vx vy vz]; ring.
    - apply v3_eq; unfold cross, vsub, vscale, dot; cbn [vx vy vz]; field; lra. }
  rewrite (B b1 P1 H1), (B b2 P2 H2). reflexivity.
Qed.

(** The angle is that of B in the plane, from T towards R. *)
Theorem C81_angle b : magnitude_km b <> 0 ->
  b_dot_t_km b = magnitude_km b * cos (angle_deg b * (PI / 180)) /\
  b_dot_r_km b = magnitude_km b * sin (angle_deg b * (PI / 180)) /\ -180 < angle_deg b <= 180.
Proof.
  intros H. unfold angle_deg, magnitude_km in *. set (x := b_dot_t_km b) in *. set (y := b_dot_r_km b) in *.
  pose proof PI_RGT_0 as Hp. destruct (atan2_bounds y x) as [L U].
  assert (L' : -180 < atan2 y x * (180 / PI)).
  { apply (Rmult_lt_reg_r PI); [exact Hp|]. replace (atan2 y x * (180 / PI) * PI) with (atan2 y x * 180) by (field; lra). lra. }
  assert (U' : atan2 y x * (180 / PI) <= 180).
  { apply (Rmult_le_reg_r PI); [exact Hp|]. replace (atan2 y x * (180 / PI) * PI) with (atan2 y x * 180) by (field; lra). lra. }
  unfold between_pm_180. rewrite C50_between_pm_x_inside by lra.
  replace (atan2 y x * (180 / PI) * (PI / 180)) with (atan2 y x) by (field; lra).
  assert (N : x <> 0 \/ y <> 0).
  { destruct (Req_dec x 0) as [Zx|]; [right|now left]. intros Zy. apply H. rewrite Zx, Zy.
    replace (0 ^ 2 + 0 ^ 2) with 0 by ring. apply sqrt_0. }
  destruct (atan2_spec y x N) as [A B]. replace (x ^ 2 + y ^ 2) with (x * x + y * y) by ring. lra.
Qed.

(** The Jacobian holds the derivatives of B.R and of B.T in the components of the velocity. *)
Definition read (mu : R) (r v : v3) (f : bplane -> R) : R :=
  match bplane_new (Some mu) r v with Ok b => f b | _ => 0 end.

Lemma read_derive mu r v b f j : 0 < mu -> bplane_new (Some mu) r v = Ok b -> (j < 3)%nat ->
  moves (4 + j) (fun h => f (pieces mu (grad_pos r) (grad_vel (shift (S j) h v)))) ->
  locally 0 (fun h => exists bh, bplane_new (Some mu) r (shift (S j) h v) = Ok bh) /\
  is_derive (fun h => read mu r (shift (S j) h v) (fun b => re (f b))) 0 (du (f b) (4 + j)).
Proof.
  intros Hm Hb Hj M. apply new_ok in Hb as [He Hb].
  pose proof (move_pos j r) as Mr. pose proof (move_vel j v Hj) as Mv.
  assert (He0 : 1 < re (d_ecc mu (grad_pos r) (grad_vel (shift (S j) 0 v)))) by now rewrite shift_0.
  pose proof (move_ecc mu (4 + j) (fun _ => grad_pos r) (fun h => grad_vel (shift (S j) h v)) Hm Mr Mv He0) as [_ De].
  assert (L : locally 0 (fun h => 1 < re (d_ecc mu (grad_pos r) (grad_vel (shift (S j) h v))))).
  { apply (locally_above (fun h => re (d_ecc mu (grad_pos r) (grad_vel (shift (S j) h v))))); [exact He0|]. eexists. exact De. }
  split.
  - apply (filter_imp _ _ (fun h Hh => ex_intro _ (pieces mu (grad_pos r) (grad_vel (shift (S j) h v)))
      (eq_trans (new_pieces mu r _) (match Rlt_dec 1 _ as d return (if d then _ else _) = _ with left _ => eq_refl | right n => False_ind _ (n Hh) end))) L).
  - apply is_derive_ext_loc with (f := fun h => re (f (pieces mu (grad_pos r) (grad_vel (shift (S j) h v))))).
    + revert L. apply filter_imp. intros h Hh. unfold read. rewrite new_pieces. destruct Rlt_dec as [_|n]; [reflexivity|destruct (n Hh)].
    + destruct M as [_ M]. cbn beta in M. rewrite shift_0 in M. rewrite Hb. exact M.
Qed.

Theorem C81_jacobian mu r v b j : 0 < mu -> bplane_new (Some mu) r v = Ok b -> cross (s_hat b) zaxis <> vzero -> (j < 3)%nat ->
  locally 0 (fun h => exists bh, bplane_new (Some mu) r (shift (S j) h v) = Ok bh) /\
  is_derive (fun h => read mu r (shift (S j) h v) b_dot_r_km) 0 (jacobian b 0 j) /\
  is_derive (fun h => read mu r (shift (S j) h v) b_dot_t_km) 0 (jacobian b 1 j).
Proof.
  intros Hm Hb Hz Hj. pose proof (new_ok mu r v b Hb) as [He Eb].
  assert (He0 : 1 < re (d_ecc mu (grad_pos r) (grad_vel (shift (S j) 0 v)))) by now rewrite shift_0.
  assert (Hz0 : cross (reals (p_shat mu (grad_pos r) (grad_vel (shift (S j) 0 v)))) zaxis <> vzero).
  { rewrite shift_0. rewrite Eb in Hz. exact Hz. }
  pose proof (move_br mu (4 + j) (fun _ => grad_pos r) (fun h => grad_vel (shift (S j) h v)) Hm (move_pos j r) (move_vel j v Hj) He0 Hz0) as Mr.
  pose proof (move_bt mu (4 + j) (fun _ => grad_pos r) (fun h => grad_vel (shift (S j) h v)) Hm (move_pos j r) (move_vel j v Hj) He0 Hz0) as Mt.
  destruct (read_derive mu r v b b_r j Hm Hb Hj Mr) as [L Dr]. destruct (read_derive mu r v b b_t j Hm Hb Hj Mt) as [_ Dt].
  exact (conj L (conj Dr Dt)).
Qed.

(** The two by two Jacobian leaves out the column of the invariant, for a component of the velocity
    only. *)
Theorem C81_jacobian2 b k :
  (forall m, jacobian2 b (Some k) = Ok m -> (k < 3)%nat /\
    exists c0 c1, (c0 < c1 < 3)%nat /\ c0 <> k /\ c1 <> k /\
      forall i, (i < 2)%nat -> m i 0%nat = jacobian b i c0 /\ m i 1%nat = jacobian b i c1) /\
  ((k < 3)%nat -> exists m, jacobian2 b (Some k) = Ok m) /\
  jacobian2 b None = Err BPlaneInvariant.
Proof.
  split; [|split; [|reflexivity]].
  - intros m. destruct k as [|[|[|k]]]; cbn [jacobian2]; intros H; try discriminate; injection H as <-; (split; [lia|]).
    + exists 1%nat, 2%nat. repeat split; try lia.
    + exists 0%nat, 2%nat. repeat split; try lia.
    + exists 0%nat, 1%nat. repeat split; try lia.
  - intros H. destruct k as [|[|[|k]]]; [eexists; reflexivity ..|lia].
Qed.

(** The linearized time of flight is zero for every orbit, and so are its partials: B is normal to S. *)
Theorem C81_ltof_zero mu r v b : 0 < mu -> bplane_new (Some mu) r v = Ok b ->
  re (ltof_s b) = 0 /\ forall j, (j < 3)%nat -> jacobian b 2 j = 0.
Proof.
  intros Hm Hb.
  assert (Z : forall v' b', bplane_new (Some mu) r v' = Ok b' -> re (ltof_s b') = 0).
  { intros v' b' Hb'. apply new_ok in Hb' as [He' ->]. destruct (pieces_values mu _ _ Hm He') as ((_ & O & _) & _).
    cbn [ltof_s pieces]. cbn [re ddiv]. rewrite re_dot.
    assert (O' : dot (reals (p_b mu (grad_pos r) (grad_vel v'))) (reals (p_shat mu (grad_pos r) (grad_vel v'))) = 0).
    { rewrite <- O. unfold dot; ring. }
    rewrite O'. unfold Rdiv. ring. }
  split; [now apply (Z v)|]. intros j Hj. pose proof (new_ok mu r v b Hb) as [He Eb].
  assert (He0 : 1 < re (d_ecc mu (grad_pos r) (grad_vel (shift (S j) 0 v)))) by now rewrite shift_0.
  pose proof (move_ltof mu (4 + j) (fun _ => grad_pos r) (fun h => grad_vel (shift (S j) h v)) Hm (move_pos j r) (move_vel j v Hj) He0) as M.
  destruct (read_derive mu r v b ltof_s j Hm Hb Hj M) as [L D].
  change (jacobian b 2 j) with (du (ltof_s b) (4 + j)). apply is_derive_unique in D. rewrite <- D.
  rewrite (Derive_ext_loc _ (fun _ => 0)); [apply Derive_const|]. revert L. apply filter_imp. intros h [bh Hh].
  unfold read. rewrite Hh. now apply (Z _ _ Hh).
Qed.

(** * C82: achieving a B-plane *)

(** What is returned: the B-plane of the orbit after the maneuver, within the tolerances. *)
Lemma achieve_ok gm r tg n : forall total v prev dv bp, achieve n gm r tg total v prev = Ok (dv, bp) ->
  exists d, dv = vadd total d /\ bplane_new gm r (vadd v d) = Ok bp /\
    Rabs (t_br tg - b_dot_r_km bp) < tol_br tg /\ Rabs (t_bt tg - b_dot_t_km bp) < tol_bt tg /\
    (ltof_target_set tg = true -> Rabs (t_ltof tg - re (ltof_s bp)) < tol_ltof tg).
Proof.
  induction n as [|n IH]; intros total v prev dv bp H; [discriminate|]. cbn [achieve] in H.
  destruct (bplane_new gm r v) as [b|e| |] eqn:Eb; try discriminate. cbn [bind] in H.
  destruct (((if Rlt_dec (Rabs (t_br tg - b_dot_r_km b)) (tol_br tg) then true else false) &&
    (if Rlt_dec (Rabs (t_bt tg - b_dot_t_km b)) (tol_bt tg) then true else false)) &&
    (if ltof_target_set tg then (if Rlt_dec (Rabs (t_ltof tg - re (ltof_s b))) (tol_ltof tg) then true else false) else true))%bool eqn:Ec.
  - injection H as <- <-. exists vzero.
    assert (Z : forall a, vadd a vzero = a) by (intros a; apply v3_eq; unfold vadd, vzero; cbn [vx vy vz]; ring).
    rewrite !Z. apply andb_prop in Ec as [Ec Et]. apply andb_prop in Ec as [Er Ex].
    destruct Rlt_dec as [Hr|] in Er; [|discriminate]. destruct Rlt_dec as [Hx|] in Ex; [|discriminate].
    refine (conj eq_refl (conj Eb (conj Hr (conj Hx _)))). intros Hl. rewrite Hl in Et.
    destruct Rlt_dec as [Ht|] in Et; [exact Ht|discriminate].
  - destruct (match prev with Some p => _ | None => _ end); [discriminate|].
    match type of H with bind ?x _ = _ => destruct x as [s|e| |] eqn:Es; try discriminate end. cbn [bind] in H.
    apply IH in H as (d & Ed & R). exists (vadd s d). split.
    + rewrite Ed. apply v3_eq; unfold vadd; cbn [vx vy vz]; ring.
    + replace (vadd v (vadd s d)) with (vadd (vadd v s) d) by (apply v3_eq; unfold vadd; cbn [vx vy vz]; ring). exact R.
Qed.
Theorem C82_achieved gm r v tg dv bp : try_achieve_b_plane gm r v tg = Ok (dv, bp) ->
  bplane_new gm r (vadd v dv) = Ok bp /\
  Rabs (t_br tg - b_dot_r_km bp) < tol_br tg /\ Rabs (t_bt tg - b_dot_t_km bp) < tol_bt tg /\
  (ltof_target_set tg = true -> Rabs (t_ltof tg - re (ltof_s bp)) < tol_ltof tg).
Proof.
  intros H. apply achieve_ok in H as (d & E & R). replace dv with d; [exact R|].
  rewrite E. apply v3_eq; unfold vadd, vzero; cbn [vx vy vz]; ring.
Qed.

(** Without a time of flight, the default tolerances are a millimeter. *)
Theorem C82_bt_br gm r v bt br dv bp : try_achieve_b_plane gm r v (from_bt_br bt br) = Ok (dv, bp) ->
  bplane_new gm r (vadd v dv) = Ok bp /\
  Rabs (bt - b_dot_t_km bp) < 1 / 1000000 /\ Rabs (br - b_dot_r_km bp) < 1 / 1000000.
Proof. intros H. apply C82_achieved in H as (A & B & C & _). exact (conj A (conj C B)). Qed.
(** How far the orbit of a velocity is from the target. *)
Definition misses (gm : option R) (r : v3) (tg : target) (v : v3) (err : R) : Prop :=
  exists bp, bplane_new gm r v = Ok bp /\
    err = sqrt ((t_br tg - b_dot_r_km bp) ^ 2 + (t_bt tg - b_dot_t_km bp) ^ 2 +
                (if ltof_target_set tg then (t_ltof tg - re (ltof_s bp)) ^ 2 else 0)).
Fixpoint decreasing (l : list R) : Prop :=
  match l with
  | a :: l' => match l' with b :: _ => b < a | [] => True end /\ decreasing l'
  | [] => True
  end.
Lemma achieve_decreases gm r tg n : forall total v prev dv bp, achieve n gm r tg total v prev = Ok (dv, bp) ->
  exists vs errs, Forall2 (misses gm r tg) vs errs /\
    decreasing (match prev with Some p => [p] | None => [] end ++ errs) /\
    (length vs < n)%nat /\ match vs with [] => dv = total | v0 :: _ => v0 = v end.
Proof.
  induction n as [|n IH]; intros total v prev dv bp H; [discriminate|]. cbn [achieve] in H.
  destruct (bplane_new gm r v) as [b|e| |] eqn:Eb; try discriminate. cbn [bind] in H.
  match type of H with (if ?c then _ else _) = _ => destruct c end.
  { assert (dv = total) as -> by congruence. exists [], []. split; [constructor|]. split; [destruct prev; cbn; auto|].
    split; [cbn; lia|reflexivity]. }
  match type of H with context [norm ?x] => set (err := norm x) in H end.
  assert (M : misses gm r tg v err).
  { exists b. split; [exact Eb|]. unfold err, norm, dot. cbn [vx vy vz]. f_equal. destruct (ltof_target_set tg); ring. }
  destruct (match prev with Some p => _ | None => _ end) eqn:W in H; [discriminate|].
  match type of H with bind ?x _ = _ => destruct x as [s|e| |] eqn:Es; try discriminate end. cbn [bind] in H.
  apply IH in H as (vs & errs & F & D & L & _). exists (v :: vs), (err :: errs). split; [now constructor|].
  split; [|split; [cbn; lia|reflexivity]].
  destruct prev as [p|]; [|exact D]. split; [|exact D].
  destruct (Rle_dec p err) as [|N]; [discriminate|]. change (err < p). apply Rnot_le_lt, N.
Qed.
(** A maneuver is found through orbits strictly closer and closer to the target, in at most ten
    corrections of the initial velocity. *)
Theorem C82_closer gm r v tg dv bp : try_achieve_b_plane gm r v tg = Ok (dv, bp) ->
  exists vs errs, Forall2 (misses gm r tg) vs errs /\ decreasing errs /\ (length vs <= 10)%nat /\
    match vs with [] => dv = vzero | v0 :: _ => v0 = v end.
Proof.
  intros H. apply achieve_decreases in H as (vs & errs & F & D & L & S). exists vs, errs.
  split; [exact F|]. split; [exact D|]. split; [lia|exact S].
Qed.
(** A correction reported as ineffective did not bring the orbit closer. *)
Theorem C82_ineffective gm r v tg a b : try_achieve_b_plane gm r v tg = Err (CorrectionIneffective a b) ->
  a <= b /\ (exists v1, misses gm r tg v1 a) /\ exists v2, misses gm r tg v2 b.
Proof.
  unfold try_achieve_b_plane.
  assert (G : forall n total v prev, (forall p, prev = Some p -> exists v1, misses gm r tg v1 p) ->
    achieve n gm r tg total v prev = Err (CorrectionIneffective a b) ->
    a <= b /\ (exists v1, misses gm r tg v1 a) /\ exists v2, misses gm r tg v2 b).
  2:{ intros H. eapply G; [|exact H]. discriminate. }
  induction n as [|n IH]; intros total w prev Hp H; [discriminate|]. cbn [achieve] in H.
  destruct (bplane_new gm r w) as [bp|e| |] eqn:Eb; cbn [bind] in H; try discriminate.
  2:{ exfalso. revert Eb. assert (e = CorrectionIneffective a b) as -> by congruence.
      unfold bplane_new, from_dual. destruct gm as [mu|]; [|congruence]. cbv zeta. destruct Rlt_dec; congruence. }
  match type of H with (if ?c then _ else _) = _ => destruct c end; [discriminate|].
  match type of H with context [norm ?x] => set (err := norm x) in H end.
  assert (M : misses gm r tg w err).
  { exists bp. split; [exact Eb|]. unfold err, norm, dot. cbn [vx vy vz]. f_equal. destruct (ltof_target_set tg); ring. }
  destruct prev as [p|].
  - destruct (Rle_dec p err) as [L|N].
    + assert (a = p) as -> by congruence. assert (b = err) as -> by congruence. eauto.
    + match type of H with bind ?x _ = _ => destruct x as [s|e| |] eqn:Es; try discriminate end; cbn [bind] in H.
      * eapply IH; [|exact H]. intros q Q. assert (q = err) as -> by congruence. eauto.
      * exfalso. destruct (ltof_target_set tg); [discriminate|]. revert Es. unfold least_squares.
        cbv zeta. destruct Req_EM_T; discriminate.
  - match type of H with bind ?x _ = _ => destruct x as [s|e| |] eqn:Es; try discriminate end; cbn [bind] in H.
    + eapply IH; [|exact H]. intros q Q. assert (q = err) as -> by congruence. eauto.
    + exfalso. destruct (ltof_target_set tg); [discriminate|]. revert Es. unfold least_squares.
      cbv zeta. destruct Req_EM_T; discriminate.
Qed.

(** A correction cancels the error to first order and is the smallest that does; it panics exactly when
    the two gradients are parallel. *)
Theorem C82_step m e0 e1 :
  (forall dv, least_squares m e0 e1 = Ok dv ->
     dot (row3 m 0) dv = e0 /\ dot (row3 m 1) dv = e1 /\
     forall x, dot (row3 m 0) x = e0 -> dot (row3 m 1) x = e1 -> norm dv <= norm x) /\
  (least_squares m e0 e1 = Panic <-> cross (row3 m 0) (row3 m 1) = vzero) /\
  ((exists dv, least_squares m e0 e1 = Ok dv) \/ least_squares m e0 e1 = Panic).
Proof.
  unfold least_squares. set (a := row3 m 0). set (b := row3 m 1). clearbody a b. clear m.
  set (det := dot a a * dot b b - dot a b * dot a b).
  assert (Ed : det = dot (cross a b) (cross a b)) by (unfold det, dot, cross; cbn [vx vy vz]; ring).
  destruct (Req_EM_T det 0) as [Z|N].
  - split; [discriminate|]. split; [|now right]. split; [intros _|reflexivity].
    apply norm_zero_iff. unfold norm. rewrite <- Ed, Z. apply sqrt_0.
  - split; [|split; [split; [discriminate|]|left; eauto]].
    + intros dv E. injection E as <-. set (x := (dot b b * e0 - dot a b * e1) / det). set (y := (dot a a * e1 - dot a b * e0) / det).
      assert (A : dot a (vadd (vscale x a) (vscale y b)) = e0).
      { transitivity (x * dot a a + y * dot a b); [unfold dot, vadd, vscale; cbn [vx vy vz]; ring|]. unfold x, y, det in *. field. exact N. }
      assert (B : dot b (vadd (vscale x a) (vscale y b)) = e1).
      { transitivity (x * dot a b + y * dot b b); [unfold dot, vadd, vscale; cbn [vx vy vz]; ring|]. unfold x, y, det in *. field. exact N. }
      split; [exact A|]. split; [exact B|]. intros p P0 P1. unfold norm. apply sqrt_le_1_alt.
      set (d := vadd (vscale x a) (vscale y b)) in *.
      assert (O : dot d (vsub p d) = 0).
      { transitivity (x * (dot a p - dot a d) + y * (dot b p - dot b d)).
        - unfold d, dot, vadd, vsub, vscale; cbn [vx vy vz]; ring.
        - rewrite P0, P1, A, B. ring. }
      assert (S : dot p p = dot d d + dot (vsub p d) (vsub p d) + 2 * dot d (vsub p d)).
      { clearbody d. unfold dot, vsub; cbn [vx vy vz]; ring. }
      rewrite S, O. assert (0 <= dot (vsub p d) (vsub p d)) by (rewrite <- norm_sqr; pose proof (norm_nonneg (vsub p d)); nra). lra.
    + intros C. exfalso. apply N. rewrite Ed, C. unfold dot, vzero; cbn [vx vy vz]; ring.
Qed.
(** With a time of flight as a target, out of its tolerance of zero, no orbit is ever accepted. *)
Theorem C82_ltof_never mu r v tg dv bp : 0 < mu -> ltof_target_set tg = true -> tol_ltof tg <= Rabs (t_ltof tg) ->
  try_achieve_b_plane (Some mu) r v tg <> Ok (dv, bp).
Proof.
  intros Hm Hs Ht H. apply C82_achieved in H as (Hb & _ & _ & Hl). specialize (Hl Hs).
  destruct (C81_ltof_zero mu r _ bp Hm Hb) as [Z _]. rewrite Z, Rminus_0_r in Hl. lra.
Qed.
(** And a maneuver with a time of flight as a target never has a component along the third axis: the
    error is multiplied by the Jacobian instead of its inverse. *)
Lemma achieve_flat mu r tg n : 0 < mu -> ltof_target_set tg = true -> forall total v prev dv bp,
  achieve n (Some mu) r tg total v prev = Ok (dv, bp) -> vz dv = vz total.
Proof.
  intros Hm Hs. induction n as [|n IH]; intros total v prev dv bp H; [discriminate|]. cbn [achieve] in H.
  destruct (bplane_new (Some mu) r v) as [b|e| |] eqn:Eb; try discriminate. cbn [bind] in H. rewrite Hs in H.
  match type of H with (if ?c then _ else _) = _ => destruct c end; [now injection H as <- _|].
  destruct (match prev with Some p => _ | None => _ end); [discriminate|]. cbn [bind] in H.
  apply IH in H. rewrite H. cbn [vadd vz]. destruct (C81_ltof_zero mu r v b Hm Eb) as [_ Z].
  unfold row3, dot. cbn [vx vy vz]. rewrite !Z by lia. ring.
Qed.
Theorem C82_ltof_flat mu r v tg dv bp : 0 < mu -> ltof_target_set tg = true ->
  try_achieve_b_plane (Some mu) r v tg = Ok (dv, bp) -> vz dv = 0.
Proof. intros Hm Hs H. now apply (achieve_flat mu r tg 11 Hm Hs) in H. Qed.

(** ** A concrete encounter *)
Definition enc_r : v3 := V3 1 0 0.
Definition enc_v : v3 := V3 0 2 0.
Lemma enc : exists b, bplane_new (Some 1) enc_r enc_v = Ok b /\ s_hat b = V3 (1 / 3) (2 * sqrt 2 / 3) 0 /\
  cross (s_hat b) zaxis <> vzero /\ b_dot_t_km b = sqrt 2 /\ b_dot_r_km b = 0 /\ magnitude_km b = sqrt 2.
Proof.
  assert (W : sqrt 2 * sqrt 2 = 2) by (apply sqrt_def; lra). assert (P : 0 < sqrt 2) by (apply sqrt_lt_R0; lra).
  set (w := sqrt 2) in *.
  assert (N : norm enc_r = 1).
  { apply unit_norm. unfold dot, enc_r; cbn [vx vy vz]; ring. }
  assert (Hr : enc_r <> vzero) by (unfold enc_r, vzero; intros E; injection E; lra).
  destruct (C81_exists 1 enc_r enc_v ltac:(lra) Hr) as [[_ [b Hb]] _].
  { rewrite N. split; [unfold dot, enc_v; cbn [vx vy vz]; lra|]. unfold enc_r, enc_v, cross, vzero; cbn [vx vy vz].
    intros E; injection E; lra. }
  exists b. split; [exact Hb|].
  assert (I : incoming 1 enc_r enc_v (V3 (1 / 3) (2 * w / 3) 0) (V3 (4 / 3) (- w / 3) 0)).
  { unfold incoming. rewrite N. refine (conj _ (conj _ _)); [unfold dot; cbn [vx vy vz]; nra|unfold dot; cbn [vx vy vz]; nra|].
    exists w. refine (conj P (conj _ (conj _ _))); [unfold dot, enc_v; cbn [vx vy vz]; lra| |];
      apply v3_eq; unfold enc_r, enc_v, cross, vscale, vadd, vsub; cbn [vx vy vz]; nra. }
  assert (Hs : s_hat b = V3 (1 / 3) (2 * w / 3) 0).
  { pose proof (new_ok 1 enc_r enc_v b Hb) as [He Eb]. destruct (pieces_values 1 _ _ ltac:(lra) He) as (J & _).
    destruct (reals_grad enc_r enc_v) as [E1 E2]. rewrite E1, E2 in J.
    rewrite Eb. exact (proj1 (C81_asymptote_unique 1 enc_r enc_v _ _ _ _ ltac:(lra) J I)). }
  assert (Hz : cross (s_hat b) zaxis <> vzero).
  { rewrite Hs. unfold cross, zaxis, vzero; cbn [vx vy vz]. intros E; injection E; lra. }
  destruct (C81_plane 1 enc_r enc_v b ltac:(lra) Hb Hz) as (B & J & RH & (k & Hk & K) & EB & M).
  rewrite Hs in J, RH, K. destruct (C81_asymptote_unique 1 enc_r enc_v _ _ _ _ ltac:(lra) J I) as [_ VB].
  destruct RH as (_ & T1 & _ & _ & _ & _ & RC).
  destruct (t_hat b) as [tx ty tz]. unfold cross, zaxis, vscale in K; cbn [vx vy vz] in K. injection K as K1 K2 K3.
  unfold dot in T1; cbn [vx vy vz] in T1.
  assert (k = 1).
  { assert (k * k * (tx * tx + ty * ty + tz * tz) = 1).
    { replace (k * k * (tx * tx + ty * ty + tz * tz)) with ((k * tx) * (k * tx) + (k * ty) * (k * ty) + (k * tz) * (k * tz)) by ring.
      rewrite <- K1, <- K2, <- K3. nra. }
    rewrite T1 in *. nra. }
  subst k. assert (X : tx = 2 * w / 3) by lra. assert (Y : ty = - (1 / 3)) by lra. assert (Z : tz = 0) by lra. subst tx ty tz.
  assert (HR : r_hat b = V3 0 0 (-1)).
  { rewrite <- RC. apply v3_eq; unfold cross; cbn [vx vy vz]; nra. }
  rewrite HR in EB. rewrite VB in EB. unfold vadd, vscale in EB; cbn [vx vy vz] in EB. injection EB as E1 E2 E3.
  refine (conj Hs (conj Hz (conj _ (conj _ _)))); [lra|lra|].
  rewrite M, VB. unfold norm, w. f_equal. unfold dot; cbn [vx vy vz]. fold w. nra.
Qed.

Example enc_meets : exists b, 0 < 1 /\ bplane_new (Some 1) enc_r enc_v = Ok b /\ cross (s_hat b) zaxis <> vzero /\
  magnitude_km b <> 0.
Proof.
  destruct enc as (b & Hb & _ & Hz & _ & _ & M). exists b. rewrite M.
  refine (conj Rlt_0_1 (conj Hb (conj Hz _))). apply Rgt_not_eq, sqrt_lt_R0. lra.
Qed.
(** A bound orbit has no B-plane. *)
Example bound_case : bplane_new (Some 1) enc_r (V3 0 1 0) = Err NotHyperbolic.
Proof.
  assert (N : norm enc_r = 1) by (apply unit_norm; unfold dot, enc_r; cbn [vx vy vz]; ring).
  assert (Hr : enc_r <> vzero) by (unfold enc_r, vzero; intros E; injection E; lra).
  destruct (C81_exists 1 enc_r (V3 0 1 0) ltac:(lra) Hr) as ([F _] & [H|H] & _); [|exact H].
  destruct (F H) as [Hw _]. rewrite N in Hw. unfold dot in Hw; cbn [vx vy vz] in Hw. lra.
Qed.

(** The spacecraft is not in the plane through the body normal to S, and yet the time of flight to it
    is zero. *)
Theorem C81_ltof_refuted : exists mu r v b, 0 < mu /\ bplane_new (Some mu) r v = Ok b /\
  dot r (s_hat b) <> 0 /\ re (ltof_s b) = 0.
Proof.
  destruct enc as (b & Hb & Hs & _). exists 1, enc_r, enc_v, b. refine (conj Rlt_0_1 (conj Hb (conj _ _))).
  - rewrite Hs. unfold dot, enc_r; cbn [vx vy vz]. lra.
  - exact (proj1 (C81_ltof_zero 1 enc_r enc_v b Rlt_0_1 Hb)).
Qed.

Lemma on_target b tg : bplane_new (Some 1) enc_r enc_v = Ok b -> b_dot_t_km b = t_bt tg -> b_dot_r_km b = t_br tg ->
  0 < tol_bt tg -> 0 < tol_br tg -> Rabs (t_ltof tg) < tol_ltof tg -> try_achieve_b_plane (Some 1) enc_r enc_v tg = Ok (vzero, b).
Proof.
  intros Hb Ht Hr Pt Pr Pl. destruct (C81_ltof_zero 1 enc_r enc_v b Rlt_0_1 Hb) as [Z _].
  unfold try_achieve_b_plane. cbn [achieve]. rewrite Hb. cbn [bind]. rewrite Ht, Hr, Z.
  replace (t_br tg - t_br tg) with 0 by ring. replace (t_bt tg - t_bt tg) with 0 by ring. rewrite Rabs_R0, Rminus_0_r.
  destruct (Rlt_dec 0 (tol_br tg)); [|lra]. destruct (Rlt_dec 0 (tol_bt tg)); [|lra]. destruct (Rlt_dec (Rabs (t_ltof tg)) (tol_ltof tg)); [|lra].
  destruct ltof_target_set; reflexivity.
Qed.
Example achieved_case : exists b, try_achieve_b_plane (Some 1) enc_r enc_v (from_bt_br (sqrt 2) 0) = Ok (vzero, b).
Proof.
  destruct enc as (b & Hb & _ & _ & Ht & Hr & _). exists b.
  apply on_target; cbn [from_bt_br t_bt t_br t_ltof tol_bt tol_br tol_ltof]; rewrite ?Rabs_R0; trivial; lra.
Qed.
Example step_case : exists m dv, least_squares m 2 3 = Ok dv /\ dv = V3 (-1) 3 0.
Proof.
  exists (fun i j => match i, j with 0%nat, 0%nat => 1 | 0%nat, 1%nat => 1 | 1%nat, 1%nat => 1 | _, _ => 0 end). eexists. split; [|reflexivity].
  unfold least_squares, row3, dot; cbn [vx vy vz]. destruct Req_EM_T as [E|E]; [lra|]. f_equal.
  apply v3_eq; unfold vadd, vscale; cbn [vx vy vz]; field.
Qed.

(** The default tolerance on the time of flight is said to be a second: an orbit with an error of an hour
    is accepted. *)
Theorem C82_default_tolerance_refuted : exists mu r v bt br ltof dv b, 0 < mu /\
  try_achieve_b_plane (Some mu) r v (from_targets bt br ltof) = Ok (dv, b) /\ Rabs (ltof - re (ltof_s b)) = 3600.
Proof.
  destruct enc as (b & Hb & _ & _ & Ht & Hr & _). exists 1, enc_r, enc_v, (sqrt 2), 0, 3600, vzero, b.
  destruct (C81_ltof_zero 1 enc_r enc_v b Rlt_0_1 Hb) as [Z _].
  refine (conj Rlt_0_1 (conj _ _)); [|rewrite Z, Rminus_0_r, Rabs_pos_eq; lra].
  apply on_target; cbn [from_targets t_bt t_br t_ltof tol_bt tol_br tol_ltof]; trivial; try lra. rewrite Rabs_pos_eq; lra.
Qed.
(** A time of flight of seven hours is never achieved, by any orbit. *)
Theorem C82_ltof_refuted : exists ltof, 0 < ltof /\
  forall mu r v bt br dv b, 0 < mu -> try_achieve_b_plane (Some mu) r v (from_targets bt br ltof) <> Ok (dv, b).
Proof.
  exists 25200. split; [lra|]. intros mu r v bt br dv b Hm.
  apply C82_ltof_never; [exact Hm| |].
  - unfold ltof_target_set. cbn [from_targets t_ltof]. rewrite Rabs_pos_eq by lra. destruct Rlt_dec; [reflexivity|lra].
  - cbn [from_targets t_ltof tol_ltof]. rewrite Rabs_pos_eq by lra. lra.
Qed.
Example ltof_case : exists tg dv b, ltof_target_set tg = true /\ try_achieve_b_plane (Some 1) enc_r enc_v tg = Ok (dv, b).
Proof.
  destruct enc as (b & Hb & _ & _ & Ht & Hr & _). exists (from_targets (sqrt 2) 0 3600), vzero, b. split.
  - unfold ltof_target_set. cbn [from_targets t_ltof]. rewrite Rabs_pos_eq by lra. destruct Rlt_dec; [reflexivity|lra].
  - apply on_target; cbn [from_targets t_bt t_br t_ltof tol_bt tol_br tol_ltof]; trivial; try lra. rewrite Rabs_pos_eq; lra.
Qed.

Print Assumptions C81_exists.
Print Assumptions C81_plane.
Print Assumptions C81_asymptote_unique.
Print Assumptions C81_angle.
Print Assumptions C81_jacobian.
Print Assumptions C81_jacobian2.
Print Assumptions C81_ltof_zero.
Print Assumptions C81_ltof_refuted.
Print Assumptions C82_achieved.
Print Assumptions C82_step.
Print Assumptions C82_closer.
Print Assumptions C82_bt_br.
Print Assumptions C82_ineffective.
Print Assumptions C82_ltof_never.
Print Assumptions C82_ltof_flat.
Print Assumptions C82_default_tolerance_refuted.
Print Assumptions C82_ltof_refuted.
