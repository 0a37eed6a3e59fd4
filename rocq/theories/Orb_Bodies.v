(** C73, the gravity of other bodies (orbital.rs [PointMasses]). *)
From Coq Require Import Reals ZArith List Lra Lia Psatz.
From Coquelicot Require Import Coquelicot.
From Verif Require Import Base Vec3 Sc_Model Dyn_Model Dual Orb_Model Orb_Spec Orb_Props.
Import ListNotations.
Local Open Scope R_scope.

Section Bodies.
Context (mu_of : nat -> res dyn_error R) (center : nat -> Z -> bool)
        (info : nat -> Z -> res dyn_error nat) (position_of : nat -> nat -> Z -> res dyn_error v3).

Notation attracted := (attracted mu_of center info position_of).
Notation model := (point_masses mu_of center info position_of).

(** What the code adds for a body. *)
Definition pull (r : v3) (b : R * v3) : v3 :=
  vscale (- fst b) (vadd (vscale (/ norm (vsub r (snd b)) ^ 3) (vsub r (snd b)))
                         (vscale (/ norm (snd b) ^ 3) (snd b))).

Lemma norm_sub_sym a b : norm (vsub a b) = norm (vsub b a).
Proof. unfold norm. f_equal. unfold dot, vsub; cbn. ring. Qed.

Lemma pull_tidal r b : pull r b = tidal r b.
Proof.
  destruct b as [mu p]. unfold pull, tidal. cbn [fst snd]. rewrite (norm_sub_sym p r).
  apply v3_eq; cbn [vx vy vz vadd vsub vscale]; unfold Rdiv; ring.
Qed.

Lemma pm_eom_spec l o acc a : pm_eom mu_of center info position_of l o acc = Ok a <->
  exists ps, attracted o l ps /\ a = vadd acc (vsum (map (pull (radius_km o)) ps)).
Proof.
  revert acc. induction l as [|b l IH]; intros acc; cbn [pm_eom].
  - split.
    + intros H. exists []. split; [constructor|]. cbn. rewrite vadd_0_r. congruence.
    + intros (ps & H & ->). inversion H; subst. cbn. now rewrite vadd_0_r.
  - destruct (center (frame o) b) eqn:Ec.
    + rewrite IH. split; intros (ps & H & ->); exists ps; (split; [|reflexivity]).
      * now constructor.
      * inversion H; subst; [assumption|congruence].
    + split.
      * intros H. apply bind_ok in H as (f & Hf & H). apply bind_ok in H as (p & Hp & H).
        apply bind_ok in H as (mu & Hm & H). apply IH in H as (ps & A & ->).
        exists ((mu, p) :: ps). split; [econstructor; eassumption|].
        cbn [map vsum]. rewrite vadd_assoc. reflexivity.
      * intros (ps & H & ->). inversion H as [|? ? ? Hc|? ? qs f p mu Hc Hf Hp Hm A]; subst; [congruence|].
        rewrite Hf. cbn [bind]. rewrite Hp. cbn [bind]. rewrite Hm. cbn [bind].
        apply IH. exists qs. split; [exact A|]. cbn [map vsum]. now rewrite vadd_assoc.
Qed.

Lemma attracted_moved o o' l ps : frame o = frame o' -> epoch o = epoch o' ->
  attracted o l ps -> attracted o' l ps.
Proof.
  intros F E. induction 1 as [|b l ps Hc A IH|b l ps f p mu Hc Hf Hp Hm A IH].
  - constructor.
  - constructor; [congruence|assumption].
  - econstructor; try eassumption; congruence.
Qed.

(** The acceleration is the sum of Newton's pulls of the bodies other than the center, less
    their pulls on the center. *)
Theorem C73_point_masses : forall bodies o a, a_eom (model bodies) o = Ok a <->
  exists ps, attracted o bodies ps /\ a = vsum (map (tidal (radius_km o)) ps).
Proof.
  intros bodies o a. cbn [a_eom point_masses]. rewrite pm_eom_spec.
  split; intros (ps & A & E); exists ps; (split; [exact A|]); rewrite E, ?vadd_0_l.
  - f_equal. apply map_ext. intros. apply pull_tidal.
  - f_equal. apply map_ext. intros. symmetry. apply pull_tidal.
Qed.

Lemma derive_rsum {A} (l : list A) (f : A -> R -> R) (d : A -> R) :
  (forall x, In x l -> is_derive (f x) 0 (d x)) ->
  is_derive (fun h => rsum (map (fun x => f x h) l)) 0 (rsum (map d l)).
Proof.
  induction l as [|x l IH]; intros H; cbn [map rsum].
  - apply (is_derive_const 0).
  - apply (is_derive_plus (f x) (fun h => rsum (map (fun y => f y h) l))).
    + apply H. now left.
    + apply IH. intros y Hy. apply H. now right.
Qed.

Lemma comp_vsum l i : comp (vsum l) i = rsum (map (fun a => comp a i) l).
Proof.
  induction l as [|a l IH]; cbn [vsum map rsum]; [now destruct i as [|[|i]]|].
  now rewrite comp_vadd, IH.
Qed.

Lemma vsub_neq a b : a <> b -> vsub b a <> vzero.
Proof.
  intros N E. apply N. apply v3_eq; [apply (f_equal vx) in E|apply (f_equal vy) in E|apply (f_equal vz) in E];
    cbn in E; lra.
Qed.

Definition axis (j : nat) : v3 :=
  V3 (if (S j =? 1)%nat then 1 else 0) (if (S j =? 2)%nat then 1 else 0) (if (S j =? 3)%nat then 1 else 0).

Lemma dot_axis u j : (j < 3)%nat -> dot u (axis j) = comp u j.
Proof. intros H. destruct j as [|[|[|j]]]; [| | |lia]; unfold dot, axis; cbn; ring. Qed.

Lemma shift_derives j h p : derives (fun s => shift (S j) s p) h (axis j).
Proof.
  unfold derives, shift, axis. cbn [vx vy vz].
  refine (conj _ (conj _ _)); destruct (S j =? _)%nat; auto_derive; trivial; ring.
Qed.

(** It is the gradient of the disturbing function. *)
Theorem C73_disturbing_function : forall bodies o a ps, a_eom (model bodies) o = Ok a ->
  attracted o bodies ps -> (forall mu p, In (mu, p) ps -> p <> radius_km o) ->
  forall j, (j < 3)%nat ->
  is_derive (fun h => rsum (map (disturbing (shift (S j) h (radius_km o))) ps)) 0 (comp a j).
Proof.
  intros bodies o a ps Ha A N j Hj.
  assert (E : a = vsum (map (tidal (radius_km o)) ps)).
  { cbn [a_eom point_masses] in Ha.
    rewrite (proj2 (pm_eom_spec _ _ _ _) (ex_intro _ ps (conj A eq_refl))) in Ha.
    rewrite vadd_0_l in Ha. transitivity (vsum (map (pull (radius_km o)) ps)); [congruence|].
    f_equal. apply map_ext. intros. apply pull_tidal. }
  subst a. rewrite comp_vsum, map_map. clear Ha A.
  apply (derive_rsum ps (fun b h => disturbing (shift (S j) h (radius_km o)) b)
           (fun b => comp (tidal (radius_km o) b) j)).
  intros [mu p] Hin. specialize (N mu p Hin). set (r := radius_km o) in *.
  assert (N' : vsub p r <> vzero) by (apply vsub_neq; congruence).
  assert (D : is_derive (fun h => norm (vsub p (shift (S j) h r))) 0
                (dot (vsub p (shift (S j) 0 r)) (vscale (-1) (axis j)) / norm (vsub p (shift (S j) 0 r)))).
  { apply (derive_norm (fun h => vsub p (shift (S j) h r))).
    - rewrite shift_0. exact N'.
    - destruct (shift_derives j 0 r) as (X & Y & Z).
      refine (conj _ (conj _ _)); cbn [vsub vscale vx vy vz].
      + evar_last; [apply (is_derive_minus (fun _ => vx p) (fun h => vx (shift (S j) h r)));
          [apply (is_derive_const (vx p))|exact X]|]. unfold minus, plus, opp, zero; cbn. ring.
      + evar_last; [apply (is_derive_minus (fun _ => vy p) (fun h => vy (shift (S j) h r)));
          [apply (is_derive_const (vy p))|exact Y]|]. unfold minus, plus, opp, zero; cbn. ring.
      + evar_last; [apply (is_derive_minus (fun _ => vz p) (fun h => vz (shift (S j) h r)));
          [apply (is_derive_const (vz p))|exact Z]|]. unfold minus, plus, opp, zero; cbn. ring. }
  rewrite shift_0 in D. rewrite dot_comm, dot_scale, dot_comm, dot_axis in D by exact Hj.
  assert (P : 0 < norm (vsub p r)) by now apply norm_pos.
  unfold disturbing. evar_last.
  - apply (is_derive_minus (fun h => mu / norm (vsub p (shift (S j) h r)))
             (fun h => mu * dot (shift (S j) h r) p / norm p ^ 3)).
    + apply (is_derive_ext (fun h => mu * / norm (vsub p (shift (S j) h r)))); [reflexivity|].
      apply is_derive_scal. apply is_derive_inv; [exact D|]. rewrite shift_0. lra.
    + apply (is_derive_ext (fun h => mu / norm p ^ 3 * dot (shift (S j) h r) p)).
      { intros h. cbn. unfold Rdiv. ring. }
      apply is_derive_scal.
      assert (DD : is_derive (fun h => dot (shift (S j) h r) p) 0 (dot (axis j) p)).
      { destruct (shift_derives j 0 r) as (X & Y & Z). unfold dot.
        apply (is_derive_plus (fun h => vx (shift (S j) h r) * vx p + vy (shift (S j) h r) * vy p)
                 (fun h => vz (shift (S j) h r) * vz p)).
        - apply (is_derive_plus (fun h => vx (shift (S j) h r) * vx p) (fun h => vy (shift (S j) h r) * vy p)).
          + apply (is_derive_scal_l (fun h => vx (shift (S j) h r)) 0 (vx (axis j)) (vx p)). exact X.
          + apply (is_derive_scal_l (fun h => vy (shift (S j) h r)) 0 (vy (axis j)) (vy p)). exact Y.
        - apply (is_derive_scal_l (fun h => vz (shift (S j) h r)) 0 (vz (axis j)) (vz p)). exact Z. }
      exact DD.
  - rewrite dot_comm, dot_axis, shift_0 by exact Hj. unfold tidal.
    replace (comp (vsub (vscale (mu / norm (vsub p r) ^ 3) (vsub p r)) (vscale (mu / norm p ^ 3) p)) j)
      with (mu / norm (vsub p r) ^ 3 * comp (vsub p r) j - mu / norm p ^ 3 * comp p j)
      by (destruct j as [|[|j]]; reflexivity).
    unfold minus, plus, opp, scal; cbn. unfold mult; cbn.
    unfold Rdiv. set (k := / (norm p * (norm p * (norm p * 1)))). field. lra.
Qed.

(** * The gradient that the code computes *)

Lemma set_partial_tracks j x y : (j < 3)%nat -> forall i, (i < 3)%nat ->
  tracks (S j) (fun h => x + (if (S j =? S i)%nat then h else 0) - y)
    (set_partial (S i) (dsub (dvar i x) (dvar i y))).
Proof.
  intros Hj i Hi. split; cbn [set_partial re du dsub dvar].
  - destruct (S j =? S i)%nat; ring.
  - destruct (S j =? S i)%nat eqn:E.
    + auto_derive; trivial; ring.
    + auto_derive; trivial; ring.
Qed.

Lemma third_tracks j r p : (j < 3)%nat ->
  tracks3 (S j) (fun h => vsub (shift (S j) h r) p)
    (D3 (set_partial 1 (ux (d3_sub (hyperspace r) (hyperspace p))))
        (set_partial 2 (uy (d3_sub (hyperspace r) (hyperspace p))))
        (set_partial 3 (uz (d3_sub (hyperspace r) (hyperspace p))))).
Proof.
  intros Hj. refine (conj _ (conj _ _)); cbn [ux uy uz d3_sub hyperspace vsub shift vx vy vz];
    apply set_partial_tracks; lia.
Qed.

(** The dual numbers follow this function of the displacement: the other body moves too. *)
Definition pull_moving (j : nat) (r : v3) (b : R * v3) (h : R) : v3 :=
  vscale (- fst b)
    (vadd (vscale (/ norm (vsub (shift (S j) h r) (snd b)) ^ 3) (vsub (shift (S j) h r) (snd b)))
          (vscale (/ norm (shift (S j) h (snd b)) ^ 3) (shift (S j) h (snd b)))).

Definition pull_dual (r : v3) (b : R * v3) : d3 :=
  let r_ij := hyperspace (snd b) in
  let r_j0 := d3_sub (hyperspace r) r_ij in
  let r_j := D3 (set_partial 1 (ux r_j0)) (set_partial 2 (uy r_j0)) (set_partial 3 (uz r_j0)) in
  d3_mul (d3_add (d3_div r_j (dpow (dnorm r_j) 3)) (d3_div r_ij (dpow (dnorm r_ij) 3))) (dconst (- fst b)).

Lemma pull_dual_tracks j r b : (j < 3)%nat -> snd b <> vzero -> snd b <> r ->
  tracks3 (S j) (pull_moving j r b) (pull_dual r b).
Proof.
  intros Hj N1 N2. unfold pull_moving, pull_dual. cbv zeta.
  pose proof (third_tracks j r (snd b) Hj) as T.
  assert (N : vsub r (snd b) <> vzero) by now apply vsub_neq.
  assert (V : reals (D3 (set_partial 1 (ux (d3_sub (hyperspace r) (hyperspace (snd b)))))
        (set_partial 2 (uy (d3_sub (hyperspace r) (hyperspace (snd b)))))
        (set_partial 3 (uz (d3_sub (hyperspace r) (hyperspace (snd b)))))) = vsub r (snd b)) by reflexivity.
  apply (tracks3_d3_mul (S j) _ _ (fun _ => - fst b)); [|apply tracks_const].
  apply tracks3_add; apply tracks3_d3_div.
  - cbn [re dpow]. rewrite dnorm_re, V. apply pow3_nz. apply norm_pos in N. lra.
  - exact T.
  - apply tracks_pow. apply tracks_norm; [now rewrite V|exact T].
  - cbn [re dpow]. rewrite dnorm_re, reals_hyperspace. apply pow3_nz. apply norm_pos in N1. lra.
  - apply tracks3_var.
  - apply tracks_pow. apply (tracks_norm (S j) (fun h => shift (S j) h (snd b))); [now rewrite reals_hyperspace|].
    apply tracks3_var.
Qed.

Lemma pm_gradient_spec l o acc g a g' :
  pm_gradient mu_of center info position_of l o acc g = Ok (a, g') ->
  exists ps, attracted o l ps /\
    a = vadd acc (vsum (map (fun b => reals (pull_dual (radius_km o) b)) ps)) /\
    forall i j, g' i j = g i j + rsum (map (fun b => du (dcomp (pull_dual (radius_km o) b) i) (S j)) ps).
Proof.
  revert acc g. induction l as [|b l IH]; intros acc g; cbn [pm_gradient].
  - intros H. assert (acc = a /\ g = g') as [-> ->] by (split; congruence).
    exists []. split; [constructor|]. split; [cbn; now rewrite vadd_0_r|]. intros. cbn. ring.
  - destruct (center (frame o) b) eqn:Ec.
    + intros H. apply IH in H as (ps & A & E & G). exists ps. split; [now constructor|]. now split.
    + intros H. apply bind_ok in H as (f & Hf & H). apply bind_ok in H as (mu & Hm & H).
      apply bind_ok in H as (p & Hp & H). apply IH in H as (ps & A & E & G).
      exists ((mu, p) :: ps). split; [econstructor; eassumption|]. split.
      * rewrite E. cbn [map vsum]. rewrite vadd_assoc. reflexivity.
      * intros i j. rewrite G. cbn [map rsum]. unfold pull_dual at 2. cbn [fst snd]. cbv zeta. ring.
Qed.

Lemma pm_gradient_total l o acc g ps : attracted o l ps ->
  exists r, pm_gradient mu_of center info position_of l o acc g = Ok r.
Proof.
  intros A. revert acc g. induction A as [|b l ps Hc A IH|b l ps f p mu Hc Hf Hp Hm A IH];
    intros acc g; cbn [pm_gradient]; [eauto| |].
  - rewrite Hc. apply IH.
  - rewrite Hc, Hf. cbn [bind]. rewrite Hm. cbn [bind]. rewrite Hp. cbn [bind]. apply IH.
Qed.

Lemma attracted_unique o l ps : attracted o l ps -> forall qs, attracted o l qs -> ps = qs.
Proof.
  induction 1 as [|b l ps Hc A IH|b l ps f p mu Hc Hf Hp Hm A IH]; intros qs Q.
  - now inversion Q.
  - inversion Q; subst; [now apply IH|congruence].
  - inversion Q as [|? ? ? Hc'|? ? qs' f' p' mu' Hc' Hf' Hp' Hm' A']; subst; [congruence|].
    assert (f = f') by congruence. subst f'. assert (p = p') by congruence. assert (mu = mu') by congruence.
    subst. f_equal. now apply IH.
Qed.

(** Derivative of the field of a point mass. *)
Lemma derive_field p i j : p <> vzero -> (i < 3)%nat -> (j < 3)%nat ->
  is_derive (fun h => comp (vscale (/ norm (shift (S j) h p) ^ 3) (shift (S j) h p)) i) 0
    (- gravity_gradient 1 p i j).
Proof.
  intros N Hi Hj.
  assert (P : 0 < norm p) by now apply norm_pos.
  assert (D : is_derive (fun h => norm (shift (S j) h p)) 0 (comp p j / norm p)).
  { pose proof (derive_norm (fun h => shift (S j) h p) 0 (axis j)) as D.
    cbv beta in D. rewrite shift_0, dot_axis in D by exact Hj. apply D; [exact N|apply shift_derives]. }
  assert (C : is_derive (fun h => comp (shift (S j) h p) i) 0 (if (i =? j)%nat then 1 else 0)).
  { destruct (shift_derives j 0 p) as (X & Y & Z).
    destruct i as [|[|[|i]]]; [| | |lia]; cbn [comp];
      destruct j as [|[|[|j]]]; try lia; assumption. }
  apply (is_derive_ext (fun h => / norm (shift (S j) h p) ^ 3 * comp (shift (S j) h p) i)).
  { intros h. destruct i as [|[|i]]; reflexivity. }
  evar_last.
  - apply (is_derive_mult (fun h => / norm (shift (S j) h p) ^ 3) (fun h => comp (shift (S j) h p) i)).
    + apply is_derive_inv; [apply (is_derive_pow (fun h => norm (shift (S j) h p)) 3); exact D|].
      rewrite shift_0. apply pow3_nz. lra.
    + exact C.
    + intros. apply Rmult_comm.
  - cbv beta. rewrite shift_0. unfold gravity_gradient, plus, mult; cbn. field. lra.
Qed.

(** What the gradient is: that of the acceleration, plus for each body the gradient of its
    field at the center, which no displacement of the spacecraft changes. *)
Theorem C73_point_mass_gradient_excess : forall bodies o a g ps,
  a_gradient (model bodies) o = Ok (a, g) -> attracted o bodies ps ->
  (forall mu p, In (mu, p) ps -> p <> vzero /\ p <> radius_km o) ->
  derivative_of (a_eom (model bodies)) o a
    (fun i j => g i j - rsum (map (fun b => gravity_gradient (fst b) (snd b) i j) ps)).
Proof.
  intros bodies o a g ps H A N. cbn [a_gradient point_masses] in H.
  apply pm_gradient_spec in H as (qs & Q & Ha & Hg).
  assert (qs = ps) by (eapply attracted_unique; eassumption). subst qs. clear Q.
  assert (T : forall j, (j < 3)%nat -> forall b, In b ps ->
    tracks3 (S j) (pull_moving j (radius_km o) b) (pull_dual (radius_km o) b)).
  { intros j Hj [mu p] Hb. destruct (N mu p Hb) as [N1 N2]. now apply pull_dual_tracks. }
  assert (V : a = vsum (map (pull (radius_km o)) ps)).
  { rewrite Ha, vadd_0_l. f_equal. apply map_ext_in. intros b Hb.
    rewrite <- (tracks3_value _ _ _ (T 0%nat ltac:(lia) b Hb)). unfold pull_moving, pull.
    rewrite !shift_0. reflexivity. }
  split.
  { cbn [a_eom point_masses]. apply pm_eom_spec. exists ps. split; [exact A|]. now rewrite vadd_0_l. }
  intros j Hj. exists (fun h => vsum (map (pull (shift (S j) h (radius_km o))) ps)). split.
  { intros h. cbn [a_eom point_masses]. apply pm_eom_spec. exists ps. split.
    - apply (attracted_moved o); [reflexivity|reflexivity|exact A].
    - now rewrite vadd_0_l. }
  intros i Hi. rewrite Hg.
  apply (is_derive_ext (fun h => rsum (map (fun b => comp (pull (shift (S j) h (radius_km o)) b) i) ps))).
  { intros h. now rewrite comp_vsum, map_map. }
  replace (0 + rsum (map (fun b => du (dcomp (pull_dual (radius_km o) b) i) (S j)) ps)
           - rsum (map (fun b => gravity_gradient (fst b) (snd b) i j) ps))
    with (rsum (map (fun b => du (dcomp (pull_dual (radius_km o) b) i) (S j)
                               - gravity_gradient (fst b) (snd b) i j) ps)).
  2:{ clear. induction ps as [|b ps IH]; cbn [map rsum]; [ring|]. rewrite IH. ring. }
  apply (derive_rsum ps (fun b h => comp (pull (shift (S j) h (radius_km o)) b) i)).
  intros [mu p] Hb. destruct (N mu p Hb) as [N1 N2].
  pose proof (tracks3_derive _ _ _ i (T j Hj _ Hb)) as D.
  cbn [fst snd].
  apply (is_derive_ext (fun h => comp (pull_moving j (radius_km o) (mu, p) h) i
           - (- mu * (comp (vscale (/ norm (shift (S j) h p) ^ 3) (shift (S j) h p)) i
                      - comp (vscale (/ norm p ^ 3) p) i)))).
  { intros h. unfold pull_moving, pull. cbn [fst snd].
    destruct i as [|[|i]]; cbn [comp vscale vadd vx vy vz]; match goal with |- @eq _ ?x ?y => change (@eq R x y) end; ring. }
  evar_last.
  - apply (is_derive_minus (fun h => comp (pull_moving j (radius_km o) (mu, p) h) i)
             (fun h => - mu * (comp (vscale (/ norm (shift (S j) h p) ^ 3) (shift (S j) h p)) i
                      - comp (vscale (/ norm p ^ 3) p) i))); [exact D|].
    apply is_derive_scal.
    apply (is_derive_minus (fun h => comp (vscale (/ norm (shift (S j) h p) ^ 3) (shift (S j) h p)) i)
             (fun _ => comp (vscale (/ norm p ^ 3) p) i)); [now apply derive_field|].
    apply (is_derive_const (comp (vscale (/ norm p ^ 3) p) i)).
  - unfold minus, plus, opp, zero; cbn. unfold gravity_gradient.
    set (d := du (dcomp (pull_dual (radius_km o) (mu, p)) i) (S j)). unfold Rdiv. ring.
Qed.

(** Without any other body the gradient is right. *)
Theorem C73_center_only : forall bodies o, (forall b, In b bodies -> center (frame o) b = true) ->
  exists g, a_gradient (model bodies) o = Ok (vzero, g) /\
    derivative_of (a_eom (model bodies)) o vzero g.
Proof.
  intros bodies o H.
  assert (A : attracted o bodies []).
  { induction bodies as [|b l IH]; constructor; [now apply H; left|]. apply IH. intros. apply H. now right. }
  destruct (pm_gradient_total bodies o vzero (fun _ _ => 0) [] A) as [[a g] G].
  pose proof (C73_point_mass_gradient_excess bodies o a g [] G A ltac:(intros ? ? [])) as D.
  assert (a = vzero).
  { destruct D as [D _]. cbn [a_eom point_masses] in D.
    rewrite (proj2 (pm_eom_spec _ _ _ _) (ex_intro _ [] (conj A eq_refl))) in D.
    cbn in D. rewrite vadd_0_r in D. congruence. }
  subst a. exists g. split; [exact G|]. destruct D as [D1 D2]. split; [exact D1|].
  intros j Hj. destruct (D2 j Hj) as (F & F1 & F2). exists F. split; [exact F1|].
  intros i Hi. specialize (F2 i Hi). cbn [map rsum] in F2. now rewrite Rminus_0_r in F2.
Qed.
End Bodies.

(** * A concrete case *)

Definition one_body_mu (f : nat) : res dyn_error R := Ok 1.
Definition not_center (f : nat) (b : Z) : bool := (b =? 0)%Z.
Definition one_frame (f : nat) (b : Z) : res dyn_error nat := Ok 7%nat.
Definition at_two (f t : nat) (e : Z) : res dyn_error v3 := Ok (V3 2 0 0).
Definition case_orbit : orbit := Orbit 0%Z 0%nat (V3 1 0 0) (V3 0 1 0).

Lemma norm_axis x : norm (V3 x 0 0) = Rabs x.
Proof. unfold norm, dot; cbn. replace (x * x + 0 * 0 + 0 * 0) with (Rsqr x) by (unfold Rsqr; ring). apply sqrt_Rsqr_abs. Qed.

Lemma case_attracted : attracted one_body_mu not_center one_frame at_two case_orbit [0%Z; 5%Z] [(1, V3 2 0 0)].
Proof. apply attracted_center; [reflexivity|]. apply attracted_pull with (f := 7%nat); try reflexivity. apply attracted_nil. Qed.

Example C73_case_acceleration :
  a_eom (point_masses one_body_mu not_center one_frame at_two [0%Z; 5%Z]) case_orbit = Ok (V3 (3 / 4) 0 0).
Proof.
  apply C73_point_masses. exists [(1, V3 2 0 0)]. split; [exact case_attracted|].
  cbn [map vsum tidal radius_km case_orbit].
  replace (vsub (V3 2 0 0) (V3 1 0 0)) with (V3 1 0 0) by (apply v3_eq; cbn; ring).
  rewrite !norm_axis. rewrite !Rabs_pos_eq by lra.
  apply v3_eq; cbn; field.
Qed.

(** The gradient is not the derivative of the acceleration: here it is 9/4 instead of 2. *)
Theorem C73_point_mass_gradient_refuted :
  exists mu_of center info position_of bodies o a g,
    a_gradient (point_masses mu_of center info position_of bodies) o = Ok (a, g) /\
    a_eom (point_masses mu_of center info position_of bodies) o = Ok a /\
    exists F, (forall h, a_eom (point_masses mu_of center info position_of bodies) (moved 0 h o) = Ok (F h)) /\
      is_derive (fun h => vx (F h)) 0 2 /\ g 0%nat 0%nat = 9 / 4.
Proof.
  exists one_body_mu, not_center, one_frame, at_two, [0%Z; 5%Z], case_orbit.
  destruct (pm_gradient_total one_body_mu not_center one_frame at_two [0%Z; 5%Z] case_orbit vzero (fun _ _ => 0) _ case_attracted)
    as [[a g] G].
  exists a, g. split; [exact G|].
  destruct (C73_point_mass_gradient_excess one_body_mu not_center one_frame at_two [0%Z; 5%Z] case_orbit a g _ G case_attracted)
    as [D1 D2].
  { intros mu p [E|[]]. injection E as <- <-. split; intros X; apply (f_equal vx) in X; cbn in X; lra. }
  split; [exact D1|]. destruct (D2 0%nat ltac:(lia)) as (F & F1 & F2). exists F. split; [exact F1|].
  specialize (F2 0%nat ltac:(lia)). cbn [map rsum fst snd comp] in F2.
  assert (X : gravity_gradient 1 (V3 2 0 0) 0 0 = 1 / 4).
  { unfold gravity_gradient. rewrite norm_axis, Rabs_pos_eq by lra. cbn. field. }
  assert (Y : is_derive (fun h => vx (F h)) 0 2).
  { apply (is_derive_ext (fun h => -1 * (vx (vscale (/ norm (shift 1 h (V3 (-1) 0 0)) ^ 3) (shift 1 h (V3 (-1) 0 0)))
                                        + vx (vscale (/ norm (V3 2 0 0) ^ 3) (V3 2 0 0))))).
    { intros h. specialize (F1 h). cbn [a_eom point_masses] in F1. apply pm_eom_spec in F1 as (ps & A & ->).
      assert (ps = [(1, V3 2 0 0)]) as ->.
      { eapply attracted_unique; [exact A|]. apply (attracted_moved _ _ _ _ case_orbit); [reflexivity|reflexivity|].
        exact case_attracted. }
      cbn [map vsum moved radius_km case_orbit]. unfold pull. cbn [fst snd].
      replace (vsub (shift 1 h (V3 1 0 0)) (V3 2 0 0)) with (shift 1 h (V3 (-1) 0 0))
        by (apply v3_eq; unfold shift, vsub; cbn [vx vy vz Nat.eqb]; ring).
      unfold vadd, vzero. cbn [vx vy vz vscale].
      match goal with |- @eq _ ?x ?y => change (@eq R x y) end. ring. }
    pose proof (derive_field (V3 (-1) 0 0) 0 0) as D. cbn [comp] in D.
    evar_last.
    - apply is_derive_scal.
      apply (is_derive_plus (fun h => vx (vscale (/ norm (shift 1 h (V3 (-1) 0 0)) ^ 3) (shift 1 h (V3 (-1) 0 0))))
               (fun _ => vx (vscale (/ norm (V3 2 0 0) ^ 3) (V3 2 0 0)))).
      + apply D; [|lia|lia]. intros E. apply (f_equal vx) in E. cbn in E. lra.
      + apply (is_derive_const (vx (vscale (/ norm (V3 2 0 0) ^ 3) (V3 2 0 0)))).
    - unfold plus, zero, gravity_gradient. cbn [AbelianGroup.plus AbelianGroup.zero R_AbelianGroup comp vx Nat.eqb].
      rewrite norm_axis. replace (Rabs (-1)) with 1 by (rewrite Rabs_left by lra; ring). cbn [pow].
      match goal with |- @eq _ ?x ?y => change (@eq R x y) end. unfold zero, plus; cbn. field. }
  split; [exact Y|].
  pose proof (is_derive_unique _ _ _ Y) as U1. pose proof (is_derive_unique _ _ _ F2) as U2.
  cbv beta in U1, U2. rewrite X in U2. change (Derive (fun h => vx (F h)) 0 = g 0%nat 0%nat - (1 / 4 + 0)) in U2.
  assert (U3 : 2 = g 0%nat 0%nat - (1 / 4 + 0)) by (etransitivity; [symmetry; exact U1|exact U2]). lra.
Qed.

(** A body listed twice pulls twice. *)
Theorem C73_duplicate_refuted : exists mu_of center info position_of b o a a2,
  a_eom (point_masses mu_of center info position_of [b]) o = Ok a /\
  a_eom (point_masses mu_of center info position_of [b; b]) o = Ok a2 /\ a2 <> a.
Proof.
  exists one_body_mu, not_center, one_frame, at_two, 5%Z, case_orbit, (V3 (3/4) 0 0), (V3 (3/2) 0 0).
  assert (E : tidal (radius_km case_orbit) (1, V3 2 0 0) = V3 (3 / 4) 0 0).
  { cbn [tidal radius_km case_orbit].
    replace (vsub (V3 2 0 0) (V3 1 0 0)) with (V3 1 0 0) by (apply v3_eq; cbn; ring).
    rewrite !norm_axis. rewrite !Rabs_pos_eq by lra. apply v3_eq; cbn; field. }
  split; [|split].
  - apply C73_point_masses. exists [(1, V3 2 0 0)]. split.
    + apply attracted_pull with (f := 7%nat); try reflexivity. apply attracted_nil.
    + cbn [map vsum]. rewrite E. apply v3_eq; cbn; ring.
  - apply C73_point_masses. exists [(1, V3 2 0 0); (1, V3 2 0 0)]. split.
    + do 2 (apply attracted_pull with (f := 7%nat); try reflexivity). apply attracted_nil.
    + cbn [map vsum]. rewrite E. apply v3_eq; cbn; field.
  - intros X. apply (f_equal vx) in X. cbn in X. lra.
Qed.

(** Two bodies: the circular orbit of radius one around a unit mass meets the hypotheses of
    the conservation theorems. *)
Lemma norm_circle t : norm (V3 (cos t) (sin t) 0) = 1.
Proof.
  unfold norm, dot; cbn. replace (cos t * cos t + sin t * sin t + 0 * 0) with 1; [apply sqrt_1|].
  pose proof (sin2_cos2 t) as H. unfold Rsqr in H. lra.
Qed.
Example C73_circle : forall a b, a <= b ->
  (forall t, a <= t <= b -> V3 (cos t) (sin t) 0 <> vzero) /\
  solves one_body_mu [] 0%nat (fun _ => 0%Z) (fun t => V3 (cos t) (sin t) 0) (fun t => V3 (- sin t) (cos t) 0) a b.
Proof.
  intros a b Hab. split.
  - intros t _ E. pose proof (norm_circle t) as N. rewrite E in N.
    rewrite (proj2 (norm_zero_iff vzero) eq_refl) in N. lra.
  - intros t Ht. exists (V3 (- cos t) (- sin t) 0). split.
    + apply C73_sum. split; [reflexivity|]. exists 1, []. split; [reflexivity|]. split; [constructor|].
      cbn [radius_km vsum]. rewrite norm_circle. apply v3_eq; cbn; field.
    + unfold derives. cbn [vx vy vz].
      refine (conj (conj _ (conj _ _)) (conj _ (conj _ _))); auto_derive; trivial; ring.
Qed.

(** The hypotheses of [C73_gradient] with a model that has no other body. *)
Example C73_gradient_case :
  let m := point_masses one_body_mu not_center one_frame at_two [0%Z] in
  one_body_mu (frame case_orbit) = Ok 1 /\ radius_km case_orbit <> vzero /\
  forall m', In m' [m; m] -> exists a g, a_gradient m' case_orbit = Ok (a, g) /\
    derivative_of (a_eom m') case_orbit a g.
Proof.
  cbv zeta. split; [reflexivity|]. split; [intros E; apply (f_equal vx) in E; cbn in E; lra|].
  assert (G : exists a g, a_gradient (point_masses one_body_mu not_center one_frame at_two [0%Z]) case_orbit = Ok (a, g) /\
    derivative_of (a_eom (point_masses one_body_mu not_center one_frame at_two [0%Z])) case_orbit a g).
  { destruct (C73_center_only one_body_mu not_center one_frame at_two [0%Z] case_orbit) as (g & A & B); [|eauto].
    intros b [<-|[]]. reflexivity. }
  intros m' [<-|[<-|[]]]; exact G.
Qed.

Print Assumptions C73_sum.
Print Assumptions C73_model_order.
Print Assumptions C73_energy.
Print Assumptions C73_angular_momentum.
Print Assumptions C73_gradient.
Print Assumptions C73_point_masses.
Print Assumptions C73_disturbing_function.
Print Assumptions C73_point_mass_gradient_excess.
Print Assumptions C73_center_only.
Print Assumptions C73_point_mass_gradient_refuted.
Print Assumptions C73_duplicate_refuted.
