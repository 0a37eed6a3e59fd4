(** Theorems about solid tides. *)
From Coq Require Import Reals List Lra Lia Psatz Arith.
From Coquelicot Require Import Coquelicot.
From Verif Require Import Base Vec3 Sc_Model Dyn_Model Dual Orb_Model Orb_Spec Orb_Props
  Grav_Legendre Grav_Model Grav_Spec Grav_Table Grav_Sum Grav_Props Grav_Grad Tide_Model Tide_Spec Tide_Proofs.
Import ListNotations.
Local Open Scope R_scope.

(** * C83: solid tides *)

(** The bodies that raise the tides: where they are in the frame of the deformed body, their gravitational
    parameters and whether the degree 3 counts.  None is within 1e-12 of the pole without being there. *)
Definition raised (position : frame_data -> frame_data -> Z -> res dyn_error v3) (t : tides) (epoch : Z)
    (bodies : list (v3 * R * bool)) : Prop :=
  Forall2 (fun b '(q, gm, d3) => position (pt_frame b) (td_frame t) epoch = Ok q /\ f_mu (pt_frame b) = Some gm /\
    compute_degree_3 b = d3 /\ q <> vzero /\ clear_of_pole q) (perturbers t) bodies.

Lemma accumulate_adds position t epoch mu radius : f_mu (td_frame t) = Some mu -> f_radius (td_frame t) = Some radius ->
  mu <> 0 -> 0 < radius -> forall bs bodies,
  Forall2 (fun b '(q, gm, d3) => position (pt_frame b) (td_frame t) epoch = Ok q /\ f_mu (pt_frame b) = Some gm /\
    compute_degree_3 b = d3 /\ q <> vzero /\ clear_of_pole q) bs bodies -> forall cs,
  exists cs', accumulate position t epoch bs cs = Ok cs' /\ forall p, p <> vzero ->
    potential (tide_field (fst cs') (snd cs')) radius mu p
    = potential (tide_field (fst cs) (snd cs)) radius mu p + tidal (k2 t) (k3 t) radius bodies p.
Proof.
  intros Hm Hr Nm Pr bs bodies F. induction F as [|b [[q gm] d3] bs bodies H F IH]; intros cs.
  - exists cs. split; [reflexivity|]. intros p _. cbn [tidal fold_right]. ring.
  - destruct H as (Hq & Hg & Hd & Nq & Cq). cbn [accumulate].
    unfold compute_pert at 1. rewrite Hq. cbn [bind]. unfold frame_mu, frame_radius. rewrite Hm, Hr, Hg. cbn [bind]. rewrite Hd.
    destruct (IH (raise d3 (k2 t) (k3 t) mu radius gm q cs)) as (cs' & A & P). exists cs'. split; [exact A|].
    intros p Np. rewrite P by exact Np. rewrite raise_adds by assumption. cbn [tidal fold_right]. fold (tidal (k2 t) (k3 t) radius bodies p). ring.
Qed.

Lemma deltas_potential position t epoch mu radius bodies : f_mu (td_frame t) = Some mu -> f_radius (td_frame t) = Some radius ->
  mu <> 0 -> 0 < radius -> raised position t epoch bodies ->
  exists cs, accumulate_deltas position t epoch = Ok cs /\ forall p, p <> vzero ->
    potential (tide_field (fst cs) (snd cs)) radius mu p = tidal (k2 t) (k3 t) radius bodies p.
Proof.
  intros Hm Hr Nm Pr F. destruct (accumulate_adds position t epoch mu radius Hm Hr Nm Pr _ _ F (fun _ _ => 0, fun _ _ => 0)) as (cs & A & P).
  exists cs. split; [exact A|]. intros p Np. rewrite P by exact Np. rewrite potential_unroll. unfold hs. cbn [fst snd].
  rewrite !harmonic_zero. ring.
Qed.

Lemma line_away p w : p <> vzero -> locally 0 (fun h => line p w h <> vzero).
Proof.
  intros Hp. assert (D : continuous (fun h => dot (line p w h) (line p w h)) 0).
  { apply (ex_derive_continuous (fun h => dot (line p w h) (line p w h))). unfold line, dot, vadd, vscale; cbn [vx vy vz]. auto_derive; trivial. }
  assert (P : 0 < dot (line p w 0) (line p w 0)) by (rewrite line_0; now apply dot_pos).
  assert (L : locally (dot (line p w 0) (line p w 0)) (fun y => 0 < y)).
  { exists (mkposreal _ P). intros y Hy. apply Rabs_def2 in Hy as [_ Hy]. unfold minus, plus, opp in Hy; cbn [Rplus pos] in Hy. cbn in Hy. lra. }
  assert (D' : locally 0 (fun h => 0 < dot (line p w h) (line p w h))) by exact (D _ L).
  revert D'. apply filter_imp. intros h Hh E. rewrite E in Hh. unfold dot, vzero in Hh; cbn [vx vy vz] in Hh. lra.
Qed.

(** The acceleration is the gradient of the potential that every perturber induces: its Love number times
    the potential of the perturber at the surface, for the degrees 2 and 3; in the frame of the orbit,
    whatever its rotation and its center. *)
Theorem C83_acceleration : forall position to_tides rotate t o mu radius bodies p dcm,
  f_mu (td_frame t) = Some mu -> f_radius (td_frame t) = Some radius -> mu <> 0 -> 0 < radius ->
  raised position t (epoch o) bodies -> p <> vzero ->
  changes_frame (to_tides (td_frame t)) o p dcm -> rotate (td_frame t) (frame o) (epoch o) = Ok dcm ->
  exists a, tide_eom position to_tides rotate t o = Ok a /\
    forall j, (j < 3)%nat -> exists q, (forall h, to_tides (td_frame t) (moved j h o) = Ok (q h)) /\
      is_derive (fun h => tidal (k2 t) (k3 t) radius bodies (q h)) 0 (comp a j).
Proof.
  intros position to_tides rotate t o mu radius bodies p dcm Hm Hr Nm Pr F Np [T1 T2] Hd.
  destruct (deltas_potential position t (epoch o) mu radius bodies Hm Hr Nm Pr F) as (cs & A & P).
  set (acc := tide_local (fst cs) (snd cs) radius mu p).
  exists (mat_vec dcm acc). split.
  - unfold tide_eom. rewrite A. cbn [bind]. rewrite T1. cbn [bind]. unfold frame_mu, frame_radius. rewrite Hm, Hr. cbn [bind].
    rewrite Hd. reflexivity.
  - intros j Hj. set (w := V3 (dcm j 0%nat) (dcm j 1%nat) (dcm j 2%nat)). exists (line p w). split; [intros h; now apply T2|].
    destruct (C74_gradient_of_potential (tide_field (fst cs) (snd cs)) radius mu p) as (a & La & Da);
      [cbn; lia|lra|exact Np|]. rewrite tide_local_field in La. injection La as <-. fold acc in Da.
    apply (is_derive_ext_loc (fun h => potential (tide_field (fst cs) (snd cs)) radius mu (line p w h))).
    + generalize (line_away p w Np). apply filter_imp. intros h Hh. now apply P.
    + evar_last; [apply Da|].
      destruct j as [|[|[|j]]]; [| | |lia]; unfold dot, mat_vec, w; cbn [vx vy vz comp];
        match goal with |- @eq _ ?x ?y => change (@eq R x y) end; ring.
Qed.

(** The acceleration returned with the gradient is the acceleration, and the matrix is its derivative with
    respect to the position, in the frame of the orbit. *)
Theorem C83_gradient : forall position to_tides rotate t o mu radius cs p dcm,
  f_mu (td_frame t) = Some mu -> f_radius (td_frame t) = Some radius -> radius <> 0 ->
  accumulate_deltas position t (epoch o) = Ok cs -> p <> vzero ->
  changes_frame (to_tides (td_frame t)) o p dcm -> rotate (td_frame t) (frame o) (epoch o) = Ok dcm ->
  exists a g, tide_gradient position to_tides rotate t o = Ok (a, g) /\
    derivative_of (tide_eom position to_tides rotate t) o a g.
Proof.
  intros position to_tides rotate t o mu radius [c s] p dcm Hm Hr Nr A Np [T1 T2] Hd.
  destruct (dtide_along vzero c s radius mu p Nr Np) as (L0 & L1 & L2).
  assert (V : tide_local c s radius mu p = reals (dtide_local c s radius mu p)).
  { rewrite <- (line_0 p vzero) at 1. apply v3_eq; [apply (proj1 L0)|apply (proj1 L1)|apply (proj1 L2)]. }
  assert (Eom : forall o' q, epoch o' = epoch o -> frame o' = frame o -> to_tides (td_frame t) o' = Ok q ->
    tide_eom position to_tides rotate t o' = Ok (mat_vec dcm (tide_local c s radius mu q))).
  { intros o' q E1 E2 E3. unfold tide_eom. rewrite E1, A. cbn [bind]. rewrite E3. cbn [bind]. unfold frame_mu, frame_radius.
    rewrite Hm, Hr. cbn [bind]. rewrite E2, Hd. reflexivity. }
  unfold tide_gradient. rewrite A. cbn [bind]. rewrite T1. cbn [bind]. unfold frame_mu, frame_radius. rewrite Hm, Hr. cbn [bind].
  rewrite Hd. cbn [bind fst snd]. do 2 eexists. split; [reflexivity|]. split.
  - rewrite <- V. now apply Eom.
  - intros j Hj. set (w := V3 (dcm j 0%nat) (dcm j 1%nat) (dcm j 2%nat)).
    destruct (dtide_along w c s radius mu p Nr Np) as (M0 & M1 & M2). set (x := dtide_local c s radius mu p) in *.
    set (F := fun h => tide_local c s radius mu (line p w h)) in *.
    exists (fun h => mat_vec dcm (F h)). split.
    + intros h. apply Eom; [reflexivity|reflexivity|]. now apply T2.
    + assert (G : forall k0 k1 k2, is_derive (fun h => k0 * vx (F h) + k1 * vy (F h) + k2 * vz (F h)) 0
                     (k0 * lin w (ux x) + k1 * lin w (uy x) + k2 * lin w (uz x))).
      { intros k0 k1 k2.
        apply (is_derive_plus (fun h => k0 * vx (F h) + k1 * vy (F h)) (fun h => k2 * vz (F h))).
        - apply (is_derive_plus (fun h => k0 * vx (F h)) (fun h => k1 * vy (F h)));
            apply is_derive_scal; [apply M0|apply M1].
        - apply is_derive_scal. apply M2. }
      intros i Hi. destruct i as [|[|[|i]]]; [| | |lia]; unfold mat_vec; cbn [comp vx vy vz].
      * evar_last; [exact (G (dcm 0%nat 0%nat) (dcm 0%nat 1%nat) (dcm 0%nat 2%nat))|].
        unfold mat_mul, transpose, lin, w. cbn [vx vy vz dcomp].
        match goal with |- @eq _ ?x ?y => change (@eq R x y) end. ring.
      * evar_last; [exact (G (dcm 1%nat 0%nat) (dcm 1%nat 1%nat) (dcm 1%nat 2%nat))|].
        unfold mat_mul, transpose, lin, w. cbn [vx vy vz dcomp].
        match goal with |- @eq _ ?x ?y => change (@eq R x y) end. ring.
      * evar_last; [exact (G (dcm 2%nat 0%nat) (dcm 2%nat 1%nat) (dcm 2%nat 2%nat))|].
        unfold mat_mul, transpose, lin, w. cbn [vx vy vz dcomp].
        match goal with |- @eq _ ?x ?y => change (@eq R x y) end. ring.
Qed.

(** The system of the Earth and the Moon: the documented Love numbers, the Moon up to degree 3 and the Sun
    up to degree 2; the frames given with a gravitational parameter are kept, the others are those loaded,
    and whatever its acceleration reads about the frames is there. *)
Theorem C83_earth_moon : forall frame_info sun earth moon t,
  earth_moon_system frame_info sun earth moon = Ok t ->
  k2 t = 3019 / 10000 /\ k3 t = 93 / 1000 /\
  (exists e m s, td_frame t = e /\
     perturbers t = [{| pt_frame := m; compute_degree_3 := true |}; {| pt_frame := s; compute_degree_3 := false |}] /\
     (forall f g, In (f, g) [(earth, e); (moon, m)] -> if f_mu f then g = f else frame_info f = Ok g) /\
     (exists s', frame_info sun = Ok s' /\ (s' = s \/ frame_info s' = Ok s)) /\
     Forall (fun g => f_mu g <> None /\ f_radius g <> None) [e; m; s]).
Proof.
  intros frame_info sun earth moon t H. unfold earth_moon_system in H.
  destruct (frame_info sun) as [s'|?| |] eqn:Es; try discriminate. cbn [bind] in H.
  assert (C : forall f g, completed frame_info f = Ok g ->
    (if f_mu f then g = f else frame_info f = Ok g) /\ f_mu g <> None /\ f_radius g <> None).
  { intros f g E. unfold completed in E. destruct (f_mu f) as [m|] eqn:Ef.
    - cbn [bind] in E. unfold frame_mu, frame_radius in E. rewrite Ef in E. cbn [bind] in E.
      destruct (f_radius f) as [r|] eqn:Er; [|discriminate]. cbn [bind] in E. injection E as <-. rewrite Ef, Er. repeat split; discriminate.
    - destruct (frame_info f) as [x|?| |]; try discriminate. cbn [bind] in E. unfold frame_mu, frame_radius in E.
      destruct (f_mu x) eqn:Em; [|discriminate]. cbn [bind] in E. destruct (f_radius x) eqn:Er; [|discriminate]. cbn [bind] in E.
      injection E as <-. rewrite Em, Er. repeat split; discriminate. }
  destruct (completed frame_info earth) as [e|?| |] eqn:Ee; try discriminate. cbn [bind] in H.
  destruct (completed frame_info moon) as [m|?| |] eqn:Em; try discriminate. cbn [bind] in H.
  destruct (completed frame_info s') as [s|?| |] eqn:Ess; try discriminate. cbn [bind] in H.
  injection H as <-. cbn [k2 k3 td_frame perturbers]. split; [reflexivity|]. split; [reflexivity|].
  apply C in Ee as [E1 E2]. apply C in Em as [M1 M2]. apply C in Ess as [S1 S2].
  exists e, m, s. refine (conj eq_refl (conj eq_refl (conj _ (conj _ _)))).
  - intros f g [X|[X|[]]]; injection X as <- <-; assumption.
  - exists s'. split; [reflexivity|]. destruct (f_mu s'); [left; congruence|now right].
  - apply Forall_cons; [exact E2|]. apply Forall_cons; [exact M2|]. apply Forall_cons; [exact S2|]. apply Forall_nil.
Qed.

(** ** A concrete case: a body along the first axis. *)
Definition case_frame : frame_data := {| f_id := 0; f_mu := Some 1; f_radius := Some 1 |}.
Definition case_tides : tides :=
  {| td_frame := case_frame; k2 := 3 / 10; k3 := 0; perturbers := [{| pt_frame := case_frame; compute_degree_3 := false |}] |}.
Definition case_position (_ _ : frame_data) (_ : Z) : res dyn_error v3 := Ok (V3 10 0 0).
Definition case_to (_ : frame_data) (o : orbit) : res dyn_error v3 := Ok (radius_km o).
Definition unit_matrix : matrix := fun i j => if (i =? j)%nat then 1 else 0.
Definition case_rotate (_ : frame_data) (_ : nat) (_ : Z) : res dyn_error matrix := Ok unit_matrix.
Definition case_o : orbit := Orbit 0 0 (V3 2 0 0) vzero.

Lemma case_norm x : 0 < x -> norm (V3 x 0 0) = x.
Proof.
  intros H. unfold norm, dot; cbn [vx vy vz]. replace (x * x + 0 * 0 + 0 * 0) with (x * x) by ring. apply sqrt_square. lra.
Qed.
Lemma case_raised : raised case_position case_tides 0 [(V3 10 0 0, 1, false)].
Proof.
  unfold raised. cbn [case_tides perturbers]. constructor; [|constructor]. unfold case_position. cbn [pt_frame case_frame f_mu compute_degree_3].
  refine (conj eq_refl (conj eq_refl (conj eq_refl (conj _ _)))).
  - unfold vzero. intros E. injection E. lra.
  - unfold clear_of_pole. rewrite case_norm by lra. cbn [vz]. right.
    replace (1 - (0 / 10) ^ 2) with 1 by field. rewrite sqrt_1. lra.
Qed.
Lemma case_changes : changes_frame (case_to case_frame) case_o (V3 2 0 0) unit_matrix.
Proof.
  split; [reflexivity|]. intros j h Hj. unfold case_to. f_equal.
  destruct j as [|[|[|j]]]; [| | |lia]; cbn [moved radius_km case_o]; apply v3_eq; unfold shift, line, vadd, vscale, unit_matrix; cbn; ring.
Qed.
(** On its side of the deformed body, the attraction is stronger. *)
Example case_pull : exists a, tide_eom case_position case_to case_rotate case_tides case_o = Ok a /\ vx a = - (9 / 160000).
Proof.
  destruct (C83_acceleration case_position case_to case_rotate case_tides case_o 1 1 [(V3 10 0 0, 1, false)] (V3 2 0 0) unit_matrix)
    as (a & A & D); try reflexivity; try lra.
  - exact case_raised.
  - unfold vzero. intros E. injection E. lra.
  - exact case_changes.
  - exists a. split; [exact A|]. destruct (D 0%nat ltac:(lia)) as (q & Q & Dq). cbn [comp] in Dq.
    assert (Eq : forall h, q h = V3 (2 + h) 0 0).
    { intros h. specialize (Q h). unfold case_to in Q. injection Q as <-. apply v3_eq; cbn; ring. }
    assert (D' : is_derive (fun h => 3 / 10 / 1000 * (/ (2 + h) ^ 3)) 0 (vx a)).
    { revert Dq. apply is_derive_ext_loc. exists (mkposreal 1 Rlt_0_1). intros h Hh. apply Rabs_def2 in Hh.
      unfold minus, plus, opp in Hh; cbn in Hh. rewrite Eq. unfold tidal, fold_right, induced, raising, cos_angle, P2.
      cbn [case_tides k2 k3]. match goal with |- @eq _ ?x ?y => change (@eq R x y) end. set (x := 2 + h). assert (Hx : 0 < x) by (unfold x; lra).
      replace (vscale (1 / norm (V3 x 0 0)) (V3 x 0 0)) with (V3 1 0 0).
      2:{ rewrite case_norm by exact Hx. apply v3_eq; unfold vscale; cbn [vx vy vz]; field; lra. }
      rewrite !case_norm by lra. unfold dot; cbn [vx vy vz]. cbn [pow Nat.add]. field. lra. }
    apply is_derive_unique in D'. rewrite <- D'. apply is_derive_unique. auto_derive.
    + apply Rgt_not_eq. nra.
    + field.
Qed.

Print Assumptions C83_acceleration.
Print Assumptions C83_gradient.
Print Assumptions C83_earth_moon.
