(** Properties of the nodes a multiple shooting starts from (Msh_Model): C86. *)
From Coq Require Import Reals Lra Lia Psatz.
From Verif Require Import Base Vec3 Angles Poly_Model Sc_Model Guid_Model Targ_Model Targ_Cases Hyp_Model Msh_Model Msh_Cases.
Local Open Scope R_scope.

(** ** Specification *)

Definition position (n : node) : v3 := V3 (n_x n) (n_y n) (n_z n).
(** The point of a segment at a fraction of its length. *)
Definition between (a b : v3) (t : R) : v3 := V3 (vx a + t * (vx b - vx a)) (vy a + t * (vy b - vy a)) (vz a + t * (vz b - vz a)).
(** The instants at which nodes are placed: they follow each other by the same duration. *)
Definition instant (e0 dt : Z) (k : nat) : Z := (e0 + Z.of_nat (S k) * dt)%Z.

(** ** Nodes on a segment *)

Lemma equidistant_length : forall count step dt f r e, length (equidistant count step dt f r e) = count.
Proof. induction count as [|c IH]; intros; cbn; auto. Qed.
Lemma equidistant_nth : forall count step dt f r e k, (k < count)%nat ->
  exists n, nth_error (equidistant count step dt f r e) k = Some n /\
    position n = vadd r (vscale (INR (S k)) step) /\ n_epoch n = instant e dt k /\ n_frame n = f /\ n_vmag n = 0.
Proof.
  induction count as [|c IH]; intros step dt f r e k Hk; [lia|]. destruct k as [|k]; cbn [equidistant nth_error].
  - eexists. split; [reflexivity|]. unfold position, instant. cbn [n_x n_y n_z n_epoch n_frame n_vmag]. refine (conj _ (conj _ (conj eq_refl eq_refl))).
    + apply v3_eq; cbn; ring.
    + lia.
  - destruct (IH step dt f (vadd r step) (e + dt)%Z k) as (n & H1 & H2 & H3 & H4 & H5); [lia|].
    exists n. split; [exact H1|]. unfold instant in *. refine (conj _ (conj _ (conj H4 H5))).
    + rewrite H2. rewrite (S_INR (S k)). apply v3_eq; cbn -[INR]; ring.
    + lia.
Qed.

Section Heuristics.
Context (div : Z -> nat -> Z).

(** C86: the nodes of the straight line divide the segment from the start to the destination in equal
    parts, the last one is the destination; they are equally spaced in time. *)
Theorem C86_equidistant x0 xf count m : equidistant_nodes div x0 xf count = Ok m ->
  let o := sc_orbit x0 in
  (3 <= count)%nat /\ ms_x0 m = x0 /\ ms_xf m = xf /\ length (targets m) = count /\
  (forall k, (k < count)%nat -> exists n, nth_error (targets m) k = Some n /\
     position n = between (radius_km o) (radius_km xf) (INR (S k) / INR count) /\
     n_epoch n = instant (epoch o) (div (epoch xf - epoch o)%Z count) k /\ n_frame n = frame o) /\
  (exists n, nth_error (targets m) (count - 1) = Some n /\ position n = radius_km xf).
Proof.
  intros H o. unfold equidistant_nodes in H. destruct (Nat.ltb_spec count 3) as [|Hc]; [discriminate|].
  destruct (Rlt_dec _ _) as [|Hd]; [discriminate|]. injection H as <-. cbn [targets ms_x0 ms_xf].
  fold o in Hd. fold o. set (d := vsub (radius_km xf) (radius_km o)) in *.
  assert (Hd' : norm d <> 0). { assert (0 < / 2 ^ 52) by (apply Rinv_0_lt_compat, pow_lt; lra). lra. }
  assert (Hn : INR count <> 0) by (apply not_0_INR; lia).
  assert (Hk : forall k, (k < count)%nat -> exists n,
     nth_error (equidistant count (vscale (norm d / INR count) (vscale (/ norm d) d)) (div (epoch xf - epoch o)%Z count) (frame o) (radius_km o) (epoch o)) k = Some n /\
     position n = between (radius_km o) (radius_km xf) (INR (S k) / INR count) /\
     n_epoch n = instant (epoch o) (div (epoch xf - epoch o)%Z count) k /\ n_frame n = frame o).
  { intros k Hk. destruct (equidistant_nth count (vscale (norm d / INR count) (vscale (/ norm d) d)) (div (epoch xf - epoch o)%Z count) (frame o) (radius_km o) (epoch o) k Hk)
      as (n & H1 & H2 & H3 & H4 & _). exists n. refine (conj H1 (conj _ (conj H3 H4))). rewrite H2. unfold between.
    apply v3_eq; unfold d; cbn [vx vy vz vadd vscale vsub]; fold d; field; auto. }
  refine (conj Hc (conj eq_refl (conj eq_refl (conj (equidistant_length _ _ _ _ _ _) (conj Hk _))))).
  destruct (Hk (count - 1)%nat) as (n & H1 & H2 & _); [lia|]. exists n. split; [exact H1|]. rewrite H2.
  replace (S (count - 1)) with count by lia. unfold between. apply v3_eq; cbn; field; auto.
Qed.

(** It refuses fewer than three nodes and a destination that is the start, nothing else. *)
Theorem C86_equidistant_refuses x0 xf count :
  let far := / 2 ^ 52 <= norm (vsub (radius_km xf) (radius_km (sc_orbit x0))) in
  ((exists m, equidistant_nodes div x0 xf count = Ok m) <-> (3 <= count)%nat /\ far) /\
  (equidistant_nodes div x0 xf count = Err Underdetermined <-> (count < 3)%nat).
Proof.
  cbv zeta. unfold equidistant_nodes. destruct (Nat.ltb_spec count 3) as [Hc|Hc].
  - split; split; try (intros [? ?]; discriminate); try (intros [? ?]; lia); auto.
  - destruct (Rlt_dec _ _) as [Hd|Hd].
    + split; split; try (intros [? ?]; discriminate); try (intros [? ?]; lra); try discriminate; lia.
    + split; split; try discriminate; try lia; intros _; [split; [exact Hc|lra]|eexists; reflexivity].
Qed.

(** When the durations divide evenly the last node is at the epoch of the destination. *)
Theorem C86_last_epoch_partial x0 xf count m : equidistant_nodes div x0 xf count = Ok m ->
  forall err, (Z.abs (Z.of_nat count * div (epoch xf - epoch (sc_orbit x0)) count - (epoch xf - epoch (sc_orbit x0))) <= err)%Z ->
  exists n, nth_error (targets m) (count - 1) = Some n /\ (Z.abs (n_epoch n - epoch xf) <= err)%Z.
Proof.
  intros H err He. destruct (C86_equidistant _ _ _ _ H) as (Hc & _ & _ & _ & Hk & _).
  destruct (Hk (count - 1)%nat) as (n & H1 & _ & H3 & _); [lia|]. exists n. split; [exact H1|]. rewrite H3. unfold instant.
  replace (S (count - 1)) with count by lia. lia.
Qed.

(** ** Nodes at the altitude of the destination *)

Context (trajectory : spacecraft -> Z -> option (Z -> option orbit))
        (transform_to : orbit -> nat -> option orbit)
        (height latitude : orbit -> option R) (longitude : orbit -> R)
        (latlongalt : R -> R -> R -> Z -> nat -> option orbit).
Notation linear := (linear_altitude_heuristic div trajectory transform_to height latitude longitude latlongalt).
Notation nodes_from := (altitude_nodes transform_to height latitude longitude latlongalt).

(** A node above (or below) a point of the ballistic trajectory: same latitude and longitude, an
    altitude a fraction of the way to the altitude of the destination. *)
Definition above (at_epoch : Z -> option orbit) (body f : nat) (hf fraction : R) (e : Z) (n : node) : Prop :=
  exists point pbf h lat nbf o,
    at_epoch e = Some point /\ transform_to point body = Some pbf /\ height pbf = Some h /\ latitude pbf = Some lat /\
    latlongalt lat (longitude pbf) (h + fraction * (hf - h)) e body = Some nbf /\ transform_to nbf f = Some o /\
    position n = radius_km o /\ n_epoch n = e /\ n_frame n = f.

Lemma altitude_nth count xf_bf body at_epoch dt f hf : height xf_bf = Some hf -> forall left i prev nodes,
  nodes_from count xf_bf body at_epoch dt f left i prev = Ok nodes -> (i + left = count)%nat ->
  length nodes = left /\ forall k, (k < left)%nat -> exists n, nth_error nodes k = Some n /\
    above at_epoch body f hf (/ sqrt (INR (left - k))) (instant prev dt k) n.
Proof.
  intros Hf. induction left as [|left IH]; intros i prev nodes H Hi; cbn [altitude_nodes] in H.
  { injection H as <-. split; [reflexivity|]. intros; lia. }
  unfold or_error in H. rewrite Hf in H.
  destruct (at_epoch (prev + dt)%Z) as [point|] eqn:E1'; [|discriminate]. cbn [bind] in H.
  destruct (transform_to point body) as [pbf|] eqn:E2'; [|discriminate]. cbn [bind] in H.
  destruct (height pbf) as [h|] eqn:E3'; [|discriminate]. cbn [bind] in H.
  destruct (latitude pbf) as [lat|] eqn:E4'; [|discriminate]. cbn [bind] in H.
  destruct (latlongalt _ _ _ _ _) as [nbf|] eqn:E5'; [|discriminate]. cbn [bind] in H.
  destruct (transform_to nbf f) as [o|] eqn:E6'; [|discriminate]. cbn [bind] in H.
  destruct (nodes_from _ _ _ _ _ _ _ _ _) as [rest| | |] eqn:E7'; [|discriminate..]. cbn [bind] in H. injection H as <-.
  destruct (IH _ _ _ E7' ltac:(lia)) as [Hl Hk]. split; [cbn; now rewrite Hl|]. intros [|k] Hlt.
  - eexists. split; [reflexivity|]. unfold instant. replace (prev + Z.of_nat 1 * dt)%Z with (prev + dt)%Z by lia.
    exists point, pbf, h, lat, nbf, o. replace (count - i)%nat with (S left) in E5' by lia. rewrite Nat.sub_0_r.
    refine (conj E1' (conj E2' (conj E3' (conj E4' (conj _ (conj E6' (conj _ (conj eq_refl eq_refl)))))))).
    + rewrite <- E5'. f_equal. unfold Rdiv. ring.
    + unfold position. cbn. destruct (radius_km o); reflexivity.
  - destruct (Hk k) as (n & H1 & H2); [lia|]. exists n. split; [exact H1|]. unfold instant in *.
    replace (prev + Z.of_nat (S (S k)) * dt)%Z with (prev + dt + Z.of_nat (S k) * dt)%Z by lia. exact H2.
Qed.

(** C86: the nodes of the altitude heuristic are above points of the ballistic trajectory, equally
    spaced in time; their altitudes come closer to that of the destination and the last one has it. *)
Theorem C86_altitude x0 xf count body m : linear x0 xf count body = Ok m ->
  let o := sc_orbit x0 in
  (3 <= count)%nat /\ ms_x0 m = x0 /\ ms_xf m = xf /\ length (targets m) = count /\
  exists at_epoch xf_bf hf, trajectory x0 (epoch xf - epoch o)%Z = Some at_epoch /\
    transform_to xf body = Some xf_bf /\ height xf_bf = Some hf /\
    (forall k, (k < count)%nat -> exists n fraction, nth_error (targets m) k = Some n /\ 0 < fraction <= 1 /\
       fraction * fraction = / INR (count - k) /\
       above at_epoch body (frame o) hf fraction (instant (epoch o) (div (epoch xf - epoch o)%Z count) k) n) /\
    (exists n, nth_error (targets m) (count - 1) = Some n /\
       above at_epoch body (frame o) hf 1 (instant (epoch o) (div (epoch xf - epoch o)%Z count) (count - 1)) n).
Proof.
  intros H o. unfold linear_altitude_heuristic in H. destruct (Nat.ltb_spec count 3) as [|Hc]; [discriminate|]. fold o in H.
  destruct (transform_to xf body) as [xf_bf|] eqn:Ex; [|discriminate]. cbn [or_error bind] in H.
  destruct (trajectory x0 _) as [traj|] eqn:Et; [|discriminate]. cbn [or_error bind] in H.
  destruct (nodes_from _ _ _ _ _ _ _ _ _) as [nodes| | |] eqn:En; [|discriminate..]. cbn [bind] in H. injection H as <-. cbn [targets ms_x0 ms_xf].
  assert (Hh : exists hf, height xf_bf = Some hf).
  { destruct count as [|c]; [lia|]. cbn [altitude_nodes] in En. unfold or_error in En.
    destruct (traj _) as [point|]; [|discriminate]. cbn [bind] in En. destruct (transform_to point body); [|discriminate]. cbn [bind] in En.
    destruct (height xf_bf) as [hf|]; [eauto|discriminate]. }
  destruct Hh as [hf Hh]. destruct (altitude_nth count xf_bf body traj _ (frame o) hf Hh count 0 _ _ En eq_refl) as [Hl Hk].
  refine (conj Hc (conj eq_refl (conj eq_refl (conj Hl _)))). exists traj, xf_bf, hf. refine (conj eq_refl (conj eq_refl (conj Hh (conj _ _)))).
  - intros k Hlt. destruct (Hk k Hlt) as (n & H1 & H2). exists n, (/ sqrt (INR (count - k))).
    assert (G : 1 <= INR (count - k)) by (apply (le_INR 1); lia).
    assert (G' : 1 <= sqrt (INR (count - k))) by (rewrite <- sqrt_1; apply sqrt_le_1; lra).
    refine (conj H1 (conj _ (conj _ H2))).
    + split; [apply Rinv_0_lt_compat; lra|]. replace 1 with (/ 1) by apply Rinv_1. apply Rinv_le_contravar; lra.
    + rewrite <- Rinv_mult. rewrite sqrt_sqrt by lra. reflexivity.
  - destruct (Hk (count - 1)%nat) as (n & H1 & H2); [lia|]. exists n. split; [exact H1|].
    replace (count - (count - 1))%nat with 1%nat in H2 by lia. cbn [INR] in H2. now rewrite sqrt_1, Rinv_1 in H2.
Qed.
End Heuristics.

(** ** Cases and refutations *)

Definition truncated (d : Z) (n : nat) : Z := (d / Z.of_nat n)%Z.
Definition on_axis (e : Z) (f : nat) (x : R) : orbit := Orbit e f (V3 x 0 0) vzero.

Lemma far_enough a b e f e' f' : 1 <= b - a -> / 2 ^ 52 <= norm (vsub (radius_km (on_axis e f b)) (radius_km (on_axis e' f' a))).
Proof.
  intros H. apply Rle_trans with 1.
  - rewrite <- Rinv_1. apply Rinv_le_contravar; [lra|]. apply pow_R1_Rle. lra.
  - unfold norm, dot. cbn. rewrite <- sqrt_1 at 1. apply sqrt_le_1; nra.
Qed.

Example equidistant_case : exists m n, equidistant_nodes truncated (at_x 0 0 0) (on_axis 30 0 3) 3 = Ok m /\
  nth_error (targets m) 0 = Some n /\ position n = V3 1 0 0 /\ n_epoch n = 10%Z.
Proof.
  assert (E : exists m, equidistant_nodes truncated (at_x 0 0 0) (on_axis 30 0 3) 3 = Ok m).
  { apply C86_equidistant_refuses. split; [lia|]. apply far_enough. lra. }
  destruct E as [m E]. destruct (C86_equidistant _ _ _ _ _ E) as (_ & _ & _ & _ & Hk & _).
  destruct (Hk 0%nat) as (n & H1 & H2 & H3 & _); [lia|]. exists m, n. refine (conj E (conj H1 (conj _ H3))).
  rewrite H2. apply v3_eq; cbn; field.
Qed.

(** The last node is not always at the epoch of the destination: the increments are whole nanoseconds. *)
Theorem C86_last_epoch_refuted : exists x0 xf count m,
  equidistant_nodes truncated x0 xf count = Ok m /\
  exists n, nth_error (targets m) (count - 1) = Some n /\ position n = radius_km xf /\ n_epoch n <> epoch xf.
Proof.
  assert (E : exists m, equidistant_nodes truncated (at_x 0 0 0) (on_axis 10 0 3) 3 = Ok m).
  { apply C86_equidistant_refuses. split; [lia|]. apply far_enough. lra. }
  destruct E as [m E]. exists (at_x 0 0 0), (on_axis 10 0 3), 3%nat, m. split; [exact E|].
  destruct (C86_equidistant _ _ _ _ _ E) as (_ & _ & _ & _ & Hk & (n & N1 & N2)). exists n. split; [exact N1|]. split; [exact N2|].
  destruct (Hk 2%nat) as (n' & H1 & _ & H3 & _); [lia|]. change (3 - 1)%nat with 2%nat in N1. rewrite N1 in H1. injection H1 as <-. rewrite H3. discriminate.
Qed.

(** The frame of the destination is not looked at: a destination in a frame whose origin is elsewhere
    gives a last node that is not there. *)
Theorem C86_destination_frame_refuted : exists (transform : orbit -> nat -> option orbit) x0 xf count m,
  (forall o, transform o (frame o) = Some o) /\
  equidistant_nodes truncated x0 xf count = Ok m /\
  exists n there, nth_error (targets m) (count - 1) = Some n /\ transform xf (n_frame n) = Some there /\
    position n <> radius_km there.
Proof.
  set (tr := fun o f => Some (Orbit (epoch o) f (vadd (radius_km o) (V3 (10 * (INR (frame o) - INR f)) 0 0)) (velocity_km_s o))).
  assert (E : exists m, equidistant_nodes truncated (at_x 0 0 0) (on_axis 30 1 3) 3 = Ok m).
  { apply C86_equidistant_refuses. split; [lia|]. apply far_enough. lra. }
  destruct E as [m E]. exists tr, (at_x 0 0 0), (on_axis 30 1 3), 3%nat, m. split; [|split; [exact E|]].
  - intros [e f [x y z] v]. unfold tr. cbn [epoch frame radius_km velocity_km_s]. f_equal. f_equal. apply v3_eq; cbn; ring.
  - destruct (C86_equidistant _ _ _ _ _ E) as (_ & _ & _ & _ & Hk & (n & N1 & N2)).
    destruct (Hk 2%nat) as (n' & H1 & _ & _ & H4); [lia|]. change (3 - 1)%nat with 2%nat in N1. rewrite N1 in H1. injection H1 as <-.
    exists n. eexists. split; [exact N1|]. split; [reflexivity|]. rewrite N2, H4. cbn. intros K. injection K as K. lra.
Qed.

(** A body of radius 6000 km at the origin of every frame, and a spacecraft that stays where it is. *)
Definition same_axes (o : orbit) (f : nat) : option orbit := Some (Orbit (epoch o) f (radius_km o) (velocity_km_s o)).
Definition stays (sc : spacecraft) (_ : Z) : option (Z -> option orbit) :=
  Some (fun e => Some (Orbit e (frame (sc_orbit sc)) (radius_km (sc_orbit sc)) (velocity_km_s (sc_orbit sc)))).
Definition over_6000 (o : orbit) : option R := Some (vx (radius_km o) - 6000).
Definition equator (_ : orbit) : option R := Some 0.
Definition meridian (_ : orbit) : R := 0.
Definition from_altitude (_ _ alt : R) (e : Z) (f : nat) : option orbit := Some (on_axis e f (6000 + alt)).
Notation linear_here := (linear_altitude_heuristic truncated stays same_axes over_6000 equator meridian from_altitude).

(** The altitudes are not linear: from 100 km to 200 km with ten nodes, the documentation has the
    first node at 110 km; it is above 131 km. *)
Theorem C86_linear_refuted : exists x0 xf m n,
  over_6000 (sc_orbit x0) = Some 100 /\ over_6000 xf = Some 200 /\
  linear_here x0 xf 10 1 = Ok m /\ nth_error (targets m) 0 = Some n /\
  131 < vx (position n) - 6000 /\ vx (position n) - 6000 <> 110.
Proof.
  eexists (at_x 0 6100 0), (on_axis 600 0 6200), _, _.
  split; [unfold over_6000; cbn; f_equal; lra|]. split; [unfold over_6000; cbn; f_equal; lra|]. split; [reflexivity|]. split; [reflexivity|].
  unfold position. cbn [vx n_x radius_km on_axis].
  assert (Hs : sqrt (INR (10 - 0)) <= 3.2).
  { replace 3.2 with (sqrt (3.2 * 3.2)) by (apply sqrt_square; lra). apply sqrt_le_1; cbn; lra. }
  assert (Hp : 0 < sqrt (INR (10 - 0))) by (apply sqrt_lt_R0; cbn; lra).
  assert (Hi : / 3.2 <= / sqrt (INR (10 - 0))) by (apply Rinv_le_contravar; lra).
  assert (Hv : 0.3125 <= / 3.2) by lra.
  set (q := sqrt (INR (10 - 0))) in *. unfold same_axes, on_axis. cbn [radius_km vx at_x sc_orbit].
  match goal with |- _ < ?a /\ _ => assert (Ha : a = 100 + 100 * / q) by (cbn; unfold q; cbn; field; unfold q in Hp; cbn in Hp; lra) end.
  rewrite Ha. split; lra.
Qed.

(** C86: the hypotheses hold of it. *)
Example altitude_case : exists m, linear_here (at_x 0 6100 0) (on_axis 600 0 6200) 10 1 = Ok m /\
  exists n, nth_error (targets m) 9 = Some n /\ vx (position n) - 6000 = 200.
Proof.
  eexists. split; [reflexivity|]. eexists. split; [reflexivity|]. unfold position. cbn. rewrite sqrt_1. field.
Qed.

Print Assumptions C86_equidistant. Print Assumptions C86_altitude.
