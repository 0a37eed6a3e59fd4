(** Lemmas about ground assets. *)
From Coq Require Import String Reals Lra Psatz.
From Coquelicot Require Import Coquelicot.
From Verif Require Import Base Vec3 Angles Dual Arc_Model Sens_Model Prop_Model Gnd_Model Gnd_Spec.
Local Open Scope R_scope.

(** ** Duals *)
Lemma tracks_sin j f d : tracks j f d -> tracks j (fun h => sin (f h)) (dsin d).
Proof.
  intros [A B]. split; cbn [re du dsin]; [now rewrite A|]. rewrite <- A, Rmult_comm.
  apply (is_derive_comp sin f); [apply is_derive_sin|exact B].
Qed.
Lemma tracks_cos j f d : tracks j f d -> tracks j (fun h => cos (f h)) (dcos d).
Proof.
  intros [A B]. split; cbn [re du dcos]; [now rewrite A|]. rewrite <- A, Rmult_comm.
  apply (is_derive_comp cos f); [apply is_derive_cos|exact B].
Qed.
Lemma tracks_neg j f d : tracks j f d -> tracks j (fun h => - f h) (dneg d).
Proof. intros [A B]. split; cbn [re du dneg]; [now rewrite A|]. now apply (is_derive_opp f). Qed.
Lemma tracks_scal j f d k : tracks j f d -> tracks j (fun h => f h * k) (dscal d k).
Proof.
  intros [A B]. split; cbn [re du dscal]; [now rewrite A|].
  apply (is_derive_ext (fun h => scal k (f h))).
  { intros h. unfold scal; cbn; unfold mult; cbn. ring. }
  replace (du d j * k) with (scal k (du d j)) by (unfold scal; cbn; unfold mult; cbn; ring).
  now apply (is_derive_scal f 0 k).
Qed.
Lemma tracks_self j i q : tracks (S j) (fun h => nudge q j h i) (dvar i (q i)).
Proof.
  apply (tracks_ext (S j) (fun h => q i + (if (S j =? S i)%nat then h else 0))).
  - intros h. unfold nudge. cbn [Nat.eqb]. now rewrite Nat.eqb_sym.
  - apply tracks_var.
Qed.

(** The asset with the six components [q]. *)
Definition with_six (q : nat -> R) (s : asset) : asset :=
  {| lat_deg := q 0%nat; lon_deg := q 1%nat; height_km := q 2%nat; lat_rate := q 3%nat;
     lon_rate := q 4%nat; height_rate := q 5%nat; asset_epoch := asset_epoch s;
     asset_frame := asset_frame s; asset_stm := asset_stm s |}.
Definition cart (a e2 : R) (s : asset) (q : nat -> R) (i : nat) : R :=
  re (nth i (geodetic_duals a e2 (with_six q s)) (dconst 0)).

Lemma w_pos a b t : 0 < a -> 0 < b -> 0 < 1 - (a * a - b * b) / (a * a) * sin t * sin t.
Proof.
  intros Ha Hb. pose proof (sin2_cos2 t) as H. unfold Rsqr in H.
  replace (1 - (a * a - b * b) / (a * a) * sin t * sin t)
    with (cos t * cos t + (b / a * sin t) * (b / a * sin t)).
  - destruct (Req_dec (cos t) 0) as [E|E].
    + assert (sin t <> 0) by (intros E'; rewrite E, E' in H; lra).
      assert (0 < b / a) by (apply Rdiv_lt_0_compat; lra).
      assert (b / a * sin t <> 0) by (apply Rmult_integral_contrapositive_currified; lra).
      rewrite E. nra.
    + nra.
  - replace (cos t * cos t) with (1 - sin t * sin t) by lra. field. lra.
Qed.

Lemma jacobian_tracks a b s q j i :
  0 < a -> 0 < b -> (i < 6)%nat ->
  tracks (S j) (fun h => cart a ((a * a - b * b) / (a * a)) s (nudge q j h) i)
    (nth i (geodetic_duals a ((a * a - b * b) / (a * a)) (with_six q s)) (dconst 0)).
Proof.
  intros Ha Hb Hi. set (e2 := (a * a - b * b) / (a * a)).
  assert (Hw : forall t, 0 < 1 - e2 * sin t * sin t) by (intros; now apply w_pos).
  assert (Hw2 : forall t, 0 < sqrt (1 - e2 * sin t * sin t)) by (intros; now apply sqrt_lt_R0).
  unfold cart.
  assert (T : forall i, tracks (S j) (fun h => nudge q j h i) (dvar i (q i))) by (intros; apply tracks_self).
  destruct i as [|[|[|[|[|[|i]]]]]]; [| | | | | |lia];
    unfold geodetic_duals, with_six;
    cbn [nth re dadd dsub dmul ddiv dsqrt dsin dcos dneg dscal dvar dconst lat_deg lon_deg height_km
         lat_rate lon_rate height_rate];
    repeat (apply tracks_add || apply tracks_sub || apply tracks_mul || apply tracks_const ||
            apply tracks_sin || apply tracks_cos || apply tracks_neg || apply tracks_scal ||
            apply T || apply tracks_div || apply tracks_sqrt);
    cbn [re dadd dsub dmul ddiv dsqrt dsin dcos dneg dscal dvar dconst];
    try apply Hw; try (apply Rgt_not_eq, Hw); try (apply Rgt_not_eq, Hw2).
Qed.

(** ** The Cartesian map *)
Lemma cart_position a e2 s q :
  V3 (cart a e2 s q 0) (cart a e2 s q 1) (cart a e2 s q 2) =
  let w := 1 - e2 * sin (rad (q 0%nat)) * sin (rad (q 0%nat)) in
  let n := a / sqrt w in
  V3 ((n + q 2%nat) * cos (rad (q 0%nat)) * cos (rad (q 1%nat)))
     ((n + q 2%nat) * cos (rad (q 0%nat)) * sin (rad (q 1%nat)))
     ((n * (1 - e2) + q 2%nat) * sin (rad (q 0%nat))).
Proof. reflexivity. Qed.

Lemma cart_geodetic a b s q : 0 < a -> 0 < b ->
  geodetic_point a b (q 0%nat) (q 1%nat) (q 2%nat)
    (V3 (cart a ((a * a - b * b) / (a * a)) s q 0) (cart a ((a * a - b * b) / (a * a)) s q 1)
        (cart a ((a * a - b * b) / (a * a)) s q 2)).
Proof.
  intros Ha Hb. rewrite cart_position. cbn zeta. pose proof (w_pos a b (rad (q 0%nat)) Ha Hb) as Hw.
  set (e2 := (a * a - b * b) / (a * a)) in *. set (L := rad (q 0%nat)) in *. set (O := rad (q 1%nat)) in *.
  set (w := 1 - e2 * sin L * sin L) in *.
  assert (Hr : 0 < sqrt w) by now apply sqrt_lt_R0.
  assert (Hrw : sqrt w * sqrt w = w) by (apply sqrt_sqrt; lra).
  assert (He : 1 - e2 = b * b / (a * a)) by (unfold e2; field; lra).
  pose proof (sin2_cos2 L) as HL. pose proof (sin2_cos2 O) as HO. unfold Rsqr in HL, HO.
  exists (V3 (a / sqrt w * cos L * cos O) (a / sqrt w * cos L * sin O) (a / sqrt w * (b * b / (a * a)) * sin L)).
  exists (/ (a * sqrt w)). split; [apply Rinv_0_lt_compat; nra|]. unfold up. cbn [vx vy vz]. fold L O.
  refine (conj _ (conj _ _)).
  - replace (_ + _ + _) with ((cos L * cos L * (sin O * sin O + cos O * cos O) + b * b / (a * a) * (sin L * sin L)) / (sqrt w * sqrt w))
      by (field; lra).
    rewrite HO, Hrw. replace (cos L * cos L) with (1 - sin L * sin L) by lra.
    replace ((1 - sin L * sin L) * 1 + b * b / (a * a) * (sin L * sin L)) with w.
    + field. lra.
    + unfold w. rewrite <- He. ring.
  - apply v3_eq; unfold Vec3.vscale; cbn [vx vy vz]; field; lra.
  - rewrite He. apply v3_eq; unfold Vec3.vscale, Vec3.vadd; cbn [vx vy vz]; ring.
Qed.

(** The geodetic point is unique. *)
Lemma geodetic_unique a b lat lon h p p' : 0 < a -> 0 < b ->
  geodetic_point a b lat lon h p -> geodetic_point a b lat lon h p' -> p = p'.
Proof.
  intros Ha Hb (s & k & Hk & He & Hn & ->) (s' & k' & Hk' & He' & Hn' & ->).
  assert (X : forall s k, V3 (vx s / a ^ 2) (vy s / a ^ 2) (vz s / b ^ 2) = Vec3.vscale k (up lat lon) ->
    s = V3 (k * (a ^ 2 * vx (up lat lon))) (k * (a ^ 2 * vy (up lat lon))) (k * (b ^ 2 * vz (up lat lon)))).
  { intros r c E. unfold Vec3.vscale in E.
    assert (E1 : vx r / a ^ 2 = c * vx (up lat lon)) by congruence.
    assert (E2 : vy r / a ^ 2 = c * vy (up lat lon)) by congruence.
    assert (E3 : vz r / b ^ 2 = c * vz (up lat lon)) by congruence.
    apply v3_eq; cbn [vx vy vz].
    - replace (c * (a ^ 2 * vx (up lat lon))) with (a ^ 2 * (c * vx (up lat lon))) by ring. rewrite <- E1. field. lra.
    - replace (c * (a ^ 2 * vy (up lat lon))) with (a ^ 2 * (c * vy (up lat lon))) by ring. rewrite <- E2. field. lra.
    - replace (c * (b ^ 2 * vz (up lat lon))) with (b ^ 2 * (c * vz (up lat lon))) by ring. rewrite <- E3. field. lra. }
  apply X in Hn, Hn'. subst s s'. cbn [vx vy vz] in He, He'.
  set (u := vx (up lat lon)) in *. set (v := vy (up lat lon)) in *. set (z := vz (up lat lon)) in *.
  assert (E : forall c, (c * (a ^ 2 * u)) ^ 2 / a ^ 2 + (c * (a ^ 2 * v)) ^ 2 / a ^ 2 + (c * (b ^ 2 * z)) ^ 2 / b ^ 2
    = c ^ 2 * (a ^ 2 * u ^ 2 + a ^ 2 * v ^ 2 + b ^ 2 * z ^ 2)) by (intros; field; lra).
  rewrite E in He, He'.
  assert (k = k').
  { set (m := a ^ 2 * u ^ 2 + a ^ 2 * v ^ 2 + b ^ 2 * z ^ 2) in *.
    assert (Hd : (k - k') * (k + k') * m = 0) by nra.
    apply Rmult_integral in Hd as [Hd|Hd]; [|rewrite Hd in He; lra].
    apply Rmult_integral in Hd as [Hd|Hd]; lra. }
  now subst.
Qed.

(** Position in a drift, and its derivative. *)
Lemma cart_velocity a b s q i : 0 < a -> 0 < b -> (i < 3)%nat ->
  is_derive (fun t => cart a ((a * a - b * b) / (a * a)) s (drift q t) i) 0
    (cart a ((a * a - b * b) / (a * a)) s q (i + 3)).
Proof.
  intros Ha Hb Hi. set (e2 := (a * a - b * b) / (a * a)).
  assert (Hw : forall t, 0 < 1 - e2 * sin t * sin t) by (intros; now apply w_pos).
  set (L := q 0%nat * (PI / 180)). set (O := q 1%nat * (PI / 180)).
  pose proof (Hw L) as HwL. assert (Hr : 0 < sqrt (1 - e2 * sin L * sin L)) by now apply sqrt_lt_R0.
  assert (Hrr : sqrt (1 - e2 * sin L * sin L) * sqrt (1 - e2 * sin L * sin L) = 1 - e2 * sin L * sin L)
    by (apply sqrt_sqrt; lra).
  pose proof (sin2_cos2 L) as HL. unfold Rsqr in HL.
  assert (EL : (q 0%nat + 0 * q 3%nat) * (PI / 180) = L) by (unfold L; ring).
  assert (EO : (q 1%nat + 0 * q 4%nat) * (PI / 180) = O) by (unfold O; ring).
  destruct i as [|[|[|i]]]; [| | |lia]; unfold cart, geodetic_duals, with_six, drift; cbn [nth Nat.add];
    cbn [re dadd dsub dmul ddiv dsqrt dsin dcos dneg dscal dvar dconst lat_deg lon_deg height_km
         lat_rate lon_rate height_rate]; evar_last.
  1,3,5: auto_derive; [rewrite EL; split; [exact HwL|split; [apply Rgt_not_eq, Hr|exact I]]|reflexivity].
  all: rewrite ?EL, ?EO; fold L O; match goal with |- @eq _ ?x ?y => change (@eq R x y) end.
  all: change (1 + - (e2 * sin L * sin L)) with (1 - e2 * sin L * sin L).
  all: set (r := sqrt (1 - e2 * sin L * sin L)) in *.
  all: rewrite <- !Hrr.
  all: assert (A : e2 * sin L * cos L * cos L / (r * r * r) - sin L / r = - ((1 - e2) * sin L / (r * r * r)))
    by (replace (e2 * sin L * cos L * cos L / (r * r * r) - sin L / r)
          with (sin L * (e2 * (cos L * cos L) - r * r) / (r * r * r)) by (field; lra);
        rewrite Hrr; replace (cos L * cos L) with (1 - sin L * sin L) by lra; field; lra).
  all: assert (B : e2 * sin L * sin L * cos L / (r * r * r) + cos L / r = cos L / (r * r * r))
    by (replace (e2 * sin L * sin L * cos L / (r * r * r) + cos L / r)
          with (cos L * (e2 * sin L * sin L + r * r) / (r * r * r)) by (field; lra);
        rewrite Hrr; field; lra).
  - transitivity (q 3%nat * (PI / 180) * cos O * (a * (e2 * sin L * cos L * cos L / (r * r * r) - sin L / r) - q 2%nat * sin L)
      - (a / r + q 2%nat) * cos L * sin O * (q 4%nat * (PI / 180)) + cos L * cos O * q 5%nat); [field; lra|].
    rewrite A. field. lra.
  - transitivity (q 3%nat * (PI / 180) * sin O * (a * (e2 * sin L * cos L * cos L / (r * r * r) - sin L / r) - q 2%nat * sin L)
      + (a / r + q 2%nat) * cos L * cos O * (q 4%nat * (PI / 180)) + cos L * sin O * q 5%nat); [field; lra|].
    rewrite A. field. lra.
  - transitivity (q 3%nat * (PI / 180) * ((1 - e2) * a * (e2 * sin L * sin L * cos L / (r * r * r) + cos L / r) + q 2%nat * cos L)
      + sin L * q 5%nat); [field; lra|].
    rewrite B. field. lra.
Qed.

Lemma cart_map a b s : 0 < a -> 0 < b -> cartesian_map a b (cart a ((a * a - b * b) / (a * a)) s).
Proof.
  intros Ha Hb q. split; [now apply cart_geodetic|]. intros i Hi. now apply cart_velocity.
Qed.

(** ** Velocities *)
Lemma powf_3_2_sqrt x : 0 < x -> powf_3_2 x = x * sqrt x.
Proof.
  intros H. unfold powf_3_2. replace (3 / 2) with (1 + / 2) by field.
  now rewrite Rpower_plus, Rpower_1, Rpower_sqrt.
Qed.

Lemma axes_orthonormal lat lon :
  dot (up lat lon) (up lat lon) = 1 /\ dot (south lat lon) (south lat lon) = 1 /\
  dot (east lon) (east lon) = 1 /\ dot (up lat lon) (south lat lon) = 0 /\
  dot (up lat lon) (east lon) = 0 /\ dot (south lat lon) (east lon) = 0.
Proof.
  unfold up, south, east, dot. cbn [vx vy vz].
  pose proof (sin2_cos2 (rad lat)) as HL. pose proof (sin2_cos2 (rad lon)) as HO. unfold Rsqr in HL, HO.
  set (s := sin (rad lat)) in *. set (c := cos (rad lat)) in *.
  set (u := sin (rad lon)) in *. set (v := cos (rad lon)) in *.
  refine (conj _ (conj _ (conj _ (conj _ (conj _ _))))); try ring.
  - replace (c * v * (c * v) + c * u * (c * u) + s * s) with (c * c * (u * u + v * v) + s * s) by ring. rewrite HO. lra.
  - replace (s * v * (s * v) + s * u * (s * u) + - c * - c) with (s * s * (u * u + v * v) + c * c) by ring. rewrite HO. lra.
  - lra.
  - replace (c * v * (s * v) + c * u * (s * u) + s * - c) with (c * s * (u * u + v * v) - c * s) by ring. rewrite HO. ring.
Qed.

(** A vector given on the axes. *)
Lemma topo_norm lat lon v :
  norm (Vec3.vadd (Vec3.vadd (Vec3.vscale (vx v) (south lat lon)) (Vec3.vscale (vy v) (east lon)))
                  (Vec3.vscale (vz v) (up lat lon))) = norm v.
Proof.
  unfold norm. f_equal. destruct (axes_orthonormal lat lon) as (U & S & E & US & UE & SE).
  transitivity (vx v * vx v * dot (south lat lon) (south lat lon) + vy v * vy v * dot (east lon) (east lon)
    + vz v * vz v * dot (up lat lon) (up lat lon) + 2 * vx v * vy v * dot (south lat lon) (east lon)
    + 2 * vx v * vz v * dot (up lat lon) (south lat lon) + 2 * vy v * vz v * dot (up lat lon) (east lon)).
  - unfold dot, Vec3.vadd, Vec3.vscale. cbn [vx vy vz]. ring.
  - rewrite U, S, E, US, UE, SE. unfold dot. ring.
Qed.
