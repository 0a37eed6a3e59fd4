(** Lemmas about solid tides. *)
From Coq Require Import Reals List Lra Lia Psatz Arith.
From Coquelicot Require Import Coquelicot.
From Verif Require Import Base Vec3 Sc_Model Dyn_Model Dual Orb_Model Orb_Spec Orb_Props
  Grav_Legendre Grav_Model Grav_Spec Grav_Table Grav_Sum Grav_Props Grav_Grad Tide_Model Tide_Spec.
Import ListNotations.
Local Open Scope R_scope.

(** ** The field of the deformation *)
Definition tide_field (c s : table) : field_data :=
  {| degree := 3; order := 3; size := 4;
     c_nm := fun n m => if (n <? 2)%nat then 0 else c n m; s_nm := fun n m => if (n <? 2)%nat then 0 else s n m |}.

Ltac table_cell := cbv [tide_table legendre_table diagonal fold_left seq upd Nat.eqb andb Nat.sub Nat.add Nat.leb];
  try reflexivity; ring.
Lemma table_same u n m : (n <= 4)%nat -> (m <= 4)%nat -> tide_table u n m = legendre_table u 3 3 n m.
Proof.
  intros Hn Hm. destruct n as [|[|[|[|[|n]]]]]; [| | | | |lia]; destruct m as [|[|[|[|[|m]]]]]; try lia; table_cell.
Qed.

Lemma tide_local_field c s er mu p : local_accel (tide_field c s) er mu p = Ok (tide_local c s er mu p).
Proof.
  unfold local_accel, tide_local. cbv zeta. cbn [degree order tide_field Nat.min].
  pose proof (table_same (vz p / norm p)) as T. set (a' := tide_table _) in *. set (a := legendre_table _ 3 3) in *. clearbody a a'.
  set (s_ := vx p / norm p). set (t_ := vy p / norm p). set (u_ := vz p / norm p). clearbody s_ t_ u_.
  cbn [powers app nth]. 
  cbv [seq sum_degrees sum_orders term bind cs_nm rdv rd nth_error Nat.min Nat.ltb Nat.leb andb tide_field degree order size c_nm s_nm
       Nat.eqb Nat.sub Nat.add fold_left tide_sum nth].
  rewrite !T by lia.
  f_equal. apply v3_eq; cbn [vx vy vz]; ring.
Qed.

(** ** The functions of degrees 2 and 3 *)
Lemma legendre_2 u : legendre 2 u = P2 u.
Proof. unfold legendre, P2. cbn [legendre2 fst INR]. field. Qed.
Lemma legendre_3 u : legendre 3 u = P3 u.
Proof. unfold legendre, P3. cbn [legendre2 fst INR]. field. Qed.
Lemma dleg_next n m (f : R -> R) (f' : R) u : (forall x, dlegendre n m x = f x) -> is_derive f u f' -> dlegendre n (S m) u = f'.
Proof.
  intros E D. pose proof (dlegendre_derive n m u) as H. apply (is_derive_ext _ f) in H; [|exact E].
  apply is_derive_unique in H. apply is_derive_unique in D. congruence.
Qed.
Lemma dleg_20 u : dlegendre 2 0 u = P2 u. Proof. apply legendre_2. Qed.
Lemma dleg_30 u : dlegendre 3 0 u = P3 u. Proof. apply legendre_3. Qed.
Lemma dleg_21 u : dlegendre 2 1 u = 3 * u.
Proof. apply (dleg_next 2 0 P2); [apply dleg_20|]. unfold P2. auto_derive; trivial. field. Qed.
Lemma dleg_22 u : dlegendre 2 2 u = 3.
Proof. apply (dleg_next 2 1 (fun x => 3 * x)); [apply dleg_21|]. auto_derive; trivial. ring. Qed.
Lemma dleg_31 u : dlegendre 3 1 u = (15 * u ^ 2 - 3) / 2.
Proof. apply (dleg_next 3 0 P3); [apply dleg_30|]. unfold P3. auto_derive; trivial. field. Qed.
Lemma dleg_32 u : dlegendre 3 2 u = 15 * u.
Proof. apply (dleg_next 3 1 (fun u => (15 * u ^ 2 - 3) / 2)); [apply dleg_31|]. auto_derive; trivial. field. Qed.
Lemma dleg_33 u : dlegendre 3 3 u = 15.
Proof. apply (dleg_next 3 2 (fun u => 15 * u)); [apply dleg_32|]. auto_derive; trivial. ring. Qed.

Definition weight (n m : nat) : R :=
  match n, m with
  | 2%nat, 0%nat => 5 | 2%nat, 1%nat => 5 / 3 | 2%nat, 2%nat => 5 / 12
  | 3%nat, 0%nat => 7 | 3%nat, 1%nat => 7 / 6 | 3%nat, 2%nat => 7 / 60 | 3%nat, 3%nat => 7 / 360
  | _, _ => 0
  end.
Lemma factor_weight n m : (2 <= n <= 3)%nat -> (m <= n)%nat -> norm_factor n m = sqrt (weight n m).
Proof.
  intros Hn Hm. unfold norm_factor. f_equal.
  destruct n as [|[|[|[|n]]]]; try lia; destruct m as [|[|[|[|m]]]]; try lia;
    cbn [Nat.sub Nat.add Nat.eqb fact Nat.mul INR weight]; field.
Qed.
Lemma weight_pos n m : 0 <= weight n m.
Proof. destruct n as [|[|[|[|n]]]], m as [|[|[|[|m]]]]; cbn [weight]; lra. Qed.

Lemma p_nm_value sp cp n m : (2 <= n <= 3)%nat -> (m <= n)%nat ->
  p_nm sp cp n m = norm_factor n m * cp ^ m * dlegendre n m sp.
Proof.
  intros Hn Hm. rewrite factor_weight by assumption.
  destruct n as [|[|[|[|n]]]]; try lia; destruct m as [|[|[|[|m]]]]; try lia; cbn [p_nm weight];
    rewrite ?dleg_20, ?dleg_30, ?dleg_21, ?dleg_22, ?dleg_31, ?dleg_32, ?dleg_33; unfold P2, P3; cbn [pow]; field.
Qed.

(** ** A perturber that is not closer to the pole than the code can tell. *)
Definition clear_of_pole (q : v3) : Prop :=
  let c := sqrt (1 - (vz q / norm q) ^ 2) in c = 0 \/ 1 / 1000000000000 < c.

Section One.
Context (q : v3) (Hq : q <> vzero) (Hc : clear_of_pole q).
Let sj := vx q / norm q. Let tj := vy q / norm q. Let uj := vz q / norm q.
Let cp := sqrt (Rmax (1 - uj ^ 2) 0).
Let far := if Rlt_dec (1 / 1000000000000) cp then true else false.
Let cl := if far then sj / cp else 1. Let sl := if far then tj / cp else 0.
Lemma dir_unit x : x <> vzero -> (vx x / norm x) ^ 2 + (vy x / norm x) ^ 2 + (vz x / norm x) ^ 2 = 1.
Proof.
  intros H. apply norm_pos in H. pose proof (norm_sqr x) as N. unfold dot in N.
  replace ((vx x / norm x) ^ 2 + (vy x / norm x) ^ 2 + (vz x / norm x) ^ 2)
    with ((vx x * vx x + vy x * vy x + vz x * vz x) / (norm x * norm x)) by (field; lra).
  rewrite <- N. field. lra.
Qed.
Lemma cp_sqr : cp * cp = sj ^ 2 + tj ^ 2 /\ cp = sqrt (1 - uj ^ 2).
Proof.
  pose proof (dir_unit q Hq) as U. fold sj tj uj in U.
  assert (P : 0 <= 1 - uj ^ 2) by nra. unfold cp. rewrite Rmax_left by exact P. split; [rewrite sqrt_sqrt by exact P; nra|reflexivity].
Qed.
Lemma longitude m : (m <= 3)%nat ->
  cp ^ m * fst (multiple cl sl m) = fst (cpow sj tj m) /\ cp ^ m * snd (multiple cl sl m) = snd (cpow sj tj m).
Proof.
  intros Hm. destruct cp_sqr as [S1 S2]. unfold clear_of_pole in Hc. cbn zeta in Hc. fold uj in Hc. rewrite <- S2 in Hc.
  assert (E : cp * cl = sj /\ cp * sl = tj /\ (cp = 0 -> sj = 0 /\ tj = 0)).
  { assert (Z : cp = 0 -> sj = 0 /\ tj = 0) by (intros Z; rewrite Z in S1; split; nra).
    unfold cl, sl, far. destruct (Rlt_dec (1 / 1000000000000) cp) as [F|F].
    - repeat split; try (field; lra); now apply Z.
    - destruct Hc as [C|C]; [|lra]. destruct (Z C) as [A B]. rewrite A, B, C. repeat split; ring. }
  destruct E as (A & B & _). rewrite <- A, <- B.
  destruct m as [|[|[|[|m]]]]; try lia; cbn [multiple cpow fst snd pow]; split; ring.
Qed.

(** The sum over the orders, by the addition theorem. *)
Context (p : v3) (Hp : p <> vzero).
Let s := vx p / norm p. Let t := vy p / norm p. Let u := vz p / norm p.
Lemma cos_value : cos_angle p q = s * sj + t * tj + u * uj.
Proof.
  apply norm_pos in Hp. apply norm_pos in Hq. unfold cos_angle, s, t, u, sj, tj, uj, dot. field. split; lra.
Qed.
Definition pair_term (n m : nat) : R :=
  weight n m * dlegendre n m u * dlegendre n m uj * (fst (cpow s t m) * fst (cpow sj tj m) + snd (cpow s t m) * snd (cpow sj tj m)).
Lemma addition_2 : pair_term 2 0 + pair_term 2 1 + pair_term 2 2 = 5 * P2 (cos_angle p q).
Proof.
  rewrite cos_value. unfold pair_term. rewrite !dleg_20, !dleg_21, !dleg_22. cbn [weight cpow fst snd].
  pose proof (dir_unit p Hp) as U. pose proof (dir_unit q Hq) as V. fold s t u in U. fold sj tj uj in V.
  unfold P2. set (A := s * sj + t * tj).
  assert (X : (s * tj - t * sj) ^ 2 = (1 - u ^ 2) * (1 - uj ^ 2) - A ^ 2).
  { replace (1 - u ^ 2) with (s ^ 2 + t ^ 2) by lra. replace (1 - uj ^ 2) with (sj ^ 2 + tj ^ 2) by lra. unfold A. ring. }
  transitivity (5 * ((3 * u ^ 2 - 1) / 2) * ((3 * uj ^ 2 - 1) / 2) + 15 * u * uj * A + 15 / 4 * (A ^ 2 - (s * tj - t * sj) ^ 2)).
  - unfold A. field.
  - rewrite X. clearbody A. field.
Qed.
Lemma addition_3 : pair_term 3 0 + pair_term 3 1 + pair_term 3 2 + pair_term 3 3 = 7 * P3 (cos_angle p q).
Proof.
  rewrite cos_value. unfold pair_term. rewrite !dleg_30, !dleg_31, !dleg_32, !dleg_33. cbn [weight cpow fst snd].
  pose proof (dir_unit p Hp) as U. pose proof (dir_unit q Hq) as V. fold s t u in U. fold sj tj uj in V.
  unfold P3. set (A := s * sj + t * tj).
  assert (X : (s * tj - t * sj) ^ 2 = (1 - u ^ 2) * (1 - uj ^ 2) - A ^ 2).
  { replace (1 - u ^ 2) with (s ^ 2 + t ^ 2) by lra. replace (1 - uj ^ 2) with (sj ^ 2 + tj ^ 2) by lra. unfold A. ring. }
  transitivity (7 * ((5 * u ^ 3 - 3 * u) / 2) * ((5 * uj ^ 3 - 3 * uj) / 2)
    + 7 / 6 * ((15 * u ^ 2 - 3) / 2) * ((15 * uj ^ 2 - 3) / 2) * A
    + 105 / 4 * u * uj * (A ^ 2 - (s * tj - t * sj) ^ 2) + 35 / 8 * (A ^ 3 - 3 * A * (s * tj - t * sj) ^ 2)).
  - unfold A. field.
  - rewrite X. clearbody A. field.
Qed.

(** What one order adds to the potential. *)
Context (mu er : R).
Lemma order_adds common n m : (2 <= n <= 3)%nat -> (m <= n)%nat ->
  harmonic (common * p_nm uj cp n m * fst (multiple cl sl m)) (common * p_nm uj cp n m * snd (multiple cl sl m)) er mu n m p
  = mu / norm p * (er / norm p) ^ n * common * pair_term n m.
Proof.
  intros Hn Hm. unfold harmonic. fold s t u. rewrite p_nm_value by assumption.
  destruct (longitude m ltac:(lia)) as [L1 L2]. destruct (cpow s t m) as [a b] eqn:Ec.
  unfold pair_term. rewrite Ec, <- L1, <- L2. cbn [fst snd].
  assert (W : norm_factor n m * norm_factor n m = weight n m).
  { rewrite factor_weight by assumption. apply sqrt_sqrt, weight_pos. }
  rewrite <- W. ring.
Qed.
End One.

(** ** All of them *)
Lemma harmonic_zero er mu n m p : harmonic 0 0 er mu n m p = 0.
Proof. unfold harmonic. destruct (cpow _ _ _). ring. Qed.
Lemma harmonic_add C S C' S' er mu n m p :
  harmonic (C + C') (S + S') er mu n m p = harmonic C S er mu n m p + harmonic C' S' er mu n m p.
Proof. unfold harmonic. destruct (cpow _ _ _). ring. Qed.

Definition hs (cs : table * table) er mu n m p := harmonic (fst cs n m) (snd cs n m) er mu n m p.
Lemma potential_unroll cs er mu p : potential (tide_field (fst cs) (snd cs)) er mu p =
  hs cs er mu 2 0 p + hs cs er mu 2 1 p + hs cs er mu 2 2 p
  + (hs cs er mu 3 0 p + hs cs er mu 3 1 p + hs cs er mu 3 2 p + hs cs er mu 3 3 p).
Proof.
  unfold potential, hs. cbn [degree order tide_field seq Nat.min map rsum c_nm s_nm Nat.ltb Nat.leb].
  rewrite !harmonic_zero. ring.
Qed.

Definition tide_common (kn mu radius mu_j : R) (q : v3) (n : nat) : R := kn / (2 * INR n + 1) * (mu_j / mu) * (radius / norm q) ^ (n + 1).
Lemma raise_cells d3 K2 K3 mu radius mu_j q cs n m : (2 <= n <= 3)%nat -> (m <= n)%nat ->
  let uj := vz q / norm q in
  let cp := sqrt (Rmax (1 - uj ^ 2) 0) in
  let far := if Rlt_dec (1 / 1000000000000) cp then true else false in
  let cl := if far then vx q / norm q / cp else 1 in
  let sl := if far then vy q / norm q / cp else 0 in
  let out := raise d3 K2 K3 mu radius mu_j q cs in
  let on := ((n =? 2)%nat || d3)%bool in
  let common := tide_common (if (n =? 2)%nat then K2 else K3) mu radius mu_j q n in
  fst out n m = fst cs n m + (if on then common * p_nm uj cp n m * fst (multiple cl sl m) else 0) /\
  snd out n m = snd cs n m + (if on then common * p_nm uj cp n m * snd (multiple cl sl m) else 0).
Proof.
  intros Hn Hm uj cp far cl sl out on common. unfold out, raise. fold uj. fold cp. fold far. fold cl sl. clearbody cl sl cp.
  destruct cs as [c s].
  destruct n as [|[|[|[|n]]]]; try lia; destruct m as [|[|[|[|m]]]]; try lia; destruct d3;
    cbn [seq fold_left Nat.add fst snd upd Nat.eqb andb orb on multiple]; unfold common, tide_common;
    cbn [Nat.eqb Nat.add]; unfold upd; cbn [Nat.eqb andb]; split; ring.
Qed.

Lemma scaled_radius radius : 0 < radius -> forall p q, p <> vzero -> q <> vzero ->
  norm (vscale (radius / norm p) p) = radius /\ cos_angle (vscale (radius / norm p) p) q = cos_angle p q.
Proof.
  intros Hr p q Hp Hq. assert (Np : 0 < norm p) by now apply norm_pos. assert (Nq : 0 < norm q) by now apply norm_pos.
  assert (A : norm (vscale (radius / norm p) p) = radius).
  { rewrite norm_scale, Rabs_pos_eq; [field; lra|]. apply Rlt_le, Rdiv_lt_0_compat; lra. }
  split; [exact A|]. unfold cos_angle. rewrite A.
  replace (dot (vscale (radius / norm p) p) q) with (radius / norm p * dot p q) by (unfold dot, vscale; cbn [vx vy vz]; ring).
  field. repeat split; lra.
Qed.
Lemma raise_adds d3 K2 K3 mu radius mu_j q cs p : 0 < radius -> q <> vzero -> clear_of_pole q -> p <> vzero -> mu <> 0 ->
  potential (tide_field (fst (raise d3 K2 K3 mu radius mu_j q cs)) (snd (raise d3 K2 K3 mu radius mu_j q cs))) radius mu p
  = potential (tide_field (fst cs) (snd cs)) radius mu p
    + (induced 2 P2 K2 radius mu_j q p + (if d3 then induced 3 P3 K3 radius mu_j q p else 0)).
Proof.
  intros Hr Hq Hc Hp Hm. rewrite !potential_unroll.
  assert (Np : 0 < norm p) by now apply norm_pos. assert (Nq : 0 < norm q) by now apply norm_pos.
  assert (H : forall n m, (2 <= n <= 3)%nat -> (m <= n)%nat ->
    hs (raise d3 K2 K3 mu radius mu_j q cs) radius mu n m p = hs cs radius mu n m p +
      (if ((n =? 2)%nat || d3)%bool then mu / norm p * (radius / norm p) ^ n
         * tide_common (if (n =? 2)%nat then K2 else K3) mu radius mu_j q n * pair_term q p n m else 0)).
  { intros n m Hn Hm'. unfold hs. destruct (raise_cells d3 K2 K3 mu radius mu_j q cs n m Hn Hm') as [A B]. cbn zeta in A, B.
    rewrite A, B. destruct ((n =? 2)%nat || d3)%bool.
    - rewrite harmonic_add. f_equal. apply (order_adds q Hq Hc p mu radius _ n m Hn Hm').
    - rewrite harmonic_add. f_equal. apply harmonic_zero. }
  rewrite !H by lia. cbn [Nat.eqb orb].
  destruct (scaled_radius radius Hr p q Hp Hq) as [Sn Sa].
  assert (I2 : induced 2 P2 K2 radius mu_j q p = mu / norm p * (radius / norm p) ^ 2 * tide_common K2 mu radius mu_j q 2
    * (pair_term q p 2 0 + pair_term q p 2 1 + pair_term q p 2 2)).
  { rewrite (addition_2 q Hq p Hp). unfold induced, raising, tide_common. rewrite Sn, Sa. cbn [INR Nat.add pow]. field.
    repeat split; lra. }
  assert (I3 : induced 3 P3 K3 radius mu_j q p = mu / norm p * (radius / norm p) ^ 3 * tide_common K3 mu radius mu_j q 3
    * (pair_term q p 3 0 + pair_term q p 3 1 + pair_term q p 3 2 + pair_term q p 3 3)).
  { rewrite (addition_3 q Hq p Hp). unfold induced, raising, tide_common. rewrite Sn, Sa. cbn [INR Nat.add pow]. field.
    repeat split; lra. }
  rewrite I2. destruct d3; [rewrite I3|]; ring.
Qed.

(** ** Dual numbers *)
Section DualTides.
Context (w : v3).
Lemma dtable_along (u : R -> R) (ud : dual) n m : along w u ud -> (n <= 4)%nat -> (m <= 4)%nat ->
  along w (fun h => tide_table (u h) n m) (dtide_table ud n m).
Proof.
  intros A Hn Hm.
  destruct n as [|[|[|[|[|n]]]]]; [| | | | |lia]; destruct m as [|[|[|[|[|m]]]]]; try lia;
    cbv [tide_table dtide_table fold_left seq upd Nat.eqb andb Nat.sub Nat.add];
    repeat first [apply along_sub | apply along_mul | apply along_const | exact A].
Qed.

Definition x1_ (q : R * R * R * R) := fst (fst (fst q)).
Definition x2_ (q : R * R * R * R) := snd (fst (fst q)).
Definition x3_ (q : R * R * R * R) := snd (fst q).
Definition x4_ (q : R * R * R * R) := snd q.
Lemma along_less f g a b : along w (fun h => - f h) a -> along w g b -> along w (fun h => - (f h - g h)) (dadd a b).
Proof.
  intros A B. apply (along_ext w (fun h => - f h + g h)); [intros; ring|]. now apply along_add.
Qed.
Lemma along_none : along w (fun _ => - 0) (dconst 0).
Proof. apply (along_ext w (fun _ => 0)); [intros; ring|]. apply along_const. Qed.

Lemma dsum_along (a : R -> nat -> nat -> R) ad (rs is : R -> list R) rd id c sv n : (2 <= n <= 3)%nat ->
  (forall n m, (n <= 4)%nat -> (m <= 4)%nat -> along w (fun h => a h n m) (ad n m)) ->
  (forall m, (m <= 3)%nat -> along w (fun h => nth m (rs h) 0) (nth m rd (dconst 0))) ->
  (forall m, (m <= 3)%nat -> along w (fun h => nth m (is h) 0) (nth m id (dconst 0))) ->
  along w (fun h => x1_ (tide_sum (a h) (rs h) (is h) c sv n)) (fst (fst (fst (dtide_sum ad rd id c sv n)))) /\
  along w (fun h => x2_ (tide_sum (a h) (rs h) (is h) c sv n)) (snd (fst (fst (dtide_sum ad rd id c sv n)))) /\
  along w (fun h => x3_ (tide_sum (a h) (rs h) (is h) c sv n)) (snd (fst (dtide_sum ad rd id c sv n))) /\
  along w (fun h => - x4_ (tide_sum (a h) (rs h) (is h) c sv n)) (snd (dtide_sum ad rd id c sv n)).
Proof.
  intros Hn A Mr Mi. unfold x1_, x2_, x3_, x4_.
  destruct n as [|[|[|[|n]]]]; try lia; unfold tide_sum, dtide_sum; cbn [seq Nat.add fold_left fst snd Nat.eqb Nat.sub];
    refine (conj _ (conj _ (conj _ _)));
    repeat first [apply along_none | apply along_less | apply along_add | apply along_sub | apply along_mul | apply along_const
                 | apply A; lia | apply Mr; lia | apply Mi; lia].
Qed.

Lemma dtide_along c sv er mu p : er <> 0 -> p <> vzero ->
  along w (fun h => vx (tide_local c sv er mu (line p w h))) (ux (dtide_local c sv er mu p)) /\
  along w (fun h => vy (tide_local c sv er mu (line p w h))) (uy (dtide_local c sv er mu p)) /\
  along w (fun h => vz (tide_local c sv er mu (line p w h))) (uz (dtide_local c sv er mu p)).
Proof.
  intros He Hp. destruct (along_line w p) as (Lx & Ly & Lz). pose proof (along_norm w p Hp) as Ln.
  assert (Rn : re (dnorm (hyperspace p)) <> 0).
  { rewrite dnorm_re, reals_hyperspace. apply Rgt_not_eq, norm_pos, Hp. }
  set (rd := dnorm (hyperspace p)) in *.
  pose proof (along_div w _ _ _ _ Rn Lx Ln) as As. pose proof (along_div w _ _ _ _ Rn Ly Ln) as At.
  pose proof (along_div w _ _ _ _ Rn Lz Ln) as Au.
  set (sd := ddiv (ux (hyperspace p)) rd) in *. set (td := ddiv (uy (hyperspace p)) rd) in *.
  set (ud := ddiv (uz (hyperspace p)) rd) in *.
  destruct (dpowers_spec w _ _ _ _ As At 3) as (_ & _ & K).
  set (S_ := fun h => vx (line p w h) / norm (line p w h)) in *.
  set (T_ := fun h => vy (line p w h) / norm (line p w h)) in *.
  set (U_ := fun h => vz (line p w h) / norm (line p w h)) in *.
  pose proof (fun n Hn => dsum_along (fun h => tide_table (U_ h)) (dtide_table ud) (fun h => fst (powers (S_ h) (T_ h) 3))
    (fun h => snd (powers (S_ h) (T_ h) 3)) (fst (dpowers sd td 3)) (snd (dpowers sd td 3)) c sv n Hn
    (fun n m Hn Hm => dtable_along U_ ud n m Au Hn Hm) (fun m Hm => proj1 (K m Hm)) (fun m Hm => proj2 (K m Hm))) as Q.
  destruct (Q 2%nat ltac:(lia)) as (X1 & X2 & X3 & X4). destruct (Q 3%nat ltac:(lia)) as (Y1 & Y2 & Y3 & Y4). clear Q.
  assert (Lr : along w (fun h => er / norm (line p w h)) (ddiv (dconst er) rd)) by (apply along_div; [exact Rn|apply along_const|exact Ln]).
  assert (Lm : along w (fun h => mu / norm (line p w h)) (ddiv (dconst mu) rd)) by (apply along_div; [exact Rn|apply along_const|exact Ln]).
  assert (E : forall h, tide_local c sv er mu (line p w h) =
    let s2 := tide_sum (tide_table (U_ h)) (fst (powers (S_ h) (T_ h) 3)) (snd (powers (S_ h) (T_ h) 3)) c sv 2 in
    let s3 := tide_sum (tide_table (U_ h)) (fst (powers (S_ h) (T_ h) 3)) (snd (powers (S_ h) (T_ h) 3)) c sv 3 in
    let rho := er / norm (line p w h) in
    let r2 := mu / norm (line p w h) * rho * rho * rho / er in let r3 := mu / norm (line p w h) * rho * rho * rho * rho / er in
    let a4 := 0 - r2 * (- x4_ s2) - r3 * (- x4_ s3) in
    V3 (0 + r2 * x1_ s2 + r3 * x1_ s3 + a4 * S_ h) (0 + r2 * x2_ s2 + r3 * x2_ s3 + a4 * T_ h) (0 + r2 * x3_ s2 + r3 * x3_ s3 + a4 * U_ h)).
  { intros h. unfold tide_local. fold (S_ h) (T_ h) (U_ h). destruct (powers (S_ h) (T_ h) 3) as [rs is]. cbn [seq fold_left Nat.ltb Nat.leb fst snd].
    destruct (tide_sum (tide_table (U_ h)) rs is c sv 2) as [[[? ?] ?] ?]. destruct (tide_sum (tide_table (U_ h)) rs is c sv 3) as [[[? ?] ?] ?].
    unfold x1_, x2_, x3_, x4_. cbn [fst snd]. apply v3_eq; cbn [vx vy vz]; ring. }
  assert (D : dtide_local c sv er mu p =
    let s2 := dtide_sum (dtide_table ud) (fst (dpowers sd td 3)) (snd (dpowers sd td 3)) c sv 2 in
    let s3 := dtide_sum (dtide_table ud) (fst (dpowers sd td 3)) (snd (dpowers sd td 3)) c sv 3 in
    let eqr := dconst er in let rho := ddiv eqr rd in let m0 := ddiv (dconst mu) rd in
    let r2 := ddiv (dmul (dmul (dmul m0 rho) rho) rho) eqr in let r3 := ddiv (dmul (dmul (dmul (dmul m0 rho) rho) rho) rho) eqr in
    let o := dconst 0 in
    let a4 := dsub (dsub o (dmul r2 (snd s2))) (dmul r3 (snd s3)) in
    D3 (dadd (dadd (dadd o (dmul r2 (fst (fst (fst s2))))) (dmul r3 (fst (fst (fst s3))))) (dmul a4 sd))
       (dadd (dadd (dadd o (dmul r2 (snd (fst (fst s2))))) (dmul r3 (snd (fst (fst s3))))) (dmul a4 td))
       (dadd (dadd (dadd o (dmul r2 (snd (fst s2)))) (dmul r3 (snd (fst s3)))) (dmul a4 ud))).
  { unfold dtide_local. fold rd. fold sd td ud. destruct (dpowers sd td 3) as [rs is]. cbn [seq fold_left Nat.ltb Nat.leb fst snd].
    destruct (dtide_sum (dtide_table ud) rs is c sv 2) as [[[? ?] ?] ?]. destruct (dtide_sum (dtide_table ud) rs is c sv 3) as [[[? ?] ?] ?].
    reflexivity. }
  rewrite D. cbv zeta in *. cbn [ux uy uz].
  assert (Ne : re (dconst er) <> 0) by exact He.
  refine (conj _ (conj _ _)); (eapply along_ext; [intros h; rewrite E; cbn [vx vy vz]; reflexivity|]);
    repeat first [exact X1 | exact X2 | exact X3 | exact X4 | exact Y1 | exact Y2 | exact Y3 | exact Y4 | exact Lr | exact Lm | exact As | exact At | exact Au
                 | apply along_const | apply along_add | apply along_sub | apply along_mul | apply along_div; [exact Ne| |]].
Qed.
End DualTides.
