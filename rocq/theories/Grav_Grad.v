(** The gradient of a gravity field is the derivative of its acceleration. *)
From Coq Require Import Reals List Lra Lia Psatz Arith.
From Coquelicot Require Import Coquelicot.
From Verif Require Import Base Vec3 Sc_Model Dyn_Model Dual Orb_Model Orb_Spec Orb_Props
  Grav_Legendre Grav_Model Grav_Spec Grav_Table Grav_Sum Grav_Props.
Import ListNotations.
Local Open Scope R_scope.

(** * Dual numbers and directional derivatives *)
Definition lin (w : v3) (d : dual) : R := vx w * du d 1 + vy w * du d 2 + vz w * du d 3.
Definition along (w : v3) (f : R -> R) (d : dual) : Prop := f 0 = re d /\ is_derive f 0 (lin w d).

Section Along.
Context (w : v3).

Lemma along_ext f g d : (forall h, f h = g h) -> along w f d -> along w g d.
Proof. intros E [A B]. split; [now rewrite <- E|]. now apply (is_derive_ext f). Qed.

Lemma along_const x : along w (fun _ => x) (dconst x).
Proof.
  split; [reflexivity|]. unfold lin, dconst; cbn [du]. rewrite !Rmult_0_r, !Rplus_0_r. apply (is_derive_const x).
Qed.

Lemma along_add f g a b : along w f a -> along w g b -> along w (fun h => f h + g h) (dadd a b).
Proof.
  intros [A1 A2] [B1 B2]. split; cbn [re dadd]; [now rewrite A1, B1|].
  replace (lin w (dadd a b)) with (lin w a + lin w b) by (unfold lin; cbn [du dadd]; ring).
  now apply (is_derive_plus f g).
Qed.

Lemma along_sub f g a b : along w f a -> along w g b -> along w (fun h => f h - g h) (dsub a b).
Proof.
  intros [A1 A2] [B1 B2]. split; cbn [re dsub]; [now rewrite A1, B1|].
  replace (lin w (dsub a b)) with (lin w a - lin w b) by (unfold lin; cbn [du dsub]; ring).
  now apply (is_derive_minus f g).
Qed.

Lemma along_mul f g a b : along w f a -> along w g b -> along w (fun h => f h * g h) (dmul a b).
Proof.
  intros [A1 A2] [B1 B2]. split; cbn [re dmul]; [now rewrite A1, B1|].
  replace (lin w (dmul a b)) with (lin w a * re b + re a * lin w b) by (unfold lin; cbn [du dmul]; ring).
  rewrite <- A1, <- B1. apply (is_derive_mult f g); trivial. intros n m. apply Rmult_comm.
Qed.

Lemma along_div f g a b : re b <> 0 -> along w f a -> along w g b -> along w (fun h => f h / g h) (ddiv a b).
Proof.
  intros N [A1 A2] [B1 B2]. split; cbn [re ddiv]; [now rewrite A1, B1|].
  assert (H : is_derive (fun h => f h / g h) 0 ((lin w a * g 0 - f 0 * lin w b) / (g 0) ^ 2)).
  { apply is_derive_div; trivial. now rewrite B1. }
  rewrite A1, B1 in H.
  replace (lin w (ddiv a b)) with ((lin w a * re b - re a * lin w b) / re b ^ 2); [exact H|].
  unfold lin; cbn [du ddiv]. field. exact N.
Qed.

Lemma along_sqrt f a : 0 < re a -> along w f a -> along w (fun h => sqrt (f h)) (dsqrt a).
Proof.
  intros N [A1 A2]. split; cbn [re dsqrt]; [now rewrite A1|].
  replace (lin w (dsqrt a)) with (lin w a / (2 * sqrt (re a))).
  - rewrite <- A1. apply is_derive_sqrt; [exact A2|now rewrite A1].
  - unfold lin; cbn [du dsqrt]. field. apply Rgt_not_eq, sqrt_lt_R0, N.
Qed.

Lemma along_line p :
  along w (fun h => vx (line p w h)) (ux (hyperspace p)) /\
  along w (fun h => vy (line p w h)) (uy (hyperspace p)) /\
  along w (fun h => vz (line p w h)) (uz (hyperspace p)).
Proof.
  destruct (derives_line p w) as (A & B & C).
  refine (conj (conj _ _) (conj (conj _ _) (conj _ _))); try (rewrite line_0; reflexivity).
  - evar_last; [exact A|]. unfold lin, hyperspace, dvar; cbn [ux du Nat.eqb].
    match goal with |- @eq _ ?x ?y => change (@eq R x y) end. ring.
  - evar_last; [exact B|]. unfold lin, hyperspace, dvar; cbn [uy du Nat.eqb].
    match goal with |- @eq _ ?x ?y => change (@eq R x y) end. ring.
  - evar_last; [exact C|]. unfold lin, hyperspace, dvar; cbn [uz du Nat.eqb].
    match goal with |- @eq _ ?x ?y => change (@eq R x y) end. ring.
Qed.

Lemma along_norm p : p <> vzero -> along w (fun h => norm (line p w h)) (dnorm (hyperspace p)).
Proof.
  intros N. destruct (along_line p) as (A & B & C). unfold norm, dnorm. apply along_sqrt.
  - rewrite dot_re, reals_hyperspace. now apply dot_pos.
  - unfold dot. repeat apply along_add; now apply along_mul.
Qed.

(** * The tables *)
Lemma dtable_spec (u : R -> R) (ud : dual) N M : along w u ud ->
  forall n m, ~ (n = N + 2 /\ m = N + 2)%nat ->
  along w (fun h => legendre_table (u h) N M n m) (dlegendre_table ud N M n m).
Proof.
  intros Hu.
  set (good := fun (T : R -> nat -> nat -> R) (D : nat -> nat -> dual) =>
    forall n m, ~ (n = N + 2 /\ m = N + 2)%nat -> along w (fun h => T h n m) (D n m)).
  assert (U : forall T D i j f d, good T D -> along w f d ->
    good (fun h => upd (T h) i j (f h)) (upd D i j d)).
  { intros T D i j f d HT Hf n m Hnm. unfold upd. destruct ((n =? i) && (m =? j))%nat; [exact Hf|now apply HT]. }
  assert (S1 : forall ns T D, (forall n, In n ns -> (n <= N + 1)%nat) -> good T D ->
    good (fun h => fold_left (fun t n => upd t (n + 1) n (sqrt (2 * INR n + 3) * u h * t n n)) ns (T h))
         (fold_left (fun t n => upd t (n + 1) n (dmul (dmul (dconst (sqrt (2 * INR n + 3))) ud) (t n n))) ns D)).
  { induction ns as [|n ns IH]; intros T D HI HT; cbn [fold_left]; [exact HT|].
    apply (IH (fun h => upd (T h) (n + 1) n (sqrt (2 * INR n + 3) * u h * T h n n))).
    - intros k Hk. apply HI. now right.
    - apply U; [exact HT|]. apply along_mul; [apply along_mul; [apply along_const|exact Hu]|].
      apply HT. specialize (HI n (or_introl eq_refl)). lia. }
  assert (S2 : forall m ns T D, (forall n, In n ns -> (n <= N + 1)%nat) -> good T D ->
    good (fun h => fold_left (fun t n => upd t n m (u h * tab_b n m * t (n - 1)%nat m - tab_c n m * t (n - 2)%nat m)) ns (T h))
         (fold_left (fun t n => upd t n m (dsub (dmul (dmul ud (dconst (tab_b n m))) (t (n - 1)%nat m))
                                         (dmul (dconst (tab_c n m)) (t (n - 2)%nat m)))) ns D)).
  { intros m. induction ns as [|n ns IH]; intros T D HI HT; cbn [fold_left]; [exact HT|].
    apply (IH (fun h => upd (T h) n m (u h * tab_b n m * T h (n - 1)%nat m - tab_c n m * T h (n - 2)%nat m))).
    - intros k Hk. apply HI. now right.
    - specialize (HI n (or_introl eq_refl)). apply U; [exact HT|]. apply along_sub.
      + apply along_mul; [apply along_mul; [exact Hu|apply along_const]|]. apply HT. lia.
      + apply along_mul; [apply along_const|]. apply HT. lia. }
  assert (S3 : forall ms T D, good T D ->
    good (fun h => fold_left (fun t m =>
            fold_left (fun t n => upd t n m (u h * tab_b n m * t (n - 1)%nat m - tab_c n m * t (n - 2)%nat m))
              (seq (m + 2) (N - m)) t) ms (T h))
         (fold_left (fun t m =>
            fold_left (fun t n => upd t n m (dsub (dmul (dmul ud (dconst (tab_b n m))) (t (n - 1)%nat m))
                                         (dmul (dconst (tab_c n m)) (t (n - 2)%nat m))))
              (seq (m + 2) (N - m)) t) ms D)).
  { induction ms as [|m ms IH]; intros T D HT; cbn [fold_left]; [exact HT|].
    apply (IH (fun h => fold_left (fun t n => upd t n m (u h * tab_b n m * t (n - 1)%nat m - tab_c n m * t (n - 2)%nat m))
              (seq (m + 2) (N - m)) (T h))).
    apply S2; [|exact HT]. intros n Hn. apply in_seq in Hn. lia. }
  unfold legendre_table, dlegendre_table. cbv zeta.
  apply (S3 (seq 0 (M + 2)) (fun h => fold_left _ (seq 1 (N + 1)) _)).
  apply (S1 (seq 1 (N + 1)) (fun h => upd _ 1 0 (u h * sqrt 3))).
  { intros n Hn. apply in_seq in Hn. lia. }
  apply (U (fun _ => _)).
  - intros n m Hnm. destruct (n =? m)%nat eqn:E; cbn [andb]; [|apply along_const].
    apply Nat.eqb_eq in E. subst m. destruct (n <=? N + 1)%nat eqn:L.
    + replace (n <=? N + 2)%nat with true; [apply along_const|].
      apply Nat.leb_le in L. symmetry. apply Nat.leb_le. lia.
    + replace (n <=? N + 2)%nat with false; [apply along_const|].
      apply Nat.leb_gt in L. symmetry. apply Nat.leb_gt. lia.
  - apply along_mul; [exact Hu|apply along_const].
Qed.

Lemma dpowers_spec (s t : R -> R) sd td : along w s sd -> along w t td -> forall k,
  length (fst (dpowers sd td k)) = S k /\ length (snd (dpowers sd td k)) = S k /\
  forall m, (m <= k)%nat ->
    along w (fun h => nth m (fst (powers (s h) (t h) k)) 0) (nth m (fst (dpowers sd td k)) (dconst 0)) /\
    along w (fun h => nth m (snd (powers (s h) (t h) k)) 0) (nth m (snd (dpowers sd td k)) (dconst 0)).
Proof.
  intros Hs Ht. induction k as [|k (L1 & L2 & IH)].
  - cbn. split; [reflexivity|]. split; [reflexivity|]. intros m Hm. assert (m = 0)%nat as -> by lia.
    split; apply along_const.
  - assert (P1 : forall h m, (m <= k)%nat ->
      nth m (fst (powers (s h) (t h) (S k))) 0 = nth m (fst (powers (s h) (t h) k)) 0 /\
      nth m (snd (powers (s h) (t h) (S k))) 0 = nth m (snd (powers (s h) (t h) k)) 0).
    { intros h m Hm. destruct (powers_spec (s h) (t h) k) as (Q1 & Q2 & _). cbn [powers].
      destruct (powers (s h) (t h) k) as [rs is]. cbn [fst snd] in *. rewrite !app_nth1 by lia. now split. }
    assert (P2 : forall h,
      nth (S k) (fst (powers (s h) (t h) (S k))) 0
        = s h * nth k (fst (powers (s h) (t h) k)) 0 - t h * nth k (snd (powers (s h) (t h) k)) 0 /\
      nth (S k) (snd (powers (s h) (t h) (S k))) 0
        = s h * nth k (snd (powers (s h) (t h) k)) 0 + t h * nth k (fst (powers (s h) (t h) k)) 0).
    { intros h. destruct (powers_spec (s h) (t h) k) as (Q1 & Q2 & _). cbn [powers].
      destruct (powers (s h) (t h) k) as [rs is]. cbn [fst snd] in *.
      rewrite !app_nth2 by lia. rewrite Q1, Q2, Nat.sub_diag. now split. }
    cbn [dpowers]. destruct (dpowers sd td k) as [rs is]. cbn [fst snd] in *.
    rewrite !app_length, L1, L2. cbn [length]. split; [lia|]. split; [lia|].
    intros m Hm. destruct (Nat.eq_dec m (S k)) as [->|Hne].
    + rewrite !app_nth2 by lia. rewrite L1, L2, Nat.sub_diag. cbn [nth].
      destruct (IH k ltac:(lia)) as [E1 E2]. split.
      * eapply along_ext; [intros h; symmetry; apply (P2 h)|]. apply along_sub; now apply along_mul.
      * eapply along_ext; [intros h; symmetry; apply (P2 h)|]. apply along_add; now apply along_mul.
    + rewrite !app_nth1 by lia. destruct (IH m ltac:(lia)) as [E1 E2]. split.
      * eapply along_ext; [intros h; symmetry; apply (P1 h m); lia|exact E1].
      * eapply along_ext; [intros h; symmetry; apply (P1 h m); lia|exact E2].
Qed.

(** * The sums *)
Section Sums.
Context (d : field_data) (T : R -> nat -> nat -> R) (D : nat -> nat -> dual)
        (rs is : R -> list R) (rsd isd : list dual).
Hypothesis Hsize : (degree d < size d)%nat.
Hypothesis HT : forall n m, ~ (n = degree d + 2 /\ m = degree d + 2)%nat -> along w (fun h => T h n m) (D n m).
Let k := Nat.min (degree d) (order d).
Hypothesis Hlen : forall h, length (rs h) = S k /\ length (is h) = S k.
Hypothesis Hlend : length rsd = S k /\ length isd = S k.
Hypothesis Hpow : forall m, (m <= k)%nat ->
  along w (fun h => nth m (rs h) 0) (nth m rsd (dconst 0)) /\
  along w (fun h => nth m (is h) 0) (nth m isd (dconst 0)).

Lemma rdv_nth {A} (l : list A) m d0 : (m < length l)%nat -> rdv l m = Ok (nth m l d0).
Proof. intros H. unfold rdv. now rewrite (nth_error_nth' l d0 H). Qed.

(** the four components of [f h] are tracked, the last with the sign of [q] *)
Definition along4 (q : R) (f : R -> R * R * R * R) (x : dual * dual * dual * dual) : Prop :=
  along w (fun h => fst (fst (fst (f h)))) (fst (fst (fst x))) /\
  along w (fun h => snd (fst (fst (f h)))) (snd (fst (fst x))) /\
  along w (fun h => snd (fst (f h))) (snd (fst x)) /\
  along w (fun h => q * snd (f h)) (snd x).

Lemma dterm_spec n m : (n <= degree d)%nat -> (m <= n)%nat -> (m <= order d)%nat ->
  exists f x, (forall h, term d (T h) (rs h) (is h) n m = Ok (f h)) /\
    dterm d D rsd isd n m = Ok x /\ along4 1 f x.
Proof.
  intros Hn Hm Ho. unfold term, dterm.
  assert (Hcs : cs_nm d n m = Ok (c_nm d n m, s_nm d n m)).
  { unfold cs_nm. replace (n <? size d)%nat with true by (symmetry; apply Nat.ltb_lt; lia).
    replace (m <? size d)%nat with true by (symmetry; apply Nat.ltb_lt; lia). reflexivity. }
  rewrite Hcs. cbn [bind fst snd].
  rewrite (rdv_nth rsd m (dconst 0)), (rdv_nth isd m (dconst 0)) by lia. cbn [bind].
  set (c := c_nm d n m). set (s := s_nm d n m).
  destruct (Hpow m ltac:(lia)) as [A1 A2].
  assert (AD : along w (fun h => (c * nth m (rs h) 0 + s * nth m (is h) 0) * sqrt 2)
     (dmul (dadd (dmul (dconst c) (nth m rsd (dconst 0))) (dmul (dconst s) (nth m isd (dconst 0)))) (dconst (sqrt 2)))).
  { apply along_mul; [|apply along_const]. apply along_add; apply along_mul; try apply along_const; assumption. }
  assert (EF : exists e f ed fd,
    (forall h, (if (m =? 0)%nat then Ok (0, 0)
        else bind (rdv (rs h) (m - 1)) (fun r1 => bind (rdv (is h) (m - 1)) (fun i1 =>
             Ok ((c * r1 + s * i1) * sqrt 2, (s * r1 - c * i1) * sqrt 2)))) = Ok (e h, f h) :> res dyn_error (R * R)) /\
    (if (m =? 0)%nat then Ok (dconst 0, dconst 0)
        else bind (rdv rsd (m - 1)) (fun r1 => bind (rdv isd (m - 1)) (fun i1 =>
             Ok (dmul (dadd (dmul (dconst c) r1) (dmul (dconst s) i1)) (dconst (sqrt 2)),
                 dmul (dsub (dmul (dconst s) r1) (dmul (dconst c) i1)) (dconst (sqrt 2))))))
      = Ok (ed, fd) :> res dyn_error (dual * dual) /\
    along w e ed /\ along w f fd).
  { destruct m as [|m]; cbn [Nat.eqb].
    - exists (fun _ => 0), (fun _ => 0). do 2 eexists. split; [reflexivity|]. split; [reflexivity|].
      split; apply along_const.
    - destruct (Hpow (S m - 1)%nat ltac:(lia)) as [B1 B2].
      exists (fun h => (c * nth (S m - 1) (rs h) 0 + s * nth (S m - 1) (is h) 0) * sqrt 2),
             (fun h => (s * nth (S m - 1) (rs h) 0 - c * nth (S m - 1) (is h) 0) * sqrt 2).
      do 2 eexists. split; [|split; [|split]].
      + intros h. destruct (Hlen h) as [L1 L2].
        rewrite (rdv_nth (rs h) _ 0), (rdv_nth (is h) _ 0) by lia. reflexivity.
      + rewrite (rdv_nth rsd _ (dconst 0)), (rdv_nth isd _ (dconst 0)) by lia. reflexivity.
      + apply along_mul; [|apply along_const]. apply along_add; apply along_mul; try apply along_const; assumption.
      + apply along_mul; [|apply along_const]. apply along_sub; apply along_mul; try apply along_const; assumption. }
  destruct EF as (e & f & ed & fd & E1 & E2 & AE & AF).
  rewrite E2. cbn [bind]. rewrite !rd_ok by lia. cbn [bind].
  exists (fun h => (INR m * T h n m * e h, INR m * T h n m * f h,
                    tab_vr01 n m * T h n (m + 1)%nat * ((c * nth m (rs h) 0 + s * nth m (is h) 0) * sqrt 2),
                    tab_vr11 n m * T h (n + 1)%nat (m + 1)%nat * ((c * nth m (rs h) 0 + s * nth m (is h) 0) * sqrt 2))).
  eexists. split; [|split; [reflexivity|]].
  - intros h. destruct (Hlen h) as [L1 L2].
    rewrite (rdv_nth (rs h) m 0), (rdv_nth (is h) m 0) by lia. cbn [bind].
    rewrite (E1 h). cbn [bind]. rewrite !rd_ok by lia. reflexivity.
  - unfold along4. cbn [fst snd]. refine (conj _ (conj _ (conj _ _))).
    + apply along_mul; [|exact AE]. apply along_mul; [apply along_const|]. apply HT. lia.
    + apply along_mul; [|exact AF]. apply along_mul; [apply along_const|]. apply HT. lia.
    + apply along_mul; [|exact AD]. apply along_mul; [apply along_const|]. apply HT. lia.
    + eapply along_ext; [intros h; symmetry; apply Rmult_1_l|].
      apply along_mul; [|exact AD]. apply along_mul; [apply along_const|]. apply HT. lia.
Qed.

Lemma dsum_orders_spec n ms : (n <= degree d)%nat -> Forall (fun m => (m <= n)%nat /\ (m <= order d)%nat) ms ->
  forall f x, along4 (-1) f x ->
  exists g y, (forall h, sum_orders d (T h) (rs h) (is h) n ms (f h) = Ok (g h)) /\
    dsum_orders d D rsd isd n ms x = Ok y /\ along4 (-1) g y.
Proof.
  intros Hn. induction ms as [|m ms IH]; intros F f x Hf; cbn [sum_orders dsum_orders].
  - exists f, x. split; [reflexivity|]. now split.
  - inversion F as [|? ? [A B] F']; subst.
    destruct (dterm_spec n m Hn A B) as (g & y & G1 & G2 & G3). rewrite G2. cbn [bind].
    destruct x as [[[s1 s2] s3] s4]. destruct y as [[[y1 y2] y3] y4].
    destruct (IH F' (fun h => (fst (fst (fst (f h))) + fst (fst (fst (g h))), snd (fst (fst (f h))) + snd (fst (fst (g h))),
                          snd (fst (f h)) + snd (fst (g h)), snd (f h) - snd (g h)))
                (dadd s1 y1, dadd s2 y2, dadd s3 y3, dadd s4 y4)) as (g' & y' & G1' & G2' & G3').
    { destruct Hf as (F1 & F2 & F3 & F4). destruct G3 as (K1 & K2 & K3 & K4). unfold along4. cbn [fst snd] in *.
      refine (conj _ (conj _ (conj _ _))); try now apply along_add.
      eapply along_ext; [|apply (along_add _ _ _ _ F4 K4)]. intros h. cbv beta. ring. }
    exists g', y'. split; [|split; [exact G2'|exact G3']].
    intros h. rewrite (G1 h). cbn [bind]. specialize (G1' h). cbv beta in G1'.
    destruct (g h) as [[[? ?] ?] ?]. destruct (f h) as [[[? ?] ?] ?]. exact G1'.
Qed.

Lemma dsum_degrees_spec (rho : R -> R) (rhod : dual) er : er <> 0 -> along w rho rhod ->
  forall ns, (forall n, In n ns -> (n <= degree d)%nat) ->
  forall mr mrd f x, along w mr mrd -> along4 1 f x ->
  exists g y, (forall h, sum_degrees d (T h) (rs h) (is h) (rho h) er ns (mr h) (f h) = Ok (g h)) /\
    dsum_degrees d D rsd isd rhod (dconst er) ns mrd x = Ok y /\ along4 1 g y.
Proof.
  intros Her Hrho. induction ns as [|n ns IH]; intros Hns mr mrd f x Hmr Hf; cbn [sum_degrees dsum_degrees].
  - exists f, x. split; [reflexivity|]. now split.
  - destruct (dsum_orders_spec n (seq 0 (S (Nat.min n (order d))))) with
      (f := fun _ : R => (0, 0, 0, 0)) (x := (dconst 0, dconst 0, dconst 0, dconst 0)) as (g & y & G1 & G2 & G3).
    { apply Hns. now left. }
    { apply Forall_forall. intros m H. apply in_seq in H. lia. }
    { unfold along4. cbn [fst snd]. refine (conj _ (conj _ (conj _ _))); try apply along_const.
      eapply along_ext; [|apply along_const]. intros h. cbv beta. ring. }
    rewrite G2. cbn [bind].
    destruct x as [[[s1 s2] s3] s4]. destruct y as [[[y1 y2] y3] y4].
    pose proof (along_mul _ _ _ _ Hmr Hrho) as Hmr'.
    assert (Hrr : along w (fun h => mr h * rho h / er) (ddiv (dmul mrd rhod) (dconst er))).
    { apply along_div; [exact Her|exact Hmr'|apply along_const]. }
    destruct (IH (fun k Hk => Hns k (or_intror Hk)) (fun h => mr h * rho h) (dmul mrd rhod)
       (fun h => (fst (fst (fst (f h))) + mr h * rho h / er * fst (fst (fst (g h))),
                  snd (fst (fst (f h))) + mr h * rho h / er * snd (fst (fst (g h))),
                  snd (fst (f h)) + mr h * rho h / er * snd (fst (g h)),
                  snd (f h) + mr h * rho h / er * snd (g h)))
       (dadd s1 (dmul (ddiv (dmul mrd rhod) (dconst er)) y1), dadd s2 (dmul (ddiv (dmul mrd rhod) (dconst er)) y2),
        dadd s3 (dmul (ddiv (dmul mrd rhod) (dconst er)) y3), dsub s4 (dmul (ddiv (dmul mrd rhod) (dconst er)) y4))
       Hmr') as (g' & y' & G1' & G2' & G3').
    { destruct Hf as (F1 & F2 & F3 & F4). destruct G3 as (K1 & K2 & K3 & K4). unfold along4. cbn [fst snd] in *.
      refine (conj _ (conj _ (conj _ _))); try (apply along_add; [assumption|now apply along_mul]).
      eapply along_ext; [|apply (along_sub _ _ _ _ F4 (along_mul _ _ _ _ Hrr K4))]. intros h. cbv beta. ring. }
    exists g', y'. split; [|split; [exact G2'|exact G3']].
    intros h. rewrite (G1 h). cbn [bind]. specialize (G1' h). cbv beta in G1'.
    destruct (g h) as [[[? ?] ?] ?]. destruct (f h) as [[[? ?] ?] ?]. exact G1'.
Qed.
End Sums.

Lemma local_dual_spec d er mu p : (degree d < size d)%nat -> er <> 0 -> p <> vzero ->
  exists F x, (forall h, local_accel d er mu (line p w h) = Ok (F h)) /\ local_dual d er mu p = Ok x /\
    along w (fun h => vx (F h)) (ux x) /\ along w (fun h => vy (F h)) (uy x) /\ along w (fun h => vz (F h)) (uz x).
Proof.
  intros Hs He Hp.
  destruct (along_line p) as (Lx & Ly & Lz). pose proof (along_norm p Hp) as Ln.
  assert (Rn : re (dnorm (hyperspace p)) <> 0).
  { rewrite dnorm_re, reals_hyperspace. apply Rgt_not_eq, norm_pos, Hp. }
  set (rd := dnorm (hyperspace p)) in *.
  pose proof (along_div _ _ _ _ Rn Lx Ln) as As. pose proof (along_div _ _ _ _ Rn Ly Ln) as At.
  pose proof (along_div _ _ _ _ Rn Lz Ln) as Au.
  set (sd := ddiv (ux (hyperspace p)) rd) in *. set (td := ddiv (uy (hyperspace p)) rd) in *.
  set (ud := ddiv (uz (hyperspace p)) rd) in *.
  set (k := Nat.min (degree d) (order d)).
  destruct (dpowers_spec _ _ _ _ As At k) as (K1 & K2 & K3).
  set (S_ := fun h => vx (line p w h) / norm (line p w h)) in *.
  set (T_ := fun h => vy (line p w h) / norm (line p w h)) in *.
  set (U_ := fun h => vz (line p w h) / norm (line p w h)) in *.
  destruct (dsum_degrees_spec d (fun h => legendre_table (U_ h) (degree d) (order d))
     (dlegendre_table ud (degree d) (order d)) (fun h => fst (powers (S_ h) (T_ h) k)) (fun h => snd (powers (S_ h) (T_ h) k))
     (fst (dpowers sd td k)) (snd (dpowers sd td k)) Hs
     (dtable_spec U_ ud (degree d) (order d) Au)) with
     (rho := fun h => er / norm (line p w h)) (rhod := ddiv (dconst er) rd) (er := er) (ns := seq 1 (degree d))
     (mr := fun h => mu / norm (line p w h) * (er / norm (line p w h)))
     (mrd := dmul (ddiv (dconst mu) rd) (ddiv (dconst er) rd))
     (f := fun _ : R => (0, 0, 0, 0)) (x := (dconst 0, dconst 0, dconst 0, dconst 0))
     as (g & y & G1 & G2 & G3); try assumption.
  { intros h. destruct (powers_spec (S_ h) (T_ h) k) as (Q1 & Q2 & _). now split. }
  { now split. }
  { apply along_div; [exact Rn|apply along_const|exact Ln]. }
  { intros n Hn. apply in_seq in Hn. lia. }
  { apply along_mul; apply along_div; try exact Rn; try exact Ln; apply along_const. }
  { unfold along4. cbn [fst snd]. refine (conj _ (conj _ (conj _ _))); try apply along_const.
    eapply along_ext; [|apply along_const]. intros h. cbv beta. ring. }
  exists (fun h => V3 (fst (fst (fst (g h))) + snd (g h) * S_ h) (snd (fst (fst (g h))) + snd (g h) * T_ h)
                      (snd (fst (g h)) + snd (g h) * U_ h)).
  unfold local_accel, local_dual. fold rd sd td ud k.
  destruct (dpowers sd td k) as [rsd isd]. cbn [fst snd] in *. rewrite G2. cbn [bind].
  destruct y as [[[y1 y2] y3] y4]. destruct G3 as (B1 & B2 & B3 & B4). cbn [fst snd] in *.
  eexists. split; [|split; [reflexivity|]].
  - intros h. specialize (G1 h). fold (S_ h) (T_ h) (U_ h). fold k.
    destruct (powers (S_ h) (T_ h) k) as [rs is]. cbn [fst snd] in G1. rewrite G1. cbn [bind].
    destruct (g h) as [[[? ?] ?] ?]. reflexivity.
  - cbn [vx vy vz ux uy uz].
    assert (B4' : along w (fun h => snd (g h)) y4).
    { eapply along_ext; [|exact B4]. intros h. cbv beta. ring. }
    refine (conj _ (conj _ _)); (apply along_add; [assumption|apply along_mul; assumption]).
Qed.
End Along.

(** The acceleration returned with the gradient is the acceleration, and the matrix is its
    derivative with respect to the position, in the frame of the orbit. *)
Theorem C74_gradient : forall to_field eq_radius mu rotate d o p dcm,
  (degree d < size d)%nat -> eq_radius <> 0 -> p <> vzero ->
  changes_frame to_field o p dcm -> rotate (frame o) (epoch o) = Ok dcm ->
  exists a g, grav_gradient to_field (Ok eq_radius) (Ok mu) rotate d o = Ok (a, g) /\
    derivative_of (grav_eom to_field (Ok eq_radius) (Ok mu) rotate d) o a g.
Proof.
  intros to_field er mu rotate d o p dcm Hs He Hp [T1 T2] Hd.
  destruct (local_dual_spec vzero d er mu p Hs He Hp) as (F0 & x & A0 & X & L0 & L1 & L2).
  assert (V : local_accel d er mu p = Ok (reals x)).
  { rewrite <- (line_0 p vzero), (A0 0). f_equal.
    apply v3_eq; [apply (proj1 L0)|apply (proj1 L1)|apply (proj1 L2)]. }
  unfold grav_gradient. rewrite T1. cbn [bind]. rewrite X. cbn [bind]. rewrite Hd. cbn [bind].
  do 2 eexists. split; [reflexivity|]. split.
  - unfold grav_eom. rewrite T1. cbn [bind]. rewrite V. cbn [bind]. rewrite Hd. reflexivity.
  - intros j Hj. set (w := V3 (dcm j 0%nat) (dcm j 1%nat) (dcm j 2%nat)).
    destruct (local_dual_spec w d er mu p Hs He Hp) as (F & x' & A & X' & M0 & M1 & M2).
    assert (x' = x) by congruence. subst x'. clear X'.
    exists (fun h => mat_vec dcm (F h)). split.
    + intros h. unfold grav_eom. rewrite (T2 j h Hj). cbn [bind]. fold w. rewrite A. cbn [bind].
      change (epoch (moved j h o)) with (epoch o). change (frame (moved j h o)) with (frame o). rewrite Hd. reflexivity.
    + assert (G : forall k0 k1 k2, is_derive (fun h => k0 * vx (F h) + k1 * vy (F h) + k2 * vz (F h)) 0
                     (k0 * lin w (ux x) + k1 * lin w (uy x) + k2 * lin w (uz x))).
      { intros k0 k1 k2.
        apply (is_derive_plus (fun h => k0 * vx (F h) + k1 * vy (F h)) (fun h => k2 * vz (F h))).
        - apply (is_derive_plus (fun h => k0 * vx (F h)) (fun h => k1 * vy (F h)));
            apply is_derive_scal; [apply M0|apply M1].
        - apply is_derive_scal. apply M2. }
      intros i Hi. destruct i as [|[|[|i]]]; [| | |lia]; unfold mat_vec; cbn [comp vx vy vz].
      * evar_last; [exact (G (dcm 0%nat 0%nat) (dcm 0%nat 1%nat) (dcm 0%nat 2%nat))|].
        unfold mat_mul, transpose, lin, w. cbn [vx vy vz dcomp].
        match goal with |- @eq _ ?x ?y => change (@eq R x y) end. ring.
      * evar_last; [exact (G (dcm 1%nat 0%nat) (dcm 1%nat 1%nat) (dcm 1%nat 2%nat))|].
        unfold mat_mul, transpose, lin, w. cbn [vx vy vz dcomp].
        match goal with |- @eq _ ?x ?y => change (@eq R x y) end. ring.
      * evar_last; [exact (G (dcm 2%nat 0%nat) (dcm 2%nat 1%nat) (dcm 2%nat 2%nat))|].
        unfold mat_mul, transpose, lin, w. cbn [vx vy vz dcomp].
        match goal with |- @eq _ ?x ?y => change (@eq R x y) end. ring.
Qed.

(** With several fields and the central acceleration: the Jacobian of the whole. *)
Theorem C74_dynamics : forall mu_of o mu fields, mu_of (frame o) = Ok mu -> radius_km o <> vzero ->
  Forall (fun m => exists to_field eq_radius mu rotate d p dcm,
    m = gravity_field to_field (Ok eq_radius) (Ok mu) rotate d /\
    (degree d < size d)%nat /\ eq_radius <> 0 /\ p <> vzero /\
    changes_frame to_field o p dcm /\ rotate (frame o) (epoch o) = Ok dcm) fields ->
  exists a g, orb_dual mu_of fields o = Ok (velocity_km_s o, a, g) /\
    orb_eom mu_of fields o = Ok (velocity_km_s o, a) /\
    derivative_of (fun o' => bind (orb_eom mu_of fields o') (fun va => Ok (snd va))) o a
      (fun i j => g (i + 3)%nat j).
Proof.
  intros mu_of o mu fields Hm Hr HF.
  destruct (C73_gradient mu_of fields o mu Hm Hr) as (a & g & A & B & C & _).
  - intros m Hin. rewrite Forall_forall in HF.
    destruct (HF m Hin) as (to_field & er & mu' & rotate & d & p & dcm & -> & Hs & He & Hp & Hc & Hd).
    exact (C74_gradient to_field er mu' rotate d o p dcm Hs He Hp Hc Hd).
  - exists a, g. auto.
Qed.

(** A field that only has the second zonal coefficient, of value one, around a unit sphere:
    above the pole, the acceleration and the hypotheses of the theorems. *)
Definition zonal : field_data :=
  {| degree := 2; order := 0; size := 3;
     c_nm := fun n m => if ((n =? 2) && (m =? 0))%nat then 1 else 0; s_nm := fun _ _ => 0 |}.
Definition identity : matrix := fun i j => if (i =? j)%nat then 1 else 0.
Definition pole (o : orbit) : res dyn_error v3 := Ok (radius_km o).

Example C74_case :
  let o := Orbit 0 0 (V3 0 0 1) vzero in
  (degree zonal < size zonal)%nat /\ V3 0 0 1 <> vzero /\ changes_frame pole o (V3 0 0 1) identity.
Proof.
  cbv zeta. split; [cbn; lia|]. split.
  - intros E. apply (f_equal vz) in E. cbn in E. lra.
  - split; [reflexivity|]. intros j h Hj. unfold pole, moved. cbn [radius_km]. f_equal.
    destruct j as [|[|[|j]]]; [| | |lia]; apply v3_eq; unfold shift, line, vadd, vscale, identity;
      cbn [vx vy vz Nat.eqb]; ring.
Qed.

Example C74_case_value :
  local_accel zonal 1 1 (V3 0 0 1) = Ok (V3 0 0 (- (3 * sqrt 5))).
Proof.
  assert (N1 : norm (V3 0 0 1) = 1).
  { unfold norm, dot; cbn [vx vy vz]. replace (0 * 0 + 0 * 0 + 1 * 1) with 1 by ring. apply sqrt_1. }
  pose proof (local_accel_spec zonal 1 1 (V3 0 0 1) ltac:(cbn; lia)) as L. cbv zeta in L. rewrite N1 in L.
  rewrite L. clear L. cbn [vx vy vz]. f_equal.
  assert (P : dlegendre 1 0 1 = 1).
  { exact (legendre_1 1). }
  assert (Q : dlegendre 2 1 1 = 3).
  { rewrite (up_relation 1 0). rewrite P. rewrite (dlegendre_diag 0), dlegendre_diag0. cbn [INR]. ring. }
  assert (Q' : dlegendre 3 1 1 = 6).
  { rewrite (up_relation 2 0), Q.
    pose proof (degree_relation 0 0 1) as D. rewrite P, dlegendre_diag0 in D. cbn [INR] in *. lra. }
  assert (K : norm_factor 2 0 = sqrt 5).
  { unfold norm_factor. cbn. f_equal. field. }
  unfold orders, zonal, x1, x2, x3, x4, term_D, term_E, term_F. cbn [degree order c_nm s_nm seq Nat.min map rsum Nat.eqb andb cpow fst snd Nat.sub].
  replace (1 / 1) with 1 by field. rewrite Q, Q', K. cbn [INR pow].
  apply v3_eq; cbn [vx vy vz]; field.
Qed.

Print Assumptions C74_gradient_of_potential.
Print Assumptions C74_acceleration.
Print Assumptions C74_spherical.
Print Assumptions C74_gradient.
Print Assumptions C74_dynamics.
