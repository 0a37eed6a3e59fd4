(** C76: the force of solar radiation pressure, its partial derivatives, and the shadows. *)
From Coq Require Import Reals ZArith List Lra Psatz Lia Bool.
From Coquelicot Require Import Coquelicot.
From Verif Require Import Base Vec3 Sc_Model Dyn_Model Dual Orb_Model Orb_Spec Force_Model Force_Spec.
Import ListNotations.
Local Open Scope R_scope.

Lemma c_pos : 0 < SPEED_OF_LIGHT_M_S.
Proof. unfold SPEED_OF_LIGHT_M_S, SPEED_OF_LIGHT_KM_S. lra. Qed.
Lemma au_pos : 0 < AU.
Proof. unfold AU. lra. Qed.

Section Shadows.
Context (solar_eclipsing : nat -> orbit -> res dyn_error R).

Lemma worst_shadow_spec bodies o : forall ps acc,
  Forall2 (fun b p => solar_eclipsing b o = Ok p) bodies ps -> 0 <= acc ->
  exists p, worst_shadow solar_eclipsing bodies o acc = Ok p
    /\ acc <= p /\ (p = acc \/ In p ps) /\ forall q, In q ps -> q <= p.
Proof.
  induction bodies as [|b bodies IH]; intros ps acc F H; inversion F; subst; cbn [worst_shadow].
  - exists acc. refine (conj eq_refl (conj (Rle_refl _) (conj (or_introl eq_refl) _))). intros q [].
  - match goal with E : solar_eclipsing _ _ = _ |- _ => rewrite E end. cbn [bind].
    match goal with E : Forall2 _ bodies ?l |- _ =>
      destruct (IH l (if Rlt_dec acc y then y else acc) E) as (p & E1 & E2 & E3 & E4) end.
    { destruct (Rlt_dec acc y); lra. }
    exists p. rewrite E1. refine (conj eq_refl (conj _ (conj _ _))).
    + destruct (Rlt_dec acc y); lra.
    + destruct (Rlt_dec acc y); destruct E3 as [E3|E3]; subst; auto using in_eq, in_cons.
    + intros q [<-|I]; [destruct (Rlt_dec acc y); lra|auto].
Qed.

(** The shadow of several bodies is the deepest of them. *)
Theorem C76_shadow : forall m o ps,
  Forall2 (fun b p => solar_eclipsing b o = Ok p) (shadow_bodies m) ps ->
  exists p, shadow_compute solar_eclipsing m o = Ok p /\ is_worst ps p.
Proof.
  intros m o ps F. destruct (worst_shadow_spec (shadow_bodies m) o ps 0 F (Rle_refl 0))
    as (p & E1 & E2 & E3 & E4).
  exists p. refine (conj E1 (conj E2 (conj E3 E4))).
Qed.

Lemma is_worst_unique l p q : is_worst l p -> is_worst l q -> p = q.
Proof.
  intros (P1 & P2 & P3) (Q1 & Q2 & Q3). apply Rle_antisym.
  - destruct P2 as [->|P2]; auto.
  - destruct Q2 as [->|Q2]; auto.
Qed.

(** For a disk of points, of which each body hides some, the part that the code takes as lit
    is never less than the part that no body hides; with one body they are the same. *)
Theorem C76_lit : forall {A} (disk : list A) (hides : nat -> A -> bool) m o,
  disk <> [] ->
  (forall b, In b (shadow_bodies m) ->
     solar_eclipsing b o = Ok (100 * share disk (hides b))) ->
  exists p, shadow_compute solar_eclipsing m o = Ok p
    /\ 0 <= p <= 100
    /\ share disk (fun a => negb (existsb (fun b => hides b a) (shadow_bodies m))) <= 1 - factor p
    /\ (forall b, shadow_bodies m = [b] -> share disk (fun a => negb (hides b a)) = 1 - factor p).
Proof.
  intros A disk hides m o N H.
  assert (L : 0 < INR (length disk)) by (apply lt_0_INR; destruct disk; [easy|cbn; lia]).
  destruct (C76_shadow m o (map (fun b => 100 * share disk (hides b)) (shadow_bodies m)))
    as (p & E & W).
  { induction (shadow_bodies m) as [|b l IH]; cbn; constructor; auto using in_eq, in_cons. }
  assert (S0 : forall f, 0 <= share disk f).
  { intros f. unfold share. apply Rmult_le_pos; [apply pos_INR|]. left. now apply Rinv_0_lt_compat. }
  assert (C : forall f, share disk (fun a => negb (f a)) = 1 - share disk f).
  { intros f. unfold share. apply Rmult_eq_reg_r with (INR (length disk)); [|lra]. field_simplify; try lra.
    replace (INR (length disk)) with
      (INR (length (filter f disk)) + INR (length (filter (fun a => negb (f a)) disk))).
    - ring.
    - rewrite <- plus_INR. f_equal. clear.
      induction disk as [|a l IH]; [reflexivity|]. cbn. destruct (f a); cbn; lia. }
  assert (M : forall f g, (forall a, f a = true -> g a = true) -> share disk f <= share disk g).
  { intros f g FG. unfold share. apply Rmult_le_compat_r; [left; now apply Rinv_0_lt_compat|].
    apply le_INR. clear - FG. induction disk as [|a l IH]; [cbn; lia|]. cbn.
    destruct (f a) eqn:E; [rewrite (FG a E)|]; cbn; [lia|destruct (g a); cbn; lia]. }
  destruct W as (W1 & W2 & W3). exists p. refine (conj E (conj (conj W1 _) (conj _ _))).
  - destruct W2 as [->|W2]; [lra|]. apply in_map_iff in W2. destruct W2 as (b & <- & _).
    pose proof (C (hides b)). pose proof (S0 (fun a => negb (hides b a))). lra.
  - unfold factor. rewrite (C (fun a => existsb (fun b => hides b a) (shadow_bodies m))).
    assert (p / 100 <= share disk (fun a => existsb (fun b => hides b a) (shadow_bodies m))); [|lra].
    destruct W2 as [->|W2]; [pose proof (S0 (fun a => existsb (fun b => hides b a) (shadow_bodies m))); lra|].
    apply in_map_iff in W2. destruct W2 as (b & <- & I).
    replace (100 * share disk (hides b) / 100) with (share disk (hides b)) by field.
    apply M. intros a Ha. apply existsb_exists. now exists b.
  - intros b Eb. rewrite C. unfold factor. rewrite Eb in *. cbn [map In] in *.
    assert (p = 100 * share disk (hides b)).
    { pose proof (W3 _ (or_introl eq_refl)). destruct W2 as [->|[<-|[]]]; trivial.
      pose proof (S0 (hides b)). lra. }
    subst p. field.
Qed.

End Shadows.

Section Force.
Context (transform_to : orbit -> nat -> res dyn_error orbit)
        (solar_eclipsing : nat -> orbit -> res dyn_error R).
Notation eom := (srp_eom transform_to solar_eclipsing).
Notation gradient := (srp_gradient transform_to solar_eclipsing).

(** The force at the position [r] of the spacecraft from the light source, without the unit vector. *)
Definition srp_value (s : solar_pressure) (cr area p : R) (r : v3) : v3 :=
  vscale (/ 1000 * cr * area * (Rabs (factor p - 1) * phi s / SPEED_OF_LIGHT_M_S * (1 / (norm r / AU)) ^ 2))
    (vscale (/ norm r) r).

Lemma srp_eom_value s ctx r p :
  seen_at transform_to (sc_orbit ctx) (light_source (shadow s)) r -> r <> vzero ->
  shadow_compute solar_eclipsing (shadow s) (sc_orbit ctx) = Ok p ->
  eom s ctx = Ok (srp_value s (coeff_reflectivity ctx) (srp_area_m2 ctx) p r).
Proof.
  intros (v & E) N P. unfold srp_eom. rewrite E. cbn [bind radius_km]. rewrite P. cbn [bind].
  destruct (Req_EM_T (norm r) 0) as [Z|_]; [apply norm_zero_iff in Z; contradiction|reflexivity].
Qed.

Lemma vscale_vscale a b v : vscale a (vscale b v) = vscale (a * b) v.
Proof. apply v3_eq; unfold vscale; cbn; ring. Qed.

(** The force points away from the light source, and its intensity is that of the flux at
    one astronomical unit, divided by the square of the distance and reduced by the deepest
    of the shadows. *)
Theorem C76_force : forall s ctx r ps p,
  seen_at transform_to (sc_orbit ctx) (light_source (shadow s)) r -> r <> vzero ->
  Forall2 (fun b q => solar_eclipsing b (sc_orbit ctx) = Ok q) (shadow_bodies (shadow s)) ps ->
  is_worst ps p -> p <= 100 ->
  0 <= coeff_reflectivity ctx -> 0 <= srp_area_m2 ctx -> 0 <= phi s ->
  exists F, eom s ctx = Ok F /\ F = vscale (norm F / norm r) r /\
    norm F * 1000 = coeff_reflectivity ctx * srp_area_m2 ctx * (phi s / SPEED_OF_LIGHT_M_S)
                    * (1 - p / 100) * (AU / norm r) ^ 2.
Proof.
  intros s ctx r ps p S N F2 W P1 C A Ph.
  destruct (C76_shadow _ (shadow s) _ ps F2) as (q & E & W').
  rewrite <- (is_worst_unique _ _ _ W W') in E. clear W' q.
  exists (srp_value s (coeff_reflectivity ctx) (srp_area_m2 ctx) p r).
  split; [now apply srp_eom_value|].
  pose proof (norm_pos r N) as NP. pose proof c_pos as CP. pose proof au_pos as AP.
  destruct W as (W0 & _).
  set (k := / 1000 * coeff_reflectivity ctx * srp_area_m2 ctx
            * (Rabs (factor p - 1) * phi s / SPEED_OF_LIGHT_M_S * (1 / (norm r / AU)) ^ 2)).
  assert (Ek : Rabs (factor p - 1) = 1 - p / 100).
  { unfold factor. rewrite Rabs_left1; lra. }
  assert (K : 0 <= k).
  { unfold k. rewrite Ek.
    assert (0 <= 1 - p / 100) by lra. assert (0 < / SPEED_OF_LIGHT_M_S) by now apply Rinv_0_lt_compat.
    assert (0 <= (1 / (norm r / AU)) ^ 2) by apply pow2_ge_0.
    apply Rmult_le_pos; [apply Rmult_le_pos; [apply Rmult_le_pos; [lra|assumption]|assumption]|].
    apply Rmult_le_pos; [|assumption]. apply Rmult_le_pos; [|lra]. apply Rmult_le_pos; assumption. }
  assert (NF : norm (srp_value s (coeff_reflectivity ctx) (srp_area_m2 ctx) p r) = k).
  { unfold srp_value. fold k. rewrite vscale_vscale, norm_scale.
    rewrite Rabs_pos_eq; [field; lra|]. apply Rmult_le_pos; trivial. left. now apply Rinv_0_lt_compat. }
  rewrite NF. split.
  - unfold srp_value. fold k. rewrite vscale_vscale. reflexivity.
  - unfold k. rewrite Ek. field. lra.
Qed.

(** No force in the umbra of any of the bodies. *)
Theorem C76_umbra : forall s ctx r ps,
  seen_at transform_to (sc_orbit ctx) (light_source (shadow s)) r -> r <> vzero ->
  Forall2 (fun b q => solar_eclipsing b (sc_orbit ctx) = Ok q) (shadow_bodies (shadow s)) ps ->
  In 100 ps -> (forall q, In q ps -> q <= 100) ->
  eom s ctx = Ok vzero.
Proof.
  intros s ctx r ps S N F2 I L.
  destruct (C76_shadow _ (shadow s) _ ps F2) as (q & E & W').
  assert (q = 100).
  { apply (is_worst_unique ps); trivial. refine (conj _ (conj (or_intror I) L)). lra. }
  subst q. rewrite (srp_eom_value s ctx r 100 S N E). f_equal. unfold srp_value, factor.
  replace (100 / 100 - 1) with 0 by field. rewrite Rabs_R0. apply v3_eq; cbn; unfold Rdiv; ring.
Qed.

Lemma tracks_at f d : f 0 = re d -> forall j, is_derive f 0 (du d j) -> tracks j f d.
Proof. intros. split; trivial. Qed.

(** With the axes of the light source, out of the penumbra, and with a coefficient of
    reflectivity that is not zero: [gradient] returns the force of [eom], its derivatives
    with respect to the position (rows 0 to 2) and to the coefficient (row 3). *)
Theorem C76_gradient : forall s ctx f sun (eps : posreal),
  frame (sc_orbit ctx) = f ->
  same_axes transform_to f (light_source (shadow s)) sun ->
  radius_km (sc_orbit ctx) <> sun (epoch (sc_orbit ctx)) ->
  (forall b, In b (shadow_bodies (shadow s)) -> exists p, forall j h, Rabs h < eps ->
     solar_eclipsing b (moved j h (sc_orbit ctx)) = Ok p) ->
  coeff_reflectivity ctx <> 0 ->
  exists F g, gradient s ctx = Ok (F, g) /\ eom s ctx = Ok F /\
    (forall j, (j < 3)%nat -> exists G,
       locally 0 (fun h => eom s (with_orbit ctx (moved j h (sc_orbit ctx))) = Ok (G h)) /\
       forall i, (i < 3)%nat -> is_derive (fun h => comp (G h) i) 0 (g i j)) /\
    exists G, (forall c, eom s (with_cr ctx c) = Ok (G c)) /\
      forall i, (i < 3)%nat -> is_derive (fun c => comp (G c) i) (coeff_reflectivity ctx) (g 3%nat i).
Proof.
  intros s ctx f sun eps Ef SA N SH CR.
  set (o := sc_orbit ctx) in *.
  assert (M0 : forall j, moved j 0 o = o).
  { intros j. unfold moved. rewrite shift_0. now destruct o. }
  assert (exists p, forall j h, Rabs h < eps ->
            shadow_compute solar_eclipsing (shadow s) (moved j h o) = Ok p) as (p & SP).
  { assert (exists ps, forall j h, Rabs h < eps -> Forall2 (fun b q => solar_eclipsing b (moved j h o) = Ok q)
              (shadow_bodies (shadow s)) ps) as (ps & F2).
    { induction (shadow_bodies (shadow s)) as [|b l IH].
      - exists []. constructor.
      - destruct IH as (ps & IH); [auto using in_cons|].
        destruct (SH b (in_eq _ _)) as (p & Hp). exists (p :: ps). intros j h Hh. constructor; auto. }
    assert (R0' : Rabs 0 < eps) by (rewrite Rabs_R0; apply cond_pos).
    destruct (C76_shadow _ (shadow s) _ ps (F2 0%nat 0 R0')) as (p & _ & W).
    exists p. intros j h Hh. destruct (C76_shadow _ (shadow s) _ ps (F2 j h Hh)) as (q & E & W').
    now rewrite (is_worst_unique _ _ _ W W'). }
  set (d := vsub (radius_km o) (sun (epoch o))).
  assert (Nd : d <> vzero).
  { intros E. apply N. apply v3_eq; [assert (X : vx d = 0) by now rewrite E
      |assert (X : vy d = 0) by now rewrite E|assert (X : vz d = 0) by now rewrite E];
      unfold d, vsub in X; cbn in X; lra. }
  assert (S0 : shadow_compute solar_eclipsing (shadow s) o = Ok p).
  { rewrite <- (M0 0%nat). apply SP. rewrite Rabs_R0. apply cond_pos. }
  assert (SD : seen_at transform_to o (light_source (shadow s)) d) by (apply SA; assumption).
  pose proof (srp_eom_value s ctx d p SD Nd S0) as E0.
  pose proof (norm_pos d Nd) as NP. pose proof au_pos as AP. pose proof c_pos as CP.
  set (cr := coeff_reflectivity ctx) in *. set (area := srp_area_m2 ctx) in *.
  set (kk := Rabs (factor p - 1) * phi s / SPEED_OF_LIGHT_M_S).
  set (rd := hyperspace d). set (n := dnorm rd).
  set (scalar := dmul (dconst (/ 1000 * cr * area))
      (dmul (dconst kk) (dpow (ddiv (dconst 1) (ddiv n (dconst AU))) 2))).
  set (u := d3_div rd n).
  set (df := D3 (dmul scalar (ux u)) (dmul scalar (uy u)) (dmul scalar (uz u))).
  assert (T : forall j, tracks3 j (fun h => srp_value s cr area p (shift j h d)) df).
  { intros j. pose proof (tracks3_var j d) as V. fold rd in V.
    assert (TN : tracks j (fun h => norm (shift j h d)) n) by (apply tracks_norm; trivial; exact Nd).
    assert (TS : tracks j (fun h => / 1000 * cr * area * (kk * (1 / (norm (shift j h d) / AU)) ^ 2)) scalar).
    { unfold scalar. apply tracks_mul; [apply tracks_const|]. apply tracks_mul; [apply tracks_const|].
      apply tracks_pow. apply (tracks_div j (fun _ => 1)).
      - cbn [re ddiv dconst]. unfold n. rewrite dnorm_re. change (reals rd) with d.
        apply Rgt_not_eq. apply Rdiv_lt_0_compat; trivial.
      - apply tracks_const.
      - apply (tracks_div j _ (fun _ => AU)); [cbn; lra|exact TN|apply tracks_const]. }
    destruct V as (V1 & V2 & V3').
    assert (RN : re n <> 0) by (unfold n; rewrite dnorm_re; change (reals rd) with d; lra).
    unfold df, u. refine (conj _ (conj _ _)); cbn [ux uy uz d3_div].
    - apply (tracks_ext j (fun h => (/ 1000 * cr * area * (kk * (1 / (norm (shift j h d) / AU)) ^ 2))
               * (vx (shift j h d) / norm (shift j h d)))).
      + intros h. unfold srp_value, kk, vscale. cbn [vx]. unfold Rdiv. ring.
      + apply tracks_mul; [exact TS|]. now apply tracks_div.
    - apply (tracks_ext j (fun h => (/ 1000 * cr * area * (kk * (1 / (norm (shift j h d) / AU)) ^ 2))
               * (vy (shift j h d) / norm (shift j h d)))).
      + intros h. unfold srp_value, kk, vscale. cbn [vy]. unfold Rdiv. ring.
      + apply tracks_mul; [exact TS|]. now apply tracks_div.
    - apply (tracks_ext j (fun h => (/ 1000 * cr * area * (kk * (1 / (norm (shift j h d) / AU)) ^ 2))
               * (vz (shift j h d) / norm (shift j h d)))).
      + intros h. unfold srp_value, kk, vscale. cbn [vz]. unfold Rdiv. ring.
      + apply tracks_mul; [exact TS|]. now apply tracks_div. }
  assert (EV : reals df = srp_value s cr area p d).
  { pose proof (tracks3_value 0 _ _ (T 0%nat)) as X. cbv beta in X. now rewrite shift_0 in X. }
  exists (srp_value s cr area p d).
  exists (fun i j => if (i <? 3)%nat then du (dcomp df i) (S j)
                     else comp (vscale (/ cr) (srp_value s cr area p d)) j).
  refine (conj _ (conj E0 (conj _ _))).
  - unfold srp_gradient. fold o. destruct SD as (v & E). rewrite E. cbn [bind radius_km].
    rewrite S0. cbn [bind].
    destruct (Req_EM_T (norm d) 0) as [Z|_]; [lra|]. rewrite E0. cbn [bind].
    destruct (Req_EM_T (coeff_reflectivity ctx) 0) as [Z|_]; [contradiction|].
    rewrite <- EV. reflexivity.
  - intros j J. exists (fun h => srp_value s cr area p (shift (S j) h d)). split.
    + (* the light source is not reached for small displacements *)
      assert (exists e : posreal, forall h, Rabs h < e -> shift (S j) h d <> vzero) as (e & He).
      { exists (mkposreal _ NP). intros h Hh Z. cbn in Hh.
        assert (Ed : d = vscale (- h) (V3 (if (S j =? 1)%nat then 1 else 0)
                    (if (S j =? 2)%nat then 1 else 0) (if (S j =? 3)%nat then 1 else 0))).
        { pose proof (f_equal vx Z) as Z1. pose proof (f_equal vy Z) as Z2. pose proof (f_equal vz Z) as Z3.
          unfold shift, vzero in Z1, Z2, Z3. cbn [vx vy vz] in Z1, Z2, Z3.
          destruct d as [a b c]. cbn [vx vy vz] in Z1, Z2, Z3.
          destruct j as [|[|[|j]]]; [| | |lia]; cbn [Nat.eqb] in *; apply v3_eq; cbn; lra. }
        rewrite Ed, norm_scale, Rabs_Ropp in Hh.
        assert (norm (V3 (if (S j =? 1)%nat then 1 else 0) (if (S j =? 2)%nat then 1 else 0)
                         (if (S j =? 3)%nat then 1 else 0)) = 1) as X.
        { unfold norm, dot. cbn [vx vy vz]. transitivity (sqrt 1); [|apply sqrt_1].
          destruct j as [|[|[|j]]]; [| | |lia]; cbn [Nat.eqb]; f_equal; ring. }
        rewrite X in Hh. lra. }
      exists (mkposreal (Rmin eps e) (Rmin_pos _ _ (cond_pos eps) (cond_pos e))).
      intros h Hh. change (Rabs (h - 0) < Rmin eps e) in Hh. rewrite Rminus_0_r in Hh.
      apply (srp_eom_value s (with_orbit ctx (moved j h o))).
      * cbn [with_orbit sc_orbit].
        replace (shift (S j) h d) with (vsub (radius_km (moved j h o)) (sun (epoch (moved j h o)))).
        { apply SA. exact Ef. }
        unfold d. apply v3_eq; unfold vsub, shift, moved; cbn [vx vy vz radius_km epoch shift]; ring.
      * apply He. apply (Rlt_le_trans _ _ _ Hh), Rmin_r.
      * cbn [with_orbit sc_orbit]. apply SP. apply (Rlt_le_trans _ _ _ Hh), Rmin_l.
    + intros i I. destruct (Nat.ltb_spec i 3); [|lia].
      destruct (T (S j)) as ((_ & T1) & (_ & T2) & (_ & T3)).
      destruct i as [|[|[|i]]]; [exact T1|exact T2|exact T3|lia].
  - exists (fun c => srp_value s c area p d). split.
    + intros c. apply (srp_eom_value s (with_cr ctx c) d p SD Nd S0).
    + intros i I. cbn [Nat.ltb Nat.leb].
      set (q := / 1000 * area * (kk * (1 / (norm d / AU)) ^ 2) * / norm d).
      apply (is_derive_ext (fun c => c * (q * comp d i))).
      { intros c. unfold srp_value, q, kk. rewrite vscale_vscale.
        match goal with |- @eq _ ?x ?y => change (@eq R x y) end.
        destruct i as [|[|i]]; cbn [comp vscale vx vy vz]; unfold Rdiv; ring. }
      assert (X : comp (vscale (/ cr) (srp_value s cr area p d)) i = q * comp d i).
      { unfold srp_value, q, kk. rewrite !vscale_vscale.
        destruct i as [|[|i]]; cbn [comp vscale vx vy vz]; field; repeat split; try lra; exact CR. }
      rewrite X. evar_last; [apply (is_derive_scal_l (fun c : R => c) cr 1 (q * comp d i) (is_derive_id cr))|].
      unfold scal; cbn; unfold mult; cbn; ring.
Qed.
End Force.
