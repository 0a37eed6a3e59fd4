(** C94: the sum of the normalised errors of the estimates, and when it is not. *)
From Verif Require Import Base.
From mathcomp Require Import all_ssreflect all_algebra.
From Verif Require Import Kf_Model Kf_Spec Kf_Linalg Nees_Model.
Import Order.TTheory GRing.Theory Num.Theory.
Set Implicit Arguments.
Unset Strict Implicit.
Unset Printing Implicit Defensive.
Local Open Scope ring_scope.

Section Spec.
Context {R : rcfType}.
(** what is expected of the eigendecomposition of a symmetric matrix, such as the covariances here *)
Definition decomposes (eigen : forall m, 'M[R]_m -> 'rV[R]_m * 'M[R]_m) m (A : 'M[R]_m) : Prop :=
  (eigen m A).2^T *m (eigen m A).2 = 1%:M /\ A = (eigen m A).2 *m diag_mx (eigen m A).1 *m (eigen m A).2^T.
(** the variance in every direction is positive, and the smallest is not below the rounding of the largest *)
Definition conditioned m (A : 'M[R]_m) : Prop :=
  exists lo hi : R, 0 < lo /\ hi * m%:R * epsilon < lo /\
    forall x : 'cV[R]_m, lo * quad 1%:M x <= quad A x <= hi * quad 1%:M x.
(** the normalised error squared *)
Definition normalised m (P : 'M[R]_m) (e : 'cV[R]_m) : R := quad (invmx P) e.
End Spec.

Section Lemmas.
Context {R : rcfType} (eigen : forall m, 'M[R]_m -> 'rV[R]_m * 'M[R]_m).
Implicit Types (m : nat).

Lemma epsilon_gt0 : 0 < (epsilon : R).
Proof. by rewrite /epsilon invr_gt0 exprn_gt0 // ltr0n. Qed.

Lemma foldl_max (x : R) s : x <= foldl Num.max x s /\ (forall y, y \in s -> y <= foldl Num.max x s) /\ foldl Num.max x s \in x :: s.
Proof.
elim: s x => [|a s IH] x /=; first by rewrite mem_head.
have [H1 [H2 H3]] := IH (Num.max x a).
have Hx : x <= foldl Num.max (Num.max x a) s by apply: le_trans H1; rewrite le_maxr lexx.
have Ha : a <= foldl Num.max (Num.max x a) s by apply: le_trans H1; rewrite le_maxr lexx orbT.
split=> //; split.
  by move=> y; rewrite inE => /orP [/eqP ->|/H2].
move: H3; rewrite !inE => /orP [/eqP ->|->]; last by rewrite !orbT.
by rewrite maxEle; case: ifP => _; rewrite eqxx ?orbT.
Qed.
Lemma largest_ge m (l : 'rV[R]_m) i : l 0 i <= largest l.
Proof.
rewrite /largest. have: l 0 i \in [seq l 0 i | i <- enum 'I_m] by apply: map_f; rewrite mem_enum.
case: [seq _ | _ <- _] => [//|x s]; have [H1 [H2 _]] := foldl_max x s.
by rewrite inE => /orP [/eqP ->|/H2].
Qed.
Lemma largest_in m (l : 'rV[R]_m) : (0 < m)%N -> exists i, largest l = l 0 i.
Proof.
move=> m0; rewrite /largest. have: size [seq l 0 i | i <- enum 'I_m] = m by rewrite size_map size_enum_ord.
case E: [seq _ | _ <- _] => [|x s] H; first by rewrite -H in m0.
have [_ [_ H3]] := foldl_max x s; move: H3; rewrite -E => /mapP [i _ ->]; by exists i.
Qed.

Context (m : nat) (A : 'M[R]_m) (HA : decomposes eigen A).
Let l := (eigen A).1.
Let Q := (eigen A).2.
Lemma Q_left : Q^T *m Q = 1%:M. Proof. exact: HA.1. Qed.
Lemma Q_right : Q *m Q^T = 1%:M. Proof. exact: (mulmx1C Q_left). Qed.
Lemma A_eq : A = Q *m diag_mx l *m Q^T. Proof. exact: HA.2. Qed.

Definition spectrum_inv : 'rV[R]_m := \row_i (if largest l * m%:R * epsilon < l 0 i then (l 0 i)^-1 else 0).
Lemma neesE e : nees eigen A e = \sum_i spectrum_inv 0 i * ((Q^T *m e) i 0) ^+ 2.
Proof.
rewrite /nees; move: (erefl (eigen A)); case: {2 3}(eigen A) => lam P E /=.
have -> : P = Q by rewrite /Q E. have -> : lam = l by rewrite /l E.
rewrite -/spectrum_inv. rewrite -quad_diag -quad_conj /quad. by [].
Qed.
Lemma quad1_eigen i : quad 1%:M (Q *m delta_mx i 0) = 1.
Proof.
rewrite /quad mulmx1 trmx_mul -mulmxA [Q^T *m _]mulmxA Q_left mul1mx trmx_delta mul_delta_mx.
by rewrite mxE !eqxx.
Qed.
Lemma quad_eigen i : quad A (Q *m delta_mx i 0) = l 0 i.
Proof.
rewrite A_eq quad_conj mulmxA Q_left mul1mx quad_diag (bigD1 i) //= mxE !eqxx expr1n mulr1 big1 ?addr0 // => j ji.
by rewrite mxE (negbTE ji) /= expr0n mulr0.
Qed.
Lemma A_inv : (forall i, l 0 i != 0) -> invmx A = Q *m diag_mx (\row_i (l 0 i)^-1) *m Q^T.
Proof.
move=> nz. have H : A *m (Q *m diag_mx (\row_i (l 0 i)^-1) *m Q^T) = 1%:M.
  rewrite {1}A_eq. rewrite -!mulmxA [Q^T *m _]mulmxA Q_left mul1mx [diag_mx l *m _]mulmxA.
  have -> : diag_mx l *m diag_mx (\row_i (l 0 i)^-1) = 1%:M.
    apply/matrixP => i j; rewrite mul_diag_mx !mxE; case: eqP => [->|_]; last by rewrite mulr0n mulr0.
    by rewrite !mulr1n mulfV.
  by rewrite mul1mx Q_right.
have U : A \in unitmx by have := mulmx1_unit H; case.
by rewrite -[LHS]mulmx1 -H mulKmx.
Qed.

Lemma nees_conditioned e : conditioned A -> nees eigen A e = normalised A e.
Proof.
move=> [lo [hi [lo0 [H1 H2]]]].
have L i : lo <= l 0 i <= hi by have := H2 (Q *m delta_mx i 0); rewrite quad_eigen quad1_eigen !mulr1.
have nz i : l 0 i != 0 by have /andP [a _] := L i; apply: lt0r_neq0; apply: lt_le_trans a.
have big i : largest l * m%:R * epsilon < l 0 i.
  have m0 : (0 < m)%N by case: (i) => k; case: (m).
  have [j ->] := largest_in l m0. have /andP [_ b] := L j. have /andP [a _] := L i.
  apply: lt_le_trans a; apply: le_lt_trans H1. rewrite -!mulrA ler_wpmul2r // mulr_ge0 ?ler0n // ltW ?epsilon_gt0 //.
rewrite neesE /normalised A_inv // quad_conj quad_diag; apply: eq_bigr => i _.
by rewrite !mxE big.
Qed.
Lemma nees_ge0 e : psd A -> 0 <= nees eigen A e.
Proof.
move=> PA. have L i : 0 <= l 0 i by rewrite -quad_eigen; apply: PA.
rewrite neesE; apply: sumr_ge0 => i _; rewrite mulr_ge0 ?sqr_ge0 // mxE; case: ifP => // _; by rewrite invr_ge0.
Qed.
Lemma nees_le e : definite A -> nees eigen A e <= normalised A e.
Proof.
move=> [_ DA]. have L i : 0 < l 0 i.
  rewrite -quad_eigen; apply: DA; apply/eqP => Z. have := quad1_eigen i; rewrite Z quad0 => /eqP; by rewrite eq_sym oner_eq0.
have nz i : l 0 i != 0 by apply: lt0r_neq0.
rewrite neesE /normalised A_inv // quad_conj quad_diag; apply: ler_sum => i _.
rewrite ler_wpmul2r ?sqr_ge0 // !mxE; case: ifP => // _; by rewrite invr_ge0 ltW.
Qed.
Lemma nees_zero e : A = 0 -> nees eigen A e = 0.
Proof.
move=> A0. have L i : l 0 i = 0 by rewrite -quad_eigen A0 /quad mulmx0 mul0mx mxE.
rewrite neesE big1 // => i _; rewrite mxE L; case: ifP => _; by rewrite ?invr0 mul0r.
Qed.
Lemma eigen_component (v : R) (x : 'cV[R]_m) i : A *m x = v *: x -> (Q^T *m x) i 0 != 0 -> l 0 i = v.
Proof.
move=> Ax nz. have E : diag_mx l *m (Q^T *m x) = v *: (Q^T *m x).
  rewrite scalemxAr -Ax {1}A_eq. by rewrite -!mulmxA [Q^T *m (Q *m _)]mulmxA Q_left mul1mx.
have := congr1 (fun M : 'cV_m => M i 0) E. rewrite mul_diag_mx !mxE.
by move: nz; rewrite mxE => nz K; apply: (mulIf nz K).
Qed.
Lemma nees_clipped (v h : R) (e w : 'cV[R]_m) : A *m e = v *: e -> A *m w = h *: w -> w != 0 -> v <= h * m%:R * epsilon -> nees eigen A e = 0.
Proof.
move=> Ae Aw w0 vh.
have [j Hj] : exists j, (Q^T *m w) j 0 != 0.
  apply/existsP; apply: contraR w0; rewrite negb_exists => /forallP Z.
  have Z0 : Q^T *m w = 0 by apply/matrixP => i k; rewrite (ord1 k) [RHS]mxE; apply/eqP; have := Z i; rewrite negbK.
  by rewrite -[w]mul1mx -Q_right -mulmxA Z0 mulmx0.
have lj := eigen_component Aw Hj. have hl : h <= largest l by rewrite -lj largest_ge.
rewrite neesE big1 // => i _. have [->|nz] := eqVneq ((Q^T *m e) i 0) 0; first by rewrite expr0n mulr0.
rewrite mxE (eigen_component Ae nz). case: ifP => [|_]; last by rewrite mul0r.
rewrite ltNge; move/negP; case. apply: le_trans vh _. by rewrite -!mulrA ler_wpmul2r // mulr_ge0 ?ler0n // ltW ?epsilon_gt0.
Qed.
End Lemmas.

(** ** The sum *)
Section Sum.
Context {R : rcfType} {n : nat} (truth : Z -> option 'cV[R]_n.+1) (eigen : forall m, 'M[R]_m -> 'rV[R]_m * 'M[R]_m) (quantile : R -> R).
Implicit Types (l : list (@estimate R n)) (P : 'M[R]_n.+1).

(** the truth at the epoch of an estimate, the error, and the covariance of the first [m] components *)
Context (tv : Z -> 'cV[R]_n.+1).
Definition error m (e : @estimate R n) : 'cV[R]_m := rows m (x_est e - tv (ep e)).
Definition cov_of m (e : @estimate R n) : 'M[R]_m := block m (symmetrized (covar e)).

Lemma symmetrized_sym P : (symmetrized P)^T = symmetrized P.
Proof. by rewrite /symmetrized linearZ /= linearD /= trmxK addrC. Qed.
Lemma cov_sym m e : (cov_of m e)^T = cov_of m e.
Proof. by apply/matrixP => i j; rewrite !mxE addrC. Qed.

(** The components that count: six, or all those before the first one without a variance. *)
Theorem C94_size P m : (6 <= m <= n.+1)%N -> (forall i : 'I_n.+1, (i < m)%N -> 0 < P i i) ->
  (forall i : 'I_n.+1, (i = m :> nat) -> ~~ (0 < P i i)) -> est_size P = m.
Proof.
move=> /andP [m6 mn] H1 H2. suff E : active P = m by rewrite /est_size E ltnNge m6.
rewrite /active. pose bad := fun i : 'I_n.+1 => ~~ (0 < P i i). rewrite -/bad.
have Sz : size (enum 'I_n.+1) = n.+1 by rewrite size_enum_ord.
case: (ltngtP (find bad (enum 'I_n.+1)) m) => // K.
- have kn : (find bad (enum 'I_n.+1) < n.+1)%N by apply: leq_trans K mn.
  have hs : has bad (enum 'I_n.+1) by rewrite has_find Sz.
  have := nth_find ord0 hs. by rewrite /bad H1 // nth_enum_ord.
- have mlt : (m < n.+1)%N by rewrite -Sz; apply: leq_trans K (find_size _ _).
  have := before_find ord0 K. by rewrite /bad H2 // nth_enum_ord.
Qed.
Lemma est_size_bound P : (5 <= n)%N -> (6 <= est_size P <= n.+1)%N.
Proof.
move=> n5; rewrite /est_size; case: (boolP (active P < 6)%N) => [_|]; first by [].
rewrite -leqNgt => ->; rewrite /= /active; have := find_size (fun i : 'I_n.+1 => ~~ (0 < P i i)) (enum 'I_n.+1).
by rewrite size_enum_ord.
Qed.

Lemma loop_sum l s m : (m <= n.+1)%N -> (forall e, List.In e l -> truth (ep e) = Some (tv (ep e))) ->
  nees_loop truth eigen (s, Some m) l = Ok (s + \sum_(e <- l) nees eigen (cov_of m e) (error m e), Some m).
Proof.
move=> mn; elim: l s => [|e l IH] s H /=; first by rewrite big_nil addr0.
rewrite /nees_step H; last by left.
rewrite /= ltnNge mn /= IH; last by move=> x X; apply: H; right.
by rewrite big_cons addrA.
Qed.

(** What is returned, for all the estimates but the first: the sum of the normalised errors as computed and its degrees of freedom. *)
Lemma nees_value first second l alpha : (5 <= n)%N -> (forall e, List.In e (second :: l) -> truth (ep e) = Some (tv (ep e))) ->
  let m := est_size (symmetrized (covar second)) in
  exists c, nees_consistency truth eigen quantile [:: first, second & l] alpha = Ok c /\
    normalized_sum c = \sum_(e <- second :: l) nees eigen (cov_of m e) (error m e) /\ dof c = ((size l).+1 * m)%N%:R /\
    let z := quantile (1 - (if alpha is Some a then a else 5%:R / 100%:R) / 2%:R) in
    let f := 2%:R / (9%:R * dof c) in
    lower_bound c = dof c * (1 - f - z * Num.sqrt f) ^+ 3 /\ upper_bound c = dof c * (1 - f + z * Num.sqrt f) ^+ 3.
Proof.
move=> n5 H m. have /andP [m6 mn] := est_size_bound (symmetrized (covar second)) n5. rewrite -/m in m6 mn.
rewrite /nees_consistency /= /nees_step H; last by left.
rewrite /= -/m ltnNge mn /= loop_sum //; last by move=> x X; apply: H; right.
rewrite /= subn1 /=. eexists; split; first by []. by rewrite /= big_cons add0r.
Qed.

(** It is the sum of the normalised errors squared if the covariances are well conditioned; *)
Theorem C94_nees first second l alpha : (5 <= n)%N -> (forall e, List.In e (second :: l) -> truth (ep e) = Some (tv (ep e))) ->
  let m := est_size (symmetrized (covar second)) in
  (forall e, List.In e (second :: l) -> decomposes eigen (cov_of m e)) ->
  (forall e, List.In e (second :: l) -> conditioned (cov_of m e)) ->
  exists c, nees_consistency truth eigen quantile [:: first, second & l] alpha = Ok c /\
    normalized_sum c = \sum_(e <- second :: l) normalised (cov_of m e) (error m e) /\ dof c = ((size l).+1 * m)%N%:R.
Proof.
move=> n5 H m HE C. have [c [E [S [D _]]]] := nees_value first alpha n5 H. exists c; split=> //; split=> //.
rewrite S -/m {S E D H}. elim: (second :: l) C HE => [|e s IH] C HE; first by rewrite !big_nil.
rewrite !big_cons IH; [|by move=> x X; apply: C; right|by move=> x X; apply: HE; right].
by rewrite (nees_conditioned (HE e (or_introl erefl))) //; apply: C; left.
Qed.
(** otherwise it is never negative for covariances, and never more than that sum. *)
Theorem C94_bounds first second l alpha c : (5 <= n)%N -> (forall e, List.In e (second :: l) -> truth (ep e) = Some (tv (ep e))) ->
  nees_consistency truth eigen quantile [:: first, second & l] alpha = Ok c ->
  let m := est_size (symmetrized (covar second)) in
  (forall e, List.In e (second :: l) -> decomposes eigen (cov_of m e)) ->
  ((forall e, List.In e (second :: l) -> psd (cov_of m e)) -> 0 <= normalized_sum c) /\
  ((forall e, List.In e (second :: l) -> definite (cov_of m e)) ->
   normalized_sum c <= \sum_(e <- second :: l) normalised (cov_of m e) (error m e)).
Proof.
move=> n5 H Q m HE. have [c' [E [S _]]] := nees_value first alpha n5 H. move: E; rewrite Q => - [Ec]. rewrite Ec S -/m.
rewrite {S Ec Q H}; elim: (second :: l) HE => [|e s IH] HE; first by rewrite !big_nil.
have [IH1 IH2] := IH (fun x X => HE x (or_intror X)).
rewrite !big_cons; split=> C.
- apply: addr_ge0; first by apply: (nees_ge0 (HE e (or_introl erefl))); apply: C; left.
  by apply: IH1 => x X; apply: C; right.
- apply: ler_add; first by apply: (nees_le (HE e (or_introl erefl))); apply: C; left.
  by apply: IH2 => x X; apply: C; right.
Qed.

(** Refusals: fewer than two estimates, an epoch out of the true trajectory. *)
(** The verdict has statistical power with more than thirty-five normalised components. *)
Theorem C94_power first second l alpha c : (5 <= n)%N -> (forall e, List.In e (second :: l) -> truth (ep e) = Some (tv (ep e))) ->
  nees_consistency truth eigen quantile [:: first, second & l] alpha = Ok c ->
  has_statistical_power c = (35 < (size l).+1 * est_size (symmetrized (covar second)))%N.
Proof.
move=> n5 H Q. have [c' [E [_ [D _]]]] := nees_value first alpha n5 H. move: E; rewrite Q => - [Ec].
by rewrite /has_statistical_power Ec D ltr_nat.
Qed.
Theorem C94_refused l alpha : (size l <= 1)%N -> nees_consistency truth eigen quantile l alpha = Err NoResiduals.
Proof. by rewrite /nees_consistency => ->. Qed.
Theorem C94_unknown_truth l alpha c : (5 <= n)%N -> nees_consistency truth eigen quantile l alpha = Ok c ->
  forall e, List.In e (behead l) -> truth (ep e) <> None.
Proof.
move=> n5; rewrite /nees_consistency; case: ifP => // _.
have G acc : forall s, (exists r, nees_loop truth eigen acc s = Ok r) -> forall e, List.In e s -> truth (ep e) <> None.
  move=> s; elim: s acc => [|e s IH] acc //= [r]. rewrite {1}/nees_step. case E: (truth (ep e)) => [t|] //=.
  case: ifP => //= _ K x [<-|X]; first by rewrite E. by apply: (IH _ (ex_intro _ r K)).
case K: (nees_loop _ _ _ _) => [r| | |] //= _ e. by apply: (G (0, None)); exists r.
Qed.

(** ** Verdicts *)
Lemma cube_le (a b : R) : a <= b -> a ^+ 3 <= b ^+ 3.
Proof.
move=> ab. rewrite -subr_ge0 subrXX. rewrite mulr_ge0 ?subr_ge0 //.
rewrite !big_ord_recr big_ord0 /= add0r !expr0 !expr1 mulr1 mul1r subn0.
have -> : b ^+ 2 + b * a + a ^+ 2 = 2%:R^-1 * (b ^+ 2 + a ^+ 2 + (b + a) ^+ 2).
  have two : (2%:R : R) != 0 by rewrite pnatr_eq0.
  apply: (mulfI two); rewrite mulVKf // sqrrD mulr_natl !mulrnDl [RHS]addrACA addrA.
  by rewrite [b ^+ 2 *+ 2]mulr2n [a ^+ 2 *+ 2]mulr2n !addrA.
by rewrite mulr_ge0 ?invr_ge0 ?ler0n // !addr_ge0 ?sqr_ge0.
Qed.
(** With a level below one, the bounds are in order, so a sum that is not a bound has exactly one verdict. *)
Theorem C94_verdict first second l alpha c : (5 <= n)%N -> (forall e, List.In e (second :: l) -> truth (ep e) = Some (tv (ep e))) ->
  nees_consistency truth eigen quantile [:: first, second & l] alpha = Ok c ->
  0 <= quantile (1 - (if alpha is Some a then a else 5%:R / 100%:R) / 2%:R) ->
  lower_bound c <= upper_bound c /\
  (normalized_sum c != lower_bound c -> normalized_sum c != upper_bound c ->
   (is_consistent c + is_underconfident c + is_overconfident c = 1)%N).
Proof.
move=> n5 H Q z0. have [c' [E [_ [D [L U]]]]] := nees_value first alpha n5 H. move: E; rewrite Q => - [Ec]. rewrite -Ec in D L U.
set z := quantile _ in z0 L U. have O : lower_bound c <= upper_bound c.
  rewrite L U ler_wpmul2l ?D ?ler0n // cube_le // ler_add2l. rewrite -subr_ge0 opprK addr_ge0 // mulr_ge0 ?sqrtr_ge0 //.
split=> // nl nu. rewrite /is_consistent /is_underconfident /is_overconfident.
case: (ltgtP (normalized_sum c) (lower_bound c)) nl => // [a|a] _.
- by rewrite andbF ltNge (le_trans (ltW a) O).
- case: (ltgtP (normalized_sum c) (upper_bound c)) nu => //.
Qed.

(** An estimate without covariances is declared too cautious, whatever its errors. *)
Theorem C94_certain_refuted first second l alpha : (5 <= n)%N -> (forall e, List.In e (second :: l) -> truth (ep e) = Some (tv (ep e))) ->
  let m := est_size (symmetrized (covar second)) in
  (forall e, List.In e (second :: l) -> decomposes eigen (cov_of m e)) ->
  (forall e, List.In e (second :: l) -> covar e = 0) -> (3 <= size l)%N ->
  0 <= quantile (1 - (if alpha is Some a then a else 5%:R / 100%:R) / 2%:R) <= 2%:R ->
  exists c, nees_consistency truth eigen quantile [:: first, second & l] alpha = Ok c /\
    normalized_sum c = 0 /\ is_underconfident c /\ ~~ is_overconfident c.
Proof.
move=> n5 H m HE Z sl /andP [z0 z2]. have [c [E [S [D [L U]]]]] := nees_value first alpha n5 H. exists c; split=> //.
rewrite -/m in S D. have /andP [m6 _] := est_size_bound (symmetrized (covar second)) n5. rewrite -/m in m6.
have S0 : normalized_sum c = 0.
  rewrite S {S D}; elim: (second :: l) Z HE => [|e s IH] Z HE; first by rewrite big_nil.
  rewrite big_cons IH ?addr0; [|by move=> x X; apply: Z; right|by move=> x X; apply: HE; right].
  apply: (nees_zero (HE e (or_introl erefl))); rewrite /cov_of Z; last by left.
  by apply/matrixP => i j; rewrite !mxE addr0 mulr0.
set z := quantile _ in z0 z2 L U. set f := 2%:R / (9%:R * dof c) in L U.
have k24 : 24%:R <= dof c by rewrite D ler_nat; apply: (@leq_mul 4 6).
have k0 : 0 < dof c by apply: lt_le_trans k24; rewrite ltr0n.
have f0 : 0 <= f by rewrite divr_ge0 ?ler0n // mulr_ge0 ?ler0n // ltW.
have f100 : f <= 10%:R^-1 ^+ 2.
  rewrite ler_pdivr_mulr ?mulr_gt0 ?ltr0n //. rewrite mulrC exprVn -natrX ler_pdivl_mulr ?ltr0n // -natrM.
  apply: le_trans (_ : 9%:R * 24%:R <= _); first by rewrite -!natrM ler_nat.
  by rewrite ler_wpmul2l ?ler0n.
have s10 : Num.sqrt f <= 10%:R^-1 by rewrite -[10%:R^-1]gtr0_norm ?invr_gt0 ?ltr0n // -sqrtr_sqr ler_wsqrtr.
have P : 0 < lower_bound c.
  rewrite L mulr_gt0 // exprn_gt0 // subr_gt0. apply: le_lt_trans (_ : z * Num.sqrt f <= 2%:R * 10%:R^-1) _.
    by apply: ler_pmul => //; rewrite sqrtr_ge0.
  rewrite ltr_subr_addl. apply: le_lt_trans (_ : 10%:R^-1 ^+ 2 + 2%:R * 10%:R^-1 < 1); first by rewrite ler_add2r.
  have e10 : 10%:R^-1 ^+ 2 <= 10%:R^-1 :> R.
    rewrite expr2 -[X in _ <= X]mulr1 ler_wpmul2l ?invr_ge0 ?ler0n // invf_le1 ?ltr0n // ler1n //.
  apply: le_lt_trans (_ : 10%:R^-1 + 2%:R * 10%:R^-1 < 1); first by rewrite ler_add2r.
  by rewrite -{1}[10%:R^-1]mul1r -mulrDl -[1 + 2%:R]/(1%:R + 2%:R) -natrD ltr_pdivr_mulr ?ltr0n // mul1r ltr_nat.
have O : lower_bound c <= upper_bound c.
  rewrite L U ler_wpmul2l ?D ?ler0n // cube_le // ler_add2l. rewrite -subr_ge0 opprK addr_ge0 // mulr_ge0 ?sqrtr_ge0 //.
split=> //; rewrite /is_underconfident /is_overconfident S0; split=> //.
by rewrite -leNgt; apply: le_trans (ltW P) O.
Qed.
End Sum.

(** Errors along a direction whose variance is below the rounding of the largest one do not count. *)
Theorem C94_clipped_refuted {R : rcfType} (eigen : forall m, 'M[R]_m -> 'rV[R]_m * 'M[R]_m) m (A : 'M[R]_m) (v h : R) (e w : 'cV[R]_m) :
  decomposes eigen A -> A *m e = v *: e -> A *m w = h *: w -> w != 0 -> v <= h * m%:R * epsilon -> nees eigen A e = 0.
Proof. by move=> HA; apply: (nees_clipped HA). Qed.

(** ** Cases *)
Section Case.
Context {R : rcfType}.
Definition eigen_diag m (A : 'M[R]_m) : 'rV[R]_m * 'M[R]_m := (\row_i A i i, 1%:M).
Lemma eigen_diag_ok m (d : 'rV[R]_m) : decomposes eigen_diag (diag_mx d).
Proof.
split; rewrite /eigen_diag /= trmx1 ?mulmx1 // mul1mx; congr diag_mx.
by apply/rowP => i; rewrite !mxE eqxx mulr1n.
Qed.

(** two errors of 2 in each of six components, with a variance of 4: six and six *)
Definition four : 'M[R]_6 := 4%:R%:M.
Definition est_four (t : Z) : @estimate R 5 := {| ep := t; x_est := const_mx 2%:R; covar := four |}.
Lemma four_size : est_size (symmetrized four) = 6%N.
Proof.
apply: C94_size => // i; last by move=> E; have := ltn_ord i; rewrite E.
move=> _; rewrite !mxE eqxx mulr1n; apply: mulr_gt0; by rewrite ?invr_gt0 -?natrD ltr0n.
Qed.
Lemma block_four m t : cov_of m (est_four t) = if (m <= 6)%N then 4%:R%:M else cov_of m (est_four t).
Proof.
case: leqP => // m6; apply/matrixP => i j; rewrite !mxE.
have -> : ((inord j : 'I_6) == inord i) = (i == j).
  by rewrite -val_eqE /= !inordK ?(leq_trans (ltn_ord _)) // eq_sym.
rewrite [inord i == inord j]eq_sym (_ : ((inord j : 'I_6) == inord i) = (i == j)); last by rewrite -val_eqE /= !inordK ?(leq_trans (ltn_ord _)) // eq_sym.
case: (i == j); last by rewrite !mulr0n addr0 mulr0.
rewrite !mulr1n -natrD. by rewrite mulrC -[(4 + 4)%N]/(4 * 2)%N natrM mulfK ?pnatr_eq0.
Qed.
Example C94_case (quantile : R -> R) : exists c,
  nees_consistency (fun _ => Some 0) eigen_diag quantile [:: est_four 0; est_four 1; est_four 2] None = Ok c /\
  normalized_sum c = 12%:R /\ dof c = 12%:R.
Proof.
have B t : cov_of 6 (est_four t) = 4%:R%:M by rewrite block_four.
have [] := @C94_nees R 5 (fun _ => Some 0) eigen_diag quantile (fun _ => 0) (est_four 0) (est_four 1) [:: est_four 2] None; rewrite ?four_size //.
- by move=> e [<-|[<-|[]]]; rewrite B -diag_const_mx; apply: eigen_diag_ok.
- move=> e I. have -> : cov_of 6 e = 4%:R%:M by case: I => [<-|[<-|[]]].
  exists 4%:R, 4%:R; split; first by rewrite ltr0n. split.
    rewrite /epsilon -mulrA gtr_pmulr ?ltr0n // ltr_pdivr_mulr ?exprn_gt0 ?ltr0n // mul1r -natrX ltr_nat. by rewrite (@leq_trans (2 ^ 3)) // leq_pexp2l.
  by move=> x; rewrite -[4%:R%:M]scalemx1 quadZ lexx.
- move=> c [E [S D]]; exists c; split=> //; split=> //. rewrite S !big_cons big_nil addr0.
  have T t : normalised (cov_of 6 (est_four t)) (error (fun _ => 0) 6 (est_four t)) = 6%:R.
    rewrite B /normalised invmx_scalar -[_%:M]scalemx1 quadZ.
    have -> : quad 1%:M (error (fun=> 0) 6 (est_four t)) = 24%:R.
      rewrite -diag_const_mx quad_diag (eq_bigr (fun=> 4%:R)); last by move=> i _; rewrite !mxE subr0 mul1r -natrX.
      by rewrite sumr_const card_ord -mulr_natr -natrM.
    by rewrite mulrC -[24%N]/(6 * 4)%N natrM mulfK ?pnatr_eq0.
  by rewrite !T -natrD.
Qed.

(** Variances of 100 and of 2^-52: an error of a unit in the latter counts for nothing, instead of 2^52. *)
Definition uneven : 'rV[R]_6 := \row_i (if (i < 3)%N then 100%:R else epsilon).
Example C94_clipped_case : nees eigen_diag (diag_mx uneven) (delta_mx (inord 3) 0) = 0 /\
  normalised (diag_mx uneven) (delta_mx (inord 3) 0) = 2%:R ^+ 52.
Proof.
have col i : diag_mx uneven *m delta_mx i 0 = uneven 0 i *: delta_mx i 0 :> 'cV_6.
  apply/matrixP => a b; rewrite mul_diag_mx !mxE; case: (altP (a =P i)) => [->|] //=; by rewrite !mulr0.
split.
- apply: (@C94_clipped_refuted R eigen_diag 6 (diag_mx uneven) epsilon 100%:R _ (delta_mx (inord 0) 0) (eigen_diag_ok _)).
  + by rewrite col mxE inordK.
  + by rewrite col mxE inordK.
  + by apply/eqP => /matrixP /(_ (inord 0) 0); rewrite !mxE !eqxx => /eqP; rewrite oner_eq0.
  + by rewrite -natrM ler_pmull ?epsilon_gt0 // ler1n.
- have nz i : uneven 0 i != 0 by rewrite mxE; case: ifP => _; rewrite ?pnatr_eq0 // lt0r_neq0 // epsilon_gt0.
  have I : diag_mx uneven *m diag_mx (\row_i (uneven 0 i)^-1) = 1%:M.
    apply/matrixP => i j; rewrite mul_diag_mx [LHS]mxE [diag_mx (\row__ _) _ _]mxE [1%:M _ _]mxE; case: eqP => [->|_]; last by rewrite mulr0n mulr0.
    by rewrite !mulr1n mxE mulfV.
  have U : diag_mx uneven \in unitmx by have := mulmx1_unit I; case.
  have -> : normalised (diag_mx uneven) (delta_mx (inord 3) 0) = quad (diag_mx (\row_i (uneven 0 i)^-1)) (delta_mx (inord 3) 0).
    rewrite /normalised; congr quad. by rewrite -[LHS]mulmx1 -I mulKmx.
  rewrite quad_diag (bigD1 (inord 3)) //= big1 ?addr0; last by move=> j ji; rewrite [delta_mx _ _ _ _]mxE (negbTE ji) /= expr0n mulr0.
  by rewrite [delta_mx _ _ _ _]mxE !eqxx expr1n mulr1 !mxE inordK // /epsilon invrK.
Qed.
End Case.

Print Assumptions C94_size.
Print Assumptions C94_nees.
Print Assumptions C94_bounds.
Print Assumptions C94_power.
Print Assumptions C94_refused.
Print Assumptions C94_unknown_truth.
Print Assumptions C94_verdict.
Print Assumptions C94_certain_refuted.
Print Assumptions C94_clipped_refuted.
Print Assumptions C94_case.
Print Assumptions C94_clipped_case.
