(** What the properties of the batch estimator refer to, and the invariants of its passes. *)
From Verif Require Import Base.
From mathcomp Require Import all_ssreflect all_algebra.
From Coq Require Import Lia.
From Verif Require Import Kf_Model Kf_Spec Kf_Linalg Bls_Model.
Import Order.TTheory GRing.Theory Num.Theory.
Set Implicit Arguments.
Unset Strict Implicit.
Unset Printing Implicit Defensive.
Local Open Scope ring_scope.

Lemma square_sum (K : comRingType) (w r p c b q : K) :
  w * (r - p) ^+ 2 + (c - 2%:R * b + q) = (w * r ^+ 2 + c) - 2%:R * (w * r * p + b) + (w * p ^+ 2 + q).
Proof.
have -> : w * (r - p) ^+ 2 = w * r ^+ 2 - 2%:R * (w * r * p) + w * p ^+ 2.
  by rewrite sqrrB mulrDr mulrBr -mulr_natl; congr (_ - _ + _); rewrite mulrCA !mulrA.
by rewrite (addrACA (w * r ^+ 2 - _)) (addrACA (w * r ^+ 2)) mulrDr opprD.
Qed.

Section Lines.
Context {R : rcfType}.
(** One scalar observation: the partials of the observable with respect to the estimated state, the
    weight and the residual. *)
Record line := { partials : 'rV[R]_9; line_weight : R; line_residual : R }.

(** The information matrix and the right-hand side of weighted observations, and their cost. *)
Definition gram (ls : seq line) : 'M[R]_9 := \sum_(l <- ls) line_weight l *: ((partials l)^T *m partials l).
Definition moment (ls : seq line) : 'cV[R]_9 := \sum_(l <- ls) (line_weight l * line_residual l) *: (partials l)^T.
Definition cost (ls : seq line) : R := \sum_(l <- ls) line_weight l * line_residual l ^+ 2.
(** The cost that is left by a correction, to first order. *)
Definition cost_after (ls : seq line) (y : 'cV[R]_9) : R :=
  \sum_(l <- ls) line_weight l * (line_residual l - (partials l *m y) 0 0) ^+ 2.
(** The same with a penalty on each coordinate of the correction. *)
Definition penalized (d : 'I_9 -> R) (ls : seq line) (y : 'cV[R]_9) : R :=
  cost_after ls y + \sum_j d j * (y j 0) ^+ 2.
Definition weighted (ls : seq line) : Prop := forall l, List.In l ls -> 0 < line_weight l.

Lemma gram_nil : gram [::] = 0. Proof. by rewrite /gram big_nil. Qed.
Lemma gram_cons l ls : gram (l :: ls) = line_weight l *: ((partials l)^T *m partials l) + gram ls.
Proof. by rewrite /gram big_cons. Qed.
Lemma gram_cat ls1 ls2 : gram (ls1 ++ ls2) = gram ls1 + gram ls2. Proof. by rewrite /gram big_cat. Qed.
Lemma moment_cat ls1 ls2 : moment (ls1 ++ ls2) = moment ls1 + moment ls2. Proof. by rewrite /moment big_cat. Qed.
Lemma cost_cat ls1 ls2 : cost (ls1 ++ ls2) = cost ls1 + cost ls2. Proof. by rewrite /cost big_cat. Qed.

Lemma gram_covariance ls : weighted ls -> covariance (gram ls).
Proof.
elim: ls => [|l ls IH] W; first by rewrite gram_nil; exact: covariance0.
rewrite gram_cons; apply: covarianceD; last by apply: IH => x I; apply: W; right.
have w0 : 0 < line_weight l by apply: W; left.
split; first by rewrite linearZ /= trmx_mul trmxK.
apply: psdZ; first exact: ltW.
move=> x.
have -> : quad ((partials l)^T *m partials l) x = norm_squared (partials l *m x).
  by rewrite norm_squaredE /quad trmx_mul !mulmxA.
by rewrite /norm_squared; apply: sumr_ge0 => i _; rewrite -expr2 sqr_ge0.
Qed.

Lemma weighted_cat ls1 ls2 : weighted ls1 -> weighted ls2 -> weighted (ls1 ++ ls2).
Proof. by move=> A B l I; case: (List.in_app_or _ _ _ I) => J; [apply: A|apply: B]. Qed.

Lemma definite_diag (d : 'rV[R]_9) : (forall j, 0 < d 0 j) -> definite (diag_mx d).
Proof.
move=> D; split; first by rewrite tr_diag_mx.
move=> x x0; rewrite quad_diag.
have nn j : 0 <= d 0 j * x j 0 ^+ 2 by rewrite mulr_ge0 ?sqr_ge0 ?ltW.
rewrite lt_def sumr_ge0 ?andbT //; apply: contra x0 => /eqP S; apply/eqP/matrixP => j k.
rewrite (ord1 k) mxE.
have /(_ j isT)/eqP := @psumr_eq0P _ _ predT _ (fun i _ => nn i) S.
by rewrite mulf_eq0 (gt_eqF (D j)) /= sqrf_eq0 => /eqP.
Qed.

(** The cost after a correction is a quadratic form. *)
Lemma cost_afterE ls y : cost_after ls y = cost ls - 2%:R * ((moment ls)^T *m y) 0 0 + quad (gram ls) y.
Proof.
elim: ls => [|l ls IH].
  by rewrite /cost_after /cost /moment /gram !big_nil /quad mulmx0 mul0mx trmx0 mul0mx !mxE mulr0 subr0 addr0.
rewrite gram_cons /cost_after /cost /moment !big_cons -/(cost_after ls y) -/(cost ls) -/(moment ls) IH.
rewrite quadD quadZ.
have -> : quad ((partials l)^T *m partials l) y = ((partials l *m y) 0 0) ^+ 2.
  by rewrite /quad mulmxA -mulmxA -trmx_mul [(_ *m (_ *m y)) 0 0]mxE big_ord1 [_^T _ _]mxE expr2.
have -> : (((line_weight l * line_residual l) *: (partials l)^T + moment ls)^T *m y) 0 0
          = line_weight l * line_residual l * (partials l *m y) 0 0 + ((moment ls)^T *m y) 0 0.
  by rewrite linearD linearZ /= trmxK mulmxDl -scalemxAl mxE [((_ *: _) : 'M_1) _ _]mxE.
set w := line_weight l; set r := line_residual l; set p := (partials l *m y) 0 0.
set c := cost ls; set b := (_ *m y) 0 0; set q := quad _ _.
exact: square_sum.
Qed.

(** The solution of the penalized normal equations is the one minimum of the penalized cost. *)
Lemma penalizedE (d : 'I_9 -> R) ls y :
  penalized d ls y = cost ls - 2%:R * ((moment ls)^T *m y) 0 0 + quad (gram ls + diag_mx (\row_j d j)) y.
Proof.
rewrite /penalized cost_afterE quadD quad_diag addrA; congr (_ + _).
by apply: eq_bigr => j _; rewrite mxE.
Qed.
Lemma quad_shift n (A : 'M[R]_n) (x y : 'cV[R]_n) : A^T = A ->
  quad A y = quad A x + 2%:R * ((A *m x)^T *m (y - x)) 0 0 + quad A (y - x).
Proof.
move=> S; set z := y - x; have -> : y = x + z by rewrite /z addrC subrK.
have cross : (z^T *m A *m x) 0 0 = ((A *m x)^T *m z) 0 0.
  have -> : z^T *m A *m x = ((A *m x)^T *m z)^T by rewrite trmx_mul trmxK mulmxA.
  by rewrite mxE.
have cross' : (x^T *m A *m z) 0 0 = ((A *m x)^T *m z) 0 0 by rewrite trmx_mul S.
have D (X Y : 'M[R]_1) : (X + Y) 0 0 = X 0 0 + Y 0 0 by rewrite mxE.
have -> : quad A (x + z) = quad A x + (z^T *m A *m x) 0 0 + ((x^T *m A *m z) 0 0 + quad A z).
  rewrite /quad; have -> : (x + z)^T = x^T + z^T by rewrite linearD.
  by rewrite mulmxDr !mulmxDl !D.
by rewrite cross cross' mulr_natl mulr2n !addrA.
Qed.
Lemma penalized_minimum (d : 'I_9 -> R) ls x y :
  weighted ls -> (forall j, 0 < d j) -> (gram ls + diag_mx (\row_j d j)) *m x = moment ls ->
  penalized d ls x <= penalized d ls y /\ (penalized d ls y = penalized d ls x -> y = x).
Proof.
move=> W D E; set A := gram ls + _ in E.
have dA : definite A.
  by apply: definiteD; [exact: gram_covariance|apply: definite_diag => j; rewrite mxE].
have -> : penalized d ls y = penalized d ls x + quad A (y - x).
  rewrite !penalizedE -/A (@quad_shift _ A x y); last by case: dA.
  have B (X Y : 'M[R]_1) : (X - Y) 0 0 = X 0 0 - Y 0 0 by rewrite !mxE.
  rewrite E mulmxBr B mulrBr.
  set c := cost ls; set a := 2%:R * _; set b := 2%:R * _; set q := quad A x; set q' := quad A _.
  by rewrite !addrA; congr (_ + _); rewrite [c - a + q]addrAC subrK addrAC.
split; first by rewrite ler_addl; apply: (proj2 (definite_covariance dA)).
move=> H; apply/eqP; rewrite -subr_eq0; apply/negPn/negP => N.
have := proj2 dA _ N; by rewrite -(ltr_addl (penalized d ls x)) H ltxx.
Qed.
End Lines.

(** ** The passes *)
Section Passes.
Context {R : rcfType}.
Context {state inst : Type}.
Context (epoch_of : state -> Z) (plus : state -> 'cV[R]_9 -> state).
Context (start : state -> inst) (state_of : inst -> state) (stm_of : inst -> option 'M[R]_9)
        (step_size : inst -> Z) (for_duration : inst -> Z -> res bls_error inst).
Context (known : nat -> bool)
        (h_tilde : nat -> @measurement R -> nat -> state -> res bls_error 'rV[R]_9)
        (measure_instantaneous : nat -> state -> res bls_error (option (list (nat * R))))
        (measurement_covar : nat -> nat -> Z -> res bls_error R)
        (udu : 'M[R]_9 -> option ('M[R]_9 * 'cV[R]_9)).
Local Notation measurement := (@measurement R).
Local Notation line := (@line R).
Local Notation add_types := (add_types h_tilde measure_instantaneous measurement_covar).
Local Notation to_measurement :=
  (to_measurement epoch_of state_of stm_of step_size for_duration known h_tilde measure_instantaneous measurement_covar).
Local Notation all_measurements :=
  (all_measurements epoch_of state_of stm_of step_size for_duration known h_tilde measure_instantaneous measurement_covar).
Local Notation one_pass :=
  (one_pass epoch_of start state_of stm_of step_size for_duration known h_tilde measure_instantaneous measurement_covar).
Local Notation eval_types := (eval_types measure_instantaneous measurement_covar).
Local Notation eval_to := (eval_to epoch_of state_of step_size for_duration known measure_instantaneous measurement_covar).
Local Notation eval_all := (eval_all epoch_of state_of step_size for_duration known measure_instantaneous measurement_covar).
Local Notation evaluate :=
  (evaluate epoch_of start state_of step_size for_duration known measure_instantaneous measurement_covar).

(** The observations that a device makes of a state for the types of a measurement, when [phi] maps
    a change of the estimated state to a change of this state; [None] computed: not in view. *)
Inductive observed (m : measurement) (s : state) (phi : 'M[R]_9) : list nat -> seq line -> Prop :=
| observed_none : observed m s phi [::] [::]
| observed_not t ts ls : measure_instantaneous (tracker m) s = Ok None ->
    observed m s phi ts ls -> observed m s phi (t :: ts) ls
| observed_one t ts ls h c r :
    h_tilde (tracker m) m t s = Ok h -> measure_instantaneous (tracker m) s = Ok (Some c) ->
    measurement_covar (tracker m) t (msr_epoch m) = Ok r -> 0 < r -> observed m s phi ts ls ->
    observed m s phi (t :: ts)
      ({| partials := h *m phi; line_weight := r^-1;
          line_residual := observation (data m) t - observation c t |} :: ls).

Definition added (ls : seq line) (a b : @sums R) : Prop :=
  [/\ info_matrix b = info_matrix a + gram ls, normal_matrix b = normal_matrix a + moment ls &
      sum_sq b = sum_sq a + cost ls].
Lemma added_nil a : added [::] a a.
Proof. by split; rewrite /gram /moment /cost big_nil addr0. Qed.
Lemma added_cat ls1 ls2 a b d : added ls1 a b -> added ls2 b d -> added (ls1 ++ ls2) a d.
Proof.
by move=> [i1 n1 s1] [i2 n2 s2]; split; rewrite ?gram_cat ?moment_cat ?cost_cat ?i2 ?n2 ?s2 ?i1 ?n1 ?s1 addrA.
Qed.

Lemma observed_weighted m s phi ts ls : observed m s phi ts ls -> weighted ls.
Proof.
elim=> {ts ls} [|//|t ts ls h c r _ _ _ r0 _ IH] l; first by [].
by case=> [<-|I] /=; [rewrite invr_gt0|exact: IH].
Qed.

Ltac unbind H x E := match type of H with bind ?e _ = Ok _ => case E: e H => [x| | |] //= H end.

Lemma add_types_observed m s phi ts a a' : add_types m s phi ts a = Ok a' ->
  exists2 ls, observed m s phi ts ls & added ls a a'.
Proof.
elim: ts a => [|t ts IH] a /=; first by move=> [<-]; exists [::]; [constructor|exact: added_nil].
move=> H; unbind H h Eh; unbind H o Eo; case: o Eo H => [c|] Eo H; last first.
  by have [ls O A] := IH _ H; exists ls; [exact: observed_not|].
unbind H r Er; case: ifP H => // r0 H; have [ls O A] := IH _ H.
exists ({| partials := h *m phi; line_weight := r^-1;
           line_residual := observation (data m) t - observation c t |} :: ls); first exact: (observed_one Eh Eo Er).
rewrite -cat1s; apply: added_cat A; split=> /=; rewrite /gram /moment /cost big_cons big_nil /= addr0 //.
  by rewrite scalerA.
by rewrite expr2 mulrA.
Qed.

(** The instances of the propagator since the start of a pass, the last first, and the product of
    their state transition matrices. *)
Inductive reached (i0 : inst) : seq inst -> Prop :=
| reached_start : reached i0 [:: i0]
| reached_step i p d i' : reached i0 (i :: p) -> for_duration i d = Ok i' -> reached i0 (i' :: i :: p).
Inductive product : seq inst -> 'M[R]_9 -> Prop :=
| product_start i : product [:: i] 1%:M
| product_step i p m phi : product p phi -> stm_of i = Some m -> product (i :: p) (m *m phi).

(** A measurement used on an instance, with the matrix used. *)
Record visit := { visit_msr : measurement; visit_inst : inst; visit_phi : 'M[R]_9 }.
Definition on_path (i0 i : inst) (phi : 'M[R]_9) : Prop := exists2 p, reached i0 (i :: p) & product (i :: p) phi.
Definition visit_near (prec : Z) (v : visit) : Prop :=
  Z.lt (Z.abs (Z.sub (epoch_of (state_of (visit_inst v))) (msr_epoch (visit_msr v)))) prec.
Definition visit_valid (prec : Z) (i0 : inst) (v : visit) : Prop :=
  [/\ ~~ rejected (visit_msr v), known (tracker (visit_msr v)), visit_near prec v &
      on_path i0 (visit_inst v) (visit_phi v)].
Definition visit_exact (v : visit) : Prop := epoch_of (state_of (visit_inst v)) = msr_epoch (visit_msr v).
(** The observations of some visits. *)
Definition visits_observed (vs : seq visit) (lss : seq (seq line)) : Prop :=
  List.Forall2 (fun v ls => observed (visit_msr v) (state_of (visit_inst v)) (visit_phi v)
                              (List.map fst (data (visit_msr v))) ls) vs lss.

Lemma on_path_step i0 i phi d i' m : on_path i0 i phi -> for_duration i d = Ok i' -> stm_of i' = Some m ->
  on_path i0 i' (m *m phi).
Proof. by move=> [p A B] F S; exists (i :: p); [exact: reached_step A F|exact: product_step B S]. Qed.

Lemma observed_app vs1 lss1 vs2 lss2 : visits_observed vs1 lss1 -> visits_observed vs2 lss2 ->
  visits_observed (vs1 ++ vs2) (lss1 ++ lss2).
Proof. exact: List.Forall2_app. Qed.

Context (exact_steps : forall i d i', for_duration i d = Ok i' ->
           epoch_of (state_of i') = Z.add (epoch_of (state_of i)) d).

(** What one measurement adds. *)
Lemma to_measurement_visits c i0 fuel m i phi a i' e' phi' a' : ~~ rejected m ->
  to_measurement c fuel m i (epoch_of (state_of i)) phi a = Ok (i', e', phi', a') -> on_path i0 i phi ->
  exists vs lss,
    [/\ visits_observed vs lss, added (flatten lss) a a',
        List.Forall (fun v => visit_msr v = m /\ visit_valid (epoch_precision c) i0 v) vs,
        on_path i0 i' phi' & e' = epoch_of (state_of i')] /\
    [/\ e' = Z.max (epoch_of (state_of i)) (msr_epoch m),
        (Z.le (msr_epoch m) (epoch_of (state_of i)) -> vs = [::]),
        (Z.lt 0 (epoch_precision c) -> Z.lt (epoch_of (state_of i)) (msr_epoch m) -> known (tracker m) ->
          List.Exists visit_exact vs) &
        (forall q, Z.lt 0 q -> Z.le (epoch_precision c) q -> Z.divide q (max_step c) -> (forall j, Z.divide q (step_size j)) ->
          Z.divide q (Z.sub (msr_epoch m) (epoch_of (state_of i))) ->
          (size vs <= 1)%N /\ List.Forall visit_exact vs)].
Proof.
move=> rej.
elim: fuel i phi a => [|fuel IH] i phi a /=; case: (Z.leb_spec (Z.sub (msr_epoch m) (epoch_of (state_of i))) 0) => D //.
- move=> [<- <- <- <-] P; exists [::], [::]; split; first by split=> //; do ?[exact: added_nil | constructor].
  by split=> //; lia.
- move=> [<- <- <- <-] P; exists [::], [::]; split; first by split=> //; do ?[exact: added_nil | constructor].
  by split=> //; lia.
move=> H P; unbind H j Ej; case Es: (stm_of j) H => [ms|] // H.
have P' := on_path_step P Ej Es.
have Ee := exact_steps Ej; set n := Z.min _ _ in Ej Ee.
have n1 : Z.le (epoch_of (state_of j)) (msr_epoch m) by rewrite Ee /n; lia.
have grid q : Z.lt 0 q -> Z.divide q (max_step c) -> (forall j, Z.divide q (step_size j)) ->
    Z.divide q (Z.sub (msr_epoch m) (epoch_of (state_of i))) ->
    Z.divide q (Z.sub (msr_epoch m) (epoch_of (state_of j))).
  move=> q0 qm qs [k qd]; have [k' Hk] : Z.divide q n.
    rewrite /n; case: (Z.min_spec (Z.sub (msr_epoch m) (epoch_of (state_of i))) (step_size i)) => [[_ ->]|[_ ->]].
      by case: (Z.min_spec (Z.sub (msr_epoch m) (epoch_of (state_of i))) (max_step c)) => [[_ ->]|[_ ->]] //; exists k.
    by case: (Z.min_spec (step_size i) (max_step c)) => [[_ ->]|[_ ->]].
  by exists (Z.sub k k'); lia.
case: ifP H => [/andP [N K] H|NK H].
  unbind H b Eb; have [ls O A] := add_types_observed Eb.
  have [vs [lss [[V1 V2 V3 V4 V5] [V6 V7 V8 V9]]]] := IH _ _ _ H P'.
  pose v := {| visit_msr := m; visit_inst := j; visit_phi := ms *m phi |}.
  exists (v :: vs), (ls :: lss); split; split=> //.
  + by constructor.
  + exact: added_cat A V2.
  + constructor=> //; split=> //; split=> //; rewrite /visit_near /=; exact/Z.ltb_lt.
  + by rewrite V6; lia.
  + by lia.
  + move=> p0 e0 k0.
    case: (Z.eq_dec (epoch_of (state_of j)) (msr_epoch m)) => E; first by constructor.
    by apply: List.Exists_cons_tl; apply: V8 => //; lia.
  + move=> q q0 qp qm qs qd; have [k Hk] := grid q q0 qm qs qd.
    have /Z.ltb_lt near := N.
    have k0 : k = Z0 by nia.
    have E : epoch_of (state_of j) = msr_epoch m by lia.
    have -> : vs = [::] by apply: V7; lia.
    by split=> //; constructor.
have [vs [lss [[V1 V2 V3 V4 V5] [V6 V7 V8 V9]]]] := IH _ _ _ H P'.
exists vs, lss; split; split=> //.
- by rewrite V6; lia.
- by lia.
- move=> p0 e0 k0; apply: V8 => //; move: NK; rewrite k0 andbT => /Z.ltb_ge; lia.
- by move=> q q0 qp qm qs qd; apply: (V9 q) => //; apply: grid.
Qed.

(** The measurements that a pass may use. *)
Definition usable (m : measurement) : bool := ~~ rejected m && known (tracker m).
(** The accepted measurements come one after the other, after an epoch. *)
Fixpoint after (e : Z) (ms : seq measurement) : Prop :=
  match ms with
  | [::] => True
  | m :: ms' => if rejected m then after e ms' else Z.lt e (msr_epoch m) /\ after (msr_epoch m) ms'
  end.

Lemma all_measurements_visits c i0 fuel ms i phi a a' :
  all_measurements c fuel ms i (epoch_of (state_of i)) phi a = Ok a' -> on_path i0 i phi ->
  exists vs lss,
    [/\ visits_observed vs lss, added (flatten lss) a a',
        List.Forall (fun v => List.In (visit_msr v) ms /\ visit_valid (epoch_precision c) i0 v) vs,
        (Z.lt 0 (epoch_precision c) -> after (epoch_of (state_of i)) ms ->
          forall m, List.In m ms -> usable m -> exists2 v, List.In v vs & visit_msr v = m /\ visit_exact v) &
        (forall q, Z.lt 0 (epoch_precision c) -> Z.le (epoch_precision c) q -> Z.divide q (max_step c) ->
          (forall j, Z.divide q (step_size j)) -> after (epoch_of (state_of i)) ms ->
          (forall m, List.In m ms -> Z.divide q (Z.sub (msr_epoch m) (epoch_of (state_of i)))) ->
          [seq visit_msr v | v <- vs] = [seq m <- ms | usable m] /\ List.Forall visit_exact vs)].
Proof.
elim: ms i phi a => [|m ms IH] i phi a /=.
  by move=> [<-] P; exists [::], [::]; split=> //; do ?[exact: added_nil | constructor].
case rej: (rejected m).
  move=> H P; have [vs [lss [V1 V2 V3 V4 V5]]] := IH _ _ _ H P.
  exists vs, lss; split=> //.
  - apply: List.Forall_impl V3 => v [I V]; split=> //; by right.
  - move=> p0 A m' [<-|I] u; first by move: u; rewrite /usable rej.
    exact: (V4 p0 A m' I u).
  - move=> q p0 pq qm qs A D; rewrite {1}/usable rej /=; apply: (V5 q) => // m' I; apply: D; by right.
move=> H P; unbind H x Ex; move: x Ex H => [[[j e'] phi'] b] Ex H.
have rj : ~~ rejected m by rewrite rej.
have [vs1 [lss1 [[V1 V2 V3 V4 V5] [V6 V7 V8 V9]]]] := to_measurement_visits rj Ex P.
rewrite V5 in H; have [vs2 [lss2 [W1 W2 W3 W4 W5]]] := IH _ _ _ H V4.
have next : Z.lt (epoch_of (state_of i)) (msr_epoch m) -> epoch_of (state_of j) = msr_epoch m by rewrite -V5 V6; lia.
exists (vs1 ++ vs2), (lss1 ++ lss2); split.
- exact: observed_app.
- by rewrite flatten_cat; apply: added_cat V2 W2.
- apply/List.Forall_app; split.
    by apply: List.Forall_impl V3 => v [-> V]; split=> //; left.
  by apply: List.Forall_impl W3 => v [I V]; split=> //; right.
- move=> p0 [lt A] m' I u.
  case: (I) => [E|I'].
    have {}u : known (tracker m) by move: u; rewrite -E /usable rj.
    have /List.Exists_exists [v [Iv Xv]] := V8 p0 lt u.
    exists v; first by apply: List.in_or_app; left.
    by split=> //; rewrite -E; have [] := proj1 (List.Forall_forall _ _) V3 v Iv.
  rewrite -(next lt) in A; have [v Iv Xv] := W4 p0 A m' I' u.
  by exists v => //; apply: List.in_or_app; right.
move=> q p0 pq qm qs [lt A] D.
have q0 : Z.lt 0 q by lia.
have Dm : Z.divide q (Z.sub (msr_epoch m) (epoch_of (state_of i))) by apply: D; left.
have [sz ex] := V9 q q0 pq qm qs Dm.
rewrite -(next lt) in A.
have [] := W5 q p0 pq qm qs A.
  move=> m' I; rewrite (next lt); have [k Hk] := Dm; have [k' Hk'] := D m' (or_intror I).
  by exists (Z.sub k' k); lia.
move=> E2 X2; split; last by apply/List.Forall_app.
rewrite map_cat E2; have -> : [seq visit_msr v | v <- vs1] = (if usable m then [:: m] else [::]).
  case: vs1 V1 V3 V7 V8 V9 sz ex => [|v [|w vs1]] V1 V3 V7 V8 V9 sz ex //=.
    case: ifP => // /andP [_ k]; by have := V8 p0 lt k => /List.Exists_nil.
  have [E [r k _ _]] := proj1 (List.Forall_forall _ _) V3 v (or_introl erefl).
  by rewrite E in k *; rewrite /usable rj k.
by case: (usable m).
Qed.

(** [evaluate] follows the same pass. *)
Lemma eval_types_sum m s phi ts a a' : add_types m s phi ts a = Ok a' -> eval_types m s ts (sum_sq a) = Ok (sum_sq a').
Proof.
elim: ts a => [|t ts IH] a /=; first by move=> [<-].
move=> H; unbind H h Eh; unbind H o Eo; case: o Eo H => [c|] Eo H; last exact: IH.
by unbind H r Er; case: ifP H => // r0 /IH.
Qed.
Lemma eval_to_sum c fuel m i e phi a i' e' phi' a' : to_measurement c fuel m i e phi a = Ok (i', e', phi', a') ->
  eval_to c fuel m i e (sum_sq a) = Ok (i', e', sum_sq a').
Proof.
elim: fuel i e phi a => [|fuel IH] i e phi a /=; case: (Z.leb _ _) => //; try by move=> [<- <- _ <-].
move=> H; unbind H j Ej; case: (stm_of j) H => [M|] // H.
case: ifP H => _ H; last exact: IH H.
by unbind H b Eb; rewrite (eval_types_sum Eb) /=; exact: IH H.
Qed.
Lemma eval_all_sum c fuel ms i e phi a a' : all_measurements c fuel ms i e phi a = Ok a' ->
  eval_all c fuel ms i e (sum_sq a) = Ok (sum_sq a').
Proof.
elim: ms i e phi a => [|m ms IH] i e phi a /=; first by move=> [<-].
case: (rejected m); first exact: IH.
move=> H; unbind H x Ex; move: x Ex H => [[[j e'] phi'] b] Ex H.
by rewrite (eval_to_sum Ex) /=; exact: IH H.
Qed.
End Passes.
