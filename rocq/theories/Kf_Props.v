(** C26 to C30 and C58: the sequential filter.  [Kf_Spec] has the definitions: covariances,
    sequences of updates, applicable process noises.

    The real closed field, the state type, the state transition matrix of a state, its epoch, the
    rotation of a local frame, the exponential and the addition of a deviation are arbitrary;
    the exponential must not be negative, and the addition must keep the epoch where stated. *)
From Verif Require Import Base.
From mathcomp Require Import all_ssreflect all_algebra.
From Verif Require Import Kf_Model Kf_Spec Kf_Linalg Kf_Gain Kf_Proofs.
Import Order.TTheory GRing.Theory Num.Theory.
Set Implicit Arguments.
Unset Strict Implicit.
Unset Printing Implicit Defensive.
Local Open Scope ring_scope.

(** ** A filter for the examples: a state is a transition matrix and an epoch. *)
Section Demo.
Context (R : rcfType).
Definition demo_state : Type := 'M[R]_6 * Z.
Definition demo_stm (t : demo_state) : option 'M[R]_6 := Some t.1.
Definition demo_epoch (t : demo_state) : Z := t.2.
Definition demo_dcm (t : demo_state) (lf : unit) : option (DCM R) := None.
Definition demo_exp (x : R) : R := 1.
Definition demo_add (t : demo_state) (d : 'cV[R]_6) : demo_state := t.
Definition minute : Z := Z.mul (Z.of_nat 60) (Z.pow (Z.of_nat 10) (Z.of_nat 9)).
Definition demo_noise : process_noise R unit 3 :=
  {| start_time := None; local_frame := None; disable_time := minute; init_epoch := None;
     diag := const_mx 1; decay_diag := None; prev_epoch := None |}.
Definition demo_filter (v : kalman_variant) : kalman_filter R demo_state unit 6 3 :=
  {| prev_estimate :=
       {| nominal_state := (1%:M, Z0); state_deviation := 0; covar := 1%:M; covar_bar := 1%:M;
          predicted := true; stm := 1%:M |};
     process_noises := [:: demo_noise]; variant := v; prev_used_snc := 0 |}.
End Demo.

Lemma definite_scalar (R : rcfType) n (c : R) : 0 < c -> definite (c%:M : 'M[R]_n).
Proof.
move=> hc; split; first by rewrite tr_scalar_mx.
move=> x hx; have -> : quad c%:M x = c * \sum_i x i 0 ^+ 2.
  rewrite /quad mul_mx_scalar -scalemxAl mxE mxE; congr (_ * _).
  by apply: eq_bigr => i _; rewrite mxE expr2.
rewrite mulr_gt0 // lt_neqAle sumr_ge0 ?andbT; last by move=> i _; exact: sqr_ge0.
apply: contra hx; rewrite eq_sym psumr_eq0; last by move=> i _; exact: sqr_ge0.
move=> /allP h; apply/eqP/matrixP=> i j; rewrite ord1 mxE.
by have := h i (mem_index_enum i); rewrite sqrf_eq0 => /eqP.
Qed.
Lemma demo_valid (R : rcfType) v : valid (demo_filter R v).
Proof.
split; first by apply: definite_covariance; apply: definite_scalar; exact: ltr01.
by move=> s [<-|[]] i; rewrite mxE ler01.
Qed.
Lemma demo_exp_ge0 (R : rcfType) (x : R) : 0 <= demo_exp x.
Proof. exact: ler01. Qed.

(** A step of one second applies the noise. *)
Definition second : Z := Z.pow (Z.of_nat 10) (Z.of_nat 9).
Lemma demo_contribution (R : rcfType) v :
  exists q, noise_contribution (@demo_epoch R) (@demo_dcm R) (@demo_exp R) (@demo_add R)
              (demo_filter R v) (1%:M, second) = Ok (Some (0%N, q)).
Proof.
by eexists; reflexivity.
Qed.

(** ** C26: whatever the sequence of updates, accepted, rejected or failed, the covariance is
    symmetric and positive semi-definite. *)
Theorem C26_covariance :
  forall (R : rcfType) (T LF : Type) n a stm_of epoch_of dcm exp add
         (kf : kalman_filter R T LF n a) (updates : seq (update R T n)),
    (forall x, 0 <= exp x) -> valid kf ->
    (forall u, List.In u updates -> noise_is_covariance u) ->
    covariance (covar (prev_estimate (run stm_of epoch_of dcm exp add kf updates))).
Proof.
move=> R T LF n a stm_of epoch_of dcm exp add kf updates he hv hu.
suff [] : valid (run stm_of epoch_of dcm exp add kf updates) by [].
elim: updates kf hv hu => [|u us IH] kf hv hu //=; apply: IH; last by move=> v hv'; apply: hu; right.
have := hu u (or_introl erefl); case: u {hu} => [t|m t z c r h rej] hr /=.
- exact: time_update_valid.
- exact: measurement_update_valid.
Qed.
Print Assumptions C26_covariance.

(** And so is every estimate handed out, before and after the measurement; in particular its
    variances are not negative. *)
Theorem C26_estimates :
  forall (R : rcfType) (T LF : Type) n a stm_of epoch_of dcm exp add
         (kf : kalman_filter R T LF n a),
    (forall x, 0 <= exp x) -> valid kf ->
    (forall nominal kf' e,
       time_update stm_of epoch_of dcm exp add kf nominal = (kf', Ok e) ->
       covariance (covar e) /\ covariance (covar_bar e) /\ forall i, 0 <= covar e i i) /\
    (forall m nominal (real computed : 'cV[R]_m) r_k h rejection kf' e r g, covariance r_k ->
       measurement_update stm_of epoch_of dcm exp add kf nominal real computed r_k h rejection
         = (kf', Ok (e, r, g)) ->
       covariance (covar e) /\ covariance (covar_bar e) /\ forall i, 0 <= covar e i i).
Proof.
move=> R T LF n a stm_of epoch_of dcm exp add kf he hv.
have ht nominal kf' e : time_update stm_of epoch_of dcm exp add kf nominal = (kf', Ok e) ->
    covariance (covar e) /\ covariance (covar_bar e) /\ forall i, 0 <= covar e i i.
  rewrite /time_update; case: (stm_of nominal) => // phi.
  case hc: noise_contribution => [c|||] // [_ <-] /=.
  have hp := prior_covariance phi he hv hc; split=> //; split=> // i.
  by apply: psd_diagonal; case: hp.
split=> // m nominal real computed r_k h rejection kf' e r g hr hu.
case: g hu => [g|] hu.
- have [phi [c [_ hc _ _ [-> -> _ _ _]]]] := measurement_accepted he hv hr hu.
  have hp := prior_covariance phi he hv hc.
  have hj := joseph_covariance h g hp hr; split=> //; split=> // i.
  by apply: psd_diagonal; case: hj.
- have [kf'' h''] := measurement_time_only hu; exact: ht h''.
Qed.
Print Assumptions C26_estimates.

(** A time update, an accepted and a rejected measurement. *)
Section C26_example.
Context (R : rcfType).
Definition position_x : 'M[R]_(1, 6) := delta_mx 0 0.
Definition demo_updates : seq (update R (demo_state R) 6) :=
  [:: Time (1%:M, second);
      Measurement (1%:M, Z.add second second) (const_mx 1) 0 1%:M position_x None;
      Measurement (1%:M, Z.add second (Z.add second second)) (const_mx 99%:R) 0 1%:M position_x (Some 3%:R)].
Example demo_run v :
  covariance (covar (prev_estimate
    (run (@demo_stm R) (@demo_epoch R) (@demo_dcm R) (@demo_exp R) (@demo_add R)
       (demo_filter R v) demo_updates))).
Proof.
apply: C26_covariance; [exact: demo_exp_ge0|exact: demo_valid|].
have h : covariance (1%:M : 'M[R]_1).
  by apply: definite_covariance; apply: definite_scalar; exact: ltr01.
by move=> u [<-|[<-|[<-|[]]]].
Qed.
End C26_example.

(** ** C27: the gain solves [K S = P H^T], the covariance is [P - K S K^T], at most the prior
    one, and at most that of an update with any other gain. *)
Theorem C27_optimal :
  forall (R : rcfType) (T LF : Type) n a stm_of epoch_of dcm exp add
         (kf : kalman_filter R T LF n a) m nominal (real computed : 'cV[R]_m) r_k h rejection
         kf' e r g,
    (forall x, 0 <= exp x) -> valid kf -> covariance r_k ->
    measurement_update stm_of epoch_of dcm exp add kf nominal real computed r_k h rejection
      = (kf', Ok (e, r, Some g)) ->
    let p := covar_bar e in
    let s := h *m p *m h^T + r_k in
    g *m s = p *m h^T /\
    covar e = p - g *m s *m g^T /\
    below (covar e) p /\
    forall k : 'M[R]_(n, m),
      below (covar e)
        ((1%:M - k *m h) *m p *m (1%:M - k *m h)^T + k *m r_k *m k^T).
Proof.
move=> R T LF n a stm_of epoch_of dcm exp add kf m nominal real computed r_k h rejection kf' e r g.
move=> he hv hr hu.
have [phi [c [_ hc _ hg [-> -> _ _ _]]]] := measurement_accepted he hv hr hu; cbv zeta.
have hp := prior_covariance phi he hv hc; move: (prior c phi kf) hp hg => p hp.
rewrite /innovation mulmxA -/(innovation p h r_k) => hg.
have hs : h *m p *m h^T + r_k = innovation p h r_k by rewrite /innovation mulmxA.
rewrite hs in hg *; have hic := innovation_covariance h hp hr.
split=> //; rewrite (joseph_optimal (proj1 hp) (proj1 hr) hg); split=> //; split.
- move=> x; rewrite quadB ler_subl_addr ler_addl; exact: (proj2 (covariance_conj g hic)).
- move=> k x; rewrite -/(joseph p h r_k k) (joseph_expand k (proj1 hp) (proj1 hr) hg).
  by rewrite [X in _ <= X]quadD ler_addl; exact: (proj2 (covariance_conj (k - g) hic)).
Qed.
Print Assumptions C27_optimal.

(** With a positive definite measurement noise the update succeeds. *)
Theorem C27_succeeds :
  forall (R : rcfType) (T LF : Type) n a stm_of epoch_of dcm exp add
         (kf : kalman_filter R T LF n a) m nominal (real computed : 'cV[R]_m) r_k h kf1 e1,
    (forall x, 0 <= exp x) -> valid kf -> definite r_k ->
    time_update stm_of epoch_of dcm exp add kf nominal = (kf1, Ok e1) ->
    exists kf' e r g,
      measurement_update stm_of epoch_of dcm exp add kf nominal real computed r_k h None
        = (kf', Ok (e, r, Some g)) /\ covar_bar e = covar e1.
Proof.
move=> R T LF n a stm_of epoch_of dcm exp add kf m nominal real computed r_k h kf1 e1 he hv hr.
rewrite {1}/time_update; case hst: (stm_of nominal) => [phi|] //.
case hc: noise_contribution => [c|||] // [_ <-] /=.
have [kf' [e [r [g [hu _ hb hrej]]]]] := measurement_decides real computed h None he hv hr hst hc.
rewrite hrej => -[hg _]; case: g hu hg => // g hu _; exists kf', e, r, g.
by rewrite hb.
Qed.
Print Assumptions C27_succeeds.
Example demo_measurement (R : rcfType) v :
  exists kf' e r g,
    measurement_update (@demo_stm R) (@demo_epoch R) (@demo_dcm R) (@demo_exp R) (@demo_add R)
      (demo_filter R v) (1%:M, second) (const_mx 1) 0 1%:M (position_x R) None
      = (kf', Ok (e, r, Some g)).
Proof.
have hd : definite (1%:M : 'M[R]_1) by apply: definite_scalar; exact: ltr01.
case ht: (time_update (@demo_stm R) (@demo_epoch R) (@demo_dcm R) (@demo_exp R) (@demo_add R)
            (demo_filter R v) (1%:M, second)) => [kf1 [e1|||]]; first last.
1-3: by have [q hq] := demo_contribution R v; move: ht; rewrite /time_update hq.
have [kf' [e [r [g [h _]]]]] :=
  C27_succeeds (const_mx 1) 0 (position_x R) (@demo_exp_ge0 R) (demo_valid R v) hd ht.
by exists kf', e, r, g.
Qed.

(** ** C28: a measurement is rejected exactly when the root mean square of its whitened prefit is
    above the threshold, and then leaves the filter as a time update would. *)
Theorem C28_rejection :
  forall (R : rcfType) (T LF : Type) n a stm_of epoch_of dcm exp add
         (kf : kalman_filter R T LF n a) m nominal (real computed : 'cV[R]_m) r_k h rejection
         kf1 e1,
    (forall x, 0 <= exp x) -> valid kf -> definite r_k ->
    time_update stm_of epoch_of dcm exp add kf nominal = (kf1, Ok e1) ->
    exists kf' e r g,
      [/\ measurement_update stm_of epoch_of dcm exp add kf nominal real computed r_k h rejection
            = (kf', Ok (e, r, g)),
          ratio r = Num.sqrt (quad (invmx (h *m covar e1 *m h^T + r_k)) (real - computed) / m%:R),
          rejected r = (if rejection is Some sigmas then sigmas < ratio r else false) &
          if rejected r then [/\ kf' = kf1, e = e1, g = None & postfit r = None]
          else g <> None].
Proof.
move=> R T LF n a stm_of epoch_of dcm exp add kf m nominal real computed r_k h rejection kf1 e1.
move=> he hv hr ht.
have [phi hst] : exists phi, stm_of nominal = Some phi.
  by move: ht; rewrite /time_update; case: (stm_of nominal) => // phi; exists phi.
have [c hc] : exists c, noise_contribution epoch_of dcm exp add kf nominal = Ok c.
  by move: ht; rewrite /time_update hst; case: noise_contribution => // c; exists c.
have he1 : covar e1 = prior c phi kf by move: ht; rewrite /time_update hst hc => -[_ <-].
have [kf' [e [r [g [hu hrt _ hrej hif]]]]] :=
  measurement_decides real computed h rejection he hv hr hst hc.
exists kf', e, r, g; split=> //.
- by rewrite hrt he1 /innovation mulmxA.
- by rewrite hrej hrt.
- by case: (rejected r) hif => -[]; rewrite ?ht // => -[<- <-] [-> ->].
Qed.
Print Assumptions C28_rejection.

(** With an identity prior, observing one coordinate to within one: an innovation of 99 is out at
    three sigmas, the time update is what remains. *)
Section Steady.
Context (R : rcfType).
(** No process noise, identity covariance. *)
Definition steady_filter (v : kalman_variant) (x : 'cV[R]_6)
    : kalman_filter R (demo_state R) unit 6 3 :=
  {| prev_estimate :=
       {| nominal_state := (1%:M, Z0); state_deviation := x; covar := 1%:M; covar_bar := 1%:M;
          predicted := true; stm := 1%:M |};
     process_noises := [::]; variant := v; prev_used_snc := 0 |}.
Lemma steady_valid v x : valid (steady_filter v x).
Proof.
by split=> //; apply: definite_covariance; apply: definite_scalar; exact: ltr01.
Qed.
Lemma steady_time v x :
  exists kf1 e1,
    [/\ time_update (@demo_stm R) (@demo_epoch R) (@demo_dcm R) (@demo_exp R) (@demo_add R)
          (steady_filter v x) (1%:M, second) = (kf1, Ok e1), covar e1 = 1%:M &
        state_deviation e1 = match v with ReferenceUpdate => 0 | DeviationTracking => x end].
Proof.
do 2 eexists; split; first reflexivity.
- by rewrite /= !mul1mx trmx1.
- by case: v; rewrite /= ?mul1mx.
Qed.
Lemma position_x_square : position_x R *m (position_x R)^T = 1%:M.
Proof.
rewrite /position_x trmx_delta mul_delta_mx; apply/matrixP=> i j.
by rewrite !ord1 !mxE !eqxx.
Qed.
Lemma steady_ratio (y : 'cV[R]_1) :
  Num.sqrt (quad (invmx (position_x R *m 1%:M *m (position_x R)^T + 1%:M)) y / 1%:R)
  = `|y 0 0| / Num.sqrt 2%:R.
Proof.
rewrite mulmx1 position_x_square divr1.
have -> : (1%:M + 1%:M : 'M[R]_1) = 2%:R%:M by rewrite -raddfD.
rewrite invmx_scalar /quad mul_mx_scalar -scalemxAl mxE mxE big_ord_recl big_ord0 addr0 mxE.
by rewrite -expr2 sqrtrM ?invr_ge0 ?ler0n // sqrtr_sqr sqrtrV ?ler0n // mulrC.
Qed.
End Steady.

Example demo_rejected (R : rcfType) v x :
  exists kf' e r,
    [/\ measurement_update (@demo_stm R) (@demo_epoch R) (@demo_dcm R) (@demo_exp R) (@demo_add R)
          (steady_filter v x) (1%:M, second) (const_mx 99%:R) 0 1%:M (position_x R) (Some 3%:R)
          = (kf', Ok (e, r, None)), rejected r & covar e = 1%:M].
Proof.
have hd : definite (1%:M : 'M[R]_1) by apply: definite_scalar; exact: ltr01.
have [kf1 [e1 [ht hc _]]] := steady_time v x.
have [kf' [e [r [g [hu hrt hrej hif]]]]] :=
  C28_rejection (const_mx 99%:R) 0 (position_x R) (Some 3%:R) (@demo_exp_ge0 R)
    (steady_valid v x) hd ht.
have hr : rejected r.
  rewrite hrej hrt hc steady_ratio !mxE subr0 ger0_norm ?ler0n //.
  rewrite ltr_pdivl_mulr ?sqrtr_gt0 ?ltr0n //.
  apply: (@le_lt_trans _ _ (3%:R * 2%:R)); last by rewrite -natrM ltr_nat.
  rewrite ler_pmul2l ?ltr0n // -{2}[2%:R](@ger0_norm R) ?ler0n // -sqrtr_sqr.
  by rewrite ler_wsqrtr // -natrX ler_nat.
rewrite hr in hif; case: hif => h1 h2 h3 _.
by exists kf', e, r; rewrite hu h3 h2.
Qed.

(** A tracker marked as rejected is still used when its prefit is zero: the process passes a
    threshold of zero sigmas (od/process/mod.rs:175-180), and zero is not above zero. *)
Theorem C28_force_reject_refuted :
  forall R : rcfType, exists kf' e r g kf1 e1,
    [/\ measurement_update (@demo_stm R) (@demo_epoch R) (@demo_dcm R) (@demo_exp R) (@demo_add R)
          (steady_filter ReferenceUpdate 0) (1%:M, second) 0 (0 : 'cV[R]_1) 1%:M (position_x R)
          (Some 0) = (kf', Ok (e, r, g)),
        time_update (@demo_stm R) (@demo_epoch R) (@demo_dcm R) (@demo_exp R) (@demo_add R)
          (steady_filter ReferenceUpdate 0) (1%:M, second) = (kf1, Ok e1),
        rejected r = false & covar e <> covar e1].
Proof.
move=> R.
have hd : definite (1%:M : 'M[R]_1) by apply: definite_scalar; exact: ltr01.
have hv := steady_valid ReferenceUpdate (0 : 'cV[R]_6).
have [kf1 [e1 [ht hc _]]] := steady_time ReferenceUpdate (0 : 'cV[R]_6).
have [kf' [e [r [g [hu hrt hrej hif]]]]] :=
  C28_rejection 0 (0 : 'cV[R]_1) (position_x R) (Some 0) (@demo_exp_ge0 R) hv hd ht.
have hr : rejected r = false.
  by rewrite hrej hrt hc steady_ratio subr0 mxE normr0 mul0r ltxx.
exists kf', e, r, g, kf1, e1; split=> //.
rewrite hr in hif; case: g hu hif => // g hu _.
have [hg [hP _]] := C27_optimal (@demo_exp_ge0 R) hv (definite_covariance hd) hu.
have hbar : covar_bar e = 1%:M.
  have [phi [c [hst hcc _ _ [_ hb _ _ _]]]] :=
    measurement_accepted (@demo_exp_ge0 R) hv (definite_covariance hd) hu.
  by move: hst hcc hb => [<-] [<-] -> /=; rewrite /prior /= !mul1mx trmx1.
rewrite hP hc hbar; rewrite hbar mulmx1 position_x_square mul1mx in hg *.
rewrite hg => h; have {h} h : (position_x R)^T *m g^T = 0.
  by move: h; rewrite -{2}[1%:M]subr0 => /addrI/oppr_inj.
have : position_x R *m ((position_x R)^T *m g^T) = 0 by rewrite h mulmx0.
rewrite mulmxA position_x_square mul1mx => /(f_equal trmx); rewrite trmxK trmx0 => hg0.
move: hg; rewrite hg0 mul0mx => /(f_equal (mulmx (position_x R))).
rewrite mulmx0 position_x_square => /matrixP /(_ 0 0); rewrite !mxE eqxx => /esym/eqP.
by rewrite oner_eq0.
Qed.
Print Assumptions C28_force_reject_refuted.

(** ** C29: two observables of one epoch processed one after the other are the joint update of
    both, and their order does not matter.  A tracked deviation does not change the computed
    observations; the other variant updates the reference, whose computed second observation then
    moves, to first order, by [h2 x1]. *)
Theorem C29_sequential_is_joint :
  forall (R : rcfType) (T LF : Type) n a stm_of epoch_of dcm exp add
         (kf kf1 kf2 : kalman_filter R T LF n a) nominal nominal'
         m1 m2 (z1 c1 : 'cV[R]_m1) (z2 c2 : 'cV[R]_m2) r1 r2 h1 h2 e1 e2 res1 res2 g1 g2,
    (forall x, 0 <= exp x) -> valid kf -> definite r1 -> definite r2 ->
    (forall t d, epoch_of (add t d) = epoch_of t) ->
    stm_of nominal' = Some 1%:M -> epoch_of nominal' = epoch_of nominal ->
    measurement_update stm_of epoch_of dcm exp add kf nominal z1 c1 r1 h1 None
      = (kf1, Ok (e1, res1, Some g1)) ->
    measurement_update stm_of epoch_of dcm exp add kf1 nominal' z2
        (match variant kf with
         | DeviationTracking => c2
         | ReferenceUpdate => c2 + h2 *m state_deviation e1
         end) r2 h2 None
      = (kf2, Ok (e2, res2, Some g2)) ->
    exists kf' e res g,
      [/\ measurement_update stm_of epoch_of dcm exp add kf nominal (col_mx z1 z2) (col_mx c1 c2)
            (block_mx r1 0 0 r2) (col_mx h1 h2) None = (kf', Ok (e, res, Some g)),
          covar e = covar e2 &
          state_deviation e
            = match variant kf with
              | DeviationTracking => state_deviation e2
              | ReferenceUpdate => state_deviation e1 + state_deviation e2
              end].
Proof.
move=> R T LF n a stm_of epoch_of dcm exp add kf kf1 kf2 nominal nominal' m1 m2 z1 c1 z2 c2 r1 r2.
move=> h1 h2 e1 e2 res1 res2 g1 g2 he hv hr1 hr2 hadd hst hep u1 u2.
exact: (two_updates he hv hr1 hr2 hadd hst hep u1 u2 erefl).
Qed.
Print Assumptions C29_sequential_is_joint.

Theorem C29_any_order :
  forall (R : rcfType) (T LF : Type) n a stm_of epoch_of dcm exp add
         (kf kf1 kf2 kf3 kf4 : kalman_filter R T LF n a) nominal nominal' nominal''
         m1 m2 (z1 c1 : 'cV[R]_m1) (z2 c2 : 'cV[R]_m2) r1 r2 h1 h2
         e1 e2 e3 e4 res1 res2 res3 res4 g1 g2 g3 g4,
    (forall x, 0 <= exp x) -> valid kf -> definite r1 -> definite r2 ->
    (forall t d, epoch_of (add t d) = epoch_of t) ->
    stm_of nominal' = Some 1%:M -> epoch_of nominal' = epoch_of nominal ->
    stm_of nominal'' = Some 1%:M -> epoch_of nominal'' = epoch_of nominal ->
    (* the first observable, then the second *)
    measurement_update stm_of epoch_of dcm exp add kf nominal z1 c1 r1 h1 None
      = (kf1, Ok (e1, res1, Some g1)) ->
    measurement_update stm_of epoch_of dcm exp add kf1 nominal' z2
        (match variant kf with
         | DeviationTracking => c2
         | ReferenceUpdate => c2 + h2 *m state_deviation e1
         end) r2 h2 None
      = (kf2, Ok (e2, res2, Some g2)) ->
    (* the second observable, then the first *)
    measurement_update stm_of epoch_of dcm exp add kf nominal z2 c2 r2 h2 None
      = (kf3, Ok (e3, res3, Some g3)) ->
    measurement_update stm_of epoch_of dcm exp add kf3 nominal'' z1
        (match variant kf with
         | DeviationTracking => c1
         | ReferenceUpdate => c1 + h1 *m state_deviation e3
         end) r1 h1 None
      = (kf4, Ok (e4, res4, Some g4)) ->
    covar e2 = covar e4 /\
    match variant kf with
    | DeviationTracking => state_deviation e2 = state_deviation e4
    | ReferenceUpdate =>
        state_deviation e1 + state_deviation e2 = state_deviation e3 + state_deviation e4
    end.
Proof.
move=> R T LF n a stm_of epoch_of dcm exp add kf kf1 kf2 kf3 kf4 nominal nominal' nominal'' m1 m2.
move=> z1 c1 z2 c2 r1 r2 h1 h2 e1 e2 e3 e4 res1 res2 res3 res4 g1 g2 g3 g4.
move=> he hv hr1 hr2 hadd hst' hep' hst'' hep'' u1 u2 u3 u4.
have [k [e [res [g [hu hP hx]]]]] :=
  C29_sequential_is_joint he hv hr1 hr2 hadd hst' hep' u1 u2.
have [k' [e' [res' [g' [hu' hP' hx']]]]] :=
  C29_sequential_is_joint he hv hr2 hr1 hadd hst'' hep'' u3 u4.
have hD := definite_block hr1 hr2; have hD' := definite_block hr2 hr1.
have [phi [c [hst hc _ hg [hPe _ _ _ hxe]]]] := measurement_accepted he hv (definite_covariance hD) hu.
have [phi' [c' [hstb hcb _ hg' [hPe' _ _ _ hxe']]]] :=
  measurement_accepted he hv (definite_covariance hD') hu'.
move: hstb hcb; rewrite hst hc => -[hp2] [hc23]; subst phi' c'.
have hpc := prior_covariance phi he hv hc.
rewrite -hP -hP' hPe hPe'.
have hj x := joint_swapped x (z1 - c1) (z2 - c2) hpc hr1 hr2 hg hg'.
split; first by case: (hj 0).
move: hx hx' hxe hxe'; case hvar: (variant kf) => <- <- -> ->.
- by have [_] := hj 0; rewrite !mulmx0 !subr0 !opp_col_mx !add_col_mx.
- have [_] := hj (phi *m state_deviation (prev_estimate kf)).
  by rewrite !opp_col_mx !add_col_mx => ->.
Qed.
Print Assumptions C29_any_order.

(** Range and range-rate-like observables, one of position and one of velocity: both orders run. *)
Section C29_example.
Context (R : rcfType).
Definition velocity_x : 'M[R]_(1, 6) := delta_mx 0 3%:R.
Lemma accepted (kf : kalman_filter R (demo_state R) unit 6 3) t (z c : 'cV[R]_1) h :
  valid kf -> process_noises kf = [::] ->
  exists kf' e r g,
    [/\ measurement_update (@demo_stm R) (@demo_epoch R) (@demo_dcm R) (@demo_exp R) (@demo_add R)
          kf t z c 1%:M h None = (kf', Ok (e, r, Some g)), valid kf' & process_noises kf' = [::]].
Proof.
move=> hv hn.
have hd : definite (1%:M : 'M[R]_1) by apply: definite_scalar; exact: ltr01.
have hc : noise_contribution (@demo_epoch R) (@demo_dcm R) (@demo_exp R) (@demo_add R) kf t = Ok None.
  by rewrite /noise_contribution hn.
have ht : exists kf1 e1, time_update (@demo_stm R) (@demo_epoch R) (@demo_dcm R) (@demo_exp R)
            (@demo_add R) kf t = (kf1, Ok e1).
  by rewrite /time_update hc; do 2 eexists; reflexivity.
case: ht => kf1 [e1 ht].
have [kf' [e [r [g [hu _]]]]] := C27_succeeds z c h (@demo_exp_ge0 R) hv hd ht.
have hv' : valid (measurement_update (@demo_stm R) (@demo_epoch R) (@demo_dcm R) (@demo_exp R)
                    (@demo_add R) kf t z c 1%:M h None).1.
  by apply: measurement_update_valid => //; [exact: demo_exp_ge0|exact: definite_covariance].
have [phi [c' [_ hc' hk _ _]]] :=
  measurement_accepted (@demo_exp_ge0 R) hv (definite_covariance hd) hu.
exists kf', e, r, g; split; first exact: hu; first by move: hv'; rewrite hu.
by move: hc'; rewrite hc hk => -[<-] /=; rewrite hn.
Qed.

Example demo_any_order v (z1 z2 : 'cV[R]_1) :
  let kf := steady_filter v (const_mx 1 : 'cV[R]_6) in
  let go kf z c h := measurement_update (@demo_stm R) (@demo_epoch R) (@demo_dcm R) (@demo_exp R)
                       (@demo_add R) kf (1%:M, second) z c 1%:M h None in
  let moved h (e : kf_estimate R (demo_state R) 6) : 'cV[R]_1 :=
    match v with DeviationTracking => 0 | ReferenceUpdate => 0 + h *m state_deviation e end in
  exists kf1 e1 r1 g1 kf2 e2 r2 g2 kf3 e3 r3 g3 kf4 e4 r4 g4,
    [/\ go kf z1 0 (position_x R) = (kf1, Ok (e1, r1, Some g1)),
        go kf1 z2 (moved velocity_x e1) velocity_x = (kf2, Ok (e2, r2, Some g2)),
        go kf z2 0 velocity_x = (kf3, Ok (e3, r3, Some g3)),
        go kf3 z1 (moved (position_x R) e3) (position_x R) = (kf4, Ok (e4, r4, Some g4)) &
        covar e2 = covar e4].
Proof.
move=> kf go moved.
have [kf1 [e1 [r1 [g1 [u1 v1 n1]]]]] := @accepted kf (1%:M, second) z1 0 (position_x R) (steady_valid _ _) erefl.
have [kf2 [e2 [r2 [g2 [u2 _ _]]]]] := @accepted kf1 (1%:M, second) z2 (moved velocity_x e1) velocity_x v1 n1.
have [kf3 [e3 [r3 [g3 [u3 v3 n3]]]]] := @accepted kf (1%:M, second) z2 0 velocity_x (steady_valid _ _) erefl.
have [kf4 [e4 [r4 [g4 [u4 _ _]]]]] := @accepted kf3 (1%:M, second) z1 (moved (position_x R) e3) (position_x R) v3 n3.
do 16 eexists; split; [exact: u1|exact: u2|exact: u3|exact: u4|].
have hd : definite (1%:M : 'M[R]_1) by apply: definite_scalar; exact: ltr01.
by case: (C29_any_order (c1 := 0) (c2 := 0) (nominal := (1%:M, second)) (@demo_exp_ge0 R)
  (steady_valid _ _) hd hd (fun _ _ => erefl) erefl erefl erefl erefl u1 u2 u3 u4).
Qed.
End C29_example.

(** ** C30: the covariance of a time update is the mapped one plus the noise of the last
    applicable process noise, that of an acceleration of the given variance, constant over the
    gap, in each axis. *)
Theorem C30_noise :
  forall (R : rcfType) (T LF : Type) n stm_of epoch_of dcm exp add
         (kf : kalman_filter R T LF n 3) nominal kf' e phi,
    time_update stm_of epoch_of dcm exp add kf nominal = (kf', Ok e) ->
    stm_of nominal = Some phi ->
    let before := prev_estimate kf in
    let gap := Z.sub (epoch_of nominal) (epoch_of (add (nominal_state before) (state_deviation before))) in
    let mapped := phi *m covar before *m phi^T in
    (covar e = mapped /\
     forall s, List.In s (process_noises kf) -> ~ applicable s (epoch_of nominal) gap) \/
    exists index s (v w : 'rV[R]_3),
      [/\ nth_error (process_noises kf) index = Some s,
          applicable s (epoch_of nominal) gap,
          (forall later s', (index < later)%N -> nth_error (process_noises kf) later = Some s' ->
             ~ applicable s' (epoch_of nominal) gap),
          axis_variance exp s (epoch_of nominal) v /\
          match local_frame s with
          | None => w = v
          | Some lf => exists2 d, dcm nominal lf = Some d &
                       forall k, w 0 k = \sum_j rot_mat d k j ^+ 2 * v 0 j
          end &
          forall i j, covar e i j
            = mapped i j + \sum_(k < 3) effect (to_seconds gap) k i * w 0 k * effect (to_seconds gap) k j].
Proof.
move=> R T LF n stm_of epoch_of dcm exp add kf nominal kf' e phi ht hst; cbv zeta.
move: ht; rewrite /time_update hst; case hc: noise_contribution => [c|||] // [_ <-] /=.
have := noises_of_spec hc; case: c hc => [[i q]|] hc /=.
- case=> s [h1 h2 h3 h4]; right; have [v [w [hv hw hq]]] := propagate_three h2.
  by exists i, s, v, w; split; [exact: h1|exact: h3|exact: h4|split|move=> j k; rewrite mxE hq].
- by move=> h; left.
Qed.
Print Assumptions C30_noise.
Example demo_noise_applies (R : rcfType) v :
  exists kf' e,
    time_update (@demo_stm R) (@demo_epoch R) (@demo_dcm R) (@demo_exp R) (@demo_add R)
      (demo_filter R v) (1%:M, second) = (kf', Ok e) /\
    applicable (demo_noise R) second second.
Proof.
have [q hq] := demo_contribution R v.
by rewrite /time_update hq; do 2 eexists; split; first reflexivity.
Qed.

(** A filter built with one decaying noise: the first time update adds, if the gap is no longer than the
    disabling time, the noise of the given variances decayed over the gap, nothing otherwise. *)
Theorem C30_built :
  forall (R : rcfType) (T LF : Type) n stm_of epoch_of dcm exp add
         (e0 : kf_estimate R T n) var values dis rates (s : process_noise R LF 3) nominal kf' e phi,
    with_decay values dis rates None = Ok s ->
    time_update stm_of epoch_of dcm exp add (with_process_noise epoch_of add (new e0 var) s) nominal = (kf', Ok e) ->
    stm_of nominal = Some phi ->
    let gap := Z.sub (epoch_of nominal) (epoch_of (add (nominal_state e0) (state_deviation e0))) in
    let mapped := phi *m covar e0 *m phi^T in
    [/\ size values = 3%N, size rates = 3%N,
        Z.lt dis gap -> covar e = mapped &
        Z.le gap dis -> forall i j, covar e i j = mapped i j +
          \sum_(k < 3) effect (to_seconds gap) k i *
            (nth 0 values k * exp (- (nth 0 rates k * to_seconds gap))) * effect (to_seconds gap) k j].
Proof.
move=> R T LF n stm_of epoch_of dcm exp add e0 var values dis rates s nominal kf' e phi hs ht hst gap mapped.
move: hs; rewrite /with_decay /from_diagonal -/(size rates) -/(size values).
case: eqP => // hr; case: eqP => // hv /= [hs]; subst s.
have := C30_noise ht hst; cbv zeta; rewrite /= -/gap -/mapped.
set s0 := init_noise _ _ => H.
have hap : applicable s0 (epoch_of nominal) gap <-> Z.le gap dis.
  by rewrite /applicable /=; split; [case=> _ []|].
split=> //.
- move=> hgt; case: H => [[]//|[i [s' [v [w [hi ha _ _ _]]]]]].
  have e' : s' = s0 by case: i hi => [[]|[|i]].
  by move: ha; rewrite e' hap => ha; move: hgt; lia.
- move=> hle; case: H => [[_ /(_ s0 (or_introl erefl))]|[i [s' [v [w [hi _ _ [hax hw] hc]]]]]]; first by rewrite hap.
  have e' : s' = s0 by case: i hi => [[]|[|i]].
  rewrite e' /= in hw; rewrite e' /axis_variance /= in hax; subst w.
  move=> i0 j0; rewrite hc; congr (_ + _); apply: eq_bigr => k _; rewrite hax mxE /est_epoch /=.
  by [].
Qed.
Print Assumptions C30_built.
(** The same with a noise that starts at an epoch: nothing before it. *)
Theorem C30_start :
  forall (R : rcfType) (T LF : Type) n stm_of epoch_of dcm exp add
         (e0 : kf_estimate R T n) var values dis start (s : process_noise R LF 3) nominal kf' e phi,
    with_start_time dis values start = Ok s ->
    time_update stm_of epoch_of dcm exp add (and_with_process_noise epoch_of add (new e0 var) s) nominal = (kf', Ok e) ->
    stm_of nominal = Some phi ->
    let gap := Z.sub (epoch_of nominal) (epoch_of (add (nominal_state e0) (state_deviation e0))) in
    let mapped := phi *m covar e0 *m phi^T in
    [/\ size values = 3%N,
        Z.lt dis gap \/ Z.lt (epoch_of nominal) start -> covar e = mapped &
        Z.le gap dis -> Z.le start (epoch_of nominal) -> forall i j, covar e i j = mapped i j +
          \sum_(k < 3) effect (to_seconds gap) k i * nth 0 values k * effect (to_seconds gap) k j].
Proof.
move=> R T LF n stm_of epoch_of dcm exp add e0 var values dis start s nominal kf' e phi hs ht hst gap mapped.
move: hs; rewrite /with_start_time /from_diagonal -/(size values).
case: eqP => // hv /= [hs]; subst s.
have := C30_noise ht hst; cbv zeta; rewrite /= -/gap -/mapped.
set s0 := init_noise _ _ => H.
have hap : applicable s0 (epoch_of nominal) gap <-> Z.le gap dis /\ Z.le start (epoch_of nominal).
  rewrite /applicable /=; split; first by case=> h [_ h']; split => //; exact: h.
  by case=> h1 h2; split; first by move=> t [<-].
split=> //.
- move=> hgt; case: H => [[]//|[i [s' [v [w [hi ha _ _ _]]]]]].
  have e' : s' = s0 by case: i hi => [[]|[|i]].
  by move: ha; rewrite e' hap => ha; move: hgt; lia.
- move=> hle hst'; case: H => [[_ /(_ s0 (or_introl erefl))]|[i [s' [v [w [hi _ _ [hax hw] hc]]]]]]; first by rewrite hap => /(_ (conj hle hst')).
  have e' : s' = s0 by case: i hi => [[]|[|i]].
  rewrite e' /= in hw; rewrite e' /axis_variance /= in hax; subst w.
  by move=> i0 j0; rewrite hc; congr (_ + _); apply: eq_bigr => k _; rewrite hax mxE.
Qed.
Print Assumptions C30_start.
(** The noise is a covariance: it never takes any variance away. *)
Theorem C30_grows :
  forall (R : rcfType) (T LF : Type) n a stm_of epoch_of dcm exp add
         (kf : kalman_filter R T LF n a) nominal kf' e phi,
    (forall x, 0 <= exp x) -> (forall s, List.In s (process_noises kf) -> nonnegative_noise s) ->
    time_update stm_of epoch_of dcm exp add kf nominal = (kf', Ok e) ->
    stm_of nominal = Some phi ->
    below (phi *m covar (prev_estimate kf) *m phi^T) (covar e).
Proof.
move=> R T LF n a stm_of epoch_of dcm exp add kf nominal kf' e phi he hs ht hst.
move: ht; rewrite /time_update hst; case hc: noise_contribution => [c|||] // [_ <-] /= x.
have := noises_of_spec hc; case: c hc => [[i q]|] hc /=; last by [].
case=> s [h1 h2 _ _]; rewrite quadD ler_addl.
by case: (propagate_covariance he (hs _ (nth_error_In _ _ h1)) h2).
Qed.
Print Assumptions C30_grows.

(** Two blocks of three accelerations on a spacecraft of nine components: out of bounds. *)
Definition wide_noise (R : rcfType) : process_noise R unit 6 :=
  {| start_time := None; local_frame := None; disable_time := minute; init_epoch := None;
     diag := const_mx 1; decay_diag := None; prev_epoch := None |}.
Definition wide_filter (R : rcfType) : kalman_filter R ('M[R]_9 * Z) unit 9 6 :=
  {| prev_estimate :=
       {| nominal_state := (1%:M, Z0); state_deviation := 0; covar := 1%:M; covar_bar := 1%:M;
          predicted := true; stm := 1%:M |};
     process_noises := [:: wide_noise R]; variant := ReferenceUpdate; prev_used_snc := 0 |}.
Theorem C30_six_refuted :
  forall R : rcfType,
    valid (wide_filter R) /\
    (time_update (fun t => Some t.1) snd (fun _ _ => None) (fun _ => 1) (fun t _ => t)
       (wide_filter R) (1%:M, second)).2 = Panic.
Proof.
move=> R; split.
- split; first by apply: definite_covariance; apply: definite_scalar; exact: ltr01.
  by move=> s [<-|[]] i; rewrite mxE ler01.
- rewrite /time_update.
  have -> : noise_contribution snd (fun _ _ => None) (fun _ => 1) (fun t _ => t)
      (wide_filter R) (1%:M : 'M[R]_9, second) = Panic; last by [].
  rewrite -[LHS]/(noises_of snd (fun _ _ => None) (fun _ => 1) (rcons [::] (wide_noise R))
                    (1%:M : 'M[R]_9, second) second).
  by rewrite noises_of_rcons propagate_six.
Qed.
Print Assumptions C30_six_refuted.

(** A noise along the axes of a rotated frame should be correlated in the inertial one; the
    correlations are dropped. *)
Definition rotated_noise (R : rcfType) : process_noise R unit 3 :=
  {| start_time := None; local_frame := Some tt; disable_time := minute; init_epoch := None;
     diag := delta_mx 0 0; decay_diag := None; prev_epoch := None |}.
Definition three_four_five (R : rcfType) : 'M[R]_3 :=
  \matrix_(i, j) (if (i == 2) || (j == 2) then (i == j)%:R
                  else if i == j then 3%:R / 5%:R
                  else if (i < j)%N then - (4%:R / 5%:R) else 4%:R / 5%:R).
Lemma to_seconds_second (R : rcfType) : to_seconds second != 0 :> R.
Proof.
have -> : second = Zpos (10 ^ 9)%positive by [].
move: (10 ^ 9)%positive => p; rewrite /to_seconds mulf_eq0 invr_eq0 expf_eq0 !pnatr_eq0 andbF orbF.
by rewrite -lt0n; apply/ssrnat.ltP; apply: Pos2Nat.is_pos.
Qed.
Lemma three_four_five_rotation (R : rcfType) :
  three_four_five R *m (three_four_five R)^T = 1%:M.
Proof.
have h5 : 5%:R != 0 :> R by rewrite pnatr_eq0.
have h1 : 3%:R / 5%:R * (3%:R / 5%:R) + 4%:R / 5%:R * (4%:R / 5%:R) = 1 :> R.
  by rewrite !mulf_div -mulrDl -!natrM -natrD divff // pnatr_eq0.
apply/matrixP=> i j; rewrite !mxE !big_ord_recl big_ord0 !mxE /=.
case: i => [[|[|[|i]]] hi] //; case: j => [[|[|[|j]]] hj] //=.
all: rewrite ?eqE /= ?mulr0 ?mul0r ?addr0 ?add0r ?mulrNN ?mulrN ?mulNr ?mulr1 //.
- by rewrite (mulrC (4%:R / 5%:R)) subrr.
- by rewrite (mulrC (4%:R / 5%:R)) subrr.
- by rewrite addrC.
Qed.
Theorem C30_correlations_refuted :
  forall R : rcfType, exists (d : DCM R) (q : 'M[R]_6),
    [/\ rot_mat d *m (rot_mat d)^T = 1%:M,
        propagate (@demo_epoch R) (fun _ _ => Some d) (@demo_exp R) (rotated_noise R)
          (1%:M, second) second = Ok (Some q) &
        q <> (let gamma := \matrix_(i, k) effect (to_seconds second) k i in
              gamma *m (rot_mat d *m diag_mx (diag (rotated_noise R)) *m (rot_mat d)^T)
                *m gamma^T)].
Proof.
move=> R; pose d := {| rot_mat := three_four_five R; rot_mat_dt := None |}.
have [q hq] : exists q : 'M[R]_6, propagate (@demo_epoch R) (fun _ _ => Some d) (@demo_exp R)
    (rotated_noise R) (1%:M, second) second = Ok (Some q) by eexists; reflexivity.
exists d, q; split=> //; first exact: three_four_five_rotation.
have [v [w [_ _ h]]] := propagate_three hq; cbv zeta.
move=> /matrixP /(_ (Ordinal (isT : (3 < 6)%N)) (Ordinal (isT : (4 < 6)%N))); rewrite h.
move: (to_seconds second) (to_seconds_second R) => dt hdt {h hq}.
set m := _ *m _ *m (rot_mat d)^T; rewrite mxE !big_ord_recl !big_ord0 !mxE /effect /=.
rewrite !big_ord_recl !big_ord0 !mxE /=.
rewrite ?mulr0 ?mul0r ?addr0 ?add0r; apply/eqP; rewrite eq_sym mulf_neq0 // mulf_neq0 //.
rewrite mul_mx_diag !big_ord_recl !big_ord0 !mxE /= ?eqxx /=.
rewrite !mulr1 !mulr0 !mul0r !addr0 mulf_neq0 // mulf_neq0 ?invr_neq0 ?pnatr_eq0 //.
Qed.
Print Assumptions C30_correlations_refuted.

(** ** C58: the residuals are those of the filter's own prediction.  They are in the variant that
    updates the reference: the postfit is the observation minus what the a posteriori estimate
    predicts, and the ratio that of [C28_rejection], where the prefit is the innovation. *)
Theorem C58_reference_partial :
  forall (R : rcfType) (T LF : Type) n a stm_of epoch_of dcm exp add
         (kf : kalman_filter R T LF n a) m nominal (real computed : 'cV[R]_m) r_k h rejection
         kf' e r g,
    (forall x, 0 <= exp x) -> valid kf -> covariance r_k -> variant kf = ReferenceUpdate ->
    measurement_update stm_of epoch_of dcm exp add kf nominal real computed r_k h rejection
      = (kf', Ok (e, r, Some g)) ->
    state_deviation e = g *m (real - computed) /\
    postfit r = Some (real - (computed + h *m state_deviation e)).
Proof.
move=> R T LF n a stm_of epoch_of dcm exp add kf m nominal real computed r_k h rejection kf' e r g.
move=> he hv hr hvar hu.
have [phi [c [_ _ _ _ [_ _ _ [_ hpost]]]]] := measurement_accepted he hv hr hu.
by rewrite hpost hvar => ->; rewrite opprD addrA.
Qed.
Print Assumptions C58_reference_partial.
Example demo_reference (R : rcfType) (z : 'cV[R]_1) :
  exists kf' e r g,
    measurement_update (@demo_stm R) (@demo_epoch R) (@demo_dcm R) (@demo_exp R) (@demo_add R)
      (steady_filter ReferenceUpdate 0) (1%:M, second) z 0 1%:M (position_x R) None
      = (kf', Ok (e, r, Some g)).
Proof.
have [kf' [e [r [g [h _ _]]]]] := @accepted R (steady_filter ReferenceUpdate 0) (1%:M, second) z 0
  (position_x R) (steady_valid _ _) erefl.
by exists kf', e, r, g.
Qed.

(** Not in the variant that tracks a deviation.  There the ratio compares the observation with the
    reference and not with the reference plus the deviation: an observation that is exactly as
    predicted is rejected at three sigmas. *)
Definition off_by (R : rcfType) (x : R) : 'cV[R]_6 := x *: delta_mx 0 0.
Theorem C58_ratio_refuted :
  forall R : rcfType, exists kf' e r,
    let kf := steady_filter DeviationTracking (off_by 1000%:R) in
    let observed := const_mx 1000%:R : 'cV[R]_1 in
    [/\ measurement_update (@demo_stm R) (@demo_epoch R) (@demo_dcm R) (@demo_exp R) (@demo_add R)
          kf (1%:M, second) observed 0 1%:M (position_x R) (Some 3%:R) = (kf', Ok (e, r, None)),
        rejected r &
        observed = 0 + position_x R *m (1%:M *m state_deviation (prev_estimate kf))].
Proof.
move=> R.
have hd : definite (1%:M : 'M[R]_1) by apply: definite_scalar; exact: ltr01.
have [kf1 [e1 [ht hc _]]] := steady_time DeviationTracking (off_by (1000%:R : R)).
have [kf' [e [r [g [hu hrt hrej hif]]]]] :=
  C28_rejection (const_mx 1000%:R) 0 (position_x R) (Some 3%:R) (@demo_exp_ge0 R)
    (steady_valid _ _) hd ht.
have hr : rejected r.
  rewrite hrej hrt hc steady_ratio !mxE subr0 ger0_norm ?ler0n //.
  rewrite ltr_pdivl_mulr ?sqrtr_gt0 ?ltr0n //.
  apply: (@le_lt_trans _ _ (3%:R * 2%:R)); last by rewrite -natrM ltr_nat.
  rewrite ler_pmul2l ?ltr0n // -{2}[2%:R](@ger0_norm R) ?ler0n // -sqrtr_sqr.
  by rewrite ler_wsqrtr // -natrX ler_nat.
rewrite hr in hif; case: hif => h1 h2 h3 _.
exists kf', e, r; split=> //; first by rewrite hu h3.
rewrite add0r mul1mx /= /off_by -scalemxAr /position_x mul_delta_mx.
by apply/matrixP=> i j; rewrite !ord1 !mxE !eqxx mulr1.
Qed.
Print Assumptions C58_ratio_refuted.

(** And the postfit does not use the gain at all: it is the observation minus the a priori
    prediction. *)
Theorem C58_postfit_refuted :
  forall R : rcfType, exists kf' e r g,
    let kf := steady_filter DeviationTracking 0 in
    let observed := const_mx 1 : 'cV[R]_1 in
    measurement_update (@demo_stm R) (@demo_epoch R) (@demo_dcm R) (@demo_exp R) (@demo_add R)
      kf (1%:M, second) observed 0 1%:M (position_x R) None = (kf', Ok (e, r, Some g)) /\
    postfit r <> Some (observed - (0 + position_x R *m state_deviation e)).
Proof.
move=> R; have hv := steady_valid DeviationTracking (0 : 'cV[R]_6).
have [kf' [e [r [g [hu _ _]]]]] := @accepted R (steady_filter DeviationTracking 0) (1%:M, second)
  (const_mx 1) 0 (position_x R) hv erefl.
exists kf', e, r, g; split=> //.
have hd : definite (1%:M : 'M[R]_1) by apply: definite_scalar; exact: ltr01.
have [phi [c [hst hc _ hg [_ _ _ [_ ->] hx]]]] :=
  measurement_accepted (@demo_exp_ge0 R) hv (definite_covariance hd) hu.
move: hst hc hg hx => [<-] [<-]; rewrite /innovation /prior /= !mul1mx !trmx1 !mul1mx.
rewrite mulmx0 !subr0 add0r position_x_square => hg -> [].
rewrite -{1}[const_mx 1]subr0 => /addrI/oppr_inj/esym.
have -> : const_mx 1 = 1%:M :> 'M[R]_1 by apply/matrixP=> i j; rewrite !ord1 !mxE eqxx.
rewrite mulmx1 ?add0r => h; move/(f_equal (mulmx (position_x R))): hg.
rewrite mulmxA h mul0mx position_x_square => /matrixP /(_ 0 0); rewrite !mxE eqxx => /esym/eqP.
by rewrite oner_eq0.
Qed.
Print Assumptions C58_postfit_refuted.
