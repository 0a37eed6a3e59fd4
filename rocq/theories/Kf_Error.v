(** C78: the error of the filter, and the deviation that it predicts. *)
From Verif Require Import Base.
From mathcomp Require Import all_ssreflect all_algebra.
From Verif Require Import Kf_Model Kf_Spec Kf_Linalg Kf_Gain Kf_Proofs Kf_Props.
Import Order.TTheory GRing.Theory Num.Theory.
Set Implicit Arguments.
Unset Strict Implicit.
Unset Printing Implicit Defensive.
Local Open Scope ring_scope.

Section Truth.
Context {R : rcfType} {T LF : Type} {n a : nat}.
Context (stm_of : T -> option 'M[R]_n) (epoch_of : T -> Z)
        (dcm : T -> LF -> option (DCM R)) (exp : R -> R) (add : T -> 'cV[R]_n -> T).

(** A true deviation from the nominal trajectory that follows the state transition matrices of the
    updates, and that the measurements observe without error. *)
Inductive follows : 'cV[R]_n -> seq (update R T n) -> 'cV[R]_n -> Prop :=
| follows_nil x : follows x [::] x
| follows_time x t phi us x' :
    stm_of t = Some phi -> follows (phi *m x) us x' -> follows x (Time t :: us) x'
| follows_measurement x m t (z c : 'cV[R]_m) r h rej phi us x' :
    stm_of t = Some phi -> z - c = h *m (phi *m x) -> covariance r -> follows (phi *m x) us x' ->
    follows x (Measurement t z c r h rej :: us) x'.

(** Every update of the sequence returns an estimate. *)
Fixpoint succeeds (kf : kalman_filter R T LF n a) (us : seq (update R T n)) : Prop :=
  match us with
  | [::] => True
  | u :: us' =>
      match u with
      | Time t => is_ok (time_update stm_of epoch_of dcm exp add kf t).2
      | Measurement _ t z c r h rej =>
          is_ok (measurement_update stm_of epoch_of dcm exp add kf t z c r h rej).2
      end /\ succeeds (apply stm_of epoch_of dcm exp add kf u) us'
  end.
End Truth.

(** ** A prediction maps the deviation that the filter tracks by the state transition matrix; the
    variant that updates the reference has none. *)
Theorem C78_prediction :
  forall (R : rcfType) (T LF : Type) n a stm_of epoch_of dcm exp add
         (kf : kalman_filter R T LF n a) nominal kf' e,
    time_update stm_of epoch_of dcm exp add kf nominal = (kf', Ok e) ->
    exists phi, stm_of nominal = Some phi /\ prev_estimate kf' = e /\ variant kf' = variant kf /\
      nominal_state e = nominal /\
      (variant kf = DeviationTracking ->
         forall x, phi *m x - state_deviation e = phi *m (x - state_deviation (prev_estimate kf))) /\
      (variant kf = ReferenceUpdate -> state_deviation e = 0).
Proof.
move=> R T LF n a stm_of epoch_of dcm exp add kf nominal kf' e; rewrite /time_update.
case hst: (stm_of nominal) => [phi|] //; case hc: noise_contribution => [c|||] // [<- <-].
exists phi; split=> //; split=> //; split; first by case: c hc => [[]|].
split=> //; split; first by move=> -> x /=; rewrite mulmxBr.
by move=> ->.
Qed.
Print Assumptions C78_prediction.

(** ** An accepted measurement of a deviation [x], with the error [v], leaves the error
    [(1 - K H) phi (x - estimate) - K v]; the covariance is that of this error. *)
Theorem C78_error :
  forall (R : rcfType) (T LF : Type) n a stm_of epoch_of dcm exp add
         (kf : kalman_filter R T LF n a) m nominal (real computed : 'cV[R]_m) r_k h rejection
         kf' e r g,
    (forall x, 0 <= exp x) -> valid kf -> covariance r_k ->
    measurement_update stm_of epoch_of dcm exp add kf nominal real computed r_k h rejection
      = (kf', Ok (e, r, Some g)) ->
    exists phi, stm_of nominal = Some phi /\
      covar e = (1%:M - g *m h) *m covar_bar e *m (1%:M - g *m h)^T + g *m r_k *m g^T /\
      forall x v, real - computed = h *m (phi *m x) + v ->
        phi *m x - state_deviation e
        = (1%:M - g *m h) *m
            match variant kf with
            | DeviationTracking => phi *m (x - state_deviation (prev_estimate kf))
            | ReferenceUpdate => phi *m x
            end
          - g *m v.
Proof.
move=> R T LF n a stm_of epoch_of dcm exp add kf m nominal real computed r_k h rejection kf' e r g.
move=> he hv hr hu.
have [phi [c [hst _ _ _ [hcov hbar _ _ hx]]]] := measurement_accepted he hv hr hu.
exists phi; split=> //; split; first by rewrite hcov hbar.
move=> x v hz; rewrite hx hz; case: (variant kf).
- by rewrite mulmxBl mul1mx mulmxDr opprD addrA mulmxA.
- set y := phi *m state_deviation _; rewrite [phi *m (_ - _)]mulmxBr -/y; set px := phi *m x.
  have -> : h *m px + v - h *m y = h *m (px - y) + v by rewrite mulmxBr addrAC.
  by rewrite mulmxBl mul1mx mulmxDr mulmxA !opprD !addrA.
Qed.
Print Assumptions C78_error.

(** A rejected measurement is a time update. *)
Lemma measurement_rejected_filter (R : rcfType) (T LF : Type) n a stm_of epoch_of dcm exp add
    (kf : kalman_filter R T LF n a) m nominal (real computed : 'cV[R]_m) r_k h rej kf' e r :
  measurement_update stm_of epoch_of dcm exp add kf nominal real computed r_k h rej
    = (kf', Ok (e, r, None)) ->
  time_update stm_of epoch_of dcm exp add kf nominal = (kf', Ok e).
Proof.
rewrite /measurement_update; case hst: (stm_of nominal) => [phi|] //.
case hc: noise_contribution => [c|||] //.
set l := match cholesky _ with Some _ => _ | None => _ end; case: l => [l|] //.
case: ifP => _.
  rewrite time_update_use // ?hst //.
  by case ht: time_update => [kf'' [e'|||]] //= -[<- <- _].
set g := match cholesky _ with Some _ => _ | None => _ end; case: g => [g|] //.
by set sp := match variant kf with ReferenceUpdate => _ | DeviationTracking => _ end; case: sp.
Qed.

(** ** Exact knowledge stays exact: with the right initial deviation and measurements without error,
    a filter that tracks a deviation holds the true one after any sequence of updates, accepted
    or rejected. *)
Theorem C78_exact :
  forall (R : rcfType) (T LF : Type) n a stm_of epoch_of dcm exp add
         (kf : kalman_filter R T LF n a) (us : seq (update R T n)) x x',
    (forall x, 0 <= exp x) -> valid kf -> variant kf = DeviationTracking ->
    succeeds stm_of epoch_of dcm exp add kf us ->
    follows stm_of x us x' -> state_deviation (prev_estimate kf) = x ->
    state_deviation (prev_estimate (run stm_of epoch_of dcm exp add kf us)) = x'.
Proof.
move=> R T LF n a stm_of epoch_of dcm exp add kf us x x' he hv hvar hs hf; move: kf hv hvar hs.
elim: hf => {x us x'} [x|x t phi us x' hst _ IH|x m t z c r h rej phi us x' hst hz hr _ IH] kf hv hvar hs hx //.
- move: hs => /= [[e hok] hs]; apply: IH hs _.
  + exact: time_update_valid.
  + case ht: (time_update _ _ _ _ _ _ _) hok => [kf' o] /= ho; subst o.
    by have [_ [_ [_ [-> _]]]] := C78_prediction ht.
  + case ht: (time_update _ _ _ _ _ _ _) hok => [kf' o] /= ho; subst o.
    have [phi' [hst' [-> [_ [_ [hd _]]]]]] := C78_prediction ht.
    move: hst'; rewrite hst => -[?]; subst phi'.
    by have := hd hvar x; rewrite hx subrr mulmx0 => /eqP; rewrite subr_eq0 => /eqP <-.
- move: hs => /= [[[[e res] g] hok] hs].
  have hkf : valid (measurement_update stm_of epoch_of dcm exp add kf t z c r h rej).1
    by exact: measurement_update_valid.
  case hm: (measurement_update _ _ _ _ _ _ _ _ _ _ _ _) hok hs hkf => [kf' o] /= ho hs hkf; subst o.
  suff [hv1 hx1] : variant kf' = variant kf /\ state_deviation (prev_estimate kf') = phi *m x
    by apply: IH hs _ => //; rewrite hv1.
  case: g hm => [g|] hm.
  + have [phi' [c' [hst' hc' -> _ [_ _ _ _ hd]]]] := measurement_accepted he hv hr hm.
    move: hst'; rewrite hst => -[?]; subst phi'; split; first by case: c' hc' => [[]|].
    by rewrite /= hd hvar hx hz subrr mulmx0 addr0.
  + have ht := measurement_rejected_filter hm.
    have [phi' [hst' [-> [-> [_ [hd _]]]]]] := C78_prediction ht; split=> //.
    move: hst'; rewrite hst => -[?]; subst phi'.
    by have := hd hvar x; rewrite hx subrr mulmx0 => /eqP; rewrite subr_eq0 => /eqP <-.
Qed.
Print Assumptions C78_exact.

(** Two exact measurements of a deviation that a filter already knows. *)
Example demo_exact (R : rcfType) (x : 'cV[R]_6) :
  let us := [:: Time (1%:M, second);
                Measurement (1%:M, Z.add second second) (position_x R *m x) 0 1%:M (position_x R) None] in
  exists kf : kalman_filter R (demo_state R) unit 6 3,
    [/\ valid kf, variant kf = DeviationTracking,
        succeeds (@demo_stm R) (@demo_epoch R) (@demo_dcm R) (@demo_exp R) (@demo_add R) kf us,
        follows (@demo_stm R) x us x &
        state_deviation (prev_estimate
          (run (@demo_stm R) (@demo_epoch R) (@demo_dcm R) (@demo_exp R) (@demo_add R) kf us)) = x].
Proof.
move=> us; exists (steady_filter DeviationTracking x).
have hv := steady_valid DeviationTracking x.
have hd : covariance (1%:M : 'M[R]_1).
  by apply: definite_covariance; apply: definite_scalar; exact: ltr01.
have hs : succeeds (@demo_stm R) (@demo_epoch R) (@demo_dcm R) (@demo_exp R) (@demo_add R)
    (steady_filter DeviationTracking x) us.
  split; first by eexists; reflexivity.
  split=> //.
  set kf := apply _ _ _ _ _ _ _.
  have hkf : valid kf by apply: time_update_valid => //; exact: demo_exp_ge0.
  have [kf' [e [r [g [-> _ _]]]]] := @accepted R kf (1%:M, Z.add second second) (position_x R *m x) 0
    (position_x R) hkf erefl.
  by eexists.
have hf : follows (@demo_stm R) x us x.
  apply: (@follows_time _ _ _ _ _ _ 1%:M) => //; rewrite mul1mx.
  apply: (@follows_measurement _ _ _ _ _ _ _ _ _ _ _ _ 1%:M) => //; first by rewrite mul1mx subr0.
  by rewrite mul1mx; constructor.
split=> //; exact: (C78_exact (@demo_exp_ge0 R) hv erefl hs hf erefl).
Qed.

(** ** A measurement that does not depend on the state teaches nothing. *)
Theorem C78_blind :
  forall (R : rcfType) (T LF : Type) n a stm_of epoch_of dcm exp add
         (kf : kalman_filter R T LF n a) m nominal (real computed : 'cV[R]_m) r_k rejection kf' e r g,
    (forall x, 0 <= exp x) -> valid kf -> definite r_k ->
    measurement_update stm_of epoch_of dcm exp add kf nominal real computed r_k 0 rejection
      = (kf', Ok (e, r, Some g)) ->
    exists kf'' e', time_update stm_of epoch_of dcm exp add kf nominal = (kf'', Ok e') /\
      g = 0 /\ covar e = covar e' /\ state_deviation e = state_deviation e'.
Proof.
move=> R T LF n a stm_of epoch_of dcm exp add kf m nominal real computed r_k rejection kf' e r g.
move=> he hv hr hu.
have [phi [c [hst hc _ hg [hcov hbar _ _ hx]]]] := measurement_accepted he hv (definite_covariance hr) hu.
have g0 : g = 0.
  have hru := definite_unit hr.
  by rewrite -[g](mulmxK hru) -[r_k in g *m r_k]add0r -[X in X + r_k](mul0mx _ (prior c phi kf *m 0^T))
    -/(innovation _ 0 r_k) hg trmx0 mulmx0 mul0mx.
have ht : exists kf'' e', time_update stm_of epoch_of dcm exp add kf nominal = (kf'', Ok e') /\
    covar e' = prior c phi kf /\ state_deviation e' = match variant kf with
                        | DeviationTracking => phi *m state_deviation (prev_estimate kf)
                        | ReferenceUpdate => 0
                        end.
  by rewrite /time_update hst hc; do 2 eexists; split; first reflexivity.
have [kf'' [e' [h1 [h2 h3]]]] := ht; exists kf'', e'; split=> //; split=> //.
split; first by rewrite hcov h2 /joseph g0 !mul0mx subr0 trmx1 mulmx1 mul1mx addr0.
by rewrite hx h3 g0 !mul0mx; case: (variant kf) => //; rewrite addr0.
Qed.
Print Assumptions C78_blind.
Example demo_blind (R : rcfType) : exists kf' e r g,
  measurement_update (@demo_stm R) (@demo_epoch R) (@demo_dcm R) (@demo_exp R) (@demo_add R)
    (steady_filter DeviationTracking (off_by 1000%:R)) (1%:M, second) (const_mx 1) (0 : 'cV[R]_1) 1%:M 0 None
    = (kf', Ok (e, r, Some g)).
Proof.
have [kf' [e [r [g [h _ _]]]]] := @accepted R (steady_filter DeviationTracking (off_by 1000%:R))
  (1%:M, second) (const_mx 1) 0 0 (steady_valid _ _) erefl.
by exists kf', e, r, g.
Qed.
