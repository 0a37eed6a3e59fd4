(** C98: process noise from velocity errors. *)
From Verif Require Import Base.
From mathcomp Require Import all_ssreflect all_algebra.
From Verif Require Import Kf_Model Kf_Spec Kf_Linalg Kf_Gain Kf_Proofs Kf_Props Snc_Model.
Import Order.TTheory GRing.Theory Num.Theory.
Set Implicit Arguments.
Unset Strict Implicit.
Unset Printing Implicit Defensive.
Local Open Scope ring_scope.

(** What is added over a gap to the variance of the velocity along each axis: the square of the gap
    times the error divided by the duration. *)
Theorem C98_added :
  forall (R : rcfType) (T LF : Type) n stm_of epoch_of dcm exp add
         (e0 : kf_estimate R T n) var (v : 'rV[R]_3) span dis nominal kf' e phi,
    time_update stm_of epoch_of dcm exp add
      (with_process_noise epoch_of add (new e0 var) (from_velocity_km_s (LF := LF) v span dis None)) nominal = (kf', Ok e) ->
    stm_of nominal = Some phi ->
    let gap := Z.sub (epoch_of nominal) (epoch_of (add (nominal_state e0) (state_deviation e0))) in
    let mapped := phi *m covar e0 *m phi^T in
    (Z.lt dis gap -> covar e = mapped) /\
    (Z.le gap dis -> forall (k : 'I_3) (i : 'I_n), (i = k + 3 :> nat)%N ->
       covar e i i = mapped i i + v 0 k / to_seconds span * to_seconds gap ^+ 2).
Proof.
move=> R T LF n stm_of epoch_of dcm exp add e0 var v span dis nominal kf' e phi ht hst gap mapped.
have := C30_noise ht hst; cbv zeta; rewrite /= -/gap -/mapped.
set s0 := init_noise _ _ => H.
have hap : applicable s0 (epoch_of nominal) gap <-> Z.le gap dis.
  by rewrite /applicable /=; split; [case=> _ []|].
split.
- move=> hgt; case: H => [[]//|[i [s' [w1 [w [hi ha _ _ _]]]]]].
  have e' : s' = s0 by case: i hi => [[]|[|i]].
  by move: ha; rewrite e' hap => ha; move: hgt; lia.
- move=> hle; case: H => [[_ /(_ s0 (or_introl erefl))]|[i [s' [w1 [w [hi _ _ [hax hw] hc]]]]]]; first by rewrite hap.
  have e' : s' = s0 by case: i hi => [[]|[|i]].
  rewrite e' /= in hw; rewrite e' /axis_variance /= in hax; subst w.
  move=> k i0 hi0; rewrite hc; congr (_ + _).
  rewrite (bigD1 k) //= big1 ?addr0; last first.
    move=> j jk; rewrite /effect hi0.
    have -> : (k + 3 == j)%N = false by case: j jk => j hj _ /=; apply/eqP => E; move: hj; rewrite -E; case: k {hi0 E hc} => k hk /=; rewrite addn3.
    have -> : (k + 3 == j + 3)%N = false by rewrite eqn_add2r; apply/eqP => E; case/eqP: jk; apply: val_inj.
    by rewrite mul0r mul0r.
  rewrite /effect hi0 eqxx.
  have -> : (k + 3 == k)%N = false by rewrite -{2}[(k : nat)]addn0 eqn_add2l.
  by rewrite hax mxE (mulrC (to_seconds gap)) expr2 mulrA.
Qed.

(** The variance of the velocity reached over the duration of the errors is not the square of the error,
    unless the error equals the number of seconds. *)
Theorem C98_square :
  forall (R : rcfType) (T LF : Type) n stm_of epoch_of dcm exp add
         (e0 : kf_estimate R T n) var (v : 'rV[R]_3) span dis nominal kf' e phi,
    time_update stm_of epoch_of dcm exp add
      (with_process_noise epoch_of add (new e0 var) (from_velocity_km_s (LF := LF) v span dis None)) nominal = (kf', Ok e) ->
    stm_of nominal = Some phi ->
    Z.sub (epoch_of nominal) (epoch_of (add (nominal_state e0) (state_deviation e0))) = span -> Z.le span dis ->
    0 < (to_seconds span : R) ->
    forall (k : 'I_3) (i : 'I_n), (i = k + 3 :> nat)%N -> 0 < v 0 k ->
    let added := covar e i i - (phi *m covar e0 *m phi^T) i i in
    added = v 0 k * to_seconds span /\ (added = v 0 k ^+ 2 <-> v 0 k = to_seconds span).
Proof.
move=> R T LF n stm_of epoch_of dcm exp add e0 var v span dis nominal kf' e phi ht hst hgap hle hs k i hi hv added.
have [_ H] := C98_added ht hst; cbv zeta in H; rewrite hgap in H.
have E : added = v 0 k * to_seconds span.
  rewrite /added (H hle k i hi) addrAC subrr add0r expr2 mulrA -(mulrA (v 0 k)) mulVf ?mulr1 //.
  by rewrite lt0r_neq0.
split; first exact: E. rewrite E expr2; split => [h|->//].
have v0 : v 0 k != 0 by rewrite lt0r_neq0.
exact: esym (mulfI v0 h).
Qed.

Section Refuted.
Context (R : rcfType).
Definition three : 'rV[R]_3 := const_mx 2%:R.
Definition velocity_filter (v : kalman_variant) : kalman_filter R (demo_state R) unit 6 3 :=
  with_process_noise (@demo_epoch R) (@demo_add R) (new (prev_estimate (demo_filter R v)) v)
    (from_velocity_km_s three second minute None).
Lemma velocity_runs v : exists kf' e,
  time_update (@demo_stm R) (@demo_epoch R) (@demo_dcm R) (@demo_exp R) (@demo_add R)
    (velocity_filter v) (1%:M, second) = (kf', Ok e).
Proof.
have [q hq] : exists q, noise_contribution (@demo_epoch R) (@demo_dcm R) (@demo_exp R) (@demo_add R)
    (velocity_filter v) (1%:M, second) = Ok (Some (0%N, q)) by eexists; reflexivity.
by rewrite /time_update hq; do 2 eexists; reflexivity.
Qed.
Lemma of_Z_nat k : of_Z (Z.of_nat k) = k%:R :> R.
Proof. by case: k => //= k; rewrite SuccNat2Pos.id_succ. Qed.
Lemma pow_expn b k : Nat.pow b k = expn b k.
Proof. by elim: k => //= k ->; rewrite expnS. Qed.
Lemma one_second : to_seconds second = 1 :> R.
Proof.
rewrite /to_seconds /second -Nat2Z.inj_pow of_Z_nat pow_expn natrX.
by rewrite divff // expf_neq0 // pnatr_eq0.
Qed.
(** Errors of two kilometers per second over a second: their variance is not the square. *)
Theorem C98_square_refuted v : exists (vel : 'rV[R]_3) span nominal kf' e (i : 'I_6),
  time_update (@demo_stm R) (@demo_epoch R) (@demo_dcm R) (@demo_exp R) (@demo_add R)
    (with_process_noise (@demo_epoch R) (@demo_add R) (new (prev_estimate (demo_filter R v)) v)
       (from_velocity_km_s vel span minute None)) nominal = (kf', Ok e) /\
  demo_epoch nominal = span /\ i = 3%:R /\ vel 0 0 = 2%:R /\
  covar e i i - covar (prev_estimate (demo_filter R v)) i i <> vel 0 0 ^+ 2.
Proof.
have [kf' [e H]] := velocity_runs v.
exists three, second, (1%:M, second), kf', e, 3%:R.
split; first exact: H. split; first by []. split; first by []. split; first by rewrite mxE.
have s0 : 0 < (to_seconds second : R) by rewrite one_second ltr01.
have v0 : 0 < three 0 0 by rewrite mxE ltr0n.
have hi : nat_of_ord (3%:R : 'I_6) = (nat_of_ord (ord0 : 'I_3) + 3)%N by [].
have [_ []] := C98_square H erefl erefl ltac:(by []) s0 hi v0.
rewrite mul1mx trmx1 mulmx1 => h _ /h.
rewrite one_second mxE => /eqP; rewrite -[1]/(1%:R) eqr_nat. by [].
Qed.
End Refuted.

(** A decaying noise given to [set_process_noise] instead of [with_process_noise] stops the program at
    the next update. *)
Theorem C98_set_refuted :
  forall (R : rcfType) (T LF : Type) n a stm_of epoch_of dcm exp add
         (kf : kalman_filter R T LF n a) values dis rates lf s nominal phi,
    with_decay values dis rates lf = Ok s -> stm_of nominal = Some phi ->
    (time_update stm_of epoch_of dcm exp add (set_process_noise kf s) nominal).2 = Panic.
Proof.
move=> R T LF n a stm_of epoch_of dcm exp add kf values dis rates lf s nominal phi.
rewrite /with_decay /from_diagonal; case: eqP => // _; case: eqP => // _ /= [<-] hst.
by rewrite /time_update hst.
Qed.
Print Assumptions C98_added.
Print Assumptions C98_square.
Print Assumptions C98_square_refuted.
Print Assumptions C98_set_refuted.
