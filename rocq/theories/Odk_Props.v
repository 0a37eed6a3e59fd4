(** The orbit determination process with its Kalman filter, end to end: C89. *)
From Verif Require Import Base.
From mathcomp Require Import all_ssreflect all_algebra.
From Coq Require Reals.
From Verif Require Odk_Case.
From Verif Require Prop_Model Prop_Spec Prop_Props Arc_Model Sched_Model Traj_Model Odp_Model Odp_Proofs Sol_Model.
From Verif Require Import Kf_Model Kf_Spec Kf_Linalg Kf_Proofs Kf_Props Odk_Model.
Import Order.TTheory GRing.Theory Num.Theory.
Set Implicit Arguments.
Unset Strict Implicit.
Unset Printing Implicit Defensive.
Local Open Scope ring_scope.

(** ** Specification *)
Section Spec.
Context {R : rcfType} {T X : Type} {n : nat}.
Context (core : T -> X) (flow : X -> X -> 'M[R]_n -> Prop) (add : T -> 'cV[R]_n -> T).
Notation estimate := (kf_estimate R T n).

(** [flow x y A]: moving from [x] to [y] goes with the matrix [A].  It need not be the exact flow:
    by C53 the matrix of a spacecraft is a product of first-order matrices, in the reverse order. *)
Definition rests : Prop := forall x, flow x x 1%:M.

(** The estimate [e] follows the covariance [P] and the point [x]: its transition matrix is that of
    the motion from this point, its prior covariance is [P] transported by it, plus the process
    noise, and its covariance is no larger. *)
Definition follows (noiseless : Prop) (x : X) (P : 'M[R]_n) (e : estimate) : Prop :=
  flow x (core (nominal_state e)) (stm e) /\
  (exists Q, covariance Q /\ (noiseless -> Q = 0) /\ covar_bar e = stm e *m P *m (stm e)^T + Q) /\
  covariance (covar e) /\ below (covar e) (covar_bar e) /\ (predicted e -> covar e = covar_bar e).

(** Where the process goes on from after an estimate: from the updated state in the variant that
    updates its reference with the measurements, from the nominal state otherwise. *)
Definition resumes (v : kalman_variant) (e : estimate) : X :=
  match v with
  | ReferenceUpdate => if predicted e then core (nominal_state e) else core (add (nominal_state e) (state_deviation e))
  | DeviationTracking => core (nominal_state e)
  end.

(** Each estimate follows the one before. *)
Fixpoint chained (v : kalman_variant) (noiseless : Prop) (x : X) (P : 'M[R]_n) (l : list estimate) : Prop :=
  match l with
  | nil => True
  | cons e l' => follows noiseless x P e /\ chained v noiseless (resumes v e) (covar e) l'
  end.
End Spec.

(** What is assumed of the propagation and of the state transition matrix that a state carries. *)
Record transports {St V F E X} (R : rcfType) n (env : Prop_Model.env St V F E) (so : Odp_Model.stm_ops St)
    (stm_of : St -> option 'M[R]_n) (add : St -> 'cV[R]_n -> St) (core : St -> X)
    (flow : X -> X -> 'M[R]_n -> Prop) : Prop := {
  tr_with : forall s, stm_of (Odp_Model.with_stm so s) = Some 1%:M /\ core (Odp_Model.with_stm so s) = core s;
  tr_reset : forall s A, stm_of s = Some A ->
    stm_of (Odp_Model.reset_stm so s) = Some 1%:M /\ core (Odp_Model.reset_stm so s) = core s;
  tr_set : forall s t, stm_of (Odp_Model.set_epoch so s t) = stm_of s /\ core (Odp_Model.set_epoch so s t) = core s;
  tr_add : forall s x A, stm_of s = Some A -> exists B, stm_of (add s x) = Some B;
  tr_prop : forall i fuel d s x A, Prop_Model.o_res (Prop_Model.for_duration env fuel d i) = Ok s ->
    stm_of (Prop_Model.state i) = Some A -> flow x (core (Prop_Model.state i)) A ->
    exists B, flow x (core s) B /\ stm_of s = Some B
}.

Section Filter.
Context {R : rcfType} {T LF X : Type} {n a m : nat}.
Context (stm_of : T -> option 'M[R]_n) (epoch_of : T -> Z)
        (dcm : T -> LF -> option (DCM R)) (exp : R -> R) (add : T -> 'cV[R]_n -> T).
Context (core : T -> X) (flow : X -> X -> 'M[R]_n -> Prop).
Hypothesis exp_ge0 : forall x, 0 <= exp x.
Notation filter := (kalman_filter R T LF n a).
Notation fol := (follows core flow).
Notation empty kf := (process_noises kf = [::]).

Lemma contribution_cov (kf : filter) nominal c : valid kf -> noise_contribution epoch_of dcm exp add kf nominal = Ok c ->
  exists Q, covariance Q /\ (empty kf -> Q = 0) /\ forall P, add_noise c P = P + Q.
Proof.
move=> hv hc; have h0 : covariance (0 : 'M[R]_n).
  by split; [rewrite trmx0|move=> x; rewrite /quad mulmx0 mul0mx mxE].
have := add_noise_covariance exp_ge0 (proj2 hv) hc h0.
case: c hc => [[i q]|] hc /=.
- rewrite add0r => hq; exists q; split=> //; split=> // he.
  by move: hc; rewrite /noise_contribution he.
- by move=> _; exists 0; split=> //; split=> // P; rewrite addr0.
Qed.

Lemma time_follows (kf kf' : filter) nominal e x A : valid kf -> stm_of nominal = Some A -> flow x (core nominal) A ->
  time_update stm_of epoch_of dcm exp add kf nominal = (kf', Ok e) ->
  [/\ valid kf', variant kf' = variant kf, prev_estimate kf' = e, predicted e & nominal_state e = nominal] /\
  (empty kf -> empty kf') /\ fol (empty kf) x (covar (prev_estimate kf)) e.
Proof.
move=> hv hA hf hu; have hv' : valid kf' by have := time_update_valid stm_of epoch_of dcm add nominal exp_ge0 hv; rewrite hu.
have [hT _] := @C26_estimates _ _ _ _ _ stm_of epoch_of dcm exp add kf exp_ge0 hv.
have [hce [hcb _]] := hT _ _ _ hu.
move: hu; rewrite /time_update hA; case hc: noise_contribution => [c|||] // [hk he].
have [Q [hQ [hQ0 hQe]]] := contribution_cov hv hc.
rewrite -hk -he /= use_noise_variant use_noise_noises; split; first by rewrite hk.
split; first by move=> ->.
split=> //=; split; first by exists Q.
split; first by rewrite -he in hce.
by split=> // y.
Qed.

Lemma msr_follows (kf kf' : filter) nominal (real computed : 'cV[R]_m) r h rej e rr g x A :
  valid kf -> covariance r -> stm_of nominal = Some A -> flow x (core nominal) A ->
  measurement_update stm_of epoch_of dcm exp add kf nominal real computed r h rej = (kf', Ok (e, rr, g)) ->
  [/\ valid kf', variant kf' = variant kf, prev_estimate kf' = e, predicted e = rejected rr & nominal_state e = nominal] /\
  (empty kf -> empty kf') /\ fol (empty kf) x (covar (prev_estimate kf)) e.
Proof.
move=> hv hr hA hf hu.
have hv' : valid kf' by have := measurement_update_valid stm_of epoch_of dcm add nominal real computed h rej exp_ge0 hv hr; rewrite hu.
have [_ hM] := @C26_estimates _ _ _ _ _ stm_of epoch_of dcm exp add kf exp_ge0 hv.
have [hce [hcb _]] := hM _ _ _ _ _ _ _ _ _ _ _ hr hu.
case: g hu => [g|] hu; last first.
  have : exists c, noise_contribution epoch_of dcm exp add kf nominal = Ok c /\ predicted e = rejected rr /\
      time_update stm_of epoch_of dcm exp add (use_noise c kf) nominal = (kf', Ok e).
    move: hu; rewrite /measurement_update hA; case hc: noise_contribution => [c|||] //.
    set l := match cholesky _ with Some _ => _ | None => _ end; case: l => [l|] //.
    case: ifP => _.
      case ht: time_update => [kf'' [e'|||]] //= [<- <- <-]; exists c; split=> //; split=> //=.
      by move: ht; rewrite /time_update hA; case: noise_contribution => [c'|||] // [_ <-].
    set gg := match cholesky _ with Some _ => _ | None => _ end; case: gg => [gg|] //.
    by set sp := match variant kf with ReferenceUpdate => _ | DeviationTracking => _ end; case: sp.
  case=> c [hc [hp ht]].
  have [[h1 h2 h3 h4 h5] [h6 h7]] := time_follows (use_noise_valid c hv) hA hf ht.
  by move: h2 h6 h7; rewrite use_noise_variant use_noise_noises use_noise_est.
have [_ [_ [hbelow _]]] := C27_optimal exp_ge0 hv hr hu.
have [phi [c [hphi hc hk _ [_ hcbE hn [hrej _] _]]]] := measurement_accepted exp_ge0 hv hr hu.
have [Q [hQ [hQ0 hQe]]] := contribution_cov hv hc.
have [hstm hpred] : stm e = A /\ predicted e = false.
  move: hu; rewrite /measurement_update hA; case: noise_contribution => [c'|||] //.
  set l := match cholesky _ with Some _ => _ | None => _ end; case: l => [l|] //.
  case: ifP => _; first by case: time_update => kf'' [].
  set gg := match cholesky _ with Some _ => _ | None => _ end; case: gg => [gg|] //.
  by set sp := match variant kf with ReferenceUpdate => _ | DeviationTracking => _ end; case: sp => y z [_ <- _ _].
rewrite hA in hphi; case: hphi => hphi; subst phi.
rewrite {2 3 4}hk /= use_noise_variant use_noise_noises hpred hrej; split=> //.
split; first by move=> ->.
rewrite /follows hstm hn; split=> //; split; last by rewrite hpred.
exists Q; split=> //; split=> //; by rewrite hcbE; exact: hQe.
Qed.
End Filter.

(** ** The process *)
Lemma bind_inv E A B (x : res E A) (f : A -> res E B) b : bind x f = Ok b -> exists a, x = Ok a /\ f a = Ok b.
Proof. exact: Odp_Proofs.bind_ok. Qed.
Lemma lift_inv E E' A (f : E -> E') (x : res E A) a : Odp_Model.lift f x = Ok a -> x = Ok a.
Proof. exact: Odp_Proofs.lift_ok. Qed.

Section Process.
Context {R : rcfType} {T LF X : Type} {n a m : nat}.
Context (stm_of : T -> option 'M[R]_n) (epoch_of : T -> Z)
        (dcm : T -> LF -> option (DCM R)) (exp : R -> R) (add : T -> 'cV[R]_n -> T).
Context (core : T -> X) (flow : X -> X -> 'M[R]_n -> Prop) (embed : Rdefinitions.R -> R).
Context (noises : list (process_noise R LF a)) (v : kalman_variant).
Context {V F E : Type} (env : Prop_Model.env T V F E) (o : Traj_Model.state_ops T F) (arrange : list T -> list T)
        (so : Odp_Model.stm_ops T) {FS D De : Type} (dv : Odp_Model.device_ops T D 'M[R]_m 'M[R]_(m, n) De).
Hypothesis exp_ge0 : forall x, 0 <= exp x.
Hypothesis Hk : Prop_Spec.keeps_epoch env.
Hypothesis Htr : transports env so stm_of add core flow.
Hypothesis Hflow : rests flow.
Hypothesis Hdev : forall d types t c, Odp_Model.covar_of dv d types t = Ok c -> covariance c.
Notation ops := (@kalman_ops R T LF n a m stm_of epoch_of dcm exp add embed noises v).
Notation run := (@Odp_Model.run T (kalman_filter R T LF n a) (kf_estimate R T n) (residual R m) 'M[R]_(n, m) FS D).
Notation noiseless := (noises = [::]).

(** The point and covariance after a list of estimates. *)
Definition ends (s : X * 'M[R]_n) (l : list (kf_estimate R T n)) : X * 'M[R]_n :=
  foldl (fun _ e => (resumes core add v e, covar e)) s l.
Lemma chained_snoc l : forall x P e, chained core flow add v noiseless x P l ->
  follows core flow noiseless (ends (x, P) l).1 (ends (x, P) l).2 e ->
  chained core flow add v noiseless x P (l ++ [:: e])%list.
Proof.
elim: l => [|e' l IH] x P e /= => [_ h|[h1 h2] h]; first by split.
by split=> //; apply: IH.
Qed.
Lemma ends_snoc s l e : ends s (l ++ [:: e])%list = (resumes core add v e, covar e).
Proof. by rewrite /ends foldl_cat. Qed.

(** The invariant of the loop. *)
Definition good (x0 : X) (P0 : 'M[R]_n) (kf : kalman_filter R T LF n a) (s : T) (l : list (kf_estimate R T n)) : Prop :=
  [/\ valid kf, variant kf = v, noiseless -> process_noises kf = [::] & chained core flow add v noiseless x0 P0 l] /\
  covar (prev_estimate kf) = (ends (x0, P0) l).2 /\
  exists A, stm_of s = Some A /\ flow (ends (x0, P0) l).1 (core s) A.

Lemma good_time x0 P0 kf kf' s l e : good x0 P0 kf s l ->
  Odp_Model.time_update ops kf s = (kf', Ok e) ->
  good x0 P0 kf' (Odp_Model.reset_stm so s) (l ++ [:: e])%list.
Proof.
case=> [[h1 h2 h3 h4]] [hc [A [hA hf]]] hu.
have [[k1 k2 k3 k4 k5] [k6 k7]] := time_follows (core := core) (flow := flow) exp_ge0 h1 hA hf hu.
split; first split=> //.
- by rewrite k2.
- by move=> hn; apply: k6; apply: h3.
- apply: chained_snoc => //; rewrite -hc.
  case: k7 => q1 [[Q [q2 [q3 q4]]] q5]; split=> //; split=> //; exists Q; split=> //; split=> // hn.
  by apply: q3; apply: h3.
rewrite ends_snoc k3; split=> //; have [r1 r2] := tr_reset Htr hA; exists 1%:M; split=> //.
rewrite r2 /resumes k4 k5 /=; have f1 := Hflow; by case: v.
Qed.

Lemma good_msr x0 P0 kf kf' s l real computed c h crit e rr g : good x0 P0 kf s l -> covariance c ->
  Odp_Model.measurement_update ops kf s real computed c h crit = (kf', Ok (e, rr, g)) ->
  let state1 := if Odp_Model.replace_state ops kf' && negb (Sol_Model.res_rejected rr) then Odp_Model.state_of ops e else s in
  good x0 P0 kf' (Odp_Model.reset_stm so state1) (l ++ [:: e])%list.
Proof.
case=> [[h1 h2 h3 h4]] [hc [A [hA hf]]] hcv /=.
case hu: measurement_update => [kf'' [[[e' r'] g']|||]] //= [<- <- <- _] /=.
have [[k1 k2 k3 k4 k5] [k6 k7]] := msr_follows (core := core) (flow := flow) exp_ge0 h1 hcv hA hf hu.
split; first split=> //.
- by rewrite k2.
- by move=> hn; apply: k6; apply: h3.
- apply: chained_snoc => //; rewrite -hc.
  case: k7 => q1 [[Q [q2 [q3 q4]]] q5]; split=> //; split=> //; exists Q; split=> //; split=> // hn.
  by apply: q3; apply: h3.
rewrite ends_snoc k3; split=> //; have f1 := Hflow.
rewrite /resumes k2 h2 k4 k5 /=.
have [r1 r2] := tr_reset Htr hA; have [B hB] := tr_add Htr (state_deviation e') hA; have [r3 r4] := tr_reset Htr hB.
by case: v; case: (rejected r') => /=; exists 1%:M; split=> //; rewrite ?r2 ?r4; apply: f1.
Qed.

Lemma either (A : Type) (k : nat) (x y : A) : (if k is O then x else y) = x \/ (if k is O then x else y) = y.
Proof. by case: k; [left|right]. Qed.

Definition good_run (x0 : X) (P0 : 'M[R]_n) (r : run) : Prop :=
  good x0 P0 (Odp_Model.r_kf r) (Prop_Model.state (Odp_Model.r_inst r)) (Sol_Model.estimates (Odp_Model.r_sol r)).

Lemma window_good x0 P0 arc crit ms d types r r' : good_run x0 P0 r ->
  Odp_Model.process_window (E := E) so ops dv m arc crit ms d types r = Ok r' -> good_run x0 P0 r'.
Proof.
move=> hg; rewrite /Odp_Model.process_window => H.
have [h [_ H1]] := bind_inv H.
have [c [hc H2]] := bind_inv H1; have {}hc := lift_inv hc.
move: H2; case: (Odp_Model.measure _ _ _ _) => d' out; set r1 := Odp_Model.Build_run _ _ _ _ _ _ _ _ => H2.
have [computed [_ H3]] := bind_inv H2.
move: H3; case: computed => [computed|]; last by case=> <-.
move=> H3; have [bias [_ H4]] := bind_inv H3; move: H4.
case hu: (Odp_Model.measurement_update _ _ _ _ _ _ _ _) => [kf upd] H4.
have [[[e rr] g] [hupd H5]] := bind_inv H4; have {}hupd := lift_inv hupd.
by rewrite hupd in hu; case: H5 => <-; exact: (good_msr hg (Hdev hc) hu).
Qed.

Lemma windows_good x0 P0 arc crit ms all l : forall r r', good_run x0 P0 r ->
  Odp_Model.process_windows (E := E) so ops dv m arc crit ms all l r = Ok r' -> good_run x0 P0 r'.
Proof.
elim: l => [|wno l IH] r r' hg /=; first by case=> <-.
case: (List.firstn _ _) => [|t ts]; first by case=> <-.
case: ifP => _; last by apply: IH.
case: (Sched_Model.find _ _) => [d|] //.
by move=> H; have [r1 [h1 h2]] := bind_inv H; apply: IH h2; apply: window_good h1.
Qed.

Lemma update_good x0 P0 r nominal rej r' : good_run x0 P0 r -> stm_of (Prop_Model.state (Odp_Model.r_inst r)) = stm_of nominal ->
  core (Prop_Model.state (Odp_Model.r_inst r)) = core nominal ->
  Odp_Model.do_time_update (E := E) (De := De) so ops r nominal rej = Ok r' -> good_run x0 P0 r'.
Proof.
move=> hg hs hcore; rewrite /Odp_Model.do_time_update.
case hu: (Odp_Model.time_update _ _ _) => [kf upd] H.
have [e [hupd' [<-]]] := bind_inv H; have hupd := lift_inv hupd'.
rewrite hupd in hu.
have hg' : good x0 P0 (Odp_Model.r_kf r) nominal (Sol_Model.estimates (Odp_Model.r_sol r)).
  by case: hg => h1 [h2 [A [h3 h4]]]; split=> //; split=> //; exists A; rewrite -hs -hcore.
have [h1 [h2 [A [h3 h4]]]] := good_time hg' hu; split=> //; split=> //=.
have [_ [_ [B [hB _]]]] := hg; have [r1 r2] := tr_reset Htr hB.
have hB' : stm_of nominal = Some B by rewrite -hs.
have [r3 r4] := tr_reset Htr hB'; exists A; rewrite r1 -r3 h3; split=> //.
by rewrite r2 hcore -r4.
Qed.

Lemma at_good x0 P0 arc crit ms r r' : good_run x0 P0 r ->
  Odp_Model.at_measurement (E := E) so ops dv m arc crit ms r = Ok r' -> good_run x0 P0 r'.
Proof.
move=> hg; rewrite /Odp_Model.at_measurement; set r1 := Odp_Model.Build_run _ _ _ _ _ _ _ _.
have [t1 t2] := tr_set Htr (Prop_Model.state (Odp_Model.r_inst r)) (Arc_Model.epoch ms).
have hg1 : good_run x0 P0 r1.
  case: hg => h1 [h2 [A [h3 h4]]]; split=> //; split=> //; exists A; rewrite /r1 /=.
  by rewrite t1 t2.
case: (Arc_Model.rejected ms); first by apply: update_good.
case: (Sched_Model.find _ _) => [d|]; last by case=> <-.
by set w := Odp_Model.process_windows _ _ _ _ _ _ _ _ _ _; have [->|->] := either m Panic w; last exact: windows_good.
Qed.

Lemma step_good x0 P0 p fuel target r r' : good_run x0 P0 r ->
  Odp_Model.step_toward (Fe := od_error) (De := De) env o arrange p fuel target r = Ok r' -> good_run x0 P0 r'.
Proof.
move=> hg; rewrite /Odp_Model.step_toward => H.
have [s [hs' [<-]]] := bind_inv H; have hs := lift_inv hs'.
have [_ hst] := Prop_Props.C01_stop_epoch _ _ _ _ env Hk _ _ _ _ hs.
case: hg => h1 [h2 [A [h3 h4]]]; have [B [h5 h6]] := tr_prop Htr hs h3 h4.
by split=> //; split=> //; exists B; rewrite /= hst.
Qed.

Lemma advance_good x0 P0 p arc crit pfuel ms fuel : forall r r', good_run x0 P0 r ->
  Odp_Model.advance env o arrange so ops dv m p arc crit pfuel fuel ms r = Ok r' -> good_run x0 P0 r'.
Proof.
elim: fuel => [|fuel IH] r r' hg //= H; have [r1 [h1 h2]] := bind_inv H.
have hg1 := step_good hg h1; move: h2; case: ifP => _; first exact: at_good.
by move=> H2; have [r2 [h3 h4]] := bind_inv H2; apply: IH h4; apply: update_good h3.
Qed.

Lemma measurements_good x0 P0 p arc crit pfuel fuel l : forall r r', good_run x0 P0 r ->
  Odp_Model.process_measurements env o arrange so ops dv m p arc crit pfuel fuel l r = Ok r' -> good_run x0 P0 r'.
Proof.
elim: l => [|ms l IH] r r' hg /=; first by case=> <-.
by move=> H; have [r1 [h1 h2]] := bind_inv H; apply: IH h2; apply: advance_good h1.
Qed.

(** What holds of the filter that the process makes. *)
Definition fit (initial : kf_estimate R T n) : Prop :=
  covariance (covar initial) /\ forall s, List.In s noises -> nonnegative_noise s.

Lemma start_good p initial : fit initial ->
  good_run (core (nominal_state initial)) (covar initial) (Odp_Model.start_run env so ops p initial).
Proof.
move=> [f1 f2]; have [w1 w2] := tr_with Htr (nominal_state initial).
rewrite /good_run /Odp_Model.start_run /=; split; first split=> //=.
- split=> //=; move: f2; elim: noises => [|s1 l IH] //= f2 s0 [<-|h]; first by apply: (f2 s1); left.
  by apply: IH h => s2 h2; apply: f2; right.
- by move=> ->.
split=> //; exists 1%:M; rewrite /ends /=; have fl := Hflow.
by case: ifP => _ /=; rewrite w1 w2; split=> //; apply: fl.
Qed.

Lemma process_chained p pfuel fuel initial arc (s : Sol_Model.solution (kf_estimate R T n) (residual R m) 'M[R]_(n, m) FS) :
  fit initial -> Odp_Model.process_arc env o arrange so ops dv m p pfuel fuel initial arc = Ok s ->
  chained core flow add v noiseless (core (nominal_state initial)) (covar initial) (Sol_Model.estimates s).
Proof.
move=> [f1 f2]; rewrite /Odp_Model.process_arc; case: ifP => // _; case: ifP => // _ H.
have [r [h1 [<-]]] := bind_inv H.
by have [[_ _ _]] := measurements_good (start_good p (conj f1 f2)) h1.
Qed.
Lemma predict_chained (p : Odp_Model.odp D) pfuel fuel initial stop (s : Sol_Model.solution (kf_estimate R T n) (residual R m) 'M[R]_(n, m) FS) :
  fit initial -> Odp_Model.predict_until (De := De) env so ops p pfuel fuel initial stop = Ok s ->
  exists l, Sol_Model.estimates s = (initial :: l)%list /\
  chained core flow add v noiseless (core (nominal_state initial)) (covar initial) l /\
  List.Forall (fun e => predicted e) l.
Proof.
move=> [f1 f2]; rewrite /Odp_Model.predict_until.
set i0 := Odp_Model.prop_with _ _; set k0 := Odp_Model.start_filter _ _; set s0 := Sol_Model.push_time_update _ _.
have hg : good (core (nominal_state initial)) (covar initial) k0 (Prop_Model.state i0) [::].
  have [w1 w2] := tr_with Htr (nominal_state initial); split; first by split.
  by split=> //; exists 1%:M; rewrite /ends /= w1 w2; split=> //; have fl := Hflow; apply: fl.
have : Sol_Model.estimates s0 = (initial :: [::])%list by [].
have : List.Forall (fun e : kf_estimate R T n => predicted e) [::] by constructor.
move: hg; move: ([::] : list (kf_estimate R T n)) => l; move: i0 k0 s0 l.
elim: fuel => [|fuel IH] i k s0 l hg hp hs //= H.
have [nominal [hn' H1]] := bind_inv H; have hn := lift_inv hn'; move: H1.
case hu: (Kf_Model.time_update _ _ _ _ _ _ _) => [k' upd] H1.
have [e [he' H2]] := bind_inv H1; have he := lift_inv he'; rewrite he in hu.
have [_ hst] := Prop_Props.C01_stop_epoch _ _ _ _ env Hk _ _ _ _ hn.
have hg1 : good (core (nominal_state initial)) (covar initial) k nominal l.
  case: hg => h1 [h2 [A [h3 h4]]]; have [B [h5 h6]] := tr_prop Htr hn h3 h4.
  by split=> //; split=> //; exists B.
have hpe : predicted e.
  case: hg1 => [[v1 _ _ _] [_ [A [a1 a2]]]].
  by have [[_ _ _]] := time_follows (core := core) (flow := flow) exp_ge0 v1 a1 a2 hu.
have hg2 := good_time hg1 hu.
have hp2 : List.Forall (fun e : kf_estimate R T n => predicted e) (l ++ [:: e])%list.
  by apply/List.Forall_app; split=> //; constructor.
have hs2 : Sol_Model.estimates (Sol_Model.push_time_update s0 e) = (initial :: (l ++ [:: e]))%list by rewrite /= hs.
move: H2; case: ifP => _; last first.
  by move=> H2; apply: (IH _ _ _ (l ++ [:: e])%list _ hp2 hs2 H2); rewrite [Prop_Model.state _]/= hst.
by case=> <-; exists (l ++ [:: e])%list; split=> //; split=> //; case: hg2 => [[]].
Qed.

(** ** Failures *)
Hypothesis Hdef : forall d types t c, Odp_Model.covar_of dv d types t = Ok c -> definite c.
(** The errors of a process noise given in a local frame. *)
Definition frame_error (x : od_error) : Prop := x = Astro \/ x = Limitation.
Notation failed x := (Err (Odp_Model.FilterError x)).

Lemma bind_err E' A B (x : res E' A) (f : A -> res E' B) y : bind x f = Err y ->
  x = Err y \/ exists a, x = Ok a /\ f a = Err y.
Proof. by case: x => [a'|e'||] //= h; [right; exists a'|left; case: h => ->]. Qed.
Lemma lift_err E1 E2 A (f : E1 -> E2) (x : res E1 A) y : Odp_Model.lift f x = Err y -> exists z, x = Err z /\ f z = y.
Proof. by case: x => [a'|e'||] //= [h]; exists e'. Qed.

Local Ltac berr := let H := fresh "H" in intro H; apply bind_err in H; revert H.
Local Ltac lerr := let H := fresh "H" in intro H; apply lift_err in H; revert H.

Lemma propagate_err (s : process_noise R LF a) nominal gap x :
  propagate (n := n) epoch_of dcm exp s nominal gap = Err x -> frame_error x.
Proof.
rewrite /propagate => /ltac:(berr) -[|[[snc|] [_]]] //.
  rewrite /to_matrix; case: ifP => // _; case: ifP => // _; case: (decay_diag s) => // d; case: (init_epoch s) => // t.
  by case: ifP.
move=> /ltac:(berr) -[|[snc' [_]]].
  case: (local_frame s) => // lf; case: (dcm nominal lf) => [d|]; last by case=> <-; left.
  rewrite /rotate_snc; case: (a) snc => [|[|[|[|[|[|[|k]]]]]]] snc //; case=> <-; right=> //.
case: ifP => // _ /ltac:(berr) -[|[g [_]]] //.
by case: (write_all_outcome (@gamma_writes R a (to_seconds gap)) (0 : 'M[R]_(n, a))) => [[g ->]|->].
Qed.
Lemma contribution_err (kf : kalman_filter R T LF n a) nominal x :
  noise_contribution epoch_of dcm exp add kf nominal = Err x -> frame_error x.
Proof.
rewrite /noise_contribution; move: (rev _) => l; elim: l => [|[i s] l IH] //= /ltac:(berr) -[|[[c|] [_]]] //.
exact: propagate_err.
Qed.

Lemma time_err x0 P0 kf kf' s l x : good x0 P0 kf s l -> Odp_Model.time_update ops kf s = (kf', Err x) -> frame_error x.
Proof.
case=> _ [_ [A [hA _]]] /=; rewrite /time_update hA; case hc: noise_contribution => [c|y||] // [_ <-].
exact: contribution_err hc.
Qed.
Lemma msr_err x0 P0 kf kf' s l real computed c h crit x : good x0 P0 kf s l -> definite c ->
  Odp_Model.measurement_update ops kf s real computed c h crit = (kf', Err x) -> frame_error x.
Proof.
case=> [[hv _ _ _]] [_ [A [hA _]]] hd /=.
case hc: (noise_contribution epoch_of dcm exp add kf s) => [c'|y||].
- have [k1 [e [r [g [-> _ _ _ _]]]]] := measurement_decides (column embed real) (column embed computed) h
    (option_map embed crit) exp_ge0 hv hd hA hc; by [].
- by rewrite /measurement_update hA hc => -[_ <-]; exact: contribution_err hc.
- by rewrite /measurement_update hA hc.
- by rewrite /measurement_update hA hc.
Qed.

Lemma window_err x0 P0 arc crit ms d types r x : good_run x0 P0 r ->
  Odp_Model.process_window (E := E) so ops dv m arc crit ms d types r = failed x -> frame_error x.
Proof.
move=> hg; rewrite /Odp_Model.process_window => /ltac:(berr) -[|[h [_]]]; first by move=> /ltac:(lerr) -[z []].
move=> /ltac:(berr) -[|[c [hc']]]; first by move=> /ltac:(lerr) -[z []].
have hc := lift_inv hc'; case: (Odp_Model.measure _ _ _ _) => d' out; set r1 := Odp_Model.Build_run _ _ _ _ _ _ _ _.
move=> /ltac:(berr) -[|[[computed|] [_]]] //; first by move=> /ltac:(lerr) -[z []].
move=> /ltac:(berr) -[|[bias [_]]]; first by move=> /ltac:(lerr) -[z []].
case hu: (Odp_Model.measurement_update _ _ _ _ _ _ _ _) => [kf upd] /ltac:(berr) -[|[[[e rr] g] [_]]] //.
move=> /ltac:(lerr) -[z [hz [<-]]]; rewrite hz in hu; exact: (msr_err hg (Hdef hc) hu).
Qed.
Lemma windows_err x0 P0 arc crit ms all x l : forall r, good_run x0 P0 r ->
  Odp_Model.process_windows (E := E) so ops dv m arc crit ms all l r = failed x -> frame_error x.
Proof.
elim: l => [|wno l IH] r hg //=; case: (List.firstn _ _) => [|t ts] //.
case: ifP => _; last by apply: IH.
case: (Sched_Model.find _ _) => [d|] // /ltac:(berr) -[h1|[r1 [h1]]]; first exact: (window_err hg h1).
by apply: IH; exact: (window_good hg h1).
Qed.
Lemma update_err x0 P0 r nominal rej x : good_run x0 P0 r -> stm_of (Prop_Model.state (Odp_Model.r_inst r)) = stm_of nominal ->
  core (Prop_Model.state (Odp_Model.r_inst r)) = core nominal ->
  Odp_Model.do_time_update (E := E) (De := De) so ops r nominal rej = failed x -> frame_error x.
Proof.
move=> hg hs hcore; rewrite /Odp_Model.do_time_update.
have hg' : good x0 P0 (Odp_Model.r_kf r) nominal (Sol_Model.estimates (Odp_Model.r_sol r)).
  by case: hg => h1 [h2 [A [h3 h4]]]; split=> //; split=> //; exists A; rewrite -hs -hcore.
case hu: (Odp_Model.time_update _ _ _) => [kf upd] /ltac:(berr) -[|[e [_]]] //.
move=> /ltac:(lerr) -[z [hz [<-]]]; rewrite hz in hu; exact: (time_err hg' hu).
Qed.
Lemma at_err x0 P0 arc crit ms r x : good_run x0 P0 r ->
  Odp_Model.at_measurement (E := E) so ops dv m arc crit ms r = failed x -> frame_error x.
Proof.
move=> hg; rewrite /Odp_Model.at_measurement; set r1 := Odp_Model.Build_run _ _ _ _ _ _ _ _.
have [t1 t2] := tr_set Htr (Prop_Model.state (Odp_Model.r_inst r)) (Arc_Model.epoch ms).
have hg1 : good_run x0 P0 r1.
  case: hg => h1 [h2 [A [h3 h4]]]; split=> //; split=> //; exists A; rewrite /r1 /=.
  by rewrite t1 t2.
case: (Arc_Model.rejected ms); first by move=> h; apply: (update_err hg1 _ _ h).
case: (Sched_Model.find _ _) => [d|] //.
by set w := Odp_Model.process_windows _ _ _ _ _ _ _ _ _ _; have [->|->] := either m Panic w; last by move=> h; exact: (windows_err hg1 h).
Qed.
Lemma step_err p fuel target (r : run) x : Odp_Model.step_toward (Fe := od_error) (De := De) env o arrange p fuel target r <> failed x.
Proof. by rewrite /Odp_Model.step_toward => /ltac:(berr) -[|[s [_]]] //; move=> /ltac:(lerr) -[z []]. Qed.
Lemma advance_err x0 P0 p arc crit pfuel ms x fuel : forall r, good_run x0 P0 r ->
  Odp_Model.advance env o arrange so ops dv m p arc crit pfuel fuel ms r = failed x -> frame_error x.
Proof.
elim: fuel => [|fuel IH] r hg //= /ltac:(berr) -[h|[r1 [h1]]]; first by case: (step_err h).
have hg1 := step_good hg h1; case: ifP => _; first by move=> h; exact: (at_err hg1 h).
move=> /ltac:(berr) -[h|[r2 [h3]]]; first by apply: (update_err hg1 _ _ h).
by apply: IH; apply: (update_good hg1 _ _ h3).
Qed.
Lemma measurements_err x0 P0 p arc crit pfuel fuel x l : forall r, good_run x0 P0 r ->
  Odp_Model.process_measurements env o arrange so ops dv m p arc crit pfuel fuel l r = failed x -> frame_error x.
Proof.
elim: l => [|ms l IH] r hg //= /ltac:(berr) -[h|[r1 [h1]]]; first exact: (advance_err hg h).
by apply: IH; exact: (advance_good hg h1).
Qed.
End Process.

(** ** C89 *)
Section Theorems.
Context (R : rcfType) (T LF X : Type) (n a m : nat).
Context (stm_of : T -> option 'M[R]_n) (epoch_of : T -> Z)
        (dcm : T -> LF -> option (DCM R)) (exp : R -> R) (add : T -> 'cV[R]_n -> T).
Context (core : T -> X) (flow : X -> X -> 'M[R]_n -> Prop) (embed : Rdefinitions.R -> R).
Context (noises : list (process_noise R LF a)) (v : kalman_variant).
Context (V F E : Type) (env : Prop_Model.env T V F E) (o : Traj_Model.state_ops T F) (arrange : list T -> list T)
        (so : Odp_Model.stm_ops T) (FS D De : Type) (dv : Odp_Model.device_ops T D 'M[R]_m 'M[R]_(m, n) De).
Notation ops := (@kalman_ops R T LF n a m stm_of epoch_of dcm exp add embed noises v).
Notation solution := (Sol_Model.solution (kf_estimate R T n) (residual R m) 'M[R]_(n, m) FS).

(** C89: in a whole orbit determination, each estimate follows the one before: no motion is left
    out or counted twice between them, the covariances are transported by it, and grow by the process
    noise only. *)
Theorem C89_process p pfuel fuel initial arc (s : solution) :
  (forall x, 0 <= exp x) -> Prop_Spec.keeps_epoch env -> transports env so stm_of add core flow -> rests flow ->
  (forall d types t c, Odp_Model.covar_of dv d types t = Ok c -> covariance c) ->
  covariance (covar initial) -> (forall s, List.In s noises -> nonnegative_noise s) ->
  Odp_Model.process_arc env o arrange so ops dv m p pfuel fuel initial arc = Ok s ->
  chained core flow add v (noises = [::]) (core (nominal_state initial)) (covar initial) (Sol_Model.estimates s).
Proof. by move=> he hk ht hf hd hi hn; apply: process_chained => //; split. Qed.

(** C89: the same for a prediction, whose first estimate is the initial one. *)
Theorem C89_prediction (p : Odp_Model.odp D) pfuel fuel initial stop (s : solution) :
  (forall x, 0 <= exp x) -> Prop_Spec.keeps_epoch env -> transports env so stm_of add core flow -> rests flow ->
  covariance (covar initial) -> (forall s, List.In s noises -> nonnegative_noise s) ->
  Odp_Model.predict_until (De := De) env so ops p pfuel fuel initial stop = Ok s ->
  exists l, Sol_Model.estimates s = (initial :: l)%list /\
  chained core flow add v (noises = [::]) (core (nominal_state initial)) (covar initial) l /\
  List.Forall (fun e => predicted e) l.
Proof. by move=> he hk ht hf hi hn; apply: predict_chained => //; split. Qed.

(** C89: with measurement noises that are positive definite, the filter never fails on a singular
    matrix: the only failures are those of a process noise in a local frame. *)
Theorem C89_failures p pfuel fuel initial arc x :
  (forall x, 0 <= exp x) -> Prop_Spec.keeps_epoch env -> transports env so stm_of add core flow -> rests flow ->
  (forall d types t c, Odp_Model.covar_of dv d types t = Ok c -> definite c) ->
  covariance (covar initial) -> (forall s, List.In s noises -> nonnegative_noise s) ->
  Odp_Model.process_arc (FS := FS) env o arrange so ops dv m p pfuel fuel initial arc = Err (Odp_Model.FilterError x) ->
  x = Astro \/ x = Limitation.
Proof.
move=> he hk ht hf hd hi hn; have hd' d types t c : Odp_Model.covar_of dv d types t = Ok c -> covariance c.
  by move=> h; apply: definite_covariance; exact: hd h.
rewrite /Odp_Model.process_arc; case: ifP => // _; case: ifP => // _ h; case: (bind_err h) => [{}h|[r [_]]] //.
by apply: (measurements_err he hk ht hf hd' hd _ h); apply: start_good.
Qed.
End Theorems.

(** ** A case: position and velocity of a point in uniform motion, its position being measured *)
Section Case.
Context (R : rcfType) (embed : Rdefinitions.R -> R) (v : kalman_variant).
Notation point := Odk_Case.point.
Definition shear (d : Z) : 'M[R]_2 := 1%:M + to_seconds d *: delta_mx 0 1.
Lemma of_Z_add x y : of_Z (Z.add x y) = of_Z x + of_Z y :> R.
Proof.
have pos p q : of_Z (Z.pos_sub p q) = (Pos.to_nat p)%:R - (Pos.to_nat q)%:R :> R.
  rewrite Z.pos_sub_spec; case: Pos.compare_spec => h /=.
  - by rewrite h subrr.
  - have hle : (Pos.to_nat p <= Pos.to_nat q)%N by apply/ssrnat.leP; apply: PeanoNat.Nat.lt_le_incl; apply/Pos2Nat.inj_lt.
    by rewrite Pos2Nat.inj_sub // minusE (natrB _ hle) opprB.
  - have hle : (Pos.to_nat q <= Pos.to_nat p)%N by apply/ssrnat.leP; apply: PeanoNat.Nat.lt_le_incl; apply/Pos2Nat.inj_lt.
    by rewrite Pos2Nat.inj_sub // minusE (natrB _ hle).
case: x => [|p|p]; case: y => [|q|q]; rewrite /= ?addr0 ?add0r ?pos //.
- by rewrite Pos2Nat.inj_add plusE natrD.
- by rewrite addrC.
- by rewrite Pos2Nat.inj_add plusE natrD opprD.
Qed.
Lemma shear_add x y : shear y *m shear x = shear (Z.add x y).
Proof.
rewrite /shear /to_seconds of_Z_add mulrDl scalerDl mulmxDl !mulmxDr !mul1mx mulmx1.
by rewrite -scalemxAl -scalemxAr mul_delta_mx_0 // !scaler0 addr0 -addrA.
Qed.

Definition stm_at (s : point) : option 'M[R]_2 := Some (shear (Z.sub s.2.1 s.2.2)).
Definition moves (x y : Z) (A : 'M[R]_2) : Prop := A = shear (Z.sub y x).
Definition stm_reset : Odp_Model.stm_ops point :=
  {| Odp_Model.with_stm s := (s.1, (s.2.1, s.2.1)); Odp_Model.reset_stm s := (s.1, (s.2.1, s.2.1));
     Odp_Model.set_epoch s t := (t, s.2) |}.
Definition stays (s : point) (_ : 'cV[R]_2) : point := s.
Lemma shear0 x : shear (Z.sub x x) = 1%:M.
Proof. by rewrite Z.sub_diag /shear /to_seconds mul0r scale0r addr0. Qed.
Lemma motion_transports : transports Odk_Case.motion stm_reset stm_at stays (fun s => s.2.1) moves.
Proof.
split=> //=.
- by move=> s; rewrite /stm_at /= shear0.
- by move=> s A _; rewrite /stm_at /= shear0.
- by move=> s x A h; exists A.
- move=> i fuel d s x A h; rewrite /stm_at => -[<-] hm; exists (shear (Z.sub s.2.1 s.2.2)); split=> //.
  rewrite (Odk_Case.motion_reset _ _ _ _ h); rewrite /moves in hm *.
  have -> : Z.sub s.2.1 (Prop_Model.state i).2.2 = Z.add (Z.sub (Prop_Model.state i).2.1 (Prop_Model.state i).2.2) (Z.sub s.2.1 (Prop_Model.state i).2.1) by Lia.lia.
  by rewrite -shear_add hm shear_add; congr shear; Lia.lia.
Qed.
Lemma motion_rests : rests moves.
Proof. by move=> x; rewrite /moves shear0. Qed.

Definition unsure : kf_estimate R point 2 :=
  {| nominal_state := Odk_Case.origin; state_deviation := 0; covar := 1%:M; covar_bar := 1%:M; predicted := true; stm := 1%:M |}.
Notation kops := (@kalman_ops R point unit 2 3 1 stm_at fst (fun _ _ => None) (fun _ => 1) stays embed [::] v).

Notation ready := (fun kf : kalman_filter R point unit 2 3 => valid kf /\ process_noises kf = [::]).
Lemma quiet (kf : kalman_filter R point unit 2 3) s : process_noises kf = [::] ->
  noise_contribution fst (fun _ _ => None) (fun _ => 1) stays kf s = Ok None.
Proof. by move=> h; rewrite /noise_contribution h. Qed.
Lemma time_ready kf s : ready kf -> exists kf' e, Odp_Model.time_update kops kf s = (kf', Ok e) /\ ready kf'.
Proof.
move=> [hv h0]; case hu: (Odp_Model.time_update kops kf s) => [kf' r].
have := hu; rewrite /= /time_update (quiet _ h0) /= => -[<- <-]; do 2!eexists; split; first by [].
split; last by rewrite /= h0.
split; last by move=> x; rewrite /= h0.
have := prior_covariance (shear (Z.sub s.2.1 s.2.2)) (fun _ => ler01) hv (quiet s h0); exact.
Qed.
Lemma msr_ready kf s y z crit : ready kf ->
  exists kf' e r g, Odp_Model.measurement_update kops kf s y z 1%:M (delta_mx 0 0) crit = (kf', Ok (e, r, g)).
Proof.
move=> [hv h0]; have hd : definite (1%:M : 'M[R]_1) by apply: definite_scalar; exact: ltr01.
have [kf' [e [r [g [hu _ _ _ _]]]]] := measurement_decides (column embed y) (column embed z) (delta_mx 0 0) (option_map embed crit)
  (fun _ => ler01) hv hd (erefl : stm_at s = Some _) (quiet s h0).
by do 4!eexists; rewrite /= hu.
Qed.
Example C89_case :
  let station := Odk_Case.station 1%:M (delta_mx 0 0 : 'M[R]_(1, 2)) in
  (forall d types t c, Odp_Model.covar_of station d types t = Ok c -> definite c) /\ covariance (covar unsure) /\
  (exists s, Odp_Model.predict_until (FS := unit) (De := unit) Odk_Case.motion stm_reset kops Odk_Case.tracked 9 9 unsure Odk_Case.later = Ok s) /\
  exists s, Odp_Model.process_arc (FS := unit) Odk_Case.motion Odk_Case.motion_ops id stm_reset kops station 1 Odk_Case.tracked 9 9 unsure
    Odk_Case.station_arc = Ok s.
Proof.
have hr : ready (Odp_Model.start_filter kops unsure).
  by split=> //; split=> //; apply: definite_covariance; apply: definite_scalar; exact: ltr01.
split; first by move=> d types t c [<-]; apply: definite_scalar; exact: ltr01.
split; first by apply: definite_covariance; apply: definite_scalar; exact: ltr01.
split.
- by apply: (Odk_Case.predict_succeeds kops stm_reset ready) => //; exact: time_ready.
- apply: (Odk_Case.process_succeeds kops stm_reset 1%:M (delta_mx 0 0 : 'M[R]_(1, 2)) ready) => //.
  + by move=> k [[h1 h2] h3]; split; [split=> // x|]; rewrite /= h3.
  + exact: time_ready.
  + exact: msr_ready.
Qed.
End Case.
Print Assumptions C89_process. Print Assumptions C89_prediction. Print Assumptions C89_failures.
