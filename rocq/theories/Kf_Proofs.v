(** Proofs about the filter. *)
From Verif Require Import Base.
From mathcomp Require Import all_ssreflect all_algebra.
From Verif Require Import Kf_Model Kf_Spec Kf_Linalg Kf_Abel Kf_Gain.
Import Order.TTheory GRing.Theory Num.Theory.
Set Implicit Arguments.
Unset Strict Implicit.
Unset Printing Implicit Defensive.
Local Open Scope ring_scope.

Lemma bind_ok {E A B : Type} (x : res E A) (f : A -> res E B) y :
  bind x f = Ok y -> exists2 z, x = Ok z & f z = Ok y.
Proof. by case: x => // z h; exists z. Qed.

Ltac unbind := let H := fresh in move=> H; case: (bind_ok H) => {H}.

Section Noise.
Context {R : rcfType} {T LF : Type} {n a : nat}.
Context (stm_of : T -> option 'M[R]_n) (epoch_of : T -> Z)
        (dcm_to_inertial : T -> LF -> option (DCM R)) (exp : R -> R) (add : T -> 'cV[R]_n -> T).
Notation noise := (process_noise R LF a).
Notation filter := (kalman_filter R T LF n a).
Notation propagate := (@propagate R T LF n a epoch_of dcm_to_inertial exp).
Notation to_matrix := (@to_matrix R LF a exp).
Notation noise_contribution := (noise_contribution epoch_of dcm_to_inertial exp add).
Notation time_update := (time_update stm_of epoch_of dcm_to_inertial exp add).
Notation measurement_update := (measurement_update stm_of epoch_of dcm_to_inertial exp add).

(** ** The matrix of a process noise *)
Lemma to_matrix_diag (s : noise) t o :
  to_matrix s t = Ok o ->
  match o with
  | None => ~ ((forall t', start_time s = Some t' -> Z.le t' t) /\
               (forall t', prev_epoch s = Some t' -> Z.le (Z.sub t t') (disable_time s)))
  | Some m => (forall t', start_time s = Some t' -> Z.le t' t) /\
              (forall t', prev_epoch s = Some t' -> Z.le (Z.sub t t') (disable_time s)) /\
              exists2 v, axis_variance exp s t v & m = diag_mx v
  end.
Proof.
rewrite /Kf_Model.to_matrix /axis_variance.
case Est: (start_time s) => [t1|].
- case: Z.ltb_spec => h1.
  + by move=> [<-] [h _]; have := h _ erefl; lia.
  + case Epe: (prev_epoch s) => [t2|].
    * case: Z.ltb_spec => h2.
      -- by move=> [<-] [_ h]; have := h _ erefl; lia.
      -- case: (decay_diag s) => [rates|].
         ++ case: (init_epoch s) => // t0; case: ifP => // _ [<-]; split; first by move=> _ [<-].
            split; first by move=> _ [<-].
            by eexists; last reflexivity; move=> i; rewrite mxE mulNr.
         ++ move=> [<-]; split; first by move=> _ [<-].
            split; first by move=> _ [<-].
            by exists (diag s).
    * case: (decay_diag s) => [rates|].
         ++ case: (init_epoch s) => // t0; case: ifP => // _ [<-]; split; first by move=> _ [<-].
            split=> //.
            by eexists; last reflexivity; move=> i; rewrite mxE mulNr.
         ++ move=> [<-]; split; first by move=> _ [<-].
            split=> //.
            by exists (diag s).
- case Epe: (prev_epoch s) => [t2|].
    * case: Z.ltb_spec => h2.
      -- by move=> [<-] [_ h]; have := h _ erefl; lia.
      -- case: (decay_diag s) => [rates|].
         ++ case: (init_epoch s) => // t0; case: ifP => // _ [<-]; split=> //.
            split; first by move=> _ [<-].
            by eexists; last reflexivity; move=> i; rewrite mxE mulNr.
         ++ move=> [<-]; split=> //.
            split; first by move=> _ [<-].
            by exists (diag s).
    * case: (decay_diag s) => [rates|].
         ++ case: (init_epoch s) => // t0; case: ifP => // _ [<-]; split=> //.
            split=> //.
            by eexists; last reflexivity; move=> i; rewrite mxE mulNr.
         ++ move=> [<-]; split=> //.
            split=> //.
            by exists (diag s).
Qed.

Lemma variance_nonneg (s : noise) t v :
  (forall x, 0 <= exp x) -> nonnegative_noise s -> axis_variance exp s t v -> forall i, 0 <= v 0 i.
Proof.
move=> he hs; rewrite /axis_variance; case: (decay_diag s) => [r|]; last by move=> -> i.
by case: (init_epoch s) => // t0 h i; rewrite h mulr_ge0.
Qed.

Lemma entryE p q (A : 'M[R]_(p, q)) (i : 'I_p) (j : 'I_q) : entry A i j = A i j.
Proof. by rewrite /entry !valK. Qed.
Lemma fixed_view_id p q (A : 'M[R]_(p, q)) : fixed_view p q A = A.
Proof. by apply/matrixP=> i j; rewrite mxE entryE. Qed.

Lemma with_diagonalE p (d : 'rV[R]_a) (N : 'M[R]_p) :
  with_diagonal (diag_mx d) N = diag_mx (\row_i entry N i i).
Proof. by apply/matrixP=> i j; rewrite !mxE; case: eqP => [->|_]; rewrite ?mulr1n ?mulr0n. Qed.

Lemma entry_nonneg p (N : 'M[R]_p) (i : nat) : (forall j, 0 <= N j j) -> 0 <= entry N i i.
Proof. by move=> h; rewrite /entry; case: insubP. Qed.

Lemma psd_diagonal p (N : 'M[R]_p) j : psd N -> 0 <= N j j.
Proof.
move=> h; have := h (delta_mx j 0); rewrite /quad trmx_delta -rowE -colE !mxE.
by [].
Qed.
End Noise.

Lemma state_dcm_diagonal (R : rcfType) (r r' : 'M[R]_3) (d d' : 'M[R]_3) (v1 v2 : 'rV[R]_3)
    (k : 'I_(3 + 3)) :
  r' = r^T -> (forall i, 0 <= v1 0 i) -> (forall i, 0 <= v2 0 i) ->
  0 <= ((block_mx r 0 d r : 'M_(3 + 3)) *m diag_mx (row_mx v1 v2)
        *m (block_mx r' 0 d' r' : 'M_(3 + 3))) k k.
Proof.
move=> -> h1 h2; rewrite diag_mx_row !mulmx_block !mulmx0 !mul0mx !addr0 !add0r.
case: (split_ordP k) => k' ->.
- rewrite block_mxEul mul0mx addr0; apply: psd_diagonal.
  by have [_ h] := covariance_conj r (covariance_diag h1).
- rewrite block_mxEdr; apply: psd_diagonal.
  by have [_ h] := covariance_conj r (covariance_diag h2).
Qed.

(** The rotated noise stays diagonal and nonnegative. *)
Lemma rotate_snc_diag (R : rcfType) a (d : DCM R) (v : 'rV[R]_a) m :
  rotate_snc d (diag_mx v) = Ok m -> (forall i, 0 <= v 0 i) ->
  exists2 w : 'rV[R]_a, (forall i, 0 <= w 0 i) & m = diag_mx w.
Proof.
case: a v m => [|[|[|[|[|[|[|a]]]]]]] v m //=; rewrite with_diagonalE => -[<-] hv.
- exists (\row_i entry (rot_mat d *m fixed_view 3 3 (diag_mx v) *m (rot_mat d)^T) i i) => // i.
  rewrite mxE entryE fixed_view_id; apply: psd_diagonal.
  by have [_ h] := covariance_conj (rot_mat d) (covariance_diag hv).
- eexists; last reflexivity; move=> i; rewrite mxE; apply: entry_nonneg => {i}j.
  rewrite fixed_view_id.
  rewrite -(hsubmxK (v : 'rV_(3 + 3))).
  apply: state_dcm_diagonal => // i.
  - by rewrite mxE; exact: hv.
  - by rewrite mxE; exact: hv.
Qed.

Section Filter.
Context {R : rcfType} {T LF : Type} {n a : nat}.
Context (stm_of : T -> option 'M[R]_n) (epoch_of : T -> Z)
        (dcm_to_inertial : T -> LF -> option (DCM R)) (exp : R -> R) (add : T -> 'cV[R]_n -> T).
Notation noise := (process_noise R LF a).
Notation filter := (kalman_filter R T LF n a).
Notation propagate := (@propagate R T LF n a epoch_of dcm_to_inertial exp).
Notation noise_contribution := (noise_contribution epoch_of dcm_to_inertial exp add).
Notation time_update := (time_update stm_of epoch_of dcm_to_inertial exp add).
Notation measurement_update := (measurement_update stm_of epoch_of dcm_to_inertial exp add).

(** ** Which noise applies, and that it is a covariance *)
Lemma propagate_applicable (s : noise) nominal gap o :
  propagate s nominal gap = Ok o ->
  match o with
  | None => ~ applicable s (epoch_of nominal) gap
  | Some _ => applicable s (epoch_of nominal) gap
  end.
Proof.
rewrite /Kf_Model.propagate; unbind=> om hom; have h := to_matrix_diag hom.
case: om h {hom} => [m|] h; last first.
  by move=> [<-] [h1 [h2 h3]]; apply: h.
case: h => h1 [h2 _]; unbind=> m' _.
case: Z.ltb_spec => h3; first by move=> [<-] [_ [_ h4]]; lia.
by unbind=> g _ [<-]; split; [|split; [|lia]].
Qed.

Lemma propagate_covariance (s : noise) nominal gap q :
  (forall x, 0 <= exp x) -> nonnegative_noise s ->
  propagate s nominal gap = Ok (Some q) -> covariance q.
Proof.
move=> he hs; rewrite /Kf_Model.propagate; unbind=> om hom; have h := to_matrix_diag hom.
case: om h {hom} => [m|] //= [_ [_ [v hv ->]]]; unbind=> m' hm'.
case: Z.ltb_spec => // _; unbind=> g _ [<-]; apply: covariance_conj.
have hv0 := variance_nonneg he hs hv.
case: (local_frame s) hm' => [lf|]; last by move=> [<-]; exact: covariance_diag.
by case: dcm_to_inertial => // d /rotate_snc_diag -/(_ hv0)[w hw ->]; exact: covariance_diag.
Qed.

Definition noises_of (l : seq noise) nominal gap :=
  first_noise epoch_of dcm_to_inertial exp (n := n) nominal gap (rev (zip (iota 0 (size l)) l)).
Lemma noises_of_rcons l s nominal gap :
  noises_of (rcons l s) nominal gap
  = bind (propagate s nominal gap) (fun o =>
      match o with Some c => Ok (Some (size l, c)) | None => noises_of l nominal gap end).
Proof.
rewrite /noises_of size_rcons -addn1 iotaD /= add0n cats1 zip_rcons ?size_iota //.
by rewrite rev_rcons.
Qed.

Lemma noises_of_spec l nominal gap c :
  noises_of l nominal gap = Ok c ->
  match c with
  | None => forall s, List.In s l -> ~ applicable s (epoch_of nominal) gap
  | Some (i, q) =>
      exists s, [/\ nth_error l i = Some s, propagate s nominal gap = Ok (Some q),
                    applicable s (epoch_of nominal) gap &
                    forall j s', (i < j)%N -> nth_error l j = Some s' ->
                      ~ applicable s' (epoch_of nominal) gap]
  end.
Proof.
elim/last_ind: l c => [|l s IH] c; first by move=> [<-].
rewrite noises_of_rcons; unbind=> o ho; have ha := propagate_applicable ho.
have nthl : nth_error (rcons l s) (size l) = Some s.
  by rewrite -cats1 nth_error_app2 // Nat.sub_diag.
case: o ho ha => [q|] ho ha.
- move=> [<-]; exists s; split=> // j s' hj.
  rewrite -cats1 => /(f_equal isSome)/= h.
  have : nth_error (l ++ [:: s]) j <> None by move=> h'; rewrite h' in h.
  move/nth_error_Some; rewrite app_length /= => h'.
  by move: hj => /ssrnat.ltP; rewrite -[size l]/(length l); lia.
- move/IH; case: c => [[i q]|].
  + case=> s' [h1 h2 h3 h4]; exists s'; split=> //.
    * rewrite -cats1 nth_error_app1 //; apply/nth_error_Some; by rewrite h1.
    * move=> j s'' hj hn; have hlen : (j <= size l)%coq_nat.
        have : nth_error (rcons l s) j <> None by rewrite hn.
        by move/nth_error_Some; rewrite -cats1 app_length /= -[size l]/(length l); lia.
      case: (Nat.eq_dec j (size l)) => [e|ne].
        by move: hn; rewrite e nthl => -[<-].
      apply: (h4 j) => //; move: hn; rewrite -cats1 nth_error_app1 //.
      by rewrite -[length l]/(size l); lia.
  + move=> h s'; rewrite -cats1 => /in_app_iff[|]; first exact: h.
    by case=> [<-|[]].
Qed.

Lemma add_noise_covariance (kf : filter) nominal c P :
  (forall x, 0 <= exp x) -> (forall s, List.In s (process_noises kf) -> nonnegative_noise s) ->
  noise_contribution kf nominal = Ok c -> covariance P -> covariance (add_noise c P).
Proof.
move=> he hs hc hP; have := noises_of_spec hc; case: c hc => [[i q]|] //= _ [s [h1 h2 _ _]].
apply: covarianceD => //; apply: propagate_covariance h2 => //; apply: hs.
exact: nth_error_In h1.
Qed.

(** ** The updates *)
Lemma use_noise_est c (kf : filter) : prev_estimate (use_noise c kf) = prev_estimate kf.
Proof. by case: c => [[i q]|]. Qed.
Lemma use_noise_noises c (kf : filter) : process_noises (use_noise c kf) = process_noises kf.
Proof. by case: c => [[i q]|]. Qed.
Lemma use_noise_variant c (kf : filter) : variant (use_noise c kf) = variant kf.
Proof. by case: c => [[i q]|]. Qed.
Lemma use_noise_twice c (kf : filter) : use_noise c (use_noise c kf) = use_noise c kf.
Proof. by case: c => [[i q]|]. Qed.
Lemma contribution_use c (kf : filter) nominal :
  noise_contribution (use_noise c kf) nominal = noise_contribution kf nominal.
Proof. by rewrite /Kf_Model.noise_contribution use_noise_est use_noise_noises. Qed.

Lemma time_update_use c (kf : filter) nominal :
  noise_contribution kf nominal = Ok c -> stm_of nominal <> None ->
  time_update (use_noise c kf) nominal = time_update kf nominal.
Proof.
move=> h; rewrite /Kf_Model.time_update; case: (stm_of nominal) => // phi _.
by rewrite contribution_use h use_noise_est use_noise_variant use_noise_twice.
Qed.

Lemma set_estimate_valid e c (kf : filter) :
  (forall s, List.In s (process_noises kf) -> nonnegative_noise s) -> covariance (covar e) ->
  valid (set_estimate epoch_of add e (use_noise c kf)).
Proof.
move=> h1 h2; split=> //= s /in_map_iff[s' [<-]].
by rewrite use_noise_noises => /h1.
Qed.
Lemma use_noise_valid c (kf : filter) : valid kf -> valid (use_noise c kf).
Proof. by case: c => [[i q]|]. Qed.

Definition prior (c : option (nat * 'M[R]_n)) (phi : 'M[R]_n) (kf : filter) : 'M[R]_n :=
  add_noise c (phi *m covar (prev_estimate kf) *m phi^T).

Lemma prior_covariance (kf : filter) nominal c phi :
  (forall x, 0 <= exp x) -> valid kf -> noise_contribution kf nominal = Ok c ->
  covariance (prior c phi kf).
Proof. by move=> he [h1 h2] hc; apply: (add_noise_covariance he h2 hc); apply: covariance_conj. Qed.

Lemma time_update_valid (kf : filter) nominal :
  (forall x, 0 <= exp x) -> valid kf -> valid (time_update kf nominal).1.
Proof.
move=> he hv; rewrite /Kf_Model.time_update; case: (stm_of nominal) => // phi.
case hc: Kf_Model.noise_contribution => //=; apply: set_estimate_valid; first by case: hv.
exact: (prior_covariance phi he hv hc).
Qed.

(** The outcomes of a measurement update. *)
Lemma measurement_update_valid m (kf : filter) nominal (real computed : 'cV[R]_m) r_k h rej :
  (forall x, 0 <= exp x) -> valid kf -> covariance r_k ->
  valid (measurement_update kf nominal real computed r_k h rej).1.
Proof.
move=> he hv hr; rewrite /Kf_Model.measurement_update; case hst: (stm_of nominal) => [phi|] //.
case hc: Kf_Model.noise_contribution => [c|||] //.
set l := match cholesky _ with Some _ => _ | None => _ end; case: l => [l|]; last exact: use_noise_valid.
case: ifP => _.
  rewrite time_update_use // ?hst //.
  have := time_update_valid nominal he hv.
  by case: Kf_Model.time_update => kf'' [].
set g := match cholesky _ with Some _ => _ | None => _ end; case: g => [g|]; last exact: use_noise_valid.
set sp := match variant kf with ReferenceUpdate => _ | DeviationTracking => _ end.
case: sp => x y /=; apply: set_estimate_valid; first by case: hv.
rewrite /= -/(joseph (add_noise c (phi *m covar (prev_estimate kf) *m phi^T)) h r_k g).
have hj := @joseph_covariance _ _ _ _ h _ g (prior_covariance phi he hv hc) hr.
by rewrite halves; case: hj.
Qed.

(** Accepted. *)
Lemma measurement_accepted m (kf : filter) nominal (real computed : 'cV[R]_m) r_k h rej kf' e r g :
  (forall x, 0 <= exp x) -> valid kf -> covariance r_k ->
  measurement_update kf nominal real computed r_k h rej = (kf', Ok (e, r, Some g)) ->
  exists phi c,
    [/\ stm_of nominal = Some phi, noise_contribution kf nominal = Ok c,
        kf' = set_estimate epoch_of add e (use_noise c kf),
        g *m innovation (prior c phi kf) h r_k = prior c phi kf *m h^T &
    [/\ covar e = joseph (prior c phi kf) h r_k g, covar_bar e = prior c phi kf,
        nominal_state e = nominal,
        rejected r = false /\
        postfit r = Some (match variant kf with
                          | ReferenceUpdate => real - computed - h *m state_deviation e
                          | DeviationTracking =>
                              real - computed - h *m (phi *m state_deviation (prev_estimate kf))
                          end) &
    state_deviation e
      = match variant kf with
        | ReferenceUpdate => g *m (real - computed)
        | DeviationTracking =>
            phi *m state_deviation (prev_estimate kf)
            + g *m (real - computed - h *m (phi *m state_deviation (prev_estimate kf)))
        end]].
Proof.
move=> he hv hr; rewrite /Kf_Model.measurement_update; case hst: (stm_of nominal) => [phi|] //.
case hc: Kf_Model.noise_contribution => [c|||] //.
have hp := prior_covariance phi he hv hc.
set l := match cholesky _ with Some _ => _ | None => _ end; case: l => [l|] //.
case: ifP => _; first by case: Kf_Model.time_update => kf'' [].
set s_k := h *m _ + r_k.
case hg: (match cholesky s_k with Some _ => _ | None => _ end) => [g'|] //.
set sp := match variant kf with ReferenceUpdate => _ | DeviationTracking => _ end.
case hsp: sp => [x y] [<- <- <- <-] /=; exists phi, c; split=> //.
- have hs : s_k^T = s_k by apply: (innovation_sym h (proj1 hp) (proj1 hr)).
  rewrite -[innovation _ _ _]/s_k.
  case hch: (cholesky s_k) hg => [l'|].
    have hu : s_k \in unitmx by apply: definite_unit; exact: cholesky_definite hs hch.
    move=> [<-]; rewrite (cholesky_solveE _ hs hch) trmx_mul trmxK trmx_inv hs.
    by rewrite mulmxKV.
  by rewrite /try_inverse; case: ifP => // hu [<-]; rewrite mulmxKV.
- split=> //.
  + by rewrite halves //; apply: (proj1 (joseph_covariance h g' hp hr)).
  + by split=> //; move: hsp; rewrite /sp; case: (variant kf) => -[h1 h2]; rewrite -?h1 -?h2.
  + by move: hsp; rewrite /sp; case: (variant kf) => -[<-].
Qed.

Lemma measurement_time_only m (kf : filter) nominal (real computed : 'cV[R]_m) r_k h rej kf' e r :
  measurement_update kf nominal real computed r_k h rej = (kf', Ok (e, r, None)) ->
  exists kf'', time_update kf nominal = (kf'', Ok e).
Proof.
rewrite /Kf_Model.measurement_update; case hst: (stm_of nominal) => [phi|] //.
case hc: Kf_Model.noise_contribution => [c|||] //.
set l := match cholesky _ with Some _ => _ | None => _ end; case: l => [l|] //.
case: ifP => _.
  rewrite time_update_use // ?hst //.
  by case ht: Kf_Model.time_update => [kf'' [e'|||]] //= -[_ <- _]; exists kf''.
set g := match cholesky _ with Some _ => _ | None => _ end; case: g => [g|] //.
by set sp := match variant kf with ReferenceUpdate => _ | DeviationTracking => _ end; case: sp.
Qed.

(** What the decision is based on. *)
Lemma measurement_decides m (kf : filter) nominal (real computed : 'cV[R]_m) r_k h rej phi c :
  (forall x, 0 <= exp x) -> valid kf -> definite r_k ->
  stm_of nominal = Some phi -> noise_contribution kf nominal = Ok c ->
  let rt := Num.sqrt (quad (invmx (innovation (prior c phi kf) h r_k)) (real - computed) / m%:R) in
  exists kf' e r g,
    [/\ measurement_update kf nominal real computed r_k h rej = (kf', Ok (e, r, g)),
        ratio r = rt, covar_bar e = prior c phi kf,
        rejected r = (if rej is Some sigmas then sigmas < rt else false) &
        if rejected r then time_update kf nominal = (kf', Ok e) /\ g = None /\ postfit r = None
        else g <> None /\ postfit r <> None].
Proof.
move=> he hv hr hst hc rt.
have hp := prior_covariance phi he hv hc.
have hs := innovation_definite h hp hr.
have [l hl] := cholesky_complete hs.
rewrite /Kf_Model.measurement_update hst hc.
rewrite -/(prior c phi kf) -/(innovation (prior c phi kf) h r_k) hl.
rewrite (whitened_norm _ (proj1 hs) hl) -/rt.
have ht : exists kf' e, time_update kf nominal = (kf', Ok e) /\ covar_bar e = prior c phi kf.
  by rewrite /Kf_Model.time_update hst hc; do 2 eexists; split; first reflexivity.
case: ht => kf' [e [ht hb]].
rewrite time_update_use ?hst // ht.
case: ifP => hrt.
- do 4 eexists; split; first reflexivity; rewrite /= ?hrt //.
- set sp := match variant kf with ReferenceUpdate => _ | DeviationTracking => _ end.
  case: sp => x y; do 4 eexists; split; first reflexivity; by rewrite /= ?hrt.
Qed.

(** ** Two observables one after the other *)
Lemma to_seconds0 : to_seconds 0 = 0 :> R.
Proof. by rewrite /to_seconds mul0r. Qed.
Lemma write_all_zero l (g : 'M[R]_(n, a)) :
  all (fun w => w.2 == 0) l -> write_all l 0 = Ok g -> g = 0.
Proof.
elim: l => [|[[i j] x] l IH] /=; first by move=> _ [<-].
case/andP=> /eqP -> h; rewrite /set_entry; case: ifP => // _ /=.
rewrite (_ : \matrix_(k, l0) _ = 0); first exact: IH.
by apply/matrixP=> k k'; rewrite !mxE; case: ifP.
Qed.
Lemma gamma_writes_zero : all (fun w => w.2 == 0 :> R) (@gamma_writes R a 0).
Proof.
rewrite /gamma_writes; elim: (iota 0 (a %/ 3)) => [|b l IH] //=.
have e : (0 : R) ^+ 2 / 2%:R == 0 by rewrite expr0n mul0r.
by rewrite e eqxx /=; exact: IH.
Qed.
Lemma propagate_no_gap (s : noise) nominal q : propagate s nominal 0 = Ok (Some q) -> q = 0.
Proof.
rewrite /Kf_Model.propagate; unbind=> -[m|] // _; unbind=> m' _.
case: Z.ltb_spec => // _; unbind=> g hg [<-].
rewrite to_seconds0 in hg; by rewrite (write_all_zero gamma_writes_zero hg) ?mul0mx.
Qed.

Lemma contribution_no_gap (kf : filter) nominal c P :
  est_epoch epoch_of add (prev_estimate kf) = epoch_of nominal ->
  noise_contribution kf nominal = Ok c -> add_noise c P = P.
Proof.
move=> hg; rewrite /Kf_Model.noise_contribution hg Z.sub_diag => h.
have := noises_of_spec h; case: c h => [[i q]|] // _ [s [_ hq _ _]].
by rewrite /= (propagate_no_gap hq) addr0.
Qed.

Lemma two_updates m1 m2 (kf kf1 kf2 : filter) nominal nominal'
    (z1 c1 : 'cV[R]_m1) (z2 c2 c2' : 'cV[R]_m2) R1 R2 h1 h2 e1 e2 r1 r2 g1 g2 :
  (forall x, 0 <= exp x) -> valid kf -> definite R1 -> definite R2 ->
  (forall t d, epoch_of (add t d) = epoch_of t) ->
  stm_of nominal' = Some 1%:M -> epoch_of nominal' = epoch_of nominal ->
  measurement_update kf nominal z1 c1 R1 h1 None = (kf1, Ok (e1, r1, Some g1)) ->
  measurement_update kf1 nominal' z2 c2' R2 h2 None = (kf2, Ok (e2, r2, Some g2)) ->
  c2' = match variant kf with
        | DeviationTracking => c2
        | ReferenceUpdate => c2 + h2 *m state_deviation e1
        end ->
  exists kf' e r g,
    [/\ measurement_update kf nominal (col_mx z1 z2) (col_mx c1 c2) (block_mx R1 0 0 R2)
          (col_mx h1 h2) None = (kf', Ok (e, r, Some g)),
        covar e = covar e2 &
        state_deviation e
          = match variant kf with
            | DeviationTracking => state_deviation e2
            | ReferenceUpdate => state_deviation e1 + state_deviation e2
            end].
Proof.
move=> he hv hR1 hR2 hadd hst' hep u1 u2 hc2.
have cR1 := definite_covariance hR1; have cR2 := definite_covariance hR2.
have [phi [c [hst hc hk1 hg1 [hP1 _ hn1 _ hx1]]]] := measurement_accepted he hv cR1 u1.
have hv1 : valid kf1 by have := measurement_update_valid nominal z1 c1 h1 None he hv cR1; rewrite u1.
have [phi' [c' [hst2 hcc hk2 hg2 [hP2 _ _ _ hx2]]]] := measurement_accepted he hv1 cR2 u2.
have hphi : phi' = 1%:M by move: hst2; rewrite hst' => -[].
have hnc : prior c' phi' kf1 = joseph (prior c phi kf) h1 R1 g1.
  rewrite /prior hphi trmx1 mulmx1 mul1mx; rewrite (contribution_no_gap _ _ hcc) ?hk1 ?hP1 //=.
  by rewrite /est_epoch hadd hn1 hep.
rewrite hnc in hg2 hP2.
have hD := definite_block hR1 hR2.
have [kf' [e [r [g [hu _ _ hrej]]]]] :=
  measurement_decides (col_mx z1 z2) (col_mx c1 c2) (col_mx h1 h2) None he hv hD hst hc.
rewrite hrej => -[hgs _]; case: g hu hgs => [g|] // hu _.
exists kf', e, r, g; split=> //.
all: have [phi2 [c3 [hst3 hc3 _ hg [hP _ _ _ hx]]]] :=
       measurement_accepted he hv (definite_covariance hD) hu.
all: move: hst3 hc3; rewrite hst hc => -[hp2] [hc23]; subst phi2 c3.
all: have hpc := prior_covariance phi he hv hc.
all: have hK := two_gain (proj1 hpc) (proj1 cR1) hg1 hg2.
all: have hg' := gain_unique (definite_unit (innovation_definite _ hpc hD)) hg hK.
- by rewrite hP hP2 hg' (two_covariance (proj1 hpc) (proj1 cR1) (proj1 cR2) hg1 hg2).
- rewrite hx hx2 hg' hc2 hphi hk1 /= use_noise_variant mul1mx.
  have := two_state h1 h2 g1 g2.
  case hvar: (variant kf) => ht.
  + have := ht 0 (z1 - c1) (z2 - c2); rewrite !mulmx0 !subr0 !add0r.
    by rewrite opp_col_mx add_col_mx => <-; rewrite hx1 hvar opprD addrA.
  + rewrite hx1 hvar; have := ht (phi *m state_deviation (prev_estimate kf)) (z1 - c1) (z2 - c2).
    by rewrite opp_col_mx add_col_mx => <-.
Qed.

(** Taken in the other order. *)
Lemma joint_swapped n' m1 m2 (P : 'M[R]_n') (h1 : 'M[R]_(m1, n')) (h2 : 'M[R]_(m2, n'))
    R1 R2 g g' (x : 'cV[R]_n') (y1 : 'cV[R]_m1) (y2 : 'cV[R]_m2) :
  covariance P -> definite R1 -> definite R2 ->
  g *m innovation P (col_mx h1 h2) (block_mx R1 0 0 R2) = P *m (col_mx h1 h2)^T ->
  g' *m innovation P (col_mx h2 h1) (block_mx R2 0 0 R1) = P *m (col_mx h2 h1)^T ->
  joseph P (col_mx h1 h2) (block_mx R1 0 0 R2) g = joseph P (col_mx h2 h1) (block_mx R2 0 0 R1) g' /\
  g *m (col_mx y1 y2 - col_mx h1 h2 *m x) = g' *m (col_mx y2 y1 - col_mx h2 h1 *m x).
Proof.
move=> hP hR1 hR2 hg hg'.
have hD := definite_block hR1 hR2; have hD' := definite_block hR2 hR1.
rewrite (joseph_short (proj1 hP) (proj1 hD) hg) (joseph_short (proj1 hP) (proj1 hD') hg').
have hs : row_mx (lsubmx g) (rsubmx g) *m innovation P (col_mx h1 h2) (block_mx R1 0 0 R2)
          = P *m (col_mx h1 h2)^T by rewrite hsubmxK.
have hg2 := gain_unique (definite_unit (innovation_definite _ hP hD')) hg' (swapped_gain hs).
rewrite hg2; move: (lsubmx g) (rsubmx g) (esym (hsubmxK g)) => A B ->.
rewrite !mul_row_col; split; first by congr (_ - _ *m _); rewrite addrC.
by rewrite !mul_col_mx !opp_col_mx !add_col_mx !mul_row_col addrC.
Qed.
End Filter.

(** ** The noise in numbers *)
Section Content.
Context {R : rcfType} {n a : nat}.

Definition last_write (l : list (nat * nat * R)) (i j : nat) (x : R) : R :=
  foldl (fun acc w => if (i == w.1.1) && (j == w.1.2) then w.2 else acc) x l.
Lemma write_allE l (g g' : 'M[R]_(n, a)) :
  write_all l g = Ok g' -> forall i j, g' i j = last_write l i j (g i j).
Proof.
elim: l g => [|[[i j] x] l IH] g; first by move=> [<-].
rewrite [write_all _ _]/=.
case hs: (set_entry g i j x) => [g1|||] //= /IH h i' j'; rewrite h /=; congr last_write.
by move: hs; rewrite /set_entry; case: ifP => // _ [<-]; rewrite mxE.
Qed.
Lemma write_all_bounds l (g g' : 'M[R]_(n, a)) :
  write_all l g = Ok g' -> all (fun w => (w.1.1 < n)%N && (w.1.2 < a)%N) l.
Proof.
elim: l g => [|[[i j] x] l IH] g //; rewrite [write_all _ _]/= /set_entry /=.
by case: ifP => //= _ /IH.
Qed.
Lemma write_all_outcome l (g : 'M[R]_(n, a)) : is_ok (write_all l g) \/ write_all l g = Panic.
Proof.
elim: l g => [|[[i j] x] l IH] g; first by left; exists g.
by rewrite [write_all _ _]/= /set_entry; case: ifP => //= _; right.
Qed.
End Content.

Lemma gamma_three (R : rcfType) n dt (g : 'M[R]_(n, 3)) :
  write_all (gamma_writes (a := 3) dt) 0 = Ok g -> forall i k, g i k = effect dt k i.
Proof.
move=> h i k; rewrite (write_allE h) mxE /last_write /effect /=.
case: k => [[|[|[|k]]] hk] //=; rewrite ?add0n ?muln0 ?addn0 ?andbF ?andbT /=.
all: by case: (nat_of_ord i) => [|[|[|[|[|[|i']]]]]].
Qed.

Section Three.
Context {R : rcfType} {T LF : Type} {n : nat}.
Context (epoch_of : T -> Z) (dcm_to_inertial : T -> LF -> option (DCM R)) (exp : R -> R).

Lemma propagate_three (s : process_noise R LF 3) nominal gap (q : 'M[R]_n) :
  propagate epoch_of dcm_to_inertial exp s nominal gap = Ok (Some q) ->
  exists v w : 'rV[R]_3,
    [/\ axis_variance exp s (epoch_of nominal) v,
        match local_frame s with
        | None => w = v
        | Some lf => exists2 d, dcm_to_inertial nominal lf = Some d &
                     forall k, w 0 k = \sum_j rot_mat d k j ^+ 2 * v 0 j
        end &
        forall i j, q i j = \sum_(k < 3) effect (to_seconds gap) k i * w 0 k * effect (to_seconds gap) k j].
Proof.
rewrite /propagate; unbind=> om hom; have h := to_matrix_diag hom.
case: om h {hom} => [m|] //= [_ [_ [v hv ->]]]; unbind=> m' hm'.
case: Z.ltb_spec => // _; unbind=> g hg [<-].
have hq w i j : (g *m diag_mx w *m g^T) i j
    = \sum_(k < 3) effect (to_seconds gap) k i * w 0 k * effect (to_seconds gap) k j.
  rewrite mxE; apply: eq_bigr => k _.
  by rewrite mul_mx_diag !mxE !(gamma_three hg).
case: (local_frame s) hm' => [lf|]; last first.
  by move=> [<-]; exists v, v; split.
case: dcm_to_inertial => // d; rewrite /rotate_snc with_diagonalE => -[<-].
exists v; eexists; split; first exact: hv; last by move=> i j; rewrite hq.
exists d => // k; rewrite mxE entryE fixed_view_id mxE.
by apply: eq_bigr => j _; rewrite mul_mx_diag !mxE mulrAC expr2.
Qed.
End Three.

(** Two blocks of three do not fit in a state of nine. *)
Lemma propagate_six (R : rcfType) (T LF : Type) n epoch_of dcm_to_inertial exp
    (s : process_noise R LF 6) (nominal : T) gap :
  (n < 12)%N -> decay_diag s = None -> local_frame s = None ->
  applicable s (epoch_of nominal) gap ->
  propagate (n := n) epoch_of dcm_to_inertial exp s nominal gap = Panic.
Proof.
move=> hn hd hl [h1 [h2 h3]]; rewrite /propagate /to_matrix hd hl.
have -> : match start_time s with Some t => Z.ltb (epoch_of nominal) t | None => false end = false.
  by case: (start_time s) h1 => [t|] // h1; apply/Z.ltb_ge; exact: h1.
have -> : match prev_epoch s with
          | Some t => Z.ltb (disable_time s) (Z.sub (epoch_of nominal) t)
          | None => false
          end = false.
  by case: (prev_epoch s) h2 => [t|] // h2; apply/Z.ltb_ge; exact: h2.
cbn [bind]; case: Z.ltb_spec => h4; first lia.
case: (@write_all_outcome R n 6 (gamma_writes (a := 6) (to_seconds gap)) 0) => [[g hg]|->] //.
have := write_all_bounds hg; rewrite /= !andbT.
by case/and5P=> _ _ _ _ /and5P[_ _ _ _ /and4P[_ _ _]]; rewrite ltnNge -ltnS hn.
Qed.
