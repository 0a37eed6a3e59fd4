(** C35: smoothing a solution.  The state type, the addition of a deviation, the state vector and
    the recomputation of a residual by its tracking device are arbitrary. *)
From Verif Require Import Base.
From mathcomp Require Import all_ssreflect all_algebra.
From Verif Require Import Kf_Model Kf_Spec Kf_Linalg Kf_Proofs Sm_Model Sm_Proofs.
Import Order.TTheory GRing.Theory Num.Theory.
Set Implicit Arguments.
Unset Strict Implicit.
Unset Printing Implicit Defensive.
Local Open Scope ring_scope.

(** ** A solution for the examples: a deviation of one, two, three, ... and a doubling transition. *)
Section Demo.
Context (R : rcfType).
Definition entry_of (x : R) : kf_estimate R unit 1 :=
  {| nominal_state := tt; state_deviation := x%:M; covar := 1%:M; covar_bar := 1%:M;
     predicted := false; stm := 2%:R%:M |}.
Definition demo_solution (xs : seq R) : od_solution R unit 1 nat :=
  {| estimates := [seq entry_of x | x <- xs];
     residuals := [seq Some k | k <- iota 0 (size xs)];
     gains := [seq true | _ <- xs]; fs_ratios := [seq None | _ <- xs] |}.
Definition keep_residual (r : nat) (t : unit) : res od_error (option nat) := Ok (Some r).
Definition demo_smooth (s : od_solution R unit 1 nat) :=
  smooth (fun t _ => t) (fun _ => 0) keep_residual s.
End Demo.

Lemma two_unit (R : rcfType) : (2%:R%:M : 'M[R]_1) \in unitmx.
Proof. by rewrite -scalemx1 unitmxZ ?unitmx1 // unitfE pnatr_eq0. Qed.
Lemma demo_smooths (R : rcfType) (x y : R) xs : exists sm, demo_smooth (demo_solution (x :: y :: xs)) = Ok sm.
Proof.
rewrite /demo_smooth; apply: (proj1 (smooth_total _ _ _ _ _)) => //.
- by rewrite /= !size_map size_iota.
- by move=> r t; eexists; reflexivity.
- move=> j e _ /(@nth_error_In _ _ _ _) /=.
  rewrite -[map _ xs]/(List.map (@entry_of R) xs).
  case=> [<-|[<-|]]; [exact: two_unit|exact: two_unit|].
  by move/in_map_iff=> [z [<- _]]; exact: two_unit.
Qed.

(** ** C35: one estimate per estimate, in order, the last one unchanged; the others have the
    deviation and covariance of the next *filtered* estimate brought back by the inverse of its
    state transition matrix, and keep everything else.  Missing with respect to C35: the next
    smoothed estimate, see [C35_chain_refuted]. *)
Theorem C35_smooth_partial :
  forall (R : rcfType) (T Res : Type) n add to_vector recompute (s sm : od_solution R T n Res),
    size (residuals s) = size (estimates s) ->
    smooth add to_vector recompute s = Ok sm ->
    size (estimates sm) = size (estimates s) /\
    size (residuals sm) = size (estimates s) /\
    size (gains sm) = size (estimates s) /\
    size (fs_ratios sm) = size (estimates s) /\
    (forall e, nth_error (estimates s) (size (estimates s)).-1 = Some e ->
       nth_error (estimates sm) (size (estimates s)).-1 = Some e) /\
    (forall k filtered next,
       nth_error (estimates s) k = Some filtered -> nth_error (estimates s) k.+1 = Some next ->
       exists smoothed,
         [/\ nth_error (estimates sm) k = Some smoothed,
             stm next *m state_deviation smoothed = state_deviation next,
             stm next *m covar smoothed *m (stm next)^T = covar next,
             nominal_state smoothed = nominal_state filtered &
             stm smoothed = stm filtered]).
Proof.
move=> R T Res n add to_vector recompute s sm hsz h.
have [h2 h3 h4 h5 [h6 h7 _ h8]] := smooth_spec hsz h; do 4 split=> //.
split; first by move=> e; rewrite h7.
move=> k filtered next hf hn.
have hk : (k.+1 < size (estimates s))%N.
  by apply/ssrnat.ltP; rewrite -[size _]/(length _); apply/nth_error_Some; rewrite hn.
have [e [r [f [[e1 [e0 [r1 [g1 g2 _ g4 [g5 _ _]]]]] [q1 _ _]]]]] := h8 k hk.
move: g1 g2; rewrite hf hn => -[?] [?]; subst e1 e0; exists e; rewrite q1 g5 /=; split=> //.
- by rewrite mulmxA mulmxV // mul1mx.
- rewrite !mulmxA mulmxV // mul1mx -mulmxA -trmx_mul mulmxV // trmx1 mulmx1 //.
Qed.
Print Assumptions C35_smooth_partial.
Example demo_chain (R : rcfType) :
  exists sm, demo_smooth (demo_solution [:: 1; 2%:R; 4%:R : R]) = Ok sm /\
    size (residuals (demo_solution [:: 1; 2%:R; 4%:R : R])) = 3%N.
Proof. by have [sm h] := demo_smooths 1 2%:R [:: 4%:R : R]; exists sm. Qed.

Lemma nth_error_ord_enum n (i : 'I_n) : nth_error (enum 'I_n) i = Some i.
Proof.
have h : forall (A : Type) (x0 : A) l k, (k < size l)%N -> nth_error l k = Some (nth x0 l k).
  by move=> A x0; elim=> [|y l IH] [|k] //= /IH.
by rewrite (h _ i) ?nth_ord_enum // size_enum_ord.
Qed.

(** The consistency ratios: for each component whose variance decreased, the difference of the
    filtered and smoothed estimates over the square root of the decrease of the variance; none
    for the last estimate. *)
Theorem C35_ratios :
  forall (R : rcfType) (T Res : Type) n add to_vector recompute (s sm : od_solution R T n Res),
    size (residuals s) = size (estimates s) ->
    smooth add to_vector recompute s = Ok sm ->
    forall k filtered smoothed, (k.+1 < size (estimates s))%N ->
      nth_error (estimates s) k = Some filtered -> nth_error (estimates sm) k = Some smoothed ->
      exists ratios, nth_error (fs_ratios sm) k = Some (Some ratios) /\
        forall i : 'I_n,
          let x e := to_vector (add (nominal_state e) (state_deviation e)) i 0 in
          (covar smoothed i i < covar filtered i i ->
             exists q, nth_error ratios i = Some (Some q) /\
               0 < covar filtered i i - covar smoothed i i /\
               q * Num.sqrt (covar filtered i i - covar smoothed i i) = x filtered - x smoothed) /\
          (covar filtered i i <= covar smoothed i i -> nth_error ratios i = Some None).
Proof.
move=> R T Res n add to_vector recompute s sm hsz h k filtered smoothed hk hf hs.
have [h2 h3 h4 h5 [h6 h7 _ h8]] := smooth_spec hsz h.
have [e [r [f [[e1 [e0 [r1 [g1 g2 _ g4 [g5 _ g7]]]]] [q1 _ q3]]]]] := h8 k hk.
have E0 : e0 = filtered by move: g2; rewrite hf => -[].
have E : e = smoothed by move: q1; rewrite hs => -[].
rewrite E0 E in g7; exists (fs_ratio add to_vector filtered smoothed).
split; first by rewrite q3 g7.
have hn : forall i : 'I_n, nth_error (fs_ratio add to_vector filtered smoothed) i
    = Some (if 0 < (covar filtered - covar smoothed) i i
            then Some ((to_vector (est_state add filtered) - to_vector (est_state add smoothed)) i 0
                       / Num.sqrt ((covar filtered - covar smoothed) i i)) else None).
  move=> i; rewrite /fs_ratio; set F := fun j : 'I_n => _.
  rewrite (_ : nth_error (map F (enum 'I_n)) i = Some (F i)) //.
  rewrite -[map F _]/(List.map F (enum 'I_n)).
  by apply: map_nth_error; exact: nth_error_ord_enum.
move=> i /=; rewrite hn !mxE; split=> hi.
- have hp : 0 < covar filtered i i - covar smoothed i i by rewrite subr_gt0.
  rewrite hp; eexists; split; first reflexivity; split=> //.
  by rewrite divfK // lt0r_neq0 // sqrtr_gt0.
- by rewrite subr_gt0 ltNge hi.
Qed.
Print Assumptions C35_ratios.
(** A variance that decreases from 1 to 1/4. *)
Example demo_ratios (R : rcfType) :
  exists sm, demo_smooth (demo_solution [:: 1; 2%:R : R]) = Ok sm /\
    size (estimates (demo_solution [:: 1; 2%:R : R])) = 2%N.
Proof. by have [sm h] := @demo_smooths R 1 2%:R [::]; exists sm. Qed.

(** It fails exactly when some matrix is singular, if the devices answer. *)
Theorem C35_singular :
  forall (R : rcfType) (T Res : Type) n add to_vector recompute (s : od_solution R T n Res),
    size (residuals s) = size (estimates s) -> (2 <= size (estimates s))%N ->
    (forall r t, is_ok (recompute r t)) ->
    let singular := exists j e, (0 < j)%N /\ nth_error (estimates s) j = Some e /\ \det (stm e) = 0 in
    (singular -> smooth add to_vector recompute s = Err SingularStateTransitionMatrix) /\
    (~ singular -> is_ok (smooth add to_vector recompute s)).
Proof.
move=> R T Res n add to_vector recompute s hsz h2 hrec.
have [h3 h4] := smooth_total add to_vector hsz h2 hrec; split.
- by move=> [j [e [hj [hn hd]]]]; apply: h4 hj hn _; rewrite unitmxE unitfE hd eqxx.
- move=> h; apply: h3 => j e hj hn; rewrite unitmxE unitfE; apply/eqP=> hd.
  by apply: h; exists j, e.
Qed.
Print Assumptions C35_singular.
Example demo_singular (R : rcfType) :
  let s := {| estimates := [:: entry_of 1; {| nominal_state := tt; state_deviation := 0;
                covar := 1%:M; covar_bar := 1%:M; predicted := false; stm := 0 |}];
              residuals := [:: None; None]; gains := [:: true; true]; fs_ratios := [:: None; None] |}
             : od_solution R unit 1 nat in
  demo_smooth s = Err SingularStateTransitionMatrix.
Proof.
move=> s; apply: (proj1 (C35_singular _ _ _ _ _)) => //; first by move=> r t; eexists; reflexivity.
by exists 1%N; eexists; split=> //; split; first reflexivity; rewrite /= det_mx11 mxE.
Qed.

(** Covariances stay covariances. *)
Theorem C35_covariances :
  forall (R : rcfType) (T Res : Type) n add to_vector recompute (s sm : od_solution R T n Res),
    size (residuals s) = size (estimates s) ->
    smooth add to_vector recompute s = Ok sm ->
    (forall e, List.In e (estimates s) -> covariance (covar e)) ->
    forall e, List.In e (estimates sm) -> covariance (covar e).
Proof.
move=> R T Res n add to_vector recompute s sm hsz h hc e he.
have [h2 h3 h4 h5 [h6 h7 _ h8]] := smooth_spec hsz h.
have [k hk] := In_nth_error _ _ he.
have hlt : (k < size (estimates s))%N.
  by rewrite -h3; apply/ssrnat.ltP; rewrite -[size _]/(length _); apply/nth_error_Some; rewrite hk.
have [hl|hl] := boolP (k.+1 < size (estimates s))%N.
- have [e' [r [f [[e1 [e0 [r1 [g1 _ _ _ [g5 _ _]]]]] [q1 _ _]]]]] := h8 k hl.
  move: q1; rewrite hk g5 => -[->] /=; apply: covariance_conj; apply: hc.
  exact: nth_error_In g1.
- have hk' : k = (size (estimates s)).-1.
    move: hl hlt; rewrite -leqNgt; case: (size (estimates s)) => // m.
    by rewrite !ltnS => g1 g2; apply/eqP; rewrite eqn_leq g1 g2.
  by rewrite hk' h7 in hk; apply: hc; exact: nth_error_In hk.
Qed.
Print Assumptions C35_covariances.

(** The deviation of the last estimate does not reach the first one: with three estimates and
    a doubling transition, the first smoothed deviation is half the second filtered one. *)
Theorem C35_chain_refuted :
  forall R : rcfType, exists sm e0 e1 e2,
    [/\ demo_smooth (demo_solution [:: 0; 0; 4%:R : R]) = Ok sm,
        estimates sm = [:: e0; e1; e2],
        stm e2 *m state_deviation e1 = state_deviation e2 &
        stm e1 *m state_deviation e0 <> state_deviation e1].
Proof.
move=> R; have [sm h] := demo_smooths 0 0 [:: 4%:R : R].
have [h3 [_ [_ [_ [h7 h8]]]]] := C35_smooth_partial (s := demo_solution [:: 0; 0; 4%:R : R]) erefl h.
have [e0 [g0 d0 _ _ s0]] := h8 0%N _ _ erefl erefl.
have [e1 [g1 d1 _ _ s1]] := h8 1%N _ _ erefl erefl.
have g2 := h7 _ erefl.
exists sm, e0, e1, (entry_of 4%:R); split=> //.
- case: (estimates sm) h3 g0 g1 g2 => [|a [|b [|c [|d l]]]] //= _ [->] [->] [->] //.
- rewrite s1; rewrite /= in d0 d1 *; rewrite d0 => h0.
  move: d1; rewrite -h0 raddf0 mulmx0 => /matrixP /(_ 0 0); rewrite !mxE eqxx mulr1n.
  by move/eqP; rewrite eq_sym pnatr_eq0.
Qed.
Print Assumptions C35_chain_refuted.

(** The residuals are shifted: the first smoothed residual is the second measurement, that of the
    next epoch, recomputed with the first state; the first residual is lost. *)
Theorem C35_residuals_refuted :
  forall R : rcfType, exists sm,
    demo_smooth (demo_solution [:: 1; 2%:R : R]) = Ok sm /\
    residuals (demo_solution [:: 1; 2%:R : R]) = [:: Some 0%N; Some 1%N] /\
    residuals sm = [:: Some 1%N; Some 1%N].
Proof.
move=> R; have [sm h] := @demo_smooths R 1 2%:R [::]; exists sm; split=> //; split=> //.
have [_ _ h3 _ [_ _ h4 h5]] := smooth_spec (s := demo_solution [:: 1; 2%:R : R]) erefl h.
have [e [r [f [[e1 [e0 [r1 [_ _ g3 _ [_ g6 _]]]]] [_ q _]]]]] := h5 0%N isT.
move: g3 g6 => [<-] [?]; subst r; rewrite /= in h4.
by case: (residuals sm) h3 h4 q => [|a [|b [|c l]]] //= _ [->] [->].
Qed.
Print Assumptions C35_residuals_refuted.

(** A solution of one estimate, or none, panics. *)
Theorem C35_short_refuted :
  forall (R : rcfType) (s : od_solution R unit 1 nat),
    (size (estimates s) < 2)%N -> demo_smooth s = Panic.
Proof.
move=> R s; rewrite /demo_smooth /smooth -size_rev; case: (rev (estimates s)) => [|e [|e' l]] //.
Qed.
Print Assumptions C35_short_refuted.
