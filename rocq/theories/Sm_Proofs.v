(** Proofs about the smoother. *)
From Verif Require Import Base.
From mathcomp Require Import all_ssreflect all_algebra.
From Verif Require Import Kf_Model Kf_Spec Kf_Linalg Kf_Proofs Sm_Model.
Import Order.TTheory GRing.Theory Num.Theory.
Set Implicit Arguments.
Unset Strict Implicit.
Unset Printing Implicit Defensive.
Local Open Scope ring_scope.

Lemma nth_error_rcons_last {A} (l : seq A) x k : k = size l -> nth_error (rcons l x) k = Some x.
Proof. by move=> ->; elim: l => [|y l IH]. Qed.
Lemma nth_error_rcons_lt {A} (l : seq A) x k :
  (k < size l)%N -> nth_error (rcons l x) k = nth_error l k.
Proof. by elim: l k => [|y l IH] [|k] //= h; exact: IH. Qed.

Section Smooth.
Context {R : rcfType} {T Res : Type} {n : nat}.
Notation estimate := (kf_estimate R T n).
Notation solution := (od_solution R T n Res).
Context (add : T -> 'cV[R]_n -> T) (to_vector : T -> 'cV[R]_n).
Context (recompute : Res -> T -> res od_error (option Res)).
Notation smooth_step := (smooth_step add to_vector recompute).
Notation smooth_loop := (smooth_loop add to_vector recompute).
Notation smooth := (smooth add to_vector recompute).

(** What the smoother makes of entry [k] of a solution. *)
Definition smoothed_at (s : solution) (k : nat) (e : estimate) (r : option Res)
    (f : option (seq (option R))) : Prop :=
  exists e1 e0 r1,
    [/\ nth_error (estimates s) k.+1 = Some e1, nth_error (estimates s) k = Some e0,
        nth_error (residuals s) k.+1 = Some r1, stm e1 \in unitmx &
    [/\ e = set_deviation_covar e0 (invmx (stm e1) *m state_deviation e1)
              (invmx (stm e1) *m covar e1 *m (invmx (stm e1))^T),
        match r1 with None => r = None | Some r1 => recompute r1 (est_state add e) = Ok r end &
        f = Some (fs_ratio add to_vector e0 e)]].

Lemma smooth_step_spec s k sm sm' :
  smooth_step s k sm = Ok sm' ->
  exists e r f, smoothed_at s k e r f /\
    [/\ estimates sm' = rcons (estimates sm) e, residuals sm' = rcons (residuals sm) r,
        gains sm' = rcons (gains sm) false & fs_ratios sm' = rcons (fs_ratios sm) f].
Proof.
rewrite /Sm_Model.smooth_step.
case h1: nth_error => [e1|] //; case h2: nth_error => [e0|] //; case h3: nth_error => [r1|] //.
rewrite /try_inverse; case: ifP => // hu; unbind=> r' hr' [<-].
do 3 eexists; split; last by split; reflexivity.
exists e1, e0, r1; split=> //; split=> //.
by case: r1 hr' {h3} => [r1|] // [<-].
Qed.

Lemma smooth_loop_spec s k sm sm' :
  smooth_loop s k sm = Ok sm' ->
  exists es rs fs,
    [/\ estimates sm' = estimates sm ++ rev es, residuals sm' = residuals sm ++ rev rs,
        gains sm' = gains sm ++ nseq k.+1 false, fs_ratios sm' = fs_ratios sm ++ rev fs &
    [/\ size es = k.+1, size rs = k.+1, size fs = k.+1 &
        forall j, (j <= k)%N -> exists e r f,
          smoothed_at s j e r f /\
          [/\ nth_error es j = Some e, nth_error rs j = Some r & nth_error fs j = Some f]]].
Proof.
elim: k sm sm' => [|k IH] sm sm'; rewrite [Sm_Model.smooth_loop _ _ _ _ _ _]/=; unbind=> sm1.
- move=> hs [<-]; case/smooth_step_spec: hs => e [r [f [h [-> -> -> ->]]]].
  exists [:: e], [:: r], [:: f]; rewrite /= !cats1; split=> //; split=> //.
  by case=> // _; exists e, r, f.
- move=> hs /IH[es [rs [fs [-> -> -> -> [h1 h2 h3 h4]]]]].
  case/smooth_step_spec: hs => e [r [f [h [-> -> -> ->]]]].
  exists (rcons es e), (rcons rs r), (rcons fs f).
  rewrite !rev_rcons !cat_rcons !size_rcons h1 h2 h3; split=> //; split=> // j.
  rewrite leq_eqVlt => /orP[/eqP->|hj].
  + exists e, r, f; split=> //.
    by rewrite !nth_error_rcons_last.
  + case: (h4 j hj) => e' [r' [f' [hs [g1 g2 g3]]]]; exists e', r', f'; split=> //.
    by rewrite !nth_error_rcons_lt ?h1 ?h2 ?h3.
Qed.

Lemma smooth_spec s sm :
  size (residuals s) = size (estimates s) -> smooth s = Ok sm ->
  [/\ (2 <= size (estimates s))%N, size (estimates sm) = size (estimates s),
      size (residuals sm) = size (estimates s), size (gains sm) = size (estimates s) &
  [/\ size (fs_ratios sm) = size (estimates s),
      nth_error (estimates sm) (size (estimates s)).-1
        = nth_error (estimates s) (size (estimates s)).-1,
      nth_error (residuals sm) (size (estimates s)).-1
        = nth_error (residuals s) (size (estimates s)).-1 &
      forall k, (k.+1 < size (estimates s))%N -> exists e r f,
        smoothed_at s k e r f /\
        [/\ nth_error (estimates sm) k = Some e, nth_error (residuals sm) k = Some r &
            nth_error (fs_ratios sm) k = Some f]]].
Proof.
move=> hsz; rewrite /Sm_Model.smooth.
case he: (rev (estimates s)) => [|e [|e2 l]] //; case hr: (rev (residuals s)) => [|r lr] //.
have Es : estimates s = rcons (rcons (rev l) e2) e by rewrite -[LHS]revK he !rev_cons.
have Rs : residuals s = rcons (rev lr) r by rewrite -[LHS]revK hr !rev_cons.
have hN : size (estimates s) = (size l).+2 by rewrite Es !size_rcons size_rev.
unbind=> sm1 /smooth_loop_spec[es [rs [fs [h1 h2 h3 h4 [g1 g2 g3 g4]]]]] [<-] /=.
rewrite hN [_.-2]/= in h1 h2 h3 h4 g1 g2 g3 g4.
rewrite h1 h2 h3 h4 !cat1s !rev_cons !revK !size_rcons g1 g2 g3 hN.
have -> : size (false :: nseq (size l).+1 false) = (size l).+2 by rewrite /= size_nseq.
rewrite [_.-1]/=.
have hlr : size lr = (size l).+1 by move: hsz; rewrite hN Rs size_rcons size_rev => -[].
split=> //; split=> //.
- by rewrite Es !nth_error_rcons_last // size_rcons size_rev.
- by rewrite Rs !nth_error_rcons_last // size_rev.
- move=> k hk; case: (g4 k hk) => e' [r' [f' [hs [q1 q2 q3]]]]; exists e', r', f'; split=> //.
  by rewrite !nth_error_rcons_lt ?g1 ?g2 ?g3.
Qed.

(** It returns as soon as the matrices can be inverted. *)
Lemma nth_error_lt {A} (l : seq A) j : (j < size l)%N -> exists x, nth_error l j = Some x.
Proof.
move=> /ssrnat.ltP h; case E: nth_error => [x|]; first by exists x.
by move/nth_error_None: E; rewrite -[length _]/(size _); lia.
Qed.
Lemma smooth_step_cases s k sm :
  size (residuals s) = size (estimates s) -> (k.+1 < size (estimates s))%N ->
  (forall r t, is_ok (recompute r t)) ->
  exists e, nth_error (estimates s) k.+1 = Some e /\
    if stm e \in unitmx then is_ok (smooth_step s k sm)
    else smooth_step s k sm = Err SingularStateTransitionMatrix.
Proof.
move=> hsz hk hrec; rewrite /Sm_Model.smooth_step.
have [e1 h1] := nth_error_lt hk; have [e0 h0] := nth_error_lt (ltnW hk).
rewrite -hsz in hk; have [r hr] := nth_error_lt hk.
rewrite h1 h0 hr /try_inverse; exists e1; split=> //; case hu: (stm e1 \in unitmx) => //.
case: r hr => [r|] _ /=; last by eexists; reflexivity.
by case: (hrec r (est_state add (set_deviation_covar e0 (invmx (stm e1) *m state_deviation e1)
              (invmx (stm e1) *m covar e1 *m (invmx (stm e1))^T)))) => r' -> /=; eexists; reflexivity.
Qed.
Lemma smooth_loop_total s k sm :
  size (residuals s) = size (estimates s) -> (k.+1 < size (estimates s))%N ->
  (forall r t, is_ok (recompute r t)) ->
  ((forall j e, (0 < j <= k.+1)%N -> nth_error (estimates s) j = Some e -> stm e \in unitmx) ->
   is_ok (smooth_loop s k sm)) /\
  (forall j e, (0 < j <= k.+1)%N -> nth_error (estimates s) j = Some e -> stm e \notin unitmx ->
   smooth_loop s k sm = Err SingularStateTransitionMatrix).
Proof.
move=> hsz + hrec; elim: k sm => [|k IH] sm hk; rewrite [Sm_Model.smooth_loop _ _ _ _ _ _]/=.
all: have [e1 [he1]] := smooth_step_cases sm hsz hk hrec.
- case: ifP => hu.
  + move=> [sm1 ->]; split; first by exists sm1.
    move=> [|[|j]] e // _; rewrite he1 => -[<-]; by rewrite hu.
  + move=> ->; split=> // h; by rewrite (h 1%N e1) in hu.
- case: ifP => hu.
  + move=> [sm1 ->]; have [h1 h2] := IH sm1 (ltnW hk); split.
    * move=> h; apply: h1 => j e /andP[hj hj']; apply: h; by rewrite hj ltnW.
    * move=> j e /andP[hj]; rewrite leq_eqVlt => /orP[/eqP->|hj'].
        by rewrite he1 => -[<-]; rewrite hu.
      by apply: h2; rewrite hj.
  + move=> ->; split=> // h; by rewrite (h k.+2 e1) // ?leqnn in hu.
Qed.

Lemma smooth_total s :
  size (residuals s) = size (estimates s) -> (2 <= size (estimates s))%N ->
  (forall r t, is_ok (recompute r t)) ->
  ((forall j e, (0 < j)%N -> nth_error (estimates s) j = Some e -> stm e \in unitmx) ->
   is_ok (smooth s)) /\
  (forall j e, (0 < j)%N -> nth_error (estimates s) j = Some e -> stm e \notin unitmx ->
   smooth s = Err SingularStateTransitionMatrix).
Proof.
move=> hsz h2 hrec; rewrite /Sm_Model.smooth.
have : size (rev (estimates s)) = size (estimates s) by rewrite size_rev.
have : size (rev (residuals s)) = size (estimates s) by rewrite size_rev.
case: (rev (estimates s)) => [|e [|e2 l]].
- by move=> _ h; move: h2; rewrite -h.
- by move=> _ h; move: h2; rewrite -h.
case: (rev (residuals s)) => [|r lr]; first by move=> h; move: h2; rewrite -h.
move=> _ hl; set sm0 := Build_od_solution _ _ _ _.
have hk : ((size (estimates s)).-2.+1 < size (estimates s))%N by rewrite -hl /=.
have [h3 h4] := smooth_loop_total sm0 hsz hk hrec; split.
- move=> h; have [|sm ->] := h3; first by move=> j e' /andP[hj _]; exact: h.
  by eexists; reflexivity.
- move=> j e' hj hn hu; rewrite (h4 j e') // hj /=.
  have : (j < size (estimates s))%N.
    by apply/ssrnat.ltP; rewrite -[size _]/(length _); apply/nth_error_Some; rewrite hn.
  by rewrite -hl.
Qed.
End Smooth.
