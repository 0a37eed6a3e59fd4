(** A tactic [abel] for equalities that hold in every abelian group, used on matrices. *)
From mathcomp Require Import all_ssreflect all_algebra.
Import GRing.Theory.
Set Implicit Arguments.
Unset Strict Implicit.
Unset Printing Implicit Defensive.
Local Open Scope ring_scope.

Inductive zexp := ZVar of nat | ZZero | ZOpp of zexp | ZAdd of zexp & zexp.

Section Abel.
Context {V : zmodType}.
Fixpoint zeval (env : seq V) (e : zexp) : V :=
  match e with
  | ZVar k => nth 0 env k
  | ZZero => 0
  | ZOpp e => - zeval env e
  | ZAdd e f => zeval env e + zeval env f
  end.
Fixpoint zcoef (e : zexp) (k : nat) : int :=
  match e with
  | ZVar j => if j == k then 1 else 0
  | ZZero => 0
  | ZOpp e => - zcoef e k
  | ZAdd e f => zcoef e k + zcoef f k
  end.
Fixpoint zwf (n : nat) (e : zexp) : bool :=
  match e with
  | ZVar j => (j < n)%N
  | ZZero => true
  | ZOpp e => zwf n e
  | ZAdd e f => zwf n e && zwf n f
  end.
Lemma zevalE env e : zwf (size env) e ->
  zeval env e = \sum_(k < size env) nth 0 env k *~ zcoef e k.
Proof.
elim: e => [j|_|e IH|e IHe f IHf] /=.
- move=> hj; rewrite (bigD1 (Ordinal hj)) //= eqxx mulr1z big1 ?addr0 // => k hk.
  case: eqP => [h|_]; last by rewrite mulr0z.
  by move: hk; rewrite (_ : k = Ordinal hj) ?eqxx //; apply/val_inj.
- by rewrite big1 // => k _; rewrite mulr0z.
- move=> h; rewrite IH // -sumrN; apply: eq_bigr => k _; by rewrite mulrNz.
- case/andP=> h1 h2; rewrite IHe // IHf // -big_split /=.
  by apply: eq_bigr => k _; rewrite mulrzDl.
Qed.
Lemma abel_correct env e f :
  zwf (size env) e && zwf (size env) f
  && all (fun k => zcoef e k == zcoef f k) (iota 0 (size env)) ->
  zeval env e = zeval env f.
Proof.
case/andP=> /andP[he hf] /allP h; rewrite !zevalE //; apply: eq_bigr => k _.
by rewrite (eqP (h k _)) // mem_iota /= add0n.
Qed.
End Abel.

(** Atoms are compared up to conversion: structures may be inferred along different paths. *)
Ltac abel_mem x env :=
  lazymatch env with
  | nil => constr:(false)
  | ?y :: ?t =>
      match constr:(Set) with
      | _ => let _ := match constr:(Set) with _ => unify x y end in constr:(true)
      | _ => abel_mem x t
      end
  end.
Ltac abel_atoms e env :=
  lazymatch e with
  | @GRing.add _ ?a ?b => let env := abel_atoms a env in abel_atoms b env
  | @GRing.opp _ ?a => abel_atoms a env
  | @GRing.zero _ => env
  | _ => lazymatch abel_mem e env with true => env | _ => constr:(e :: env) end
  end.
Ltac abel_index x env :=
  lazymatch env with
  | ?y :: ?t =>
      match constr:(Set) with
      | _ => let _ := match constr:(Set) with _ => unify x y end in constr:(0%N)
      | _ => let n := abel_index x t in constr:(S n)
      end
  end.
Ltac abel_reify e env :=
  lazymatch e with
  | @GRing.add _ ?a ?b =>
      let a' := abel_reify a env in let b' := abel_reify b env in constr:(ZAdd a' b')
  | @GRing.opp _ ?a => let a' := abel_reify a env in constr:(ZOpp a')
  | @GRing.zero _ => constr:(ZZero)
  | _ => let n := abel_index e env in constr:(ZVar n)
  end.
Ltac abel_at V :=
  lazymatch goal with
  | |- @eq _ ?l ?r =>
      let env := abel_atoms l (@nil (GRing.Zmodule.sort V)) in
      let env := abel_atoms r env in
      let l' := abel_reify l env in
      let r' := abel_reify r env in
      exact (@abel_correct V env l' r' (erefl true))
  end.
Ltac abel :=
  cbv beta;
  match goal with
  | |- context [@GRing.add ?V _ _] => abel_at V
  end.

Section Test.
Context (V : zmodType) (a b c : V).
Lemma abel_test : a + (b - c) = b - (c - a) + 0.
Proof. abel. Qed.
End Test.
