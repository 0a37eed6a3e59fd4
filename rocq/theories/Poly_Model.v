(** Model of nyx-core/src/polyfit/polynomial.rs: statically sized polynomials and the
    constant, linear and quadratic polynomials of the thrust angles.  [f64] is [R]; a
    [Polynomial<SIZE>] is the list of its [SIZE] coefficients.  Not modelled: the
    [Display] and [LowerHex] impls and [is_nan] (there are no NaN among the reals). *)
From Coq Require Import Reals Lra.
From Verif Require Import Base.
Local Open Scope R_scope.

(** polynomial.rs:29-32: [coefficients], index [i] is the coefficient of power [i]. *)
Definition polynomial := list R.

(** polynomial.rs:35-40 [from_most_significant]. *)
Definition from_most_significant (coeffs : list R) : polynomial := rev coeffs.

(** polynomial.rs:43-45 [order]: [SIZE - 1], which underflows for size 0. *)
Definition order (p : polynomial) : res unit nat :=
  match p with [] => Panic | _ :: t => Ok (length t) end.

(** polynomial.rs:68-69, the body of the loop. *)
Definition horner_step (x : R) (acc : R * R) (val : R) : R * R :=
  let acc_eval := fst acc * x + val in (acc_eval, snd acc * x + acc_eval).

(** polynomial.rs:58-75 [eval_n_deriv].  [iter().skip(1).rev().skip(1)] is
    [skipn 1 (rev (skipn 1 p))]. *)
Definition eval_n_deriv (p : polynomial) (x : R) : res unit (R * R) :=
  match p with
  | [] => Panic
  | [c0] => Ok (c0, 0)
  | c0 :: _ =>
      let l := last p 0 in
      let '(acc_eval, acc_deriv) :=
        fold_left (horner_step x) (skipn 1 (rev (skipn 1 p))) (l, l) in
      Ok (x * acc_eval + c0, acc_deriv)
  end.

(** polynomial.rs:48-50 [eval] and 53-55 [deriv]. *)
Definition eval (p : polynomial) (x : R) : res unit R :=
  bind (eval_n_deriv p x) (fun ed => Ok (fst ed)).
Definition deriv (p : polynomial) (x : R) : res unit R :=
  bind (eval_n_deriv p x) (fun ed => Ok (snd ed)).

(** polynomial.rs:78-82 [zeros]. *)
Definition zeros (size : nat) : polynomial := repeat 0 size.

(** [self.coefficients[i] = v] for [i] in range. *)
Fixpoint set_coeff (p : polynomial) (i : nat) (v : R) : polynomial :=
  match p, i with
  | [], _ => []
  | _ :: t, O => v :: t
  | a :: t, S i => a :: set_coeff t i v
  end.

(** polynomial.rs:85-89 [zero_power]. *)
Definition zero_power (p : polynomial) (i : nat) : polynomial :=
  if Nat.ltb i (length p) then set_coeff p i 0 else p.

(** polynomial.rs:92-98 [zero_below_tolerance]: [for i in 0..=self.order()]. *)
Definition zero_below_tolerance (p : polynomial) (tol : R) : res unit polynomial :=
  bind (order p) (fun n =>
    Ok (fold_left (fun q i => if Rlt_dec (Rabs (nth i q 0)) tol then zero_power q i else q)
          (seq 0 (S n)) p)).

(** polynomial.rs:146-177 the three [Mul] impls. *)
Definition mul (p : polynomial) (k : R) : polynomial := map (fun v => v * k) p.

(** polynomial.rs:179-183 [AddAssign<f64>]: index 0 is out of bounds for size 0. *)
Definition add_assign (p : polynomial) (k : R) : res unit polynomial :=
  match p with [] => Panic | c0 :: t => Ok (c0 + k :: t) end.

(** The loops of 205-210 and 231-236: [p2.coefficients.get(i)] is [None] past its end. *)
Fixpoint zip_with (f : R -> R -> R) (p1 p2 : polynomial) : polynomial :=
  match p1, p2 with
  | [], _ => []
  | c1 :: t1, c2 :: t2 => f c1 c2 :: zip_with f t1 t2
  | c1 :: t1, [] => c1 :: zip_with f t1 []
  end.

(** polynomial.rs:197-212 [add]: panics when the first is shorter than the second. *)
Definition add (p1 p2 : polynomial) : res unit polynomial :=
  if Nat.ltb (length p1) (length p2) then Panic else Ok (zip_with Rplus p1 p2).

(** polynomial.rs:214-220 [impl Add<Polynomial<S1>> for Polynomial<S2>]: the arguments are
    swapped. *)
Definition op_add (self other : polynomial) : res unit polynomial := add other self.

(** polynomial.rs:223-238 [sub]. *)
Definition sub (p1 p2 : polynomial) : res unit polynomial :=
  if Nat.ltb (length p1) (length p2) then Panic else Ok (zip_with Rminus p1 p2).

(** polynomial.rs:240-245 [impl Sub]. *)
Definition op_sub (self other : polynomial) : res unit polynomial := sub self other.

(** polynomial.rs:248-263 [CommonPolynomial]. *)
Inductive common :=
| Constant (a : R)
| Linear (a b : R)
| Quadratic (a b c : R).

(** The fixed size polynomials built in 266-292. *)
Definition to_polynomial (p : common) : polynomial :=
  match p with
  | Constant a => [a]
  | Linear a b => [b; a]
  | Quadratic a b c => [c; b; a]
  end.

(** polynomial.rs:266-278 [eval] and 280-292 [deriv]. *)
Definition common_eval (p : common) (x : R) : res unit R := eval (to_polynomial p) x.
Definition common_deriv (p : common) (x : R) : res unit R := deriv (to_polynomial p) x.

(** [NyxError::PolynomialOrderError]. *)
Inductive order_error := PolynomialOrderError (order : nat).

(** polynomial.rs:294-315 [coeff_in_order]. *)
Definition coeff_in_order (p : common) (n : nat) : res order_error R :=
  match p with
  | Constant a => match n with 0%nat => Ok a | _ => Err (PolynomialOrderError n) end
  | Linear a b =>
      match n with 0%nat => Ok b | 1%nat => Ok a | _ => Err (PolynomialOrderError n) end
  | Quadratic a b c =>
      match n with
      | 0%nat => Ok c | 1%nat => Ok b | 2%nat => Ok a
      | _ => Err (PolynomialOrderError n)
      end
  end.

(** polynomial.rs:317-339 [with_val_in_order]. *)
Definition with_val_in_order (p : common) (v : R) (n : nat) : res order_error common :=
  match p with
  | Constant _ => match n with 0%nat => Ok (Constant v) | _ => Err (PolynomialOrderError n) end
  | Linear a b =>
      match n with
      | 0%nat => Ok (Linear v b) | 1%nat => Ok (Linear a v)
      | _ => Err (PolynomialOrderError n)
      end
  | Quadratic a b c =>
      match n with
      | 0%nat => Ok (Quadratic v b c) | 1%nat => Ok (Quadratic a v c)
      | 2%nat => Ok (Quadratic a b v)
      | _ => Err (PolynomialOrderError n)
      end
  end.

(** polynomial.rs:341-376 [add_val_in_order]. *)
Definition add_val_in_order (p : common) (v : R) (n : nat) : res order_error common :=
  match p with
  | Constant a =>
      match n with 0%nat => Ok (Constant (v + a)) | _ => Err (PolynomialOrderError n) end
  | Linear a b =>
      match n with
      | 0%nat => Ok (Linear (v + a) b) | 1%nat => Ok (Linear a (v + b))
      | _ => Err (PolynomialOrderError n)
      end
  | Quadratic a b c =>
      match n with
      | 0%nat => Ok (Quadratic (v + a) b c) | 1%nat => Ok (Quadratic a (v + b) c)
      | 2%nat => Ok (Quadratic a b (v + c))
      | _ => Err (PolynomialOrderError n)
      end
  end.
