(** Shared vocabulary of the models. *)
From Coq Require Export List ZArith Lia Bool.
Export ListNotations.

(** Outcome of a Rust function returning [Result<A, E>] that may also panic.
    [Panic] stands for an [unwrap] on [None], an out of bounds index, an integer
    underflow or [unreachable!].  [NoFuel] is not an outcome of the code: it says that
    the recursion bound given to the model of an unbounded loop was too small. *)
Inductive res (E A : Type) : Type :=
| Ok (a : A)
| Err (e : E)
| Panic
| NoFuel.
Arguments Ok {E A} a.
Arguments Err {E A} e.
Arguments Panic {E A}.
Arguments NoFuel {E A}.

(** The [?] operator. *)
Definition bind {E A B : Type} (x : res E A) (f : A -> res E B) : res E B :=
  match x with
  | Ok a => f a
  | Err e => Err e
  | Panic => Panic
  | NoFuel => NoFuel
  end.

Definition is_ok {E A : Type} (x : res E A) : Prop := exists a, x = Ok a.
