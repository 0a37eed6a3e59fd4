(** Model of the step error estimators, nyx-core/src/propagators/error_ctrl.rs.
    The f64 components are real numbers; a vector of dimension [N] is a list. *)
From Coq Require Import Reals.
From Verif Require Import Base.
Local Open Scope R_scope.

(** error_ctrl.rs:26 *)
Definition REL_ERR_THRESH : R := 1 / 10.

(** error_ctrl.rs:30-70 *)
Inductive error_control :=
| RSSCartesianState | RSSCartesianStep | RSSState | RSSStep
| LargestError | LargestState | LargestStep.

(** nalgebra [OVector] operations used by error_ctrl.rs: component-wise operators, [norm],
    and [fixed_rows::<3>(i)]. *)
Fixpoint zip_with (f : R -> R -> R) (x y : list R) : list R :=
  match x, y with
  | a :: x', b :: y' => f a b :: zip_with f x' y'
  | _, _ => []
  end.
Fixpoint sum_of (f : R -> R) (x : list R) : R :=
  match x with [] => 0 | a :: x' => f a + sum_of f x' end.
Definition norm (x : list R) : R := sqrt (sum_of (fun a => a * a) x).
Definition fixed_rows3 (i : nat) (x : list R) : list R := firstn 3 (skipn i x).

(** error_ctrl.rs:123-127 *)
Definition rss_state (err cand cur : list R) : R :=
  let mag := 1 / 2 * norm (zip_with Rplus cand cur) in
  if Rlt_dec REL_ERR_THRESH mag then norm err / mag else norm err.

(** error_ctrl.rs:128-136 *)
Definition rss_step (err cand cur : list R) : R :=
  let mag := norm (zip_with Rminus cand cur) in
  if Rlt_dec (sqrt REL_ERR_THRESH) mag then norm err / mag else norm err.

(** error_ctrl.rs:137-151: the loop over the components; [max_err] is the running maximum. *)
Fixpoint largest_error (max_err : R) (err delta : list R) : R :=
  match err, delta with
  | e :: err', d :: delta' =>
      let x := if Rlt_dec REL_ERR_THRESH d then Rabs (e / d) else Rabs e in
      largest_error (if Rlt_dec max_err x then x else max_err) err' delta'
  | _, _ => max_err
  end.

(** error_ctrl.rs:152-162 *)
Definition largest_state (err cand cur : list R) : R :=
  let mag := sum_of (fun a => 1 / 2 * Rabs a) (zip_with Rplus cand cur) in
  let e := sum_of Rabs err in
  if Rlt_dec REL_ERR_THRESH mag then e / mag else e.

(** error_ctrl.rs:163-173 *)
Definition largest_step (err cand cur : list R) : R :=
  let mag := sum_of Rabs (zip_with Rminus cand cur) in
  let e := sum_of Rabs err in
  if Rlt_dec REL_ERR_THRESH mag then e / mag else e.

(** error_ctrl.rs:89-122: the larger of the estimates of rows 0..3 and 3..6. *)
Definition cartesian (f : list R -> list R -> list R -> R) (err cand cur : list R) : R :=
  Rmax (f (fixed_rows3 0 err) (fixed_rows3 0 cand) (fixed_rows3 0 cur))
       (f (fixed_rows3 3 err) (fixed_rows3 3 cand) (fixed_rows3 3 cur)).

(** [ErrorControl::estimate], error_ctrl.rs:79-175. [N::dim()] is the length of [err]. *)
Definition estimate (c : error_control) (err cand cur : list R) : R :=
  match c with
  | RSSCartesianState =>
      if (6 <=? length err)%nat then cartesian rss_state err cand cur
      else rss_step err cand cur
  | RSSCartesianStep =>
      if (6 <=? length err)%nat then cartesian rss_step err cand cur
      else rss_step err cand cur
  | RSSState => rss_state err cand cur
  | RSSStep => rss_step err cand cur
  | LargestError => largest_error 0 err (zip_with Rminus cand cur)
  | LargestState => largest_state err cand cur
  | LargestStep => largest_step err cand cur
  end.
