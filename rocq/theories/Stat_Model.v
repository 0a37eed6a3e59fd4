(** Model of the statistics of a solution: nyx-core/src/od/process/solution/stats.rs, except
    the NEES test (lines 345-531), and of od/estimate/residual.rs.

    Numbers are real; [None] stands for a NaN where the code can produce one: a rejected
    residual has a NaN postfit (residual.rs:95), and 0/0.  Warnings are not modelled. *)
From Coq Require Import Reals String.
From Verif Require Import Base RustStd Arc_Model Sol_Model.
Local Open Scope R_scope.

(** residual.rs:35-45 *)
Record numbers := {
  prefit : list R;
  postfit : option (list R);
  whitened : list R;
  ratio : R
}.

(** [dot] *)
Fixpoint dot (x y : list R) : R :=
  match x, y with a :: x', b :: y' => a * b + dot x' y' | _, _ => 0 end.

(** residual.rs:83-105 and 107-130: the numbers of a rejected and of an accepted residual. *)
Definition rejected_numbers (pre white : list R) (rt : R) : numbers :=
  {| prefit := pre; postfit := None; whitened := white; ratio := rt |}.
Definition accepted_numbers (pre white post : list R) (rt : R) : numbers :=
  {| prefit := pre; postfit := Some post; whitened := white; ratio := rt |}.

(** residual.rs:175-177 *)
Definition nis (r : residual numbers) : R := dot (whitened (values r)) (whitened (values r)).

Section Stats.
Context {E G F : Type}.
Notation sol := (solution E numbers G F).

(** A sum of possibly NaN numbers. *)
Fixpoint sum_nan (l : list (option R)) (acc : R) : option R :=
  match l with
  | [] => Some acc
  | None :: _ => None
  | Some x :: l' => sum_nan l' (acc + x)
  end.
Definition sqrt_of_quotient (s : option R) (n : nat) : option R :=
  match s, n with
  | Some x, S _ => Some (sqrt (x / INR n))
  | _, _ => None
  end.

(** stats.rs:148-154 *)
Definition rms_prefit_residuals (s : sol) : option R :=
  sqrt_of_quotient
    (sum_nan (map (fun r => Some (dot (prefit (values r)) (prefit (values r))))
               (flatten (residuals s))) 0)
    (length (residuals s)).
(** stats.rs:157-163 *)
Definition rms_postfit_residuals (s : sol) : option R :=
  sqrt_of_quotient
    (sum_nan (map (fun r => match postfit (values r) with
                            | Some p => Some (dot p p)
                            | None => None
                            end)
               (flatten (residuals s))) 0)
    (length (residuals s)).
(** stats.rs:166-172 *)
Definition rms_residual_ratios (s : sol) : option R :=
  sqrt_of_quotient
    (sum_nan (map (fun r => Some (ratio (values r) ^ 2)) (flatten (residuals s))) 0)
    (length (residuals s)).

(** od/mod.rs: [ODNoResiduals] *)
Inductive stat_error := NoResiduals.

(** stats.rs:175-191 *)
Fixpoint count_within (threshold : R) (l : list (residual numbers)) (total within : nat)
    : nat * nat :=
  match l with
  | [] => (total, within)
  | r :: l' =>
      count_within threshold l' (S total)
        (if Rle_dec (Rabs (ratio (values r))) threshold then S within else within)
  end.
Definition residual_ratio_within_threshold (s : sol) (threshold : R) : res stat_error R :=
  let (total, within) := count_within threshold (flatten (residuals s)) 0 0 in
  if (0 <? total)%nat then Ok (INR within / INR total) else Err NoResiduals.

(** statrs: [Normal::new(mean, std_dev)] is an error unless [std_dev > 0]; otherwise it has
    a cumulative distribution function.  Oracles. *)
Context (cdf : R -> R -> R -> R).
Context (quantile : R -> R).

Definition rleb (a b : R) : bool := if Rle_dec a b then true else false.
Fixpoint rsum (l : list R) : R := match l with [] => 0 | x :: l' => x + rsum l' end.

(** stats.rs:222-230 *)
Fixpoint ks_loop (model_cdf : R -> R) (n : R) (i : nat) (l : list R) (d : R) : R :=
  match l with
  | [] => d
  | v :: l' =>
      let diff := Rabs (INR (S i) / n - model_cdf v) in
      ks_loop model_cdf n (S i) l' (if Rlt_dec d diff then diff else d)
  end.
(** stats.rs:196-232 *)
Definition ks_test_normality (s : sol) : res stat_error R :=
  let rs := flat_map (fun r => whitened (values r)) (accepted_residuals s) in
  match rs with
  | [] => Err NoResiduals
  | _ =>
      let sorted := sort_by rleb rs in
      let n := INR (length sorted) in
      let mean := rsum sorted / n in
      let variance := rsum (map (fun v => (v - mean) ^ 2) sorted) / n in
      let std_dev := sqrt variance in
      if Rlt_dec 0 std_dev then Ok (ks_loop (cdf mean std_dev) n 0 sorted 0) else Panic
  end.

(** stats.rs:245-266; for 0 < alpha <= 2. *)
Definition is_normal (s : sol) (alpha : option R) : res stat_error bool :=
  let n := length (accepted_residuals s) in
  match n with
  | O => Err NoResiduals
  | _ =>
      bind (ks_test_normality s) (fun ks =>
        let a := match alpha with Some a => a | None => 5 / 100 end in
        let c_alpha := sqrt (- ln (a * (5 / 10)) * (5 / 10)) in
        let d_critical := c_alpha / sqrt (INR n) in
        Ok (rleb ks d_critical))
  end.

(** stats.rs:38-44 *)
Record consistency := {
  normalized_sum : R; k_dof : R; lower_bound : R; upper_bound : R; is_nees : bool
}.
(** stats.rs:58-70 *)
Definition is_consistent (c : consistency) : bool :=
  (if Rlt_dec (normalized_sum c) (upper_bound c) then true else false)
  && (if Rlt_dec (lower_bound c) (normalized_sum c) then true else false).
Definition is_underconfident (c : consistency) : bool :=
  if Rlt_dec (normalized_sum c) (lower_bound c) then true else false.
Definition is_overconfident (c : consistency) : bool :=
  if Rlt_dec (upper_bound c) (normalized_sum c) then true else false.

(** stats.rs:282-324, [dim] is [MsrSize::DIM]. *)
Definition nis_consistency (dim : nat) (s : sol) (alpha : option R) : res stat_error consistency :=
  let n := length (accepted_residuals s) in
  match n with
  | O => Err NoResiduals
  | _ =>
      let nis_sum := rsum (map nis (accepted_residuals s)) in
      let k := INR (n * dim) in
      let a := match alpha with Some a => a | None => 5 / 100 end in
      let z_critical := quantile (1 - a / 2) in
      let factor := 2 / (9 * k) in
      Ok {| normalized_sum := nis_sum;
            lower_bound := k * (1 - factor - z_critical * sqrt factor) ^ 3;
            upper_bound := k * (1 - factor + z_critical * sqrt factor) ^ 3;
            k_dof := k; is_nees := false |}
  end.
End Stats.
