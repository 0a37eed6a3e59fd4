(** The textbook definitions the statistics of a solution are compared with. *)
From Coq Require Import Reals String.
From Verif Require Import Base Sol_Model Stat_Model.
Local Open Scope R_scope.

(** The mean of a list of numbers. *)
Definition sum (l : list R) : R := fold_right Rplus 0 l.
Definition mean (l : list R) : R := sum l / INR (length l).
(** The root mean square of the lengths of some vectors. *)
Definition norm2 (v : list R) : R := sum (map (fun x => x * x) v).
Definition rms (vs : list (list R)) : R := sqrt (mean (map norm2 vs)).

(** The fraction of a sample at or below [x]. *)
Definition empirical_cdf (sample : list R) (x : R) : R :=
  INR (length (filter (fun v => rleb v x) sample)) / INR (length sample).

(** The measurements of a solution, rejected ones included. *)
Definition measured {E G F} (s : solution E numbers G F) : list numbers :=
  flat_map (fun o => match o with Some r => [values r] | None => [] end) (residuals s).
(** Those that were accepted. *)
Definition accepted {E G F} (s : solution E numbers G F) : list numbers :=
  flat_map (fun o => match o with
                     | Some r => if res_rejected r then [] else [values r]
                     | None => []
                     end) (residuals s).
