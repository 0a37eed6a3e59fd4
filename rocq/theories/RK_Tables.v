(** The order conditions of the six tables, by computation. *)
From Coq Require Import Reals QArith Qreals Lra.
From Verif Require Import Base Prop_Model RK_Model RK_Spec RK_Check.

Definition table_check (i : integrator) : bool :=
  match i with
  | DormandPrince78 =>
      all_rat (table_of i) &&
      interval_check (table_of i) (t_order (table_of i)) (embedded_order i)
  | _ => exact_check (table_of i) (t_order (table_of i)) (embedded_order i)
  end.

Lemma tables_checked i : table_check i = true.
Proof. destruct i; vm_compute; reflexivity. Qed.

Lemma orders_met i :
  order_within (method_of i) (coeff_b (method_of i)) (order (method_of i)) (table_error i) /\
  order_within (method_of i) (coeff_bstar (method_of i)) (embedded_order i) (table_error i).
Proof.
  pose proof (tables_checked i) as W. pose proof (table_well_formed i) as F.
  unfold table_check in W.
  destruct i; try (apply exact_check_sound; [exact F|exact W|vm_compute; lia]).
  apply andb_prop in W. destruct W as [W1 W2].
  apply interval_check_sound; [exact F|exact W1|exact W2|vm_compute; lia].
Qed.

Lemma weights_order i :
  order_within (method_of i) (coeff_b (method_of i)) (order (method_of i)) (table_error i).
Proof. apply orders_met. Qed.

Lemma embedded_order_met i :
  order_within (method_of i) (coeff_bstar (method_of i)) (embedded_order i) (table_error i).
Proof. apply orders_met. Qed.
