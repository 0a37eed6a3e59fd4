(** Model of nyx-core/src/dynamics/gravity_field.rs: the acceleration of a gravity field
    given by its spherical harmonics, and its gradient.

    [f64] is [R].  A matrix is the function of its entries; the entries of the tables that
    are divided by zero or are roots of negative numbers (never used) are whatever [R]
    makes of them.  Reading outside of a matrix or a vector is [Panic], for the unchecked
    reads ([get_unchecked]) too. *)
From Coq Require Import Reals List.
From Verif Require Import Base Vec3 Sc_Model Dyn_Model Dual Orb_Model.
Import ListNotations.
Local Open Scope R_scope.

(** io/gravity.rs:86-95 [GravityFieldData]: [degree], [order] and the square matrices of the
    coefficients ([size] rows and columns). *)
Record field_data := {
  degree : nat; order : nat; size : nat;
  c_nm : nat -> nat -> R; s_nm : nat -> nat -> R
}.

(** io/gravity.rs:513-516 [cs_nm] *)
Definition cs_nm (d : field_data) (n m : nat) : res dyn_error (R * R) :=
  if ((n <? size d) && (m <? size d))%nat then Ok (c_nm d n m, s_nm d n m) else Panic.

(** nalgebra: writing and reading a square matrix. *)
Definition upd {A} (t : nat -> nat -> A) (n m : nat) (v : A) : nat -> nat -> A :=
  fun i j => if ((i =? n) && (j =? m))%nat then v else t i j.
Definition rd {A} (dim : nat) (t : nat -> nat -> A) (n m : nat) : res dyn_error A :=
  if ((n <? dim) && (m <? dim))%nat then Ok (t n m) else Panic.
Definition rdv {A} (l : list A) (m : nat) : res dyn_error A :=
  match nth_error l m with Some x => Ok x | None => Panic end.

(** gravity_field.rs:59-65: the diagonal. *)
Fixpoint diagonal (n : nat) : R :=
  match n with O => 1 | S k => sqrt (1 + 1 / (2 * INR n)) * diagonal k end.
(** gravity_field.rs:68-90: the other tables. *)
Definition tab_c (n m : nat) : R :=
  let n := INR n in let m := INR m in
  sqrt (((2 * n + 1) * (n + m - 1) * (n - m - 1)) / ((n - m) * (n + m) * (2 * n - 3))).
Definition tab_b (n m : nat) : R :=
  let n := INR n in let m := INR m in
  sqrt (((2 * n + 1) * (2 * n - 1)) / ((n + m) * (n - m))).
Definition tab_vr01 (n m : nat) : R :=
  let x := sqrt ((INR n - INR m) * (INR n + INR m + 1)) in
  if (m =? 0)%nat then x / sqrt 2 else x.
Definition tab_vr11 (n m : nat) : R :=
  let x := sqrt (((2 * INR n + 1) * (INR n + INR m + 2) * (INR n + INR m + 1)) / (2 * INR n + 3)) in
  if (m =? 0)%nat then x / sqrt 2 else x.

(** gravity_field.rs:151-169: the table of Legendre functions, for a field of degree [N] and
    order [M]. *)
Definition legendre_table (u : R) (N M : nat) : nat -> nat -> R :=
  let t0 := fun n m => if ((n =? m) && (n <=? N + 2))%nat then diagonal n else 0 in
  let t1 := upd t0 1 0 (u * sqrt 3) in
  let t2 := fold_left (fun t n => upd t (n + 1) n (sqrt (2 * INR n + 3) * u * t n n)) (seq 1 (N + 1)) t1 in
  fold_left (fun t m =>
    fold_left (fun t n => upd t n m (u * tab_b n m * t (n - 1)%nat m - tab_c n m * t (n - 2)%nat m))
      (seq (m + 2) (N - m)) t)
    (seq 0 (M + 2)) t2.

(** gravity_field.rs:171-181: the real and imaginary parts of the powers of [s + i t]. *)
Fixpoint powers (s t : R) (k : nat) : list R * list R :=
  match k with
  | O => ([1], [0])
  | S k' =>
      let '(rs, is) := powers s t k' in
      (rs ++ [s * nth k' rs 0 - t * nth k' is 0], is ++ [s * nth k' is 0 + t * nth k' rs 0])
  end.

(** gravity_field.rs:206-239: what degree [n] and order [m] add to [sum]. *)
Definition term (d : field_data) (a : nat -> nat -> R) (rs is : list R) (n m : nat)
  : res dyn_error (R * R * R * R) :=
  let N := degree d in
  bind (cs_nm d n m) (fun cs =>
  let '(c, s) := cs in
  bind (rdv rs m) (fun rm => bind (rdv is m) (fun im =>
  let d_ := (c * rm + s * im) * sqrt 2 in
  bind (if (m =? 0)%nat then Ok (0, 0)
        else bind (rdv rs (m - 1)) (fun r1 => bind (rdv is (m - 1)) (fun i1 =>
             Ok ((c * r1 + s * i1) * sqrt 2, (s * r1 - c * i1) * sqrt 2)))) (fun ef =>
  let '(e_, f_) := ef in
  bind (rd (N + 3) a n m) (fun anm =>
  bind (rd (N + 2) tab_vr01 n m) (fun v01 => bind (rd (N + 3) a n (m + 1)) (fun an1 =>
  bind (rd (N + 2) tab_vr11 n m) (fun v11 => bind (rd (N + 3) a (n + 1) (m + 1)) (fun a11 =>
  Ok (INR m * anm * e_, INR m * anm * f_, v01 * an1 * d_, v11 * a11 * d_)))))))))).

Fixpoint sum_orders (d : field_data) a rs is (n : nat) (ms : list nat) (sum : R * R * R * R)
  : res dyn_error (R * R * R * R) :=
  match ms with
  | [] => Ok sum
  | m :: ms' =>
      bind (term d a rs is n m) (fun x =>
      let '(x1, x2, x3, x4) := x in
      let '(s1, s2, s3, s4) := sum in
      sum_orders d a rs is n ms' (s1 + x1, s2 + x2, s3 + x3, s4 - x4))
  end.

(** gravity_field.rs:201-243 *)
Fixpoint sum_degrees (d : field_data) (a : nat -> nat -> R) (rs is : list R) (rho eq_radius : R)
    (ns : list nat) (rho_np1 : R) (acc : R * R * R * R) : res dyn_error (R * R * R * R) :=
  match ns with
  | [] => Ok acc
  | n :: ns' =>
      let rho_np1 := rho_np1 * rho in
      bind (sum_orders d a rs is n (seq 0 (S (Nat.min n (order d)))) (0, 0, 0, 0)) (fun s =>
      let '(s1, s2, s3, s4) := s in
      let '(a1, a2, a3, a4) := acc in
      let rr := rho_np1 / eq_radius in
      sum_degrees d a rs is rho eq_radius ns' rho_np1
        (a1 + rr * s1, a2 + rr * s2, a3 + rr * s3, a4 + rr * s4))
  end.

(** gravity_field.rs:139-249: the acceleration in the frame of the field at the position [p]
    in that frame. *)
Definition local_accel (d : field_data) (eq_radius mu : R) (p : v3) : res dyn_error v3 :=
  let r := norm p in
  let s := vx p / r in
  let t := vy p / r in
  let u := vz p / r in
  let a := legendre_table u (degree d) (order d) in
  let '(rs, is) := powers s t (Nat.min (degree d) (order d)) in
  let rho := eq_radius / r in
  bind (sum_degrees d a rs is rho eq_radius (seq 1 (degree d)) (mu / r * rho) (0, 0, 0, 0)) (fun acc =>
  let '(a1, a2, a3, a4) := acc in
  Ok (V3 (a1 + a4 * s) (a2 + a4 * t) (a3 + a4 * u))).

(** The matrix product [m * v]. *)
Definition mat_vec (m : matrix) (v : v3) : v3 :=
  V3 (m 0%nat 0%nat * vx v + m 0%nat 1%nat * vy v + m 0%nat 2%nat * vz v)
     (m 1%nat 0%nat * vx v + m 1%nat 1%nat * vy v + m 1%nat 2%nat * vz v)
     (m 2%nat 0%nat * vx v + m 2%nat 1%nat * vy v + m 2%nat 2%nat * vz v).
Definition mat_mul (a b : matrix) : matrix :=
  fun i j => a i 0%nat * b 0%nat j + a i 1%nat * b 1%nat j + a i 2%nat * b 2%nat j.
Definition transpose (a : matrix) : matrix := fun i j => a j i.

(** The same with dual numbers: gravity_field.rs:283-420. *)
Definition dlegendre_table (u : dual) (N M : nat) : nat -> nat -> dual :=
  let t0 := fun n m => if ((n =? m) && (n <=? N + 1))%nat then dconst (diagonal n) else dconst 0 in
  let t1 := upd t0 1 0 (dmul u (dconst (sqrt 3))) in
  let t2 := fold_left (fun t n => upd t (n + 1) n (dmul (dmul (dconst (sqrt (2 * INR n + 3))) u) (t n n)))
              (seq 1 (N + 1)) t1 in
  fold_left (fun t m =>
    fold_left (fun t n => upd t n m (dsub (dmul (dmul u (dconst (tab_b n m))) (t (n - 1)%nat m))
                                         (dmul (dconst (tab_c n m)) (t (n - 2)%nat m))))
      (seq (m + 2) (N - m)) t)
    (seq 0 (M + 2)) t2.

Fixpoint dpowers (s t : dual) (k : nat) : list dual * list dual :=
  match k with
  | O => ([dconst 1], [dconst 0])
  | S k' =>
      let '(rs, is) := dpowers s t k' in
      (rs ++ [dsub (dmul s (nth k' rs (dconst 0))) (dmul t (nth k' is (dconst 0)))],
       is ++ [dadd (dmul s (nth k' is (dconst 0))) (dmul t (nth k' rs (dconst 0)))])
  end.

Definition dterm (d : field_data) (a : nat -> nat -> dual) (rs is : list dual) (n m : nat)
  : res dyn_error (dual * dual * dual * dual) :=
  let N := degree d in
  bind (cs_nm d n m) (fun cs =>
  let c := dconst (fst cs) in let s := dconst (snd cs) in
  bind (rdv rs m) (fun rm => bind (rdv is m) (fun im =>
  let d_ := dmul (dadd (dmul c rm) (dmul s im)) (dconst (sqrt 2)) in
  bind (if (m =? 0)%nat then Ok (dconst 0, dconst 0)
        else bind (rdv rs (m - 1)) (fun r1 => bind (rdv is (m - 1)) (fun i1 =>
             Ok (dmul (dadd (dmul c r1) (dmul s i1)) (dconst (sqrt 2)),
                 dmul (dsub (dmul s r1) (dmul c i1)) (dconst (sqrt 2)))))) (fun ef =>
  let '(e_, f_) := ef in
  bind (rd (N + 3) a n m) (fun anm =>
  bind (rd (N + 2) tab_vr01 n m) (fun v01 => bind (rd (N + 3) a n (m + 1)) (fun an1 =>
  bind (rd (N + 2) tab_vr11 n m) (fun v11 => bind (rd (N + 3) a (n + 1) (m + 1)) (fun a11 =>
  Ok (dmul (dmul (dconst (INR m)) anm) e_, dmul (dmul (dconst (INR m)) anm) f_,
      dmul (dmul (dconst v01) an1) d_, dmul (dmul (dconst v11) a11) d_)))))))))).

Fixpoint dsum_orders (d : field_data) a rs is (n : nat) (ms : list nat) (sum : dual * dual * dual * dual)
  : res dyn_error (dual * dual * dual * dual) :=
  match ms with
  | [] => Ok sum
  | m :: ms' =>
      bind (dterm d a rs is n m) (fun x =>
      let '(x1, x2, x3, x4) := x in
      let '(s1, s2, s3, s4) := sum in
      dsum_orders d a rs is n ms' (dadd s1 x1, dadd s2 x2, dadd s3 x3, dadd s4 x4))
  end.

Fixpoint dsum_degrees (d : field_data) (a : nat -> nat -> dual) (rs is : list dual) (rho eq_radius : dual)
    (ns : list nat) (rho_np1 : dual) (acc : dual * dual * dual * dual)
  : res dyn_error (dual * dual * dual * dual) :=
  match ns with
  | [] => Ok acc
  | n :: ns' =>
      let rho_np1 := dmul rho_np1 rho in
      bind (dsum_orders d a rs is n (seq 0 (S (Nat.min n (order d)))) (dconst 0, dconst 0, dconst 0, dconst 0)) (fun s =>
      let '(s1, s2, s3, s4) := s in
      let '(a0, a1, a2, a3) := acc in
      let rr := ddiv rho_np1 eq_radius in
      dsum_degrees d a rs is rho eq_radius ns' rho_np1
        (dadd a0 (dmul rr s1), dadd a1 (dmul rr s2), dadd a2 (dmul rr s3), dsub a3 (dmul rr s4)))
  end.

Definition local_dual (d : field_data) (eq_radius mu : R) (p : v3) : res dyn_error d3 :=
  let radius := hyperspace p in
  let r := dnorm radius in
  let s := ddiv (ux radius) r in
  let t := ddiv (uy radius) r in
  let u := ddiv (uz radius) r in
  let a := dlegendre_table u (degree d) (order d) in
  let '(rs, is) := dpowers s t (Nat.min (degree d) (order d)) in
  let eqr := dconst eq_radius in
  let rho := ddiv eqr r in
  bind (dsum_degrees d a rs is rho eqr (seq 1 (degree d)) (dmul (ddiv (dconst mu) r) rho)
          (dconst 0, dconst 0, dconst 0, dconst 0)) (fun acc =>
  let '(a0, a1, a2, a3) := acc in
  Ok (D3 (dadd a0 (dmul a3 s)) (dadd a1 (dmul a3 t)) (dadd a2 (dmul a3 u)))).

Section Field.
(** anise: the position of an orbit in the frame of the field ([transform_to]), the radius
    and the gravitational parameter of that frame, and the rotation from the frame of the
    field to that of the orbit. *)
Context (to_field : orbit -> res dyn_error v3) (eq_radius_km mu_km3_s2 : res dyn_error R)
        (rotate : nat -> Z -> res dyn_error matrix) (d : field_data).

(** gravity_field.rs:138-263 [eom] *)
Definition grav_eom (osc : orbit) : res dyn_error v3 :=
  bind (to_field osc) (fun p =>
  bind eq_radius_km (fun eq_radius => bind mu_km3_s2 (fun mu =>
  bind (local_accel d eq_radius mu p) (fun accel =>
  bind (rotate (frame osc) (epoch osc)) (fun dcm => Ok (mat_vec dcm accel)))))).

(** gravity_field.rs:268-431 [gradient] *)
Definition grav_gradient (osc : orbit) : res dyn_error (v3 * matrix) :=
  bind (to_field osc) (fun p =>
  bind eq_radius_km (fun eq_radius => bind mu_km3_s2 (fun mu =>
  bind (local_dual d eq_radius mu p) (fun acc =>
  bind (rotate (frame osc) (epoch osc)) (fun dcm =>
  let grad_local := fun i j => du (dcomp acc i) (S j) in
  Ok (mat_vec dcm (reals acc), mat_mul (mat_mul dcm grad_local) (transpose dcm))))))).

Definition gravity_field : accel_model := {| a_eom := grav_eom; a_gradient := grav_gradient |}.
End Field.
