(** Model of nyx-core/src/dynamics/solid_tides.rs: the acceleration due to the deformation of a body by
    the tides that other bodies raise.

    [f64] is [R].  The arrays are functions of their indices; the loops have constant bounds and stay
    within the arrays of four and six rows and columns.  A division by a zero distance gives NaN in the
    code; the theorems exclude it.  Not modelled: [Display], Dhall types, Python bindings. *)
From Coq Require Import Reals List.
From Verif Require Import Base Vec3 Sc_Model Dyn_Model Dual Orb_Model Grav_Model.
Import ListNotations.
Local Open Scope R_scope.

(** anise's [Frame]: what is known about it. *)
Record frame_data := { f_id : nat; f_mu : option R; f_radius : option R }.
(** [mu_km3_s2] and [mean_equatorial_radius_km] of a frame, errors when missing *)
Definition MISSING_MU : dyn_error := OtherDynamics 0.
Definition MISSING_RADIUS : dyn_error := OtherDynamics 1.
Definition frame_mu (f : frame_data) : res dyn_error R := match f_mu f with Some m => Ok m | None => Err MISSING_MU end.
Definition frame_radius (f : frame_data) : res dyn_error R := match f_radius f with Some m => Ok m | None => Err MISSING_RADIUS end.

(** solid_tides.rs:57-65 *)
Record perturber := { pt_frame : frame_data; compute_degree_3 : bool }.
(** solid_tides.rs:44-55 *)
Record tides := { td_frame : frame_data; k2 : R; k3 : R; perturbers : list perturber }.

(** The coefficients, C and S. *)
Definition table := nat -> nat -> R.

(** solid_tides.rs:101-109 and 143-152 *)
Definition p_nm (sin_phi cos_phi : R) (n m : nat) : R :=
  match n, m with
  | 2%nat, 0%nat => / 2 * (3 * sin_phi ^ 2 - 1) * sqrt 5
  | 2%nat, 1%nat => 3 * sin_phi * cos_phi * sqrt (5 / 3)
  | 2%nat, 2%nat => 3 * cos_phi ^ 2 * sqrt (5 / 12)
  | 3%nat, 0%nat => / 2 * (5 * sin_phi ^ 3 - 3 * sin_phi) * sqrt 7
  | 3%nat, 1%nat => 3 / 2 * (5 * sin_phi ^ 2 - 1) * cos_phi * sqrt (7 / 6)
  | 3%nat, 2%nat => 15 * sin_phi * cos_phi ^ 2 * sqrt (7 / 60)
  | 3%nat, 3%nat => 15 * cos_phi ^ 3 * sqrt (7 / 360)
  | _, _ => 0
  end.
(** solid_tides.rs:154-166 *)
Definition multiple (c s : R) (m : nat) : R * R :=
  match m with
  | 0%nat => (1, 0)
  | 1%nat => (c, s)
  | 2%nat => (c ^ 2 - s ^ 2, 2 * s * c)
  | 3%nat => (c * (c ^ 2 - 3 * s ^ 2), s * (3 * c ^ 2 - s ^ 2))
  | _ => (0, 0)
  end.
(** solid_tides.rs:83-99 and 129-171: from the position of the perturber [q] in the frame of the deformed
    body. *)
Definition raise (d3 : bool) (k2 k3 mu radius mu_j : R) (q : v3) (cs : table * table) : table * table :=
  let r_body := norm q in
  let s_body := vx q / r_body in
  let t_body := vy q / r_body in
  let u_body := vz q / r_body in
  let sin_phi := u_body in
  let cos_phi := sqrt (Rmax (1 - sin_phi ^ 2) 0) in
  let far := if Rlt_dec (1 / 1000000000000) cos_phi then true else false in
  let cos_lambda := if far then s_body / cos_phi else 1 in
  let sin_lambda := if far then t_body / cos_phi else 0 in
  let gm_ratio := mu_j / mu in
  let r_ratio := radius / r_body in
  fold_left (fun cs n =>
    let kn := if (n =? 2)%nat then k2 else k3 in
    let common := kn / (2 * INR n + 1) * gm_ratio * r_ratio ^ (n + 1) in
    fold_left (fun (cs : table * table) m =>
      let '(c, s) := cs in
      let '(cos_ml, sin_ml) := multiple cos_lambda sin_lambda m in
      (upd c n m (c n m + common * p_nm sin_phi cos_phi n m * cos_ml),
       upd s n m (s n m + common * p_nm sin_phi cos_phi n m * sin_ml)))
      (seq 0 (n + 1)) cs)
    (seq 2 (if d3 then 2 else 1)) cs.

(** solid_tides.rs:266-292; the factors are the expressions of gravity_field.rs. *)
Definition tide_table (u : R) : nat -> nat -> R :=
  let t0 := upd (fun _ _ => 0) 0 0 1 in
  let t1 := fold_left (fun t n => upd t n n (sqrt (1 + 1 / (2 * INR n)) * t (n - 1)%nat (n - 1)%nat)) (seq 1 4) t0 in
  let t2 := upd t1 1 0 (u * sqrt 3) in
  let t3 := fold_left (fun t n => upd t (n + 1) n (sqrt (2 * INR n + 3) * u * t n n)) (seq 1 4) t2 in
  fold_left (fun t m =>
    fold_left (fun t n => upd t n m (u * tab_b n m * t (n - 1)%nat m - tab_c n m * t (n - 2)%nat m))
      (seq (m + 2) (3 - m)) t) (seq 0 4) t3.

(** solid_tides.rs:347-368 *)
Definition tide_sum (a : nat -> nat -> R) (rs is : list R) (c s : table) (n : nat) : R * R * R * R :=
  fold_left (fun (sum : R * R * R * R) m =>
    let '(x, y, z, w) := sum in
    let d_ := (c n m * nth m rs 0 + s n m * nth m is 0) * sqrt 2 in
    let e_ := if (m =? 0)%nat then 0 else (c n m * nth (m - 1) rs 0 + s n m * nth (m - 1) is 0) * sqrt 2 in
    let f_ := if (m =? 0)%nat then 0 else (s n m * nth (m - 1) rs 0 - c n m * nth (m - 1) is 0) * sqrt 2 in
    (x + INR m * a n m * e_, y + INR m * a n m * f_, z + tab_vr01 n m * a n (m + 1)%nat * d_,
     w - tab_vr11 n m * a (n + 1)%nat (m + 1)%nat * d_))
    (seq 0 (n + 1)) (0, 0, 0, 0).
(** solid_tides.rs:260-376 *)
Definition tide_local (c s : table) (eq_radius mu : R) (p : v3) : v3 :=
  let r := norm p in
  let s_ := vx p / r in
  let t_ := vy p / r in
  let u_ := vz p / r in
  let a := tide_table u_ in
  let '(rs, is) := powers s_ t_ 3 in
  let rho := eq_radius / r in
  let '(_, (a1, a2, a3, a4)) :=
    fold_left (fun (st : R * (R * R * R * R)) n =>
      let '(rho_np1, acc) := st in
      let rho_np1 := rho_np1 * rho in
      if (n <? 2)%nat then (rho_np1, acc)
      else
        let '(x, y, z, w) := tide_sum a rs is c s n in
        let '(a1, a2, a3, a4) := acc in
        let rr := rho_np1 / eq_radius in
        (rho_np1, (a1 + rr * x, a2 + rr * y, a3 + rr * z, a4 + rr * w)))
      (seq 1 3) (mu / r * rho, (0, 0, 0, 0)) in
  V3 (a1 + a4 * s_) (a2 + a4 * t_) (a3 + a4 * u_).

(** The same with dual numbers: solid_tides.rs:405-532. *)
Definition dtide_table (u : dual) : nat -> nat -> dual :=
  let t0 := upd (fun _ _ => dconst 0) 0 0 (dconst 1) in
  let t1 := fold_left (fun t n => upd t n n (dmul (dconst (sqrt (1 + 1 / (2 * INR n)))) (t (n - 1)%nat (n - 1)%nat))) (seq 1 4) t0 in
  let t2 := upd t1 1 0 (dmul u (dconst (sqrt 3))) in
  let t3 := fold_left (fun t n => upd t (n + 1) n (dmul (dmul (dconst (sqrt (2 * INR n + 3))) u) (t n n))) (seq 1 4) t2 in
  fold_left (fun t m =>
    fold_left (fun t n => upd t n m (dsub (dmul (dmul u (dconst (tab_b n m))) (t (n - 1)%nat m))
                                         (dmul (dconst (tab_c n m)) (t (n - 2)%nat m))))
      (seq (m + 2) (3 - m)) t) (seq 0 4) t3.
Definition dtide_sum (a : nat -> nat -> dual) (rs is : list dual) (c s : table) (n : nat) : dual * dual * dual * dual :=
  let o := dconst 0 in
  fold_left (fun (sum : dual * dual * dual * dual) m =>
    let '(x, y, z, w) := sum in
    let cv := dconst (c n m) in let sv := dconst (s n m) in
    let d_ := dmul (dadd (dmul cv (nth m rs o)) (dmul sv (nth m is o))) (dconst (sqrt 2)) in
    let e_ := if (m =? 0)%nat then o else dmul (dadd (dmul cv (nth (m - 1) rs o)) (dmul sv (nth (m - 1) is o))) (dconst (sqrt 2)) in
    let f_ := if (m =? 0)%nat then o else dmul (dsub (dmul sv (nth (m - 1) rs o)) (dmul cv (nth (m - 1) is o))) (dconst (sqrt 2)) in
    (dadd x (dmul (dmul (dconst (INR m)) (a n m)) e_), dadd y (dmul (dmul (dconst (INR m)) (a n m)) f_),
     dadd z (dmul (dmul (dconst (tab_vr01 n m)) (a n (m + 1)%nat)) d_),
     dadd w (dmul (dmul (dconst (tab_vr11 n m)) (a (n + 1)%nat (m + 1)%nat)) d_)))
    (seq 0 (n + 1)) (o, o, o, o).
Definition dtide_local (c s : table) (eq_radius mu : R) (p : v3) : d3 :=
  let radius := hyperspace p in
  let r := dnorm radius in
  let s_ := ddiv (ux radius) r in
  let t_ := ddiv (uy radius) r in
  let u_ := ddiv (uz radius) r in
  let a := dtide_table u_ in
  let '(rs, is) := dpowers s_ t_ 3 in
  let eqr := dconst eq_radius in
  let rho := ddiv eqr r in
  let o := dconst 0 in
  let '(_, (a1, a2, a3, a4)) :=
    fold_left (fun (st : dual * (dual * dual * dual * dual)) n =>
      let '(rho_np1, acc) := st in
      let rho_np1 := dmul rho_np1 rho in
      if (n <? 2)%nat then (rho_np1, acc)
      else
        let '(x, y, z, w) := dtide_sum a rs is c s n in
        let '(a1, a2, a3, a4) := acc in
        let rr := ddiv rho_np1 eqr in
        (rho_np1, (dadd a1 (dmul rr x), dadd a2 (dmul rr y), dadd a3 (dmul rr z), dsub a4 (dmul rr w))))
      (seq 1 3) (dmul (ddiv (dconst mu) r) rho, (o, o, o, o)) in
  D3 (dadd a1 (dmul a4 s_)) (dadd a2 (dmul a4 t_)) (dadd a3 (dmul a4 u_)).

Section Tides.
(** anise: the position of one frame in another at an epoch ([transform]); that of an orbit in the frame
    of the tides ([transform_to]); the rotation from this frame to that of the orbit; what is loaded about
    a frame ([frame_info]). *)
Context (position : frame_data -> frame_data -> Z -> res dyn_error v3)
        (to_tides : frame_data -> orbit -> res dyn_error v3)
        (rotate : frame_data -> nat -> Z -> res dyn_error matrix)
        (frame_info : frame_data -> res dyn_error frame_data).

(** solid_tides.rs:67-174 [compute_pert] *)
Definition compute_pert (t : tides) (epoch : Z) (b : perturber) (cs : table * table) : res dyn_error (table * table) :=
  bind (position (pt_frame b) (td_frame t) epoch) (fun q =>
  bind (frame_mu (td_frame t)) (fun mu =>
  bind (frame_radius (td_frame t)) (fun radius =>
  bind (frame_mu (pt_frame b)) (fun mu_j =>
  Ok (raise (compute_degree_3 b) (k2 t) (k3 t) mu radius mu_j q cs))))).
(** solid_tides.rs:231-245 [accumulate_deltas] *)
Fixpoint accumulate (t : tides) (epoch : Z) (bs : list perturber) (cs : table * table) : res dyn_error (table * table) :=
  match bs with
  | [] => Ok cs
  | b :: bs' => bind (compute_pert t epoch b cs) (accumulate t epoch bs')
  end.
Definition accumulate_deltas (t : tides) (epoch : Z) : res dyn_error (table * table) :=
  accumulate t epoch (perturbers t) (fun _ _ => 0, fun _ _ => 0).

(** solid_tides.rs:250-389 [eom] *)
Definition tide_eom (t : tides) (osc : orbit) : res dyn_error v3 :=
  bind (accumulate_deltas t (epoch osc)) (fun cs =>
  bind (to_tides (td_frame t) osc) (fun p =>
  bind (frame_radius (td_frame t)) (fun radius =>
  bind (frame_mu (td_frame t)) (fun mu =>
  bind (rotate (td_frame t) (frame osc) (epoch osc)) (fun dcm =>
  Ok (mat_vec dcm (tide_local (fst cs) (snd cs) radius mu p))))))).
(** solid_tides.rs:391-559 [gradient] *)
Definition tide_gradient (t : tides) (osc : orbit) : res dyn_error (v3 * matrix) :=
  bind (accumulate_deltas t (epoch osc)) (fun cs =>
  bind (to_tides (td_frame t) osc) (fun p =>
  bind (frame_radius (td_frame t)) (fun radius =>
  bind (frame_mu (td_frame t)) (fun mu =>
  let acc := dtide_local (fst cs) (snd cs) radius mu p in
  bind (rotate (td_frame t) (frame osc) (epoch osc)) (fun dcm =>
  let grad_local := fun i j => du (dcomp acc i) (S j) in
  Ok (mat_vec dcm (reals acc), mat_mul (mat_mul dcm grad_local) (transpose dcm))))))).
Definition solid_tides (t : tides) : accel_model := {| a_eom := tide_eom t; a_gradient := tide_gradient t |}.

(** solid_tides.rs:192-210: a frame completed and checked. *)
Definition completed (f : frame_data) : res dyn_error frame_data :=
  bind (match f_mu f with None => frame_info f | Some _ => Ok f end) (fun f =>
  bind (frame_mu f) (fun _ => bind (frame_radius f) (fun _ => Ok f))).
(** solid_tides.rs:177-229 [earth_moon_system]; [sun] is SUN_J2000. *)
Definition earth_moon_system (sun earth moon : frame_data) : res dyn_error tides :=
  bind (frame_info sun) (fun sun =>
  bind (completed earth) (fun earth => bind (completed moon) (fun moon => bind (completed sun) (fun sun =>
  Ok {| td_frame := earth; k2 := 3019 / 10000; k3 := 93 / 1000;
        perturbers := [{| pt_frame := moon; compute_degree_3 := true |};
                       {| pt_frame := sun; compute_degree_3 := false |}] |})))).
End Tides.
