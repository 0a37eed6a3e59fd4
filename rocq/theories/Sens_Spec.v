(** What a sensitivity is: the partial derivatives of an observable with respect to the nine
    estimated parameters. *)
From Coq Require Import Reals.
From Verif Require Import Base Vec3.
Local Open Scope R_scope.

(** [p] with its [i]-th parameter replaced by [x]. *)
Fixpoint replace (i : nat) (x : R) (p : list R) : list R :=
  match p, i with
  | [], _ => []
  | _ :: p', O => x :: p'
  | y :: p', S i' => y :: replace i' x p'
  end.

(** [g] is the list of the partial derivatives of [f] at [p]. *)
Definition gradient (f : list R -> R) (p g : list R) : Prop :=
  length g = length p /\
  forall i, (i < length p)%nat ->
    derivable_pt_lim (fun x => f (replace i x p)) (nth i p 0) (nth i g 0).

(** The estimated parameters begin with the position and the velocity. *)
Definition pos (p : list R) : v3 := V3 (nth 0 p 0) (nth 1 p 0) (nth 2 p 0).
Definition vel (p : list R) : v3 := V3 (nth 3 p 0) (nth 4 p 0) (nth 5 p 0).

(** Range and range rate from a device of position [tr] and velocity [tv]. *)
Definition range (tr : v3) (p : list R) : R := norm (vsub (pos p) tr).
Definition range_rate (tr tv : v3) (p : list R) : R :=
  dot (vsub (pos p) tr) (vsub (vel p) tv) / norm (vsub (pos p) tr).

(** Elevation above the plane normal to the unit vector [zenith], and azimuth, counted from
    [north] toward [east], of a receiver on the northern side, in radians and in degrees. *)
Definition elevation (zenith tr : v3) (p : list R) : R :=
  asin (dot zenith (vsub (pos p) tr) / norm (vsub (pos p) tr)).
Definition azimuth (north east tr : v3) (p : list R) : R :=
  atan (dot east (vsub (pos p) tr) / dot north (vsub (pos p) tr)).
Definition degrees (x : R) : R := x * (180 / PI).
Definition axis_x : v3 := V3 1 0 0.
Definition axis_y : v3 := V3 0 1 0.
Definition axis_z : v3 := V3 0 0 1.
Definition opposite (a : v3) : v3 := vscale (-1) a.

(** A body at [q t] has velocity [v] at [t]. *)
Definition moves (q : R -> v3) (t : R) (v : v3) : Prop :=
  derivable_pt_lim (fun s => vx (q s)) t (vx v) /\
  derivable_pt_lim (fun s => vy (q s)) t (vy v) /\
  derivable_pt_lim (fun s => vz (q s)) t (vz v).
