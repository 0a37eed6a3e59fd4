(** Model of nyx-core/src/mc/multivariate.rs (and of the [StateDispersion] of
    nyx-core/src/mc/dispersion.rs).  Matrices have exact entries in a real closed field.  The
    singular value decomposition and the eigenvalues of nalgebra are arguments, as are the partials
    of the orbital elements, the elements themselves and the B-plane.  Of a spacecraft, only the
    nine numbers that a sample changes are kept, plus the dry mass. *)
From Verif Require Import Base.
From mathcomp Require Import all_ssreflect all_algebra.
From Verif Require Import Kf_Model Util_Pinv.
Import Order.TTheory GRing.Theory Num.Theory.
Set Implicit Arguments.
Unset Strict Implicit.
Unset Printing Implicit Defensive.
Local Open Scope ring_scope.

(** md/param.rs:34-70 [StateParameter]; [ReadOnlyParam] stands for all the others. *)
Inductive parameter (elt : Type) :=
| Element of elt | BdotR | BdotT | BLTOF | Cd | Cr | DryMass | PropMass | ReadOnlyParam of nat.
Arguments BdotR {elt}. Arguments BdotT {elt}. Arguments BLTOF {elt}. Arguments Cd {elt}.
Arguments Cr {elt}. Arguments DryMass {elt}. Arguments PropMass {elt}. Arguments ReadOnlyParam {elt} _.

Section Mvn.
Context {R : rcfType} {elt : Type}.
Notation parameter := (parameter elt).

(** md/param.rs:92-99. *)
Definition is_b_plane (p : parameter) : bool :=
  match p with BdotR | BdotT | BLTOF => true | _ => false end.
Definition is_orbital (p : parameter) : bool := match p with Element _ => true | _ => false end.

(** dispersion.rs:29-45 [StateDispersion]. *)
Record dispersion := { param : parameter; mean_of : option R; std_dev : option R }.
Definition zero_mean_dispersion (p : parameter) (sd : R) : dispersion :=
  {| param := p; mean_of := Some 0; std_dev := Some sd |}.

(** The numbers changed by a sample (multivariate.rs:306-318), in order: position, velocity, Cr, Cd
    and propellant mass; and the dry mass, which none changes. *)
Record craft := { coords : 'cV[R]_9; dry_mass : R }.

Inductive mvn_error :=
| AstroError | SingularJac | ReadOnlyParameter of parameter | NotPsd.

(** multivariate.rs:61-71 [MvnSpacecraft]. *)
Record mvn := { template : craft; dispersions : list dispersion; mean : 'cV[R]_9; sqrt_s_v : 'M[R]_9 }.

(** The singular values and the matrix V of [svd_unordered(false, true)]. *)
Context (svd : 'M[R]_9 -> option ('rV[R]_9 * 'M[R]_9)).
(** [eigenvalues] of nalgebra. *)
Context (eigenvalues : 'M[R]_9 -> option (list R)).
(** [OrbitGrad::partial_for] and [BPlane::from_dual] of the template. *)
Context (partial_for : craft -> elt -> option 'rV[R]_6) (b_plane_ok : craft -> bool).
(** [Spacecraft::value] of the orbital parameters and of the others. *)
Context (element : elt -> craft -> option R) (other_value : parameter -> craft -> option R).

(** cosmic/spacecraft.rs:520-578 [value]. *)
Definition value (p : parameter) (s : craft) : option R :=
  match p with
  | Cr => Some (coords s 6%:R 0)
  | Cd => Some (coords s 7%:R 0)
  | PropMass => Some (coords s 8%:R 0)
  | DryMass => Some (dry_mass s)
  | Element e => element e s
  | _ => other_value p s
  end.

(** multivariate.rs:112-146: the rows of the Jacobian. *)
Fixpoint jacobian_rows (t : craft) (orbital : list dispersion) : res mvn_error (list 'rV[R]_6) :=
  match orbital with
  | [::] => Ok [::]
  | d :: l =>
      match param d with
      | Element e => match partial_for t e with
                     | Some row => bind (jacobian_rows t l) (fun rows => Ok (row :: rows))
                     | None => Err AstroError
                     end
      | _ => Panic
      end
  end.
Definition unwrap_or_0 (o : option R) : R := match o with Some x => x | None => 0 end.

(** multivariate.rs:105-162: the covariance and the mean of the orbital dispersions. *)
Definition orbital_part (t : craft) (orbital : list dispersion) : res mvn_error ('M[R]_6 * 'cV[R]_6) :=
  bind (jacobian_rows t orbital) (fun rows =>
  let num_orbital := size orbital in
  let jac := \matrix_(i < num_orbital, j < 6) (nth 0 rows i) 0 j in
  let covar := diag_mx (\row_(i < num_orbital) nth 0 [seq unwrap_or_0 (std_dev d) ^+ 2 | d <- orbital] i) in
  let means := \col_(i < num_orbital) nth 0 [seq unwrap_or_0 (mean_of d) | d <- orbital] i in
  match pseudo_inverse jac with
  | Ok jac_inv => Ok (jac_inv *m covar *m jac_inv^T, jac_inv *m means)
  | _ => Err SingularJac
  end).

(** nalgebra's [cov[(k, k)] = v] *)
Definition set_entry (k : nat) (v : R) (cov : 'M[R]_9) : 'M[R]_9 :=
  \matrix_(i, j) if (i == k :> nat) && (j == k :> nat) then v else cov i j.

(** multivariate.rs:164-183; the entry (9, 9) is out of the matrix. *)
Fixpoint other_part (ds : list dispersion) (cov : 'M[R]_9) : res mvn_error 'M[R]_9 :=
  match ds with
  | [::] => Ok cov
  | d :: l =>
      if is_orbital (param d) then other_part l cov else
      match param d with
      | Cr => other_part l (set_entry 7 (unwrap_or_0 (mean_of d) ^+ 2) cov)
      | Cd => other_part l (set_entry 8 (unwrap_or_0 (mean_of d) ^+ 2) cov)
      | DryMass | PropMass => Panic
      | p => Err (ReadOnlyParameter p)
      end
  end.

(** multivariate.rs:186-196 and 237-247: the columns of V times the roots of the singular values. *)
Definition root_of (cov : 'M[R]_9) : res mvn_error 'M[R]_9 :=
  match svd cov with
  | Some (s, v) => Ok (\matrix_(i, j) (v i j * Num.sqrt (s 0 j)))
  | None => Err NotPsd
  end.

(** multivariate.rs:80-205 [new]. *)
Definition new (t : craft) (ds : list dispersion) : res mvn_error mvn :=
  if has (fun d => is_b_plane (param d)) ds && ~~ b_plane_ok t then Err AstroError else
  let orbital := [seq d <- ds | is_orbital (param d)] in
  bind (if (0 < size orbital)%N then
          bind (orbital_part t orbital) (fun om =>
          Ok (block_mx om.1 0 0 0 : 'M[R]_(6 + 3), col_mx om.2 0 : 'cV[R]_(6 + 3)))
        else Ok (0, 0)) (fun cm =>
  bind (if (size orbital < size ds)%N then other_part ds cm.1 else Ok cm.1) (fun cov =>
  bind (root_of cov) (fun l =>
  Ok {| template := t; dispersions := ds; mean := cm.2; sqrt_s_v := l |}))).

(** multivariate.rs:208-217 [zero_mean]. *)
Definition zero_mean (t : craft) (ds : list dispersion) : res mvn_error mvn :=
  new t [seq {| param := param d; mean_of := Some 0; std_dev := std_dev d |} | d <- ds].

(** multivariate.rs:220-295 [from_spacecraft_cov]; [axis] are the elements X to VZ. *)
Definition from_spacecraft_cov (axis : 'I_6 -> elt) (t : craft) (cov : 'M[R]_9) (m : 'cV[R]_9) : res mvn_error mvn :=
  match eigenvalues cov with
  | None => Err NotPsd
  | Some evals =>
      if has (fun e => e < 0) evals then Err NotPsd else
      bind (root_of cov) (fun l =>
      let build p v := {| param := p; mean_of := None; std_dev := Some v |} in
      Ok {| template := t;
            dispersions := [seq build (Element (axis i)) (cov (lshift 3 i : 'I_(6 + 3)) (lshift 3 i : 'I_(6 + 3))) | i <- enum 'I_6]
              ++ [:: build Cr (cov 6%:R 6%:R); build Cd (cov 7%:R 7%:R); build PropMass (cov 8%:R 8%:R)];
            mean := m; sqrt_s_v := l |})
  end.

(** multivariate.rs:299-331 [sample]; [z] are the nine draws of the standard normal
    distribution.  A parameter without value panics. *)
Definition offset (g : mvn) (z : 'cV[R]_9) : 'cV[R]_9 := sqrt_s_v g *m z + mean g.
Fixpoint deltas (ds : list dispersion) (t s : craft) : res mvn_error (list (parameter * R)) :=
  match ds with
  | [::] => Ok [::]
  | d :: l =>
      match value (param d) t, value (param d) s with
      | Some a, Some b => bind (deltas l t s) (fun r => Ok ((param d, a - b) :: r))
      | _, _ => Panic
      end
  end.
Definition sample (g : mvn) (z : 'cV[R]_9) : res mvn_error (craft * list (parameter * R)) :=
  let s := {| coords := coords (template g) + offset g z; dry_mass := dry_mass (template g) |} in
  bind (deltas (dispersions g) (template g) s) (fun ds => Ok (s, ds)).
End Mvn.
Arguments dispersion : clear implicits.
Arguments craft : clear implicits.
Arguments mvn : clear implicits.
Arguments mvn_error : clear implicits.
