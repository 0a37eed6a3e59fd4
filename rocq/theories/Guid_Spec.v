(** Vocabulary of the guidance theorems: what a direction of thrust does to an orbit.

    A thrust along [u] changes the velocity along [u].  An element of the orbit moves at the
    rate of the derivative of that element with respect to the velocity, along [u].  Nothing
    here comes from the code. *)
From Coq Require Import Reals.
From Verif Require Import Base Vec3 Sc_Model.
Local Open Scope R_scope.

(** The derivative of [f] at [v] along [u] is [l]. *)
Definition rate_along (f : v3 -> R) (v u : v3) (l : R) : Prop :=
  derivable_pt_lim (fun t => f (vadd v (vscale t u))) 0 l.

(** Two-body elements from position and velocity. *)
Definition sma_of (mu : R) (r v : v3) : R := / (2 / norm r - dot v v / mu).
Definition ecc_vector (mu : R) (r v : v3) : v3 :=
  vscale (/ mu) (vsub (vscale (dot v v - mu / norm r) r) (vscale (dot r v) v)).
Definition ecc_squared (mu : R) (r v : v3) : R := dot (ecc_vector mu r v) (ecc_vector mu r v).
(** The cosine of the inclination, [pole] being the direction of the pole. *)
Definition cos_inclination (pole r v : v3) : R := dot (cross r v) pole / norm (cross r v).
(** The tangent of the angle from [node] to the ascending node, in the plane orthogonal to
    [pole]; [quad] completes the right-handed frame [node], [quad], [pole]. *)
Definition tan_node (node quad pole r v : v3) : R :=
  dot (cross pole (cross r v)) quad / dot (cross pole (cross r v)) node.

(** Position and velocity at true anomaly [nu] on the conic of eccentricity [e], in the
    local frame: radial, along the motion, normal.  [s] is the square root of mu over the
    semi-parameter. *)
Definition on_conic (mu e nu r s : R) : Prop :=
  0 < mu /\ 0 <= e < 1 /\ 0 < r /\ 0 < s /\ mu = s * s * (r * (1 + e * cos nu)).
Definition local_position (r : R) : v3 := V3 r 0 0.
Definition local_velocity (s e nu : R) : v3 := V3 (s * (e * sin nu)) (s * (1 + e * cos nu)) 0.

(** The inertial axes in the local frame of an orbit of inclination [i] at argument of
    latitude [u]: the node, the pole, and the one completing them. *)
Definition local_node (u : R) : v3 := V3 (cos u) (- sin u) 0.
Definition local_pole (i u : R) : v3 := V3 (sin i * sin u) (sin i * cos u) (cos i).
Definition local_quad (i u : R) : v3 := V3 (cos i * sin u) (cos i * cos u) (- sin i).
