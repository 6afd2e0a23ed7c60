(** Real-number vocabulary for the statements about trajectories: a vector of reals as
    the model sees it, joint velocities and accelerations on a path, limits. *)
From Coq Require Import Reals List.
From Verif Require Import Base MathModel MathReal MathVec TotpModel TotpScalar.
Local Open Scope R_scope.

(** A vector of real numbers, as exact scalars. *)
Definition fin (u : list R) : list xr := map XFin u.

(** A robot at a point of its path with tangent [q'] and curvature [q''], which moves
    along the path at velocity [v] and acceleration [a], has these joint velocities
    and joint accelerations (chain rule). *)
Definition joint_velocity (q' : list R) (v : R) : list R := vscale v q'.
Definition joint_acceleration (q' q'' : list R) (v a : R) : list R := vadd (vscale a q') (vscale (v * v) q'').
(** No component exceeds its limit. *)
Definition within (limits u : list R) : Prop := Forall2 (fun x l => Rabs x <= l) u limits.
(** The largest finite double. *)
Definition big : R := IZR max_double.
