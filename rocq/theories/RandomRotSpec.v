(** Vocabulary for C190: random rotations are uniform. *)
From Coq Require Import Reals.
From Verif Require Import Base MathReal RotationModel RotationSpec.
Local Open Scope R_scope.

(** A generator that gives the listed numbers in turn; the quaternion made from three draws,
    and the quaternion of the roll, pitch and yaw made from four. *)
Definition next (l : list R) : R * list R := (hd 0 l, tl l).
Definition quaternion_drawn (a b c : R) : quat R := fst (GenerateUniformRandomQuaternion real_arith sin cos next [a; b; c]).
Definition angles_drawn (a b c d : R) : R * R * R := fst (GenerateUniformRandomEulerAngles real_arith acos next [a; b; c; d]).
Definition rotation_drawn (a b c d : R) : quat R := let '(r, p, y) := angles_drawn a b c d in QuaternionFromRPY real_arith sin cos r p y.
Definition urdf_rotation_drawn (a b c d : R) : quat R := let '(r, p, y) := angles_drawn a b c d in QuaternionFromUrdfRPY real_arith sin cos r p y.

(** The derivative of a curve in the space of quaternions. *)
Definition velocity (f : R -> quat R) (x : R) (d : quat R) : Prop :=
  derivable_pt_lim (fun t => qw (f t)) x (qw d) /\ derivable_pt_lim (fun t => qx (f t)) x (qx d) /\
  derivable_pt_lim (fun t => qy (f t)) x (qy d) /\ derivable_pt_lim (fun t => qz (f t)) x (qz d).
(** The square of the three-dimensional volume of the parallelepiped spanned by three
    vectors: the determinant of their inner products. *)
Definition squared_volume (d e f : quat R) : R :=
  dotq d d * (dotq e e * dotq f f - dotq e f * dotq e f)
  - dotq d e * (dotq d e * dotq f f - dotq e f * dotq d f)
  + dotq d f * (dotq d e * dotq e f - dotq e e * dotq d f).
(** Near (x, y, z) the map [f] makes boxes into pieces whose volume is [v] times as large. *)
Definition stretches_volume (f : R -> R -> R -> quat R) (x y z v : R) : Prop :=
  exists d e g, velocity (fun t => f t y z) x d /\ velocity (fun t => f x t z) y e /\ velocity (fun t => f x y t) z g /\
    0 <= v /\ squared_volume d e g = v * v.
