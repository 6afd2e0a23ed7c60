(** Vocabulary for the properties of RotationModel.v over real numbers: rotations about
    the axes, unit quaternions and the rotations they stand for, angles. *)
From Coq Require Import Reals.
From Verif Require Import Base MathLinSpec RotationModel.
Local Open Scope R_scope.

(** std::atan2 on reals: the angle of the point (x, y), in (-PI, PI]. *)
Definition Ratan2 (y x : R) : R :=
  if Rlt_dec 0 x then atan (y / x)
  else if Rlt_dec x 0 then (if Rle_dec 0 y then atan (y / x) + PI else atan (y / x) - PI)
  else if Rlt_dec 0 y then PI / 2 else if Rlt_dec y 0 then - (PI / 2) else 0.

(** Rotations about the axes, by the right-hand rule. *)
Definition rot_x (a : R) : r33 := ((1, 0, 0), (0, cos a, - sin a), (0, sin a, cos a)).
Definition rot_y (a : R) : r33 := ((cos a, 0, sin a), (0, 1, 0), (- sin a, 0, cos a)).
Definition rot_z (a : R) : r33 := ((cos a, - sin a, 0), (sin a, cos a, 0), (0, 0, 1)).

(** Quaternions w + x i + y j + z k as pairs of a number and a vector; Hamilton's
    product; the rotation v -> q v q* of a unit quaternion q. *)
Definition quaternion_of (q : quat R) : R * r3 := (qw q, (qx q, qy q, qz q)).
Definition add3 (a b : r3) : r3 := let '(x, y, z) := a in let '(p, q, r) := b in (x + p, y + q, z + r).
Definition scale3 (c : R) (a : r3) : r3 := let '(x, y, z) := a in (c * x, c * y, c * z).
Definition hamilton (p q : R * r3) : R * r3 :=
  (fst p * fst q - dot3 (snd p) (snd q), add3 (add3 (scale3 (fst p) (snd q)) (scale3 (fst q) (snd p))) (cross3 (snd p) (snd q))).
Definition conjugate (p : R * r3) : R * r3 := (fst p, scale3 (-1) (snd p)).
Definition rotates (q : quat R) (m : r33) : Prop :=
  forall v : r3, hamilton (hamilton (quaternion_of q) (0, v)) (conjugate (quaternion_of q)) = (0, apply3 m v).
Definition dotq (p q : quat R) : R := qw p * qw q + qx p * qx q + qy p * qy q + qz p * qz q.
Definition unit (q : quat R) : Prop := dotq q q = 1.
Definition oppq (q : quat R) : quat R := mkQuat (- qw q) (- qx q) (- qy q) (- qz q).

(** The angle of a rotation, from its trace, and the angle between two rotations. *)
Definition trace3 (m : r33) : R := let '((a, _, _), (_, b, _), (_, _, c)) := m in a + b + c.
Definition angle_of (m : r33) : R := acos ((trace3 m - 1) / 2).
Definition angle_between (m n : r33) : R := angle_of (mul3 (transpose3 m) n).
(** The angle between the rotations two unit quaternions stand for. *)
Definition quaternion_angle (p q : quat R) (t : R) : Prop :=
  exists m n, rotates p m /\ rotates q n /\ is_rotation m /\ is_rotation n /\ t = angle_between m n.
(** An isometry with a proper rotation. *)
Definition proper (t : isometry R) : Prop := is_rotation (iso_rotation t).

(** ** Averages *)
Definition scale4 (c : R) (a : r4) : r4 := let '(x, y, z, w) := a in (c * x, c * y, c * z, c * w).
Definition add4 (a b : r4) : r4 := let '(x, y, z, w) := a in let '(p, q, r, s) := b in (x + p, y + q, z + r, w + s).
(** How well p agrees with weighted quaternions: the sum of the squares of the weighted
    inner products.  For unit quaternions an inner product squared is the square of the
    cosine of half the angle between the two rotations. *)
Fixpoint alignment (l : list (quat R * R)) (p : quat R) : R :=
  match l with [] => 0 | (q, w) :: r => (w * dotq q p) ^ 2 + alignment r p end.
(** The quaternions with their weights; no weights stand for ones. *)
Definition effective (quaternions : list (quat R)) (weights : list R) : list (quat R * R) :=
  combine quaternions (match weights with [] => repeat 1 (length quaternions) | _ => weights end).
(** What an eigenvalue solver returns in exact arithmetic for a symmetric matrix: four
    eigenvalues with eigenvectors of length one that span the space. *)
Definition combination (cs : list R) (vs : list r4) : r4 :=
  fold_right (fun cv s => add4 (scale4 (fst cv) (snd cv)) s) (0, 0, 0, 0) (combine cs vs).
Definition eigen_basis (m : r44) (pairs : list (R * r4)) : Prop :=
  length pairs = 4%nat /\
  Forall (fun p => dot4 (snd p) (snd p) = 1 /\ apply4 m (snd p) = scale4 (fst p) (snd p)) pairs /\
  (forall x, exists cs, length cs = 4%nat /\ x = combination cs (map snd pairs)).
(** The sum over the weighted quaternions of the matrices (w q)(w q)^T. *)
Definition outer4 (v : r4) : r44 := let '(a, b, c, d) := v in (scale4 a v, scale4 b v, scale4 c v, scale4 d v).
Definition add44 (m n : r44) : r44 := let '(a, b, c, d) := m in let '(e, f, g, h) := n in (add4 a e, add4 b f, add4 c g, add4 d h).
Definition zero44 : r44 := let z := (0, 0, 0, 0) in (z, z, z, z).
Fixpoint moment (l : list (quat R * R)) : r44 :=
  match l with [] => zero44 | (q, w) :: r => add44 (outer4 (scale4 w (qw q, qx q, qy q, qz q))) (moment r) end.
