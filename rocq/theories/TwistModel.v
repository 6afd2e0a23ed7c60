(** Model of TwistBetweenTransforms and WeightedAngleBetweenVectors, math.cpp.
    Eigen's matrix logarithm and std::acos are parameters; what is assumed of the
    logarithm is said in the theorems (TwistSpec.v, Prop_Twist.v). *)
From Verif Require Import Base UtilityModel MathModel MathLinModel.

Section Twist.
Variable A : Type.
Variable ar : arith A.
Notation vec3 := (A * A * A)%type.
Notation mat4 := ((A * A * A * A) * (A * A * A * A) * (A * A * A * A) * (A * A * A * A))%type.
Let zero := a_of ar 0.
Let one := a_of ar 1.

(** Eigen's Isometry3d::inverse(): the transposed linear part, and minus its product
    with the translation. *)
Definition iso_inverse (t : mat4) : mat4 :=
  let r := m3_transpose (m4_linear t) in
  let '(x, y, z) := m3_apply ar r (m4_translation t) in
  m4_of r (aopp ar x, aopp ar y, aopp ar z) (zero, zero, zero, one).
(** Eigen's product of two Isometry3d: the product of the linear parts, and
    linear * other.translation + translation. *)
Definition iso_mul (s t : mat4) : mat4 :=
  m4_of (m3_mul ar (m4_linear s) (m4_linear t))
    (v3_add ar (m3_apply ar (m4_linear s) (m4_translation t)) (m4_translation s)) (zero, zero, zero, one).

(** TwistBetweenTransforms, math.cpp:302-308.  [logm] is Eigen's MatrixBase::log() on
    4x4 matrices (unsupported/MatrixFunctions), which is not part of the repository. *)
Definition TwistBetweenTransforms (logm : mat4 -> mat4) (start end_ : mat4) : vec3 * vec3 :=
  let t_diff := iso_mul (iso_inverse start) end_ in
  TwistUnhat ar (logm t_diff).

(** WeightedAngleBetweenVectors, math.cpp:929-934; [a_acos] is std::acos. *)
Definition WeightedAngleBetweenVectors (a_acos : A -> A) (vec1 vec2 weights : list A) : outcome A :=
  do c <- WeightedCosineAngleBetweenVectors ar vec1 vec2 weights; Ok (a_acos c).
End Twist.
Arguments iso_inverse {A}. Arguments iso_mul {A}. Arguments TwistBetweenTransforms {A}. Arguments WeightedAngleBetweenVectors {A}.
