(** Model of random_rotation_generator.hpp, of conversions.cpp and of the functions of
    math.cpp on quaternions and isometries, over a type of scalars (MathModel.v).

    Eigen's operations on quaternions are not part of /repo; they are written out here
    from Eigen 3.4 (Geometry/Quaternion.h, Geometry/AngleAxis.h,
    Geometry/EulerAngles.h).  sin, cos, acos and atan2 are parameters.  An Isometry3d
    is its rotation matrix and its translation: Transform::rotation() of an isometry is
    its linear part. *)
From Verif Require Import Base UtilityModel MathModel MathLinModel.

Section Rotation.
Context {A : Type} (ar : arith A).
Variables (a_sin a_cos a_acos : A -> A) (a_atan2 : A -> A -> A).
Notation "a +' b" := (aadd ar a b) (at level 50, left associativity).
Notation "a -' b" := (asub ar a b) (at level 50, left associativity).
Notation "a *' b" := (amul ar a b) (at level 40, left associativity).
Notation "a /' b" := (adiv ar a b) (at level 40, left associativity).
Notation "-' a" := (aopp ar a) (at level 35, right associativity).
Notation c0 := (a_of ar 0). Notation c1 := (a_of ar 1). Notation c2 := (a_of ar 2).
Notation half := (adiv ar (a_of ar 1) (a_of ar 2)).
Notation vec3 := (A * A * A)%type.
Notation mat3 := (vec3 * vec3 * vec3)%type.

(** ** Eigen *)
(** Eigen::Quaterniond(w, x, y, z). *)
Record quat : Type := mkQuat { qw : A; qx : A; qy : A; qz : A }.
(** Quaternion product, Quaternion.h quat_product. *)
Definition q_mul (a b : quat) : quat :=
  mkQuat (qw a *' qw b -' qx a *' qx b -' qy a *' qy b -' qz a *' qz b)
         (qw a *' qx b +' qx a *' qw b +' qy a *' qz b -' qz a *' qy b)
         (qw a *' qy b +' qy a *' qw b +' qz a *' qx b -' qx a *' qz b)
         (qw a *' qz b +' qz a *' qw b +' qx a *' qy b -' qy a *' qx b).
(** QuaternionBase::dot. *)
Definition q_dot (a b : quat) : A := qx a *' qx b +' qy a *' qy b +' qz a *' qz b +' qw a *' qw b.
Definition q_scale (c : A) (a : quat) : quat := mkQuat (c *' qw a) (c *' qx a) (c *' qy a) (c *' qz a).
Definition q_add (a b : quat) : quat := mkQuat (qw a +' qw b) (qx a +' qx b) (qy a +' qy b) (qz a +' qz b).
(** Quaternion(AngleAxis), Quaternion.h operator=(const AngleAxisType&). *)
Definition q_of_angle_axis (angle : A) (axis : vec3) : quat :=
  let ha := half *' angle in
  let '(x, y, z) := axis in mkQuat (a_cos ha) (a_sin ha *' x) (a_sin ha *' y) (a_sin ha *' z).
(** QuaternionBase::toRotationMatrix. *)
Definition toRotationMatrix (q : quat) : mat3 :=
  let tx := c2 *' qx q in let ty := c2 *' qy q in let tz := c2 *' qz q in
  let twx := tx *' qw q in let twy := ty *' qw q in let twz := tz *' qw q in
  let txx := tx *' qx q in let txy := ty *' qx q in let txz := tz *' qx q in
  let tyy := ty *' qy q in let tyz := tz *' qy q in let tzz := tz *' qz q in
  ((c1 -' (tyy +' tzz), txy -' twz, txz +' twy),
   (txy +' twz, c1 -' (txx +' tzz), tyz -' twx),
   (txz -' twy, tyz +' twx, c1 -' (txx +' tyy))).
(** Quaternion(Matrix3), Quaternion.h quaternionbase_assign_impl<Other, 3, 3>. *)
Definition q_of_matrix (m : mat3) : quat :=
  let '((m00, m01, m02), (m10, m11, m12), (m20, m21, m22)) := m in
  let t := m00 +' m11 +' m22 in
  if altb ar c0 t then
    let s := asqrt ar (t +' c1) in
    let r := half /' s in
    mkQuat (half *' s) ((m21 -' m12) *' r) ((m02 -' m20) *' r) ((m10 -' m01) *' r)
  else
    let i := if altb ar m00 m11 then 1%nat else 0%nat in
    let i := if altb ar (if (i =? 0)%nat then m00 else m11) m22 then 2%nat else i in
    match i with
    | 0%nat => let s := asqrt ar (m00 -' m11 -' m22 +' c1) in let r := half /' s in
        mkQuat ((m21 -' m12) *' r) (half *' s) ((m10 +' m01) *' r) ((m20 +' m02) *' r)
    | 1%nat => let s := asqrt ar (m11 -' m22 -' m00 +' c1) in let r := half /' s in
        mkQuat ((m02 -' m20) *' r) ((m01 +' m10) *' r) (half *' s) ((m21 +' m12) *' r)
    | _ => let s := asqrt ar (m22 -' m00 -' m11 +' c1) in let r := half /' s in
        mkQuat ((m10 -' m01) *' r) ((m02 +' m20) *' r) ((m12 +' m21) *' r) (half *' s)
    end.
(** std::numeric_limits<double>::epsilon(). *)
Definition eps : A := c1 /' a_of ar (2 ^ 52).
(** QuaternionBase::slerp. *)
Definition slerp (q : quat) (t : A) (other : quat) : quat :=
  let one := c1 -' eps in
  let d := q_dot q other in
  let absD := aabs ar d in
  let '(scale0, scale1) :=
    if aleb ar one absD then (c1 -' t, t)
    else
      let theta := a_acos absD in
      let sinTheta := a_sin theta in
      (a_sin ((c1 -' t) *' theta) /' sinTheta, a_sin (t *' theta) /' sinTheta) in
  let scale1 := if altb ar d c0 then -' scale1 else scale1 in
  q_add (q_scale scale0 q) (q_scale scale1 other).
(** MatrixBase::eulerAngles(0, 1, 2). *)
Definition eulerAngles (m : mat3) : vec3 :=
  let '((m00, m01, m02), (m10, m11, m12), (m20, m21, m22)) := m in
  let r0 := a_atan2 m12 m22 in
  let n := asqrt ar (m00 *' m00 +' m01 *' m01) in
  let '(r0, r1) :=
    if altb ar c0 r0 then (r0 -' a_pi ar, a_atan2 (-' m02) (-' n)) else (r0, a_atan2 (-' m02) n) in
  let s1 := a_sin r0 in
  let k1 := a_cos r0 in
  let r2 := a_atan2 (s1 *' m20 -' k1 *' m10) (k1 *' m11 -' s1 *' m21) in
  (-' r0, -' r1, -' r2).

(** An Isometry3d. *)
Record isometry : Type := mkIso { iso_rotation : mat3; iso_translation : vec3 }.
(** Translation3d * Quaterniond. *)
Definition iso_of (translation : vec3) (q : quat) : isometry := mkIso (toRotationMatrix q) translation.

(** ** conversions.cpp *)
Definition unit_x : vec3 := (c1, c0, c0).
Definition unit_y : vec3 := (c0, c1, c0).
Definition unit_z : vec3 := (c0, c0, c1).
(** QuaternionFromRPY, conversions.cpp:12-21: products of AngleAxis are products of
    the quaternions, from left to right. *)
Definition QuaternionFromRPY (r p y : A) : quat :=
  q_mul (q_mul (q_of_angle_axis r unit_x) (q_of_angle_axis p unit_y)) (q_of_angle_axis y unit_z).
(** QuaternionFromUrdfRPY, conversions.cpp:24-33. *)
Definition QuaternionFromUrdfRPY (r p y : A) : quat :=
  q_mul (q_mul (q_of_angle_axis y unit_z) (q_of_angle_axis p unit_y)) (q_of_angle_axis r unit_x).
(** EulerAnglesFromRotationMatrix, conversions.cpp:36-42. *)
Definition EulerAnglesFromRotationMatrix (rot_matrix : mat3) : vec3 := eulerAngles rot_matrix.
(** EulerAnglesFromQuaternion, conversions.cpp:45-48. *)
Definition EulerAnglesFromQuaternion (q : quat) : vec3 := EulerAnglesFromRotationMatrix (toRotationMatrix q).
(** EulerAnglesFromIsometry3d, conversions.cpp:51-54. *)
Definition EulerAnglesFromIsometry3d (t : isometry) : vec3 := EulerAnglesFromRotationMatrix (iso_rotation t).
(** TransformFromXYZRPY, conversions.cpp:56-66, and TransformFromRPY of two vectors,
    68-75. *)
Definition TransformFromXYZRPY (x y z roll pitch yaw : A) : isometry :=
  iso_of (x, y, z) (QuaternionFromRPY roll pitch yaw).
(** TransformFromRPY of a VectorXd, conversions.cpp:77-93. *)
Definition TransformFromRPY (components : list A) : outcome isometry :=
  match components with
  | [x; y; z; r; p; w] => Ok (iso_of (x, y, z) (QuaternionFromRPY r p w))
  | _ => Throw InvalidArgument
  end.
(** TransformFromUrdfXYZRPY, conversions.cpp:96-106, and TransformFromUrdfRPY of two
    vectors, 109-116. *)
Definition TransformFromUrdfXYZRPY (x y z roll pitch yaw : A) : isometry :=
  iso_of (x, y, z) (QuaternionFromUrdfRPY roll pitch yaw).
(** TransformFromUrdfRPY of a VectorXd, conversions.cpp:119-135. *)
Definition TransformFromUrdfRPY (components : list A) : outcome isometry :=
  match components with
  | [x; y; z; r; p; w] => Ok (iso_of (x, y, z) (QuaternionFromUrdfRPY r p w))
  | _ => Throw InvalidArgument
  end.
(** TransformToRPY, conversions.cpp:137-145. *)
Definition TransformToRPY (transform : isometry) : list A :=
  let '(x, y, z) := iso_translation transform in
  let '(r, p, w) := EulerAnglesFromRotationMatrix (iso_rotation transform) in
  [x; y; z; r; p; w].
(** StdVectorDoubleToEigenVector3d, conversions.cpp:147-159. *)
Definition StdVectorDoubleToEigenVector3d (vector : list A) : outcome vec3 :=
  if (length vector =? 3)%nat
  then do x <- at_get vector 0; do y <- at_get vector 1; do z <- at_get vector 2; Ok (x, y, z)
  else Throw InvalidArgument.
(** EigenVector3dToStdVectorDouble, conversions.cpp:173-177. *)
Definition EigenVector3dToStdVectorDouble (point : vec3) : list A := let '(x, y, z) := point in [x; y; z].
(** The loops of StdVectorDoubleToEigenVectorXd, conversions.cpp:161-171, and of
    EigenVectorXdToStdVectorDouble, 179-189: a new vector of the same size, filled
    index by index. *)
Fixpoint copy_loop (vector target : list A) (idxs : list nat) : outcome (list A) :=
  match idxs with
  | [] => Ok target
  | idx :: rest => do val <- at_get vector idx; do target <- at_set target idx val; copy_loop vector target rest
  end.
Definition StdVectorDoubleToEigenVectorXd (vector : list A) : outcome (list A) :=
  copy_loop vector (repeat c0 (length vector)) (seq 0 (length vector)).
Definition EigenVectorXdToStdVectorDouble (eigen_vector : list A) : outcome (list A) :=
  copy_loop eigen_vector (repeat c0 (length eigen_vector)) (seq 0 (length eigen_vector)).
(** StdVectorDoubleToEigenQuaterniond, conversions.cpp:192-205. *)
Definition StdVectorDoubleToEigenQuaterniond (vector : list A) : outcome quat :=
  if (length vector =? 4)%nat
  then do w <- at_get vector 3; do x <- at_get vector 0; do y <- at_get vector 1; do z <- at_get vector 2;
       Ok (mkQuat w x y z)
  else Throw InvalidArgument.
(** EigenQuaterniondToStdVectorDouble, conversions.cpp:208-212. *)
Definition EigenQuaterniondToStdVectorDouble (q : quat) : list A := [qx q; qy q; qz q; qw q].

(** ** math.cpp *)
(** Interpolate on quaternions, math.cpp:432-440. *)
Definition InterpolateQuaternion (q1 q2 : quat) (ratio : A) : outcome quat :=
  do real_ratio <- clamp01 ar ratio;
  Ok (slerp q1 real_ratio q2).
(** Interpolate3d, math.cpp:459-469. *)
Definition Interpolate3d (v1 v2 : vec3) (ratio : A) : outcome vec3 :=
  do real_ratio <- clamp01 ar ratio;
  Ok (v3_add ar (v3_scale ar (c1 -' real_ratio) v1) (v3_scale ar real_ratio v2)).
(** Interpolate on isometries, math.cpp:483-498. *)
Definition InterpolateIsometry (t1 t2 : isometry) (ratio : A) : outcome isometry :=
  do real_ratio <- clamp01 ar ratio;
  do vint <- Interpolate3d (iso_translation t1) (iso_translation t2) real_ratio;
  do qint <- InterpolateQuaternion (q_of_matrix (iso_rotation t1)) (q_of_matrix (iso_rotation t2)) real_ratio;
  Ok (iso_of vint qint).
(** Distance on Vector3d, math.cpp:512-523. *)
Definition Distance3d (v1 v2 : vec3) : A :=
  let '(x1, y1, z1) := v1 in let '(x2, y2, z2) := v2 in
  let xd := x2 -' x1 in let yd := y2 -' y1 in let zd := z2 -' z1 in
  asqrt ar (xd *' xd +' yd *' yd +' zd *' zd).
(** Distance on quaternions, math.cpp:542-556. *)
Definition DistanceQuaternion (q1 q2 : quat) : A :=
  let dq := aabs ar (qw q1 *' qw q2 +' qx q1 *' qx q2 +' qy q1 *' qy q2 +' qz q1 *' qz q2) in
  if altb ar dq (c1 -' eps) then a_acos (c2 *' (dq *' dq) -' c1) else c0.
(** Distance on isometries, math.cpp:558-570. *)
Definition DistanceIsometry (t1 t2 : isometry) (alpha : A) : outcome A :=
  do real_alpha <- clamp01 ar alpha;
  let vdist := Distance3d (iso_translation t1) (iso_translation t2) *' (c1 -' real_alpha) in
  let qdist := DistanceQuaternion (q_of_matrix (iso_rotation t1)) (q_of_matrix (iso_rotation t2)) *' real_alpha in
  Ok (vdist +' qdist).

(** AverageEigenQuaterniond, math.cpp:776-847.  A column of q_matrix is
    (w, x, y, z) times the weight; the product with the transpose is the sum over the
    columns. *)
Notation vec4 := (A * A * A * A)%type.
Notation mat4 := (vec4 * vec4 * vec4 * vec4)%type.
Definition weighted_column (qw' : quat * A) : vec4 :=
  let '(q, weight) := qw' in (weight *' qw q, weight *' qx q, weight *' qy q, weight *' qz q).
Definition v4_add (a b : vec4) : vec4 :=
  let '(x, y, z, w) := a in let '(p, q, r, s) := b in (x +' p, y +' q, z +' r, w +' s).
Definition v4_scale (c : A) (a : vec4) : vec4 := let '(x, y, z, w) := a in (c *' x, c *' y, c *' z, c *' w).
Definition m4_add (m n : mat4) : mat4 :=
  let '(m1, m2, m3, m4) := m in let '(n1, n2, n3, n4) := n in (v4_add m1 n1, v4_add m2 n2, v4_add m3 n3, v4_add m4 n4).
Definition v4_outer (v : vec4) : mat4 :=
  let '(x, y, z, w) := v in (v4_scale x v, v4_scale y v, v4_scale z v, v4_scale w v).
Definition v4_zero : vec4 := (c0, c0, c0, c0).
Definition m4_zero : mat4 := (v4_zero, v4_zero, v4_zero, v4_zero).
Definition qqtranspose (columns : list vec4) : mat4 := fold_left (fun m v => m4_add m (v4_outer v)) columns m4_zero.
(** Eigen::EigenSolver: real parts of the four eigenvalues with their eigenvectors. *)
Variable solver : mat4 -> list (A * vec4).
(** The loop for the largest eigenvalue, math.cpp:821-837; -infinity is None. *)
Definition max_eigenvector (pairs : list (A * vec4)) : option (A * vec4) :=
  fold_left (fun best p => match best with
                           | None => Some p
                           | Some b => if altb ar (fst b) (fst p) then Some p else best
                           end) pairs None.
Definition AverageEigenQuaterniond (quaternions : list quat) (weights : list A) : outcome quat :=
  match quaternions with
  | [] => Throw InvalidArgument
  | q :: _ =>
    if negb (length weights =? length quaternions)%nat && negb (length weights =? 0)%nat then Throw InvalidArgument
    else if (length quaternions =? 1)%nat then
      match weights with
      | w :: _ => if aeqb ar (aabs ar w) c0 then Throw InvalidArgument else Ok q
      | [] => Ok q
      end
    else
      let used := if (length weights =? length quaternions)%nat then map (aabs ar) weights else repeat c1 (length quaternions) in
      match max_eigenvector (solver (qqtranspose (map weighted_column (combine quaternions used)))) with
      | Some (_, (w, x, y, z)) => Ok (mkQuat w x y z)
      | None => Throw RuntimeError
      end
  end.
(** A Vector3d as a vector of any size, for AverageEigenVector of MathLinModel.v. *)
Definition v3_list (v : vec3) : list A := let '(x, y, z) := v in [x; y; z].
Definition list_v3 (l : list A) : outcome vec3 := match l with [x; y; z] => Ok (x, y, z) | _ => UB end.
(** AverageEigenIsometry3d, math.cpp:849-891. *)
Definition AverageEigenIsometry3d (transforms : list isometry) (weights : list A) : outcome isometry :=
  match transforms with
  | [] => Throw InvalidArgument
  | t :: _ =>
    if negb (length weights =? length transforms)%nat && negb (length weights =? 0)%nat then Throw InvalidArgument
    else if (length transforms =? 1)%nat then
      match weights with
      | w :: _ => if aeqb ar (aabs ar w) c0 then Throw InvalidArgument else Ok t
      | [] => Ok t
      end
    else
      do average_translation <- AverageEigenVector ar (map (fun t => v3_list (iso_translation t)) transforms) weights;
      do average_translation <- list_v3 average_translation;
      do average_rotation <- AverageEigenQuaterniond (map (fun t => q_of_matrix (iso_rotation t)) transforms) weights;
      Ok (iso_of average_translation average_rotation)
  end.

(** ** random_rotation_generator.hpp *)
(** GenerateUniformRandomQuaternion, random_rotation_generator.hpp:27-45, from the
    results of the three calls of uniform_unit_dist. *)
Definition random_quaternion (x0 u1 u2 : A) : quat :=
  let r1 := asqrt ar (c1 -' x0) in
  let r2 := asqrt ar x0 in
  let t1 := c2 *' a_pi ar *' u1 in
  let t2 := c2 *' a_pi ar *' u2 in
  mkQuat (a_cos t2 *' r2) (a_sin t1 *' r1) (a_cos t1 *' r1) (a_sin t2 *' r2).
(** GenerateUniformRandomEulerAngles, random_rotation_generator.hpp:48-62, from the
    results of the four calls; M_PI_2 is M_PI / 2 (exact). *)
Definition random_euler (u1 u2 u3 u4 : A) : vec3 :=
  let roll := c2 *' a_pi ar *' u1 -' a_pi ar in
  let pitch_init := a_acos (c1 -' c2 *' u2) +' a_pi ar /' c2 in
  let pitch :=
    if altb ar u3 half then (if altb ar pitch_init (a_pi ar) then pitch_init +' a_pi ar else pitch_init -' a_pi ar)
    else pitch_init in
  let yaw := c2 *' a_pi ar *' u4 -' a_pi ar in
  (roll, pitch, yaw).
Section Draws.
(** uniform_unit_dist: a generator with a state. *)
Context {G : Type} (uniform_unit_dist : G -> A * G).
Definition GenerateUniformRandomQuaternion (g : G) : quat * G :=
  let '(x0, g) := uniform_unit_dist g in
  let '(u1, g) := uniform_unit_dist g in
  let '(u2, g) := uniform_unit_dist g in
  (random_quaternion x0 u1 u2, g).
Definition GenerateUniformRandomEulerAngles (g : G) : vec3 * G :=
  let '(u1, g) := uniform_unit_dist g in
  let '(u2, g) := uniform_unit_dist g in
  let '(u3, g) := uniform_unit_dist g in
  let '(u4, g) := uniform_unit_dist g in
  (random_euler u1 u2 u3 u4, g).
(** GetRawQuaternion, random_rotation_generator.hpp:71-75, and GetRawEulerAngles, 86-90. *)
Definition GetRawQuaternion (g : G) : list A * G :=
  let '(q, g) := GenerateUniformRandomQuaternion g in ([qx q; qy q; qz q; qw q], g).
Definition GetRawEulerAngles (g : G) : list A * G :=
  let '((x, y, z), g) := GenerateUniformRandomEulerAngles g in ([x; y; z], g).
End Draws.
End Rotation.
Arguments quat : clear implicits.
Arguments isometry : clear implicits.
