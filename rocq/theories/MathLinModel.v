(** Model of the vector and matrix functions of math.hpp and math.cpp, over a type of
    scalars (MathModel.v).  Vectors of any size are lists, Vector3d and Matrix3d are
    tuples (rows), and a 4x4 matrix is a tuple of four rows.  Eigen's own operations
    are written out; their sums are taken from left to right.  Operands of
    different sizes trip an assertion of Eigen or are undefined: UB. *)
From Verif Require Import Base MathModel.

Section Lin.
Context {A : Type} (ar : arith A).
Notation "a +' b" := (aadd ar a b) (at level 50, left associativity).
Notation "a -' b" := (asub ar a b) (at level 50, left associativity).
Notation "a *' b" := (amul ar a b) (at level 40, left associativity).
Notation "a /' b" := (adiv ar a b) (at level 40, left associativity).
Notation c0 := (a_of ar 0). Notation c1 := (a_of ar 1). Notation c2 := (a_of ar 2).

(** Eigen's a.dot(b), a.squaredNorm(), a.norm(), a - b, a + b, a * scalar. *)
Definition eig_dot (u v : list A) : A := fold_left (fun s p => s +' (fst p *' snd p)) (combine u v) c0.
Definition eig_norm (u : list A) : A := asqrt ar (eig_dot u u).
Definition eig_zip (f : A -> A -> A) (u v : list A) : outcome (list A) :=
  if (length u =? length v)%nat then Ok (zip_with f u v) else UB.
Definition eig_sub := eig_zip (asub ar).
Definition eig_add := eig_zip (aadd ar).

(** ClampNorm, math.hpp:348-358, for a vector. *)
Definition ClampNorm (item : list A) (max_norm : A) : list A :=
  let current_norm := eig_norm item in
  if altb ar max_norm current_norm then map (fun x => x *' (max_norm /' current_norm)) item else item.

(** AverageEigenVector, math.hpp:362-406 (AverageEigenVector3d/4d/Xd of math.cpp call
    it): the loop of AverageStdVectorDouble on vectors. *)
Definition average_vector_step (s : outcome (list A * A)) (vw : list A * A) : outcome (list A * A) :=
  do s <- s;
  let weights_running_sum := snd s +' snd vw in
  let effective_weight := snd vw /' weights_running_sum in
  do diff <- eig_sub (fst vw) (fst s);
  do avg <- eig_add (fst s) (map (fun x => effective_weight *' x) diff);
  Ok (avg, weights_running_sum).
(** The first index whose weight is not zero, math.hpp:378-383. *)
Fixpoint first_nonzero (weights : list A) : nat :=
  match weights with
  | [] => 0
  | w :: r => if aeqb ar w c0 then S (first_nonzero r) else 0
  end.
Definition AverageEigenVector (vectors : list (list A)) (weights : list A) : outcome (list A) :=
  match vectors with
  | [] => Throw InvalidArgument
  | _ =>
    if (0 <? length weights)%nat && negb (length vectors =? length weights)%nat then Throw InvalidArgument
    else
      let used := if (length weights =? 0)%nat then repeat c1 (length vectors) else map (aabs ar) weights in
      let start := first_nonzero weights in
      match nth_error vectors start, nth_error used start with
      | Some v, Some w =>
        do r <- fold_left average_vector_step (skipn (S start) (combine vectors used)) (Ok (v, w));
        Ok (fst r)
      | _, _ => Throw InvalidArgument
      end
  end.

(** VectorProjection, math.hpp:408-432. *)
Definition VectorProjection (base_vector vector_to_project : list A) : outcome (list A) :=
  if negb (length base_vector =? length vector_to_project)%nat then UB else
  let b_squared_norm := eig_dot base_vector base_vector in
  if altb ar c0 b_squared_norm
  then Ok (map (fun x => (eig_dot base_vector vector_to_project /' b_squared_norm) *' x) base_vector)
  else Ok (repeat c0 (length base_vector)).
(** VectorRejection, math.hpp:434-443. *)
Definition VectorRejection (base_vector vector_to_reject : list A) : outcome (list A) :=
  do p <- VectorProjection base_vector vector_to_reject;
  eig_sub vector_to_reject p.
(** The vector of zeros with a one at one index, math.hpp:455-458. *)
Definition unit_vector (n idx : nat) : list A := upd (repeat c0 n) idx c1.
(** The loop of GetArbitraryOrthogonalVector, math.hpp:453-468. *)
Fixpoint orthogonal_loop (vector : list A) (idxs : list nat) : outcome (list A) :=
  match idxs with
  | [] => Throw RuntimeError
  | idx :: rest =>
    do rejected <- VectorRejection vector (unit_vector (length vector) idx);
    if altb ar c0 (eig_dot rejected rejected) then Ok rejected else orthogonal_loop vector rest
  end.
(** GetArbitraryOrthogonalVector, math.hpp:445-474. *)
Definition GetArbitraryOrthogonalVector (vector : list A) : outcome (list A) :=
  if (0 <? length vector)%nat then orthogonal_loop vector (seq 0 (length vector))
  else Throw InvalidArgument.

(** Hyperplane, math.hpp:602-677.  GetNormedDotProduct is in PlaneModel.v. *)
Record Hyperplane : Type := mkPlane { plane_origin : list A; plane_normal : list A }.
Definition MakeHyperplane (origin normal : list A) : outcome Hyperplane :=
  if (length origin =? length normal)%nat then Ok (mkPlane origin normal) else Throw InvalidArgument.
Definition GetRawDotProduct (p : Hyperplane) (point : list A) : outcome A :=
  do check_vector <- eig_sub point (plane_origin p);
  Ok (eig_dot check_vector (plane_normal p)).
Definition RejectVectorOntoPlane (p : Hyperplane) (vector : list A) : outcome (list A) := VectorProjection (plane_normal p) vector.
Definition GetSquaredDistanceToPlane (p : Hyperplane) (point : list A) : outcome A :=
  do v <- eig_sub point (plane_origin p);
  do q <- VectorProjection (plane_normal p) v;
  Ok (eig_dot q q).
Definition GetDistanceToPlane (p : Hyperplane) (point : list A) : outcome A :=
  do v <- eig_sub point (plane_origin p);
  do q <- VectorProjection (plane_normal p) v;
  Ok (eig_norm q).
Definition ProjectVectorOntoPlane (p : Hyperplane) (vector : list A) : outcome (list A) := VectorRejection (plane_normal p) vector.
Definition ProjectPointOntoPlane (p : Hyperplane) (point : list A) : outcome (list A) :=
  do v <- eig_sub point (plane_origin p);
  do q <- VectorRejection (plane_normal p) v;
  eig_add (plane_origin p) q.

(** WeightedDotProduct, WeightedSquaredNorm, WeightedNorm,
    WeightedCosineAngleBetweenVectors, math.cpp:893-927. *)
Definition WeightedDotProduct (vec1 vec2 weights : list A) : outcome A :=
  do w <- eig_zip (amul ar) vec1 weights;
  if negb (length w =? length vec2)%nat then UB else Ok (eig_dot w vec2).
Definition WeightedSquaredNorm (vec weights : list A) : outcome A := WeightedDotProduct vec vec weights.
Definition WeightedNorm (vec weights : list A) : outcome A :=
  do s <- WeightedSquaredNorm vec weights; Ok (asqrt ar s).
(** std::min and std::max. *)
Definition std_min (a b : A) : A := if altb ar b a then b else a.
Definition std_max (a b : A) : A := if altb ar a b then b else a.
Definition WeightedCosineAngleBetweenVectors (vec1 vec2 weights : list A) : outcome A :=
  do vec1_norm <- WeightedNorm vec1 weights;
  do vec2_norm <- WeightedNorm vec2 weights;
  if altb ar c0 vec1_norm && altb ar c0 vec2_norm then
    do d <- WeightedDotProduct vec1 vec2 weights;
    let result := d /' (vec1_norm *' vec2_norm) in
    Ok (std_max (aopp ar c1) (std_min result c1))
  else Throw InvalidArgument.

(** ** Three dimensions *)
Notation vec3 := (A * A * A)%type.
Notation mat3 := (vec3 * vec3 * vec3)%type.
Notation vec4 := (A * A * A * A)%type.
Notation mat4 := (vec4 * vec4 * vec4 * vec4)%type.
(** Eigen's operations on Vector3d and Matrix3d. *)
Definition v3_add (a b : vec3) : vec3 := let '(x, y, z) := a in let '(p, q, r) := b in (x +' p, y +' q, z +' r).
Definition v3_sub (a b : vec3) : vec3 := let '(x, y, z) := a in let '(p, q, r) := b in (x -' p, y -' q, z -' r).
Definition v3_scale (c : A) (a : vec3) : vec3 := let '(x, y, z) := a in (x *' c, y *' c, z *' c).
Definition v3_div (a : vec3) (c : A) : vec3 := let '(x, y, z) := a in (x /' c, y /' c, z /' c).
Definition v3_dot (a b : vec3) : A := let '(x, y, z) := a in let '(p, q, r) := b in (x *' p +' y *' q) +' z *' r.
Definition v3_norm (a : vec3) : A := asqrt ar (v3_dot a a).
Definition v3_cross (a b : vec3) : vec3 := let '(x, y, z) := a in let '(p, q, r) := b in
  (y *' r -' z *' q, z *' p -' x *' r, x *' q -' y *' p).
Definition m3_transpose (m : mat3) : mat3 :=
  let '((a, b, c), (d, e, f), (g, h, i)) := m in ((a, d, g), (b, e, h), (c, f, i)).
Definition m3_map2 (f : vec3 -> vec3 -> vec3) (m n : mat3) : mat3 :=
  let '(m1, m2, m3) := m in let '(n1, n2, n3) := n in (f m1 n1, f m2 n2, f m3 n3).
Definition m3_add := m3_map2 v3_add.
Definition m3_sub := m3_map2 v3_sub.
Definition m3_scale (c : A) (m : mat3) : mat3 := let '(r1, r2, r3) := m in (v3_scale c r1, v3_scale c r2, v3_scale c r3).
Definition m3_div (m : mat3) (c : A) : mat3 := let '(r1, r2, r3) := m in (v3_div r1 c, v3_div r2 c, v3_div r3 c).
Definition m3_apply (m : mat3) (v : vec3) : vec3 := let '(r1, r2, r3) := m in (v3_dot r1 v, v3_dot r2 v, v3_dot r3 v).
Definition m3_mul (m n : mat3) : mat3 :=
  let '(n1, n2, n3) := m3_transpose n in let '(r1, r2, r3) := m in
  ((v3_dot r1 n1, v3_dot r1 n2, v3_dot r1 n3), (v3_dot r2 n1, v3_dot r2 n2, v3_dot r2 n3), (v3_dot r3 n1, v3_dot r3 n2, v3_dot r3 n3)).
Definition m3_identity : mat3 := ((c1, c0, c0), (c0, c1, c0), (c0, c0, c1)).
Definition m3_zero : mat3 := ((c0, c0, c0), (c0, c0, c0), (c0, c0, c0)).
(** v * v.transpose(). *)
Definition v3_outer (v w : vec3) : mat3 := let '(x, y, z) := v in
  let '(p, q, r) := w in ((x *' p, x *' q, x *' r), (y *' p, y *' q, y *' r), (z *' p, z *' q, z *' r)).

(** Skew, math.cpp:241-248. *)
Definition Skew (vector : vec3) : mat3 := let '(x, y, z) := vector in
  ((c0, aopp ar z, y), (z, c0, aopp ar x), (aopp ar y, x, c0)).
(** Unskew, math.cpp:250-257. *)
Definition Unskew (matrix : mat3) : vec3 :=
  let matrix_symetric := m3_div (m3_sub matrix (m3_transpose matrix)) c2 in
  let '((_, _, m02), (m10, _, _), (_, m21, _)) := matrix_symetric in (m21, m02, m10).

(** A twist is (translational velocity, rotational velocity). *)
Notation twist := (vec3 * vec3)%type.
Definition m4_of (m : mat3) (v : vec3) (last : vec4) : mat4 :=
  let '((a, b, c), (d, e, f), (g, h, i)) := m in let '(x, y, z) := v in
  ((a, b, c, x), (d, e, f, y), (g, h, i, z), last).
Definition m4_linear (m : mat4) : mat3 :=
  let '((a, b, c, _), (d, e, f, _), (g, h, i, _), _) := m in ((a, b, c), (d, e, f), (g, h, i)).
Definition m4_translation (m : mat4) : vec3 := let '((_, _, _, x), (_, _, _, y), (_, _, _, z), _) := m in (x, y, z).
(** TwistHat, math.cpp:259-267. *)
Definition TwistHat (t : twist) : mat4 := m4_of (Skew (snd t)) (fst t) (c0, c0, c0, c0).
(** TwistUnhat, math.cpp:269-277. *)
Definition TwistUnhat (hatted : mat4) : twist := (m4_translation hatted, Unskew (m4_linear hatted)).

(** AdjointFromTransform, math.cpp:279-292: the four 3x3 blocks. *)
Definition AdjointFromTransform (transform : mat4) : mat3 * mat3 * mat3 * mat3 :=
  let rotation := m4_linear transform in
  let translation := m4_translation transform in
  let translation_hat := Skew translation in
  (rotation, m3_mul translation_hat rotation, m3_zero, rotation).
(** The product of a 6x6 matrix and a twist, by blocks. *)
Definition m6_apply (m : mat3 * mat3 * mat3 * mat3) (t : twist) : twist :=
  let '(a, b, c, d) := m in
  (v3_add (m3_apply a (fst t)) (m3_apply b (snd t)), v3_add (m3_apply c (fst t)) (m3_apply d (snd t))).
(** TransformTwist, math.cpp:294-300. *)
Definition TransformTwist (transform : mat4) (initial_twist : twist) : twist :=
  m6_apply (AdjointFromTransform transform) initial_twist.

(** sin and cos of <cmath>, and the literals 1e-10 and 1e-100. *)
Variable a_sin a_cos : A -> A.
Definition lit_1e10 : A := c1 /' a_of ar (10 ^ 10).
Definition lit_1e100 : A := c1 /' a_of ar (10 ^ 100).
(** ExpMatrixExact, math.cpp:310-326. *)
Definition ExpMatrixExact (hatted_rot_velocity : mat3) (delta_t : A) : outcome mat3 :=
  if altb ar (aabs ar (v3_norm (Unskew hatted_rot_velocity) -' c1)) lit_1e10 then
    Ok (m3_add (m3_add m3_identity (m3_scale (a_sin delta_t) hatted_rot_velocity))
               (m3_scale (c1 -' a_cos delta_t) (m3_mul hatted_rot_velocity hatted_rot_velocity)))
  else Throw InvalidArgument.
(** The rotating case of ExpTwist, math.cpp:336-352 and again 363-377. *)
Definition exp_rotating (trans_velocity rot_velocity : vec3) (rot_velocity_norm delta_t : A) : outcome mat4 :=
  let scaled_delta_t := delta_t *' rot_velocity_norm in
  let scaled_trans_velocity := v3_div trans_velocity rot_velocity_norm in
  let scaled_rot_velocity := v3_div rot_velocity rot_velocity_norm in
  do rotation_displacement <- ExpMatrixExact (Skew scaled_rot_velocity) scaled_delta_t;
  let translation_displacement :=
    v3_add (m3_apply (m3_sub m3_identity rotation_displacement) (v3_cross scaled_rot_velocity scaled_trans_velocity))
           (v3_scale scaled_delta_t (m3_apply (v3_outer scaled_rot_velocity scaled_rot_velocity) scaled_trans_velocity)) in
  Ok (m4_of rotation_displacement translation_displacement (c0, c0, c0, c1)).
(** ExpTwist, math.cpp:328-382. *)
Definition ExpTwist (t : twist) (delta_t : A) : outcome mat4 :=
  let trans_velocity := fst t in
  let rot_velocity := snd t in
  let trans_velocity_norm := v3_norm trans_velocity in
  let rot_velocity_norm := v3_norm rot_velocity in
  if aleb ar lit_1e100 rot_velocity_norm then exp_rotating trans_velocity rot_velocity rot_velocity_norm delta_t
  else if aleb ar lit_1e100 trans_velocity_norm || aeqb ar rot_velocity_norm c0
  then Ok (m4_of m3_identity (v3_scale delta_t trans_velocity) (c0, c0, c0, c1))
  else exp_rotating trans_velocity rot_velocity rot_velocity_norm delta_t.
End Lin.
