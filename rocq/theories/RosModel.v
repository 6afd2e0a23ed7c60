(** Model of ros_conversions.cpp and of SetMessageTimestamps in ros_helpers.hpp.

    The ROS message classes are generated outside /repo; a message is the record of its
    fields.  A message that the code default-constructs has unspecified coordinates here
    (parameters [blank...]): every coordinate is written before it is read, and a header's
    stamp, which the code does not write, keeps its default value.  Eigen's types and its
    conversions are those of RotationModel.v. *)
From Verif Require Import Base UtilityModel MathModel RotationModel.

(** ** Messages *)
(** geometry_msgs Point, Vector3, Quaternion, Pose and Transform. *)
Record point_msg (A : Type) : Type := mkPoint { p_x : A; p_y : A; p_z : A }.
Arguments mkPoint {A}. Arguments p_x {A}. Arguments p_y {A}. Arguments p_z {A}.
Record vector_msg (A : Type) : Type := mkVector { v_x : A; v_y : A; v_z : A }.
Arguments mkVector {A}. Arguments v_x {A}. Arguments v_y {A}. Arguments v_z {A}.
Record quaternion_msg (A : Type) : Type := mkQuaternion { o_x : A; o_y : A; o_z : A; o_w : A }.
Arguments mkQuaternion {A}. Arguments o_x {A}. Arguments o_y {A}. Arguments o_z {A}. Arguments o_w {A}.
Record pose_msg (A : Type) : Type := mkPose { pose_position : point_msg A; pose_orientation : quaternion_msg A }.
Arguments mkPose {A}. Arguments pose_position {A}. Arguments pose_orientation {A}.
Record transform_msg (A : Type) : Type := mkTransform { tf_translation : vector_msg A; tf_rotation : quaternion_msg A }.
Arguments mkTransform {A}. Arguments tf_translation {A}. Arguments tf_rotation {A}.
(** std_msgs Header: the stamp and the frame. *)
Record header (T S : Type) : Type := mkHeader { h_stamp : T; h_frame_id : S }.
Arguments mkHeader {T S}. Arguments h_stamp {T S}. Arguments h_frame_id {T S}.
(** PointStamped, PoseStamped: a header and the message; TransformStamped has a child
    frame as well. *)
Record stamped (T S M : Type) : Type := mkStamped { st_header : header T S; st_message : M }.
Arguments mkStamped {T S M}. Arguments st_header {T S M}. Arguments st_message {T S M}.
Record transform_stamped (T S M : Type) : Type :=
  mkTransformStamped { ts_header : header T S; ts_child_frame_id : S; ts_transform : M }.
Arguments mkTransformStamped {T S M}. Arguments ts_header {T S M}. Arguments ts_child_frame_id {T S M}. Arguments ts_transform {T S M}.

Section Conversions.
Context {A : Type} (ar : arith A).
Notation c0 := (a_of ar 0). Notation c1 := (a_of ar 1).
Notation vec3 := (A * A * A)%type.
Notation vec4 := (A * A * A * A)%type.

(** ros_conversions.cpp:13-18. *)
Definition GeometryPointToEigenVector3d (point : point_msg A) : vec3 := (p_x point, p_y point, p_z point).
(** ros_conversions.cpp:20-28. *)
Definition EigenVector3dToGeometryPoint (point : vec3) : point_msg A := let '(x, y, z) := point in mkPoint x y z.
(** ros_conversions.cpp:30-35. *)
Definition GeometryPointToEigenVector4d (point : point_msg A) : vec4 := (p_x point, p_y point, p_z point, c1).
(** ros_conversions.cpp:37-45. *)
Definition EigenVector4dToGeometryPoint (point : vec4) : point_msg A := let '(x, y, z, w) := point in mkPoint x y z.
(** ros_conversions.cpp:56-61. *)
Definition GeometryVector3ToEigenVector3d (v : vector_msg A) : vec3 := (v_x v, v_y v, v_z v).
(** ros_conversions.cpp:63-71. *)
Definition EigenVector3dToGeometryVector3 (v : vec3) : vector_msg A := let '(x, y, z) := v in mkVector x y z.
(** ros_conversions.cpp:73-78. *)
Definition GeometryVector3ToEigenVector4d (v : vector_msg A) : vec4 := (v_x v, v_y v, v_z v, c0).
(** ros_conversions.cpp:80-88. *)
Definition EigenVector4dToGeometryVector3 (v : vec4) : vector_msg A := let '(x, y, z, w) := v in mkVector x y z.
(** ros_conversions.cpp:90-95: Eigen's constructor takes w first. *)
Definition GeometryQuaternionToEigenQuaterniond (q : quaternion_msg A) : quat A := mkQuat (o_w q) (o_x q) (o_y q) (o_z q).
(** ros_conversions.cpp:97-106. *)
Definition EigenQuaterniondToGeometryQuaternion (q : quat A) : quaternion_msg A := mkQuaternion (qx q) (qy q) (qz q) (qw q).
(** ros_conversions.cpp:108-120. *)
Definition GeometryPoseToEigenIsometry3d (pose : pose_msg A) : isometry A :=
  let trans := (p_x (pose_position pose), p_y (pose_position pose), p_z (pose_position pose)) in
  let quat := mkQuat (o_w (pose_orientation pose)) (o_x (pose_orientation pose)) (o_y (pose_orientation pose)) (o_z (pose_orientation pose)) in
  iso_of ar trans quat.
(** ros_conversions.cpp:122-136. *)
Definition EigenIsometry3dToGeometryPose (transform : isometry A) : pose_msg A :=
  let '(x, y, z) := iso_translation transform in
  let quat := q_of_matrix ar (iso_rotation transform) in
  mkPose (mkPoint x y z) (mkQuaternion (qx quat) (qy quat) (qz quat) (qw quat)).
(** ros_conversions.cpp:147-159. *)
Definition GeometryTransformToEigenIsometry3d (transform : transform_msg A) : isometry A :=
  let trans := (v_x (tf_translation transform), v_y (tf_translation transform), v_z (tf_translation transform)) in
  let quat := mkQuat (o_w (tf_rotation transform)) (o_x (tf_rotation transform)) (o_y (tf_rotation transform)) (o_z (tf_rotation transform)) in
  iso_of ar trans quat.
(** ros_conversions.cpp:161-175. *)
Definition EigenIsometry3dToGeometryTransform (transform : isometry A) : transform_msg A :=
  let '(x, y, z) := iso_translation transform in
  let quat := q_of_matrix ar (iso_rotation transform) in
  mkTransform (mkVector x y z) (mkQuaternion (qx quat) (qy quat) (qz quat) (qw quat)).

(** ** Stamped messages: the header's stamp is the one of a new message. *)
Section Stamped.
Context {T S : Type} (new_stamp : T).
(** ros_conversions.cpp:47-54. *)
Definition EigenVector3dToGeometryPointStamped (point : vec3) (frame_id : S) : stamped T S (point_msg A) :=
  mkStamped (mkHeader new_stamp frame_id) (EigenVector3dToGeometryPoint point).
(** ros_conversions.cpp:138-145. *)
Definition EigenIsometry3dToGeometryPoseStamped (transform : isometry A) (frame_id : S) : stamped T S (pose_msg A) :=
  mkStamped (mkHeader new_stamp frame_id) (EigenIsometry3dToGeometryPose transform).
(** ros_conversions.cpp:177-186. *)
Definition EigenIsometry3dToGeometryTransformStamped (transform : isometry A) (frame_id child_frame_id : S)
  : transform_stamped T S (transform_msg A) :=
  mkTransformStamped (mkHeader new_stamp frame_id) child_frame_id (EigenIsometry3dToGeometryTransform transform).
End Stamped.

(** ** Lists *)
(** The loops "for idx < size: out.at(idx) = convert(in.at(idx))", over a result of the
    right size whose elements are still [blank]. *)
Definition convert_loop {X Y : Type} (convert : X -> Y) (blank : Y) (input : list X) : outcome (list Y) :=
  mfold (fun out idx => do x <- at_get input idx; at_set out idx (convert x))
        (repeat blank (length input)) (seq 0 (length input)).
(** A Matrix3Xd is the list of its columns.  ros_conversions.cpp:188-198. *)
Definition VectorGeometryPointToEigenMatrix3Xd (blank : vec3) (vector_geom : list (point_msg A)) : outcome (list vec3) :=
  convert_loop GeometryPointToEigenVector3d blank vector_geom.
(** ros_conversions.cpp:200-212. *)
Definition EigenMatrix3XdToVectorGeometryPoint (blank : point_msg A) (eigen_matrix : list vec3) : outcome (list (point_msg A)) :=
  convert_loop EigenVector3dToGeometryPoint blank eigen_matrix.
(** ros_conversions.cpp:214-224. *)
Definition VectorEigenVector3dToVectorGeometryPoint (blank : point_msg A) (vector_eigen : list vec3) : outcome (list (point_msg A)) :=
  convert_loop EigenVector3dToGeometryPoint blank vector_eigen.
(** ros_conversions.cpp:226-237. *)
Definition VectorGeometryPointToVectorEigenVector3d (blank : vec3) (vector_geom : list (point_msg A)) : outcome (list vec3) :=
  convert_loop GeometryPointToEigenVector3d blank vector_geom.
(** ros_conversions.cpp:239-250. *)
Definition VectorGeometryVector3ToEigenVector3d (blank : vec3) (vector_geom : list (vector_msg A)) : outcome (list vec3) :=
  convert_loop GeometryVector3ToEigenVector3d blank vector_geom.
(** ros_conversions.cpp:252-263. *)
Definition VectorGeometryPoseToVectorIsometry3d (blank : isometry A) (vector_geom : list (pose_msg A)) : outcome (list (isometry A)) :=
  convert_loop GeometryPoseToEigenIsometry3d blank vector_geom.
(** ros_conversions.cpp:265-277: the overload for transforms. *)
Definition VectorGeometryTransformToVectorIsometry3d (blank : isometry A) (vector_geom : list (transform_msg A)) : outcome (list (isometry A)) :=
  convert_loop GeometryTransformToEigenIsometry3d blank vector_geom.
(** ros_conversions.cpp:279-288. *)
Definition VectorIsometry3dToVectorGeometryPose (blank : pose_msg A) (vector_eigen : list (isometry A)) : outcome (list (pose_msg A)) :=
  convert_loop EigenIsometry3dToGeometryPose blank vector_eigen.
(** ros_conversions.cpp:290-300. *)
Definition VectorIsometry3dToVectorGeometryTransform (blank : transform_msg A) (vector_eigen : list (isometry A)) : outcome (list (transform_msg A)) :=
  convert_loop EigenIsometry3dToGeometryTransform blank vector_eigen.
End Conversions.

(** SetMessageTimestamps, ros_helpers.hpp:64-71 and, for the markers of a MarkerArray,
    81-85: the range-for loop writes message.header.stamp of every element in place.  The
    container is its elements in order. *)
Definition SetMessageTimestamps {T S M : Type} (messages : list (stamped T S M)) (timestamp : T) : list (stamped T S M) :=
  map (fun message => mkStamped (mkHeader timestamp (h_frame_id (st_header message))) (st_message message)) messages.
