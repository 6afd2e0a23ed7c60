(** C151-C154: conversions between ROS messages and Eigen types, and message stamps. *)
From Coq Require Import Reals Lra.
From Verif Require Import Base UtilityModel MathModel MathReal MathSpec MathLinModel MathLinSpec MathLinProof RotationModel RotationSpec RotationProof RotationAngle RotationAverage RosModel RosProof.
Local Open Scope R_scope.

(** C151: points, vectors and quaternions are copied coordinate by coordinate, whatever
    the coordinates are (numbers of any precision, NaN, infinities). *)
Theorem C151_three : forall (A : Type) (x y z : A),
  GeometryPointToEigenVector3d (mkPoint x y z) = (x, y, z) /\ EigenVector3dToGeometryPoint (x, y, z) = mkPoint x y z /\
  GeometryVector3ToEigenVector3d (mkVector x y z) = (x, y, z) /\ EigenVector3dToGeometryVector3 (x, y, z) = mkVector x y z.
Proof. intros. repeat split. Qed.
Theorem C151_quaternion : forall (A : Type) (m : quaternion_msg A) (q : quat A),
  let e := GeometryQuaternionToEigenQuaterniond m in let g := EigenQuaterniondToGeometryQuaternion q in
  (qw e = o_w m /\ qx e = o_x m /\ qy e = o_y m /\ qz e = o_z m) /\
  (o_w g = qw q /\ o_x g = qx q /\ o_y g = qy q /\ o_z g = qz q) /\
  EigenQuaterniondToGeometryQuaternion e = m /\ GeometryQuaternionToEigenQuaterniond g = q.
Proof. intros A [x y z w] [a b c d]. repeat split. Qed.
(** Homogeneous coordinates: a point gets 1, a vector 0, and back the last coordinate is
    dropped, so that a message survives both ways and a Vector4d does exactly when its
    last coordinate is that one. *)
Theorem C151_homogeneous : forall (A : Type) (ar : arith A) (x y z w : A),
  GeometryPointToEigenVector4d ar (mkPoint x y z) = (x, y, z, a_of ar 1) /\
  GeometryVector3ToEigenVector4d ar (mkVector x y z) = (x, y, z, a_of ar 0) /\
  EigenVector4dToGeometryPoint (x, y, z, w) = mkPoint x y z /\ EigenVector4dToGeometryVector3 (x, y, z, w) = mkVector x y z /\
  (GeometryPointToEigenVector4d ar (EigenVector4dToGeometryPoint (x, y, z, w)) = (x, y, z, w) <-> w = a_of ar 1) /\
  (GeometryVector3ToEigenVector4d ar (EigenVector4dToGeometryVector3 (x, y, z, w)) = (x, y, z, w) <-> w = a_of ar 0).
Proof.
  intros. do 4 (split; [reflexivity|]). split; (split; [intros E; injection E; auto|intros ->; reflexivity]).
Qed.
Theorem C151_round_trips : forall (A : Type) (p : point_msg A) (v : vector_msg A) (e : A * A * A),
  EigenVector3dToGeometryPoint (GeometryPointToEigenVector3d p) = p /\ EigenVector3dToGeometryVector3 (GeometryVector3ToEigenVector3d v) = v /\
  GeometryPointToEigenVector3d (EigenVector3dToGeometryPoint e) = e /\ GeometryVector3ToEigenVector3d (EigenVector3dToGeometryVector3 e) = e.
Proof. intros A [x y z] [a b c] [[d f] g]. repeat split. Qed.
Print Assumptions C151_three.
Print Assumptions C151_quaternion.
Print Assumptions C151_homogeneous.
Print Assumptions C151_round_trips.

(** C152: poses and transforms in exact arithmetic.  A message whose quaternion has length
    one becomes the rigid motion v -> q v q* + t, with a proper rotation ... *)
Definition message_quaternion (m : quaternion_msg R) : quat R := mkQuat (o_w m) (o_x m) (o_y m) (o_z m).
Theorem C152_to_isometry_partial : forall (position : point_msg R) (orientation : quaternion_msg R), unit (message_quaternion orientation) ->
  let t := GeometryPoseToEigenIsometry3d real_arith (mkPose position orientation) in
  proper t /\ rotates (message_quaternion orientation) (iso_rotation t) /\ iso_translation t = (p_x position, p_y position, p_z position) /\
  GeometryTransformToEigenIsometry3d real_arith (mkTransform (mkVector (p_x position) (p_y position) (p_z position)) orientation) = t.
Proof.
  intros p [x y z w] U t. split; [apply toRot_rotation; exact U|]. split; [apply toRot_rotates; exact U|]. split; reflexivity.
Qed.
(** ... and back it is the same position and the same quaternion or its opposite, which is
    the same rotation. *)
Theorem C152_message_round_trip_partial : forall (position : point_msg R) (orientation : quaternion_msg R), unit (message_quaternion orientation) ->
  let back := EigenIsometry3dToGeometryPose real_arith (GeometryPoseToEigenIsometry3d real_arith (mkPose position orientation)) in
  pose_position back = position /\
  (message_quaternion (pose_orientation back) = message_quaternion orientation \/ message_quaternion (pose_orientation back) = oppq (message_quaternion orientation)).
Proof.
  intros [x y z] [a b c d] U back. split; [reflexivity|]. unfold back, EigenIsometry3dToGeometryPose, GeometryPoseToEigenIsometry3d.
  cbn [iso_of iso_translation iso_rotation pose_position pose_orientation p_x p_y p_z o_x o_y o_z o_w]. set (q := mkQuat d a b c).
  change (unit q) in U. pose proof (toRot_rotation q U) as RO. pose proof (q_of_matrix_unit _ RO) as V. pose proof (q_of_matrix_matrix _ RO) as M.
  destruct (q_of_matrix ra (toRotationMatrix ra q)) as [e f g h] eqn:E. apply (same_rotation q (mkQuat e f g h)); auto.
Qed.
Theorem C152_transform_round_trip_partial : forall (translation : vector_msg R) (rotation : quaternion_msg R), unit (message_quaternion rotation) ->
  let back := EigenIsometry3dToGeometryTransform real_arith (GeometryTransformToEigenIsometry3d real_arith (mkTransform translation rotation)) in
  tf_translation back = translation /\
  (message_quaternion (tf_rotation back) = message_quaternion rotation \/ message_quaternion (tf_rotation back) = oppq (message_quaternion rotation)).
Proof.
  intros [x y z] [a b c d] U back. split; [reflexivity|]. unfold back, EigenIsometry3dToGeometryTransform, GeometryTransformToEigenIsometry3d.
  cbn [iso_of iso_translation iso_rotation tf_translation tf_rotation v_x v_y v_z o_x o_y o_z o_w]. set (q := mkQuat d a b c).
  change (unit q) in U. pose proof (toRot_rotation q U) as RO. pose proof (q_of_matrix_unit _ RO) as V. pose proof (q_of_matrix_matrix _ RO) as M.
  destruct (q_of_matrix ra (toRotationMatrix ra q)) as [e f g h] eqn:E. apply (same_rotation q (mkQuat e f g h)); auto.
Qed.
(** Every isometry is recovered from its messages, whose quaternions have length one. *)
Theorem C152_isometry_round_trip : forall t : isometry R, proper t ->
  let pose := EigenIsometry3dToGeometryPose real_arith t in let tf := EigenIsometry3dToGeometryTransform real_arith t in
  unit (message_quaternion (pose_orientation pose)) /\ unit (message_quaternion (tf_rotation tf)) /\
  GeometryPoseToEigenIsometry3d real_arith pose = t /\ GeometryTransformToEigenIsometry3d real_arith tf = t.
Proof.
  intros [m [[x y] z]] P pose tf. unfold proper in P. cbn [iso_rotation] in P.
  pose proof (q_of_matrix_unit _ P) as V. pose proof (q_of_matrix_matrix _ P) as M. unfold pose, tf, EigenIsometry3dToGeometryPose, EigenIsometry3dToGeometryTransform.
  cbn [iso_translation iso_rotation pose_orientation pose_position tf_translation tf_rotation]. destruct (q_of_matrix ra m) as [e f g h] eqn:E.
  split; [exact V|]. split; [exact V|]. split; unfold GeometryPoseToEigenIsometry3d, GeometryTransformToEigenIsometry3d, iso_of; cbn; (f_equal; exact M).
Qed.
(** Any other quaternion is taken as it is, without being normalised or refused: the
    result need not be a rotation, so that what is called an isometry stretches. *)
Theorem C152_non_unit_refuted :
  let t := GeometryPoseToEigenIsometry3d real_arith (mkPose (mkPoint 0 0 0) (mkQuaternion 2 0 0 0)) in
  ~ proper t /\ apply3 (iso_rotation t) (0, 1, 0) = (0, -7, 0).
Proof.
  intros t. assert (E : apply3 (iso_rotation t) (0, 1, 0) = (0, -7, 0)).
  { unfold t, GeometryPoseToEigenIsometry3d, iso_of, toRotationMatrix, apply3, dot3. cbn -[IZR Rmult Rplus]. ra_simpl. repeat apply pair3_eq; ring. }
  split; [|exact E]. intros [O _]. revert O. unfold t, GeometryPoseToEigenIsometry3d, iso_of, toRotationMatrix, mul3, transpose3, id3, dot3. cbn -[IZR Rmult Rplus]. ra_simpl.
  intros O. injection O. intros. lra.
Qed.
(** The quaternion of all zeros, which is what a new message contains in ROS 1, becomes no rotation
    at all. *)
Theorem C152_zero_quaternion : forall x y z : R,
  GeometryPoseToEigenIsometry3d real_arith (mkPose (mkPoint x y z) (mkQuaternion 0 0 0 0)) = mkIso id3 (x, y, z).
Proof.
  intros. unfold GeometryPoseToEigenIsometry3d, iso_of, toRotationMatrix, id3. cbn -[IZR Rmult Rplus]. ra_simpl. f_equal. repeat apply pair3_eq; ring.
Qed.
Print Assumptions C152_to_isometry_partial.
Print Assumptions C152_message_round_trip_partial.
Print Assumptions C152_transform_round_trip_partial.
Print Assumptions C152_isometry_round_trip.
Print Assumptions C152_non_unit_refuted.
Print Assumptions C152_zero_quaternion.
Example C152_met : unit (message_quaternion (mkQuaternion 0 (3/5) 0 (4/5))).
Proof. unfold unit, dotq, message_quaternion. cbn. lra. Qed.

(** C153: a list of messages is converted element by element: no exception, as many
    results as there were inputs, the i-th the conversion of the i-th. *)
Definition elementwise {X Y : Type} (convert : X -> Y) (l : list X) (r : outcome (list Y)) : Prop :=
  exists out, r = Ok out /\ length out = length l /\ forall i x, nth_error l i = Some x -> nth_error out i = Some (convert x).
Lemma elementwise_map {X Y} (f : X -> Y) l : elementwise f l (Ok (map f l)).
Proof. exists (map f l). split; [reflexivity|]. split; [apply map_length|]. intros i x H. rewrite nth_error_map, H. reflexivity. Qed.
Theorem C153_elementwise : forall (A : Type) (ar : arith A) bv bp bi bo bt,
  (forall l, elementwise (@GeometryPointToEigenVector3d A) l (VectorGeometryPointToEigenMatrix3Xd bv l)) /\
  (forall l, elementwise (@EigenVector3dToGeometryPoint A) l (EigenMatrix3XdToVectorGeometryPoint bp l)) /\
  (forall l, elementwise (@EigenVector3dToGeometryPoint A) l (VectorEigenVector3dToVectorGeometryPoint bp l)) /\
  (forall l, elementwise (@GeometryPointToEigenVector3d A) l (VectorGeometryPointToVectorEigenVector3d bv l)) /\
  (forall l, elementwise (@GeometryVector3ToEigenVector3d A) l (VectorGeometryVector3ToEigenVector3d bv l)) /\
  (forall l, elementwise (GeometryPoseToEigenIsometry3d ar) l (VectorGeometryPoseToVectorIsometry3d ar bi l)) /\
  (forall l, elementwise (GeometryTransformToEigenIsometry3d ar) l (VectorGeometryTransformToVectorIsometry3d ar bi l)) /\
  (forall l, elementwise (EigenIsometry3dToGeometryPose ar) l (VectorIsometry3dToVectorGeometryPose ar bo l)) /\
  (forall l, elementwise (EigenIsometry3dToGeometryTransform ar) l (VectorIsometry3dToVectorGeometryTransform ar bt l)).
Proof.
  intros. unfold VectorGeometryPointToEigenMatrix3Xd, EigenMatrix3XdToVectorGeometryPoint, VectorEigenVector3dToVectorGeometryPoint, VectorGeometryPointToVectorEigenVector3d,
    VectorGeometryVector3ToEigenVector3d, VectorGeometryPoseToVectorIsometry3d, VectorGeometryTransformToVectorIsometry3d, VectorIsometry3dToVectorGeometryPose, VectorIsometry3dToVectorGeometryTransform.
  repeat split; intros l; rewrite convert_map; apply elementwise_map.
Qed.
(** So lists of points survive a round trip exactly, through a Matrix3Xd as well. *)
Theorem C153_round_trips : forall (A : Type) bv bp (l : list (point_msg A)) (m : list (A * A * A)),
  bind (VectorGeometryPointToEigenMatrix3Xd bv l) (EigenMatrix3XdToVectorGeometryPoint bp) = Ok l /\
  bind (VectorGeometryPointToVectorEigenVector3d bv l) (VectorEigenVector3dToVectorGeometryPoint bp) = Ok l /\
  bind (EigenMatrix3XdToVectorGeometryPoint bp m) (VectorGeometryPointToEigenMatrix3Xd bv) = Ok m.
Proof.
  intros A bv bp l m. unfold VectorGeometryPointToEigenMatrix3Xd, EigenMatrix3XdToVectorGeometryPoint, VectorGeometryPointToVectorEigenVector3d, VectorEigenVector3dToVectorGeometryPoint.
  rewrite !convert_map. cbn [bind]. rewrite !convert_map, !map_map.
  assert (E1 : map (fun x : point_msg A => EigenVector3dToGeometryPoint (GeometryPointToEigenVector3d x)) l = l) by (rewrite <- (map_id l) at 2; apply map_ext; intros [x y z]; reflexivity).
  assert (E2 : map (fun x : A * A * A => GeometryPointToEigenVector3d (EigenVector3dToGeometryPoint x)) m = m) by (rewrite <- (map_id m) at 2; apply map_ext; intros [[x y] z]; reflexivity).
  rewrite E1, E2. auto.
Qed.
(** In exact arithmetic so do lists of proper isometries. *)
Theorem C153_isometries : forall bo bi bt (l : list (isometry R)), Forall proper l ->
  bind (VectorIsometry3dToVectorGeometryPose real_arith bo l) (VectorGeometryPoseToVectorIsometry3d real_arith bi) = Ok l /\
  bind (VectorIsometry3dToVectorGeometryTransform real_arith bt l) (VectorGeometryTransformToVectorIsometry3d real_arith bi) = Ok l.
Proof.
  intros bo bi bt l F. unfold VectorIsometry3dToVectorGeometryPose, VectorGeometryPoseToVectorIsometry3d, VectorIsometry3dToVectorGeometryTransform, VectorGeometryTransformToVectorIsometry3d.
  rewrite !convert_map. cbn [bind]. rewrite !convert_map, !map_map. rewrite Forall_forall in F.
  split; f_equal; (rewrite <- (map_id l) at 2; apply map_ext_in; intros t T; pose proof (C152_isometry_round_trip t (F t T)) as (_ & _ & P & Q); assumption).
Qed.
Print Assumptions C153_elementwise.
Print Assumptions C153_round_trips.
Print Assumptions C153_isometries.
Example C153_met : VectorGeometryPointToEigenMatrix3Xd (0, 0, 0)%Z [mkPoint 1 2 3; mkPoint 4 5 6]%Z = Ok [(1, 2, 3); (4, 5, 6)]%Z.
Proof. reflexivity. Qed.

(** C154: stamped messages carry the given frame names and the unstamped message, and the
    stamp of a new message; SetMessageTimestamps gives every message the stamp and changes
    nothing else. *)
Theorem C154_stamped : forall (A T S : Type) (ar : arith A) (t0 : T) (p : A * A * A) (m : isometry A) (frame child : S),
  let a := EigenVector3dToGeometryPointStamped t0 p frame in let b := EigenIsometry3dToGeometryPoseStamped ar t0 m frame in
  let c := EigenIsometry3dToGeometryTransformStamped ar t0 m frame child in
  (h_frame_id (st_header a) = frame /\ h_stamp (st_header a) = t0 /\ st_message a = EigenVector3dToGeometryPoint p) /\
  (h_frame_id (st_header b) = frame /\ h_stamp (st_header b) = t0 /\ st_message b = EigenIsometry3dToGeometryPose ar m) /\
  (h_frame_id (ts_header c) = frame /\ h_stamp (ts_header c) = t0 /\ ts_child_frame_id c = child /\ ts_transform c = EigenIsometry3dToGeometryTransform ar m).
Proof. intros. repeat split. Qed.
Theorem C154_timestamps : forall (T S M : Type) (messages : list (stamped T S M)) (timestamp : T),
  let after := SetMessageTimestamps messages timestamp in
  length after = length messages /\
  forall i m, nth_error messages i = Some m -> exists m', nth_error after i = Some m' /\
    h_stamp (st_header m') = timestamp /\ h_frame_id (st_header m') = h_frame_id (st_header m) /\ st_message m' = st_message m.
Proof.
  intros. split; [apply map_length|]. intros i m H. eexists. unfold after, SetMessageTimestamps. rewrite nth_error_map, H. split; [reflexivity|]. repeat split.
Qed.
Print Assumptions C154_stamped.
Print Assumptions C154_timestamps.
