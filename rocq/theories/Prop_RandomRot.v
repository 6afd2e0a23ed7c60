(** C190: random rotations are uniform.

    A generator of random rotations turns independent draws, uniform over [0, 1), into a
    rotation.  The rotation is uniform when the map from draws to unit quaternions makes every
    small box of draws into a piece of the sphere of unit quaternions whose volume is the same
    multiple of that of the box, wherever the box is, and hits every rotation once, but for a
    set of lower dimension.  The sphere has volume 2 PI^2; half of it holds every rotation
    once, since q and -q are the same rotation. *)
From Coq Require Import Reals Lra.
From Verif Require Import Base MathLinSpec MathReal RotationModel RotationSpec RotationProof RandomRotSpec RandomRot.
Local Open Scope R_scope.

(** Quaternions: volume is stretched by the volume of the sphere, everywhere; different draws
    give different quaternions; every unit quaternion is drawn but for those on two circles. *)
Theorem C190_quaternion_volume : forall a b c, 0 < a < 1 -> stretches_volume quaternion_drawn a b c (2 * (PI * PI)).
Proof. exact quaternion_volume. Qed.
Theorem C190_quaternion_once : forall a b c a' b' c', 0 < a < 1 -> 0 <= b < 1 -> 0 <= c < 1 -> 0 < a' < 1 -> 0 <= b' < 1 -> 0 <= c' < 1 ->
  quaternion_drawn a b c = quaternion_drawn a' b' c' -> a = a' /\ b = b' /\ c = c'.
Proof. exact quaternion_once. Qed.
Theorem C190_quaternion_covers : forall q, unit q -> (qx q <> 0 \/ qy q <> 0) -> (qz q <> 0 \/ qw q <> 0) ->
  exists a b c, 0 < a < 1 /\ 0 <= b < 1 /\ 0 <= c < 1 /\ quaternion_drawn a b c = q.
Proof. exact quaternion_covers. Qed.

(** Roll, pitch and yaw: the third draw is a coin (below 1/2 or not); for either side the other
    three stretch volume by half that of the sphere, different draws give different
    rotations, and every rotation is drawn but for those that turn the z axis to the x
    axis or its opposite. *)
Theorem C190_euler_volume : forall a b c d, 0 < b < 1 -> (c < 1 / 2 -> b <> 1 / 2) ->
  stretches_volume (fun a b d => rotation_drawn a b c d) a b d (PI * PI).
Proof. exact rpy_volume. Qed.
Theorem C190_euler_once : forall a b c d a' b' c' d' m, (c < 1 / 2 <-> c' < 1 / 2) ->
  0 <= a < 1 -> 0 < b < 1 -> 0 <= d < 1 -> 0 <= a' < 1 -> 0 < b' < 1 -> 0 <= d' < 1 ->
  rotates (rotation_drawn a b c d) m -> rotates (rotation_drawn a' b' c' d') m -> a = a' /\ b = b' /\ d = d'.
Proof. exact rpy_once. Qed.
Theorem C190_euler_covers : forall c m, is_rotation m -> apply3 m (0, 0, 1) <> (1, 0, 0) -> apply3 m (0, 0, 1) <> (-1, 0, 0) ->
  exists a b d, 0 <= a < 1 /\ 0 < b < 1 /\ 0 <= d < 1 /\ rotates (rotation_drawn a b c d) m.
Proof. exact rpy_all. Qed.
(** The same for the angles of the other convention (URDF), but for the rotations that turn
    the x axis to the z axis or its opposite. *)
Theorem C190_urdf_volume : forall a b c d, 0 < b < 1 -> (c < 1 / 2 -> b <> 1 / 2) ->
  stretches_volume (fun a b d => urdf_rotation_drawn a b c d) a b d (PI * PI).
Proof. exact urdf_volume. Qed.
Theorem C190_urdf_once : forall a b c d a' b' c' d' m, (c < 1 / 2 <-> c' < 1 / 2) ->
  0 <= a < 1 -> 0 < b < 1 -> 0 <= d < 1 -> 0 <= a' < 1 -> 0 < b' < 1 -> 0 <= d' < 1 ->
  rotates (urdf_rotation_drawn a b c d) m -> rotates (urdf_rotation_drawn a' b' c' d') m -> a = a' /\ b = b' /\ d = d'.
Proof. exact urdf_once. Qed.
Theorem C190_urdf_covers : forall c m, is_rotation m -> apply3 m (1, 0, 0) <> (0, 0, 1) -> apply3 m (1, 0, 0) <> (0, 0, -1) ->
  exists a b d, 0 <= a < 1 /\ 0 < b < 1 /\ 0 <= d < 1 /\ rotates (urdf_rotation_drawn a b c d) m.
Proof. exact urdf_all. Qed.
Print Assumptions C190_quaternion_volume.
Print Assumptions C190_quaternion_once.
Print Assumptions C190_quaternion_covers.
Print Assumptions C190_euler_volume.
Print Assumptions C190_euler_once.
Print Assumptions C190_euler_covers.
Print Assumptions C190_urdf_volume.
Print Assumptions C190_urdf_once.
Print Assumptions C190_urdf_covers.
Example C190_nonvacuous :
  (0 < 1 / 3 < 1 /\ (1 / 4 < 1 / 2 -> 1 / 3 <> 1 / 2)) /\
  (let q := mkQuat (1 / 2) (1 / 2) (1 / 2) (1 / 2) in unit q /\ qx q <> 0 /\ qz q <> 0) /\
  (let m := ((0, -1, 0), (1, 0, 0), (0, 0, 1)) in is_rotation m /\ apply3 m (0, 0, 1) <> (1, 0, 0) /\ apply3 m (0, 0, 1) <> (-1, 0, 0) /\
     apply3 m (1, 0, 0) <> (0, 0, 1) /\ apply3 m (1, 0, 0) <> (0, 0, -1)).
Proof.
  split; [lra|]. split; [unfold unit, dotq; cbn; lra|].
  assert (N : forall a b c p q r : R, (a, b, c) = (p, q, r) -> c = r) by congruence.
  assert (N1 : forall a b c p q r : R, (a, b, c) = (p, q, r) -> a = p) by congruence.
  cbv zeta. split; [split; unfold mul3, transpose3, dot3, det3, cross3, id3; [entrywise; ring|unfold dot3; ring]|].
  unfold apply3, dot3. repeat split; intros E; pose proof (N1 _ _ _ _ _ _ E); pose proof (N _ _ _ _ _ _ E); lra.
Qed.
