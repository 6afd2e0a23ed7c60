(** Model of the placement of a voxel grid in the world: the origin transform of
    voxel_grid.hpp, left abstract in VoxelModel.v, as Eigen's Isometry3d over IEEE
    doubles. *)
From Flocq Require Import BinarySingleNaN.
From Verif Require Import Base Double MathModel MathReal MathLinModel RotationModel VoxelModel.


(** Eigen::Isometry3d and Eigen::Vector3d. *)
Definition iso3 : Type := isometry double.
Definition vec3d : Type := (double * double * double)%type.
(** Isometry3d::inverse(), Eigen 3.4 Geometry/Transform.h (not part of /repo; called in
    voxel_grid.hpp:621, 729, 1164): the transposed linear part and minus its product with
    the translation. *)
Definition eigen_inverse (t : iso3) : iso3 :=
  let r := m3_transpose (iso_rotation t) in
  let '(x, y, z) := m3_apply double_arith r (iso_translation t) in mkIso r (Bopp x, Bopp y, Bopp z).
(** Isometry3d * Vector4d (voxel_grid.hpp:1222, 1240, 1247): the first three rows applied to
    the four coordinates, and the fourth coordinate as it is. *)
Definition affine_row (r : vec3d) (t : double) (v : vec4) : double :=
  let '(x, y, z, w) := v in dadd (v3_dot double_arith r (x, y, z)) (dmul t w).
Definition eigen_apply (t : iso3) (v : vec4) : vec4 :=
  let '(r1, r2, r3) := iso_rotation t in let '(tx, ty, tz) := iso_translation t in
  (affine_row r1 tx v, affine_row r2 ty v, affine_row r3 tz v, snd v).
(** Isometry3d * Vector3d (voxel_grid.hpp:1215): the translation, to which the rotated
    vector is added. *)
Definition eigen_apply3 (t : iso3) (v : vec3d) : vec3d :=
  v3_add double_arith (iso_translation t) (m3_apply double_arith (iso_rotation t) v).
(** Isometry3d::Identity(). *)
Definition eigen_identity : iso3 := mkIso (m3_identity double_arith) (d0, d0, d0).

Section Placed.
Context {T User : Type}.
Notation grid := (@grid T User iso3).
(** GridIndexToLocation, voxel_grid.hpp:1238-1241 and 1243-1249. *)
Definition GridIndexToLocation (g : grid) (i : GridIndex) : vec4 :=
  eigen_apply (g_origin g) (IndexToLocationInGridFrame (g_sizes g) i).
(** LocationInGridFrameToGridIndex3d, voxel_grid.hpp:1174-1184. *)
Definition LocationInGridFrameToGridIndex3d (s : GridSizes) (l : vec3d) : outcome GridIndex :=
  let '(lx, ly, lz) := l in
  do x <- floor_to_int64 (dmul lx (inv_cell_x_size s));
  do y <- floor_to_int64 (dmul ly (inv_cell_y_size s));
  do z <- floor_to_int64 (dmul lz (inv_cell_z_size s));
  Ok (x, y, z).
(** LocationToGridIndex3d, voxel_grid.hpp:1212-1217. *)
Definition LocationToGridIndex3d (g : grid) (l : vec3d) : outcome GridIndex :=
  LocationInGridFrameToGridIndex3d (g_sizes g) (eigen_apply3 (g_inverse g) l).
(** LocationToGridIndex(x, y, z), voxel_grid.hpp:1206-1210. *)
Definition LocationToGridIndex (g : grid) (x y z : double) : outcome GridIndex :=
  LocationToGridIndex4d eigen_apply g (x, y, z, d1).
(** The origin transform computed by Initialize without an origin transform,
    voxel_grid.hpp:742-752. *)
Definition centred_origin (s : GridSizes) : iso3 :=
  iso_of double_arith (dmul (Bopp (x_size s)) dhalf, dmul (Bopp (y_size s)) dhalf, dmul (Bopp (z_size s)) dhalf)
    (mkQuat d1 d0 d0 d0).
(** Initialize(sizes, default_value, oob_value), voxel_grid.hpp:742-752. *)
Definition InitializeCentred (g : grid) (s : GridSizes) (def oob : T) : outcome grid :=
  Initialize eigen_inverse g (centred_origin s) s def oob.
End Placed.
