(** Model of the comparisons of GridSizes in voxel_grid.hpp. *)
From Flocq Require Import BinarySingleNaN.
From Verif Require Import Base Double SerializationModel VoxelModel.
Local Open Scope Z_scope.

(** GridSizes::operator==, voxel_grid.hpp:441-449. *)
Definition SizesEqual (s other : GridSizes) : bool :=
  (num_x_cells s =? num_x_cells other) && (num_y_cells s =? num_y_cells other) && (num_z_cells s =? num_z_cells other) &&
  Beqb (cell_x_size s) (cell_x_size other) && Beqb (cell_y_size s) (cell_y_size other) && Beqb (cell_z_size s) (cell_z_size other).
(** GridSizes::operator!=, voxel_grid.hpp:451-454. *)
Definition SizesDiffer (s other : GridSizes) : bool := negb (SizesEqual s other).
(** UniformCellSize, voxel_grid.hpp:253-256. *)
Definition UniformCellSize (s : GridSizes) : bool :=
  Beqb (cell_x_size s) (cell_y_size s) && Beqb (cell_x_size s) (cell_z_size s).
(** The constructors for cubic cells, voxel_grid.hpp:202-206 and 208-213. *)
Definition CubicSizesBySize (cell_size xs ys zs : double) : outcome GridSizes :=
  GridSizesBySize cell_size cell_size cell_size xs ys zs.
Definition CubicSizesByCells (cell_size : double) (nx ny nz : Z) : outcome GridSizes :=
  GridSizesByCells cell_size cell_size cell_size nx ny nz.
