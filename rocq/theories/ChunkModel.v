(** Reading a hashed grid chunk by chunk, dynamic_spatial_hashed_voxel_grid.hpp. *)
From Verif Require Import Base ParallelismModel Double SerializationModel GraphModel VoxelModel HashedModel.
From Flocq Require Import BinarySingleNaN.
Local Open Scope Z_scope.

(** GetIndexImmutable of a chunk, dynamic_spatial_hashed_voxel_grid.hpp:386-417 (GetIndexMutable,
    419-449, is the same, and does not compile when instantiated because it is const). *)
Definition chunk_get_index {T} (c : @chunk T) (i : GridIndex) : outcome (FoundStatus * option T) :=
  match c_fill c with
  | CELL_FILLED =>
      if IndexInBounds (c_sizes c) i then
        do k <- GetDataIndex (c_sizes c) i; do v <- chunk_get c k; Ok (FOUND_IN_CELL, Some v)
      else Throw RuntimeError
  | CHUNK_FILLED =>
      let '(x, y, z) := i in
      if (x =? 0) && (y =? 0) && (z =? 0) then do v <- chunk_get c 0; Ok (FOUND_IN_CHUNK, Some v)
      else Throw RuntimeError
  | NOT_FILLED => Throw RuntimeError
  end.

(** GetCellLocationInGridFrame, dynamic_spatial_hashed_voxel_grid.hpp:586-594: the sum of the base
    of the region, whose fourth coordinate is 1.0, and the location of the cell with its fourth
    coordinate set to 0.0. *)
Definition GetCellLocationInGridFrame {T} (c : @chunk T) (i : GridIndex) : vec4 :=
  let '(bx, by_, bz) := c_region c in
  let '(x, y, z, _) := IndexToLocationInGridFrame (c_sizes c) i in
  (dadd bx x, dadd by_ y, dadd bz z, dadd d1 d0).

(** GetChunkCenterInGridFrame, dynamic_spatial_hashed_voxel_grid.hpp:596-603. *)
Definition GetChunkCenterInGridFrame {T} (c : @chunk T) : vec4 :=
  let '(bx, by_, bz) := c_region c in
  (dadd bx (dmul (x_size (c_sizes c)) dhalf), dadd by_ (dmul (y_size (c_sizes c)) dhalf),
   dadd bz (dmul (z_size (c_sizes c)) dhalf), dadd d1 d0).
