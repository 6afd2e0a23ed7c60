(** Vocabulary of C181: hashed grids placed in the world. *)
From Coq Require Import ZArith Reals.
From Flocq Require Import Core BinarySingleNaN.
From Verif Require Import Base Double MathLinSpec RotationModel VoxelModel VoxelSpec HashedModel PlacedModel PlacedSpec.
Local Open Scope R_scope.

(** Along every axis a chunk has at most 2^20 cells, is at most [M] long and at least the 2^14th part of [M]. *)
Definition chunk_axis_fits (M : R) (n : Z) (c : double) : Prop :=
  is_finite c = true /\ (0 < n <= 2 ^ 20)%Z /\ M * bpow radix2 (-14) <= IZR n * B2R c <= M.
Definition chunk_fits (M : R) (s : GridSizes) : Prop :=
  chunk_axis_fits M (num_x_cells s) (cell_x_size s) /\ chunk_axis_fits M (num_y_cells s) (cell_y_size s) /\
  chunk_axis_fits M (num_z_cells s) (cell_z_size s).
Definition hscale (M : R) : Prop := exists m, (-400 <= m <= 400)%Z /\ M = bpow radix2 m.

(** Cells are numbered through all chunks; the chunk of a cell. *)
Definition chunk_of_cell (s : GridSizes) (i : GridIndex) : Z * Z * Z := let '(x, y, z) := i in
  (x / num_x_cells s, y / num_y_cells s, z / num_z_cells s)%Z.

(** A location of the world that is well inside cell [i] of a grid placed by [o]. *)
Definition in_cell (M : R) (s : GridSizes) (o : iso3) (l : vec4) (i : GridIndex) : Prop := let '(x, y, z, w) := l in
  w = d1 /\ finite3 (x, y, z) /\ within3 (8 * M) (real3 (x, y, z)) /\ deep_inside s (in_grid_frame o (real3 (x, y, z))) i.

(** What is known about a location when reading gives [r]: its value, or else the default value. *)
Definition value_there {T} (default : T) (r : outcome (FoundStatus * option T)) : T :=
  match r with Ok (_, Some v) => v | _ => default end.
