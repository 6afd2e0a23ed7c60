(** Vocabulary of C180: placements, and where cells are in the world, in real numbers. *)
From Coq Require Import ZArith Reals.
From Flocq Require Import Core BinarySingleNaN.
From Verif Require Import Base Double MathLinSpec RotationModel VoxelModel VoxelSpec PlacedModel.
Local Open Scope R_scope.

(** Vectors and matrices of doubles as vectors and matrices of numbers. *)
Definition real3 (v : vec3d) : r3 := let '(x, y, z) := v in (B2R x, B2R y, B2R z).
Definition real33 (m : vec3d * vec3d * vec3d) : r33 := let '(a, b, c) := m in (real3 a, real3 b, real3 c).
Definition finite3 (v : vec3d) : Prop := let '(x, y, z) := v in is_finite x = true /\ is_finite y = true /\ is_finite z = true.
Definition within3 (b : R) (v : r3) : Prop := let '(x, y, z) := v in Rabs x <= b /\ Rabs y <= b /\ Rabs z <= b.
Definition minus3 (v w : r3) : r3 := let '(x, y, z) := v in let '(a, b, c) := w in (x - a, y - b, z - c).
Definition plus3 (v w : r3) : r3 := let '(x, y, z) := v in let '(a, b, c) := w in (x + a, y + b, z + c).

(** The columns of the matrix have length one and are at right angles, up to 2^-48. *)
Definition nearly_orthogonal (m : r33) : Prop :=
  let '(a, b, c) := mul3 (transpose3 m) m in
  within3 (bpow radix2 (-48)) (minus3 a (1, 0, 0)) /\
  within3 (bpow radix2 (-48)) (minus3 b (0, 1, 0)) /\
  within3 (bpow radix2 (-48)) (minus3 c (0, 0, 1)).
(** An origin transform at most [M] away from the origin of the world. *)
Definition placement (M : R) (o : iso3) : Prop :=
  (let '(a, b, c) := iso_rotation o in finite3 a /\ finite3 b /\ finite3 c) /\ finite3 (iso_translation o) /\
  nearly_orthogonal (real33 (iso_rotation o)) /\ within3 M (real3 (iso_translation o)).
(** Along every axis the grid is at most [M] long and a cell is at least the 2^40th part of [M]. *)
Definition axis_fits (M : R) (n : Z) (c : double) : Prop :=
  is_finite c = true /\ M * bpow radix2 (-40) <= B2R c /\ IZR n * B2R c <= M.
Definition fits (M : R) (s : GridSizes) : Prop :=
  axis_fits M (num_x_cells s) (cell_x_size s) /\ axis_fits M (num_y_cells s) (cell_y_size s) /\ axis_fits M (num_z_cells s) (cell_z_size s).
(** The scales for which the theorems hold. *)
Definition scale (M : R) : Prop := exists m, (-900 <= m <= 900)%Z /\ M = bpow radix2 m.

(** The centre of a cell in the frame of the grid, and a point of that frame in the world. *)
Definition centre_of (s : GridSizes) (i : GridIndex) : r3 := let '(x, y, z) := i in
  (B2R (cell_x_size s) * (IZR x + / 2), B2R (cell_y_size s) * (IZR y + / 2), B2R (cell_z_size s) * (IZR z + / 2)).
Definition in_world (o : iso3) (p : r3) : r3 := plus3 (apply3 (real33 (iso_rotation o)) p) (real3 (iso_translation o)).
(** A location of the world in the frame of the grid: undo the translation, undo the rotation. *)
Definition in_grid_frame (o : iso3) (l : r3) : r3 :=
  apply3 (transpose3 (real33 (iso_rotation o))) (minus3 l (real3 (iso_translation o))).
(** In the cell, a quarter of the cell away from its faces or further. *)
Definition axis_deep (c : double) (q : R) (i : Z) : Prop := (IZR i + / 4) * B2R c <= q <= (IZR i + 3 / 4) * B2R c.
Definition deep_inside (s : GridSizes) (q : r3) (i : GridIndex) : Prop :=
  let '(x, y, z) := i in let '(a, b, c) := q in
  axis_deep (cell_x_size s) a x /\ axis_deep (cell_y_size s) b y /\ axis_deep (cell_z_size s) c z.
(** The cell on the other side of the middle of the grid. *)
Definition opposite (s : GridSizes) (i : GridIndex) : GridIndex := let '(x, y, z) := i in
  (num_x_cells s - 1 - x, num_y_cells s - 1 - y, num_z_cells s - 1 - z)%Z.
