(** Vocabulary of C172. *)
From Coq Require Import List Reals.
From Flocq Require Import Core BinarySingleNaN.
From Verif Require Import Base Double DoubleFacts VoxelModel VoxelSpec HashedModel HashedSpec.
Local Open Scope R_scope.

(** One axis of the base of chunk number [k], at most 2^20 chunks from the origin, with chunks of
    [n] <= 2^20 cells of size [c]; [size] is the computed chunk size.  The base is the double
    nearest to [k] times [size]. *)
Definition based_at (b c size : double) (n k : Z) : Prop :=
  is_finite b = true /\ is_finite c = true /\ size = dmul (d_of_Z n) c /\
  bpow radix2 (-500) <= B2R c <= bpow radix2 500 /\
  (0 < n <= 2 ^ 20)%Z /\ (- 2 ^ 20 <= k <= 2 ^ 20)%Z /\ B2R b = rnd64 (IZR k * B2R size).
Definition chunk_number (s : GridSizes) (r : region) (k : Z * Z * Z) : Prop :=
  let '(bx, by_, bz) := r in let '(kx, ky, kz) := k in
  based_at bx (cell_x_size s) (x_size s) (num_x_cells s) kx /\
  based_at by_ (cell_y_size s) (y_size s) (num_y_cells s) ky /\
  based_at bz (cell_z_size s) (z_size s) (num_z_cells s) kz.
