(** Vocabulary of C174 and C175. *)
From Coq Require Import ZArith Reals.
From Flocq Require Import Core BinarySingleNaN.
From Verif Require Import Base Double VoxelModel VoxelSpec.
Local Open Scope R_scope.

(** A length a caller may ask for. *)
Definition positive_length (x : double) : Prop := is_finite x = true /\ 0 < B2R x.
Definition all_positive (cx cy cz xs ys zs : double) : Prop :=
  positive_length cx /\ positive_length cy /\ positive_length cz /\
  positive_length xs /\ positive_length ys /\ positive_length zs.

(** [n] cells of size [c] cover the length [x]; they do up to half a unit in the last
    place; one cell less would not. *)
Definition covers (n : Z) (c x : double) : Prop := B2R x <= IZR n * B2R c.
Definition nearly_covers (n : Z) (c x : double) : Prop :=
  B2R x <= IZR n * B2R c * (1 + bpow radix2 (-53)).
Definition none_spare (n : Z) (c x : double) : Prop := (IZR n - 1) * B2R c < B2R x.

(** The requested length is at least 2^-1022 and at most 2^53 cells. *)
Definition sensible (c x : double) : Prop :=
  bpow radix2 (-1022) <= B2R x / B2R c <= bpow radix2 53.

(** [x] is in cell [i] of size [c], at least the (|i|+1) 2^-50th part of a cell away from both
    faces. *)
Definition margin (i : Z) : R := (Rabs (IZR i) + 1) * bpow radix2 (-50).
Definition well_inside (c x : double) (i : Z) : Prop :=
  is_finite x = true /\
  (IZR i + margin i) * B2R c <= B2R x <= (IZR i + 1 - margin i) * B2R c.
(** [x] is in cell [i]. *)
Definition inside (c x : double) (i : Z) : Prop :=
  is_finite x = true /\ IZR i * B2R c <= B2R x < (IZR i + 1) * B2R c.
