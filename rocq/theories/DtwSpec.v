(** Vocabulary for dynamic time warping (C61, C62). *)
From Verif Require Import Base Effect DtwModel.

(** [warping first second i j c]: some monotone warping path from the first pair
    of items to the pair (i, j), with steps down, right and diagonally, has summed
    distance [c] (summed in the order of the path). *)
Inductive warping {D A B} (add : D -> D -> D) (zero : D) (dist : A -> B -> D) (first : list A) (second : list B)
    : nat -> nat -> D -> Prop :=
| warp_start a b : nth_error first 0 = Some a -> nth_error second 0 = Some b ->
    warping add zero dist first second 0 0 (add (dist a b) zero)
| warp_down i j c a b : warping add zero dist first second i j c ->
    nth_error first (S i) = Some a -> nth_error second j = Some b ->
    warping add zero dist first second (S i) j (add (dist a b) c)
| warp_right i j c a b : warping add zero dist first second i j c ->
    nth_error first i = Some a -> nth_error second (S j) = Some b ->
    warping add zero dist first second i (S j) (add (dist a b) c)
| warp_diagonal i j c a b : warping add zero dist first second i j c ->
    nth_error first (S i) = Some a -> nth_error second (S j) = Some b ->
    warping add zero dist first second (S i) (S j) (add (dist a b) c).

(** The cost of a complete warping of the two sequences. *)
Definition warping_cost {D A B} (add : D -> D -> D) (zero : D) (dist : A -> B -> D) (first : list A) (second : list B) (c : D) : Prop :=
  warping add zero dist first second (length first - 1) (length second - 1) c.

(** An evaluator on which earlier evaluations were made, with any distance
    functions and whether or not they threw. *)
Fixpoint after_history {D A B} (ltb : D -> D -> bool) (add : D -> D -> D) (zero inf : D)
    (h : list ((A -> B -> outcome D) * list A * list B)) (m : @matrix D) : @matrix D :=
  match h with
  | [] => m
  | (dist, first, second) :: rest =>
      after_history ltb add zero inf rest (snd (EvaluateWarpingCost ltb add zero inf dist first second m))
  end.
