(** Specification vocabulary for C63-C65. *)
From Verif Require Import Base KnnSpec DistModel.
Local Open Scope Z_scope.

Section S.
Context {D A B : Type}.
Variable ltb : D -> D -> bool.

(** operator< orders the values that satisfy [P]. *)
Record order_on (P : D -> Prop) : Prop := mkOrderOn {
  oo_irrefl : forall a, P a -> ltb a a = false;
  oo_weak : forall a b c, P a -> P b -> P c -> leD ltb a b -> leD ltb b c -> leD ltb a c;
  oo_total : forall a b, P a -> P b -> leD ltb a b \/ leD ltb b a }.

(** [v] is the greatest distance from a point of [first] to its closest point of
    [second]: some point is at least that far from all of them, and no point is
    farther than that from all of them. *)
Definition directed_distance (dist : A -> B -> D) (first : list A) (second : list B) (v : D) : Prop :=
  (exists a, In a first /\ forall b, In b second -> leD ltb v (dist a b)) /\
  (forall a, In a first -> exists b, In b second /\ leD ltb (dist a b) v).
End S.

(** The Hausdorff distance: the greatest distance from a point in one set to the
    closest point in the other, in both directions. *)
Definition hausdorff_distance {D A B} (ltb : D -> D -> bool) (dist : A -> B -> D)
    (first : list A) (second : list B) (v : D) : Prop :=
  exists v1 v2, directed_distance ltb dist first second v1 /\
    directed_distance ltb (fun b a => dist a b) second first v2 /\
    leD ltb v1 v /\ leD ltb v2 v /\ (sameD ltb v v1 \/ sameD ltb v v2).

(** The (i,j) coefficient is [f i j]. *)
Definition matrix_is {C} (m : mat C) (rows cols : Z) (f : Z -> Z -> C) : Prop :=
  m_rows m = rows /\ m_cols m = cols /\
  forall i j, 0 <= i < rows -> 0 <= j < cols -> m_cell m i j = f i j.

(** The matrix of the distances of the elements of two lists. *)
Definition distances_of {D A B} (dist : A -> B -> D) (first : list A) (second : list B) (m : mat D) : Prop :=
  m_rows m = Z.of_nat (length first) /\ m_cols m = Z.of_nat (length second) /\
  forall i j a b, nth_error first i = Some a -> nth_error second j = Some b ->
    m_cell m (Z.of_nat i) (Z.of_nat j) = dist a b.
