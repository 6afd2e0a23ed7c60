(** Specification vocabulary for C23 and C24. *)
From Verif Require Import Base.
From Coq Require Import Permutation Sorting.Sorted.
Local Open Scope Z_scope.

(** operator< is a strict weak order (true of doubles that are not NaN). *)
Record order_laws {D} (ltb : D -> D -> bool) : Prop := mkOrder {
  ltb_irrefl : forall a, ltb a a = false;
  ltb_trans : forall a b c, ltb a b = true -> ltb b c = true -> ltb a c = true;
  ltb_weak : forall a b c, ltb a b = false -> ltb b c = false -> ltb a c = false }.

Section S.
Context {D Item : Type}.
Variable ltb : D -> D -> bool.

(** a <= b *)
Definition leD (a b : D) : Prop := ltb b a = false.
(** Neither smaller: the same number. *)
Definition sameD (a b : D) : Prop := leD a b /\ leD b a.

(** What the C++ standard says of std::partial_sort: the result is a permutation,
    its first k elements are in order, and none of the others precedes one of
    them. *)
Definition partial_sort_contract (psort : nat -> list (Z * D) -> list (Z * D)) : Prop :=
  forall k l, (k <= length l)%nat ->
    Permutation (psort k l) l /\
    StronglySorted (fun x y => leD (snd x) (snd y)) (firstn k (psort k l)) /\
    forall x y, In x (firstn k (psort k l)) -> In y (skipn k (psort k l)) -> leD (snd x) (snd y).

(** [sel] is a correct answer to the query for the K items of
    items[range_start .. range_end) that are nearest. *)
Record k_nearest (items : list Item) (dist : Item -> D) (range_start range_end K : Z)
    (sel : list (Z * D)) : Prop := mkNearest {
  kn_size : Z.of_nat (length sel) = Z.min K (range_end - range_start);
  kn_distinct : NoDup (map fst sel);
  kn_true : forall i d, In (i, d) sel -> range_start <= i < range_end /\
      exists x, nth_error items (Z.to_nat i) = Some x /\ d = dist x;
  kn_nearest : forall i x, range_start <= i < range_end ->
      nth_error items (Z.to_nat i) = Some x -> ~ In i (map fst sel) ->
      forall j d, In (j, d) sel -> leD d (dist x);
  kn_sorted : K < range_end - range_start ->
      StronglySorted (fun x y => leD (snd x) (snd y)) sel }.
End S.
