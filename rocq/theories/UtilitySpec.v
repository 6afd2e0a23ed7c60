(** Vocabulary for the utility functions. *)
From Coq Require Import Reals.
From Flocq Require Import BinarySingleNaN.
From Verif Require Import Base Double UtilityModel.
Local Open Scope Z_scope.

(** What C++ requires of operator< for a map key. *)
Record strict_weak_order {T} (ltb : T -> T -> bool) : Prop := mkSWO {
  swo_irr : forall a, ltb a a = false;
  swo_trans : forall a b c, ltb a b = true -> ltb b c = true -> ltb a c = true;
  swo_incomp : forall a b c, ltb a b = false -> ltb b a = false -> ltb b c = false -> ltb c b = false ->
    ltb a c = false /\ ltb c a = false }.

(** Number of elements of [l] that compare equal to [x]. *)
Definition occurrences {T} (ltb : T -> T -> bool) (x : T) (l : list T) : nat :=
  length (filter (fun y => negb (ltb x y) && negb (ltb y x)) l).

(** A random source value in [0,1). *)
Definition unit_interval (u : double) : Prop := is_finite u = true /\ (0 <= B2R u < 1)%R.
