(** Properties C39, C40, C41 and C80 (utility functions).  Model in
    UtilityModel.v, vocabulary in UtilitySpec.v. *)
From Coq Require Import Reals Permutation.
From Flocq Require Import BinarySingleNaN.
From Verif Require Import Base Double DoubleFacts VoxelModel VoxelFloat UtilityModel UtilitySpec UtilityProof.
Local Open Scope Z_scope.

(** C39: subset and equality of collections count repetitions. *)
Theorem C39_is_subset : forall (T : Type) (ltb : T -> T -> bool), strict_weak_order ltb -> forall set cand,
  IsSubset ltb set cand = true <-> forall x, (occurrences ltb x cand <= occurrences ltb x set)%nat.
Proof. intros T ltb S. exact (is_subset ltb S). Qed.
Print Assumptions C39_is_subset.

Theorem C39_collections_equal : forall (T : Type) (ltb : T -> T -> bool), strict_weak_order ltb -> forall a b,
  CollectionsEqual ltb a b = true <-> forall x, occurrences ltb x a = occurrences ltb x b.
Proof. intros T ltb S. exact (collections_equal ltb S). Qed.
Print Assumptions C39_collections_equal.

(** When only equal elements compare equal, equality is being a permutation. *)
Theorem C39_equal_permutation : forall (T : Type) (ltb : T -> T -> bool) (a b : list T), strict_weak_order ltb ->
  (forall x y, ltb x y = false -> ltb y x = false -> x = y) ->
  CollectionsEqual ltb a b = true <-> Permutation a b.
Proof. exact @equal_permutation. Qed.
Print Assumptions C39_equal_permutation.

Lemma Zlt_swo : strict_weak_order Z.ltb.
Proof.
  constructor; intros.
  - apply Z.ltb_irrefl.
  - rewrite Z.ltb_lt in *. lia.
  - rewrite Z.ltb_ge in *. lia.
Qed.
Example C39_nonvacuous : IsSubset Z.ltb [3; 1; 2; 3] [3; 3; 1] = true /\ IsSubset Z.ltb [3; 1; 2; 3] [1; 1] = false /\
  CollectionsEqual Z.ltb [3; 1; 3] [1; 3; 3] = true /\ CollectionsEqual Z.ltb [3; 1; 3] [1; 1; 3] = false /\
  occurrences Z.ltb 3 [3; 1; 3] = 2%nat.
Proof. repeat split. Qed.

(** C40: for unsigned types of 8 bits or more, SetBit changes the one bit, GetBit
    reads it; no operation is undefined. *)
Theorem C40_set_bit : forall width cur pos b, (8 <= width)%N -> (pos < width)%N -> (cur < 2 ^ width)%N ->
  exists w, SetBit width cur pos b = Ok w /\ (w < 2 ^ width)%N /\
    forall i, (i < width)%N -> N.testbit w i = if (i =? pos)%N then b else N.testbit cur i.
Proof. exact set_bit_ok. Qed.
Print Assumptions C40_set_bit.

Theorem C40_get_bit : forall width cur pos, (8 <= width)%N -> (pos < width)%N ->
  GetBit width cur pos = Ok (N.testbit cur pos).
Proof. exact get_bit_ok. Qed.
Print Assumptions C40_get_bit.

Example C40_nonvacuous : SetBit 8 5 7 true = Ok 133%N /\ SetBit 64 (2 ^ 63 + 1) 63 false = Ok 1%N /\
  GetBit 64 (2 ^ 63) 63 = Ok true /\ GetBit 8 133 1 = Ok false /\ SetBit 8 5 40 true = UB.
Proof. repeat split. Qed.

(** C41: for every source value in [0,1) and every size from 1 to the largest of
    the size type (values lo..hi, at most 64 bits), the index is in [0, size);
    and a number drawn from [a,b] lies there, when b - a + 1 fits the type. *)
Theorem C41_random_index : forall lo hi u n, lo <= 0 -> hi < 2 ^ 64 -> unit_interval u -> 1 <= n <= hi ->
  exists i, GetUniformRandomIndex lo hi u n = Ok i /\ 0 <= i < n.
Proof. exact random_index. Qed.
Print Assumptions C41_random_index.

Theorem C41_random_index_rejects : forall lo hi u n, n < 1 -> GetUniformRandomIndex lo hi u n = Throw InvalidArgument.
Proof. exact random_index_rejects. Qed.
Print Assumptions C41_random_index_rejects.

Theorem C41_random_in_range : forall lo hi u a b, lo <= 0 -> hi < 2 ^ 64 -> unit_interval u ->
  lo <= a -> a <= b -> b <= hi -> b - a < hi ->
  exists i, GetUniformRandomInRange lo hi u a b = Ok i /\ a <= i <= b.
Proof. exact random_in_range. Qed.
Print Assumptions C41_random_in_range.

(** The bound on the width cannot be dropped. *)
Theorem C41_full_width : GetUniformRandomInRange 0 (2 ^ 64 - 1) d0 0 (2 ^ 64 - 1) = Throw InvalidArgument /\
  GetUniformRandomInRange (- 2 ^ 63) (2 ^ 63 - 1) d0 (- 2 ^ 63) (2 ^ 63 - 1) = UB.
Proof. exact full_range_fails. Qed.

Example C41_nonvacuous : unit_interval dhalf /\ GetUniformRandomIndex 0 (2 ^ 64 - 1) dhalf 7 = Ok 3 /\
  GetUniformRandomIndex 0 (2 ^ 64 - 1) (ddiv (d_of_Z (2 ^ 53 - 1)) (d_of_Z (2 ^ 53))) (2 ^ 53 + 3) = Ok (2 ^ 53 + 2) /\
  GetUniformRandomInRange (- 2 ^ 31) (2 ^ 31 - 1) dhalf (-3) 4 = Ok 1.
Proof.
  repeat split; try (vm_compute; reflexivity); rewrite (proj1 dhalf_val); Lra.lra.
Qed.

(** C80: clamping returns a value within the bounds, the value itself when it is
    already there, and throws when the bounds are the wrong way round. *)
Theorem C80_clamp : forall (T : Type) (ltb : T -> T -> bool) v mn mx, strict_weak_order ltb -> ltb mx mn = false ->
  exists r, ClampValue ltb (fun a b => negb (ltb a b)) v mn mx = Ok r /\ ltb r mn = false /\ ltb mx r = false /\
    (ltb v mn = false -> ltb mx v = false -> r = v) /\ (r = v \/ r = mn \/ r = mx).
Proof. exact @clamp_ok. Qed.
Print Assumptions C80_clamp.

Theorem C80_clamp_rejects : forall (T : Type) (ltb : T -> T -> bool) v mn mx, ltb mx mn = true ->
  ClampValue ltb (fun a b => negb (ltb a b)) v mn mx = Throw InvalidArgument.
Proof. exact @clamp_rejects. Qed.
Print Assumptions C80_clamp_rejects.

Example C80_nonvacuous : ClampValue Z.ltb Z.geb 9 0 5 = Ok 5 /\ ClampValue Z.ltb Z.geb 3 0 5 = Ok 3 /\
  ClampValue Z.ltb Z.geb (-3) 0 5 = Ok 0.
Proof. repeat split. Qed.
