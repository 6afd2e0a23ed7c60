(** C182: K nearest neighbours without ties.  Model in KnnModel.v, vocabulary in KnnSpec.v. *)
From Verif Require Import Base ParallelismModel ParallelismSpec KnnModel KnnSpec KnnProof Prop_Knn KnnSame.
From Coq Require Import Permutation Sorting.Sorted.
Local Open Scope Z_scope.

(** When no two items are equally far there is one answer: every standard library (every function
    with the contract of std::partial_sort) gives it, *)
Theorem C182_any_library :
  forall (D Item : Type) (ltb : D -> D -> bool) (infinity : D) (items : list Item) (dist : Item -> D) psort psort',
  partial_sort_contract ltb psort -> partial_sort_contract ltb psort' ->
  forall range_start range_end K,
  0 <= range_start -> range_start <= range_end -> range_end <= Z.of_nat (length items) -> 0 <= K ->
  no_ties ltb items dist range_start range_end ->
  GetKNearestNeighborsInRangeSerial infinity items dist psort range_start range_end K =
  GetKNearestNeighborsInRangeSerial infinity items dist psort' range_start range_end K.
Proof.
  intros * PS PS' * RS RE RL HK NT. destruct (Z.ltb_spec K (range_end - range_start)) as [H|H].
  - destruct (C23_serial_returns_k_nearest D Item ltb infinity items dist psort PS range_start range_end K RS RE RL HK) as (s & E & N).
    destruct (C23_serial_returns_k_nearest D Item ltb infinity items dist psort' PS' range_start range_end K RS RE RL HK) as (s' & E' & N').
    rewrite E, E'. f_equal. eapply nearest_unique; eassumption.
  - unfold GetKNearestNeighborsInRangeSerial. destruct (range_end <? range_start), (Z.of_nat (length items) <? range_end), (K <? 0); try reflexivity.
    destruct ((K =? 0) || (range_end - range_start =? 0)); [reflexivity|]. destruct (Z.leb_spec (range_end - range_start) K); [reflexivity|lia].
Qed.
Print Assumptions C182_any_library.

(** and so does every number of threads under every schedule, entry by entry; *)
Theorem C182_any_threads :
  forall (D Item : Type) (ltb : D -> D -> bool), order_laws ltb ->
  forall (infinity : D) (items : list Item) (dist : Item -> D) psort psort',
  partial_sort_contract ltb psort -> partial_sort_contract ltb psort' ->
  forall spurious team num_threads range_start range_end K tr r,
  0 <= range_start <= range_end -> range_end <= Z.of_nat (length items) -> 0 <= K ->
  no_ties ltb items dist range_start range_end ->
  (1 < num_threads -> valid_call num_threads range_start range_end team /\
     parallel_execution spurious false team num_threads range_start range_end K tr r) ->
  dispatch_result infinity items dist psort num_threads range_start range_end K tr r =
  GetKNearestNeighborsInRangeSerial infinity items dist psort' range_start range_end K.
Proof.
  intros * OL * PS PS' * RS RL HK NT E.
  destruct (C24_dispatch D Item ltb OL infinity items dist psort PS spurious team num_threads range_start range_end K tr r RS RL HK E)
    as (p & s & A & B & _ & N & F).
  rewrite A, <- (C182_any_library D Item ltb infinity items dist psort psort' PS PS' range_start range_end K) by (auto; lia).
  rewrite B. f_equal.
  destruct (C23_serial_returns_k_nearest D Item ltb infinity items dist psort PS range_start range_end K) as (s' & B' & N'); try lia.
  rewrite B in B'. injection B' as <-.
  exact (pointwise ltb items dist range_start range_end NT p s (nearest_genuine _ _ _ _ _ K p N) (nearest_genuine _ _ _ _ _ K s N') F).
Qed.
Print Assumptions C182_any_threads.

(** with OpenMP, every execution in which no thread number runs two shares (see C24). *)
Theorem C182_openmp :
  forall (D Item : Type) (ltb : D -> D -> bool), order_laws ltb ->
  forall (infinity : D) (items : list Item) (dist : Item -> D) psort,
  partial_sort_contract ltb psort ->
  forall spurious omp_in_build team num_threads range_start range_end K tr r,
  0 <= range_start -> range_end <= Z.of_nat (length items) -> 0 <= K ->
  no_ties ltb items dist range_start range_end ->
  valid_call num_threads range_start range_end team ->
  parallel_execution spurious omp_in_build team num_threads range_start range_end K tr r ->
  range_end - range_start <= K \/ NoDup (thread_numbers tr) ->
  parallel_result infinity items dist psort num_threads range_start range_end K tr r =
  GetKNearestNeighborsInRangeSerial infinity items dist psort range_start range_end K.
Proof.
  intros * OL * PS * RS RL HK NT V E S.
  destruct (C24_parallel_equals_serial_partial D Item ltb OL infinity items dist psort PS _ _ _ _ _ _ _ _ _ RS RL HK V E S) as (p & s & A & B & N & F).
  rewrite A, B. f_equal.
  destruct (Z_le_dec range_start range_end) as [O|O].
  - destruct (C23_serial_returns_k_nearest D Item ltb infinity items dist psort PS range_start range_end K) as (s' & B' & N'); try lia.
    rewrite B in B'. injection B' as <-.
    exact (pointwise ltb items dist range_start range_end NT p s (nearest_genuine _ _ _ _ _ K p N) (nearest_genuine _ _ _ _ _ K s N') F).
  - exfalso. rewrite (C23_bad_arguments_throw D Item infinity items dist psort range_start range_end K) in B by lia. discriminate.
Qed.
Print Assumptions C182_openmp.

Example C182_nonvacuous : order_laws Z.ltb /\ partial_sort_contract Z.ltb full_sort /\
  no_ties Z.ltb [7; 5; 8; 4; 9] (fun d => d) 1 5 /\
  GetKNearestNeighborsInRangeSerial 99 [7; 5; 8; 4; 9] (fun d => d) full_sort 1 5 2 = Ok [(3, 4); (1, 5)].
Proof.
  split; [exact Z_order|]. split; [exact full_sort_contract|]. split; [|vm_compute; reflexivity].
  intros i j x y Ri Rj N Ei Ej [A B]. unfold leD in *. apply Z.ltb_ge in A, B. assert (x = y) by lia. subst y. clear A B.
  assert (Ci : i = 1 \/ i = 2 \/ i = 3 \/ i = 4) by lia. assert (Cj : j = 1 \/ j = 2 \/ j = 3 \/ j = 4) by lia.
  destruct Ci as [->|[->|[->| ->]]], Cj as [->|[->|[->| ->]]]; try congruence; simpl in Ei, Ej; congruence.
Qed.
