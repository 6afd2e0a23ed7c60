(** Model of include/common_robotics_utilities/simple_knearest_neighbors.hpp.

    Simplifications: the distance function is a total function of the item that
    neither throws nor has side effects ([current] is fixed inside it), and
    size_t values are mathematical integers >= 0 (a vector has fewer than 2^63
    elements). *)
From Verif Require Import Base ParallelismModel.
Local Open Scope Z_scope.

(** Calls of the work function in a trace of a parallel loop, in the order in
    which they began: thread number and index range. *)
Definition loop_calls (tr : list event) : list (Z * (Z * Z)) :=
  flat_map (fun ev => match ev with EvBegin t lo hi => [(t, (lo, hi))] | _ => [] end) tr.

Section Knn.
Context {D Item : Type}.
(** operator< of distances, and the default distance (infinity). *)
Variable ltb : D -> D -> bool.
Variable infinity : D.
Variable items : list Item.
Variable dist : Item -> D.

(** class IndexAndDistance, simple_knearest_neighbors.hpp:21-55. *)
Notation IndexAndDistance := (Z * D)%type.
Definition default_entry : IndexAndDistance := (-1, infinity).

(** std::partial_sort(v.begin(), v.begin() + k, v.end(), Compare) is an unknown
    function constrained by the C++ standard (contract in KnnSpec.v); k past the
    end is undefined behaviour. *)
Variable psort : nat -> list IndexAndDistance -> list IndexAndDistance.
Definition partial_sort (k : Z) (l : list IndexAndDistance) : outcome (list IndexAndDistance) :=
  if Z.of_nat (length l) <? k then UB else Ok (psort (Z.to_nat k) l).

(** std::vector::resize to a smaller or equal size. *)
Definition resize_down (k : Z) (l : list IndexAndDistance) : list IndexAndDistance :=
  firstn (Z.to_nat k) l.

(** items[idx] then distance_fn; the entry is stored at slot idx - range_start:
    body of the loops at simple_knearest_neighbors.hpp:97-102 and 109-114 and of
    per_item_work at 167-173. *)
Definition store_entry (range_start : Z) (v : list IndexAndDistance) (idx : Z)
  : outcome (list IndexAndDistance) :=
  do item <- raw_get items (Z.to_nat idx);
  raw_set v (Z.to_nat (idx - range_start)) (idx, dist item).

(** GetKNearestNeighborsInRangeSerial, simple_knearest_neighbors.hpp:68-125. *)
Definition GetKNearestNeighborsInRangeSerial (range_start range_end K : Z)
  : outcome (list IndexAndDistance) :=
  if range_end <? range_start then Throw InvalidArgument
  else if Z.of_nat (length items) <? range_end then Throw InvalidArgument
  else
    let range_size := range_end - range_start in
    if K <? 0 then Throw InvalidArgument
    else if (K =? 0) || (range_size =? 0) then Ok []
    else if range_size <=? K then
      mfold (store_entry range_start) (repeat default_entry (Z.to_nat range_size))
            (seqZ range_start range_end)
    else
      do all_distances <-
        mfold (store_entry range_start) (repeat default_entry (Z.to_nat range_size))
              (seqZ range_start range_end);
      do sorted <- partial_sort K all_distances;
      Ok (resize_down K sorted).

(** Effect of per_item_work for each call of the index loop,
    simple_knearest_neighbors.hpp:163-179. *)
Definition per_item_results (range_start range_size : Z) (cs : list (Z * (Z * Z)))
  : outcome (list IndexAndDistance) :=
  mfold (fun v c => store_entry range_start v (fst (snd c)))
        (repeat default_entry (Z.to_nat range_size)) cs.

(** Effect of per_range_work for each call of the range loop,
    simple_knearest_neighbors.hpp:189-204: the slot of the thread number is
    overwritten. *)
Definition per_thread_results (num_threads K : Z) (cs : list (Z * (Z * Z)))
  : outcome (list (list IndexAndDistance)) :=
  mfold (fun v c =>
           do nearests <- GetKNearestNeighborsInRangeSerial (fst (snd c)) (snd (snd c)) K;
           raw_set v (Z.to_nat (fst c)) nearests)
        (repeat [] (Z.to_nat num_threads)) cs.

(** The loop function returned normally, or threw. *)
Definition after_loop {A} (r : outcome unit) (k : outcome A) : outcome A :=
  do _ <- r; k.

(** GetKNearestNeighborsInRangeParallel, simple_knearest_neighbors.hpp:133-231,
    for one execution [tr] of its parallel loop, which ended with [r].  Calls of
    the work function are executed in the order in which they began; calls with
    the same thread number cannot overlap and calls with different thread
    numbers (or different indices, first loop) write different slots. *)
Definition parallel_result (num_threads range_start range_end K : Z)
    (tr : list event) (r : outcome unit) : outcome (list IndexAndDistance) :=
  if range_end <? range_start then Throw InvalidArgument
  else if Z.of_nat (length items) <? range_end then Throw InvalidArgument
  else
    let range_size := range_end - range_start in
    if K <? 0 then Throw InvalidArgument
    else if (K =? 0) || (range_size =? 0) then Ok []
    else if range_size <=? K then
      after_loop r (per_item_results range_start range_size (loop_calls tr))
    else
      after_loop r
       (do per_thread_nearests <- per_thread_results num_threads K (loop_calls tr);
        do sorted <- partial_sort K (concat per_thread_nearests);
        Ok (resize_down K sorted)).

(** Which executions the loop of that function can have: an index loop when
    range_size <= K and a range loop otherwise (lines 176-179 and 200-203), with
    backend BEST_AVAILABLE, in which no call of the work function throws (the
    distance function does not). *)
Definition parallel_execution (spurious omp_in_build : bool) (team : nat)
    (num_threads range_start range_end K : Z) (tr : list event) (r : outcome unit) : Prop :=
  let body := if range_end - range_start <=? K then index_body else range_body in
  run body spurious
    (StaticParallelForLoop body omp_in_build team num_threads range_start range_end BEST_AVAILABLE)
    tr (SFinal r) /\
  Forall (fun ev => match ev with EvEnd _ _ _ (Some _) => False | _ => True end) tr.

(** GetKNearestNeighborsSerial and GetKNearestNeighborsParallel, 237-262. *)
Definition GetKNearestNeighborsSerial (K : Z) : outcome (list IndexAndDistance) :=
  GetKNearestNeighborsInRangeSerial 0 (Z.of_nat (length items)) K.

(** GetKNearestNeighborsInRange, 269-285: dispatch on the degree of
    parallelism. *)
Definition dispatch_result (num_threads range_start range_end K : Z)
    (tr : list event) (r : outcome unit) : outcome (list IndexAndDistance) :=
  if IsParallel num_threads then parallel_result num_threads range_start range_end K tr r
  else GetKNearestNeighborsInRangeSerial range_start range_end K.
End Knn.
