(** Model of include/common_robotics_utilities/simple_hierarchical_clustering.hpp.

    Simplifications: indices and sizes are mathematical integers; a mask entry
    (0 or 1) is a boolean; as in DistModel.v, calls of the work function of a
    parallel loop run one after another in the order in which they began, and a
    call reads and writes only the slot of its thread, which is read at the
    beginning of the call and written at its end. *)
From Verif Require Import Base Double ParallelismModel KnnModel DistModel.
Local Open Scope Z_scope.

(** enum class ClusterStrategy, line 34. *)
Inductive ClusterStrategy : Type := SINGLE_LINK | COMPLETE_LINK.

(** class Item, lines 40-68; the default item has index -1. *)
Record Item : Type := mkItem { item_index : Z; item_is_cluster : bool }.
Definition default_item : Item := mkItem (-1) false.
Definition item_is_valid (i : Item) : bool := 0 <=? item_index i.
(** Item(index, is_cluster), lines 52-60. *)
Definition new_item (index : Z) (is_cluster : bool) : outcome Item :=
  if index <? 0 then Throw InvalidArgument else Ok (mkItem index is_cluster).

(** class ClosestPair, lines 71-116. *)
Record ClosestPair : Type := mkPair { cp_first : Item; cp_second : Item; cp_distance : double }.
(** ClosestPair(), line 79. *)
Definition default_pair : ClosestPair := mkPair default_item default_item dinf.
(** ClosestPair(first_item, second_item, distance), lines 81-103. *)
Definition new_pair (first_item second_item : Item) (distance : double) : outcome ClosestPair :=
  if dlt distance d0 then Throw InvalidArgument
  else if negb (item_is_valid first_item) then Throw InvalidArgument
  else if negb (item_is_valid second_item) then Throw InvalidArgument
  else if Bool.eqb (item_is_cluster first_item) (item_is_cluster second_item)
          && (item_index first_item =? item_index second_item) then Throw InvalidArgument
  else Ok (mkPair first_item second_item distance).
(** IsValid, lines 111-114. *)
Definition cp_is_valid (p : ClosestPair) : bool := item_is_valid (cp_first p) && item_is_valid (cp_second p).

(** std::min and std::max. *)
Definition std_min (a b : double) : double := if dlt b a then b else a.
Definition std_max (a b : double) : double := if dlt a b then b else a.

(** container.at(static_cast<size_t>(index)). *)
Definition at_index {A} (l : list A) (i : Z) : outcome A :=
  if i <? 0 then Throw OutOfRange else at_get l (Z.to_nat i).
Definition set_index {A} (l : list A) (i : Z) (v : A) : outcome (list A) :=
  if i <? 0 then Throw OutOfRange else at_set l (Z.to_nat i) v.

Section Cluster.
(** The matrix of pairwise distances; a coefficient that was never written has no
    value. *)
Variable distance_matrix : mat (option double).
Variable strategy : ClusterStrategy.
Notation size l := (Z.of_nat (length l)).

(** distance_matrix(row, column). *)
Definition matrix_at (row column : Z) : outcome double :=
  do c <- mat_get distance_matrix row column;
  match c with Some d => Ok d | None => UB end.

(** The inner loops over the elements of one or two clusters, lines 147-163,
    222-238, 324-337 and 410-423: [rows] is a single value in the last two. *)
Definition cluster_distance (rows columns : list Z) : outcome double :=
  do mm <- mfold (fun mm i =>
             mfold (fun mm j =>
               do d <- matrix_at i j;
               Ok (std_min (fst mm) d, std_max (snd mm) d)) mm columns)
           (dinf, d0) rows;
  Ok (match strategy with COMPLETE_LINK => snd mm | SINGLE_LINK => fst mm end).

(** Replace the closest pair so far if the candidate is closer, lines 164-172,
    239-244, 302-313, 338-346, 392-400 and 424-429. *)
Definition closer (best : ClosestPair) (i1 : Z) (c1 : bool) (i2 : Z) (c2 : bool) (d : double) : outcome ClosestPair :=
  if dlt d (cp_distance best) then
    do a <- new_item i1 c1;
    do b <- new_item i2 c2;
    new_pair a b d
  else Ok best.

(** The work for one first cluster, lines 130-176 and 205-248. *)
Definition scan_cluster (clusters : list (list Z)) (best : ClosestPair) (first_idx : Z) : outcome ClosestPair :=
  do first_cluster <- at_index clusters first_idx;
  match first_cluster with
  | [] => Ok best
  | _ :: _ =>
    mfold (fun best second_idx =>
        do second_cluster <- at_index clusters second_idx;
        match second_cluster with
        | [] => Ok best
        | _ :: _ =>
          do d <- cluster_distance first_cluster second_cluster;
          closer best first_idx true second_idx true d
        end)
      best (seqZ (first_idx + 1) (size clusters))
  end.

(** The work for one value, lines 288-350 and 380-433. *)
Definition scan_value (mask : list bool) (clusters : list (list Z)) (best : ClosestPair) (value_idx : Z) : outcome ClosestPair :=
  do clustered <- at_index mask value_idx;
  if clustered then Ok best else
    do best <- mfold (fun best other_value_idx =>
        do clustered <- at_index mask other_value_idx;
        if clustered then Ok best else
          do d <- matrix_at value_idx other_value_idx;
          closer best value_idx false other_value_idx false d)
      best (seqZ (value_idx + 1) (size mask));
    mfold (fun best cluster_idx =>
        do cluster <- at_index clusters cluster_idx;
        match cluster with
        | [] => Ok best
        | _ :: _ =>
          do d <- cluster_distance [value_idx] cluster;
          closer best value_idx false cluster_idx true d
        end)
      best (seqZ 0 (size clusters)).

(** One loop execution: the events and the result of the loop. *)
Notation execution := (list event * outcome unit)%type.

(** Serial loops, lines 199-250 and 373-435, and parallel loops, lines 121-194
    and 278-366 (merging the results of the threads at lines 182-193 and
    356-365), over [n] indices. *)
Definition search (scan : ClosestPair -> Z -> outcome ClosestPair) (n num_threads : Z) (x : execution) : outcome ClosestPair :=
  if IsParallel num_threads then
    after_loop (snd x)
      (do storage <- mfold (fun storage (c : Z * (Z * Z)) =>
                       do best <- at_index storage (fst c);
                       do best <- scan best (fst (snd c));
                       set_index storage (fst c) best)
                     (repeat default_pair (Z.to_nat num_threads)) (loop_calls (fst x));
       Ok (fold_left (fun best p => if dlt (cp_distance p) (cp_distance best) then p else best) storage default_pair))
  else mfold scan default_pair (seqZ 0 n).

(** GetClosestClusters, lines 256-271. *)
Definition GetClosestClusters (clusters : list (list Z)) (num_threads : Z) (x : execution) : outcome ClosestPair :=
  search (scan_cluster clusters) (size clusters) num_threads x.
(** GetClosestValueToOther, lines 443-460. *)
Definition GetClosestValueToOther (mask : list bool) (clusters : list (list Z)) (num_threads : Z) (x : execution) : outcome ClosestPair :=
  search (scan_value mask clusters) (size mask) num_threads x.

(** GetClosestPair, lines 468-502; [x1] and [x2] are the executions of its two
    loops. *)
Definition GetClosestPair (mask : list bool) (clusters : list (list Z)) (num_threads : Z) (x1 x2 : execution) : outcome ClosestPair :=
  do closest_value_to_other <- GetClosestValueToOther mask clusters num_threads x1;
  do closest_clusters <- GetClosestClusters clusters num_threads x2;
  Ok (if cp_is_valid closest_value_to_other && cp_is_valid closest_clusters then
        if dlt (cp_distance closest_value_to_other) (cp_distance closest_clusters)
        then closest_value_to_other else closest_clusters
      else if cp_is_valid closest_value_to_other then closest_value_to_other
      else if cp_is_valid closest_clusters then closest_clusters
      else default_pair).

(** The variables of IndexClusterWithDistanceMatrix, lines 544-548. *)
Record cstate : Type := mkState { st_mask : list bool; st_clusters : list (list Z); st_distance : double }.

(** One merge, lines 558-600. *)
Definition merge (st : cstate) (p : ClosestPair) : outcome cstate :=
  let first_item := cp_first p in
  let second_item := cp_second p in
  let d := cp_distance p in
  if negb (item_is_cluster first_item) && negb (item_is_cluster second_item) then
    do mask <- set_index (st_mask st) (item_index first_item) true;
    do mask <- set_index mask (item_index second_item) true;
    Ok (mkState mask (st_clusters st ++ [[item_index first_item; item_index second_item]]) d)
  else if item_is_cluster first_item && item_is_cluster second_item then
    do first_cluster <- at_index (st_clusters st) (item_index first_item);
    do second_cluster <- at_index (st_clusters st) (item_index second_item);
    do clusters <- set_index (st_clusters st) (item_index first_item) (first_cluster ++ second_cluster);
    do clusters <- set_index clusters (item_index second_item) [];
    Ok (mkState (st_mask st) clusters d)
  else
    let first_is_cluster := item_is_cluster first_item in
    let cluster_index := if first_is_cluster then item_index first_item else item_index second_item in
    let value_index := if first_is_cluster then item_index second_item else item_index first_item in
    do cluster <- at_index (st_clusters st) cluster_index;
    do clusters <- set_index (st_clusters st) cluster_index (cluster ++ [value_index]);
    do mask <- set_index (st_mask st) value_index true;
    Ok (mkState mask clusters d).

(** One iteration of the loop at lines 549-606: [None] when it sets complete. *)
Definition iteration (max_cluster_distance : double) (num_threads : Z) (st : cstate) (x1 x2 : execution) : outcome (option cstate) :=
  do p <- GetClosestPair (st_mask st) (st_clusters st) num_threads x1 x2;
  if cp_is_valid p && dle (cp_distance p) max_cluster_distance
  then do st' <- merge st p; Ok (Some st')
  else Ok None.

(** The executions the two loops of an iteration can have. *)
Definition search_executions (spurious omp_in_build : bool) (team : nat) (num_threads : Z) (st : cstate) (x1 x2 : execution) : Prop :=
  IsParallel num_threads = true ->
  index_loop_execution spurious omp_in_build team num_threads (size (st_mask st)) (fst x1) (snd x1) /\
  index_loop_execution spurious omp_in_build team num_threads (size (st_clusters st)) (fst x2) (snd x2).

(** The loop at lines 549-606, iteration by iteration. *)
Inductive iterates (spurious omp_in_build : bool) (team : nat) (num_threads : Z) (max_cluster_distance : double) : nat -> cstate -> cstate -> Prop :=
| iterates_none st : iterates spurious omp_in_build team num_threads max_cluster_distance 0 st st
| iterates_more n st st1 st2 x1 x2 :
    iterates spurious omp_in_build team num_threads max_cluster_distance n st st1 ->
    search_executions spurious omp_in_build team num_threads st1 x1 x2 ->
    iteration max_cluster_distance num_threads st1 x1 x2 = Ok (Some st2) ->
    iterates spurious omp_in_build team num_threads max_cluster_distance (S n) st st2.

(** Lines 544-548. *)
Definition initial_state : cstate := mkState (repeat false (Z.to_nat (m_rows distance_matrix))) [] d0.

(** Values in their own clusters, lines 617-626. *)
Fixpoint singletons (idx : Z) (mask : list bool) : list (list Z) :=
  match mask with
  | [] => []
  | clustered :: mask => (if clustered then [] else [[idx]]) ++ singletons (idx + 1) mask
  end.
(** Lines 607-628. *)
Definition collect (st : cstate) : list (list Z) * double :=
  (filter (fun c => match c with [] => false | _ :: _ => true end) (st_clusters st) ++ singletons 0 (st_mask st), st_distance st).

(** IndexClusterWithDistanceMatrix, lines 531-629: its possible results. *)
Inductive IndexClusterWithDistanceMatrix (spurious omp_in_build : bool) (team : nat) (num_threads : Z)
    (max_cluster_distance : double) : outcome (list (list Z) * double) -> Prop :=
| icm_not_square : m_rows distance_matrix <> m_cols distance_matrix ->
    IndexClusterWithDistanceMatrix spurious omp_in_build team num_threads max_cluster_distance (Throw InvalidArgument)
| icm_empty : m_rows distance_matrix = m_cols distance_matrix -> m_rows distance_matrix = 0 ->
    IndexClusterWithDistanceMatrix spurious omp_in_build team num_threads max_cluster_distance (Throw InvalidArgument)
| icm_returns n st x1 x2 : m_rows distance_matrix = m_cols distance_matrix -> m_rows distance_matrix <> 0 ->
    iterates spurious omp_in_build team num_threads max_cluster_distance n initial_state st ->
    search_executions spurious omp_in_build team num_threads st x1 x2 ->
    iteration max_cluster_distance num_threads st x1 x2 = Ok None ->
    IndexClusterWithDistanceMatrix spurious omp_in_build team num_threads max_cluster_distance (Ok (collect st))
| icm_stops n st x1 x2 o r : m_rows distance_matrix = m_cols distance_matrix -> m_rows distance_matrix <> 0 ->
    iterates spurious omp_in_build team num_threads max_cluster_distance n initial_state st ->
    search_executions spurious omp_in_build team num_threads st x1 x2 ->
    iteration max_cluster_distance num_threads st x1 x2 = o -> is_ok o = false ->
    r = (do _ <- o; Diverge) ->
    IndexClusterWithDistanceMatrix spurious omp_in_build team num_threads max_cluster_distance r.

(** MakeElementClusteringFromIndexClustering, lines 631-652. *)
Definition MakeElementClusteringFromIndexClustering {T} (data : list T) (index_clustering : list (list Z) * double) : outcome (list (list T) * double) :=
  do clusters <- mfold (fun clusters c =>
                    do cluster <- mfold (fun l i => do t <- at_index data i; Ok (l ++ [t])) [] c;
                    Ok (clusters ++ [cluster])) [] (fst index_clustering);
  Ok (clusters, snd index_clustering).

(** ClusterWithDistanceMatrix, lines 660-683. *)
Inductive ClusterWithDistanceMatrix {T} (spurious omp_in_build : bool) (team : nat) (num_threads : Z)
    (data : list T) (max_cluster_distance : double) : outcome (list (list T) * double) -> Prop :=
| cdm_bad_arguments : data = [] \/ m_rows distance_matrix <> size data \/ m_cols distance_matrix <> size data ->
    ClusterWithDistanceMatrix spurious omp_in_build team num_threads data max_cluster_distance (Throw InvalidArgument)
| cdm_clusters ic : data <> [] -> m_rows distance_matrix = size data -> m_cols distance_matrix = size data ->
    IndexClusterWithDistanceMatrix spurious omp_in_build team num_threads max_cluster_distance ic ->
    ClusterWithDistanceMatrix spurious omp_in_build team num_threads data max_cluster_distance
      (do index_clustering <- ic; MakeElementClusteringFromIndexClustering data index_clustering).
End Cluster.

(** The distances of IndexCluster and Cluster, lines 696-698 and 715-717: the
    matrix built by one execution of the loop of BuildPairwiseDistanceMatrix. *)
Definition built_matrix {T} (spurious omp_in_build : bool) (team : nat) (num_threads : Z)
    (distance_fn : T -> T -> double) (data : list T) (o : outcome (mat (option double))) : Prop :=
  exists tr r, index_loop_execution spurious omp_in_build team num_threads (Z.of_nat (length data)) tr r /\
    BuildPairwiseDistanceMatrix d0 distance_fn data tr r = o.

(** IndexCluster, lines 689-701. *)
Inductive IndexCluster {T} (spurious omp_in_build : bool) (team : nat) (num_threads : Z) (strategy : ClusterStrategy)
    (distance_fn : T -> T -> double) (data : list T) (max_cluster_distance : double) : outcome (list (list Z) * double) -> Prop :=
| ic_runs m r : built_matrix spurious omp_in_build team num_threads distance_fn data (Ok m) ->
    IndexClusterWithDistanceMatrix m strategy spurious omp_in_build team num_threads max_cluster_distance r ->
    IndexCluster spurious omp_in_build team num_threads strategy distance_fn data max_cluster_distance r
| ic_stops o : built_matrix spurious omp_in_build team num_threads distance_fn data o -> is_ok o = false ->
    IndexCluster spurious omp_in_build team num_threads strategy distance_fn data max_cluster_distance (do _ <- o; Diverge).

(** Cluster, lines 708-720. *)
Inductive Cluster {T} (spurious omp_in_build : bool) (team : nat) (num_threads : Z) (strategy : ClusterStrategy)
    (distance_fn : T -> T -> double) (data : list T) (max_cluster_distance : double) : outcome (list (list T) * double) -> Prop :=
| c_runs m r : built_matrix spurious omp_in_build team num_threads distance_fn data (Ok m) ->
    ClusterWithDistanceMatrix m strategy spurious omp_in_build team num_threads data max_cluster_distance r ->
    Cluster spurious omp_in_build team num_threads strategy distance_fn data max_cluster_distance r
| c_stops o : built_matrix spurious omp_in_build team num_threads distance_fn data o -> is_ok o = false ->
    Cluster spurious omp_in_build team num_threads strategy distance_fn data max_cluster_distance (do _ <- o; Diverge).
