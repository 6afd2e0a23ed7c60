(** Model of include/common_robotics_utilities/simple_kmeans_clustering.hpp.

    Simplifications: the distance and averaging functions are total functions
    that neither throw nor have side effects; sizes are mathematical integers;
    std::ceil(size * 0.125) is the exact rounded-up quotient (it is for sizes below
    2^53); logging is left out.  Calls of the work function of a parallel loop run
    one after another in the order in which they began: each writes only the slot
    of its index. *)
From Coq Require Import Permutation.
From Verif Require Import Base ParallelismModel KnnModel DistModel ClusterModel.
Local Open Scope Z_scope.

Definition int32_max : Z := 2 ^ 31 - 1.
Definition int32_min : Z := - 2 ^ 31.

(** container(static_cast<size_t>(count), value): a negative count becomes a size
    above max_size(). *)
Definition new_vector {A} (count : Z) (value : A) : outcome (list A) :=
  if count <? 0 then Throw LengthError else Ok (repeat value (Z.to_nat count)).

Section KMeans.
(** DataType, distances and weights (both double). *)
Context {Data D W : Type}.
Variable infinity : D.
(** std::partial_sort (contract in KnnSpec.v). *)
Variable psort : nat -> list (Z * D) -> list (Z * D).
(** distance_fn and weighted_average_fn. *)
Variable distance_fn : Data -> Data -> D.
Variable weighted_average_fn : list Data -> list W -> Data.
(** DataType(). *)
Variable default_data : Data.
(** The [k]th value of std::uniform_int_distribution(0, size - 1) applied to the
    generator seeded with prng_seed, lines 209-212. *)
Variable draw : Z -> nat -> Z.
(** Build, runtime and degree of parallelism. *)
Variables (spurious omp_in_build : bool) (team : nat) (num_threads : Z).

Notation size l := (Z.of_nat (length l)).
Notation execution := (list event * outcome unit)%type.
(** The loop over [n] indices can have the execution [x]. *)
Definition loop_runs (n : Z) (x : execution) : Prop :=
  index_loop_execution spurious omp_in_build team num_threads n (fst x) (snd x).

(** per_item_work, lines 37-46. *)
Definition label_item (data centers : list Data) (labels : list Z) (index : Z) : outcome (list Z) :=
  do datapoint <- at_index data index;
  do nearest <- GetKNearestNeighborsSerial infinity centers (fun c => distance_fn c datapoint) psort 1;
  do first <- at_get nearest 0;
  set_index labels index (fst first).

(** PerformSingleClusteringIteration, lines 29-53, for the execution [x] of its
    loop. *)
Definition PerformSingleClusteringIteration (data centers : list Data) (x : execution) : outcome (list Z) :=
  after_loop (snd x)
    (mfold (fun labels (c : Z * (Z * Z)) => label_item data centers labels (fst (snd c)))
           (repeat 0 (length data)) (loop_calls (fst x))).

(** Lines 77-85: [clustered] holds clustered_data and clustered_data_weights. *)
Definition distribute (data : list Data) (data_weights : list W) (cluster_labels : list Z)
    (clustered : list (list Data) * list (list W)) (idx : Z) : outcome (list (list Data) * list (list W)) :=
  do datapoint <- raw_get data (Z.to_nat idx);
  do label <- at_index cluster_labels idx;
  do members <- at_index (fst clustered) label;
  do clustered_data <- set_index (fst clustered) label (members ++ [datapoint]);
  do weights <- at_index (snd clustered) label;
  do weight <- at_index data_weights idx;
  do clustered_weights <- set_index (snd clustered) label (weights ++ [weight]);
  Ok (clustered_data, clustered_weights).

(** per_item_work, lines 90-98. *)
Definition average_cluster (clustered : list (list Data) * list (list W)) (centers : list Data) (cluster : Z) : outcome (list Data) :=
  do members <- at_index (fst clustered) cluster;
  do weights <- at_index (snd clustered) cluster;
  set_index centers cluster (weighted_average_fn members weights).

(** ComputeClusterCentersWeighted, lines 63-111. *)
Definition ComputeClusterCentersWeighted (data : list Data) (data_weights : list W) (cluster_labels : list Z)
    (num_clusters : Z) (x : execution) : outcome (list Data) :=
  if size data =? size cluster_labels then
    do clustered_data <- new_vector num_clusters [];
    do clustered_weights <- new_vector num_clusters [];
    do clustered <- mfold (distribute data data_weights cluster_labels) (clustered_data, clustered_weights) (seqZ 0 (size data));
    do centers <- new_vector num_clusters default_data;
    after_loop (snd x)
      (mfold (fun centers (c : Z * (Z * Z)) => average_cluster clustered centers (fst (snd c)))
             centers (loop_calls (fst x)))
  else Throw InvalidArgument.

(** CheckForConvergence, lines 115-134. *)
Definition CheckForConvergence (old_labels new_labels : list Z) : outcome bool :=
  if size old_labels =? size new_labels then
    mfold (fun same idx =>
             if negb same then Ok false (* already returned false *)
             else do a <- at_index old_labels idx; do b <- at_index new_labels idx; Ok (a =? b))
          true (seqZ 0 (size old_labels))
  else Throw InvalidArgument.

(** One pass of the loop at lines 281-297, which begins with the labels
    [cluster_labels]: the flag [converged] and the new labels. *)
Definition update (data : list Data) (data_weights : list W) (num_clusters : Z) (cluster_labels : list Z)
    (x1 x2 : execution) : outcome (bool * list Z) :=
  do centers <- ComputeClusterCentersWeighted data data_weights cluster_labels num_clusters x1;
  do new_labels <- PerformSingleClusteringIteration data centers x2;
  do converged <- CheckForConvergence cluster_labels new_labels;
  Ok (converged, new_labels).

(** The loop at lines 281-297: with [labels] at its head it can end with [r]. *)
Inductive converges (data : list Data) (data_weights : list W) (num_clusters : Z) : list Z -> outcome (list Z) -> Prop :=
| converged_now labels x1 x2 new_labels :
    loop_runs num_clusters x1 -> loop_runs (size data) x2 ->
    update data data_weights num_clusters labels x1 x2 = Ok (true, new_labels) ->
    converges data data_weights num_clusters labels (Ok new_labels)
| converged_later labels x1 x2 new_labels r :
    loop_runs num_clusters x1 -> loop_runs (size data) x2 ->
    update data data_weights num_clusters labels x1 x2 = Ok (false, new_labels) ->
    converges data data_weights num_clusters new_labels r ->
    converges data data_weights num_clusters labels r
| converged_not labels x1 x2 o r :
    loop_runs num_clusters x1 -> loop_runs (size data) x2 ->
    update data data_weights num_clusters labels x1 x2 = o -> is_ok o = false ->
    r = (do _ <- o; Diverge) ->
    converges data data_weights num_clusters labels r.

(** [m] passes of that loop, none of which set [converged], lead from the first
    labels to the second. *)
Inductive passes (data : list Data) (data_weights : list W) (num_clusters : Z) : nat -> list Z -> list Z -> Prop :=
| passes_none labels : passes data data_weights num_clusters 0 labels labels
| passes_more m labels x1 x2 new_labels last :
    loop_runs num_clusters x1 -> loop_runs (size data) x2 ->
    update data data_weights num_clusters labels x1 x2 = Ok (false, new_labels) ->
    passes data data_weights num_clusters m new_labels last ->
    passes data data_weights num_clusters (S m) labels last.

(** Lines 268-305, from the initial cluster centers. *)
Inductive cluster_from (data : list Data) (data_weights : list W) (num_clusters : Z) (centers : list Data) : outcome (list Z) -> Prop :=
| cluster_bad_centers : size centers <> num_clusters ->
    cluster_from data data_weights num_clusters centers (Throw RuntimeError)
| cluster_labelled x labels r : size centers = num_clusters ->
    loop_runs (size data) x ->
    PerformSingleClusteringIteration data centers x = Ok labels ->
    converges data data_weights num_clusters labels r ->
    cluster_from data data_weights num_clusters centers r
| cluster_unlabelled x o r : size centers = num_clusters ->
    loop_runs (size data) x ->
    PerformSingleClusteringIteration data centers x = o -> is_ok o = false ->
    r = (do _ <- o; Diverge) ->
    cluster_from data data_weights num_clusters centers r.

(** The keys of index_map after [k] draws, lines 222-227 and 247-252. *)
Fixpoint drawn (n : Z) (k : nat) : list Z :=
  match k with
  | O => []
  | S k => let keys := drawn n k in
           let random_index := draw n k in
           if existsb (Z.eqb random_index) keys then keys else random_index :: keys
  end.
(** The drawing loop ends after [k] draws: the map has [target] keys, and had
    fewer before each draw. *)
Definition drawing_ends (n target : Z) (k : nat) : Prop :=
  target <= size (drawn n k) /\ forall j, (j < k)%nat -> size (drawn n j) < target.

(** The elements of [l] at the keys of the map, in the order of its iterator:
    lines 232-241 and 254-262. *)
Definition elements {A} (get : Z -> outcome A) (keys : list Z) : outcome (list A) :=
  mfold (fun l i => do a <- get i; Ok (l ++ [a])) [] keys.

(** ClusterWeighted without preliminary clustering, after the checks at lines
    158-172: lines 245-265, then 266-305.  The iteration order of the map is any
    order of its keys. *)
Inductive cluster_plain (data : list Data) (data_weights : list W) (num_clusters : Z) : outcome (list Z) -> Prop :=
| plain_reserve k : drawing_ends (size data) num_clusters k -> num_clusters < 0 ->
    cluster_plain data data_weights num_clusters (Throw LengthError)
| plain_runs k keys centers r : drawing_ends (size data) num_clusters k -> 0 <= num_clusters ->
    Permutation keys (drawn (size data) k) ->
    elements (fun i => raw_get data (Z.to_nat i)) keys = Ok centers ->
    cluster_from data data_weights num_clusters centers r ->
    cluster_plain data data_weights num_clusters r
| plain_fails k keys o r : drawing_ends (size data) num_clusters k -> 0 <= num_clusters ->
    Permutation keys (drawn (size data) k) ->
    elements (fun i => raw_get data (Z.to_nat i)) keys = o -> is_ok o = false ->
    r = (do _ <- o; Diverge) ->
    cluster_plain data data_weights num_clusters r.

(** The checks at lines 158-172 (empty data, one cluster, no cluster). *)
Definition early_result (data : list Data) (num_clusters : Z) : option (outcome (list Z)) :=
  match data with
  | [] => Some (Ok [])
  | _ :: _ => if num_clusters =? 1 then Some (Ok (repeat 0 (length data)))
              else if num_clusters =? 0 then Some (Throw InvalidArgument) else None
  end.

(** ClusterWeighted with do_preliminary_clustering = false, as called at lines
    245-249. *)
Inductive cluster_simple (data : list Data) (data_weights : list W) (num_clusters : Z) : outcome (list Z) -> Prop :=
| simple_early r : early_result data num_clusters = Some r -> cluster_simple data data_weights num_clusters r
| simple_plain r : early_result data num_clusters = None -> cluster_plain data data_weights num_clusters r ->
    cluster_simple data data_weights num_clusters r.

(** subset_size, lines 177-179 and 217-219. *)
Definition subset_size (data : list Data) : Z := (size data + 7) / 8.

(** Is preliminary clustering enabled, lines 173-203: num_clusters * 5 is computed
    as int32_t. *)
Definition enable_preliminary (do_preliminary_clustering : bool) (data : list Data) (num_clusters : Z) : outcome bool :=
  if do_preliminary_clustering then
    if (int32_min <=? num_clusters * 5) && (num_clusters * 5 <=? int32_max)
    then Ok (num_clusters * 5 <=? subset_size data) else UB
  else Ok false.

(** ClusterWeighted, lines 145-306: its possible results. *)
Inductive ClusterWeighted (data : list Data) (data_weights : list W) (num_clusters : Z) (do_preliminary_clustering : bool)
  : outcome (list Z) -> Prop :=
| cw_early r : early_result data num_clusters = Some r ->
    ClusterWeighted data data_weights num_clusters do_preliminary_clustering r
| cw_overflow : early_result data num_clusters = None ->
    enable_preliminary do_preliminary_clustering data num_clusters = UB ->
    ClusterWeighted data data_weights num_clusters do_preliminary_clustering UB
| cw_plain r : early_result data num_clusters = None ->
    enable_preliminary do_preliminary_clustering data num_clusters = Ok false ->
    cluster_plain data data_weights num_clusters r ->
    ClusterWeighted data data_weights num_clusters do_preliminary_clustering r
| cw_preliminary k keys subset subset_weights labels x centers r : early_result data num_clusters = None ->
    enable_preliminary do_preliminary_clustering data num_clusters = Ok true ->
    drawing_ends (size data) (subset_size data) k -> Permutation keys (drawn (size data) k) ->
    elements (at_index data) keys = Ok subset -> elements (at_index data_weights) keys = Ok subset_weights ->
    cluster_simple subset subset_weights num_clusters (Ok labels) ->
    (num_clusters < 0 \/ loop_runs num_clusters x) ->
    ComputeClusterCentersWeighted subset subset_weights labels num_clusters x = Ok centers ->
    cluster_from data data_weights num_clusters centers r ->
    ClusterWeighted data data_weights num_clusters do_preliminary_clustering r
| cw_preliminary_centers k keys subset subset_weights labels x o r : early_result data num_clusters = None ->
    enable_preliminary do_preliminary_clustering data num_clusters = Ok true ->
    drawing_ends (size data) (subset_size data) k -> Permutation keys (drawn (size data) k) ->
    elements (at_index data) keys = Ok subset -> elements (at_index data_weights) keys = Ok subset_weights ->
    cluster_simple subset subset_weights num_clusters (Ok labels) ->
    (num_clusters < 0 \/ loop_runs num_clusters x) ->
    ComputeClusterCentersWeighted subset subset_weights labels num_clusters x = o -> is_ok o = false ->
    r = (do _ <- o; Diverge) ->
    ClusterWeighted data data_weights num_clusters do_preliminary_clustering r
| cw_preliminary_labels k keys subset subset_weights o r : early_result data num_clusters = None ->
    enable_preliminary do_preliminary_clustering data num_clusters = Ok true ->
    drawing_ends (size data) (subset_size data) k -> Permutation keys (drawn (size data) k) ->
    elements (at_index data) keys = Ok subset -> elements (at_index data_weights) keys = Ok subset_weights ->
    cluster_simple subset subset_weights num_clusters o -> is_ok o = false ->
    r = (do _ <- o; Diverge) ->
    ClusterWeighted data data_weights num_clusters do_preliminary_clustering r
| cw_preliminary_subset k keys o r : early_result data num_clusters = None ->
    enable_preliminary do_preliminary_clustering data num_clusters = Ok true ->
    drawing_ends (size data) (subset_size data) k -> Permutation keys (drawn (size data) k) ->
    o = (do a <- elements (at_index data) keys; do b <- elements (at_index data_weights) keys; Ok (a, b)) ->
    is_ok o = false ->
    r = (do _ <- o; Diverge) ->
    ClusterWeighted data data_weights num_clusters do_preliminary_clustering r.
End KMeans.

(** Cluster, lines 316-336: unit weights. *)
Definition Cluster {Data D W} (one : W) (infinity : D) psort (distance_fn : Data -> Data -> D)
    (average_fn : list Data -> Data) default_data draw spurious omp_in_build team num_threads
    (data : list Data) (num_clusters : Z) (do_preliminary_clustering : bool) (r : outcome (list Z)) : Prop :=
  ClusterWeighted infinity psort distance_fn (fun members _ => average_fn members) default_data draw
    spurious omp_in_build team num_threads data (repeat one (length data)) num_clusters do_preliminary_clustering r.
