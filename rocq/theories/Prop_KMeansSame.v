(** Property C177 (K-means does not depend on the threads).  Model in
    KMeansModel.v, vocabulary in KMeansSpec.v. *)
From Coq Require Import Permutation.
From Verif Require Import Base ParallelismModel ParallelismSpec ParallelismProof KnnModel KnnSpec KnnProof KnnSort DistModel ClusterModel ClusterProof4 KMeansModel KMeansSpec KMeansProof KMeansProof2 KMeansProof3 KMeansProof4 KMeansSameProof Prop_KMeans.
Local Open Scope Z_scope.
Notation size l := (Z.of_nat (length l)).

(** C177: for one data set, one pair of callbacks and one sequence of random
    draws, two builds, runtimes, team sizes and degrees of parallelism have the
    same possible results: whatever labels one of them can return under some
    schedule, so can the other. *)
Theorem C177_any_threads :
  forall (Data D W : Type) (ltb : D -> D -> bool) infinity psort, partial_sort_contract ltb psort ->
  forall (distance_fn : Data -> Data -> D) (weighted_average_fn : list Data -> list W -> Data) default_data draw,
  draws_in_range draw ->
  forall spurious omp_in_build team num_threads spurious' omp_in_build' team' num_threads'
    data data_weights num_clusters do_preliminary_clustering,
  length data_weights = length data ->
  0 < num_clusters \/ data = [] ->
  num_clusters * 5 <= 2147483647 \/ do_preliminary_clustering = false \/ data = [] ->
  valid_call num_threads 0 (Z.max num_clusters (size data)) team ->
  valid_call num_threads' 0 (Z.max num_clusters (size data)) team' ->
  forall r,
  ClusterWeighted infinity psort distance_fn weighted_average_fn default_data draw spurious omp_in_build team num_threads
    data data_weights num_clusters do_preliminary_clustering r <->
  ClusterWeighted infinity psort distance_fn weighted_average_fn default_data draw spurious' omp_in_build' team' num_threads'
    data data_weights num_clusters do_preliminary_clustering r.
Proof.
  intros Data D W ltb inf psort PS dist avg dflt draw DR sp ob team nt sp' ob' team' nt' data weights K pre LW HK OV V V' r.
  split; intros C.
  - exact (weighted_move ltb inf psort PS dist avg dflt draw DR sp ob team nt sp' ob' team' nt' data weights K pre r LW HK OV V V' C).
  - exact (weighted_move ltb inf psort PS dist avg dflt draw DR sp' ob' team' nt' sp ob team nt data weights K pre r LW HK OV V' V C).
Qed.

(** The same without weights. *)
Theorem C177_unweighted :
  forall (Data D W : Type) (one : W) (ltb : D -> D -> bool) infinity psort, partial_sort_contract ltb psort ->
  forall (distance_fn : Data -> Data -> D) (average_fn : list Data -> Data) default_data draw,
  draws_in_range draw ->
  forall spurious omp_in_build team num_threads spurious' omp_in_build' team' num_threads'
    data num_clusters do_preliminary_clustering,
  0 < num_clusters \/ data = [] ->
  num_clusters * 5 <= 2147483647 \/ do_preliminary_clustering = false \/ data = [] ->
  valid_call num_threads 0 (Z.max num_clusters (size data)) team ->
  valid_call num_threads' 0 (Z.max num_clusters (size data)) team' ->
  forall r,
  Cluster one infinity psort distance_fn average_fn default_data draw spurious omp_in_build team num_threads
    data num_clusters do_preliminary_clustering r <->
  Cluster one infinity psort distance_fn average_fn default_data draw spurious' omp_in_build' team' num_threads'
    data num_clusters do_preliminary_clustering r.
Proof.
  intros Data D W one ltb inf psort PS dist avg dflt draw DR sp ob team nt sp' ob' team' nt' data K pre HK OV V V' r.
  apply (C177_any_threads Data D W ltb inf psort PS dist _ dflt draw DR); try assumption. apply repeat_length.
Qed.

(** What remains open is the order in which the map of drawn indices is walked: from
    the initial centres on there is one result, whatever the schedules. *)
Theorem C177_same_centers :
  forall (Data D W : Type) (ltb : D -> D -> bool) infinity psort, partial_sort_contract ltb psort ->
  forall (distance_fn : Data -> Data -> D) (weighted_average_fn : list Data -> list W -> Data) default_data
    spurious omp_in_build team num_threads spurious' omp_in_build' team' num_threads' data data_weights centers,
  length data_weights = length data -> centers <> [] ->
  valid_call num_threads 0 (size centers) team -> valid_call num_threads 0 (size data) team ->
  valid_call num_threads' 0 (size centers) team' -> valid_call num_threads' 0 (size data) team' ->
  forall r r',
  cluster_from infinity psort distance_fn weighted_average_fn default_data spurious omp_in_build team num_threads
    data data_weights (size centers) centers r ->
  cluster_from infinity psort distance_fn weighted_average_fn default_data spurious' omp_in_build' team' num_threads'
    data data_weights (size centers) centers r' -> r = r'.
Proof.
  intros Data D W ltb inf psort PS dist avg dflt sp ob team nt sp' ob' team' nt' data weights centers LW NE V1 V2 V1' V2' r r' C C'.
  assert (Hn : (0 < length centers)%nat) by (destruct centers; [congruence|cbn; lia]).
  apply (from_unique ltb inf psort PS dist avg dflt sp' ob' team' nt' data weights (length centers) LW Hn V1' V2' centers r r' eq_refl); [|exact C'].
  exact (from_move ltb inf psort PS dist avg dflt sp ob team nt sp' ob' team' nt' data weights (length centers) LW Hn V1 V2 V1' V2' centers r eq_refl C).
Qed.

Print Assumptions C177_any_threads.
Print Assumptions C177_unweighted.
Print Assumptions C177_same_centers.

(** C177: the labels of four integers found by one thread are found by eight. *)
Example C177_nonvacuous :
  partial_sort_contract Z.ltb full_sort /\ draws_in_range in_turn /\
  valid_call 1 0 (Z.max 2 4) 1 /\ valid_call 8 0 (Z.max 2 4) 3 /\
  ClusterWeighted 999 full_sort (fun a b => Z.abs (a - b)) int_average 0 in_turn false false 1 1 [0; 1; 10; 11] [1; 1; 1; 1] 2 false (Ok [1; 1; 0; 0]) /\
  ClusterWeighted 999 full_sort (fun a b => Z.abs (a - b)) int_average 0 in_turn true true 3 8 [0; 1; 10; 11] [1; 1; 1; 1] 2 false (Ok [1; 1; 0; 0]) /\
  ~ ClusterWeighted 999 full_sort (fun a b => Z.abs (a - b)) int_average 0 in_turn true true 3 8 [0; 1; 10; 11] [1; 1; 1; 1] 2 false (Ok [0; 0; 0; 0]).
Proof.
  destruct C59_nonvacuous as (PS & DR & V & C).
  assert (V' : valid_call 8 0 (Z.max 2 4) 3) by (repeat split; try (unfold int64_min, int64_max); cbn; lia).
  split; [exact PS|]. split; [exact DR|]. split; [exact V|]. split; [exact V'|]. split; [exact C|]. split.
  - apply (C177_any_threads Z Z Z Z.ltb 999 full_sort PS (fun a b => Z.abs (a - b)) int_average 0 in_turn DR false false 1 1 true true 3 8); try assumption; try reflexivity; [left; lia|right; now left].
  - intros C'.
    destruct (C59_stable_assignment Z Z Z Z.ltb 999 full_sort PS (fun a b => Z.abs (a - b)) int_average 0 in_turn DR true true 3%nat 8 [0; 1; 10; 11] [1; 1; 1; 1] 2 false (Ok [0; 0; 0; 0]) eq_refl ltac:(left; lia) ltac:(right; now left) V' C') as (l & E & ST).
    injection E as <-.
    pose proof (sa_nearest _ _ _ _ _ _ _ ST 0 0 0 eq_refl eq_refl 1 ltac:(lia) ltac:(lia)) as X. discriminate X.
Qed.
