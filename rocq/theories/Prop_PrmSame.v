(** Property C178 (roadmaps do not depend on the order in which the parallel loops
    run their items).  Model in PrmModel.v, vocabulary in PrmSpec.v and
    PrmSameSpec.v. *)
From Coq Require Import Permutation.
From Verif Require Import Base Effect ParallelismModel GraphModel GraphSpec SearchModel SearchSpec SearchProof4 KnnModel KnnSpec KnnSort PrmModel PrmSpec PrmProof PrmQuery PrmSameSpec PrmSameProof Prop_Prm.
Local Open Scope Z_scope.

(** C178: whatever the orders in which two runs connect the sampled states, if one
    builds a roadmap the other builds the same one, edge by edge. *)
Theorem C178_build :
  forall (V C W : Type) (ops : cost_ops C), cost_laws ops ->
  forall (sampling : eff W V) (state_valid : V -> eff W bool) knn (dist : V -> V -> C) valid
    (search : list (option V) -> (option V -> C) -> Z -> outcome (list (Z * C))) symmetric dups,
  search_contract ops search -> knn_truthful knn dist -> knn_reads_states knn ->
  (symmetric = true -> symmetric_functions dist valid) ->
  forall sample_order connect_order connect_order' size K tries use_parallel w,
  Permutation connect_order (seqZ 0 size) -> Permutation connect_order' (seqZ 0 size) ->
  forall g w',
  BuildRoadMap ops sampling state_valid knn dist valid search sample_order connect_order size K tries use_parallel symmetric dups w = (Ok g, w') <->
  BuildRoadMap ops sampling state_valid knn dist valid search sample_order connect_order' size K tries use_parallel symmetric dups w = (Ok g, w').
Proof.
  intros V C W ops LAWS sampling sv knn dist valid search symmetric dups SE KNN RD SYM so co co' size K tries up w P P' g w'.
  split; apply build_order; assumption.
Qed.

(** Adding a state, growing a roadmap and answering a query: the same outcome, the
    same roadmap afterwards and the same use of the callbacks. *)
Theorem C178_add :
  forall (V C : Type) (ops : cost_ops C) knn (dist : V -> V -> C) valid order order',
  each_once order -> each_once order' -> knn_truthful knn dist ->
  forall state dir K max symmetric dups g,
  AddNodeToRoadmap ops knn dist valid order graph_roadmap state dir K max symmetric dups g =
  AddNodeToRoadmap ops knn dist valid order' graph_roadmap state dir K max symmetric dups g.
Proof. intros V C ops knn dist valid o o' O O' KNN. exact (add_node_order ops knn dist valid KNN o o' O O'). Qed.
Theorem C178_grow :
  forall (V C W : Type) (ops : cost_ops C) knn (dist : V -> V -> C) valid order order',
  each_once order -> each_once order' -> knn_truthful knn dist ->
  forall (sampling : eff W V) (state_valid : V -> eff W bool) (terminate : Z -> eff W bool) K symmetric dups fuel s,
  GrowRoadMap ops knn dist valid order graph_roadmap sampling state_valid terminate K symmetric dups fuel s =
  GrowRoadMap ops knn dist valid order' graph_roadmap sampling state_valid terminate K symmetric dups fuel s.
Proof.
  intros V C W ops knn dist valid o o' O O' KNN sampling sv term K symmetric dups fuel s. unfold GrowRoadMap.
  exact (grow_loop_order ops knn dist valid KNN o o' O O' sampling sv term K symmetric dups fuel _ s).
Qed.
Theorem C178_query :
  forall (V C : Type) (ops : cost_ops C) knn (dist : V -> V -> C) valid order order',
  each_once order -> each_once order' -> knn_truthful knn dist ->
  forall pick lazy starts goals (roadmap : list (GraphNode V C)) K symmetric dups limit fuel,
  QueryPathCopy ops knn dist valid order lazy pick starts goals roadmap K symmetric dups limit fuel =
  QueryPathCopy ops knn dist valid order' lazy pick starts goals roadmap K symmetric dups limit fuel /\
  fst (QueryPathOverlay ops knn dist valid order lazy pick starts goals roadmap K symmetric dups limit fuel) =
  fst (QueryPathOverlay ops knn dist valid order' lazy pick starts goals roadmap K symmetric dups limit fuel).
Proof.
  intros V C ops knn dist valid o o' O O' KNN pick lazy starts goals roadmap K symmetric dups limit fuel.
  assert (E : QueryPathCopy ops knn dist valid o lazy pick starts goals roadmap K symmetric dups limit fuel =
              QueryPathCopy ops knn dist valid o' lazy pick starts goals roadmap K symmetric dups limit fuel)
    by exact (query_order ops knn dist valid KNN o o' O O' lazy pick starts goals K symmetric dups limit fuel roadmap).
  split; [exact E|].
  rewrite (proj1 (C52_query_leaves_roadmap V C ops knn dist valid o O pick lazy starts goals roadmap K symmetric dups limit fuel)).
  rewrite (proj1 (C52_query_leaves_roadmap V C ops knn dist valid o' O' pick lazy starts goals roadmap K symmetric dups limit fuel)).
  now rewrite E.
Qed.

(** Updating the edges: also on a roadmap that is refused. *)
Theorem C178_update :
  forall (V C : Type) (ops : cost_ops C) (dist : V -> V -> C) valid g items items',
  Permutation items (seqZ 0 (Size g)) -> Permutation items' (seqZ 0 (Size g)) ->
  UpdateRoadMapEdges ops dist valid items g = UpdateRoadMapEdges ops dist valid items' g.
Proof. intros V C ops dist valid g items items'. exact (update_order ops dist valid g items items'). Qed.

(** The library's linear provider meets the hypotheses. *)
Theorem C178_linear_provider :
  forall (V C : Type) (ltb : C -> C -> bool) infinity psort (dist : V -> V -> C), partial_sort_contract ltb psort ->
  let knn := LinearGraphKNN (fun nodes d K => GetKNearestNeighborsInRangeSerial infinity nodes d psort 0 (Z.of_nat (length nodes)) K) dist in
  knn_truthful knn dist /\ knn_reads_states knn.
Proof.
  intros V C ltb inf psort dist PS knn. split; [exact (PrmPath.library_truthful ltb inf psort dist PS)|exact (library_reads inf psort dist)].
Qed.

Print Assumptions C178_build.
Print Assumptions C178_add.
Print Assumptions C178_grow.
Print Assumptions C178_query.
Print Assumptions C178_update.
Print Assumptions C178_linear_provider.

(** C178: three states on a line, connected in two orders. *)
Example C178_nonvacuous :
  cost_laws exact_cost /\ search_contract exact_cost line_search /\ knn_truthful line_knn line_dist /\ knn_reads_states line_knn /\
  exists g w',
  BuildRoadMap exact_cost count_up even_only line_knn line_dist Z.ltb line_search [0; 1; 2] [2; 0; 1] 3 1 10 false false false 0 = (Ok g, w') /\
  BuildRoadMap exact_cost count_up even_only line_knn line_dist Z.ltb line_search [0; 1; 2] [1; 0; 2] 3 1 10 false false false 0 = (Ok g, w') /\
  length g = 3%nat /\ (exists n, node_at g 1 n /\ in_edges n <> []).
Proof.
  split; [exact exact_laws|]. split; [exact (proj1 C51_nonvacuous)|]. split; [exact line_truthful|]. split; [apply library_reads|].
  eexists _, _. split; [vm_compute; reflexivity|]. split; [vm_compute; reflexivity|]. split; [reflexivity|].
  eexists. split; [split; [lia|reflexivity]|discriminate].
Qed.
(** Two orders of the items of the other loops. *)
Definition backwards (_ n : Z) : list Z := rev (seqZ 0 n).
Example C178_nonvacuous_orders :
  each_once serial_order /\ each_once backwards /\ serial_order 9 3 <> backwards 9 3 /\
  exists g', AddNodeToRoadmap exact_cost line_knn line_dist Z.ltb backwards graph_roadmap 2 RoadmapToNewState 2 2 false false
    [mkNode 1 [] []; mkNode 0 [] []] = (Ok 2, g') /\ (exists n, node_at g' 2 n /\ length (in_edges n) = 2%nat).
Proof.
  split; [exact serial_each_once|]. split; [intros size n Hn; apply Permutation_sym, Permutation_rev|]. split; [discriminate|].
  eexists. split; [vm_compute; reflexivity|]. eexists. split; [split; [lia|reflexivity]|reflexivity].
Qed.
