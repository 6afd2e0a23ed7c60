(** C49-C53, C86: probabilistic roadmaps. *)
From Verif Require Import Base Effect GraphModel GraphSpec GraphProof SearchModel SearchSpec SearchProof SearchProof2 SearchProof3 SearchProof4
  KnnModel KnnSpec KnnSort ParallelismModel PrmModel PrmSpec PrmProof PrmGrow PrmUpdate PrmQuery PrmBuild PrmPath.
From Coq Require Import Permutation.
Local Open Scope Z_scope.

(** The provider of nearest neighbors that comes with the library satisfies the
    hypothesis of the theorems below, with any std::partial_sort. *)
Theorem C49_C86_library_neighbors :
  forall (V C : Type) (ltb : C -> C -> bool) infinity psort (dist : V -> V -> C),
  partial_sort_contract ltb psort ->
  knn_truthful (LinearGraphKNN (fun nodes d K =>
    GetKNearestNeighborsInRangeSerial infinity nodes d psort 0 (Z.of_nat (length nodes)) K) dist) dist.
Proof. intros V C. exact library_truthful. Qed.

(** A line of integers; a step is valid when it goes up, one state in the roadmap. *)
Definition line_dist (a b : Z) : option Z := Some (Z.abs (a - b)).
Definition serial_order (_ n : Z) : list Z := seqZ 0 n.
Definition line_psort := sort_by (cltb exact_cost).
Definition line_knn : @knn_provider Z (option Z) :=
  LinearGraphKNN (fun nodes d K =>
    GetKNearestNeighborsInRangeSerial None nodes d line_psort 0 (Z.of_nat (length nodes)) K) line_dist.

Lemma line_order : order_laws (cltb exact_cost).
Proof.
  constructor.
  - intros [a|]; cbn; [apply Z.ltb_irrefl|reflexivity].
  - intros [a|] [b|] [c|]; cbn; intros; try discriminate; try reflexivity; lia.
  - intros [a|] [b|] [c|]; cbn; intros; try discriminate; try reflexivity; lia.
Qed.
Lemma line_truthful : knn_truthful line_knn line_dist.
Proof. apply (library_truthful (cltb exact_cost)), sort_by_contract, line_order. Qed.
Lemma serial_each_once : each_once serial_order.
Proof. intros size n _. reflexivity. Qed.

(** C49 as stated fails for asymmetric functions when a start state is added
    (direction from the new state to the roadmap): the only step the validity
    function accepts goes from 0 to 1, the edge that is stored goes from 1 to 0. *)
Theorem C49_edges_are_valid_refuted :
  exists (valid : Z -> Z -> bool) g',
    valid 0 1 = true /\ valid 1 0 = false /\
    AddNodeToRoadmap exact_cost line_knn line_dist valid serial_order graph_roadmap 0 NewStateToRoadmap 1 1 false false
      [mkNode 1 [] []] = (Ok 1, g') /\
    exists e n, node_at g' 0 n /\ In e (out_edges n) /\ ~ good_edge line_dist valid g' e.
Proof.
  exists Z.ltb. eexists. split; [reflexivity|]. split; [reflexivity|]. split; [vm_compute; reflexivity|].
  eexists _, _. split; [split; [lia|reflexivity]|]. split; [left; reflexivity|].
  intros (a & b & [_ Ha] & [_ Hb] & Hv & _). cbn in Ha, Hb. injection Ha as <-. injection Hb as <-. cbn in Hv. discriminate.
Qed.

(** C49, the part that holds: towards the new state, or symmetric functions.  The
    call either finds a roadmap state at distance zero (and changes nothing), or
    appends one node holding the state and exactly the offered edges, each in its
    direction; or nothing changes because the neighbor search failed. *)
Theorem C49_edges_are_valid_partial :
  forall (V C : Type) (ops : cost_ops C) knn (dist : V -> V -> C) valid order symmetric,
  each_once order -> knn_truthful knn dist -> (symmetric = true -> symmetric_functions dist valid) ->
  forall g state dir K max dups r g',
  dir = RoadmapToNewState \/ symmetric_functions dist valid ->
  AddNodeToRoadmap ops knn dist valid order graph_roadmap state dir K max symmetric dups g = (r, g') ->
  grows_with (good_edge dist valid g') g g' /\ (linked g -> linked g') /\
  match r with
  | Ok i => (g' = g /\ dups = false /\ exists n, node_at g i n /\ is_zero ops (distance_towards dist dir state (value n)) = true) \/
            (i = Size g /\ Size g' = Size g + 1 /\ exists n, node_at g' i n /\ value n = state)
  | _ => g' = g /\ forall l, GetKNearestNeighbors knn (as_graph_like g) state K dir max <> Ok l
  end.
Proof. intros V C ops knn dist valid order symmetric ORD KNN SYM. exact (add_node_grows ops knn dist valid order ORD KNN symmetric SYM). Qed.

Theorem C49_exactly_the_offered_edges_partial :
  forall (V C : Type) (ops : cost_ops C) knn (dist : V -> V -> C) valid order symmetric,
  each_once order -> knn_truthful knn dist -> (symmetric = true -> symmetric_functions dist valid) ->
  forall g state dir K max dups i g',
  dir = RoadmapToNewState \/ symmetric_functions dist valid ->
  AddNodeToRoadmap ops knn dist valid order graph_roadmap state dir K max symmetric dups g = (Ok i, g') ->
  exists l, GetKNearestNeighbors knn (as_graph_like g) state K dir max = Ok l /\
    ((dups = false /\ g' = g /\ exists n, node_at g i n /\ is_zero ops (distance_towards dist dir state (value n)) = true) \/
     ((dups = false -> forall j n, In j (map fst l) -> node_at g j n ->
         is_zero ops (distance_towards dist dir state (value n)) = false) /\
      i = Size g /\
      plus_edges (g ++ [mkNode state [] []]) (offered_edges ops valid dist g state (Size g) (map fst l)) g')).
Proof.
  intros V C ops knn dist valid order symmetric ORD KNN SYM g state dir K max dups i g' HD E.
  destruct (add_node_added ops knn dist valid order ORD KNN symmetric SYM g state dir K max dups (Ok i) g' HD E) as (l & EK & H).
  exists l. split; [exact EK|]. destruct H as [H|(A & B & D & _)]; [left; exact H|right; auto].
Qed.

Example C49_nonvacuous :
  each_once serial_order /\ knn_truthful line_knn line_dist /\
  exists g', AddNodeToRoadmap exact_cost line_knn line_dist Z.ltb serial_order graph_roadmap 2 RoadmapToNewState 1 2 false false
    [mkNode 0 [] []; mkNode 1 [] []] = (Ok 2, g') /\ g' =
    [mkNode 0 [] []; mkNode 1 [] [mkEdge 1 2 (Some 1) 0%N]; mkNode 2 [mkEdge 1 2 (Some 1) 0%N] []].
Proof. split; [exact serial_each_once|]. split; [exact line_truthful|]. eexists. split; [vm_compute; reflexivity|reflexivity]. Qed.

(** C50.  Any sampler, any state check that accepts only [accepted] states, any
    termination callback, any number of iterations; also when a callback throws. *)
Theorem C50_grow :
  forall (V C W : Type) (ops : cost_ops C) knn (dist : V -> V -> C) valid order symmetric,
  each_once order -> knn_truthful knn dist -> (symmetric = true -> symmetric_functions dist valid) ->
  forall (sampling : eff W V) (state_valid : V -> eff W bool) (terminate : Z -> eff W bool) (accepted : V -> Prop),
  accepts accepted state_valid ->
  forall K dups fuel g w r g' w',
  GrowRoadMap ops knn dist valid order graph_roadmap sampling state_valid terminate K symmetric dups fuel (g, w) = (r, (g', w')) ->
  grows_with (good_edge dist valid g') g g' /\ (linked g -> linked g') /\
  (forall i n, node_at g' i n -> Size g <= i -> accepted (value n)) /\
  match r with
  | Ok st => total_samples st = successful_samples st + duplicate_samples st + failed_samples st /\
             Size g' = Size g + successful_samples st /\
             0 <= successful_samples st /\ 0 <= duplicate_samples st /\ 0 <= failed_samples st /\
             (dups = true -> duplicate_samples st = 0)
  | _ => True
  end.
Proof. intros V C W ops knn dist valid order symmetric. exact (grow_spec ops knn dist valid order symmetric). Qed.

(** A run: the world is a counter, odd states are refused, stop at three nodes. *)
Definition count_up : eff Z Z := fun w => (Ok (w / 2), w + 1).
Definition even_only (v : Z) : eff Z bool := fun w => (Ok (Z.even v), w).
Example C50_nonvacuous :
  accepts (fun v => Z.even v = true) even_only /\
  exists g' w', GrowRoadMap exact_cost line_knn line_dist Z.ltb serial_order graph_roadmap count_up even_only
    (fun n => ret (3 <=? n)) 1 false false 20 ([], 0) = (Ok (mkStats 9 3 2 4), (g', w')) /\ map value g' = [0; 2; 4].
Proof.
  split; [intros v w w' E; injection E as E _; exact E|]. eexists _, _. split; [vm_compute; reflexivity|reflexivity].
Qed.

(** C51.  The parallel loop over the connections runs its items in any order. *)
Theorem C51_build :
  forall (V C W : Type) (ops : cost_ops C), cost_laws ops ->
  forall (sampling : eff W V) (state_valid : V -> eff W bool) knn (dist : V -> V -> C) valid
    (search : list (option V) -> (option V -> C) -> Z -> outcome (list (Z * C))) (accepted : V -> Prop) symmetric dups,
  search_contract ops search -> accepts accepted state_valid -> knn_truthful knn dist ->
  (symmetric = true -> symmetric_functions dist valid) ->
  forall sample_order connect_order size K tries use_parallel w g w',
  Permutation connect_order (seqZ 0 size) ->
  BuildRoadMap ops sampling state_valid knn dist valid search sample_order connect_order size K tries use_parallel symmetric dups w = (Ok g, w') ->
  0 <= size /\ 1 <= K /\ 1 <= tries /\ Size g = size /\
  (forall i n, node_at g i n -> accepted (value n)) /\
  (dups = false -> forall i j ni nj, i < j -> node_at g i ni -> node_at g j nj -> clt ops (czero ops) (dist (value ni) (value nj))) /\
  linked g /\ good_graph dist valid g /\
  (forall i n, node_at g i n -> exists gm l, map value gm = map value g /\
     GetKNearestNeighbors knn (as_graph_like gm) (value n) (K + 1) RoadmapToNewState (Size gm) = Ok l /\
     forall j m, In j (map fst l) -> j <> i -> node_at g j m ->
       (valid (value m) (value n) = true -> exists e, In e (in_edges n) /\ from_index e = j) /\
       (valid (value n) (value m) = true -> exists e, In e (out_edges n) /\ to_index e = j)).
Proof. intros V C W ops LAWS sampling state_valid knn dist valid search accepted symmetric dups. exact (build_spec ops LAWS sampling state_valid knn dist valid search accepted symmetric dups). Qed.

Theorem C51_linkage_check :
  forall (V C : Type) (g : list (GraphNode V C)), linked g -> CheckGraphLinkage (as_graph_like g) = Ok true.
Proof.
  intros V C g L. destruct (CheckGraphLinkage_spec g) as (b & Eb & Hb). rewrite Eb. rewrite (proj2 Hb (linked_consistent g L)). reflexivity.
Qed.

Definition line_search (items : list (option Z)) (d : option Z -> option Z) (K : Z) : outcome (list (Z * option Z)) :=
  GetKNearestNeighborsInRangeSerial None items d line_psort 0 (Z.of_nat (length items)) K.
Example C51_nonvacuous :
  search_contract exact_cost line_search /\
  exists g w', BuildRoadMap exact_cost count_up even_only line_knn line_dist Z.ltb line_search [0; 1; 2] [2; 0; 1] 3 1 10 false false false 0 = (Ok g, w') /\
    map value g = [0; 2; 4].
Proof.
  split; [exact (serial_is_search exact_cost None line_psort (sort_by_contract _ line_order))|].
  eexists _, _. split; [vm_compute; reflexivity|reflexivity].
Qed.

(** C52.  Same answer with an overlay and with a copy; the overlay leaves the
    caller's roadmap alone (a copy does so by construction). *)
Theorem C52_query_leaves_roadmap :
  forall (V C : Type) (ops : cost_ops C) knn (dist : V -> V -> C) valid order, each_once order ->
  forall pick lazy starts goals (roadmap : list (GraphNode V C)) K symmetric dups limit fuel,
  fst (QueryPathOverlay ops knn dist valid order lazy pick starts goals roadmap K symmetric dups limit fuel) =
  fst (QueryPathCopy ops knn dist valid order lazy pick starts goals roadmap K symmetric dups limit fuel) /\
  base_graph (snd (QueryPathOverlay ops knn dist valid order lazy pick starts goals roadmap K symmetric dups limit fuel))
  = as_graph_like roadmap.
Proof. intros V C ops knn dist valid order ORD. exact (query_overlay_copy ops knn dist valid order ORD). Qed.

Definition line_map : list (GraphNode Z (option Z)) :=
  [mkNode 1 [] [mkEdge 0 1 (Some 2) 0%N]; mkNode 3 [mkEdge 0 1 (Some 2) 0%N] []].
Definition near (a b : Z) : bool := Z.abs (a - b) <=? 2.
Example C52_C86_nonvacuous :
  linked line_map /\ good_graph line_dist near line_map /\ symmetric_functions line_dist near /\
  (forall a b, cle exact_cost (czero exact_cost) (line_dist a b)) /\ valid_pick exact_cost (@el_value Z (option Z)) exact_pick /\
  fst (QueryPathOverlay exact_cost line_knn line_dist near serial_order true exact_pick [0] [4] line_map 2 true false true 50)
  = Ok ([0; 1; 3; 4], Some 4) /\
  fst (QueryPathCopy exact_cost line_knn line_dist near serial_order false exact_pick [0] [4] line_map 2 true false true 50)
  = Ok ([0; 1; 3; 4], Some 4).
Proof.
  assert (N : forall i n, node_at line_map i n -> (i = 0 /\ n = mkNode 1 [] [mkEdge 0 1 (Some 2) 0%N]) \/ (i = 1 /\ n = mkNode 3 [mkEdge 0 1 (Some 2) 0%N] [])).
  { intros i n [H E]. destruct (Z.to_nat i) as [|[|k]] eqn:Ei; cbn in E; [injection E as <-; left|injection E as <-; right|destruct k; discriminate]; split; (lia || reflexivity). }
  split; [|split; [|split; [|split; [|split; [|split; vm_compute; reflexivity]]]]].
  - split; [|split].
    + intros i n e Hn He. destruct (N i n Hn) as [[-> ->]|[-> ->]]; cbn in He; try contradiction; destruct He as [<-|[]]; cbn.
      split; [reflexivity|]. split; [lia|]. eexists. split; [lia|reflexivity].
    + intros i n e Hn He. destruct (N i n Hn) as [[-> ->]|[-> ->]]; cbn in He; try contradiction; destruct He as [<-|[]]; cbn.
      split; [reflexivity|]. split; [lia|]. eexists. split; [lia|reflexivity].
    + intros i j n m Hn Hm. destruct (N i n Hn) as [[-> ->]|[-> ->]], (N j m Hm) as [[-> ->]|[-> ->]]; reflexivity.
  - intros i n e Hn He. destruct (N i n Hn) as [[-> ->]|[-> ->]]; cbn in He; destruct He as [He|He]; try contradiction; destruct He as [<-|[]];
      (eexists _, _; split; [split; [cbn; lia|reflexivity]|]; split; [split; [cbn; lia|reflexivity]|]; split; reflexivity).
  - intros a b. unfold line_dist, near. replace (Z.abs (b - a)) with (Z.abs (a - b)) by lia. auto.
  - intros a b. unfold cle. cbn. lia.
  - exact (first_min_valid exact_cost exact_laws _).
Qed.

(** C53.  Every edge is re-weighted in place, in both copies; the roadmap is
    otherwise the same.  The update rule: *)
Theorem C53_update :
  forall (V C : Type) (ops : cost_ops C) (dist : V -> V -> C) valid g, consistent g ->
  forall items, Permutation items (seqZ 0 (Size g)) ->
  exists g', UpdateRoadMapEdges ops dist valid items g = Ok g' /\
    reweighted (fun a b => if valid a b then dist a b else cinf ops) g g'.
Proof. intros V C ops dist valid g H items. exact (update_spec ops dist valid g H items). Qed.
Theorem C53_inconsistent_rejected :
  forall (V C : Type) (ops : cost_ops C) (dist : V -> V -> C) valid g items, ~ consistent g ->
  UpdateRoadMapEdges ops dist valid items g = Throw InvalidArgument.
Proof. intros V C ops dist valid g items. exact (update_rejects ops dist valid g items). Qed.
Example C53_nonvacuous :
  consistent line_map /\
  UpdateRoadMapEdges exact_cost line_dist (fun a b => a =? b) [1; 0] line_map =
  Ok [mkNode 1 [] [mkEdge 0 1 None 0%N]; mkNode 3 [mkEdge 0 1 None 0%N] []].
Proof. split; [exact (linked_consistent _ (proj1 C52_C86_nonvacuous))|vm_compute; reflexivity]. Qed.

(** C86.  Lazy queries: any edge functions (also asymmetric ones: the search
    checks the steps itself).  The flag that says they are symmetric may even be wrong. *)
Theorem C86_lazy_query :
  forall (V C : Type) (ops : cost_ops C) knn (dist : V -> V -> C) valid order symmetric dups,
  cost_laws ops -> each_once order -> knn_truthful knn dist -> (forall a b, cle ops (czero ops) (dist a b)) ->
  forall pick starts goals roadmap K limit fuel path c,
  linked roadmap -> valid_pick ops (@el_value Z C) pick ->
  fst (QueryPathCopy ops knn dist valid order true pick starts goals roadmap K symmetric dups limit fuel) = Ok (path, c) ->
  (path = [] /\ c = cinf ops) \/
  (clt ops c (cinf ops) /\ valid_steps valid path /\ cle ops (states_cost ops dist (czero ops) path) c /\
   (exists s v r, In s starts /\ path = v :: r /\ stands_for_start ops dist dups s v) /\
   (exists t v r, In t goals /\ path = r ++ [v] /\ stands_for_goal ops dist dups t v)).
Proof.
  intros V C ops knn dist valid order symmetric dups LAWS ORD KNN NN pick starts goals roadmap K limit fuel path c L VP E.
  unfold QueryPathCopy in E. destruct (QueryPathAndAddNodes _ _ _ _ _ _ _ _ _ _ _ _ _ _ _ _) as [r g'] eqn:EQ. cbn in E. subst r.
  exact (query_lazy ops knn dist valid order ORD KNN symmetric dups LAWS NN pick starts goals K limit fuel roadmap path c g' L VP EQ).
Qed.

(** Queries on stored weights. *)
Theorem C86_stored_query :
  forall (V C : Type) (ops : cost_ops C) knn (dist : V -> V -> C) valid order symmetric dups,
  cost_laws ops -> each_once order -> knn_truthful knn dist -> (forall a b, cle ops (czero ops) (dist a b)) ->
  symmetric_functions dist valid ->
  forall pick starts goals roadmap K limit fuel path c,
  linked roadmap -> good_graph dist valid roadmap -> valid_pick ops (@el_value Z C) pick ->
  fst (QueryPathCopy ops knn dist valid order false pick starts goals roadmap K symmetric dups limit fuel) = Ok (path, c) ->
  (path = [] /\ c = cinf ops) \/
  (clt ops c (cinf ops) /\ valid_steps valid path /\ cle ops (states_cost ops dist (czero ops) path) c /\
   (exists s v r, In s starts /\ path = v :: r /\ stands_for_start ops dist dups s v) /\
   (exists t v r, In t goals /\ path = r ++ [v] /\ stands_for_goal ops dist dups t v)).
Proof.
  intros V C ops knn dist valid order symmetric dups LAWS ORD KNN NN SYMF pick starts goals roadmap K limit fuel path c L GG VP E.
  unfold QueryPathCopy in E. destruct (QueryPathAndAddNodes _ _ _ _ _ _ _ _ _ _ _ _ _ _ _ _) as [r g'] eqn:EQ. cbn in E. subst r.
  exact (query_stored ops knn dist valid order ORD KNN symmetric dups LAWS NN SYMF pick starts goals K limit fuel roadmap path c g' L GG VP EQ).
Qed.

Print Assumptions C49_C86_library_neighbors.
Print Assumptions C49_edges_are_valid_refuted.
Print Assumptions C49_edges_are_valid_partial.
Print Assumptions C49_exactly_the_offered_edges_partial.
Print Assumptions C50_grow.
Print Assumptions C51_build.
Print Assumptions C51_linkage_check.
Print Assumptions C52_query_leaves_roadmap.
Print Assumptions C53_update.
Print Assumptions C53_inconsistent_rejected.
Print Assumptions C86_lazy_query.
Print Assumptions C86_stored_query.
