(** C173: how BuildRoadMap draws its samples. *)
From Verif Require Import Base Effect GraphModel GraphSpec SearchModel SearchSpec SearchProof SearchProof2 SearchProof3 SearchProof4 KnnModel KnnSpec KnnSort ParallelismModel
  PrmModel PrmSpec PrmProof PrmBuild PrmPath Prop_Prm PrmTriesSpec PrmTriesProof.
From Coq Require Import Permutation.
Local Open Scope Z_scope.

(** C173.  The caller's functions return, and write a log of the samples asked for and of the
    answers of the validity check; the parallel loops run their items in any order.  At least one
    and at most max_valid_sample_tries samples are asked for per state of the roadmap.  Either a
    roadmap is returned, and at least as many valid samples were found as it has states; or
    std::runtime_error is thrown, and then some state used up all its tries.  With duplicates
    allowed no valid sample is wasted: a roadmap is returned exactly when there were as many valid
    samples as states.  Nothing else can happen. *)
Theorem C173_tries {V C W} (ops : cost_ops C) (sampling : eff W V) (state_valid : V -> eff W bool) knn dist valid search
    symmetric dups sample_order connect_order size K tries use_parallel w r w' log :
  search_contract ops search -> knn_truthful knn dist -> knn_answers knn ->
  (symmetric = true -> symmetric_functions dist valid) ->
  returns sampling -> (forall v, returns (state_valid v)) ->
  Permutation sample_order (seqZ 0 size) -> Permutation connect_order (seqZ 0 size) ->
  0 <= size -> 1 <= K < 2 ^ 63 - 1 -> 1 <= tries ->
  BuildRoadMap ops (jotted_sampling sampling) (jotted_validity state_valid) knn dist valid search
    sample_order connect_order size K tries use_parallel symmetric dups (w, []) = (r, (w', log)) ->
  size <= tries_made log <= size * tries /\
  (dups = true -> valid_found log <= size) /\
  (((exists g, r = Ok g) /\ size <= valid_found log) \/
   (r = Throw RuntimeError /\ size - 1 + tries <= tries_made log /\ (dups = true -> valid_found log < size))).
Proof.
  intros SE KN AN SY SA VA. exact (build_tries ops sampling state_valid knn dist valid search symmetric dups SE KN AN SY SA VA
    sample_order connect_order size K tries use_parallel w r w' log).
Qed.
Print Assumptions C173_tries.

(** Unusable arguments are refused before anything is asked for. *)
Theorem C173_bad_arguments {V C W} (ops : cost_ops C) (sampling : eff W V) state_valid knn dist valid search
    sample_order connect_order size K tries use_parallel symmetric dups w :
  size < 0 \/ K < 1 \/ tries < 1 ->
  BuildRoadMap ops sampling state_valid knn dist valid search
    sample_order connect_order size K tries use_parallel symmetric dups w = (Throw RuntimeError, w).
Proof.
  intros H. unfold BuildRoadMap. destruct (Z.ltb_spec size 0); [reflexivity|].
  destruct (Z.ltb_spec K 1); [reflexivity|]. destruct (Z.ltb_spec tries 1); [reflexivity|]. lia.
Qed.
Print Assumptions C173_bad_arguments.

(** The library's own provider of neighbours returns, with any std::partial_sort. *)
Theorem C173_library_answers {V C} (ltb : C -> C -> bool) infinity psort (dist : V -> V -> C) : partial_sort_contract ltb psort ->
  knn_answers (LinearGraphKNN (fun nodes d K => GetKNearestNeighborsInRangeSerial infinity nodes d psort 0 (Z.of_nat (length nodes)) K) dist).
Proof. exact (library_answers ltb infinity psort dist). Qed.
Print Assumptions C173_library_answers.

(** The samples are 0, 0, 1, 1, 2, 2, ...; even numbers are valid.  With ten tries there is a
    roadmap of three states; with one try the second sample is a duplicate and the call throws. *)
Example C173_nonvacuous :
  search_contract exact_cost line_search /\ knn_truthful line_knn line_dist /\ knn_answers line_knn /\
  returns count_up /\ (forall v, returns (even_only v)) /\
  (exists g w' log, BuildRoadMap exact_cost (jotted_sampling count_up) (jotted_validity even_only) line_knn line_dist Z.ltb line_search
     [0; 1; 2] [2; 0; 1] 3 1 10 false false false (0, []) = (Ok g, (w', log)) /\ tries_made log = 9 /\ valid_found log = 5) /\
  (exists w' log, BuildRoadMap exact_cost (jotted_sampling count_up) (jotted_validity even_only) line_knn line_dist Z.ltb line_search
     [0; 1; 2] [2; 0; 1] 3 1 1 false false false (0, []) = (Throw RuntimeError, (w', log)) /\ tries_made log = 3).
Proof.
  split; [exact (serial_is_search exact_cost None line_psort (sort_by_contract _ line_order))|].
  split; [exact line_truthful|]. split; [apply (library_answers (cltb exact_cost)), sort_by_contract, line_order|].
  split; [intros w; eexists _, _; reflexivity|]. split; [intros v w; eexists _, _; reflexivity|].
  split; [eexists _, _, _|eexists _, _]; (split; [vm_compute; reflexivity|]); vm_compute; auto.
Qed.
