(** C57, C58: hierarchical clustering.  Model in ClusterModel.v, vocabulary in
    ClusterSpec.v. *)
From Coq Require Import ZArith Reals Permutation Relations.
From Flocq Require Import Core BinarySingleNaN.
From Verif Require Import Base Double ParallelismModel ParallelismSpec DistModel DistSpec SearchDouble DistProof2 DtwCost
  ClusterModel ClusterSpec ClusterProof ClusterProof2 ClusterProof3 ClusterProof4.
Local Open Scope Z_scope.

(** C57.  Whatever the matrix (NaN and infinity included, as long as no distance
    between different items is negative), the bound, the strategy, the number of
    threads and the executions of the parallel loops, the result is a partition. *)
Theorem C57_partition :
  forall m n d strategy spurious omp_in_build team num_threads bound res,
  0 < n -> distances m n d -> between n (fun i j => dlt (d i j) d0 = false) -> valid_call num_threads 0 n team ->
  IndexClusterWithDistanceMatrix m strategy spurious omp_in_build team num_threads bound res ->
  exists clusters final_distance, res = Ok (clusters, final_distance) /\ partition n clusters.
Proof. intros m n d s sp ob team nt bound res Hn M NN V. exact (run_partition m s n d M NN Hn sp ob team nt V bound res). Qed.

(** It terminates: there are fewer than n merges, and a result. *)
Theorem C57_bounded :
  forall m n d strategy spurious omp_in_build team num_threads bound k st,
  0 < n -> distances m n d -> between n (fun i j => dlt (d i j) d0 = false) -> valid_call num_threads 0 n team ->
  iterates m strategy spurious omp_in_build team num_threads bound k (initial_state m) st -> Z.of_nat k < n.
Proof. intros m n d s sp ob team nt bound k st Hn M NN V. exact (run_bounded m s n d M NN Hn sp ob team nt V bound k st). Qed.
Theorem C57_returns :
  forall m n d strategy spurious omp_in_build team num_threads bound,
  0 < n -> distances m n d -> between n (fun i j => dlt (d i j) d0 = false) -> valid_call num_threads 0 n team ->
  exists res, IndexClusterWithDistanceMatrix m strategy spurious omp_in_build team num_threads bound res.
Proof. intros m n d s sp ob team nt bound Hn M NN V. exact (run_exists m s n d M NN Hn sp ob team nt V bound). Qed.

(** A matrix that is not square or is empty is rejected. *)
Theorem C57_bad_matrix :
  forall m strategy spurious omp_in_build team num_threads bound res,
  m_rows m <> m_cols m \/ m_rows m = 0 ->
  IndexClusterWithDistanceMatrix m strategy spurious omp_in_build team num_threads bound res -> res = Throw InvalidArgument.
Proof.
  intros m s sp ob team nt bound res H R. destruct R as [_|_ _|k st x1 x2 A B _ _ _|k st x1 x2 o r A B _ _ _ _ _]; try reflexivity; destruct H; contradiction.
Qed.

(** Clustering data with a distance function: every element is in one cluster. *)
Theorem C57_elements :
  forall (T : Type) (distance_fn : T -> T -> double) data strategy spurious omp_in_build team num_threads bound,
  data <> [] -> (forall a b, In a data -> In b data -> dlt (distance_fn a b) d0 = false) ->
  valid_call num_threads 0 (Z.of_nat (length data)) team ->
  (exists res, Cluster spurious omp_in_build team num_threads strategy distance_fn data bound res) /\
  forall res, Cluster spurious omp_in_build team num_threads strategy distance_fn data bound res ->
  exists clusters final_distance, res = Ok (clusters, final_distance) /\ ~ In [] clusters /\ Permutation (concat clusters) data.
Proof.
  intros T dist data s sp ob team nt bound ND POS V. split; [exact (cluster_exists dist data ND POS sp ob team nt V bound s)|].
  intros res R. destruct (cluster_inversion dist data ND POS sp ob team nt V bound s res R) as (t0 & m & clusters & x & out & _ & _ & _ & E & P & N & _).
  exists out, x. auto.
Qed.

(** C58: complete-link clusters have all pairwise distances at most the bound. *)
Theorem C58_complete_link_bound :
  forall m n d spurious omp_in_build team num_threads bound clusters final_distance,
  0 < n -> distances m n d -> between n (fun i j => dle d0 (d i j) = true) -> between n (fun i j => d i j = d j i) ->
  valid_call num_threads 0 n team ->
  IndexClusterWithDistanceMatrix m COMPLETE_LINK spurious omp_in_build team num_threads bound (Ok (clusters, final_distance)) ->
  forall i j, same_cluster clusters i j -> i <> j -> dle (d i j) bound = true.
Proof.
  intros m n d sp ob team nt bound clusters x Hn M NN SYM V R i j (c & Hc & Hi & Hj) N.
  assert (NEG : between n (fun i j => dlt (d i j) d0 = false)) by (intros a b Ha Hb Nab; apply not_negative; right; now apply NN).
  exact (proj1 (run_tight m COMPLETE_LINK n d M NEG Hn sp ob team nt V bound NN SYM clusters x R) c i j Hc Hi Hj N).
Qed.

(** No two clusters of the result could still be merged. *)
Theorem C58_complete_link_separated :
  forall m n d spurious omp_in_build team num_threads bound clusters final_distance,
  0 < n -> distances m n d -> between n (fun i j => dle d0 (d i j) = true /\ is_finite (d i j) = true) -> between n (fun i j => d i j = d j i) ->
  valid_call num_threads 0 n team ->
  IndexClusterWithDistanceMatrix m COMPLETE_LINK spurious omp_in_build team num_threads bound (Ok (clusters, final_distance)) ->
  forall c1 c2, In c1 clusters -> In c2 clusters -> c1 <> c2 -> exists i j, In i c1 /\ In j c2 /\ dle (d i j) bound = false.
Proof.
  intros m n d sp ob team nt bound clusters x Hn M NN SYM V R.
  assert (NEG : between n (fun i j => dlt (d i j) d0 = false)) by (intros a b Ha Hb Nab; apply not_negative; right; now apply NN).
  refine (run_separated m COMPLETE_LINK n d M NEG Hn sp ob team nt V bound _ SYM clusters x _ R); intros a b Ha Hb Nab; now apply NN.
Qed.
Theorem C58_single_link_separated :
  forall m n d spurious omp_in_build team num_threads bound clusters final_distance,
  0 < n -> distances m n d -> between n (fun i j => dle d0 (d i j) = true /\ is_finite (d i j) = true) -> between n (fun i j => d i j = d j i) ->
  valid_call num_threads 0 n team ->
  IndexClusterWithDistanceMatrix m SINGLE_LINK spurious omp_in_build team num_threads bound (Ok (clusters, final_distance)) ->
  forall c1 c2, In c1 clusters -> In c2 clusters -> c1 <> c2 -> forall i j, In i c1 -> In j c2 -> dle (d i j) bound = false.
Proof.
  intros m n d sp ob team nt bound clusters x Hn M NN SYM V R.
  assert (NEG : between n (fun i j => dlt (d i j) d0 = false)) by (intros a b Ha Hb Nab; apply not_negative; right; now apply NN).
  refine (run_separated m SINGLE_LINK n d M NEG Hn sp ob team nt V bound _ SYM clusters x _ R); intros a b Ha Hb Nab; now apply NN.
Qed.

(** Single-link clusters are exactly the sets of indices joined by chains of
    distances within the bound. *)
Theorem C58_single_link_components :
  forall m n d spurious omp_in_build team num_threads bound clusters final_distance,
  0 < n -> distances m n d -> between n (fun i j => dle d0 (d i j) = true /\ is_finite (d i j) = true) -> between n (fun i j => d i j = d j i) ->
  valid_call num_threads 0 n team ->
  IndexClusterWithDistanceMatrix m SINGLE_LINK spurious omp_in_build team num_threads bound (Ok (clusters, final_distance)) ->
  forall i j, 0 <= i < n -> 0 <= j < n -> same_cluster clusters i j <-> linked n d bound i j.
Proof.
  intros m n d sp ob team nt bound clusters x Hn M NN SYM V R.
  assert (NEG : between n (fun i j => dlt (d i j) d0 = false)) by (intros a b Ha Hb Nab; apply not_negative; right; now apply NN).
  assert (NO : between n (fun i j => dle d0 (d i j) = true)) by (intros a b Ha Hb Nab; now apply NN).
  destruct (run_partition m SINGLE_LINK n d M NEG Hn sp ob team nt V bound _ R) as (cl & x' & E & P). injection E as <- <-.
  apply components; [exact P| |exact (C58_single_link_separated m n d sp ob team nt bound clusters x Hn M NN SYM V R)].
  exact (proj1 (run_tight m SINGLE_LINK n d M NEG Hn sp ob team nt V bound NO SYM clusters x R)).
Qed.

(** The reported final distance is zero (no merge) or within the bound. *)
Theorem C58_final_distance :
  forall m n d strategy spurious omp_in_build team num_threads bound clusters final_distance,
  0 < n -> distances m n d -> between n (fun i j => dle d0 (d i j) = true) -> between n (fun i j => d i j = d j i) ->
  valid_call num_threads 0 n team ->
  IndexClusterWithDistanceMatrix m strategy spurious omp_in_build team num_threads bound (Ok (clusters, final_distance)) ->
  final_distance = d0 \/ dle final_distance bound = true.
Proof.
  intros m n d s sp ob team nt bound clusters x Hn M NN SYM V R.
  assert (NEG : between n (fun i j => dlt (d i j) d0 = false)) by (intros a b Ha Hb Nab; apply not_negative; right; now apply NN).
  exact (proj2 (run_tight m s n d M NEG Hn sp ob team nt V bound NN SYM clusters x R)).
Qed.

(** Four points 0, 1, 2, 7 on a line with bound 1: complete link stops at two of
    the three close ones, single link joins them. *)
Definition line (i : Z) : Z := if i =? 3 then 7 else i.
Definition line_matrix : mat (option double) := mkMat 4 4 (fun i j => Some (d_of_Z (Z.abs (line i - line j)))).
Definition no_loops : list event * outcome unit := ([], Ok tt).

Lemma line_distances : distances line_matrix 4 (fun i j => d_of_Z (Z.abs (line i - line j))).
Proof. split; [reflexivity|]. split; [reflexivity|]. reflexivity. Qed.
Lemma four i : 0 <= i < 4 -> i = 0 \/ i = 1 \/ i = 2 \/ i = 3.
Proof. lia. Qed.
(** What one iteration makes of a state (the state itself when the loop ends). *)
Definition next strategy (st : cstate) : cstate :=
  match iteration line_matrix strategy (d_of_Z 1) 1 st no_loops no_loops with Ok (Some st') => st' | _ => st end.
Definition goes_on strategy (st : cstate) : bool :=
  match iteration line_matrix strategy (d_of_Z 1) 1 st no_loops no_loops with Ok (Some _) => true | _ => false end.
Definition ends strategy (st : cstate) : bool :=
  match iteration line_matrix strategy (d_of_Z 1) 1 st no_loops no_loops with Ok None => true | _ => false end.
Lemma goes_on_next strategy st : goes_on strategy st = true -> iteration line_matrix strategy (d_of_Z 1) 1 st no_loops no_loops = Ok (Some (next strategy st)).
Proof. unfold goes_on, next. destruct (iteration _ _ _ _ _ _ _) as [[st'|]| | |]; try discriminate. reflexivity. Qed.
Lemma ends_none strategy st : ends strategy st = true -> iteration line_matrix strategy (d_of_Z 1) 1 st no_loops no_loops = Ok None.
Proof. unfold ends. destruct (iteration _ _ _ _ _ _ _) as [[st'|]| | |]; try discriminate. reflexivity. Qed.
Lemma named_clusters strategy sp ob team nt st clusters :
  IndexClusterWithDistanceMatrix line_matrix strategy sp ob team nt (d_of_Z 1) (Ok (collect st)) -> fst (collect st) = clusters ->
  exists x, IndexClusterWithDistanceMatrix line_matrix strategy sp ob team nt (d_of_Z 1) (Ok (clusters, x)).
Proof. intros H <-. exists (snd (collect st)). now rewrite <- surjective_pairing. Qed.
Example C58_nonvacuous :
  distances line_matrix 4 (fun i j => d_of_Z (Z.abs (line i - line j))) /\ valid_call 1 0 4 1 /\
  between 4 (fun i j => dle d0 (d_of_Z (Z.abs (line i - line j))) = true /\ is_finite (d_of_Z (Z.abs (line i - line j))) = true) /\
  between 4 (fun i j => d_of_Z (Z.abs (line i - line j)) = d_of_Z (Z.abs (line j - line i))) /\
  (exists x, IndexClusterWithDistanceMatrix line_matrix COMPLETE_LINK false false 1 1 (d_of_Z 1) (Ok ([[0; 1]; [2]; [3]], x))) /\
  (exists x, IndexClusterWithDistanceMatrix line_matrix SINGLE_LINK false false 1 1 (d_of_Z 1) (Ok ([[0; 1; 2]; [3]], x))).
Proof.
  split; [exact line_distances|]. split; [unfold valid_call, int64_min, int64_max; cbn; repeat split; lia|]. split.
  { intros i j Hi Hj _. destruct (four i Hi) as [->|[->|[->| ->]]], (four j Hj) as [->|[->|[->| ->]]]; vm_compute; auto. }
  split.
  { intros i j Hi Hj _. f_equal. lia. }
  assert (S : forall st, search_executions false false 1 1 st no_loops no_loops) by (intros st H; discriminate H).
  split.
  - pose (s0 := initial_state line_matrix). pose (s1 := next COMPLETE_LINK s0).
    apply (named_clusters COMPLETE_LINK false false 1 1 s1); [|vm_compute; reflexivity].
    apply icm_returns with (n := 1%nat) (x1 := no_loops) (x2 := no_loops); [reflexivity|discriminate| |apply S|apply ends_none; vm_compute; reflexivity].
    apply iterates_more with (st1 := s0) (x1 := no_loops) (x2 := no_loops); [constructor|apply S|apply goes_on_next; vm_compute; reflexivity].
  - pose (s0 := initial_state line_matrix). pose (s1 := next SINGLE_LINK s0). pose (s2 := next SINGLE_LINK s1).
    apply (named_clusters SINGLE_LINK false false 1 1 s2); [|vm_compute; reflexivity].
    apply icm_returns with (n := 2%nat) (x1 := no_loops) (x2 := no_loops); [reflexivity|discriminate| |apply S|apply ends_none; vm_compute; reflexivity].
    apply iterates_more with (st1 := s1) (x1 := no_loops) (x2 := no_loops); [|apply S|apply goes_on_next; vm_compute; reflexivity].
    apply iterates_more with (st1 := s0) (x1 := no_loops) (x2 := no_loops); [constructor|apply S|apply goes_on_next; vm_compute; reflexivity].
Qed.

Print Assumptions C57_partition.
Print Assumptions C57_bounded.
Print Assumptions C57_returns.
Print Assumptions C57_bad_matrix.
Print Assumptions C57_elements.
Print Assumptions C58_complete_link_bound.
Print Assumptions C58_complete_link_separated.
Print Assumptions C58_single_link_separated.
Print Assumptions C58_single_link_components.
Print Assumptions C58_final_distance.
