(** C176: the result of a clustering does not depend on the threads.  Model in
    ClusterModel.v, vocabulary in ClusterSpec.v and ClusterSameSpec.v. *)
From Coq Require Import ZArith Reals Permutation Relations.
From Flocq Require Import Core BinarySingleNaN.
From Verif Require Import Base Double ParallelismModel ParallelismSpec DistModel DistSpec SearchDouble DistProof2 DtwCost
  ClusterModel ClusterSpec ClusterProof ClusterProof2 ClusterProof3 ClusterProof4 ClusterSameSpec ClusterSameProof Prop_Cluster.
Local Open Scope Z_scope.
Notation size l := (Z.of_nat (length l)).

Lemma not_neg n d : between n (fun i j => dle d0 (d i j) = true) -> between n (fun i j => dlt (d i j) d0 = false).
Proof. intros NN a b Ha Hb Nab. apply not_negative. right. now apply NN. Qed.

(** If no two pairs of items are equally far, any two runs on the same distances give
    the same clusters in the same order and the same final distance: whatever the
    backends, the numbers of threads and the schedules. *)
Theorem C176_different_distances :
  forall m1 m2 n d strategy bound spurious1 omp1 team1 num_threads1 spurious2 omp2 team2 num_threads2 res1 res2,
  0 < n -> distances m1 n d -> distances m2 n d ->
  between n (fun i j => dle d0 (d i j) = true /\ is_finite (d i j) = true) -> between n (fun i j => d i j = d j i) ->
  all_different n d ->
  valid_call num_threads1 0 n team1 -> valid_call num_threads2 0 n team2 ->
  IndexClusterWithDistanceMatrix m1 strategy spurious1 omp1 team1 num_threads1 bound res1 ->
  IndexClusterWithDistanceMatrix m2 strategy spurious2 omp2 team2 num_threads2 bound res2 ->
  res1 = res2.
Proof.
  intros m1 m2 n d s bound sp1 ob1 t1 nt1 sp2 ob2 t2 nt2 r1 r2 Hn M1 M2 B SYM DIF V1 V2 R1 R2.
  assert (B1 : between n (fun i j => dle d0 (d i j) = true)) by (intros i j Hi Hj N; now apply B).
  assert (B2 : between n (fun i j => is_finite (d i j) = true)) by (intros i j Hi Hj N; now apply B).
  exact (distinct_runs s n d (not_neg n d B1) B1 B2 SYM DIF Hn bound m1 m2 M1 M2 sp1 ob1 sp2 ob2 t1 t2 nt1 nt2 V1 V2 r1 r2 R1 R2).
Qed.

(** Without OpenMP the same is true of all distances, equal and infinite ones
    included: with any number of threads the result is that of one thread. *)
Theorem C176_async :
  forall m1 m2 n d strategy bound spurious1 team1 num_threads1 spurious2 team2 num_threads2 res1 res2,
  0 < n -> distances m1 n d -> distances m2 n d -> between n (fun i j => dle d0 (d i j) = true) ->
  valid_call num_threads1 0 n team1 -> valid_call num_threads2 0 n team2 ->
  IndexClusterWithDistanceMatrix m1 strategy spurious1 false team1 num_threads1 bound res1 ->
  IndexClusterWithDistanceMatrix m2 strategy spurious2 false team2 num_threads2 bound res2 ->
  res1 = res2.
Proof.
  intros m1 m2 n d s bound sp1 t1 nt1 sp2 t2 nt2 r1 r2 Hn M1 M2 B V1 V2.
  exact (async_runs s n d bound m1 m2 sp1 t1 nt1 sp2 t2 nt2 r1 r2 (not_neg n d B) B Hn M1 M2 V1 V2).
Qed.

(** The reason: such loops give their indices to the threads in turn. *)
Theorem C176_async_in_turn :
  forall spurious team num_threads k tr r,
  valid_call num_threads 0 k team -> index_loop_execution spurious false team num_threads k tr r -> in_turn num_threads k tr.
Proof. exact async_in_turn. Qed.

(** Loops of any backend that do that make the same of a state that a run reaches as
    one thread does: the merge is the same, or both runs end. *)
Theorem C176_in_turn :
  forall m n d strategy bound spurious omp team num_threads k st x1 x2 y1 y2,
  0 < n -> distances m n d -> between n (fun i j => dle d0 (d i j) = true) -> valid_call num_threads 0 n team ->
  iterates m strategy spurious omp team num_threads bound k (initial_state m) st ->
  search_executions spurious omp team num_threads st x1 x2 ->
  in_turn num_threads n (fst x1) -> in_turn num_threads (size (st_clusters st)) (fst x2) ->
  iteration m strategy bound num_threads st x1 x2 = iteration m strategy bound 1 st y1 y2.
Proof.
  intros m n d s bound sp ob team nt k st x1 x2 y1 y2 Hn M B V It X T1 T2. pose proof (not_neg n d B) as NN.
  destruct (iterates_ok m s n d M NN Hn sp ob team nt V bound k st It) as (I & _).
  assert (V1 : valid_call 1 0 n team) by (unfold valid_call in *; destruct V as (_ & V); split; [reflexivity|exact V]).
  refine (turn_iteration s n d bound m m sp ob team nt sp ob team 1 st x1 x2 y1 y2 NN B Hn M M V V1 I X _ _ _); [intros P; discriminate P|auto|intros P; discriminate P].
Qed.

(** Clustering data with a distance function. *)
Lemma cluster_run {T} (dist : T -> T -> double) data strategy sp ob team nt bound t0 res :
  data <> [] -> valid_call nt 0 (size data) team -> Cluster sp ob team nt strategy dist data bound res ->
  exists m ic, distances m (size data) (index_distance dist data t0) /\
    IndexClusterWithDistanceMatrix m strategy sp ob team nt bound ic /\ res = (do c <- ic; MakeElementClusteringFromIndexClustering data c).
Proof.
  intros ND V [m r B R|o B F].
  - destruct (built_ok dist data sp ob team nt V t0 _ B) as (m' & E & D). injection E as <-. destruct (rows_n _ _ _ D) as [Rm Cm].
    destruct R as [[H|[H|H]]|ic _ _ _ R]; try congruence. exists m, ic. auto.
  - destruct (built_ok dist data sp ob team nt V t0 _ B) as (m & -> & D). discriminate.
Qed.

Theorem C176_elements_async :
  forall (T : Type) (distance_fn : T -> T -> double) data strategy bound spurious1 team1 num_threads1 spurious2 team2 num_threads2 res1 res2,
  data <> [] -> (forall a b, In a data -> In b data -> dle d0 (distance_fn a b) = true) ->
  valid_call num_threads1 0 (size data) team1 -> valid_call num_threads2 0 (size data) team2 ->
  Cluster spurious1 false team1 num_threads1 strategy distance_fn data bound res1 ->
  Cluster spurious2 false team2 num_threads2 strategy distance_fn data bound res2 ->
  res1 = res2.
Proof.
  intros T dist data s bound sp1 t1 nt1 sp2 t2 nt2 r1 r2 ND B V1 V2 R1 R2.
  assert (L : 0 < size data) by (destruct data; [congruence|cbn; lia]).
  destruct data as [|t0 data0] eqn:ED; [congruence|]. rewrite <- ED in *. clear ED data0.
  destruct (cluster_run dist data s sp1 false t1 nt1 bound t0 r1 ND V1 R1) as (m1 & ic1 & M1 & C1 & ->).
  destruct (cluster_run dist data s sp2 false t2 nt2 bound t0 r2 ND V2 R2) as (m2 & ic2 & M2 & C2 & ->).
  replace ic2 with ic1; [reflexivity|].
  refine (C176_async m1 m2 (size data) _ s bound sp1 t1 nt1 sp2 t2 nt2 ic1 ic2 L M1 M2 _ V1 V2 C1 C2).
  intros i j Hi Hj N. unfold index_distance. destruct (Z.eqb_spec i j); [contradiction|]. destruct (i <? j); apply B; apply nth_In; lia.
Qed.

Theorem C176_elements_different :
  forall (T : Type) (distance_fn : T -> T -> double) data strategy bound spurious1 omp1 team1 num_threads1 spurious2 omp2 team2 num_threads2 res1 res2,
  data <> [] -> (forall a b, In a data -> In b data -> dle d0 (distance_fn a b) = true /\ is_finite (distance_fn a b) = true) ->
  (forall i j k l a b c e, (i < j)%nat -> (k < l)%nat -> (i, j) <> (k, l) ->
     nth_error data i = Some a -> nth_error data j = Some b -> nth_error data k = Some c -> nth_error data l = Some e ->
     dlt (distance_fn a b) (distance_fn c e) = true \/ dlt (distance_fn c e) (distance_fn a b) = true) ->
  valid_call num_threads1 0 (size data) team1 -> valid_call num_threads2 0 (size data) team2 ->
  Cluster spurious1 omp1 team1 num_threads1 strategy distance_fn data bound res1 ->
  Cluster spurious2 omp2 team2 num_threads2 strategy distance_fn data bound res2 ->
  res1 = res2.
Proof.
  intros T dist data s bound sp1 ob1 t1 nt1 sp2 ob2 t2 nt2 r1 r2 ND B DIF V1 V2 R1 R2.
  assert (L : 0 < size data) by (destruct data; [congruence|cbn; lia]).
  destruct data as [|t0 data0] eqn:ED; [congruence|]. rewrite <- ED in *. clear ED data0.
  destruct (cluster_run dist data s sp1 ob1 t1 nt1 bound t0 r1 ND V1 R1) as (m1 & ic1 & M1 & C1 & ->).
  destruct (cluster_run dist data s sp2 ob2 t2 nt2 bound t0 r2 ND V2 R2) as (m2 & ic2 & M2 & C2 & ->).
  replace ic2 with ic1; [reflexivity|].
  refine (C176_different_distances m1 m2 (size data) _ s bound sp1 ob1 t1 nt1 sp2 ob2 t2 nt2 ic1 ic2 L M1 M2 _ _ _ V1 V2 C1 C2).
  - intros i j Hi Hj N. unfold index_distance. destruct (Z.eqb_spec i j); [contradiction|]. destruct (i <? j); apply B; apply nth_In; lia.
  - apply index_sym.
  - intros i j k l Hi Hj Hk Hl N. unfold index_distance.
    destruct (Z.eqb_spec i j); [lia|]. destruct (Z.eqb_spec k l); [lia|]. destruct (Z.ltb_spec i j); [|lia]. destruct (Z.ltb_spec k l); [|lia].
    apply (DIF (Z.to_nat i) (Z.to_nat j) (Z.to_nat k) (Z.to_nat l)); try (apply nth_error_nth'); try lia.
    intros E. injection E as E1 E2. apply N. f_equal; lia.
Qed.

(** * Non-vacuity *)
(** Items at 0, 1 and 4: the distances 1, 3 and 4 differ. *)
Definition spread (i : Z) : Z := i * i.
Definition spread_distance (i j : Z) : double := d_of_Z (Z.abs (spread i - spread j)).
Definition spread_matrix : mat (option double) := mkMat 3 3 (fun i j => Some (spread_distance i j)).
Lemma three i : 0 <= i < 3 -> i = 0 \/ i = 1 \/ i = 2.
Proof. lia. Qed.
Example C176_nonvacuous_different :
  distances spread_matrix 3 spread_distance /\
  between 3 (fun i j => dle d0 (spread_distance i j) = true /\ is_finite (spread_distance i j) = true) /\
  between 3 (fun i j => spread_distance i j = spread_distance j i) /\ all_different 3 spread_distance /\
  valid_call 1 0 3 1 /\ valid_call 2 0 3 2 /\
  (forall strategy bound, exists res, IndexClusterWithDistanceMatrix spread_matrix strategy false true 2 2 bound res /\
     IndexClusterWithDistanceMatrix spread_matrix strategy false false 1 1 bound res).
Proof.
  assert (M : distances spread_matrix 3 spread_distance) by (split; [reflexivity|split; reflexivity]).
  assert (B : between 3 (fun i j => dle d0 (spread_distance i j) = true /\ is_finite (spread_distance i j) = true)).
  { intros i j Hi Hj _. destruct (three i Hi) as [->|[->| ->]], (three j Hj) as [->|[->| ->]]; vm_compute; auto. }
  assert (S : between 3 (fun i j => spread_distance i j = spread_distance j i)) by (intros i j _ _ _; unfold spread_distance; f_equal; lia).
  assert (D : all_different 3 spread_distance).
  { intros i j k l Hi Hj Hk Hl N. assert (Ci : (i = 0 /\ j = 1) \/ (i = 0 /\ j = 2) \/ (i = 1 /\ j = 2)) by lia.
    assert (Ck : (k = 0 /\ l = 1) \/ (k = 0 /\ l = 2) \/ (k = 1 /\ l = 2)) by lia.
    destruct Ci as [[-> ->]|[[-> ->]|[-> ->]]], Ck as [[-> ->]|[[-> ->]|[-> ->]]]; try congruence; vm_compute; auto. }
  assert (V1 : valid_call 1 0 3 1) by (unfold valid_call, int64_min, int64_max; cbn; repeat split; lia).
  assert (V2 : valid_call 2 0 3 2) by (unfold valid_call, int64_min, int64_max; cbn; repeat split; lia).
  split; [exact M|]. split; [exact B|]. split; [exact S|]. split; [exact D|]. split; [exact V1|]. split; [exact V2|].
  intros s bound. assert (NN : between 3 (fun i j => dlt (spread_distance i j) d0 = false)) by (apply not_neg; intros i j Hi Hj N; now apply B).
  destruct (C57_returns spread_matrix 3 spread_distance s false true 2%nat 2 bound ltac:(lia) M NN V2) as [r1 R1].
  destruct (C57_returns spread_matrix 3 spread_distance s false false 1%nat 1 bound ltac:(lia) M NN V1) as [r2 R2].
  exists r1. split; [exact R1|].
  rewrite (C176_different_distances spread_matrix spread_matrix 3 spread_distance s bound false true 2%nat 2 false false 1%nat 1 r1 r2 ltac:(lia) M M B S D V2 V1 R1 R2). exact R2.
Qed.

(** The line of C58 has equal distances: every run without OpenMP gives the clusters
    of one thread, which takes the first of the closest pairs. *)
Example C176_nonvacuous_async :
  valid_call 8 0 4 4 /\
  (exists x, IndexClusterWithDistanceMatrix line_matrix COMPLETE_LINK false false 4 8 (d_of_Z 1) (Ok ([[0; 1]; [2]; [3]], x))) /\
  forall spurious res, IndexClusterWithDistanceMatrix line_matrix COMPLETE_LINK spurious false 4 8 (d_of_Z 1) res ->
    exists x, res = Ok ([[0; 1]; [2]; [3]], x).
Proof.
  destruct C58_nonvacuous as (M & V & B & S & (x & R) & _).
  assert (V8 : valid_call 8 0 4 4) by (unfold valid_call, int64_min, int64_max; cbn; repeat split; lia).
  assert (B1 : between 4 (fun i j => dle d0 (d_of_Z (Z.abs (line i - line j))) = true)) by (intros i j Hi Hj N; now apply B).
  split; [exact V8|].
  assert (G : forall sp res, IndexClusterWithDistanceMatrix line_matrix COMPLETE_LINK sp false 4 8 (d_of_Z 1) res -> res = Ok ([[0; 1]; [2]; [3]], x)).
  { intros sp res H. exact (C176_async line_matrix line_matrix 4 _ COMPLETE_LINK (d_of_Z 1) sp 4%nat 8 false 1%nat 1 res _ ltac:(lia) M M B1 V8 V H R). }
  split; [|intros sp res H; exists x; exact (G sp res H)].
  destruct (C57_returns line_matrix 4 _ COMPLETE_LINK false false 4%nat 8 (d_of_Z 1) ltac:(lia) M (not_neg _ _ B1) V8) as [res H].
  exists x. rewrite <- (G false res H). exact H.
Qed.

(** The first iteration of four threads on that line, each index by its thread. *)
Definition four_calls : list event := flat_map (fun i => [EvBegin i i (i + 1); EvEnd i i (i + 1) None]) [2; 0; 3; 1].
Example C176_nonvacuous_in_turn : in_turn 4 4 four_calls /\ in_turn 4 0 [] /\ ~ in_turn 2 2 [EvBegin 1 0 1; EvEnd 1 0 1 None; EvBegin 0 1 2; EvEnd 0 1 2 None].
Proof. split; [reflexivity|]. split; [reflexivity|]. intros H. discriminate H. Qed.

Print Assumptions C176_different_distances.
Print Assumptions C176_async.
Print Assumptions C176_async_in_turn.
Print Assumptions C176_in_turn.
Print Assumptions C176_elements_async.
Print Assumptions C176_elements_different.
