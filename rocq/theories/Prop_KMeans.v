(** Properties C59 and C60 (K-means).  Model in KMeansModel.v, vocabulary in
    KMeansSpec.v. *)
From Coq Require Import Reals Lra Permutation.
From Verif Require Import Base ParallelismModel ParallelismSpec ParallelismProof KnnModel KnnSpec KnnProof KnnSort DistModel ClusterModel ClusterProof4 KMeansModel KMeansSpec KMeansProof KMeansProof2 KMeansProof3 KMeansProof4.
Local Open Scope Z_scope.
Notation size l := (Z.of_nat (length l)).

(** C59: whatever the callbacks, the random draws, the iteration order of the map
    of drawn indices and the schedule of the parallel loops, every result is a
    stable assignment. *)
Theorem C59_stable_assignment :
  forall (Data D W : Type) (ltb : D -> D -> bool) infinity psort, partial_sort_contract ltb psort ->
  forall (distance_fn : Data -> Data -> D) (weighted_average_fn : list Data -> list W -> Data) default_data draw,
  draws_in_range draw ->
  forall spurious omp_in_build team num_threads data data_weights num_clusters do_preliminary_clustering r,
  length data_weights = length data ->
  0 < num_clusters \/ data = [] ->
  num_clusters * 5 <= 2147483647 \/ do_preliminary_clustering = false \/ data = [] ->
  valid_call num_threads 0 (Z.max num_clusters (size data)) team ->
  ClusterWeighted infinity psort distance_fn weighted_average_fn default_data draw spurious omp_in_build team num_threads
    data data_weights num_clusters do_preliminary_clustering r ->
  exists labels, r = Ok labels /\ stable_assignment ltb distance_fn weighted_average_fn data data_weights num_clusters labels.
Proof.
  intros Data D W ltb inf psort PS dist avg dflt draw DR sp ob team nt data weights K pre r LW HK OV V C.
  exact (proj1 (weighted_stable ltb inf psort PS dist avg dflt draw DR sp ob team nt data weights K pre r LW HK OV V C)).
Qed.

(** The same without weights. *)
Theorem C59_unweighted :
  forall (Data D W : Type) (one : W) (ltb : D -> D -> bool) infinity psort, partial_sort_contract ltb psort ->
  forall (distance_fn : Data -> Data -> D) (average_fn : list Data -> Data) default_data draw,
  draws_in_range draw ->
  forall spurious omp_in_build team num_threads data num_clusters do_preliminary_clustering r,
  0 < num_clusters \/ data = [] ->
  num_clusters * 5 <= 2147483647 \/ do_preliminary_clustering = false \/ data = [] ->
  valid_call num_threads 0 (Z.max num_clusters (size data)) team ->
  Cluster one infinity psort distance_fn average_fn default_data draw spurious omp_in_build team num_threads
    data num_clusters do_preliminary_clustering r ->
  exists labels, r = Ok labels /\
    stable_assignment ltb distance_fn (fun members (_ : list W) => average_fn members) data (repeat one (length data)) num_clusters labels.
Proof.
  intros Data D W one ltb inf psort PS dist avg dflt draw DR sp ob team nt data K pre r HK OV V C.
  exact (proj1 (weighted_stable ltb inf psort PS dist _ dflt draw DR sp ob team nt data _ K pre r (repeat_length _ _) HK OV V C)).
Qed.

(** Numbers of clusters that make no sense are refused, *)
Theorem C59_bad_number_of_clusters :
  forall (Data D W : Type) infinity psort (distance_fn : Data -> Data -> D) (weighted_average_fn : list Data -> list W -> Data) default_data draw,
  draws_in_range draw ->
  forall spurious omp_in_build team num_threads data data_weights num_clusters do_preliminary_clustering r,
  data <> [] -> length data_weights = length data -> num_clusters <= 0 ->
  -2147483648 <= num_clusters * 5 \/ do_preliminary_clustering = false ->
  ClusterWeighted infinity psort distance_fn weighted_average_fn default_data draw spurious omp_in_build team num_threads
    data data_weights num_clusters do_preliminary_clustering r ->
  r = Throw (if num_clusters =? 0 then InvalidArgument else LengthError).
Proof.
  intros Data D W inf psort dist avg dflt draw DR sp ob team nt data weights K pre r ND LW HK OV C. destruct (Z.eqb_spec K 0) as [->|].
  - exact (weighted_zero inf psort dist avg dflt draw sp ob team nt data weights pre r ND C).
  - apply (weighted_negative inf psort dist avg dflt draw DR sp ob team nt data weights K pre r ND LW); [lia|exact OV|exact C].
Qed.

(** except that the test whether preliminary clustering makes sense multiplies in
    int32_t: beyond 429496729 clusters it is undefined. *)
Theorem C59_preliminary_overflow_refuted :
  forall (Data D W : Type) infinity psort (distance_fn : Data -> Data -> D) (weighted_average_fn : list Data -> list W -> Data) default_data draw
    spurious omp_in_build team num_threads data data_weights num_clusters,
  data <> [] -> 2147483647 < num_clusters * 5 ->
  ClusterWeighted infinity psort distance_fn weighted_average_fn default_data draw spurious omp_in_build team num_threads
    data data_weights num_clusters true UB.
Proof. intros Data D W inf psort dist avg dflt draw sp ob team nt data weights K ND H. apply weighted_overflow; [exact ND|now right]. Qed.

(** C60 (full claim: K-means terminates for every data set and number of
    clusters).  False: with more clusters than data no execution returns, *)
Theorem C60_terminates_refuted :
  forall (Data D W : Type) infinity psort (distance_fn : Data -> Data -> D) (weighted_average_fn : list Data -> list W -> Data) default_data draw,
  draws_in_range draw ->
  forall spurious omp_in_build team num_threads data data_weights num_clusters do_preliminary_clustering,
  data <> [] -> size data < num_clusters -> 1 < num_clusters ->
  num_clusters * 5 <= 2147483647 \/ do_preliminary_clustering = false ->
  forall r, ~ ClusterWeighted infinity psort distance_fn weighted_average_fn default_data draw spurious omp_in_build team num_threads
    data data_weights num_clusters do_preliminary_clustering r.
Proof.
  intros Data D W inf psort dist avg dflt draw DR sp ob team nt data weights K pre ND LK HK OV r.
  exact (weighted_stuck inf psort dist avg dflt draw DR sp ob team nt data weights K pre r ND LK HK OV).
Qed.

(** and averaging functions that are no means can make the labels alternate for
    ever. *)
Definition swap_distance (a b : bool) : Z := if Bool.eqb a b then 0 else 1.
Definition swap_average (members : list bool) (_ : list Z) : bool := match members with b :: _ => negb b | [] => false end.
Definition in_turn (n : Z) (k : nat) : Z := Z.of_nat k mod n.
Lemma in_turn_range : draws_in_range in_turn.
Proof. intros n k Hn. apply Z.mod_pos_bound, Hn. Qed.
Lemma in_turn_everything : draws_everything in_turn.
Proof. intros n i Hi. exists (Z.to_nat i). unfold in_turn. rewrite Z2Nat.id by lia. apply Z.mod_small, Hi. Qed.
Lemma one_thread_valid n : 0 <= n <= 1000 -> valid_call 1 0 n 1.
Proof. intros H. unfold valid_call, int64_min, int64_max. cbn. repeat split; lia. Qed.
Theorem C60_alternating_labels_refuted :
  forall data_weights spurious omp_in_build r, length data_weights = 2%nat ->
  ~ ClusterWeighted 99 full_sort swap_distance swap_average false in_turn spurious omp_in_build 1 1 [false; true] data_weights 2 false r.
Proof.
  intros weights sp ob r LW C.
  destruct weights as [|w1 [|w2 [|]]]; try discriminate LW.
  assert (V2 := one_thread_valid 2 ltac:(lia)).
  assert (U : forall labels x1 x2 o, labels = [0; 1] \/ labels = [1; 0] -> loop_runs sp ob 1 1 2 x1 -> loop_runs sp ob 1 1 2 x2 ->
    update 99 full_sort swap_distance swap_average false [false; true] [w1; w2] 2 labels x1 x2 = o ->
    exists l', (l' = [0; 1] \/ l' = [1; 0]) /\ o = Ok (false, l')).
  { intros labels x1 x2 o HL X1 X2 <-.
    change (update 99 full_sort swap_distance swap_average false [false; true] [w1; w2] 2 labels x1 x2)
      with (update 99 full_sort swap_distance swap_average false [false; true] [w1; w2] (Z.of_nat 2) labels x1 x2).
    rewrite (update_ok Z.ltb 99 full_sort full_sort_contract swap_distance swap_average false sp ob 1 1 [false; true] [w1; w2] 2 labels x1 x2); try assumption; try lia; try reflexivity.
    - destruct HL as [->| ->].
      + exists [1; 0]. split; [now right|reflexivity].
      + exists [0; 1]. split; [now left|reflexivity].
    - destruct HL as [->| ->]; reflexivity.
    - intros l Hl. destruct HL as [->| ->]; cbn in Hl; lia. }
  assert (N : forall labels r, labels = [0; 1] \/ labels = [1; 0] ->
    ~ converges 99 full_sort swap_distance swap_average false sp ob 1 1 [false; true] [w1; w2] 2 labels r).
  { intros labels r0 HL CV. induction CV as [labels x1 x2 new X1 X2 E|labels x1 x2 new r0 X1 X2 E CV IH|labels x1 x2 o r0 X1 X2 E NO _];
      destruct (U labels x1 x2 _ HL X1 X2 E) as (l' & HL' & E').
    - discriminate E'.
    - injection E' as ->. now apply IH.
    - subst o. rewrite E' in NO. discriminate NO. }
  assert (P : forall centers x, (centers = [false; true] \/ centers = [true; false]) -> loop_runs sp ob 1 1 2 x ->
    exists l, PerformSingleClusteringIteration 99 full_sort swap_distance [false; true] centers x = Ok l /\ (l = [0; 1] \/ l = [1; 0])).
  { intros centers x HC X. rewrite (perform_ok Z.ltb 99 full_sort full_sort_contract swap_distance swap_average sp ob 1 1 [false; true] centers x); [|destruct HC as [->| ->]; discriminate|exact V2|exact X].
    eexists. split; [reflexivity|]. destruct HC as [->| ->]; [now left|now right]. }
  destruct C as [r E|E Ov|r E _ C|k keys s sw labels x centers r E Ep|k keys s sw labels x o r E Ep|k keys s sw o r E Ep|k keys o r E Ep]; try discriminate.
  assert (ENDS : forall k, drawing_ends in_turn 2 2 k -> drawn in_turn 2 k = [1; 0]).
  { intros k [A B]. destruct k as [|[|[|k]]]; [cbn in A; lia|cbn in A; lia|reflexivity|]. specialize (B 2%nat ltac:(lia)). cbn in B. lia. }
  assert (KEYS : forall keys, Permutation keys [1; 0] -> keys = [1; 0] \/ keys = [0; 1]).
  { intros keys Pm. pose proof (Permutation_length Pm) as L. destruct keys as [|a [|b [|]]]; try discriminate L.
    apply Permutation_sym, Permutation_length_2_inv in Pm. exact Pm. }
  destruct C as [k DE|k keys centers r DE _ Pm Ec C|k keys o r DE _ Pm Ec NO _]; [lia| |];
    pose proof (ENDS k DE) as Ek; change (size [false; true]) with 2 in *; rewrite Ek in Pm.
  - assert (HC : centers = [false; true] \/ centers = [true; false]).
    { destruct (KEYS keys Pm) as [->| ->]; cbn in Ec; injection Ec as <-; auto. }
    destruct C as [B|x labels r _ X Ex C|x o r _ X Ex NO _]; [destruct HC as [->| ->]; now cbn in B| |];
      destruct (P centers x HC X) as (l & El & HL); rewrite El in Ex.
    + injection Ex as <-. exact (N l r HL C).
    + subst o. discriminate.
  - destruct (KEYS keys Pm) as [->| ->]; cbn in Ec; subst o; discriminate.
Qed.

(** C60, proved part: with at most as many clusters as data, positive weights,
    exact means (see [exact_means]) and a generator that never stops producing
    some index, K-means has a result; *)
Theorem C60_returns_partial :
  forall (Data D W : Type) (ltb : D -> D -> bool) infinity psort, partial_sort_contract ltb psort ->
  forall (distance_fn : Data -> Data -> D) (weighted_average_fn : list Data -> list W -> Data) weight cost,
  exact_means ltb distance_fn weighted_average_fn weight cost ->
  forall default_data draw, draws_in_range draw -> draws_everything draw ->
  forall spurious omp_in_build team num_threads data data_weights num_clusters do_preliminary_clustering,
  length data_weights = length data -> (forall w, In w data_weights -> (0 < weight w)%R) ->
  1 <= num_clusters <= size data ->
  num_clusters * 5 <= 2147483647 \/ do_preliminary_clustering = false ->
  valid_call num_threads 0 (Z.max num_clusters (size data)) team ->
  exists labels, ClusterWeighted infinity psort distance_fn weighted_average_fn default_data draw spurious omp_in_build team num_threads
    data data_weights num_clusters do_preliminary_clustering (Ok labels).
Proof.
  intros Data D W ltb inf psort PS dist avg weight cost EM dflt draw DR DE sp ob team nt data weights K pre LW WP HK OV V.
  destruct (weighted_exists ltb inf psort PS dist avg dflt draw DR sp ob team nt weight cost EM DE data weights K pre LW WP HK OV V) as [r C].
  destruct (C59_stable_assignment Data D W ltb inf psort PS dist avg dflt draw DR sp ob team nt data weights K pre r LW ltac:(lia) ltac:(tauto) V C) as (labels & -> & _).
  now exists labels.
Qed.

(** and every run of its loop ends: there is a number of passes, which depends on
    the sizes only, that no run without convergence exceeds. *)
Theorem C60_passes_bounded_partial :
  forall (count num_clusters : nat), (0 < num_clusters)%nat -> exists bound,
  forall (Data D W : Type) (ltb : D -> D -> bool) infinity psort, partial_sort_contract ltb psort ->
  forall (distance_fn : Data -> Data -> D) (weighted_average_fn : list Data -> list W -> Data) weight cost,
  exact_means ltb distance_fn weighted_average_fn weight cost ->
  forall default_data spurious omp_in_build team num_threads data data_weights,
  length data = count -> length data_weights = length data -> (forall w, In w data_weights -> (0 < weight w)%R) ->
  valid_call num_threads 0 (Z.of_nat num_clusters) team -> valid_call num_threads 0 (size data) team ->
  forall m labels labels', length labels = length data -> (forall l, In l labels -> 0 <= l < Z.of_nat num_clusters) ->
  passes infinity psort distance_fn weighted_average_fn default_data spurious omp_in_build team num_threads
    data data_weights (Z.of_nat num_clusters) m labels labels' -> (m <= bound)%nat.
Proof.
  intros count n Hn. exists (length (all_labellings n count) * (n + 2) + n + 1)%nat.
  intros Data D W ltb inf psort PS dist avg weight cost EM dflt sp ob team nt data weights <- LW WP Vn Vd m l l' L R P.
  exact (passes_bound ltb inf psort PS dist avg weight cost EM data weights n LW WP Hn dflt sp ob team nt Vn Vd m l l' (conj L R) P).
Qed.

(** C59: four integers, two clusters: from the centres 0 and 1 the labels
    0, 1, 1, 1 become 0, 0, 1, 1 and stay. *)
Definition int_average (members : list Z) (_ : list Z) : Z := fold_right Z.add 0 members / Z.of_nat (length members).
Example C59_nonvacuous :
  partial_sort_contract Z.ltb full_sort /\ draws_in_range in_turn /\ valid_call 1 0 (Z.max 2 4) 1 /\
  ClusterWeighted 999 full_sort (fun a b => Z.abs (a - b)) int_average 0 in_turn false false 1 1 [0; 1; 10; 11] [1; 1; 1; 1] 2 false (Ok [1; 1; 0; 0]).
Proof.
  split; [exact full_sort_contract|]. split; [exact in_turn_range|]. split; [now apply one_thread_valid|].
  apply cw_plain; [reflexivity|reflexivity|].
  refine (plain_runs _ _ _ _ _ _ _ _ _ _ _ _ _ 2 [1; 0] [1; 0] _ _ _ _ _ _); [|lia|reflexivity|reflexivity|].
  { split; [cbn; lia|]. intros j Hj. destruct j as [|[|]]; cbn; lia. }
  destruct (index_loop_exists false false 1 1 2 (one_thread_valid 2 ltac:(lia))) as [x1 X1].
  destruct (index_loop_exists false false 1 1 4 (one_thread_valid 4 ltac:(lia))) as [x2 X2].
  pose (up := update_ok Z.ltb 999 full_sort full_sort_contract (fun a b => Z.abs (a - b)) int_average 0 false false 1 1 [0; 1; 10; 11] [1; 1; 1; 1] 2).
  refine (cluster_labelled _ _ _ _ _ _ _ _ _ _ _ _ _ x2 [1; 0; 0; 0] _ _ _ _ _); [reflexivity|exact X2| |].
  { rewrite (perform_ok Z.ltb 999 full_sort full_sort_contract (fun a b => Z.abs (a - b)) int_average false false 1 1 [0; 1; 10; 11] [1; 0] x2); [reflexivity|discriminate|apply one_thread_valid; cbn; lia|exact X2]. }
  refine (converged_later _ _ _ _ _ _ _ _ _ _ _ _ _ x1 x2 [1; 1; 0; 0] _ _ _ _ _); [exact X1|exact X2| |].
  { change 2 with (Z.of_nat 2). rewrite up; [reflexivity|lia|reflexivity|reflexivity|intros l Hl; cbn in Hl; lia|apply one_thread_valid; cbn; lia|apply one_thread_valid; cbn; lia|exact X1|exact X2]. }
  refine (converged_now _ _ _ _ _ _ _ _ _ _ _ _ _ x1 x2 [1; 1; 0; 0] _ _ _); [exact X1|exact X2|].
  { change 2 with (Z.of_nat 2). rewrite up; [reflexivity|lia|reflexivity|reflexivity|intros l Hl; cbn in Hl; lia|apply one_thread_valid; cbn; lia|apply one_thread_valid; cbn; lia|exact X1|exact X2]. }
Qed.

(** C60: the weighted mean on the real line is exact, and the other hypotheses can
    be met. *)
Lemma r_order : order_laws r_ltb.
Proof.
  constructor; unfold r_ltb.
  - intros a. destruct (Rlt_dec a a); [lra|reflexivity].
  - intros a b c. destruct (Rlt_dec a b), (Rlt_dec b c), (Rlt_dec a c); try discriminate; try reflexivity. lra.
  - intros a b c. destruct (Rlt_dec a b), (Rlt_dec b c), (Rlt_dec a c); try discriminate; try reflexivity. lra.
Qed.
Example C60_nonvacuous :
  partial_sort_contract r_ltb (sort_by r_ltb) /\ exact_means r_ltb r_dist r_mean (fun w => w) (fun a x => ((a - x) * (a - x))%R) /\
  draws_in_range in_turn /\ draws_everything in_turn /\ valid_call 1 0 (Z.max 2 3) 1 /\
  exists labels, ClusterWeighted 0%R (sort_by r_ltb) r_dist r_mean 0%R in_turn false false 1 1 [0; 1; 5]%R [1; 2; 1]%R 2 false (Ok labels).
Proof.
  assert (PS := sort_by_contract r_ltb r_order).
  repeat (split; [first [exact PS|exact r_exact|exact in_turn_range|exact in_turn_everything|apply one_thread_valid; lia]|]).
  apply (C60_returns_partial R R R r_ltb 0%R (sort_by r_ltb) PS r_dist r_mean (fun w => w) _ r_exact 0%R in_turn in_turn_range in_turn_everything); try reflexivity.
  - intros w Hw. cbn in Hw. destruct Hw as [<-|[<-|[<-|[]]]]; lra.
  - cbn. lia.
  - now right.
  - apply one_thread_valid; cbn; lia.
Qed.

Print Assumptions C59_stable_assignment.
Print Assumptions C59_unweighted.
Print Assumptions C59_bad_number_of_clusters.
Print Assumptions C59_preliminary_overflow_refuted.
Print Assumptions C60_terminates_refuted.
Print Assumptions C60_alternating_labels_refuted.
Print Assumptions C60_returns_partial.
Print Assumptions C60_passes_bounded_partial.
