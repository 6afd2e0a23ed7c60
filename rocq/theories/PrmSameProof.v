(** The orders in which parallel loops run do not show in roadmaps (C178). *)
From Coq Require Import Permutation ZifyBool ZifyNat FunctionalExtensionality.
From Verif Require Import Base Effect ParallelismModel ParallelismProof GraphModel GraphSpec GraphProof
  SearchModel SearchSpec KnnModel KnnSpec KnnProof PrmModel PrmSpec PrmProof PrmBuild PrmUpdate PrmQuery PrmPath PrmTriesSpec PrmTriesProof PrmSameSpec.
Local Open Scope Z_scope.

Section S.
Context {V C : Type} (ops : cost_ops C).
Variable knn : @knn_provider V C.
Variable dist : V -> V -> C.
Variable valid : V -> V -> bool.
Hypothesis KNN : knn_truthful knn dist.

Lemma ebind_ext {S A B} (m : eff S A) (f f' : A -> eff S B) s :
  (forall a s', m s = (Ok a, s') -> f a s' = f' a s') -> ebind m f s = ebind m f' s.
Proof. intros H. unfold ebind. destruct (m s) as [[a|e| |] s'] eqn:E; try reflexivity. exact (H a s' eq_refl). Qed.
Lemma ebind_ext2 {S A B} (m m' : eff S A) (f f' : A -> eff S B) s : m s = m' s ->
  (forall a s', f a s' = f' a s') -> ebind m f s = ebind m' f' s.
Proof. intros E H. unfold ebind. rewrite E. destruct (m' s) as [[a|e| |] s']; try reflexivity. apply H. Qed.

Section Orders.
Variables order order' : Z -> Z -> list Z.
Hypothesis ORD : each_once order.
Hypothesis ORD' : each_once order'.

Lemma add_node_order state dir K max symmetric dups g :
  AddNodeToRoadmap ops knn dist valid order graph_roadmap state dir K max symmetric dups g =
  AddNodeToRoadmap ops knn dist valid order' graph_roadmap state dir K max symmetric dups g.
Proof.
  unfold AddNodeToRoadmap. apply ebind_ext. intros g0 s0 E0. injection E0 as <- <-. cbn [rm_view graph_roadmap].
  apply ebind_ext. intros l s1 E1. unfold lift in E1. injection E1 as E <-.
  destruct (if dups then None else find (fun nb => is_zero ops (snd nb)) l) as [nb|]; [reflexivity|].
  destruct (get_nn_ok knn dist valid KNN _ _ _ _ _ _ E) as [_ T].
  cbn [rm_add graph_roadmap AddNodeValue AddNode].
  apply ebind_ext. intros u s2 E2. injection E2 as <- <-.
  apply ebind_ext2; [|reflexivity].
  rewrite (distances_ok ops dist valid g state dir symmetric l); [|intros i d I; apply (T i d I)|apply ORD; lia|apply repeat_length].
  rewrite (distances_ok ops dist valid g state dir symmetric l); [reflexivity|intros i d I; apply (T i d I)|apply ORD'; lia|apply repeat_length].
Qed.

Lemma add_states_order dir K max symmetric dups states : forall g,
  add_states ops knn dist valid order graph_roadmap dir K max symmetric dups states g =
  add_states ops knn dist valid order' graph_roadmap dir K max symmetric dups states g.
Proof.
  induction states as [|s states IH]; intros g; cbn [add_states]; [reflexivity|].
  apply ebind_ext2; [apply add_node_order|]. intros i g'. apply ebind_ext2; [apply IH|]. reflexivity.
Qed.

Lemma query_order lazy pick starts goals K symmetric dups limit fuel g :
  QueryPathAndAddNodes ops knn dist valid order graph_roadmap pick lazy starts goals K symmetric dups limit fuel g =
  QueryPathAndAddNodes ops knn dist valid order' graph_roadmap pick lazy starts goals K symmetric dups limit fuel g.
Proof.
  unfold QueryPathAndAddNodes. destruct starts as [|d starts], goals as [|t goals]; try reflexivity.
  apply ebind_ext2; [reflexivity|]. intros g0 s0. apply ebind_ext2; [apply add_states_order|]. intros si g1.
  apply ebind_ext2; [reflexivity|]. intros g1' s1. apply ebind_ext2; [apply add_states_order|]. reflexivity.
Qed.

Lemma on_fst_ext {S T A} (m m' : eff S A) s : m (fst s) = m' (fst s) -> on_fst (W := T) m s = on_fst m' s.
Proof. destruct s as [a b]. unfold on_fst. cbn [fst]. now intros ->. Qed.

Lemma grow_loop_order {W} (sampling : eff W V) state_valid terminate K symmetric dups fuel : forall st s,
  grow_loop ops knn dist valid order graph_roadmap sampling state_valid terminate K symmetric dups fuel st s =
  grow_loop ops knn dist valid order' graph_roadmap sampling state_valid terminate K symmetric dups fuel st s.
Proof.
  induction fuel as [|fuel IH]; intros st s; cbn [grow_loop]; [reflexivity|].
  apply ebind_ext2; [reflexivity|]. intros s0 sa. apply ebind_ext2; [reflexivity|]. intros fin sb. destruct fin; [reflexivity|].
  apply ebind_ext2; [reflexivity|]. intros sample sc. apply ebind_ext2; [reflexivity|]. intros ok sd. destruct ok; [|apply IH].
  apply ebind_ext2; [reflexivity|]. intros s1 se. apply ebind_ext2; [apply on_fst_ext, add_node_order|].
  intros i sf. apply ebind_ext2; [reflexivity|]. intros s2 sg. destruct (_ <? _); apply IH.
Qed.
End Orders.

Section Build.
Variable symmetric : bool.
Hypothesis SYM : symmetric = true -> symmetric_functions dist valid.
Hypothesis READS : knn_reads_states knn.
Variable vs : list V.
Variable dflt : V.
Notation v i := (nth (Z.to_nat i) vs dflt).
Notation size := (Z.of_nat (length vs)).

Lemma laid_values (ins outs : Z -> list Z) (g : list (GraphNode V C)) : laid dist vs dflt ins outs g -> map value g = vs.
Proof.
  intros L. apply nth_error_ext. intros q. rewrite nth_error_map. pose proof (proj1 L) as SZ. unfold Size in SZ.
  destruct (lt_dec q (length vs)) as [Lq|Lq].
  - destruct (proj2 L (Z.of_nat q)) as [_ Hq]; [lia|]. rewrite Nat2Z.id in Hq. rewrite Hq. cbn [option_map value].
    symmetry. apply nth_error_nth'. exact Lq.
  - assert (X : nth_error g q = None) by (apply nth_error_None; lia). rewrite X. symmetry. apply nth_error_None. lia.
Qed.
Lemma laid_same (ins outs ins' outs' : Z -> list Z) (g g' : list (GraphNode V C)) : laid dist vs dflt ins outs g -> laid dist vs dflt ins' outs' g' ->
  (forall i, 0 <= i < size -> ins i = ins' i /\ outs i = outs' i) -> g = g'.
Proof.
  intros [S N] [S' N'] H. apply nth_error_ext. intros q. unfold Size in *.
  destruct (lt_dec q (length vs)) as [Lq|Lq].
  - destruct (N (Z.of_nat q)) as [_ Hq]; [lia|]. destruct (N' (Z.of_nat q)) as [_ Hq']; [lia|].
    destruct (H (Z.of_nat q)) as [E1 E2]; [lia|]. rewrite E1, E2 in Hq. rewrite Nat2Z.id in Hq, Hq'. now rewrite Hq, Hq'.
  - assert (X : nth_error g q = None) by (apply nth_error_None; lia). assert (X' : nth_error g' q = None) by (apply nth_error_None; lia). congruence.
Qed.

(** The answer of the provider for node [i]. *)
Definition asked K i : outcome (list (Z * C)) :=
  GetKNearestNeighbors knn (as_graph_like (map (fun x => mkNode x [] []) vs)) (v i) (K + 1) RoadmapToNewState size.

Lemma asked_any ins outs g K i : laid dist vs dflt ins outs g ->
  GetKNearestNeighbors knn (as_graph_like g) (v i) (K + 1) RoadmapToNewState (Size g) = asked K i.
Proof.
  intros L. unfold asked, GetKNearestNeighbors. rewrite (proj1 L).
  rewrite (READS g (map (fun x => mkNode x [] []) vs)).
  2: { rewrite (laid_values _ _ _ L), map_map. cbn [value]. now rewrite map_id. }
  destruct (knn _ _ _ _ _) as [l|e| |]; try reflexivity. cbn [bind]. cbn [gl_size as_graph_like].
  rewrite (proj1 L). unfold Size. now rewrite map_length.
Qed.

Lemma connect_forward K : 2 ^ 63 - 1 <=? K = false -> forall items ins outs g,
  (forall i, In i items -> 0 <= i < size) -> (forall i, In i items -> exists l, asked K i = Ok l) ->
  laid dist vs dflt ins outs g ->
  exists g', mfold (connect_item knn dist valid symmetric K) g items = Ok g' /\
    exists ins' outs', laid dist vs dflt ins' outs' g'.
Proof.
  intros HK. induction items as [|i items IH]; intros ins outs g R A L; [exists g; split; [reflexivity|eauto]|].
  cbn [mfold]. pose proof (R i (or_introl eq_refl)) as Ri. unfold connect_item at 1.
  rewrite (proj1 (GetNode_ok _ _ _) (proj2 L i Ri)). cbn [bind value]. rewrite HK.
  destruct (A i (or_introl eq_refl)) as (l & El). rewrite (asked_any _ _ _ _ _ L), El. cbn [bind].
  assert (EL := El). rewrite <- (asked_any _ _ _ _ _ L) in EL.
  destruct (get_nn_ok knn dist valid KNN _ _ _ _ _ _ EL) as [NDl T].
  assert (T' : forall j d, In (j, d) l -> 0 <= j < size /\ d = dist (v j) (v i)).
  { intros j d I. destruct (T j d I) as (Rj & _ & n & Hn & Ed). destruct (laid_node _ _ _ _ _ _ _ _ L Hn) as [Rj' ->]. cbn in Ed. auto. }
  destruct (connect_neighbors dist valid symmetric SYM vs dflt i Ri l ins outs g L T') as (g1 & E1 & L1). rewrite E1. cbn [bind].
  exact (IH _ _ g1 (fun j Hj => R j (or_intror Hj)) (fun j Hj => A j (or_intror Hj)) L1).
Qed.

Lemma connect_order_free K items items' g' : Permutation items items' -> NoDup items -> (forall i, In i items -> 0 <= i < size) ->
  mfold (connect_item knn dist valid symmetric K) (map (fun x => mkNode x [] []) vs) items = Ok g' ->
  mfold (connect_item knn dist valid symmetric K) (map (fun x => mkNode x [] []) vs) items' = Ok g'.
Proof.
  intros P ND R E.
  assert (L0 : laid (C := C) dist vs dflt (fun _ => []) (fun _ => []) (map (fun x => mkNode x [] []) vs)).
  { split; [unfold Size; rewrite map_length; reflexivity|]. intros i Ri. cbn. split; [lia|]. rewrite nth_error_map.
    rewrite (nth_error_nth' vs dflt) by lia. reflexivity. }
  assert (P0 : proper valid vs dflt (fun _ => []) (fun _ => [])).
  { intros i Ri. split; [constructor|]. split; [constructor|]. split; intros j []. }
  assert (R' : forall i, In i items' -> 0 <= i < size) by (intros i I; exact (R i (Permutation_in _ (Permutation_sym P) I))).
  assert (ND' : NoDup items') by exact (Permutation_NoDup P ND).
  assert (VAL : forall gm : list (GraphNode V C), map value gm = vs -> forall i,
    GetKNearestNeighbors knn (as_graph_like gm) (v i) (K + 1) RoadmapToNewState (Size gm) = asked K i).
  { intros gm Hv i. unfold asked, GetKNearestNeighbors.
    assert (SZ : Size gm = size) by (rewrite <- Hv; unfold Size; now rewrite map_length).
    rewrite SZ. rewrite (READS gm (map (fun x => mkNode x [] []) vs)) by (rewrite map_map; cbn [value]; now rewrite map_id).
    destruct (knn _ _ _ _ _) as [l|e| |]; try reflexivity. cbn [bind]. cbn [gl_size as_graph_like]. rewrite SZ.
    unfold Size. now rewrite map_length. }
  destruct (connect_items dist valid symmetric SYM vs dflt knn KNN K items _ _ _ g' ND R L0 P0 (fun i _ => conj eq_refl eq_refl) E)
    as (ins & outs & L1 & _ & KEEP & DONE).
  assert (AK : forall i, In i items -> exists l, asked K i = Ok l).
  { intros i I. destruct (DONE i I) as (gm & l & Hv & El & _). exists l. now rewrite <- (VAL gm Hv). }
  destruct items as [|i0 items0] eqn:Eit.
  { apply Permutation_nil in P. subst items'. exact E. }
  assert (HK : 2 ^ 63 - 1 <=? K = false).
  { cbn [mfold] in E. apply bind_ok in E. destruct E as (g1 & E1 & _). unfold connect_item in E1.
    rewrite (proj1 (GetNode_ok _ _ _) (proj2 L0 i0 (R i0 (or_introl eq_refl)))) in E1. cbn [bind value] in E1.
    destruct (2 ^ 63 - 1 <=? K); [discriminate|reflexivity]. }
  rewrite <- Eit in *. clear Eit.
  destruct (connect_forward K HK items' _ _ _ R' (fun i I => AK i (Permutation_in _ (Permutation_sym P) I)) L0) as (g2 & E2 & _).
  destruct (connect_items dist valid symmetric SYM vs dflt knn KNN K items' _ _ _ g2 ND' R' L0 P0 (fun i _ => conj eq_refl eq_refl) E2)
    as (ins2 & outs2 & L2 & _ & KEEP2 & DONE2).
  rewrite E2. f_equal. symmetry. apply (laid_same _ _ _ _ _ _ L1 L2). intros i _.
  destruct (in_dec Z.eq_dec i items) as [I|N].
  - destruct (DONE i I) as (gm & l & Hv & El & -> & ->). destruct (DONE2 i (Permutation_in _ P I)) as (gm' & l' & Hv' & El' & -> & ->).
    rewrite (VAL gm Hv) in El. rewrite (VAL gm' Hv') in El'. rewrite El in El'. injection El' as <-. auto.
  - assert (N' : ~ In i items') by (intros I; exact (N (Permutation_in _ (Permutation_sym P) I))).
    destruct (KEEP i N) as [-> ->]. destruct (KEEP2 i N') as [-> ->]. auto.
Qed.
End Build.
End S.

Lemma build_order {V C W} (ops : cost_ops C) (sampling : eff W V) state_valid (knn : @knn_provider V C) dist valid search symmetric :
  cost_laws ops -> search_contract ops search ->
  knn_truthful knn dist -> knn_reads_states knn -> (symmetric = true -> symmetric_functions dist valid) ->
  forall sample_order connect_order connect_order' size K tries use_parallel dups w g w',
  Permutation connect_order (seqZ 0 size) -> Permutation connect_order' (seqZ 0 size) ->
  BuildRoadMap ops sampling state_valid knn dist valid search sample_order connect_order size K tries use_parallel symmetric dups w = (Ok g, w') ->
  BuildRoadMap ops sampling state_valid knn dist valid search sample_order connect_order' size K tries use_parallel symmetric dups w = (Ok g, w').
Proof.
  intros LAWS SEARCH KNN READS SYM so co co' size K tries up dups w g w' P P' E. unfold BuildRoadMap in *.
  destruct (Z.ltb_spec size 0); [discriminate|]. destruct (K <? 1); [discriminate|]. destruct (tries <? 1); [discriminate|].
  unfold ebind at 1 in E. unfold ebind at 1.
  destruct (sample_items _ _ _ _ _ _ _ _ _ w) as [[states| | |] w1] eqn:ES; try discriminate.
  unfold ebind, lift in *. destruct (populate states []) as [g0| | |] eqn:EP; try discriminate.
  destruct (mfold (connect_item knn dist valid symmetric K) g0 co) as [g1| | |] eqn:EC; try discriminate.
  destruct (populate_ok _ _ _ EP) as (vs & -> & ->). cbn [app] in EC.
  assert (A0 : all_accepted (fun _ : V => True) (repeat None (Z.to_nat size))) by (intros x Ix; apply repeat_spec in Ix; discriminate).
  destruct (sample_items_accepted ops LAWS sampling state_valid dist search SEARCH (fun _ => True) (fun _ _ _ _ => I) _ _ _ _ _ _ _ ES A0) as [_ LEN].
  rewrite map_length, repeat_length in LEN.
  assert (EC' : mfold (connect_item knn dist valid symmetric K) (map (fun x => mkNode x [] []) vs) co' = Ok g1).
  { destruct vs as [|dflt vs0] eqn:Evs.
    - assert (size = 0) by (cbn in LEN; lia). subst size.
      assert (co = []) as -> by (apply Permutation_sym in P; exact (Permutation_nil P)).
      assert (co' = []) as -> by (apply Permutation_sym in P'; exact (Permutation_nil P')). exact EC.
    - rewrite <- Evs in *. clear Evs vs0.
      apply (connect_order_free knn dist valid KNN symmetric SYM READS vs dflt K co); [exact (Permutation_trans P (Permutation_sym P'))|exact (Permutation_NoDup (Permutation_sym P) (seqZ_NoDup size))| |exact EC].
      intros i I. apply (Permutation_in _ P) in I. apply seqZ_in in I. lia. }
  cbn [app]. rewrite EC'. exact E.
Qed.

Lemma reweighted_same {V C} (wt : V -> V -> C) (g g1 g2 : list (GraphNode V C)) : reweighted wt g g1 -> reweighted wt g g2 -> g1 = g2.
Proof.
  intros [S1 N1] [S2 N2]. cbv zeta in N1, N2. apply nth_error_ext. intros q. unfold Size in *.
  destruct (lt_dec q (length g)) as [L|L].
  - destruct (in_range_node_at g (Z.of_nat q)) as (n & Hn); [unfold Size; lia|].
    destruct (N1 _ _ Hn) as [_ H1]. destruct (N2 _ _ Hn) as [_ H2]. rewrite Nat2Z.id in H1, H2. congruence.
  - assert (X : nth_error g1 q = None) by (apply nth_error_None; lia). assert (X' : nth_error g2 q = None) by (apply nth_error_None; lia). congruence.
Qed.

Lemma update_order {V C} (ops : cost_ops C) dist valid (g : list (GraphNode V C)) items items' :
  Permutation items (seqZ 0 (Size g)) -> Permutation items' (seqZ 0 (Size g)) ->
  UpdateRoadMapEdges ops dist valid items g = UpdateRoadMapEdges ops dist valid items' g.
Proof.
  intros P P'. destruct (CheckGraphLinkage_spec g) as (b & Eb & Hb). destruct b.
  - assert (CG : consistent g) by (apply Hb; reflexivity).
    destruct (update_spec ops dist valid g CG items P) as (g1 & E1 & R1). destruct (update_spec ops dist valid g CG items' P') as (g2 & E2 & R2).
    rewrite E1, E2. f_equal. exact (reweighted_same _ _ _ _ R1 R2).
  - assert (NC : ~ consistent g) by (intros H; apply Hb in H; discriminate). now rewrite !update_rejects.
Qed.

(** The library's provider. *)
Lemma store_reads {Item C} (items items' : list Item) (d d' : Item -> C) : map d items = map d' items' ->
  forall rs is v, (forall i, In i is -> 0 <= i) -> mfold (store_entry items d rs) v is = mfold (store_entry items' d' rs) v is.
Proof.
  intros E rs is v R. revert v. induction is as [|i is IH]; intros v; [reflexivity|]. cbn [mfold].
  assert (S : store_entry items d rs v i = store_entry items' d' rs v i).
  { unfold store_entry, raw_get. pose proof (f_equal (fun l => nth_error l (Z.to_nat i)) E) as H. cbv beta in H. rewrite !nth_error_map in H.
    destruct (nth_error items (Z.to_nat i)), (nth_error items' (Z.to_nat i)); try discriminate H; cbn [option_map bind] in *; [|reflexivity].
    injection H as ->. reflexivity. }
  rewrite S. destruct (store_entry items' d' rs v i); try reflexivity. cbn [bind]. apply IH. intros j Hj. apply R. now right.
Qed.
Lemma serial_reads {Item C} infinity (items items' : list Item) (d d' : Item -> C) psort K : map d items = map d' items' ->
  GetKNearestNeighborsInRangeSerial infinity items d psort 0 (Z.of_nat (length items)) K =
  GetKNearestNeighborsInRangeSerial infinity items' d' psort 0 (Z.of_nat (length items')) K.
Proof.
  intros E. assert (L : length items' = length items) by (apply (f_equal (@length _)) in E; rewrite !map_length in E; congruence).
  unfold GetKNearestNeighborsInRangeSerial. rewrite L.
  rewrite !(store_reads items items' d d' E) by (intros i I; apply seqZ_in in I; lia). reflexivity.
Qed.
Lemma read_nodes_values {V C} (g g' : list (GraphNode V C)) : map value g = map value g' -> forall is,
  match read_nodes (as_graph_like g) is, read_nodes (as_graph_like g') is with
  | Ok l, Ok l' => map value l = map value l'
  | Throw e, Throw e' => e = e'
  | UB, UB | Diverge, Diverge => True
  | _, _ => False
  end.
Proof.
  intros E. induction is as [|i is IH]; [reflexivity|]. cbn [read_nodes gl_get as_graph_like].
  unfold GetNode. destruct (i <? 0); [reflexivity|]. unfold at_get.
  pose proof (f_equal (fun l => nth_error l (Z.to_nat i)) E) as H. cbv beta in H. rewrite !nth_error_map in H.
  destruct (nth_error g (Z.to_nat i)) as [n|], (nth_error g' (Z.to_nat i)) as [n'|]; try discriminate H; cbn [bind]; [|reflexivity].
  cbn [option_map] in H. injection H as H.
  destruct (read_nodes (as_graph_like g) is) as [l|e| |], (read_nodes (as_graph_like g') is) as [l'|e'| |]; try contradiction; cbn [bind]; try assumption.
  cbn [map]. now rewrite H, IH.
Qed.
Lemma library_reads {V C} infinity psort (dist : V -> V -> C) :
  knn_reads_states (LinearGraphKNN (fun nodes d K => GetKNearestNeighborsInRangeSerial infinity nodes d psort 0 (Z.of_nat (length nodes)) K) dist).
Proof.
  intros g g' state K dir max E. unfold LinearGraphKNN.
  assert (S : gl_size (as_graph_like g') = gl_size (as_graph_like g)).
  { cbn. unfold Size. apply (f_equal (@length _)) in E. rewrite !map_length in E. now rewrite E. }
  rewrite S. destruct (_ <? max); [reflexivity|]. destruct (max <? 0); [reflexivity|].
  pose proof (read_nodes_values g g' E (seqZ 0 max)) as R.
  destruct (read_nodes (as_graph_like g) (seqZ 0 max)) as [l|e| |], (read_nodes (as_graph_like g') (seqZ 0 max)) as [l'|e'| |]; try contradiction; cbn [bind]; try reflexivity; [|now subst].
  apply serial_reads. destruct dir.
  - change (map (fun n => dist (value n) state) l = map (fun n => dist (value n) state) l').
    rewrite <- (map_map value (fun x => dist x state) l), <- (map_map value (fun x => dist x state) l'). now rewrite R.
  - change (map (fun n => dist state (value n)) l = map (fun n => dist state (value n)) l').
    rewrite <- (map_map value (fun x => dist state x) l), <- (map_map value (fun x => dist state x) l'). now rewrite R.
Qed.
