(** Paths answered to roadmap queries (C86) and the library's nearest neighbors. *)
From Verif Require Import Base Effect GraphModel GraphSpec GraphProof SearchModel SearchSpec SearchProof SearchProof4
  KnnModel KnnSpec KnnProof ParallelismModel PrmModel PrmSpec PrmProof.
From Coq Require Import Permutation.
Local Open Scope Z_scope.

Section P.
Context {V C : Type} (ops : cost_ops C).
Variable knn : @knn_provider V C.
Variable dist : V -> V -> C.
Variable valid : V -> V -> bool.
Variable order : Z -> Z -> list Z.
Hypothesis ORD : each_once order.
Hypothesis KNN : knn_truthful knn dist.
Variables symmetric dups : bool.

(** [g'] keeps the states of [g]. *)
Definition keeps (g g' : list (GraphNode V C)) : Prop :=
  forall i n, node_at g i n -> exists n', node_at g' i n' /\ value n' = value n.
Lemma keeps_refl g : keeps g g.
Proof. intros i n H. eauto. Qed.
Lemma keeps_trans g1 g2 g3 : keeps g1 g2 -> keeps g2 g3 -> keeps g1 g3.
Proof. intros A B i n H. destruct (A i n H) as (n2 & H2 & E2). destruct (B i n2 H2) as (n3 & H3 & E3). exists n3. split; [exact H3|congruence]. Qed.

Definition stands dir (state v : V) : Prop :=
  v = state \/ (dups = false /\ is_zero ops (distance_towards dist dir state v) = true).

Lemma add_node_any g state dir K max i g' :
  AddNodeToRoadmap ops knn dist valid order graph_roadmap state dir K max symmetric dups g = (Ok i, g') ->
  keeps g g' /\ (linked g -> linked g') /\ exists n, node_at g' i n /\ stands dir state (value n).
Proof.
  intros E. destruct (GetKNearestNeighbors knn (as_graph_like g) state K dir max) as [l|x| |] eqn:EK.
  2-4: exfalso; revert E; unfold AddNodeToRoadmap, ebind, get, lift; cbn [rm_view graph_roadmap]; rewrite EK; discriminate.
  pose proof (get_nn_ok knn dist valid KNN _ _ _ _ _ _ EK) as [ND T].
  destruct (add_node_exact ops knn dist valid order ORD KNN g state dir K max symmetric dups l EK) as (i' & g2 & E2 & H). rewrite E2 in E.
  injection E as -> ->. destruct H as [(D & -> & d & I & Z0)|(D & -> & P)].
  - split; [apply keeps_refl|]. split; [auto|]. destruct (T i d I) as (_ & _ & n & Hn & ->). exists n. split; [exact Hn|]. right. auto.
  - destruct P as [S N]. split; [|split].
    + intros j n Hn. eexists. split; [apply N, node_at_snoc; left; exact Hn|]. reflexivity.
    + intros L. eapply plus_linked; [exact (linked_add_node g state L)|split; [exact S|exact N]|].
      intros e Ie. apply in_flat_map in Ie. destruct Ie as ([j d] & Ij & Ie). destruct (T j d Ij) as (R & _).
      cbn [AddNodeValue AddNode snd]. unfold Size at 1 2. rewrite app_length. cbn [length]. rewrite Nat2Z.inj_add. change (Z.of_nat 1) with 1. fold (Size g).
      unfold pair_edges in Ie. apply in_app_iff in Ie. cbn [fst] in Ie. destruct Ie as [Ie|Ie].
      * destruct (fst (pair_for _ _ _ _ _ _ _)) as [c|] in Ie; [|destruct Ie]. destruct (cgeb _ _ _) in Ie; [|destruct Ie].
        destruct Ie as [<-|[]]. cbn. lia.
      * destruct (snd (pair_for _ _ _ _ _ _ _)) as [c|] in Ie; [|destruct Ie]. destruct (cgeb _ _ _) in Ie; [|destruct Ie].
        destruct Ie as [<-|[]]. cbn. lia.
    + eexists. split; [apply N, node_at_snoc; right; split; reflexivity|]. left. reflexivity.
Qed.

Lemma add_states_any dir K max : forall states g is g',
  add_states ops knn dist valid order graph_roadmap dir K max symmetric dups states g = (Ok is, g') ->
  keeps g g' /\ (linked g -> linked g') /\
  forall i, In i is -> exists s n, In s states /\ node_at g' i n /\ stands dir s (value n).
Proof.
  induction states as [|s states IH]; intros g is g' E.
  - cbn in E. injection E as <- <-. split; [apply keeps_refl|]. split; [auto|]. intros i [].
  - cbn [add_states] in E. unfold ebind at 1 in E.
    destruct (AddNodeToRoadmap _ _ _ _ _ _ _ _ _ _ _ _ g) as [[i|x| |] g1] eqn:E1; try discriminate.
    unfold ebind at 1 in E. destruct (add_states _ _ _ _ _ _ _ _ _ _ _ states g1) as [[js|x| |] g2] eqn:E2; try discriminate.
    injection E as <- <-. destruct (add_node_any _ _ _ _ _ _ _ E1) as (K1 & L1 & n & Hn & Sn).
    destruct (IH _ _ _ E2) as (K2 & L2 & H2). split; [exact (keeps_trans _ _ _ K1 K2)|]. split; [auto|].
    intros k [<-|Ik].
    + destruct (K2 i n Hn) as (n' & Hn' & En'). exists s, n'. split; [left; reflexivity|]. split; [exact Hn'|]. rewrite En'. exact Sn.
    + destruct (H2 k Ik) as (s' & n' & A & B & D). exists s', n'. split; [right; exact A|auto].
Qed.

(** States along a list of nodes. *)
Lemma path_states_ok (g : list (GraphNode V C)) : forall path vs, path_states (as_graph_like g) path = Ok vs ->
  Forall2 (fun i v => exists n, node_at g i n /\ value n = v) path vs.
Proof.
  induction path as [|i path IH]; intros vs E; cbn in E; [injection E as <-; constructor|].
  apply bind_ok in E. destruct E as (n & En & E). apply bind_ok in E. destruct E as (vs' & E' & E). injection E as <-.
  constructor; [|exact (IH _ E')]. exists n. split; [apply GetNode_ok; exact En|reflexivity].
Qed.

Lemma walk_states (g : list (GraphNode V C)) (step : Z -> Z -> C -> Prop) : 
  (forall i j w ni nj, step i j w -> node_at g i ni -> node_at g j nj -> valid (value ni) (value nj) = true /\ w = dist (value ni) (value nj)) ->
  forall s c l t d, walk ops step s c l t d ->
  forall vs, Forall2 (fun i v => exists n, node_at g i n /\ value n = v) l vs ->
  valid_steps valid vs /\ states_cost ops dist c vs = d /\
  (exists n r, node_at g s n /\ vs = value n :: r) /\ (exists n r, node_at g t n /\ vs = r ++ [value n]).
Proof.
  intros ST s c l t d W. induction W as [s c|s c m w l t d Hs Hw IH]; intros vs F.
  - inversion F as [|? v ? r (n & Hn & <-) F' ]; subst. inversion F'; subst. split.
    + intros l1 a b l2 E. destruct l1 as [|? [|? ?]]; discriminate.
    + split; [reflexivity|]. split; [exists n, []; auto|exists n, []; auto].
  - inversion F as [|? v ? r (n & Hn & <-) F' ]; subst. destruct (IH r F') as (A & B & (nm & rm & Hm & ->) & (nt & rt & Ht & E)).
    destruct (ST _ _ _ _ _ Hs Hn Hm) as [Vs ->]. split; [|split; [|split]].
    + intros l1 a b l2 El. destruct l1 as [|x l1]; cbn in El; [injection El as <- <- _; exact Vs|]. injection El as _ El. exact (A l1 a b l2 El).
    + exact B.
    + eauto.
    + exists nt, (value n :: rt). split; [exact Ht|]. rewrite E. reflexivity.
Qed.

Hypothesis LAWS : cost_laws ops.
Hypothesis NONNEG : forall a b, cle ops (czero ops) (dist a b).

(** The outcome of a query. *)
Definition answered (starts goals path : list V) (c : C) : Prop :=
  (path = [] /\ c = cinf ops) \/
  (clt ops c (cinf ops) /\ valid_steps valid path /\ cle ops (states_cost ops dist (czero ops) path) c /\
   (exists s v r, In s starts /\ path = v :: r /\ stands_for_start ops dist dups s v) /\
   (exists t v r, In t goals /\ path = r ++ [v] /\ stands_for_goal ops dist dups t v)).

(** From the search to the answer. *)
Lemma answer_of g usable distance heuristic starts goals zs zt limit pick fuel result path c :
  valid_pick ops (@el_value Z C) pick ->
  (forall i n e, node_at g i n -> In e (out_edges n) -> usable e = true -> cle ops (czero ops) (distance e)) ->
  (forall i ni e j nj, node_at g i ni -> In e (out_edges ni) -> usable e = true -> to_index e = j -> node_at g j nj ->
     valid (value ni) (value nj) = true /\ distance e = dist (value ni) (value nj)) ->
  (forall i, In i zs -> exists s n, In s starts /\ node_at g i n /\ stands NewStateToRoadmap s (value n)) ->
  (forall i, In i zt -> exists s n, In s goals /\ node_at g i n /\ stands RoadmapToNewState s (value n)) ->
  PerformLazyAstarSearch ops (as_graph_like g) zs zt usable distance heuristic limit pick fuel = Ok result ->
  ExtractSolution ops (as_graph_like g) result = Ok (path, c) ->
  answered starts goals path c.
Proof.
  intros VP NN ST HS HT ER EX. destruct result as [zpath zc]. unfold ExtractSolution in EX. cbn [fst snd] in EX.
  apply bind_ok in EX. destruct EX as (vs & Evs & EM).
  destruct (lazy_real ops LAWS g (as_graph_like g) (conj eq_refl (fun i => eq_refl)) usable distance heuristic zs zt limit pick VP NN fuel zpath zc ER) as (_ & H).
  apply path_states_ok in Evs. destruct H as [[-> ->]|(NE & FIN & (d & (s & t & Is & It & W) & LE) & _)].
  - inversion Evs; subst. cbn in EM. injection EM as <- <-. left. auto.
  - right. assert (c = zc /\ path = vs) as [-> ->].
    { unfold MakeAstarResult in EM. destruct vs; [|destruct (cisinf ops zc); [discriminate|]]; injection EM as <- <-; auto. }
    destruct (walk_states g (allowed_step g usable distance)) with (s := s) (c := czero ops) (l := zpath) (t := t) (d := d) (vs := vs)
      as (A & B & (n & r & Hn & E1) & (nt & rt & Ht & E2)).
    { intros i j w ni nj (n & e & Hn & He & Hu & Hto & Hw) Hi Hj. rewrite <- (node_at_fun _ _ _ _ Hn Hi) in *. rewrite <- Hw.
      exact (ST i n e j nj Hn He Hu Hto Hj). }
    { exact W. }
    { exact Evs. }
    split; [exact FIN|]. split; [exact A|]. split; [rewrite B; exact LE|]. split.
    + destruct (HS s Is) as (s0 & n0 & I0 & H0 & St). exists s0, (value n), r. split; [exact I0|]. split; [exact E1|].
      rewrite <- (node_at_fun _ _ _ _ H0 Hn). exact St.
    + destruct (HT t It) as (s0 & n0 & I0 & H0 & St). exists s0, (value nt), rt. split; [exact I0|]. split; [exact E2|].
      rewrite <- (node_at_fun _ _ _ _ H0 Ht). exact St.
Qed.

Lemma query_lazy pick starts goals K limit fuel g path c g' : linked g -> valid_pick ops (@el_value Z C) pick ->
  QueryPathAndAddNodes ops knn dist valid order graph_roadmap pick true starts goals K symmetric dups limit fuel g = (Ok (path, c), g') ->
  answered starts goals path c.
Proof.
  intros L VP E. unfold QueryPathAndAddNodes in E. destruct starts as [|s starts]; [discriminate|]. destruct goals as [|t goals]; [discriminate|].
  unfold ebind at 1, get in E. cbv iota beta in E. unfold ebind at 1 in E.
  destruct (add_states _ _ _ _ _ _ NewStateToRoadmap _ _ _ _ _ g) as [[zs|x| |] g1] eqn:E1; try discriminate.
  unfold ebind at 1 in E. cbv iota beta in E. unfold ebind at 1 in E.
  destruct (add_states _ _ _ _ _ _ RoadmapToNewState _ _ _ _ _ g1) as [[zt|x| |] g2] eqn:E2; try discriminate.
  unfold ebind at 1 in E. cbv iota beta in E. unfold ebind, lift in E. cbn [rm_view graph_roadmap] in E.
  destruct (PerformLazyAstarSearchValues _ _ _ _ _ _ _ _ _ _ _) as [result|x| |] eqn:E3; try discriminate.
  destruct (ExtractSolution _ _ _) as [[p c']|x| |] eqn:E4; try discriminate. injection E as <- <- _.
  destruct (add_states_any _ _ _ _ _ _ _ E1) as (K1 & L1 & H1). destruct (add_states_any _ _ _ _ _ _ _ E2) as (K2 & L2 & H2).
  specialize (L2 (L1 L)). unfold PerformLazyAstarSearchValues in E3.
  assert (NV : forall i n, node_at g2 i n -> node_value (as_graph_like g2) s i = value n).
  { intros i n Hn. unfold node_value. cbn [as_graph_like gl_get]. rewrite (proj1 (GetNode_ok g2 i n) Hn). reflexivity. }
  destruct L2 as (OUT & _ & _).
  eapply answer_of; [exact VP| | | |exact H2|exact E3|exact E4].
  - intros i n e Hn He _. apply NONNEG.
  - intros i ni e j nj Hi He Hu Hto Hj. cbn beta in Hu |- *. destruct (OUT i ni e Hi He) as (Fi & _). rewrite Fi, Hto in *.
    rewrite (NV _ _ Hi), (NV _ _ Hj) in *. auto.
  - intros i Ii. destruct (H1 i Ii) as (s0 & n & I0 & Hn & St). destruct (K2 i n Hn) as (n' & Hn' & En'). exists s0, n'.
    split; [exact I0|]. split; [exact Hn'|]. rewrite En'. exact St.
Qed.

(** Without the lazy check the roadmap has to hold good edges. *)
Hypothesis SYMF : symmetric_functions dist valid.

Lemma good_grows g g' : good_graph dist valid g -> grows_with (good_edge dist valid g') g g' -> good_graph dist valid g'.
Proof.
  intros GG GR. pose proof GR as [A B]. intros i n' e Hn' He.
  destruct (Z.lt_ge_cases i (Size g)) as [Li|Li].
  - pose proof (node_at_range _ _ _ Hn') as R. destruct (in_range_node_at g i) as (n & Hn); [lia|].
    destruct (A i n Hn) as (m & ins & outs & Hm & _ & E1 & E2 & F1 & F2). rewrite (node_at_fun _ _ _ _ Hn' Hm) in He. rewrite E1, E2 in He.
    rewrite !in_app_iff in He. rewrite Forall_forall in F1, F2.
    destruct He as [[He|He]|[He|He]]; [|exact (F1 e He)| |exact (F2 e He)];
      apply (good_edge_grows dist valid _ g g' e GR), (GG i n e Hn); auto.
  - destruct (B i n' Hn' Li) as [F1 F2]. rewrite Forall_forall in F1, F2. destruct He as [He|He]; auto.
Qed.

Lemma add_states_good dir K max : forall states g is g',
  add_states ops knn dist valid order graph_roadmap dir K max symmetric dups states g = (Ok is, g') ->
  good_graph dist valid g -> good_graph dist valid g'.
Proof.
  induction states as [|s states IH]; intros g is g' E GG.
  - cbn in E. injection E as _ <-. exact GG.
  - cbn [add_states] in E. unfold ebind at 1 in E.
    destruct (AddNodeToRoadmap _ _ _ _ _ _ _ _ _ _ _ _ g) as [[i|x| |] g1] eqn:E1; try discriminate.
    unfold ebind at 1 in E. destruct (add_states _ _ _ _ _ _ _ _ _ _ _ states g1) as [[js|x| |] g2] eqn:E2; try discriminate.
    injection E as _ <-. apply (IH _ _ _ E2).
    destruct (add_node_grows ops knn dist valid order ORD KNN symmetric (fun _ => SYMF) g s dir K max dups _ _ (or_intror SYMF) E1) as (GR & _).
    exact (good_grows _ _ GG GR).
Qed.

Lemma query_stored pick starts goals K limit fuel g path c g' : linked g -> good_graph dist valid g -> valid_pick ops (@el_value Z C) pick ->
  QueryPathAndAddNodes ops knn dist valid order graph_roadmap pick false starts goals K symmetric dups limit fuel g = (Ok (path, c), g') ->
  answered starts goals path c.
Proof.
  intros L GG VP E. unfold QueryPathAndAddNodes in E. destruct starts as [|s starts]; [discriminate|]. destruct goals as [|t goals]; [discriminate|].
  unfold ebind at 1, get in E. cbv iota beta in E. unfold ebind at 1 in E.
  destruct (add_states _ _ _ _ _ _ NewStateToRoadmap _ _ _ _ _ g) as [[zs|x| |] g1] eqn:E1; try discriminate.
  unfold ebind at 1 in E. cbv iota beta in E. unfold ebind at 1 in E.
  destruct (add_states _ _ _ _ _ _ RoadmapToNewState _ _ _ _ _ g1) as [[zt|x| |] g2] eqn:E2; try discriminate.
  unfold ebind at 1 in E. cbv iota beta in E. unfold ebind, lift in E. cbn [rm_view graph_roadmap] in E.
  destruct (PerformGraphAstarSearch _ _ _ _ _ _ _ _ _) as [result|x| |] eqn:E3; try discriminate.
  destruct (ExtractSolution _ _ _) as [[p c']|x| |] eqn:E4; try discriminate. injection E as <- <- _.
  destruct (add_states_any _ _ _ _ _ _ _ E1) as (K1 & L1 & H1). destruct (add_states_any _ _ _ _ _ _ _ E2) as (K2 & L2 & H2).
  pose proof (add_states_good _ _ _ _ _ _ _ E2 (add_states_good _ _ _ _ _ _ _ E1 GG)) as GG2.
  specialize (L2 (L1 L)). unfold PerformGraphAstarSearch in E3. destruct L2 as (OUT & _ & _).
  eapply answer_of; [exact VP| | | |exact H2|exact E3|exact E4].
  - intros i n e Hn He _. destruct (GG2 i n e Hn (or_intror He)) as (a & b & _ & _ & _ & ->). apply NONNEG.
  - intros i ni e j nj Hi He Hu Hto Hj. destruct (OUT i ni e Hi He) as (Fi & _). 
    destruct (GG2 i ni e Hi (or_intror He)) as (a & b & Ha & Hb & Vab & Wab). rewrite Fi in Ha. rewrite Hto in Hb.
    rewrite (node_at_fun _ _ _ _ Hi Ha), (node_at_fun _ _ _ _ Hj Hb). auto.
  - intros i Ii. destruct (H1 i Ii) as (s0 & n & I0 & Hn & St). destruct (K2 i n Hn) as (n' & Hn' & En'). exists s0, n'.
    split; [exact I0|]. split; [exact Hn'|]. rewrite En'. exact St.
Qed.
End P.

(** The library's provider of nearest neighbors. *)
Lemma read_nodes_ok {V C} (g : list (GraphNode V C)) : forall l ns, read_nodes (as_graph_like g) l = Ok ns ->
  Forall2 (fun i n => node_at g i n) l ns.
Proof.
  induction l as [|i l IH]; intros ns E; cbn in E; [injection E as <-; constructor|].
  apply bind_ok in E. destruct E as (n & En & E). apply bind_ok in E. destruct E as (vs' & E' & E). injection E as <-.
  constructor; [apply GetNode_ok; exact En|exact (IH _ E')].
Qed.

Lemma serial_is_search {Item C} (ops : cost_ops C) infinity psort : partial_sort_contract (cltb ops) psort ->
  search_contract ops (fun (items : list Item) d K => GetKNearestNeighborsInRangeSerial infinity items d psort 0 (Z.of_nat (length items)) K).
Proof. intros PS items d K HK. apply (KnnProof.serial_nearest (cltb ops) infinity items d psort PS); lia. Qed.

Lemma library_truthful {V C} (ltb : C -> C -> bool) infinity psort (dist : V -> V -> C) : partial_sort_contract ltb psort ->
  knn_truthful (LinearGraphKNN (fun nodes d K => GetKNearestNeighborsInRangeSerial infinity nodes d psort 0 (Z.of_nat (length nodes)) K) dist) dist.
Proof.
  intros PS g state K dir max l E. unfold LinearGraphKNN in E.
  destruct (gl_size _ <? max); [discriminate|]. destruct (max <? 0); [discriminate|].
  apply bind_ok in E. destruct E as (ns & En & E). apply read_nodes_ok in En.
  destruct (Z.lt_ge_cases K 0) as [NK|NK].
  { rewrite (KnnProof.serial_rejects infinity ns _ psort) in E by lia. discriminate. }
  destruct (KnnProof.serial_nearest ltb infinity ns (fun n => match dir with RoadmapToNewState => dist (value n) state | NewStateToRoadmap => dist state (value n) end)
     psort PS 0 (Z.of_nat (length ns)) K) as (sel & E' & [_ ND TR _ _]); [lia..|].
  rewrite E' in E. injection E as ->. split; [exact ND|]. intros i d I. destruct (TR i d I) as (R & n & Hn & ->).
  exists n. split; [|destruct dir; reflexivity].
  assert (X : forall l ns, Forall2 (fun i n => node_at g i n) l ns -> forall k n, nth_error ns k = Some n -> exists j, nth_error l k = Some j /\ node_at g j n).
  { clear. induction 1 as [|j m l ns Hj F IH]; intros k n E; destruct k; try discriminate; cbn in E |- *; [injection E as <-; eauto|eauto]. }
  destruct (X _ _ En _ _ Hn) as (j & Ej & Hj).
  assert (j = i); [|congruence].
  assert (Lk : (Z.to_nat i < Z.to_nat max)%nat) by (rewrite <- (seqZ_len max); apply nth_error_Some; congruence).
  rewrite (seqZ_nth max _ Lk) in Ej. injection Ej as <-. lia.
Qed.
