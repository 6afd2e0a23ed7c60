(** Proofs about graphs: construction, linkage check, overlay (C12, C13, C15). *)
From Verif Require Import Base GraphModel GraphSpec ParallelismModel ParallelismProof.
From Coq Require Import Permutation ZifyBool ZifyNat.
Local Open Scope Z_scope.

Section Basics.
Context {V W : Type}.
Implicit Types (g : list (GraphNode V W)) (n m : GraphNode V W) (e : GraphEdge W).

Lemma GetNode_ok g i n : node_at g i n <-> GetNode g i = Ok n.
Proof.
  unfold node_at, GetNode, at_get. destruct (Z.ltb_spec i 0); [split; [lia|discriminate]|].
  destruct (nth_error g (Z.to_nat i)); split; intros E; try discriminate.
  - destruct E as [_ E]. injection E as ->. reflexivity.
  - injection E as ->. split; [lia|reflexivity].
  - destruct E. discriminate.
Qed.

Lemma node_at_range g i n : node_at g i n -> 0 <= i < Size g.
Proof.
  intros [H E]. split; [exact H|]. unfold Size.
  assert (Z.to_nat i < length g)%nat by (apply nth_error_Some; congruence). lia.
Qed.

Lemma in_range_node_at g i : 0 <= i < Size g -> exists n, node_at g i n.
Proof.
  intros [H1 H2]. unfold Size in H2. destruct (nth_error g (Z.to_nat i)) as [n|] eqn:E.
  - exists n. split; [exact H1|exact E].
  - apply nth_error_None in E. lia.
Qed.

Lemma node_at_fun g i n m : node_at g i n -> node_at g i m -> n = m.
Proof. intros [_ E1] [_ E2]. congruence. Qed.

Lemma GetNode_cases g i :
  (exists n, node_at g i n /\ GetNode g i = Ok n) \/
  (~ (0 <= i < Size g) /\ GetNode g i = Throw OutOfRange).
Proof.
  destruct (Z_lt_le_dec i 0) as [L|L].
  - right. split; [lia|]. unfold GetNode. destruct (Z.ltb_spec i 0); [reflexivity|lia].
  - destruct (Z_lt_le_dec i (Size g)) as [L2|L2].
    + destruct (in_range_node_at g i (conj L L2)) as (n & Hn). left. exists n.
      split; [exact Hn|apply GetNode_ok; exact Hn].
    + right. split; [lia|]. unfold GetNode, at_get. destruct (Z.ltb_spec i 0); [lia|].
      unfold Size in L2. assert (E : nth_error g (Z.to_nat i) = None) by (apply nth_error_None; lia).
      rewrite E. reflexivity.
Qed.

Lemma node_at_upd g i j n m : 0 <= i ->
  node_at (upd g (Z.to_nat i) n) j m <->
  (j = i /\ i < Size g /\ m = n) \/ (j <> i /\ node_at g j m).
Proof.
  intros Hi. unfold node_at. rewrite nth_error_upd. unfold Size.
  destruct (Nat.eq_dec (Z.to_nat i) (Z.to_nat j)) as [E|E].
  - destruct (lt_dec (Z.to_nat i) (length g)) as [L|L].
    + split.
      * intros [H1 H2]. left. injection H2 as <-. repeat split; lia.
      * intros [(-> & H1 & ->)|(H1 & H2 & H3)]; [split; [lia|reflexivity]|lia].
    + split; [intros [_ ?]; discriminate|]. intros [(-> & H1 & ->)|(H1 & H2 & H3)]; lia.
  - split; [intros H; right; split; [intros ->; lia|exact H]|].
    intros [(-> & H1 & ->)|(H1 & H2)]; [lia|exact H2].
Qed.

Lemma UpdateNode_ok g i n f : node_at g i n ->
  UpdateNode g i f = Ok (upd g (Z.to_nat i) (f n)).
Proof.
  intros H. unfold UpdateNode. rewrite (proj1 (GetNode_ok g i n) H). simpl.
  unfold at_set. apply node_at_range in H. unfold Size in H.
  rewrite set_nth_upd by lia. reflexivity.
Qed.

Lemma Size_upd g i n : Size (upd g i n) = Size g.
Proof. unfold Size. rewrite upd_length. reflexivity. Qed.

(** ** Effect of adding an edge *)

Lemma AddEdge_cases g a b w :
  (exists na nb, node_at g a na /\ node_at g b nb /\ a <> b /\
     AddEdgeBetweenNodes g a b w =
     Ok (upd (upd g (Z.to_nat a) (AddOutEdge na (mkEdge a b w 0%N))) (Z.to_nat b)
             (AddInEdge nb (mkEdge a b w 0%N)))) \/
  (exists x, AddEdgeBetweenNodes g a b w = Throw x /\
     ~ (0 <= a < Size g /\ 0 <= b < Size g /\ a <> b)).
Proof.
  unfold AddEdgeBetweenNodes.
  destruct (GetNode_cases g a) as [(na & Ha & Ea)|[Ha Ea]]; rewrite Ea; simpl.
  2:{ right. eexists. split; [reflexivity|tauto]. }
  destruct (GetNode_cases g b) as [(nb & Hb & Eb)|[Hb Eb]]; rewrite Eb; simpl.
  2:{ right. eexists. split; [reflexivity|tauto]. }
  destruct (Z.eqb_spec a b) as [E|E].
  - right. eexists. split; [reflexivity|tauto].
  - left. exists na, nb. split; [exact Ha|]. split; [exact Hb|]. split; [exact E|].
    rewrite (UpdateNode_ok g a na) by exact Ha. simpl.
    rewrite (UpdateNode_ok _ b nb); [reflexivity|].
    apply node_at_upd; [apply Ha|]. right. split; [congruence|exact Hb].
Qed.

Definition with_edge (e : GraphEdge W) (i : Z) n : GraphNode V W :=
  mkNode (value n) (in_edges n ++ (if i =? to_index e then [e] else []))
                   (out_edges n ++ (if i =? from_index e then [e] else [])).

Lemma AddEdge_nodes g a b w g' :
  AddEdgeBetweenNodes g a b w = Ok g' ->
  0 <= a < Size g /\ 0 <= b < Size g /\ a <> b /\ Size g' = Size g /\
  forall i n', node_at g' i n' <->
    exists n, node_at g i n /\ n' = with_edge (mkEdge a b w 0%N) i n.
Proof.
  intros E. destruct (AddEdge_cases g a b w) as [(na & nb & Ha & Hb & Hne & Eg)|(x & Ex & _)];
    [|congruence].
  rewrite Eg in E. injection E as <-.
  pose proof (node_at_range _ _ _ Ha). pose proof (node_at_range _ _ _ Hb).
  split; [assumption|]. split; [assumption|]. split; [assumption|].
  split; [rewrite !Size_upd; reflexivity|].
  intros i n'. rewrite node_at_upd by lia. rewrite Size_upd.
  rewrite node_at_upd by lia. unfold with_edge. simpl. split.
  - intros [(-> & _ & ->)|(Hib & [(-> & _ & ->)|(Hia & Hn)])].
    + exists nb. split; [exact Hb|]. rewrite Z.eqb_refl.
      destruct (Z.eqb_spec b a); [congruence|]. rewrite app_nil_r. reflexivity.
    + exists na. split; [exact Ha|]. rewrite Z.eqb_refl.
      destruct (Z.eqb_spec a b); [congruence|]. rewrite app_nil_r. reflexivity.
    + exists n'. split; [exact Hn|]. destruct (Z.eqb_spec i a); [congruence|].
      destruct (Z.eqb_spec i b); [congruence|]. rewrite !app_nil_r. destruct n'; reflexivity.
  - intros (n & Hn & ->). destruct (Z.eqb_spec i b) as [->|Hib].
    + left. rewrite (node_at_fun _ _ _ _ Hn Hb). split; [reflexivity|]. split; [lia|].
      destruct (Z.eqb_spec b a); [congruence|]. rewrite app_nil_r. reflexivity.
    + right. split; [exact Hib|]. destruct (Z.eqb_spec i a) as [->|Hia].
      * left. rewrite (node_at_fun _ _ _ _ Hn Ha). split; [reflexivity|]. split; [lia|].
        rewrite app_nil_r. reflexivity.
      * right. split; [exact Hia|]. rewrite !app_nil_r. destruct n; exact Hn.
Qed.

(** AddEdgesBetweenNodes is two AddEdgeBetweenNodes. *)
Lemma AddEdges_twice g a b w :
  AddEdgesBetweenNodes g a b w = do g1 <- AddEdgeBetweenNodes g a b w; AddEdgeBetweenNodes g1 b a w.
Proof.
  destruct (AddEdge_cases g a b w) as [(na & nb & Ha & Hb & Hne & Eg)|(x & Ex & _)].
  - rewrite Eg. simpl. unfold AddEdgesBetweenNodes, AddEdgeBetweenNodes.
    rewrite (proj1 (GetNode_ok g a na) Ha), (proj1 (GetNode_ok g b nb) Hb). simpl.
    destruct (Z.eqb_spec a b); [congruence|].
    rewrite (UpdateNode_ok g a na) by exact Ha. simpl.
    rewrite (UpdateNode_ok _ b nb).
    2:{ apply node_at_upd; [apply Ha|]. right. split; [congruence|exact Hb]. }
    simpl.
    set (g2 := upd (upd g (Z.to_nat a) _) (Z.to_nat b) _).
    pose proof (node_at_range _ _ _ Ha) as Ra. pose proof (node_at_range _ _ _ Hb) as Rb.
    assert (Hb2 : node_at g2 b (AddInEdge nb (mkEdge a b w 0%N))).
    { apply node_at_upd; [lia|]. left. rewrite Size_upd. repeat split; lia. }
    assert (Ha2 : node_at g2 a (AddOutEdge na (mkEdge a b w 0%N))).
    { apply node_at_upd; [lia|]. right. split; [assumption|]. apply node_at_upd; [lia|]. left.
      repeat split; lia. }
    rewrite (proj1 (GetNode_ok _ _ _) Hb2), (proj1 (GetNode_ok _ _ _) Ha2). simpl.
    destruct (Z.eqb_spec b a); [congruence|]. reflexivity.
  - rewrite Ex. simpl. unfold AddEdgesBetweenNodes, AddEdgeBetweenNodes in *.
    destruct (GetNode g a); simpl in *; try congruence.
    destruct (GetNode g b); simpl in *; try congruence.
    destruct (a =? b); [congruence|].
    destruct (UpdateNode g a _) as [g1| | |]; simpl in *; try congruence.
    destruct (UpdateNode g1 b _) as [g2| | |]; simpl in *; try congruence.
Qed.

(** AddEdgesBetweenNodes either adds both edges or fails leaving nothing. *)
Lemma AddEdges_second g a b w g1 :
  AddEdgeBetweenNodes g a b w = Ok g1 -> exists g2, AddEdgeBetweenNodes g1 b a w = Ok g2.
Proof.
  intros E. destruct (AddEdge_nodes _ _ _ _ _ E) as (Ha & Hb & Hne & HS & _).
  destruct (AddEdge_cases g1 b a w) as [(na & nb & _ & _ & _ & Eg)|(x & _ & Hx)].
  - eexists. exact Eg.
  - exfalso. apply Hx. rewrite HS. repeat split; try lia.
Qed.

(** ** Linkage of constructed graphs *)

Lemma linked_nil : linked (@nil (GraphNode V W)).
Proof.
  unfold linked, node_at. split; [|split]; intros; exfalso;
    destruct (Z.to_nat i); simpl in *; intuition discriminate.
Qed.

Lemma node_at_snoc g n0 i n :
  node_at (g ++ [n0]) i n <-> node_at g i n \/ (i = Size g /\ n = n0).
Proof.
  unfold node_at, Size. destruct (lt_dec (Z.to_nat i) (length g)) as [L|L].
  - rewrite nth_error_app1 by exact L. split; [auto|]. intros [H|[-> _]]; [exact H|lia].
  - rewrite nth_error_app2 by lia. split.
    + intros [H E]. right. destruct (Z.to_nat i - length g)%nat as [|k] eqn:D.
      * simpl in E. injection E as <-. split; [lia|reflexivity].
      * simpl in E. destruct k; discriminate.
    + intros [[H E]|[-> ->]].
      * exfalso. assert (nth_error g (Z.to_nat i) <> None) by congruence.
        apply nth_error_Some in H0. lia.
      * split; [lia|]. rewrite Nat2Z.id, Nat.sub_diag. reflexivity.
Qed.

Lemma filter_none {A} (f : A -> bool) l : (forall x, In x l -> f x = false) -> filter f l = [].
Proof.
  induction l as [|x l IH]; intros H; [reflexivity|]. simpl.
  rewrite (H x (or_introl eq_refl)). apply IH. intros y Hy. apply H. right. exact Hy.
Qed.

Lemma linked_add_node g v : linked g -> linked (snd (AddNodeValue g v)).
Proof.
  intros (L1 & L2 & L3). unfold AddNodeValue, AddNode. cbv zeta. cbn [snd]. split; [|split].
  - intros i n e Hn He. rewrite node_at_snoc in Hn. destruct Hn as [Hn|[-> ->]]; [|destruct He].
    destruct (L1 i n e Hn He) as (A & B & m & C). split; [exact A|]. split; [exact B|].
    exists m. apply node_at_snoc. left. exact C.
  - intros i n e Hn He. rewrite node_at_snoc in Hn. destruct Hn as [Hn|[-> ->]]; [|destruct He].
    destruct (L2 i n e Hn He) as (A & B & m & C). split; [exact A|]. split; [exact B|].
    exists m. apply node_at_snoc. left. exact C.
  - intros i j n m Hn Hm. rewrite node_at_snoc in Hn, Hm.
    destruct Hn as [Hn|[-> ->]], Hm as [Hm|[-> ->]]; simpl.
    + apply (L3 i j n m Hn Hm).
    + apply filter_none. intros e He. destruct (L1 i n e Hn He) as (_ & _ & m & Hm).
      apply node_at_range in Hm. lia.
    + symmetry. apply filter_none. intros e He. destruct (L2 j m e Hm He) as (_ & _ & k & Hk).
      apply node_at_range in Hk. lia.
    + reflexivity.
Qed.

Lemma linked_add_edge g a b w g' :
  linked g -> AddEdgeBetweenNodes g a b w = Ok g' -> linked g'.
Proof.
  intros (L1 & L2 & L3) E. destruct (AddEdge_nodes _ _ _ _ _ E) as (Ha & Hb & Hne & HS & HN).
  assert (EX : forall k, (exists m, node_at g k m) -> exists m, node_at g' k m).
  { intros k (m & Hm). eexists. apply HN. exists m. split; [exact Hm|reflexivity]. }
  split; [|split].
  - intros i n' e Hn He. apply HN in Hn. destruct Hn as (n & Hn & ->). simpl in He.
    rewrite in_app_iff in He. destruct He as [He|He].
    + destruct (L1 i n e Hn He) as (A & B & C). auto.
    + destruct (Z.eqb_spec i a) as [->|]; [|destruct He]. destruct He as [<-|[]]. simpl.
      split; [reflexivity|]. split; [congruence|]. apply EX. apply in_range_node_at. lia.
  - intros i n' e Hn He. apply HN in Hn. destruct Hn as (n & Hn & ->). simpl in He.
    rewrite in_app_iff in He. destruct He as [He|He].
    + destruct (L2 i n e Hn He) as (A & B & C). auto.
    + destruct (Z.eqb_spec i b) as [->|]; [|destruct He]. destruct He as [<-|[]]. simpl.
      split; [reflexivity|]. split; [congruence|]. apply EX. apply in_range_node_at. lia.
  - intros i j n' m' Hn Hm. apply HN in Hn, Hm. destruct Hn as (n & Hn & ->), Hm as (m & Hm & ->).
    simpl. rewrite !filter_app. rewrite (L3 i j n m Hn Hm). f_equal.
    destruct (Z.eqb_spec i a) as [->|Hi], (Z.eqb_spec j b) as [->|Hj]; simpl; auto.
    + rewrite !Z.eqb_refl. reflexivity.
    + destruct (Z.eqb_spec b j); [congruence|reflexivity].
    + destruct (Z.eqb_spec a i); [congruence|reflexivity].
Qed.

Lemma linked_op g (o : op V W) : building o -> linked g -> linked (snd (graph_op g o)).
Proof.
  intros B L. destruct o as [v|n|a b w|a b w|i|i f| |i|]; simpl in *; try contradiction; auto.
  - apply linked_add_node. exact L.
  - destruct (AddEdgeBetweenNodes g a b w) as [g'| | |] eqn:E; simpl; auto.
    eapply linked_add_edge; eassumption.
  - rewrite AddEdges_twice.
    destruct (AddEdgeBetweenNodes g a b w) as [g'| | |] eqn:E; simpl; auto.
    destruct (AddEdgeBetweenNodes g' b a w) as [g2| | |] eqn:E2; simpl; auto.
    eapply linked_add_edge; [|exact E2]. eapply linked_add_edge; eassumption.
Qed.

Lemma linked_ops ops : forall g, Forall building ops -> linked g ->
  linked (snd (run_ops graph_op g ops)).
Proof.
  induction ops as [|o ops IH]; intros g F L; [exact L|]. simpl.
  inversion F as [|? ? B F']; subst.
  pose proof (linked_op g o B L) as L1. destruct (graph_op g o) as [r g1]. simpl in L1.
  specialize (IH g1 F' L1). destruct (run_ops graph_op g1 ops) as [rs g2]. exact IH.
Qed.

Lemma linked_consistent g : linked g -> consistent g.
Proof.
  intros (L1 & L2 & L3). split.
  - intros i n e Hn He. destruct (L2 i n e Hn He) as (A & B & m & Hm).
    split; [exact A|]. split; [exact B|]. exists m. split; [exact Hm|].
    exists e. split; [|exact A].
    assert (In e (filter (fun e => to_index e =? i) (out_edges m))).
    { rewrite (L3 _ _ _ _ Hm Hn). apply filter_In. split; [exact He|apply Z.eqb_refl]. }
    apply filter_In in H. tauto.
  - intros i n e Hn He. destruct (L1 i n e Hn He) as (A & B & m & Hm).
    split; [exact A|]. split; [exact B|]. exists m. split; [exact Hm|].
    exists e. split; [|exact A].
    assert (In e (filter (fun e => from_index e =? i) (in_edges m))).
    { rewrite <- (L3 _ _ _ _ Hn Hm). apply filter_In. split; [exact He|apply Z.eqb_refl]. }
    apply filter_In in H. tauto.
Qed.

(** ** CheckGraphLinkage *)

Lemma check_in_spec g idx edges :
  exists b, check_in_edges (as_graph_like g) idx edges = Ok b /\
  (b = true <-> forall e, In e edges -> to_index e = idx /\ from_index e <> idx /\
     exists m, node_at g (from_index e) m /\ exists o, In o (out_edges m) /\ to_index o = idx).
Proof.
  induction edges as [|e rest IH].
  - exists true. split; [reflexivity|]. split; [intros _ e []|reflexivity].
  - destruct IH as (b & Eb & Hb). simpl.
    destruct (Z.ltb_spec (from_index e) 0) as [L|L]; simpl.
    { exists false. split; [reflexivity|]. split; [discriminate|]. intros H.
      destruct (H e (or_introl eq_refl)) as (_ & _ & m & Hm & _). apply node_at_range in Hm. lia. }
    destruct (Z.leb_spec (Size g) (from_index e)) as [L2|L2]; simpl.
    { exists false. split; [reflexivity|]. split; [discriminate|]. intros H.
      destruct (H e (or_introl eq_refl)) as (_ & _ & m & Hm & _). apply node_at_range in Hm. lia. }
    destruct (Z.eqb_spec (to_index e) idx) as [E|E]; simpl.
    2:{ exists false. split; [reflexivity|]. split; [discriminate|]. intros H.
      destruct (H e (or_introl eq_refl)) as (H1 & _). congruence. }
    destruct (Z.eqb_spec (from_index e) (to_index e)) as [E2|E2]; simpl.
    { exists false. split; [reflexivity|]. split; [discriminate|]. intros H.
      destruct (H e (or_introl eq_refl)) as (_ & H1 & _). congruence. }
    destruct (in_range_node_at g (from_index e) (conj L L2)) as (m & Hm).
    rewrite (proj1 (GetNode_ok _ _ _) Hm). simpl.
    destruct (existsb (fun o => to_index o =? idx) (out_edges m)) eqn:X.
    + exists b. split; [exact Eb|]. rewrite Hb. split.
      * intros H e' [<-|He']; [|apply H; exact He']. split; [exact E|]. split; [congruence|].
        exists m. split; [exact Hm|]. apply existsb_exists in X. destruct X as (o & Ho & X).
        exists o. split; [exact Ho|]. apply Z.eqb_eq. exact X.
      * intros H e' He'. apply H. right. exact He'.
    + exists false. split; [reflexivity|]. split; [discriminate|]. intros H.
      destruct (H e (or_introl eq_refl)) as (_ & _ & m' & Hm' & o & Ho & Eo).
      rewrite (node_at_fun _ _ _ _ Hm' Hm) in Ho.
      assert (existsb (fun o => to_index o =? idx) (out_edges m) = true).
      { apply existsb_exists. exists o. split; [exact Ho|]. apply Z.eqb_eq. exact Eo. }
      congruence.
Qed.

Lemma check_out_spec g idx edges :
  exists b, check_out_edges (as_graph_like g) idx edges = Ok b /\
  (b = true <-> forall e, In e edges -> from_index e = idx /\ to_index e <> idx /\
     exists m, node_at g (to_index e) m /\ exists o, In o (in_edges m) /\ from_index o = idx).
Proof.
  induction edges as [|e rest IH].
  - exists true. split; [reflexivity|]. split; [intros _ e []|reflexivity].
  - destruct IH as (b & Eb & Hb). simpl.
    destruct (Z.eqb_spec (from_index e) idx) as [E|E]; simpl.
    2:{ exists false. split; [reflexivity|]. split; [discriminate|]. intros H.
      destruct (H e (or_introl eq_refl)) as (H1 & _). congruence. }
    destruct (Z.ltb_spec (to_index e) 0) as [L|L]; simpl.
    { exists false. split; [reflexivity|]. split; [discriminate|]. intros H.
      destruct (H e (or_introl eq_refl)) as (_ & _ & m & Hm & _). apply node_at_range in Hm. lia. }
    destruct (Z.leb_spec (Size g) (to_index e)) as [L2|L2]; simpl.
    { exists false. split; [reflexivity|]. split; [discriminate|]. intros H.
      destruct (H e (or_introl eq_refl)) as (_ & _ & m & Hm & _). apply node_at_range in Hm. lia. }
    destruct (Z.eqb_spec (from_index e) (to_index e)) as [E2|E2]; simpl.
    { exists false. split; [reflexivity|]. split; [discriminate|]. intros H.
      destruct (H e (or_introl eq_refl)) as (_ & H1 & _). congruence. }
    destruct (in_range_node_at g (to_index e) (conj L L2)) as (m & Hm).
    rewrite (proj1 (GetNode_ok _ _ _) Hm). simpl.
    destruct (existsb (fun o => from_index o =? idx) (in_edges m)) eqn:X.
    + exists b. split; [exact Eb|]. rewrite Hb. split.
      * intros H e' [<-|He']; [|apply H; exact He']. split; [exact E|]. split; [congruence|].
        exists m. split; [exact Hm|]. apply existsb_exists in X. destruct X as (o & Ho & X).
        exists o. split; [exact Ho|]. apply Z.eqb_eq. exact X.
      * intros H e' He'. apply H. right. exact He'.
    + exists false. split; [reflexivity|]. split; [discriminate|]. intros H.
      destruct (H e (or_introl eq_refl)) as (_ & _ & m' & Hm' & o & Ho & Eo).
      rewrite (node_at_fun _ _ _ _ Hm' Hm) in Ho.
      assert (existsb (fun o => from_index o =? idx) (in_edges m) = true).
      { apply existsb_exists. exists o. split; [exact Ho|]. apply Z.eqb_eq. exact Eo. }
      congruence.
Qed.

Definition node_consistent g (i : Z) n : Prop :=
  (forall e, In e (in_edges n) -> to_index e = i /\ from_index e <> i /\
     exists m, node_at g (from_index e) m /\ exists o, In o (out_edges m) /\ to_index o = i) /\
  (forall e, In e (out_edges n) -> from_index e = i /\ to_index e <> i /\
     exists m, node_at g (to_index e) m /\ exists o, In o (in_edges m) /\ from_index o = i).

Lemma check_nodes_spec g l : (forall i, In i l -> 0 <= i < Size g) ->
  exists b, check_nodes (as_graph_like g) l = Ok b /\
  (b = true <-> forall i n, In i l -> node_at g i n -> node_consistent g i n).
Proof.
  induction l as [|i l IH]; intros R.
  - exists true. split; [reflexivity|]. split; [intros _ i n []|reflexivity].
  - destruct IH as (b & Eb & Hb); [intros j Hj; apply R; right; exact Hj|].
    simpl. destruct (in_range_node_at g i (R i (or_introl eq_refl))) as (n & Hn).
    rewrite (proj1 (GetNode_ok _ _ _) Hn). simpl.
    destruct (check_in_spec g i (in_edges n)) as (b1 & E1 & H1). rewrite E1. simpl.
    destruct (check_out_spec g i (out_edges n)) as (b2 & E2 & H2).
    destruct b1; simpl.
    2:{ exists false. split; [reflexivity|]. split; [discriminate|]. intros H.
        apply H1. apply (H i n (or_introl eq_refl) Hn). }
    rewrite E2. simpl. destruct b2; simpl.
    2:{ exists false. split; [reflexivity|]. split; [discriminate|]. intros H.
        apply H2. apply (H i n (or_introl eq_refl) Hn). }
    exists b. split; [exact Eb|]. rewrite Hb. split.
    + intros H j m [<-|Hj] Hm; [|apply H; assumption].
      rewrite (node_at_fun _ _ _ _ Hm Hn). split; [apply H1|apply H2]; reflexivity.
    + intros H j m Hj Hm. apply H; [right; exact Hj|exact Hm].
Qed.

Lemma CheckGraphLinkage_spec g :
  exists b, CheckGraphLinkage (as_graph_like g) = Ok b /\ (b = true <-> consistent g).
Proof.
  unfold CheckGraphLinkage.
  destruct (check_nodes_spec g (seqZ 0 (Size g))) as (b & Eb & Hb).
  { intros i Hi. apply seqZ_in in Hi. exact Hi. }
  exists b. split; [exact Eb|]. rewrite Hb. unfold consistent, node_consistent. split.
  - intros H. split; intros i n e Hn He.
    + apply (H i n); [|exact Hn|exact He]. apply seqZ_in. apply node_at_range in Hn. exact Hn.
    + apply (H i n); [|exact Hn|exact He]. apply seqZ_in. apply node_at_range in Hn. exact Hn.
  - intros [H1 H2] i n _ Hn. split; intros e He; [apply (H1 i n e Hn He)|apply (H2 i n e Hn He)].
Qed.

Lemma GraphFromNodes_spec g :
  (consistent g /\ GraphFromNodes g = Ok g) \/
  (~ consistent g /\ GraphFromNodes g = Throw InvalidArgument).
Proof.
  unfold GraphFromNodes. destruct (CheckGraphLinkage_spec g) as (b & Eb & Hb). rewrite Eb. simpl.
  destruct b; [left|right]; (split; [|reflexivity]).
  - apply Hb. reflexivity.
  - intros C. apply Hb in C. discriminate.
Qed.

(** ** Overlay *)


Lemma check_in_ext b g idx edges : behaves_like b g ->
  check_in_edges b idx edges = check_in_edges (as_graph_like g) idx edges.
Proof.
  intros [HS HG]. induction edges as [|e r IH]; [reflexivity|]. simpl. rewrite HS, HG.
  change (gl_size (as_graph_like g)) with (Size g).
  repeat (destruct (_ : bool); [reflexivity|]).
  destruct (GetNode g (from_index e)); simpl; try reflexivity.
  destruct (existsb _ _); [exact IH|reflexivity].
Qed.

Lemma check_out_ext b g idx edges : behaves_like b g ->
  check_out_edges b idx edges = check_out_edges (as_graph_like g) idx edges.
Proof.
  intros [HS HG]. induction edges as [|e r IH]; [reflexivity|]. simpl. rewrite HS, HG.
  change (gl_size (as_graph_like g)) with (Size g).
  repeat (destruct (_ : bool); [reflexivity|]).
  destruct (GetNode g (to_index e)); simpl; try reflexivity.
  destruct (existsb _ _); [exact IH|reflexivity].
Qed.

Lemma check_nodes_ext b g l : behaves_like b g ->
  check_nodes b l = check_nodes (as_graph_like g) l.
Proof.
  intros H. induction l as [|i l IH]; [reflexivity|]. simpl. rewrite (proj2 H).
  destruct (GetNode g i) as [n| | |]; simpl; try reflexivity.
  rewrite (check_in_ext b g) by exact H.
  destruct (check_in_edges (as_graph_like g) i (in_edges n)) as [[]| | |]; simpl; try reflexivity.
  rewrite (check_out_ext b g) by exact H.
  destruct (check_out_edges (as_graph_like g) i (out_edges n)) as [[]| | |]; simpl; try reflexivity.
  exact IH.
Qed.

Lemma CheckGraphLinkage_ext b g : behaves_like b g ->
  CheckGraphLinkage b = CheckGraphLinkage (as_graph_like g).
Proof.
  intros H. unfold CheckGraphLinkage. rewrite (proj1 H). apply check_nodes_ext. exact H.
Qed.

Definition simulates (o : GraphOverlay V W) g : Prop := behaves_like (overlay_graph_like o) g.

Lemma omap_find_app {A} k (m : list (Z * A)) k' v :
  omap_find k (m ++ [(k', v)]) =
  match omap_find k m with Some x => Some x | None => if k =? k' then Some v else None end.
Proof.
  induction m as [|[k1 v1] m IH]; simpl; [reflexivity|].
  destruct (k =? k1); [reflexivity|exact IH].
Qed.

Lemma omap_find_set {A} k k' (m : list (Z * A)) v :
  omap_find k (omap_set k' v m) =
  match omap_find k' m with
  | Some _ => if k =? k' then Some v else omap_find k m
  | None => omap_find k m
  end.
Proof.
  induction m as [|[k1 v1] m IH]; simpl; [reflexivity|].
  destruct (Z.eqb_spec k' k1) as [->|Hne]; simpl.
  - destruct (Z.eqb_spec k k1); reflexivity.
  - rewrite IH. destruct (Z.eqb_spec k k1) as [->|Hk]; [|reflexivity].
    destruct (omap_find k' m); [|reflexivity]. destruct (Z.eqb_spec k1 k'); [congruence|reflexivity].
Qed.

Lemma migrate_ok o g i n : simulates o g -> node_at g i n ->
  exists o', OverlayMigrate o i = Ok o' /\ simulates o' g /\ omap_find i (overlay o') = Some n /\
    base_graph o' = base_graph o /\
    (forall j x, omap_find j (overlay o) = Some x -> omap_find j (overlay o') = Some x).
Proof.
  intros [HS HG] Hn. unfold OverlayMigrate. simpl in HS, HG.
  pose proof (HG i) as E. rewrite (proj1 (GetNode_ok _ _ _) Hn) in E. unfold OverlayGetNode in E.
  destruct (omap_find i (overlay o)) as [x|] eqn:F.
  - injection E as ->. exists o. repeat split; auto.
  - rewrite E. simpl. eexists. split; [reflexivity|].
    assert (EM : omap_emplace i n (overlay o) = overlay o ++ [(i, n)]) by (unfold omap_emplace; rewrite F; reflexivity).
    split; [split; simpl; [exact HS|]|].
    + intros j. unfold OverlayGetNode. simpl. rewrite EM, omap_find_app. rewrite <- HG.
      unfold OverlayGetNode. destruct (omap_find j (overlay o)) eqn:Fj; [reflexivity|].
      destruct (Z.eqb_spec j i) as [->|]; [symmetry; exact E|reflexivity].
    + simpl. split; [rewrite EM, omap_find_app, F, Z.eqb_refl; reflexivity|]. split; [reflexivity|].
      intros j x Hj. rewrite EM, omap_find_app, Hj. reflexivity.
Qed.

Lemma modify_ok o g i n f : simulates o g -> node_at g i n -> omap_find i (overlay o) = Some n ->
  exists o', OverlayModify o i f = Ok o' /\ simulates o' (upd g (Z.to_nat i) (f n)) /\
    base_graph o' = base_graph o /\
    (forall j x, j <> i -> omap_find j (overlay o) = Some x -> omap_find j (overlay o') = Some x) /\
    omap_find i (overlay o') = Some (f n).
Proof.
  intros [HS HG] Hn F. unfold OverlayModify. rewrite F. eexists. split; [reflexivity|].
  simpl in HS, HG. pose proof (node_at_range _ _ _ Hn) as R.
  split; [split; simpl; [rewrite Size_upd; exact HS|]|].
  - intros j. unfold OverlayGetNode. simpl. rewrite omap_find_set, F.
    destruct (Z.eqb_spec j i) as [->|Hj].
    + symmetry. apply GetNode_ok. apply node_at_upd; [lia|]. left. repeat split; lia.
    + fold (OverlayGetNode o j). rewrite HG.
      destruct (GetNode_cases g j) as [(m & Hm & Em)|[Hm Em]]; rewrite Em; symmetry.
      * apply GetNode_ok. apply node_at_upd; [lia|]. right. split; assumption.
      * destruct (GetNode_cases (upd g (Z.to_nat i) (f n)) j) as [(m' & Hm' & Em')|[_ Em']]; [|exact Em'].
        apply node_at_range in Hm'. rewrite Size_upd in Hm'. contradiction.
  - simpl. split; [reflexivity|]. split.
    + intros j x Hj Hx. rewrite omap_find_set, F. destruct (Z.eqb_spec j i); [congruence|exact Hx].
    + rewrite omap_find_set, F, Z.eqb_refl. reflexivity.
Qed.

Lemma add_edge_sim o g a b w : simulates o g ->
  match AddEdgeBetweenNodes g a b w, OverlayAddEdge o a b w with
  | Ok g', Ok o' => simulates o' g' /\ base_graph o' = base_graph o
  | Throw _, Throw _ => True
  | _, _ => False
  end.
Proof.
  intros S. unfold OverlayAddEdge. pose proof S as [HS _]. simpl in HS. rewrite HS.
  destruct (AddEdge_cases g a b w) as [(na & nb & Ha & Hb & Hne & Eg)|(x & Ex & Hx)].
  - rewrite Eg. destruct (Z.eqb_spec a b); [congruence|].
    pose proof (node_at_range _ _ _ Ha) as Ra. pose proof (node_at_range _ _ _ Hb) as Rb.
    unfold IndexInRange.
    replace ((0 <=? a) && (a <? Size g)) with true by lia.
    replace ((0 <=? b) && (b <? Size g)) with true by lia. simpl.
    destruct (migrate_ok o g a na S Ha) as (o1 & E1 & S1 & F1 & B1 & K1). rewrite E1. simpl.
    destruct (migrate_ok o1 g b nb S1 Hb) as (o2 & E2 & S2 & F2 & B2 & K2). rewrite E2. simpl.
    destruct (modify_ok o2 g a na (fun n => AddOutEdge n (mkEdge a b w 0%N)) S2 Ha (K2 _ _ F1))
      as (o3 & E3 & S3 & B3 & K3 & F3). rewrite E3. simpl.
    destruct (modify_ok o3 _ b nb (fun n => AddInEdge n (mkEdge a b w 0%N)) S3) as (o4 & E4 & S4 & B4 & _).
    + apply node_at_upd; [lia|]. right. split; [congruence|exact Hb].
    + apply K3; [congruence|exact F2].
    + rewrite E4. split; [exact S4|]. congruence.
  - rewrite Ex. destruct (Z.eqb_spec a b); [exact I|]. unfold IndexInRange.
    replace (negb ((0 <=? a) && (a <? Size g)) || negb ((0 <=? b) && (b <? Size g))) with true by lia.
    exact I.
Qed.

Lemma add_edges_twice_sim o g a b w : simulates o g ->
  match AddEdgesBetweenNodes g a b w, OverlayAddEdges o a b w with
  | Ok g', Ok o' => simulates o' g' /\ base_graph o' = base_graph o
  | Throw _, Throw _ => True
  | _, _ => False
  end.
Proof.
  intros S. rewrite AddEdges_twice. unfold OverlayAddEdges. pose proof S as [HS _]. simpl in HS. rewrite HS.
  destruct (AddEdge_cases g a b w) as [(na & nb & Ha & Hb & Hne & Eg)|(x & Ex & Hx)].
  - rewrite Eg. simpl bind. destruct (Z.eqb_spec a b); [congruence|].
    pose proof (node_at_range _ _ _ Ha) as Ra. pose proof (node_at_range _ _ _ Hb) as Rb.
    unfold IndexInRange.
    replace ((0 <=? a) && (a <? Size g)) with true by lia.
    replace ((0 <=? b) && (b <? Size g)) with true by lia. simpl negb. simpl orb. cbv iota zeta.
    destruct (migrate_ok o g a na S Ha) as (o1 & E1 & S1 & F1 & B1 & K1). rewrite E1. simpl bind.
    destruct (migrate_ok o1 g b nb S1 Hb) as (o2 & E2 & S2 & F2 & B2 & K2). rewrite E2. simpl bind.
    destruct (modify_ok o2 g a na (fun n => AddOutEdge n (mkEdge a b w 0%N)) S2 Ha (K2 _ _ F1))
      as (o3 & E3 & S3 & B3 & K3 & F3). rewrite E3. simpl bind.
    destruct (modify_ok o3 _ b nb (fun n => AddInEdge n (mkEdge a b w 0%N)) S3) as (o4 & E4 & S4 & B4 & K4 & F4).
    { apply node_at_upd; [lia|]. right. split; [congruence|exact Hb]. }
    { apply K3; [congruence|exact F2]. }
    rewrite E4. simpl bind.
    set (g2 := upd (upd g (Z.to_nat a) _) (Z.to_nat b) _) in *.
    assert (Hb2 : node_at g2 b (AddInEdge nb (mkEdge a b w 0%N))).
    { apply node_at_upd; [lia|]. left. rewrite Size_upd. repeat split; lia. }
    assert (Ha2 : node_at g2 a (AddOutEdge na (mkEdge a b w 0%N))).
    { apply node_at_upd; [lia|]. right. split; [assumption|]. apply node_at_upd; [lia|]. left.
      repeat split; lia. }
    destruct (AddEdge_cases g2 b a w) as [(nb' & na' & Hb' & Ha' & Hne' & Eg2)|(x & Ex & Hx)].
    + rewrite (node_at_fun _ _ _ _ Hb' Hb2), (node_at_fun _ _ _ _ Ha' Ha2) in Eg2.
      rewrite Eg2.
      destruct (modify_ok o4 g2 b _ (fun n => AddOutEdge n (mkEdge b a w 0%N)) S4 Hb2 F4)
        as (o5 & E5 & S5 & B5 & K5 & F5). rewrite E5. simpl bind.
      destruct (modify_ok o5 _ a (AddOutEdge na (mkEdge a b w 0%N)) (fun n => AddInEdge n (mkEdge b a w 0%N)) S5)
        as (o6 & E6 & S6 & B6 & _).
      { apply node_at_upd; [lia|]. right. split; [congruence|exact Ha2]. }
      { apply K5; [congruence|]. apply K4; [congruence|exact F3]. }
      rewrite E6. split; [exact S6|]. congruence.
    + exfalso. apply Hx. apply node_at_range in Ha2, Hb2. auto.
  - rewrite Ex. simpl bind. cbv iota. destruct (Z.eqb_spec a b); [exact I|]. unfold IndexInRange.
    replace (negb ((0 <=? a) && (a <? Size g)) || negb ((0 <=? b) && (b <? Size g))) with true by lia.
    exact I.
Qed.

Lemma overlay_add_node_sim o g n : simulates o g ->
  simulates (snd (OverlayAddNode o n)) (g ++ [n]) /\ fst (OverlayAddNode o n) = Size g /\
  base_graph (snd (OverlayAddNode o n)) = base_graph o.
Proof.
  intros [HS HG]. simpl in HS, HG. unfold OverlayAddNode. simpl. split; [|split; [exact HS|reflexivity]].
  assert (F : omap_find (overlay_size o) (overlay o) = None).
  { destruct (omap_find (overlay_size o) (overlay o)) as [x|] eqn:F; [|reflexivity].
    specialize (HG (overlay_size o)). unfold OverlayGetNode in HG. rewrite F in HG. symmetry in HG.
    apply GetNode_ok in HG. apply node_at_range in HG. lia. }
  split; simpl.
  - unfold Size in *. rewrite app_length. simpl. lia.
  - intros i. unfold OverlayGetNode. simpl. unfold omap_emplace. rewrite F, omap_find_app.
    fold (OverlayGetNode o i). specialize (HG i). unfold OverlayGetNode in HG.
    destruct (omap_find i (overlay o)) as [x|] eqn:Fi.
    + symmetry. apply GetNode_ok. apply node_at_snoc. left. apply GetNode_ok. congruence.
    + rewrite HS. destruct (Z.eqb_spec i (Size g)) as [->|Hi].
      * symmetry. apply GetNode_ok. apply node_at_snoc. right. auto.
      * rewrite HG. destruct (GetNode_cases g i) as [(m & Hm & Em)|[Hm Em]]; rewrite Em; symmetry.
        -- apply GetNode_ok. apply node_at_snoc. left. exact Hm.
        -- destruct (GetNode_cases (g ++ [n]) i) as [(m' & Hm' & Em')|[_ Em']]; [|exact Em'].
           apply node_at_snoc in Hm'. destruct Hm' as [Hm'|[-> _]]; [|congruence].
           apply node_at_range in Hm'. contradiction.
Qed.

Lemma overlay_op_sim o g (p : op V W) : simulates o g ->
  same_result (fst (graph_op g p)) (fst (overlay_op o p)) /\
  simulates (snd (overlay_op o p)) (snd (graph_op g p)) /\
  base_graph (snd (overlay_op o p)) = base_graph o.
Proof.
  intros S. destruct p as [v|n|a b w|a b w|i|i f| |i|]; unfold graph_op, overlay_op.
  - destruct (overlay_add_node_sim o g (mkNode v [] []) S) as (A & B & C).
    unfold AddNodeValue, AddNode. cbv zeta. destruct (OverlayAddNode o (mkNode v [] [])) as [k o'].
    simpl in *. subst k. split; [|split; assumption].
    unfold Size. rewrite app_length. simpl. f_equal. lia.
  - destruct (overlay_add_node_sim o g n S) as (A & B & C).
    unfold AddNode. cbv zeta. destruct (OverlayAddNode o n) as [k o'].
    simpl in *. subst k. split; [|split; assumption].
    unfold Size. rewrite app_length. simpl. f_equal. lia.
  - pose proof (add_edge_sim o g a b w S) as H.
    destruct (AddEdgeBetweenNodes g a b w), (OverlayAddEdge o a b w); simpl; try contradiction.
    + split; [reflexivity|exact H].
    + split; [exact I|]. split; [exact S|reflexivity].
  - pose proof (add_edges_twice_sim o g a b w S) as H.
    destruct (AddEdgesBetweenNodes g a b w), (OverlayAddEdges o a b w); simpl; try contradiction.
    + split; [reflexivity|exact H].
    + split; [exact I|]. split; [exact S|reflexivity].
  - simpl. pose proof S as [_ HG]. simpl in HG. rewrite HG.
    split; [|split; [exact S|reflexivity]].
    destruct (GetNode_cases g i) as [(n & _ & E)|[_ E]]; rewrite E; simpl; auto.
  - destruct (GetNode_cases g i) as [(n & Hn & E)|[Hn E]].
    + rewrite (UpdateNode_ok g i n f Hn). unfold OverlayUpdateNode.
      destruct (migrate_ok o g i n S Hn) as (o1 & E1 & S1 & F1 & B1 & _). rewrite E1. simpl bind.
      destruct (modify_ok o1 g i n f S1 Hn F1) as (o2 & E2 & S2 & B2 & _). rewrite E2. simpl.
      split; [reflexivity|]. split; [exact S2|congruence].
    + unfold UpdateNode, OverlayUpdateNode, OverlayMigrate. rewrite E. simpl.
      pose proof S as [_ HG]. specialize (HG i). simpl in HG. unfold OverlayGetNode in HG.
      destruct (omap_find i (overlay o)); [congruence|]. rewrite HG, E. simpl.
      split; [exact I|]. split; [exact S|reflexivity].
  - simpl. pose proof S as [HS _]. simpl in HS. rewrite HS. split; [reflexivity|]. split; [exact S|reflexivity].
  - simpl. pose proof S as [HS _]. simpl in HS. rewrite HS. split; [reflexivity|]. split; [exact S|reflexivity].
  - simpl. rewrite (CheckGraphLinkage_ext _ g S).
    destruct (CheckGraphLinkage_spec g) as (b & Eb & _). rewrite Eb. simpl.
    split; [reflexivity|]. split; [exact S|reflexivity].
Qed.

Lemma overlay_ops_sim ops : forall o g, simulates o g ->
  Forall2 same_result (fst (run_ops graph_op g ops)) (fst (run_ops overlay_op o ops)) /\
  simulates (snd (run_ops overlay_op o ops)) (snd (run_ops graph_op g ops)) /\
  base_graph (snd (run_ops overlay_op o ops)) = base_graph o.
Proof.
  induction ops as [|p ops IH]; intros o g S; simpl.
  - split; [constructor|]. split; [exact S|reflexivity].
  - destruct (overlay_op_sim o g p S) as (A & B & C).
    destruct (graph_op g p) as [r1 g1], (overlay_op o p) as [r2 o1]. simpl in A, B, C.
    destruct (IH o1 g1 B) as (A' & B' & C').
    destruct (run_ops graph_op g1 ops) as [rs1 g2], (run_ops overlay_op o1 ops) as [rs2 o2].
    simpl in *. split; [constructor; assumption|]. split; [assumption|congruence].
Qed.

End Basics.
