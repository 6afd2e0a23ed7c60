(** CheckNodeLinkage and the operations of the RRT tree (C42, C47). *)
From Verif Require Import Base Effect ParallelismModel ParallelismProof RrtModel RrtSpec RrtProof.
Local Open Scope Z_scope.

Section Check.
Context {S : Type}.
Notation tree := (list (rrt_node S)).

Lemma get_in (t : tree) i : 0 <= i < TreeSize t -> exists n, GetTreeNode t i = Ok n /\ tree_at t i n.
Proof.
  intros H. destruct (tree_at_ex t i H) as [n Hn]. exists n. split; [|exact Hn]. apply get_tree_node. exact Hn.
Qed.

(** What the loop over the children decides. *)
Lemma check_children_spec (t : tree) i cs : 0 <= i ->
  exists b, check_children t i cs = Ok b /\
    (b = true <-> forall c, In c cs -> exists m, i < c /\ tree_at t c m /\ parent_index m = i).
Proof.
  intros I0. induction cs as [|c cs (b & E & Hb)]; cbn [check_children].
  - exists true. split; [reflexivity|]. split; [intros _ c []|reflexivity].
  - assert (NO : (~ exists m, i < c /\ tree_at t c m /\ parent_index m = i) ->
       exists b0, Ok false = Ok b0 /\ (b0 = true <-> forall c0, In c0 (c :: cs) -> exists m, i < c0 /\ tree_at t c0 m /\ parent_index m = i)).
    { intros N. exists false. split; [reflexivity|]. split; [discriminate|]. intros H. elim N. apply H. left. reflexivity. }
    destruct (Z.ltb_spec 0 c) as [C0|C0]; cbn [andb]; [|apply NO; intros (m & L & _); lia].
    destruct (Z.ltb_spec c (TreeSize t)) as [C1|C1]; [|apply NO; intros (m & _ & Hm & _); apply tree_at_range in Hm; lia].
    destruct (Z.ltb_spec i c) as [C2|C2]; [|apply NO; intros (m & L & _); lia].
    destruct (get_in t c ltac:(lia)) as (m & -> & Hm). cbn [bind].
    destruct (Z.eqb_spec (parent_index m) i) as [P|P]; cbn [negb].
    + exists b. split; [exact E|]. rewrite Hb. split.
      * intros H c0 [<-|I]; [exists m; auto|auto].
      * intros H c0 I. apply H. right. exact I.
    + apply NO. intros (m' & _ & Hm' & P'). rewrite (tree_at_fun _ _ _ _ Hm Hm') in P. auto.
Qed.

Definition fine_at (t : tree) (i : Z) : Prop :=
  forall n, tree_at t i n ->
    (0 <= parent_index n -> parent_index n < i /\ exists p, tree_at t (parent_index n) p /\ In i (child_indices p)) /\
    forall c, In c (child_indices n) -> exists m, i < c /\ tree_at t c m /\ parent_index m = i.

Lemma check_node_spec (t : tree) i : 0 <= i < TreeSize t ->
  exists b, check_tree_node t i = Ok b /\ (b = true <-> fine_at t i).
Proof.
  intros R. unfold check_tree_node. destruct (get_in t i R) as (n & -> & Hn). cbn [bind].
  assert (FA : fine_at t i <->
    (0 <= parent_index n -> parent_index n < i /\ exists p, tree_at t (parent_index n) p /\ In i (child_indices p)) /\
    forall c, In c (child_indices n) -> exists m, i < c /\ tree_at t c m /\ parent_index m = i).
  { split; [intros H; exact (H n Hn)|]. intros HH n' Hn'. rewrite <- (tree_at_fun _ _ _ _ Hn Hn'). exact HH. }
  destruct (Z.ltb_spec i (parent_index n)) as [L|L].
  { exists false. split; [reflexivity|]. split; [discriminate|]. intros H. destruct (proj1 FA H) as [H1 _]; clear H; rename H1 into H. destruct H; lia. }
  destruct (check_children_spec t i (child_indices n) (proj1 R)) as (b & -> & Hb).
  destruct (Z.leb_spec 0 (parent_index n)) as [P|P]; cbn [andb].
  - destruct (Z.ltb_spec (parent_index n) (TreeSize t)) as [Q|Q]; [|lia].
    destruct (Z.eqb_spec (parent_index n) i) as [EQ|NE]; cbn [negb].
    { exists false. split; [reflexivity|]. split; [discriminate|]. intros H. destruct (proj1 FA H) as [H1 _]; clear H; rename H1 into H. destruct H; lia. }
    destruct (get_in t (parent_index n) ltac:(lia)) as (p & -> & Hp). cbn [bind].
    destruct (existsb (Z.eqb i) (child_indices p)) eqn:EX.
    + exists b. split; [reflexivity|]. rewrite Hb, FA. split; [|tauto]. intros H. split; [|exact H]. intros _. split; [lia|].
      exists p. split; [exact Hp|]. apply existsb_exists in EX as (x & Ix & Ex). apply Z.eqb_eq in Ex. subst x. exact Ix.
    + exists false. split; [reflexivity|]. split; [discriminate|]. intros H. destruct (proj1 FA H) as [H1 _]; clear H; rename H1 into H.
      destruct (H P) as (_ & p' & Hp' & I). rewrite <- (tree_at_fun _ _ _ _ Hp Hp') in I.
      assert (existsb (Z.eqb i) (child_indices p) = true); [|congruence]. apply existsb_exists. exists i. split; [exact I|lia].
  - cbn [bind]. exists b. split; [reflexivity|]. rewrite Hb, FA. split; [|tauto]. intros H. split; [lia|exact H].
Qed.

Lemma check_from_spec (t : tree) l : (forall i, In i l -> 0 <= i < TreeSize t) ->
  exists b, check_tree_from t l = Ok b /\ (b = true <-> forall i, In i l -> fine_at t i).
Proof.
  induction l as [|i l IH]; intros H; cbn [check_tree_from].
  - exists true. split; [reflexivity|]. split; [intros _ i []|reflexivity].
  - destruct (check_node_spec t i (H i (or_introl eq_refl))) as (b & -> & Hb). cbn [bind].
    destruct (IH (fun j I => H j (or_intror I))) as (b' & E & Hb'). destruct b.
    + exists b'. split; [exact E|]. rewrite Hb'. split.
      * intros A j [<-|I]; [apply Hb; reflexivity|auto].
      * intros A j I. apply A. right. exact I.
    + exists false. split; [reflexivity|]. split; [discriminate|]. intros A. apply Hb, A. left. reflexivity.
Qed.

Theorem check_linkage_exact (t : tree) : exists b, CheckNodeLinkage t = Ok b /\ (b = true <-> linked_tree t).
Proof.
  unfold CheckNodeLinkage. destruct (check_from_spec t (seqZ 0 (TreeSize t))) as (b & E & Hb).
  { intros i H. apply seqZ_in in H. exact H. }
  exists b. split; [exact E|]. rewrite Hb. clear E Hb. split.
  - intros F. split.
    + intros i n Hn P. apply (F i (proj2 (seqZ_in _ _ _) (tree_at_range _ _ _ Hn)) n Hn). exact P.
    + intros i n c Hn I. destruct (proj2 (F i (proj2 (seqZ_in _ _ _) (tree_at_range _ _ _ Hn)) n Hn) c I) as (m & _ & A & B). eauto.
  - intros [LP LC] i I n Hn. split; [intros P; exact (LP i n Hn P)|]. intros c Ic. destruct (LC i n c Hn Ic) as (m & Hm & Pm).
    exists m. split; [|auto]. destruct (LP c m Hm) as [L _]; [rewrite Pm; apply (tree_at_range _ _ _ Hn)|]. lia.
Qed.

Lemma set_nodes_exact (nodes t : tree) :
  (linked_tree nodes /\ SetNodes nodes t = (Ok true, nodes)) \/ (~ linked_tree nodes /\ SetNodes nodes t = (Ok false, t)).
Proof.
  unfold SetNodes. destruct (check_linkage_exact nodes) as (b & E & Hb). unfold ebind, lift. rewrite E.
  destruct b; [left|right]; (split; [|reflexivity]); [tauto|]. intros H. apply Hb in H. discriminate.
Qed.
Lemma make_tree_exact (nodes : tree) :
  (linked_tree nodes /\ MakeTree nodes = Ok nodes) \/ (~ linked_tree nodes /\ MakeTree nodes = Throw InvalidArgument).
Proof.
  unfold MakeTree. destruct (check_linkage_exact nodes) as (b & -> & Hb). cbn [bind].
  destruct b; [left|right]; (split; [|reflexivity]); [tauto|]. intros H. apply Hb in H. discriminate.
Qed.

Lemma add_node_at (t : tree) v i n : tree_at (t ++ [mkRrtNode v (-1) []]) i n <->
  tree_at t i n \/ (i = TreeSize t /\ n = mkRrtNode v (-1) []).
Proof.
  unfold tree_at, TreeSize. split.
  - intros [I E]. destruct (Nat.lt_ge_cases (Z.to_nat i) (length t)) as [L|L].
    + rewrite nth_error_app1 in E by exact L. auto.
    + rewrite nth_error_app2 in E by exact L. destruct (Z.to_nat i - length t)%nat as [|k] eqn:K; [|destruct k; discriminate].
      cbn in E. injection E as <-. right. split; [lia|reflexivity].
  - intros [[I E]|[-> ->]].
    + split; [exact I|]. rewrite nth_error_app1; [exact E|]. apply nth_error_Some. congruence.
    + split; [lia|]. rewrite nth_error_app2, Nat2Z.id, Nat.sub_diag by lia. reflexivity.
Qed.

Lemma add_node_sound once root edge (t : tree) v : sound_tree once root edge t -> root v ->
  exists t', AddTreeNode v t = (Ok (TreeSize t), t') /\ sound_tree once root edge t' /\ tree_extends t t' /\
    TreeSize t' = TreeSize t + 1 /\ tree_at t' (TreeSize t) (mkRrtNode v (-1) []).
Proof.
  intros ([LP LC] & ON & RT & ED) R. exists (t ++ [mkRrtNode v (-1) []]).
  assert (OLD : forall i n, tree_at t i n -> tree_at (t ++ [mkRrtNode v (-1) []]) i n) by (intros; apply add_node_at; auto).
  split.
  { unfold AddTreeNode, ebind, get, put, ret. rewrite size_snoc. replace (TreeSize t + 1 - 1) with (TreeSize t) by lia. reflexivity. }
  split; [split; [split|split; [|split]]|split; [|split]].
  - intros i n H P. apply add_node_at in H as [H|[-> ->]]; [|cbn in P; lia].
    destruct (LP i n H P) as (L & p & Hp & Ip). split; [exact L|]. exists p. auto.
  - intros i n c H I. apply add_node_at in H as [H|[-> ->]]; [|destruct I].
    destruct (LC i n c H I) as (m & Hm & Pm). exists m. auto.
  - intros O i n H. apply add_node_at in H as [H|[-> ->]]; [exact (ON O i n H)|constructor].
  - intros i n H P. apply add_node_at in H as [H|[-> ->]]; [exact (RT i n H P)|exact R].
  - intros i n p H Hp. apply add_node_at in H as [H|[-> ->]].
    + apply add_node_at in Hp as [Hp|[E ->]]; [exact (ED i n p H Hp)|].
      destruct (LP i n H) as [_ (q & Hq & _)]; [rewrite E; unfold TreeSize; lia|]. apply tree_at_range in Hq. lia.
    + cbn in Hp. destruct Hp. lia.
  - intros i n H. exists n. auto.
  - apply size_snoc.
  - apply add_node_at. auto.
Qed.

(** ** Inserting below a parent that does not exist (C47) *)
Lemma add_connect_bad (t : tree) v parent : parent < 0 \/ TreeSize t < parent ->
  AddNodeAndConnect v parent t = (Throw OutOfRange, t ++ [mkRrtNode v parent []]).
Proof.
  intros H. unfold AddNodeAndConnect, ebind, get, put, lift, ret.
  destruct (get_tree_node_cases (t ++ [mkRrtNode v parent []]) parent) as [(n & _ & Hn)|[-> _]]; [|reflexivity].
  apply tree_at_range in Hn. rewrite size_snoc in Hn. lia.
Qed.
Lemma add_connect_self (t : tree) v :
  exists t', AddNodeAndConnect v (TreeSize t) t = (Ok (TreeSize t), t') /\ t' = t ++ [mkRrtNode v (TreeSize t) [TreeSize t]].
Proof.
  eexists. split; [|reflexivity]. unfold AddNodeAndConnect, ebind, get, put, lift, ret.
  assert (G : GetTreeNode (t ++ [mkRrtNode v (TreeSize t) []]) (TreeSize t) = Ok (mkRrtNode v (TreeSize t) [])).
  { apply get_tree_node. unfold tree_at, TreeSize. split; [lia|]. rewrite nth_error_app2, Nat2Z.id, Nat.sub_diag by lia. reflexivity. }
  rewrite G. rewrite size_snoc. replace (TreeSize t + 1 - 1) with (TreeSize t) by lia. unfold at_set.
  rewrite set_nth_upd by (rewrite app_length; unfold TreeSize; cbn; lia).
  f_equal. unfold TreeSize. rewrite Nat2Z.id.
  rewrite <- (Nat.add_0_r (length t)) at 2. rewrite upd_app_r. reflexivity.
Qed.
End Check.
