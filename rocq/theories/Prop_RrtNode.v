(** C165: the parent and the children of a node of a planning tree, after any calls. *)
From Verif Require Import Base RrtModel RrtNodeSpec.
Local Open Scope Z_scope.

Section Node.
Context {S : Type}.
Implicit Types n : rrt_node S.

Lemma after_snoc n calls call : node_after n (calls ++ [call]) = node_after_call (node_after n calls) call.
Proof. unfold node_after. rewrite fold_left_app. reflexivity. Qed.
Lemma existsb_in c l : existsb (Z.eqb c) l = true <-> In c l.
Proof. rewrite existsb_exists. split; [intros (x & I & E); apply Z.eqb_eq in E; now subst|intros I; exists c; split; [exact I|apply Z.eqb_refl]]. Qed.
Lemma one_call n call c : In c (child_indices (node_after_call n call)) <->
  (In c (child_indices n) /\ call <> RemoveChild c /\ call <> ClearChildren) \/ call = AddChild c.
Proof.
  destruct call as [p|d|d|]; cbn [node_after_call].
  - cbn. intuition congruence.
  - unfold AddChildIndex. destruct (existsb (Z.eqb d) (child_indices n)) eqn:E.
    + apply existsb_in in E. split; [intros I; left; repeat split; [exact I|discriminate..]|intros [[I _]|X]; [exact I|injection X as ->; exact E]].
    + cbn [child_indices]. rewrite in_app_iff. cbn [In]. split; [intros [I|[->|[]]]; [left; repeat split; [exact I|discriminate..]|now right]|].
      intros [[I _]|X]; [now left|injection X as ->; right; now left].
  - unfold RemoveChildIndex. cbn [child_indices]. rewrite filter_In. destruct (Z.eqb_spec c d) as [->|N]; cbn [negb]; intuition congruence.
  - cbn. intuition congruence.
Qed.
Lemma drops_snoc c calls call : never_drops c (calls ++ [call]) <-> never_drops c calls /\ call <> RemoveChild c /\ call <> ClearChildren.
Proof. unfold never_drops. rewrite !in_app_iff. cbn [In]. intuition congruence. Qed.
Lemma split_snoc {A} (calls : list A) call before x after : calls ++ [call] = before ++ x :: after ->
  (after = [] /\ calls = before /\ call = x) \/ exists after', after = after' ++ [call] /\ calls = before ++ x :: after'.
Proof.
  intros H. destruct after as [|y after _] using rev_ind.
  - left. apply app_inj_tail in H as [-> ->]. auto.
  - right. rewrite app_comm_cons, app_assoc in H. apply app_inj_tail in H as [-> ->]. exists after. auto.
Qed.
Lemma children_after n calls c : In c (child_indices (node_after n calls)) <-> still_child (child_indices n) calls c.
Proof.
  induction calls as [|call calls IH] using rev_ind.
  - cbn. unfold still_child, never_drops. split; [intros I; left; split; [exact I|cbn; tauto]|intros [[I _]|(b & a & E & _)]; [exact I|destruct b; discriminate]].
  - rewrite after_snoc, one_call, IH. unfold still_child. split.
    + intros [[[[I D]|(b & a & -> & D)] N]| ->].
      * left. split; [exact I|]. apply drops_snoc. tauto.
      * right. exists b, (a ++ [call]). split; [rewrite <- app_assoc; reflexivity|]. apply drops_snoc. tauto.
      * right. exists calls, []. split; [reflexivity|]. split; intros [].
    + intros [[I D]|(b & a & E & D)].
      * apply drops_snoc in D as [D N]. left. split; [left; split; assumption|exact N].
      * apply split_snoc in E as [(-> & -> & ->)|(a' & -> & ->)]; [now right|]. apply drops_snoc in D as [D N]. left. split; [|exact N]. right. exists b, a'. auto.
Qed.
Lemma parent_after n calls : last_parent (parent_index n) calls (parent_index (node_after n calls)).
Proof.
  induction calls as [|call calls IH] using rev_ind; [left; split; [reflexivity|intros q []]|]. rewrite after_snoc.
  assert (KEEP : (forall q, call <> SetParent q) -> parent_index (node_after_call (node_after n calls) call) = parent_index (node_after n calls)).
  { destruct call as [p|c|c|]; intros N; cbn; [exfalso; now apply (N p)| |reflexivity..]. unfold AddChildIndex. destruct existsb; reflexivity. }
  assert (SNOC : (forall q, call <> SetParent q) -> forall l, (forall q, ~ In (SetParent q) l) -> forall q, ~ In (SetParent q) (l ++ [call])).
  { intros N l H q I. apply in_app_iff in I as [I|[I|[]]]; [now apply (H q)|now apply (N q)]. }
  assert (OTHER : (forall q, call <> SetParent q) -> last_parent (parent_index n) (calls ++ [call]) (parent_index (node_after_call (node_after n calls) call))).
  { intros N. rewrite KEEP by exact N. destruct IH as [[E H]|(b & a & E & H)].
    - left. split; [exact E|]. now apply SNOC.
    - right. exists b, (a ++ [call]). split; [|now apply SNOC]. etransitivity; [exact (f_equal (fun l => l ++ [call]) E)|]. rewrite <- app_assoc. reflexivity. }
  destruct call as [p|c|c|]; [|apply OTHER; discriminate..].
  right. exists calls, []. split; [reflexivity|intros q []].
Qed.
Lemma nodup_call n call : NoDup (child_indices n) -> NoDup (child_indices (node_after_call n call)).
Proof.
  intros ND. destruct call as [p|c|c|]; cbn [node_after_call].
  - exact ND.
  - unfold AddChildIndex. destruct (existsb (Z.eqb c) (child_indices n)) eqn:E; [exact ND|]. cbn [child_indices].
    apply NoDup_Add with (a := c) (l := child_indices n); [rewrite <- (app_nil_r (child_indices n)) at 1; apply Add_app|].
    split; [exact ND|]. intros I. apply existsb_in in I. congruence.
  - cbn. now apply NoDup_filter.
  - constructor.
Qed.
Lemma nodup_after n calls : NoDup (child_indices n) -> NoDup (child_indices (node_after n calls)).
Proof. revert n. induction calls as [|call calls IH]; intros n ND; [exact ND|]. apply IH, nodup_call, ND. Qed.
Lemma before_call n call x y : listed_before (child_indices n) x y -> call <> RemoveChild x -> call <> RemoveChild y -> call <> ClearChildren ->
  listed_before (child_indices (node_after_call n call)) x y.
Proof.
  intros (a & b & c & E) NX NY NC. destruct call as [p|d|d|]; cbn [node_after_call].
  - exists a, b, c. exact E.
  - unfold AddChildIndex. destruct existsb; [exists a, b, c; exact E|]. cbn [child_indices]. exists a, b, (c ++ [d]). rewrite E. rewrite <- app_assoc. cbn [app]. rewrite <- app_assoc. reflexivity.
  - unfold RemoveChildIndex. cbn [child_indices]. rewrite E. rewrite filter_app. cbn [filter]. destruct (Z.eqb_spec x d) as [->|_]; [congruence|]. cbn [negb].
    rewrite filter_app. cbn [filter]. destruct (Z.eqb_spec y d) as [->|_]; [congruence|]. cbn [negb]. eexists _, _, _. reflexivity.
  - congruence.
Qed.
Lemma before_after n calls x y : listed_before (child_indices n) x y -> never_drops x calls -> never_drops y calls ->
  listed_before (child_indices (node_after n calls)) x y.
Proof.
  revert n. induction calls as [|call calls IH]; intros n B X Y; [exact B|]. apply IH.
  - apply before_call; [exact B|..]; intros ->; [apply (proj1 X)|apply (proj1 Y)|apply (proj2 X)]; now left.
  - destruct X as [X1 X2]. split; intros I; [apply X1|apply X2]; now right.
  - destruct Y as [Y1 Y2]. split; intros I; [apply Y1|apply Y2]; now right.
Qed.
End Node.

(** C165: after any sequence of calls the children are those that were added (or there at the
    start) and have not been removed since, *)
Theorem C165_children : forall (S : Type) (n : rrt_node S) calls c,
  In c (child_indices (node_after n calls)) <-> still_child (child_indices n) calls c.
Proof. intros S. exact children_after. Qed.
(** each listed once, if that was so at the start (a new node has no children), *)
Theorem C165_once : forall (S : Type) (n : rrt_node S) calls, NoDup (child_indices n) -> NoDup (child_indices (node_after n calls)).
Proof. intros S. exact nodup_after. Qed.
(** in the order in which they were added: a child added that is not there comes after all
    others, and two children that stay keep their order; *)
Theorem C165_order : forall (S : Type) (n : rrt_node S),
  (forall c x, ~ In c (child_indices n) -> In x (child_indices n) -> listed_before (child_indices (node_after n [AddChild c])) x c) /\
  (forall calls x y, listed_before (child_indices n) x y -> never_drops x calls -> never_drops y calls ->
     listed_before (child_indices (node_after n calls)) x y).
Proof.
  intros S n. split; [|intros; now apply before_after]. intros c x N I. cbn. unfold AddChildIndex.
  destruct (existsb (Z.eqb c) (child_indices n)) eqn:E; [apply existsb_in in E; contradiction|]. cbn [child_indices].
  apply in_split in I as (a & b & ->). exists a, b, []. rewrite <- app_assoc. reflexivity.
Qed.
(** the parent is the last one set; the value never changes. *)
Theorem C165_parent : forall (S : Type) (n : rrt_node S) calls,
  last_parent (parent_index n) calls (parent_index (node_after n calls)) /\ state_value (node_after n calls) = state_value n.
Proof.
  intros S n calls. split; [apply parent_after|]. revert n. induction calls as [|call calls IH]; intros n; [reflexivity|].
  unfold node_after in *. cbn [fold_left]. rewrite IH. destruct call; cbn; try reflexivity. unfold AddChildIndex. destruct existsb; reflexivity.
Qed.
Print Assumptions C165_children.
Print Assumptions C165_once.
Print Assumptions C165_order.
Print Assumptions C165_parent.
Example C165_nonvacuous :
  let calls := [AddChild 3; SetParent 7; AddChild 5; AddChild 3; RemoveChild 3; AddChild 4; AddChild 3] in
  node_after (mkRrtNode tt (-1) []) calls = mkRrtNode tt 7 [5; 4; 3] /\ still_child [] calls 3 /\ ~ still_child [] (calls ++ [RemoveChild 4]) 4.
Proof.
  cbv zeta. split; [reflexivity|]. split.
  - right. exists [AddChild 3; SetParent 7; AddChild 5; AddChild 3; RemoveChild 3; AddChild 4], []. split; [reflexivity|]. split; intros [].
  - intros H. apply (proj2 (children_after (mkRrtNode tt (-1) []) _ 4)) in H. cbn in H. intuition discriminate.
Qed.
