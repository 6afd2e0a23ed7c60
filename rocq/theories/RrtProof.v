(** Proofs about trees and the RRT planner (C42-C44, C46, C47). *)
From Verif Require Import Base Effect ParallelismModel ParallelismProof RrtModel RrtSpec.
Local Open Scope Z_scope.

Section Trees.
Context {S : Type}.
Notation tree := (list (rrt_node S)).
Implicit Types (t : tree) (n p : rrt_node S).

Lemma tree_at_range t i n : tree_at t i n -> 0 <= i < TreeSize t.
Proof.
  intros [H E]. assert (Z.to_nat i < length t)%nat by (apply nth_error_Some; congruence). unfold TreeSize. lia.
Qed.
Lemma tree_at_ex t i : 0 <= i < TreeSize t -> exists n, tree_at t i n.
Proof.
  intros H. destruct (nth_error t (Z.to_nat i)) as [n|] eqn:E.
  - exists n. split; [lia|exact E].
  - apply nth_error_None in E. unfold TreeSize in H. lia.
Qed.
Lemma tree_at_fun t i n n' : tree_at t i n -> tree_at t i n' -> n = n'.
Proof. intros [_ A] [_ B]. congruence. Qed.
Lemma get_tree_node t i n : GetTreeNode t i = Ok n <-> tree_at t i n.
Proof.
  unfold GetTreeNode, tree_at, at_get. destruct (Z.ltb_spec i 0) as [L|L].
  - split; [discriminate|lia].
  - destruct (nth_error t (Z.to_nat i)) as [m|]; split; intros H; try discriminate.
    + injection H as ->. auto.
    + destruct H as [_ H]. congruence.
    + destruct H as [_ H]. discriminate.
Qed.
Lemma get_tree_node_cases t i : (exists n, GetTreeNode t i = Ok n /\ tree_at t i n) \/
  (GetTreeNode t i = Throw OutOfRange /\ ~ 0 <= i < TreeSize t).
Proof.
  unfold GetTreeNode, at_get, tree_at, TreeSize. destruct (Z.ltb_spec i 0) as [L|L]; [right; split; [reflexivity|lia]|].
  destruct (nth_error t (Z.to_nat i)) as [m|] eqn:N; [left; eauto 6|].
  right. apply nth_error_None in N. split; [reflexivity|lia].
Qed.

Lemma extends_refl t : tree_extends t t.
Proof. intros i n H. exists n. auto. Qed.
Lemma extends_trans t1 t2 t3 : tree_extends t1 t2 -> tree_extends t2 t3 -> tree_extends t1 t3.
Proof.
  intros A B i n H. destruct (A i n H) as (n2 & H2 & V2 & P2). destruct (B i n2 H2) as (n3 & H3 & V3 & P3).
  exists n3. split; [exact H3|]. split; congruence.
Qed.
Lemma extends_size t t' : tree_extends t t' -> TreeSize t <= TreeSize t'.
Proof.
  intros H. destruct (Z.eq_dec (TreeSize t) 0) as [->|NZ]; [unfold TreeSize; lia|].
  assert (R : 0 <= TreeSize t - 1 < TreeSize t) by (unfold TreeSize in *; lia).
  destruct (tree_at_ex _ _ R) as [n Hn]. destruct (H _ _ Hn) as (n' & Hn' & _). apply tree_at_range in Hn'. lia.
Qed.

(** ** Adding a node *)
Definition added t (v : S) (parent : Z) p : tree :=
  upd (t ++ [mkRrtNode v parent []]) (Z.to_nat parent) (AddChildIndex p (TreeSize t)).

Lemma size_snoc t n : TreeSize (t ++ [n]) = TreeSize t + 1.
Proof. unfold TreeSize. rewrite app_length. simpl length. lia. Qed.

Lemma add_connect_ok t v parent p : tree_at t parent p ->
  AddNodeAndConnect v parent t = (Ok (TreeSize t), added t v parent p).
Proof.
  intros H. pose proof (tree_at_range _ _ _ H) as R. unfold AddNodeAndConnect, ebind, get, put, lift, ret.
  assert (G : GetTreeNode (t ++ [mkRrtNode v parent []]) parent = Ok p).
  { apply get_tree_node. split; [lia|]. rewrite nth_error_app1 by (unfold TreeSize in R; lia). apply H. }
  rewrite G. rewrite size_snoc. replace (TreeSize t + 1 - 1) with (TreeSize t) by lia.
  unfold at_set. rewrite set_nth_upd; [reflexivity|]. rewrite app_length. unfold TreeSize in R. lia.
Qed.

Lemma added_at t v parent p i n : tree_at t parent p ->
  (tree_at (added t v parent p) i n <->
   (i = parent /\ n = AddChildIndex p (TreeSize t)) \/
   (i = TreeSize t /\ n = mkRrtNode v parent []) \/
   (i <> parent /\ tree_at t i n)).
Proof.
  intros H. pose proof (tree_at_range _ _ _ H) as R. unfold added, tree_at.
  rewrite nth_error_upd, app_length. cbn [length]. unfold TreeSize in *.
  destruct (Nat.eq_dec (Z.to_nat parent) (Z.to_nat i)) as [E|E].
  - destruct (lt_dec (Z.to_nat parent) (length t + 1)) as [L|L]; [|lia]. split.
    + intros [I X]. injection X as <-. left. split; [lia|reflexivity].
    + intros [[-> ->]|[[-> _]|[NE [I X]]]]; [split; [lia|reflexivity]|lia|lia].
  - destruct (Z.eq_dec i (Z.of_nat (length t))) as [->|NS].
    + rewrite nth_error_app2, Nat2Z.id, Nat.sub_diag by lia. cbn. split.
      * intros [_ X]. injection X as <-. right. left. auto.
      * intros [[C _]|[[_ ->]|[_ [_ X]]]]; [lia|split; [lia|reflexivity]|].
        exfalso. assert (length t < length t)%nat; [|lia]. apply nth_error_Some. congruence.
    + split.
      * intros [I X]. right. right. split; [lia|]. split; [exact I|].
        destruct (Nat.lt_ge_cases (Z.to_nat i) (length t)) as [L|L]; [rewrite nth_error_app1 in X by lia; exact X|].
        exfalso. assert (Z.to_nat i < length (t ++ [mkRrtNode v parent []]))%nat as B by (apply nth_error_Some; congruence).
        rewrite app_length in B. cbn in B. lia.
      * intros [[-> _]|[[-> _]|[NE [I X]]]]; [lia|lia|]. split; [exact I|]. rewrite nth_error_app1; [exact X|].
        apply nth_error_Some. congruence.
Qed.

Lemma add_child_value p c : state_value (AddChildIndex p c) = state_value p.
Proof. unfold AddChildIndex. destruct (existsb _ _); reflexivity. Qed.
Lemma add_child_parent p c : parent_index (AddChildIndex p c) = parent_index p.
Proof. unfold AddChildIndex. destruct (existsb _ _); reflexivity. Qed.
Lemma add_child_in p c x : In x (child_indices (AddChildIndex p c)) <-> In x (child_indices p) \/ x = c.
Proof.
  unfold AddChildIndex. destruct (existsb _ _) eqn:E.
  - apply existsb_exists in E as (y & Hy & Ey). apply Z.eqb_eq in Ey. subst y. intuition congruence.
  - cbn. rewrite in_app_iff. cbn. intuition.
Qed.
Lemma add_child_nodup p c : NoDup (child_indices p) -> NoDup (child_indices (AddChildIndex p c)).
Proof.
  intros H. unfold AddChildIndex. destruct (existsb _ _) eqn:E; [exact H|]. cbn.
  assert (N : ~ In c (child_indices p)).
  { intros I. assert (existsb (Z.eqb c) (child_indices p) = true); [|congruence]. apply existsb_exists. exists c. split; [exact I|lia]. }
  induction (child_indices p) as [|x l IH]; cbn.
  - constructor; [auto|constructor].
  - inversion H; subst. constructor.
    + rewrite in_app_iff. cbn. intros [I|[->|[]]]; [auto|]. apply N. left. reflexivity.
    + apply IH; [assumption| |intros I; apply N; right; exact I].
      cbn in E. destruct (c =? x); [discriminate|exact E].
Qed.

Lemma added_extends t v parent p : tree_at t parent p -> tree_extends t (added t v parent p).
Proof.
  intros H i n Hi. destruct (Z.eq_dec i parent) as [->|NE].
  - rewrite (tree_at_fun _ _ _ _ Hi H). exists (AddChildIndex p (TreeSize t)).
    rewrite added_at by exact H. rewrite add_child_value, add_child_parent. auto.
  - exists n. rewrite added_at by exact H. auto.
Qed.

Lemma added_sound once root edge t v parent p : sound_tree once root edge t -> tree_at t parent p ->
  edge (state_value p) v -> sound_tree once root edge (added t v parent p).
Proof.
  intros ([LP LC] & ON & RT & ED) H Hv. pose proof (tree_at_range _ _ _ H) as R.
  pose proof (added_at t v parent p) as AT. specialize (fun i n => AT i n H).
  assert (OLD : forall i n, tree_at t i n -> exists n', tree_at (added t v parent p) i n' /\ state_value n' = state_value n /\
      parent_index n' = parent_index n /\ forall c, In c (child_indices n) -> In c (child_indices n')).
  { intros i n Hi. destruct (Z.eq_dec i parent) as [->|NE].
    - rewrite (tree_at_fun _ _ _ _ Hi H). exists (AddChildIndex p (TreeSize t)).
      rewrite AT, add_child_value, add_child_parent. repeat split; auto. intros c Hc. apply add_child_in. auto.
    - exists n. rewrite AT. auto 10. }
  split; [split|split; [|split]].
  - intros i n Hi P0. apply AT in Hi as [[-> ->]|[[-> ->]|[NE Hi]]].
    + rewrite add_child_parent in *. destruct (LP _ _ H P0) as (L & q & Hq & Iq). split; [exact L|].
      destruct (OLD _ _ Hq) as (q' & Hq' & _ & _ & C). exists q'. auto.
    + cbn in *. split; [lia|]. exists (AddChildIndex p (TreeSize t)). split; [apply AT; auto|]. apply add_child_in. auto.
    + destruct (LP _ _ Hi P0) as (L & q & Hq & Iq). split; [exact L|].
      destruct (OLD _ _ Hq) as (q' & Hq' & _ & _ & C). exists q'. auto.
  - intros i n c Hi Hc. apply AT in Hi as [[-> ->]|[[-> ->]|[NE Hi]]].
    + apply add_child_in in Hc as [Hc| ->].
      * destruct (LC _ _ _ H Hc) as (m & Hm & Pm). destruct (OLD _ _ Hm) as (m' & Hm' & _ & Pm' & _). exists m'. split; [exact Hm'|congruence].
      * exists (mkRrtNode v parent []). split; [apply AT; auto|reflexivity].
    + destruct Hc.
    + destruct (LC _ _ _ Hi Hc) as (m & Hm & Pm). destruct (OLD _ _ Hm) as (m' & Hm' & _ & Pm' & _). exists m'. split; [exact Hm'|congruence].
  - intros O i n Hi. apply AT in Hi as [[-> ->]|[[-> ->]|[NE Hi]]].
    + apply add_child_nodup. exact (ON O _ _ H).
    + constructor.
    + exact (ON O _ _ Hi).
  - intros i n Hi P0. apply AT in Hi as [[-> ->]|[[-> ->]|[NE Hi]]].
    + rewrite add_child_value, add_child_parent in *. exact (RT _ _ H P0).
    + cbn in P0. lia.
    + exact (RT _ _ Hi P0).
  - assert (EQ : forall i q, i < TreeSize t -> tree_at (added t v parent p) i q ->
        exists q0, tree_at t i q0 /\ state_value q = state_value q0).
    { intros i q Li Hq. apply AT in Hq as [[-> ->]|[[-> ->]|[NE Hi]]].
      - exists p. split; [exact H|apply add_child_value].
      - lia.
      - exists q. auto. }
    intros i n q Hi Hq. apply AT in Hi as [[-> ->]|[[-> ->]|[NE Hi]]].
    + rewrite add_child_value, add_child_parent in *.
      assert (P0 : 0 <= parent_index p) by (destruct Hq; assumption).
      destruct (LP _ _ H P0) as (L & q1 & Hq1 & _). pose proof (tree_at_range _ _ _ Hq1).
      destruct (EQ (parent_index p) q ltac:(lia) Hq) as (q0 & Hq0 & ->). exact (ED _ _ _ H Hq0).
    + cbn in *. destruct (EQ parent q ltac:(lia) Hq) as (q0 & Hq0 & ->). rewrite (tree_at_fun _ _ _ _ Hq0 H). exact Hv.
    + assert (P0 : 0 <= parent_index n) by (destruct Hq; assumption).
      destruct (LP _ _ Hi P0) as (L & q1 & Hq1 & _). pose proof (tree_at_range _ _ _ Hq1).
      destruct (EQ (parent_index n) q ltac:(lia) Hq) as (q0 & Hq0 & ->). exact (ED _ _ _ Hi Hq0).
Qed.

Lemma added_new t v parent p : tree_at t parent p ->
  tree_at (added t v parent p) (TreeSize t) (mkRrtNode v parent []).
Proof. intros H. apply added_at; [exact H|]. right. left. auto. Qed.

Lemma added_size t v parent p : TreeSize (added t v parent p) = TreeSize t + 1.
Proof. unfold added, TreeSize. rewrite upd_length, app_length. simpl length. lia. Qed.

(** ** Paths *)
Lemma walk_path t fuel : forall i n l, tree_at t i n -> walk fuel t (parent_index n) = Ok l ->
  path_to t i (rev (state_value n :: l)).
Proof.
  induction fuel as [|f IH]; intros i n l Hi Hw; cbn in Hw; destruct (Z.leb_spec 0 (parent_index n)) as [P|P].
  - discriminate.
  - injection Hw as <-. cbn. apply path_root; [exact Hi|lia].
  - destruct (GetTreeNode t (parent_index n)) as [p|e| |] eqn:G; try discriminate. cbn in Hw.
    destruct (walk f t (parent_index p)) as [r|e| |] eqn:E; try discriminate. cbn in Hw. injection Hw as <-.
    apply get_tree_node in G. specialize (IH _ _ _ G E). cbn [rev] in IH |- *. eapply path_step; eauto.
  - injection Hw as <-. cbn. apply path_root; [exact Hi|lia].
Qed.

Lemma extract_path t i l : ExtractSolutionPath t i = Ok l -> path_to t i l.
Proof.
  unfold ExtractSolutionPath. destruct (GetTreeNode t i) as [n|e| |] eqn:G; try discriminate. cbn [bind].
  destruct (walk _ t (parent_index n)) as [r|e| |] eqn:E; try discriminate. cbn [bind]. intros H. injection H as <-.
  apply get_tree_node in G. eapply walk_path; eauto.
Qed.

Lemma walk_ends t : linked_tree t -> forall fuel i, i < Z.of_nat fuel -> i < TreeSize t -> exists l, walk fuel t i = Ok l.
Proof.
  intros [LP _]. induction fuel as [|f IH]; intros i L R.
  - cbn. destruct (Z.leb_spec 0 i); [lia|]. eauto.
  - cbn [walk]. destruct (Z.leb_spec 0 i) as [P|P]; [|eauto].
    destruct (tree_at_ex t i (conj P R)) as [n Hn]. rewrite (proj2 (get_tree_node _ _ _) Hn). cbn [bind].
    destruct (IH (parent_index n)) as [l E].
    + destruct (Z.lt_ge_cases (parent_index n) 0); [lia|]. destruct (LP _ _ Hn ltac:(lia)). lia.
    + destruct (Z.lt_ge_cases (parent_index n) 0); [lia|]. destruct (LP _ _ Hn ltac:(lia)). lia.
    + rewrite E. cbn. eauto.
Qed.

Lemma extract_ok t i : linked_tree t -> 0 <= i < TreeSize t -> exists l, ExtractSolutionPath t i = Ok l.
Proof.
  intros L R. destruct (tree_at_ex t i R) as [n Hn]. unfold ExtractSolutionPath.
  rewrite (proj2 (get_tree_node _ _ _) Hn). cbn [bind].
  destruct (walk_ends t L (length t) (parent_index n)) as [l E].
  - destruct (Z.lt_ge_cases (parent_index n) 0); [lia|]. destruct L as [LP _]. destruct (LP _ _ Hn ltac:(lia)).
    unfold TreeSize in R. lia.
  - destruct (Z.lt_ge_cases (parent_index n) 0); [lia|]. destruct L as [LP _]. destruct (LP _ _ Hn ltac:(lia)). lia.
  - rewrite E. cbn. eauto.
Qed.

Lemma extract_out t i : ~ 0 <= i < TreeSize t -> ExtractSolutionPath t i = Throw OutOfRange.
Proof.
  intros H. unfold ExtractSolutionPath. destruct (get_tree_node_cases t i) as [(n & _ & Hn)|[-> _]]; [|reflexivity].
  apply tree_at_range in Hn. contradiction.
Qed.

Lemma path_to_fun t i l : path_to t i l -> forall l', path_to t i l' -> l = l'.
Proof.
  induction 1 as [i n Hi P|i n l Hi P H IH]; intros l' H'; inversion H' as [i' n' Hi' P'|i' n' l2 Hi' P' H2]; subst;
    assert (n' = n) by (eapply tree_at_fun; eauto); subst n'; try lia; [reflexivity|].
  rewrite (IH _ H2). reflexivity.
Qed.

Lemma path_ends t i l n : path_to t i l -> tree_at t i n -> exists r, l = r ++ [state_value n].
Proof.
  intros H Hn. inversion H as [i' n' Hi' P'|i' n' l2 Hi' P' H2]; subst;
    assert (n' = n) by (eapply tree_at_fun; eauto); subst n'; [exists []; reflexivity|eauto].
Qed.

Lemma consecutive_snoc (edge : S -> S -> Prop) l x : consecutive edge l ->
  (forall r a, l = r ++ [a] -> edge a x) -> consecutive edge (l ++ [x]).
Proof.
  intros H HE k a b Ka Kb.
  assert (Lk : (k + 1 < length (l ++ [x]))%nat) by (apply nth_error_Some; congruence). rewrite app_length in Lk. cbn in Lk.
  rewrite nth_error_app1 in Ka by lia.
  destruct (Nat.eq_dec (k + 1) (length l)) as [E|E].
  - rewrite nth_error_app2, E, Nat.sub_diag in Kb by lia. cbn in Kb. injection Kb as <-.
    destruct (exists_last (l := l)) as (r & z & El); [intros ->; cbn in Lk; lia|].
    apply (HE r). rewrite El in Ka |- *. rewrite El, app_length in E. cbn in E.
    rewrite nth_error_app2 in Ka by lia. replace (k - length r)%nat with 0%nat in Ka by lia. cbn in Ka. congruence.
  - rewrite nth_error_app1 in Kb by lia. exact (H k a b Ka Kb).
Qed.

Lemma path_sound once root edge t i l : sound_tree once root edge t -> path_to t i l ->
  starts_with root l /\ consecutive edge l.
Proof.
  intros (_ & _ & RT & ED). induction 1 as [i n Hi P|i n l Hi P H [(s & r & -> & Hs) C]].
  - split; [exists (state_value n), []; split; [reflexivity|exact (RT _ _ Hi P)]|].
    intros [|k] a b Ka Kb; cbn in Kb; [discriminate|]. destruct k; discriminate.
  - split; [exists s, (r ++ [state_value n]); auto|]. apply consecutive_snoc; [exact C|].
    intros r' a E.
    assert (exists q, tree_at t (parent_index n) q) as [q Hq].
    { inversion H; subst; eauto. }
    destruct (path_ends _ _ _ _ H Hq) as [r2 E2]. rewrite E in E2. apply app_inj_tail in E2 as [_ ->].
    exact (ED _ _ _ Hi Hq).
Qed.

Lemma linked_path t i : linked_tree t -> 0 <= i < TreeSize t -> exists l, path_to t i l.
Proof. intros L R. destruct (extract_ok t i L R) as [l E]. exists l. apply extract_path. exact E. Qed.
End Trees.
