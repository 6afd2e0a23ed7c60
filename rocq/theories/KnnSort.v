(** A partial sort for any order: witness for [partial_sort_contract]. *)
From Verif Require Import Base KnnModel KnnSpec KnnProof.
From Coq Require Import Permutation Sorted.
Local Open Scope Z_scope.

Section S.
Context {D : Type} (ltb : D -> D -> bool).
Hypothesis O : order_laws ltb.

Fixpoint insert_by (x : Z * D) (l : list (Z * D)) : list (Z * D) :=
  match l with
  | [] => [x]
  | y :: r => if ltb (snd y) (snd x) then y :: insert_by x r else x :: l
  end.
Definition sort_by (_ : nat) (l : list (Z * D)) : list (Z * D) := fold_right insert_by [] l.

Lemma insert_by_perm x l : Permutation (insert_by x l) (x :: l).
Proof. induction l as [|y l IH]; simpl; [reflexivity|]. destruct (ltb _ _); [rewrite IH; constructor|reflexivity]. Qed.
Lemma sort_by_perm k l : Permutation (sort_by k l) l.
Proof. unfold sort_by. induction l as [|x l IH]; simpl; [reflexivity|]. rewrite insert_by_perm. now constructor. Qed.
Lemma insert_by_sorted x l : StronglySorted (fun a b => leD ltb (snd a) (snd b)) l ->
  StronglySorted (fun a b => leD ltb (snd a) (snd b)) (insert_by x l).
Proof.
  induction 1 as [|y l S IH F]; simpl; [repeat constructor|].
  destruct (ltb (snd y) (snd x)) eqn:E.
  - constructor; [exact IH|]. rewrite (Forall_forall). intros z Hz.
    rewrite insert_by_perm in Hz. destruct Hz as [<- | Hz].
    + unfold leD. destruct (ltb (snd x) (snd y)) eqn:E2; [|reflexivity].
      pose proof (ltb_trans _ O _ _ _ E E2) as X. rewrite (ltb_irrefl _ O) in X. discriminate.
    + rewrite Forall_forall in F. auto.
  - constructor; [constructor; assumption|]. constructor; [exact E|].
    eapply Forall_impl; [|exact F]. simpl. unfold leD. intros z Hz. eapply (ltb_weak _ O); eassumption.
Qed.
Lemma sort_by_contract : partial_sort_contract ltb sort_by.
Proof.
  intros k l Hk. split; [apply sort_by_perm|].
  assert (S : StronglySorted (fun a b => leD ltb (snd a) (snd b)) (sort_by k l)).
  { clear Hk. unfold sort_by. induction l; simpl; [constructor|]. apply insert_by_sorted, IHl. }
  rewrite <- (firstn_skipn k (sort_by k l)) in S. apply sorted_split in S. exact S.
Qed.
End S.
