(** Proofs about PruneGraph (C14) and graph serialization (C16). *)
From Coq Require Import Permutation Sorted ZifyBool ZifyNat.
From Verif Require Import Base SerializationModel SerializationSpec SerializationProof
  SerializationProof2 ParallelismModel ParallelismProof GraphModel GraphSpec GraphProof.
Local Open Scope Z_scope.

(** ** Numbers of survivors *)

Lemma upto_seqZ n : seqZ 0 (Z.of_nat n) = upto n.
Proof.
  induction n as [|n IH]; [reflexivity|]. cbn [upto]. rewrite <- IH.
  rewrite (seqZ_split 0 (Z.of_nat n)) by lia.
  replace (Z.of_nat (S n)) with (Z.of_nat n + 1) by lia. rewrite seqZ_one. reflexivity.
Qed.

Lemma upto_length n : length (upto n) = n.
Proof. induction n as [|n IH]; [reflexivity|]. simpl. rewrite app_length, IH. simpl. lia. Qed.

Lemma upto_in n i : In i (upto n) <-> 0 <= i < Z.of_nat n.
Proof. rewrite <- upto_seqZ. apply seqZ_in. Qed.

Lemma survives_true P i : survives P i = true <-> ~ In i P.
Proof.
  unfold survives. rewrite negb_true_iff. split.
  - intros H Hi. assert (existsb (Z.eqb i) P = true) by (apply existsb_exists; exists i; split; [exact Hi|lia]).
    congruence.
  - intros H. apply not_true_is_false. intros C. apply existsb_exists in C as (x & Hx & Ex).
    apply Z.eqb_eq in Ex. subst. auto.
Qed.

Lemma set_count_survives P i : set_count i P = negb (survives P i).
Proof. unfold set_count, survives. rewrite negb_involutive. reflexivity. Qed.

Lemma filter_length_split {A} (f : A -> bool) l :
  (length (filter f l) + length (filter (fun x => negb (f x)) l))%nat = length l.
Proof. induction l as [|x l IH]; [reflexivity|]. simpl. destruct (f x); simpl; lia. Qed.

Lemma new_number_count P i : NoDup P -> (forall p, In p P -> 0 <= p) -> 0 <= i ->
  new_number P i = i - Z.of_nat (length (filter (fun p => p <? i) P)).
Proof.
  intros ND HP Hi. unfold new_number.
  pose proof (filter_length_split (survives P) (upto (Z.to_nat i))) as S. rewrite upto_length in S.
  assert (length (filter (fun x => negb (survives P x)) (upto (Z.to_nat i))) =
          length (filter (fun p => p <? i) P)) as E; [|lia].
  apply Permutation_length, NoDup_Permutation.
  - apply NoDup_filter. rewrite <- upto_seqZ. apply seqZ_nodup.
  - apply NoDup_filter, ND.
  - intros x. rewrite !filter_In, upto_in. rewrite negb_true_iff.
    pose proof (survives_true P x) as T. destruct (survives P x) eqn:E.
    + split; [intros [_ C]; discriminate|]. intros [Hx _]. exfalso. apply T; auto.
    + assert (In x P) as Hx. { destruct (in_dec Z.eq_dec x P) as [h|h]; [exact h|]. apply T in h. discriminate. }
      specialize (HP x Hx). split; intros [H1 H2]; split; auto; lia.
Qed.

Lemma survivors_S P n : survivors P (S n) =
  survivors P n ++ (if survives P (Z.of_nat n) then [Z.of_nat n] else []).
Proof. unfold survivors. cbn [upto]. rewrite filter_app. simpl. destruct (survives P _); reflexivity. Qed.

Lemma survivors_in P n i : In i (survivors P n) <-> 0 <= i < Z.of_nat n /\ ~ In i P.
Proof. unfold survivors. rewrite filter_In, upto_in, survives_true. reflexivity. Qed.

Lemma new_number_survivors P i : 0 <= i -> new_number P i = Z.of_nat (length (survivors P (Z.to_nat i))).
Proof. reflexivity. Qed.

Lemma nth_survivors P n : forall k i, nth_error (survivors P n) k = Some i ->
  0 <= i < Z.of_nat n /\ ~ In i P /\ new_number P i = Z.of_nat k.
Proof.
  induction n as [|n IH]; intros k i H; [destruct k; discriminate|].
  rewrite survivors_S in H. destruct (lt_dec k (length (survivors P n))) as [L|L].
  - rewrite nth_error_app1 in H by exact L. destruct (IH k i H) as (A & B & C). repeat split; auto; lia.
  - rewrite nth_error_app2 in H by lia. destruct (survives P (Z.of_nat n)) eqn:E.
    + destruct (k - length (survivors P n))%nat as [|d] eqn:D; [|destruct d; discriminate].
      injection H as <-. apply survives_true in E. repeat split; auto; try lia.
      rewrite new_number_survivors by lia. rewrite Nat2Z.id. lia.
    + destruct (k - length (survivors P n))%nat; discriminate.
Qed.

Lemma survivors_nth P n i : 0 <= i < Z.of_nat n -> ~ In i P ->
  nth_error (survivors P n) (Z.to_nat (new_number P i)) = Some i.
Proof.
  intros R H. assert (In i (survivors P n)) as Hin by (apply survivors_in; auto).
  apply In_nth_error in Hin as (k & Hk). destruct (nth_survivors P n k i Hk) as (_ & _ & E).
  rewrite E, Nat2Z.id. exact Hk.
Qed.

Lemma new_number_inj P n i j : 0 <= i < Z.of_nat n -> 0 <= j < Z.of_nat n ->
  ~ In i P -> ~ In j P -> new_number P i = new_number P j -> i = j.
Proof.
  intros Ri Rj Hi Hj E. pose proof (survivors_nth P n i Ri Hi) as A.
  pose proof (survivors_nth P n j Rj Hj) as B. rewrite E in A. congruence.
Qed.

(** ** Sorting *)

Lemma insertZ_perm x l : Permutation (x :: l) (insertZ x l).
Proof.
  induction l as [|y l IH]; [reflexivity|]. simpl. destruct (x <=? y); [reflexivity|].
  rewrite perm_swap. apply perm_skip. exact IH.
Qed.

Lemma sortZ_perm l : Permutation l (sortZ l).
Proof.
  induction l as [|x l IH]; [constructor|]. simpl. rewrite <- insertZ_perm. apply perm_skip. exact IH.
Qed.

Lemma insertZ_sorted x l : StronglySorted Z.le l -> StronglySorted Z.le (insertZ x l).
Proof.
  induction 1 as [|y l S IH F]; [repeat constructor|]. simpl. destruct (Z.leb_spec x y).
  - constructor; [constructor; assumption|]. constructor; [lia|].
    rewrite Forall_forall in *. intros z Hz. specialize (F z Hz). lia.
  - constructor; [exact IH|]. rewrite Forall_forall in *. intros z Hz.
    apply (Permutation_in z (Permutation_sym (insertZ_perm x l))) in Hz.
    destruct Hz as [<-|Hz]; [lia|]. apply F. exact Hz.
Qed.

Lemma sortZ_sorted l : StronglySorted Z.le (sortZ l).
Proof. induction l as [|x l IH]; [constructor|]. simpl. apply insertZ_sorted, IH. Qed.

Lemma filter_perm_length {A} (f : A -> bool) l l' : Permutation l l' ->
  length (filter f l) = length (filter f l').
Proof. induction 1; simpl; try destruct (f x); try destruct (f y); simpl; congruence. Qed.

Lemma renumber_spec l f : StronglySorted Z.le l -> ~ In f l -> forall k,
  renumber l f k = Ok (k - Z.of_nat (length (filter (fun p => p <? f) l))).
Proof.
  induction 1 as [|p l S IH F]; intros Hf k; simpl.
  - f_equal. lia.
  - destruct (Z.ltb_spec p f) as [L|L].
    + rewrite IH by (intros C; apply Hf; right; exact C). simpl. f_equal. lia.
    + destruct (Z.ltb_spec f p) as [L2|L2]; [|exfalso; apply Hf; left; lia].
      rewrite filter_none; [f_equal; simpl; lia|]. rewrite Forall_forall in F.
      intros x Hx. specialize (F x Hx). lia.
Qed.

Lemma renumber_new P f : NoDup P -> (forall p, In p P -> 0 <= p) -> 0 <= f -> ~ In f P ->
  renumber (sortZ P) f f = Ok (new_number P f).
Proof.
  intros ND HP Hf Hn. rewrite renumber_spec.
  - rewrite new_number_count by assumption. rewrite (filter_perm_length _ _ _ (sortZ_perm P)). reflexivity.
  - apply sortZ_sorted.
  - intros C. apply Hn. apply (Permutation_in f (Permutation_sym (sortZ_perm P))). exact C.
Qed.

Section Prune.
Context {V W : Type}.
Implicit Types g : list (GraphNode V W).

Lemma prune_in_edges_spec P kept (edges : list (GraphEdge W)) :
  NoDup P -> (forall p, In p P -> 0 <= p) -> (forall e, In e edges -> 0 <= from_index e) ->
  prune_in_edges P (sortZ P) kept edges =
  Ok (map (fun e => mkEdge (new_number P (from_index e)) kept (weight e) (scratchpad e))
          (filter (fun e => survives P (from_index e)) edges)).
Proof.
  intros ND HP. induction edges as [|e l IH]; intros He; [reflexivity|]. simpl.
  rewrite set_count_survives. specialize (IH (fun x Hx => He x (or_intror Hx))).
  destruct (survives P (from_index e)) eqn:E; simpl; [|exact IH].
  apply survives_true in E.
  rewrite renumber_new by (auto; apply He; left; reflexivity). simpl. rewrite IH. reflexivity.
Qed.

Lemma prune_out_edges_spec P kept (edges : list (GraphEdge W)) :
  NoDup P -> (forall p, In p P -> 0 <= p) -> (forall e, In e edges -> 0 <= to_index e) ->
  prune_out_edges P (sortZ P) kept edges =
  Ok (map (fun e => mkEdge kept (new_number P (to_index e)) (weight e) (scratchpad e))
          (filter (fun e => survives P (to_index e)) edges)).
Proof.
  intros ND HP. induction edges as [|e l IH]; intros He; [reflexivity|]. simpl.
  rewrite set_count_survives. specialize (IH (fun x Hx => He x (or_intror Hx))).
  destruct (survives P (to_index e)) eqn:E; simpl; [|exact IH].
  apply survives_true in E.
  rewrite renumber_new by (auto; apply He; left; reflexivity). simpl. rewrite IH. reflexivity.
Qed.

(** First pass. *)
Lemma prune_nodes_spec b g P : behaves_like b g ->
  exists kept, prune_nodes b P = Ok kept /\ Forall2 (node_at g) (survivors P (length g)) kept.
Proof.
  intros [HS HG]. unfold prune_nodes. rewrite HS. unfold Size. rewrite upto_seqZ.
  assert (forall m, (m <= length g)%nat -> exists kept,
    mfold (fun acc idx => if set_count idx P then Ok acc
           else do n <- gl_get b idx; Ok (snd (AddNode acc n))) [] (upto m) = Ok kept /\
    Forall2 (node_at g) (survivors P m) kept) as G; [|apply G; lia].
  induction m as [|m IH]; intros Hm.
  - exists []. split; [reflexivity|constructor].
  - destruct IH as (kept & E & F); [lia|]. cbn [upto]. rewrite mfold_app, E. cbn [bind mfold].
    rewrite survivors_S, set_count_survives. destruct (survives P (Z.of_nat m)) eqn:Es; cbn [negb].
    + destruct (in_range_node_at g (Z.of_nat m)) as (n & Hn); [unfold Size; lia|].
      rewrite HG. rewrite (proj1 (GetNode_ok g _ n) Hn). cbn [bind]. exists (kept ++ [n]).
      split; [reflexivity|]. apply Forall2_app; [exact F|]. constructor; [exact Hn|constructor].
    + exists kept. split; [reflexivity|]. rewrite app_nil_r. exact F.
Qed.

Definition item_result P (k : Z) (n : GraphNode V W) : GraphNode V W :=
  mkNode (value n)
    (map (fun e => mkEdge (new_number P (from_index e)) k (weight e) (scratchpad e))
         (filter (fun e => survives P (from_index e)) (in_edges n)))
    (map (fun e => mkEdge k (new_number P (to_index e)) (weight e) (scratchpad e))
         (filter (fun e => survives P (to_index e)) (out_edges n))).

Definition edges_nonneg (n : GraphNode V W) : Prop :=
  (forall e, In e (in_edges n) -> 0 <= from_index e) /\ (forall e, In e (out_edges n) -> 0 <= to_index e).

Lemma prune_item_spec P g k n : NoDup P -> (forall p, In p P -> 0 <= p) ->
  node_at g k n -> edges_nonneg n ->
  prune_item P (sortZ P) g k = Ok (upd g (Z.to_nat k) (item_result P k n)).
Proof.
  intros ND HP Hn [H1 H2]. unfold prune_item. rewrite (proj1 (GetNode_ok g k n) Hn). cbn [bind].
  rewrite prune_in_edges_spec by assumption. cbn [bind].
  rewrite prune_out_edges_spec by assumption. cbn [bind].
  rewrite (UpdateNode_ok g k n) by exact Hn. reflexivity.
Qed.

Lemma prune_pass2 P order : NoDup P -> (forall p, In p P -> 0 <= p) ->
  forall g, NoDup order -> (forall k, In k order -> exists n, node_at g k n /\ edges_nonneg n) ->
  exists g', mfold (prune_item P (sortZ P)) g order = Ok g' /\ length g' = length g /\
    forall k n, node_at g k n ->
      (In k order -> node_at g' k (item_result P k n)) /\ (~ In k order -> node_at g' k n).
Proof.
  intros ND HP. induction order as [|k order IH]; intros g NO H.
  - exists g. split; [reflexivity|]. split; [reflexivity|]. intros k n Hn. split; [intros []|auto].
  - inversion NO as [|? ? NI NO']; subst. destruct (H k (or_introl eq_refl)) as (n0 & Hn0 & HE).
    pose proof (proj1 Hn0) as Hk0. pose proof (node_at_range _ _ _ Hn0) as Rk.
    simpl. rewrite (prune_item_spec P g k n0) by assumption. cbn [bind].
    destruct (IH (upd g (Z.to_nat k) (item_result P k n0))) as (g' & E & L & N); [exact NO'| |].
    + intros j Hj. destruct (H j (or_intror Hj)) as (n & Hn & HEn). exists n. split; [|exact HEn].
      apply node_at_upd; [exact Hk0|]. right. split; [|exact Hn]. intros ->. contradiction.
    + exists g'. split; [exact E|]. split; [rewrite L; apply upd_length|].
      intros j n Hn. destruct (Z.eq_dec j k) as [->|D].
      * rewrite (node_at_fun _ _ _ _ Hn Hn0) in *. split; [|intros C; exfalso; apply C; left; reflexivity].
        intros _. apply N; [|exact NI]. apply node_at_upd; [exact Hk0|]. left. repeat split; lia.
      * assert (node_at (upd g (Z.to_nat k) (item_result P k n0)) j n) as Hj
          by (apply node_at_upd; [exact Hk0|]; right; auto).
        split.
        -- intros [C|Hin]; [lia|]. apply (proj1 (N j n Hj)). exact Hin.
        -- intros Hnin. apply (proj2 (N j n Hj)). intros C. apply Hnin. right. exact C.
Qed.

Lemma item_result_pruned P g i n : consistent g -> node_at g i n -> ~ In i P ->
  item_result P (new_number P i) n = pruned P n.
Proof.
  intros [C1 C2] Hn Hi. apply survives_true in Hi. unfold item_result, pruned. f_equal.
  - specialize (fun e => C1 i n e Hn). induction (in_edges n) as [|e l IH]; [reflexivity|].
    destruct (C1 e (or_introl eq_refl)) as (T & _ & _). specialize (IH (fun x Hx => C1 x (or_intror Hx))).
    simpl. unfold edge_survives at 1. rewrite T, Hi, andb_true_r.
    destruct (survives P (from_index e)); [|exact IH]. simpl. rewrite IH. unfold moved at 2. rewrite T. reflexivity.
  - specialize (fun e => C2 i n e Hn). induction (out_edges n) as [|e l IH]; [reflexivity|].
    destruct (C2 e (or_introl eq_refl)) as (T & _ & _). specialize (IH (fun x Hx => C2 x (or_intror Hx))).
    simpl. unfold edge_survives at 1. rewrite T, Hi. simpl.
    destruct (survives P (to_index e)); [|exact IH]. simpl. rewrite IH. unfold moved at 2. rewrite T. reflexivity.
Qed.

Lemma Forall2_len {A B} (R : A -> B -> Prop) l l' : Forall2 R l l' -> length l = length l'.
Proof. induction 1; simpl; congruence. Qed.

Lemma survivors_count P n : NoDup P -> (forall p, In p P -> 0 <= p < Z.of_nat n) ->
  Z.of_nat (length (survivors P n)) = Z.of_nat n - Z.of_nat (length P).
Proof.
  intros ND HP. pose proof (new_number_count P (Z.of_nat n) ND) as E. unfold new_number in E.
  rewrite Nat2Z.id in E. unfold survivors. rewrite E; [|intros p Hp; specialize (HP p Hp); lia|lia].
  do 3 f_equal. clear - HP. induction P as [|p P IH]; [reflexivity|]. simpl.
  pose proof (HP p (or_introl eq_refl)). destruct (Z.ltb_spec p (Z.of_nat n)); [|lia].
  f_equal. apply IH. intros q Hq. apply HP. right. exact Hq.
Qed.

Lemma node_at_of_nth g k n : nth_error g k = Some n <-> node_at g (Z.of_nat k) n.
Proof. unfold node_at. rewrite Nat2Z.id. split; [intros; split; [lia|assumption]|tauto]. Qed.

Lemma Forall2_nth {A B} (R : A -> B -> Prop) l l' k a : Forall2 R l l' -> nth_error l k = Some a ->
  exists b, nth_error l' k = Some b /\ R a b.
Proof.
  intros F. revert k. induction F as [|x y l l' H F IH]; intros [|k] E; try discriminate.
  - injection E as <-. exists y. auto.
  - apply IH. exact E.
Qed.

Lemma Forall2_nth2 {A B} (R : A -> B -> Prop) l l' k b : Forall2 R l l' -> nth_error l' k = Some b ->
  exists a, nth_error l k = Some a /\ R a b.
Proof.
  intros F. revert k. induction F as [|x y l l' H F IH]; intros [|k] E; try discriminate.
  - injection E as <-. exists x. auto.
  - apply IH. exact E.
Qed.

Lemma PruneGraph_spec b g P order : behaves_like b g -> consistent g ->
  NoDup P -> (forall p, In p P -> 0 <= p < Size g) ->
  Permutation order (seqZ 0 (Size g - Z.of_nat (length P))) ->
  exists g', PruneGraph b P order = Ok g' /\ is_pruning_of P g g'.
Proof.
  intros B C ND HP PO. unfold PruneGraph. rewrite (proj1 B).
  pose proof (survivors_count P (length g) ND HP) as SC. change (Z.of_nat (length g)) with (Size g) in SC.
  destruct (Z.ltb_spec (Size g - Z.of_nat (length P)) 0) as [L|_]; [lia|].
  destruct (prune_nodes_spec b g P B) as (kept & Ek & F). rewrite Ek. cbn [bind].
  assert (forall p, In p P -> 0 <= p) as HP0 by (intros p Hp; specialize (HP p Hp); lia).
  pose proof (Forall2_len _ _ _ F) as FL.
  destruct (prune_pass2 P order ND HP0 kept) as (g' & E & L & N).
  - apply (Permutation_NoDup (Permutation_sym PO)). apply seqZ_nodup.
  - intros k Hk. apply (Permutation_in k PO) in Hk. apply seqZ_in in Hk.
    destruct (in_range_node_at kept k) as (n & Hn); [unfold Size; lia|]. exists n. split; [exact Hn|].
    destruct (Forall2_nth2 _ _ _ _ _ F (proj2 Hn)) as (i & _ & Hi). destruct C as [C1 C2].
    split; intros e He.
    + destruct (C1 i n e Hi He) as (_ & _ & m & [X _] & _). exact X.
    + destruct (C2 i n e Hi He) as (_ & _ & m & [X _] & _). exact X.
  - exists g'. split; [exact E|]. split; [lia|]. intros k i n Hs Hn.
    destruct (Forall2_nth _ _ _ _ _ F Hs) as (n' & Hn' & Hi). rewrite (node_at_fun _ _ _ _ Hi Hn) in Hn'.
    destruct (nth_survivors _ _ _ _ Hs) as (Ri & Hni & EN).
    apply node_at_of_nth. rewrite <- (item_result_pruned P g i n C Hn Hni), EN.
    apply (proj1 (N _ n (proj1 (node_at_of_nth kept k n) Hn'))).
    apply (Permutation_in _ (Permutation_sym PO)). apply seqZ_in.
    assert (k < length (survivors P (length g)))%nat by (apply nth_error_Some; congruence). lia.
Qed.

(** Nodes of a pruning. *)
Lemma pruning_nodes P g g' k n' : is_pruning_of P g g' ->
  node_at g' k n' <-> exists i n, node_at g i n /\ ~ In i P /\ k = new_number P i /\ n' = pruned P n.
Proof.
  intros [L N]. split.
  - intros [Hk E]. assert (Z.to_nat k < length g')%nat as Lk by (apply nth_error_Some; congruence).
    rewrite L in Lk. apply nth_error_Some in Lk.
    destruct (nth_error (survivors P (length g)) (Z.to_nat k)) as [i|] eqn:Es; [|congruence].
    destruct (nth_survivors _ _ _ _ Es) as (Ri & Hi & EN).
    destruct (in_range_node_at g i) as (n & Hn); [exact Ri|]. exists i, n.
    split; [exact Hn|]. split; [exact Hi|]. split; [lia|]. pose proof (N _ _ _ Es Hn). congruence.
  - intros (i & n & Hn & Hi & -> & ->). pose proof (node_at_range _ _ _ Hn) as R.
    split; [unfold new_number; lia|]. apply (N _ i n); [|exact Hn]. apply survivors_nth; auto.
Qed.

Lemma filter_map {A B} (f : B -> bool) (h : A -> B) l :
  filter f (map h l) = map h (filter (fun x => f (h x)) l).
Proof. induction l as [|x l IH]; [reflexivity|]. simpl. destruct (f (h x)); simpl; congruence. Qed.

Lemma filter_filter {A} (f h : A -> bool) l : filter f (filter h l) = filter (fun x => h x && f x) l.
Proof. induction l as [|x l IH]; [reflexivity|]. simpl. destruct (h x); simpl; [|exact IH].
  destruct (f x); congruence. Qed.

Lemma filter_ext_In {A} (f h : A -> bool) l : (forall x, In x l -> f x = h x) -> filter f l = filter h l.
Proof.
  induction l as [|x l IH]; intros H; [reflexivity|]. simpl. rewrite (H x (or_introl eq_refl)).
  rewrite IH by (intros y Hy; apply H; right; exact Hy). reflexivity.
Qed.

Lemma edge_survives_true P (e : GraphEdge W) : edge_survives P e = true <->
  ~ In (from_index e) P /\ ~ In (to_index e) P.
Proof. unfold edge_survives. rewrite andb_true_iff, !survives_true. reflexivity. Qed.

Lemma pruning_linked P g g' : is_pruning_of P g g' -> linked g -> linked g'.
Proof.
  intros HP (L1 & L2 & L3). pose proof (fun k n => pruning_nodes P g g' k n HP) as N.
  split; [|split].
  - intros k n' e Hn He. apply N in Hn as (i & n & Hn & Hi & -> & ->). cbn [pruned out_edges] in He.
    apply in_map_iff in He as (e0 & <- & He). apply filter_In in He as [He Hs].
    apply edge_survives_true in Hs as [S1 S2]. destruct (L1 i n e0 Hn He) as (A & B & m & Hm).
    cbn [moved from_index to_index]. rewrite A. split; [reflexivity|]. split.
    + intros E. apply B. apply (new_number_inj P (length g)); auto.
      * apply node_at_range in Hm. exact Hm.
      * apply node_at_range in Hn. exact Hn.
    + exists (pruned P m). apply N. exists (to_index e0), m. auto.
  - intros k n' e Hn He. apply N in Hn as (i & n & Hn & Hi & -> & ->). cbn [pruned in_edges] in He.
    apply in_map_iff in He as (e0 & <- & He). apply filter_In in He as [He Hs].
    apply edge_survives_true in Hs as [S1 S2]. destruct (L2 i n e0 Hn He) as (A & B & m & Hm).
    cbn [moved from_index to_index]. rewrite A. split; [reflexivity|]. split.
    + intros E. apply B. apply (new_number_inj P (length g)); auto.
      * apply node_at_range in Hm. exact Hm.
      * apply node_at_range in Hn. exact Hn.
    + exists (pruned P m). apply N. exists (from_index e0), m. auto.
  - intros k l n' m' Hn Hm. apply N in Hn as (i & n & Hn & Hi & -> & ->).
    apply N in Hm as (j & m & Hm & Hj & -> & ->). cbn [pruned in_edges out_edges].
    pose proof (node_at_range _ _ _ Hn) as Ri. pose proof (node_at_range _ _ _ Hm) as Rj.
    rewrite !filter_map, !filter_filter. f_equal. cbn [moved from_index to_index].
    transitivity (filter (fun e : GraphEdge W => to_index e =? j) (out_edges n)); [|rewrite (L3 i j n m Hn Hm)].
    + apply filter_ext_In. intros e He. destruct (L1 i n e Hn He) as (A & B & q & Hq).
      destruct (Z.eqb_spec (to_index e) j) as [E|E].
      * apply andb_true_iff. split; [|rewrite E; apply Z.eqb_refl]. apply edge_survives_true. rewrite A, E. auto.
      * apply andb_false_iff. destruct (edge_survives P e) eqn:Es; [right|left; reflexivity].
        apply edge_survives_true in Es. apply Z.eqb_neq. intros C. apply E.
        apply (new_number_inj P (length g)); try tauto; try assumption. apply node_at_range in Hq. exact Hq.
    + apply filter_ext_In. intros e He. destruct (L2 j m e Hm He) as (A & B & q & Hq).
      destruct (Z.eqb_spec (from_index e) i) as [E|E].
      * symmetry. apply andb_true_iff. split; [|rewrite E; apply Z.eqb_refl]. apply edge_survives_true. rewrite A, E. auto.
      * symmetry. apply andb_false_iff. destruct (edge_survives P e) eqn:Es; [right|left; reflexivity].
        apply edge_survives_true in Es. apply Z.eqb_neq. intros C. apply E.
        apply (new_number_inj P (length g)); try tauto; try assumption. apply node_at_range in Hq. exact Hq.
Qed.

Lemma pruning_consistent P g g' : is_pruning_of P g g' -> consistent g -> consistent g'.
Proof.
  intros HP (L2 & L1). pose proof (fun k n => pruning_nodes P g g' k n HP) as N.
  split.
  - intros k n' e Hn He. apply N in Hn as (i & n & Hn & Hi & -> & ->). cbn [pruned in_edges] in He.
    apply in_map_iff in He as (e0 & <- & He). apply filter_In in He as [He Hs].
    apply edge_survives_true in Hs as [S1 S2]. destruct (L2 i n e0 Hn He) as (A & B & m & Hm & o & Ho & To).
    cbn [moved from_index to_index]. rewrite A. split; [reflexivity|]. split.
    + intros E. apply B. apply (new_number_inj P (length g)); auto.
      * apply node_at_range in Hm. exact Hm.
      * apply node_at_range in Hn. exact Hn.
    + exists (pruned P m). split; [apply N; exists (from_index e0), m; auto|].
      destruct (L1 _ m o Hm Ho) as (Fo & _ & _).
      exists (moved P o). cbn [moved to_index]. split; [|congruence].
      cbn [pruned out_edges]. apply in_map, filter_In. split; [exact Ho|].
      apply edge_survives_true. rewrite Fo, To. auto.
  - intros k n' e Hn He. apply N in Hn as (i & n & Hn & Hi & -> & ->). cbn [pruned out_edges] in He.
    apply in_map_iff in He as (e0 & <- & He). apply filter_In in He as [He Hs].
    apply edge_survives_true in Hs as [S1 S2]. destruct (L1 i n e0 Hn He) as (A & B & m & Hm & o & Ho & To).
    cbn [moved from_index to_index]. rewrite A. split; [reflexivity|]. split.
    + intros E. apply B. apply (new_number_inj P (length g)); auto.
      * apply node_at_range in Hm. exact Hm.
      * apply node_at_range in Hn. exact Hn.
    + exists (pruned P m). split; [apply N; exists (to_index e0), m; auto|].
      destruct (L2 _ m o Hm Ho) as (Fo & _ & _).
      exists (moved P o). cbn [moved from_index]. split; [|congruence].
      cbn [pruned in_edges]. apply in_map, filter_In. split; [exact Ho|].
      apply edge_survives_true. rewrite Fo, To. auto.
Qed.

End Prune.

(** ** Serialization *)
Local Open Scope N_scope.

Lemma int64_lawful le : lawful (int64_rep le) int64_ok.
Proof.
  destruct (uint_lawful le 8) as [_ H]; [lia|]. split; [cbn; lia|]. intros z Hz.
  unfold int64_ok in Hz. change (2 ^ 63)%Z with 9223372036854775808%Z in Hz.
  assert (int64_to_bits z < 256 ^ N.of_nat 8) as B.
  { unfold int64_to_bits. change (256 ^ N.of_nat 8) with 18446744073709551616.
    change (2 ^ 64)%Z with 18446744073709551616%Z. lia. }
  destruct (H _ B) as (H1 & H2 & H3). split; [exact H1|]. split; [exact H2|].
  cbn [int64_rep of_obj to_obj] in *. rewrite H3. unfold int64_of_bits, int64_to_bits.
  change (2 ^ 64)%Z with 18446744073709551616%Z. change (2 ^ 63)%Z with 9223372036854775808%Z.
  rewrite Z2N.id by lia.
  destruct (Z.ltb_spec (z mod 18446744073709551616) 9223372036854775808); lia.
Qed.

Lemma reads_at {T} des (enc : T -> list N) dom v buf off pre post :
  reads_back des enc dom -> dom v -> buf = pre ++ enc v ++ post -> off = len64 pre ->
  fits_vector buf -> des buf off = Ok (v, len64 (enc v)).
Proof. intros H Hv -> -> Hf. apply H; assumption. Qed.

Lemma written_snd b1 b2 : snd (written b1 b2) = b2.
Proof. reflexivity. Qed.

Section Ser.
Context {V W : Type}.

Definition enc_edge le (dbl : memcpyable W) (e : GraphEdge W) : list N :=
  to_obj (int64_rep le) (from_index e) ++ to_obj (int64_rep le) (to_index e) ++
  to_obj dbl (weight e) ++ to_obj (uint_rep le 8) (scratchpad e).

Ltac asc := rewrite <- ?app_assoc; reflexivity.

Lemma rt_edge le (dbl : memcpyable W) domw : lawful dbl domw ->
  round_trips (SerializeEdge le dbl) (DeserializeEdge le dbl) (edge_ok domw).
Proof.
  intros HL. eapply (rt_intro _ _ (enc_edge le dbl) _ (edge_ok domw) (edge_ok domw)).
  - apply written_appends. intros e buf _. unfold SerializeEdge, SerializeMemcpyable. cbv zeta.
    rewrite !written_snd. unfold enc_edge. f_equal. asc.
  - intros e pre post (H1 & H2 & H3 & H4) Hf. unfold DeserializeEdge.
    pose proof (memcpyable_reads_back (int64_rep le) _ (int64_lawful le)) as RI.
    pose proof (memcpyable_reads_back dbl _ HL) as RW.
    pose proof (memcpyable_reads_back (uint_rep le 8) _ (uint_lawful le 8 ltac:(lia))) as RU.
    set (buf := pre ++ enc_edge le dbl e ++ post) in *.
    set (a := to_obj (int64_rep le) (from_index e)) in *. set (b := to_obj (int64_rep le) (to_index e)) in *.
    set (c := to_obj dbl (weight e)) in *. set (d := to_obj (uint_rep le 8) (scratchpad e)) in *.
    assert (len64 d = 8) as Ld. { unfold len64, d. destruct (uint_lawful le 8) as [_ HU]; [lia|].
      destruct (HU _ H4) as [-> _]. reflexivity. }
    assert (buf = pre ++ a ++ b ++ c ++ d ++ post) as EB by (unfold buf, enc_edge; fold a b c d; asc).
    assert (len64 (enc_edge le dbl e) = len64 a + len64 b + len64 c + len64 d) as EL.
    { unfold enc_edge. fold a b c d. rewrite !len64_app. lia. }
    assert (len64 pre + len64 (enc_edge le dbl e) < 2 ^ 63) as LB.
    { unfold fits_vector, buf in Hf. rewrite !len64_app in Hf. lia. }
    pows.
    rewrite (reads_at _ _ _ (from_index e) buf (len64 pre) pre (b ++ c ++ d ++ post) RI); auto.
    cbn [bind]. rewrite wrap_eq by (fold a; pows; lia).
    rewrite (reads_at _ _ _ (to_index e) buf _ (pre ++ a) (c ++ d ++ post) RI); auto;
      [|rewrite EB; asc|rewrite len64_app; reflexivity].
    cbn [bind]. fold a b. rewrite wrap_eq by (pows; lia).
    rewrite (reads_at _ _ _ (weight e) buf _ (pre ++ a ++ b) (d ++ post) RW); auto;
      [|rewrite EB; asc|rewrite !len64_app; lia].
    cbn [bind]. fold c. rewrite wrap_eq by (pows; lia).
    rewrite (reads_at _ _ _ (scratchpad e) buf _ (pre ++ a ++ b ++ c) post RU); auto;
      [|rewrite EB; asc|rewrite !len64_app; lia].
    cbn [bind]. fold d. rewrite wrap_eq by (pows; lia). rewrite sub64_eq by (pows; lia).
    replace (len64 pre + len64 a + len64 b + len64 c + len64 d - len64 pre)
      with (len64 (enc_edge le dbl e)) by lia.
    rewrite make_ok by lia. clear. destruct e; reflexivity.
  - intros e H. split; [exact H|]. split; [exact H|]. destruct H as (H1 & H2 & H3 & H4).
    destruct (int64_lawful le) as [_ HI]. destruct HL as [_ HW]. destruct (uint_lawful le 8) as [_ HU]; [lia|].
    destruct (HI _ H1) as (A1 & A2 & _). destruct (HI _ H2) as (B1 & B2 & _).
    destruct (HW _ H3) as (C1 & C2 & _). destruct (HU _ H4) as (D1 & D2 & _). split.
    + unfold enc_edge. intros E. apply app_eq_nil in E as [E _]. rewrite E in A1. discriminate.
    + unfold enc_edge. rewrite !is_bytes_app. auto.
Qed.

Lemma rt_node le maxe (dbl : memcpyable W) domw (sv : Serializer V) dv domv :
  lawful dbl domw -> round_trips sv dv domv ->
  round_trips (SerializeNode le dbl sv) (DeserializeNode le maxe dbl dv) (node_ok maxe domv domw).
Proof.
  intros HL (encv & Hav & Hrv & Hnv).
  destruct (rt_vector false le maxe _ _ _ (rt_edge le dbl domw HL)) as (ence & Hae & Hre & Hne).
  eapply (rt_intro _ _ (fun n => encv (value n) ++ ence (in_edges n) ++ ence (out_edges n)) _
            (node_ok maxe domv domw) (node_ok maxe domv domw)).
  - apply written_appends. intros n buf (H1 & H2 & H3). unfold SerializeNode. cbv zeta.
    rewrite (app_snd _ _ _ _ _ Hav H1), (app_snd _ _ _ _ _ Hae H2), (app_snd _ _ _ _ _ Hae H3).
    f_equal. asc.
  - intros n pre post (H1 & H2 & H3) Hf. unfold DeserializeNode.
    set (a := encv (value n)) in *. set (b := ence (in_edges n)) in *. set (c := ence (out_edges n)) in *.
    set (buf := pre ++ (a ++ b ++ c) ++ post) in *.
    assert (len64 pre + (len64 a + len64 b + len64 c) < 2 ^ 63) as LB.
    { unfold fits_vector, buf in Hf. rewrite !len64_app in Hf. lia. }
    assert (0 < len64 a) as La. { destruct (Hnv _ H1) as [Hx _]. fold a in Hx. unfold len64. destruct a; [congruence|cbn; lia]. }
    pows.
    rewrite (reads_at _ _ _ (value n) buf (len64 pre) pre (b ++ c ++ post) Hrv); auto; [|unfold buf; fold a; asc].
    cbn [bind]. fold a. rewrite wrap_eq by (pows; lia).
    rewrite (reads_at _ _ _ (in_edges n) buf _ (pre ++ a) (c ++ post) Hre); auto;
      [|unfold buf; fold b; asc|rewrite len64_app; reflexivity].
    cbn [bind]. fold b. rewrite wrap_eq by (pows; lia).
    rewrite (reads_at _ _ _ (out_edges n) buf _ (pre ++ a ++ b) post Hre); auto;
      [|unfold buf; fold c; asc|rewrite !len64_app; lia].
    cbn [bind]. fold c. rewrite wrap_eq by (pows; lia). rewrite sub64_eq by (pows; lia).
    replace (len64 pre + len64 a + len64 b + len64 c - len64 pre)
      with (len64 (a ++ b ++ c)) by (rewrite !len64_app; lia).
    rewrite make_ok by (rewrite !len64_app; lia). destruct n; reflexivity.
  - intros n H. split; [exact H|]. split; [exact H|]. destruct H as (H1 & H2 & H3).
    destruct (Hnv _ H1) as (A1 & A2). destruct (Hne _ H2) as (B1 & B2). destruct (Hne _ H3) as (C1 & C2).
    split.
    + intros E. apply app_eq_nil in E as [E _]. auto.
    + rewrite !is_bytes_app. auto.
Qed.

Lemma graph_serialization le maxn maxe (dbl : memcpyable W) domw (sv : Serializer V) dv domv g before after :
  lawful dbl domw -> round_trips sv dv domv -> graph_ok maxn maxe domv domw g ->
  fits_vector (snd (SerializeGraph le dbl sv g before) ++ after) ->
  (exists bytes, bytes <> [] /\ snd (SerializeGraph le dbl sv g before) = before ++ bytes /\
     fst (SerializeGraph le dbl sv g before) = len64 bytes) /\
  (consistent g ->
     DeserializeGraph le maxn maxe dbl dv (snd (SerializeGraph le dbl sv g before) ++ after) (len64 before)
     = Ok (g, fst (SerializeGraph le dbl sv g before))) /\
  (~ consistent g ->
     DeserializeGraph le maxn maxe dbl dv (snd (SerializeGraph le dbl sv g before) ++ after) (len64 before)
     = Throw InvalidArgument).
Proof.
  intros HL Hv Hg Hf. pose proof (rt_vector false le maxn _ _ _ (rt_node le maxe dbl domw sv dv domv HL Hv)) as RV.
  unfold SerializeGraph in *. rewrite written_snd in *.
  destruct (rt_at _ _ _ g before after RV Hg Hf) as ((bytes & Hb1 & Hb2 & Hb3) & RD).
  assert (fst (written before (snd (SerializeVectorLike false le (SerializeNode le dbl sv) g before))) =
          fst (SerializeVectorLike false le (SerializeNode le dbl sv) g before)) as EF by reflexivity.
  rewrite EF. split; [exists bytes; auto|].
  destruct (CheckGraphLinkage_spec g) as (b & Eb & Hc).
  assert (forall x, DeserializeGraph le maxn maxe dbl dv x (len64 before) =
    do (nodes, n) <- DeserializeVectorLike false le maxn (DeserializeNode le maxe dbl dv) x (len64 before);
    do ok <- CheckGraphLinkage (as_graph_like nodes);
    if (ok : bool) then MakeDeserialized nodes n else Throw InvalidArgument) as ED by reflexivity.
  rewrite ED, RD. cbn [bind]. rewrite Eb. cbn [bind]. split.
  - intros C. apply Hc in C. subst b. rewrite Hb3. apply make_ok. unfold len64. destruct bytes; [congruence|cbn; lia].
  - intros C. destruct b; [exfalso; apply C, Hc; reflexivity|]. reflexivity.
Qed.

(** Hostile bytes. *)
Lemma edge_inside le (dbl : memcpyable W) : (0 < msize dbl)%nat -> N.of_nat (msize dbl) < 2 ^ 63 ->
  stays_inside (DeserializeEdge le dbl).
Proof.
  intros M1 M2. pose proof (memcpyable_inside dbl M1 M2) as SW.
  assert (stays_inside (DeserializeMemcpyable (int64_rep le))) as SI by (apply memcpyable_inside; cbn; [lia|pows; lia]).
  assert (stays_inside (DeserializeMemcpyable (uint_rep le 8))) as SU by (apply memcpyable_inside; cbn; [lia|pows; lia]).
  intros buf off Hb Hf Ho. unfold DeserializeEdge. assert (Hf' := Hf). unfold fits_vector in Hf'. pows.
  destruct (SI buf off Hb Hf Ho) as [(e & ->)|(f & n1 & -> & P1 & Q1)]; [left; cbn; eauto|]. cbn [bind].
  rewrite wrap_eq by (pows; lia).
  destruct (SI buf (off + n1)%N Hb Hf ltac:(pows; lia)) as [(e & ->)|(t & n2 & -> & P2 & Q2)]; [left; cbn; eauto|]. cbn [bind].
  rewrite wrap_eq by (pows; lia).
  destruct (SW buf (off + n1 + n2)%N Hb Hf ltac:(pows; lia)) as [(e & ->)|(w & n3 & -> & P3 & Q3)]; [left; cbn; eauto|]. cbn [bind].
  rewrite wrap_eq by (pows; lia).
  destruct (SU buf (off + n1 + n2 + n3)%N Hb Hf ltac:(pows; lia)) as [(e & ->)|(s & n4 & -> & P4 & Q4)]; [left; cbn; eauto|]. cbn [bind].
  rewrite wrap_eq by (pows; lia). rewrite sub64_eq by (pows; lia). rewrite make_ok by lia.
  right. do 2 eexists. split; [reflexivity|]. lia.
Qed.

Lemma node_inside le maxe (dbl : memcpyable W) (dv : Deserializer V) :
  (0 < msize dbl)%nat -> N.of_nat (msize dbl) < 2 ^ 63 -> stays_inside dv ->
  stays_inside (DeserializeNode le maxe dbl dv).
Proof.
  intros M1 M2 SV. pose proof (vector_inside false le maxe _ (edge_inside le dbl M1 M2)) as SE.
  intros buf off Hb Hf Ho. unfold DeserializeNode. assert (Hf' := Hf). unfold fits_vector in Hf'. pows.
  destruct (SV buf off Hb Hf Ho) as [(e & ->)|(f & n1 & -> & P1 & Q1)]; [left; cbn; eauto|]. cbn [bind].
  rewrite wrap_eq by (pows; lia).
  destruct (SE buf (off + n1)%N Hb Hf ltac:(pows; lia)) as [(e & ->)|(t & n2 & -> & P2 & Q2)]; [left; cbn; eauto|]. cbn [bind].
  rewrite wrap_eq by (pows; lia).
  destruct (SE buf (off + n1 + n2)%N Hb Hf ltac:(pows; lia)) as [(e & ->)|(w & n3 & -> & P3 & Q3)]; [left; cbn; eauto|]. cbn [bind].
  rewrite wrap_eq by (pows; lia). rewrite sub64_eq by (pows; lia). rewrite make_ok by lia.
  right. do 2 eexists. split; [reflexivity|]. lia.
Qed.

Lemma graph_hostile le maxn maxe (dbl : memcpyable W) (dv : Deserializer V) buf off :
  (0 < msize dbl)%nat -> N.of_nat (msize dbl) < 2 ^ 63 -> stays_inside dv ->
  is_bytes buf -> fits_vector buf -> off < 2 ^ 64 ->
  (exists e, DeserializeGraph le maxn maxe dbl dv buf off = Throw e) \/
  (exists g n, DeserializeGraph le maxn maxe dbl dv buf off = Ok (g, n) /\ consistent g /\
     0 < n /\ off + n <= len64 buf).
Proof.
  intros M1 M2 SV Hb Hf Ho.
  pose proof (vector_inside false le maxn _ (node_inside le maxe dbl dv M1 M2 SV)) as SE.
  unfold DeserializeGraph.
  destruct (SE buf off Hb Hf Ho) as [(e & ->)|(g & n & -> & P1 & Q1)]; [left; cbn; eauto|]. cbn [bind].
  destruct (CheckGraphLinkage_spec g) as (b & -> & Hc). cbn [bind]. destruct b; [|left; eauto].
  right. exists g, n. rewrite make_ok by exact P1. split; [reflexivity|]. split; [apply Hc; reflexivity|]. auto.
Qed.

End Ser.

(** ** Samples and the statements used in Prop_Graph *)
Local Open Scope Z_scope.

Definition sample_ops : list (op Z Z) :=
  [OpAddValue 10; OpAddValue 20; OpAddValue 30; OpAddEdges 0 2 5; OpAddEdge 2 1 7; OpAddEdge 1 9 3;
   OpAddEdge 1 1 3; OpAddEdge 0 1 4].
Definition sample_graph : list (GraphNode Z Z) := snd (run_ops graph_op [] sample_ops).

Lemma sample_building : Forall building sample_ops /\ length sample_graph = 3%nat /\
  map (fun n => length (out_edges n)) sample_graph = [2; 0; 2]%nat.
Proof. split; [repeat constructor|]. split; reflexivity. Qed.

Lemma sample_linked : linked sample_graph.
Proof. apply linked_ops; [apply sample_building|apply linked_nil]. Qed.

Lemma build_linked {V W} (ops : list (op V W)) : Forall building ops ->
  linked (snd (run_ops graph_op [] ops)) /\ consistent (snd (run_ops graph_op [] ops)).
Proof.
  intros B. assert (linked (snd (run_ops graph_op [] ops))) as L by (apply linked_ops; [exact B|apply linked_nil]).
  split; [exact L|apply linked_consistent, L].
Qed.

Lemma keep_linked {V W} (ops : list (op V W)) g : Forall building ops -> linked g ->
  linked (snd (run_ops graph_op g ops)).
Proof. intros. apply linked_ops; assumption. Qed.

(** A graph with a dangling edge. *)
Definition bad_graph : list (GraphNode Z Z) := [mkNode 1 [] [mkEdge 0 1 3 0%N]; mkNode 2 [] []].
Lemma bad_inconsistent : ~ consistent bad_graph.
Proof.
  intros [_ C]. destruct (C 0 (mkNode 1 [] [mkEdge 0 1 3 0%N]) (mkEdge 0 1 3 0%N)) as (_ & _ & m & [_ Hm] & o & Ho & _).
  - split; [lia|reflexivity].
  - left; reflexivity.
  - cbn in Hm. injection Hm as <-. destruct Ho.
Qed.

Lemma prune_graph {V W} (g : list (GraphNode V W)) P order : consistent g ->
  NoDup P -> (forall p, In p P -> 0 <= p < Size g) ->
  Permutation order (seqZ 0 (Size g - Z.of_nat (length P))) ->
  exists g', PruneGraph (as_graph_like g) P order = Ok g' /\ is_pruning_of P g g' /\
    consistent g' /\ (linked g -> linked g').
Proof.
  intros C ND HP PO. destruct (PruneGraph_spec (as_graph_like g) g P order) as (g' & E & H); auto.
  - split; [reflexivity|intros; reflexivity].
  - exists g'. split; [exact E|]. split; [exact H|].
    split; [apply (pruning_consistent P g); assumption|]. apply (pruning_linked P). exact H.
Qed.

Lemma prune_order_free {V W} (g : list (GraphNode V W)) P o1 o2 : consistent g ->
  NoDup P -> (forall p, In p P -> 0 <= p < Size g) ->
  Permutation o1 (seqZ 0 (Size g - Z.of_nat (length P))) ->
  Permutation o2 (seqZ 0 (Size g - Z.of_nat (length P))) ->
  PruneGraph (as_graph_like g) P o1 = PruneGraph (as_graph_like g) P o2.
Proof.
  intros C ND HP P1 P2.
  destruct (prune_graph g P o1) as (g1 & -> & [L1 N1] & _); auto.
  destruct (prune_graph g P o2) as (g2 & -> & [L2 N2] & _); auto.
  f_equal. apply nth_error_ext. intros k.
  destruct (nth_error (survivors P (length g)) k) as [i|] eqn:Es.
  - destruct (nth_survivors _ _ _ _ Es) as (R & _ & _). destruct (in_range_node_at g i R) as (n & Hn).
    rewrite (N1 k i n), (N2 k i n); auto.
  - apply nth_error_None in Es. transitivity (@None (GraphNode V W)).
    + apply nth_error_None. lia.
    + symmetry. apply nth_error_None. lia.
Qed.

Lemma sample_prune : let P := [1] in consistent sample_graph /\ NoDup P /\
  (forall p, In p P -> 0 <= p < Size sample_graph) /\
  Permutation [1; 0] (seqZ 0 (Size sample_graph - Z.of_nat (length P))) /\
  PruneGraph (as_graph_like sample_graph) P [1; 0] =
    Ok [mkNode 10 [mkEdge 1 0 5 0%N] [mkEdge 0 1 5 0%N]; mkNode 30 [mkEdge 0 1 5 0%N] [mkEdge 1 0 5 0%N]].
Proof.
  split; [apply linked_consistent, sample_linked|]. split; [repeat constructor; intros []|].
  split; [intros p [<-|[]]; vm_compute; split; congruence|]. split; [|vm_compute; reflexivity].
  vm_compute. apply perm_swap.
Qed.

Lemma overlay_like_copy {V W} (base : graph_like V W) (g : list (GraphNode V W)) ops :
  gl_size base = Size g -> (forall i, gl_get base i = GetNode g i) ->
  Forall2 same_result (fst (run_ops graph_op g ops)) (fst (run_ops overlay_op (MakeOverlay base) ops)) /\
  base_graph (snd (run_ops overlay_op (MakeOverlay base) ops)) = base /\
  overlay_size (snd (run_ops overlay_op (MakeOverlay base) ops)) = Size (snd (run_ops graph_op g ops)) /\
  (forall i, OverlayGetNode (snd (run_ops overlay_op (MakeOverlay base) ops)) i =
             GetNode (snd (run_ops graph_op g ops)) i).
Proof.
  intros HS HG. destruct (overlay_ops_sim ops (MakeOverlay base) g) as (A & [B1 B2] & C).
  - split; assumption.
  - split; [exact A|]. split; [exact C|]. split; [exact B1|exact B2].
Qed.

Lemma add_edge_effect {V W} (g : list (GraphNode V W)) a b w :
  (0 <= a < Size g -> 0 <= b < Size g -> a <> b ->
   exists g', AddEdgeBetweenNodes g a b w = Ok g' /\ length g' = length g /\
     forall i n, node_at g i n -> node_at g' i
       (mkNode (value n) (in_edges n ++ (if i =? b then [mkEdge a b w 0%N] else []))
                         (out_edges n ++ (if i =? a then [mkEdge a b w 0%N] else [])))) /\
  (~ (0 <= a < Size g /\ 0 <= b < Size g /\ a <> b) ->
   exists e, AddEdgeBetweenNodes g a b w = Throw e).
Proof.
  split.
  - intros Ha Hb Hne. destruct (AddEdge_cases g a b w) as [(na & nb & _ & _ & _ & E)|(x & Ex & Hx)].
    + rewrite E. eexists. split; [reflexivity|]. split; [rewrite !upd_length; reflexivity|].
      intros i n Hn. apply (AddEdge_nodes _ _ _ _ _ E). exists n. split; [exact Hn|reflexivity].
    + exfalso. apply Hx. auto.
  - intros H. destruct (AddEdge_cases g a b w) as [(na & nb & Ha & Hb & Hne & _)|(x & Ex & _)].
    + exfalso. apply H. apply node_at_range in Ha. apply node_at_range in Hb. auto.
    + eauto.
Qed.

Lemma add_edges_effect {V W} (g : list (GraphNode V W)) a b w :
  AddEdgesBetweenNodes g a b w =
  do g1 <- AddEdgeBetweenNodes g a b w; AddEdgeBetweenNodes g1 b a w.
Proof. apply AddEdges_twice. Qed.

Lemma linkage_check {V W} (g : list (GraphNode V W)) :
  exists b, CheckGraphLinkage (as_graph_like g) = Ok b /\ (b = true <-> consistent g).
Proof. apply CheckGraphLinkage_spec. Qed.

Lemma from_nodes {V W} (g : list (GraphNode V W)) :
  (consistent g /\ GraphFromNodes g = Ok g) \/
  (~ consistent g /\ GraphFromNodes g = Throw InvalidArgument).
Proof. apply GraphFromNodes_spec. Qed.

Lemma overlay_sample :
  fst (run_ops overlay_op (MakeOverlay (as_graph_like sample_graph)) [OpAddEdge 1 0 9; OpRead 1; OpRead 2; OpSize]) =
  [Ok RUnit; Ok (RNode (mkNode 20 [mkEdge 2 1 7 0%N; mkEdge 0 1 4 0%N] [mkEdge 1 0 9 0%N]));
   (do n <- GetNode sample_graph 2; Ok (RNode n)); Ok (RIndex 3)].
Proof. vm_compute. reflexivity. Qed.

Lemma graph_ser_sample le :
  lawful (int64_rep le) int64_ok /\
  round_trips (SerializeMemcpyable (int64_rep le)) (DeserializeMemcpyable (int64_rep le)) int64_ok /\
  graph_ok 100 100 int64_ok int64_ok sample_graph /\ consistent sample_graph /\
  fits_vector (snd (SerializeGraph le (int64_rep le) (SerializeMemcpyable (int64_rep le)) sample_graph [1%N; 2%N]) ++ [3%N]).
Proof.
  split; [apply int64_lawful|]. split; [apply rt_memcpyable, int64_lawful|].
  split; [|split; [apply linked_consistent, sample_linked|destruct le; vm_compute; reflexivity]].
  unfold graph_ok. split; [|split; [reflexivity|vm_compute; discriminate]].
  unfold sample_graph. cbn.
  repeat (apply Forall_cons || apply Forall_nil || split || (vm_compute; congruence)).
Qed.
