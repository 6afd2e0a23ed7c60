(** Updating the edges of a roadmap (C53). *)
From Verif Require Import Base ParallelismModel ParallelismProof GraphModel GraphSpec GraphProof
  SearchModel SearchSpec PrmModel PrmSpec PrmProof.
From Coq Require Import Permutation ZifyBool ZifyNat.
Local Open Scope Z_scope.

Section U.
Context {V C : Type} (ops : cost_ops C).
Variable dist : V -> V -> C.
Variable valid : V -> V -> bool.
Variable g : list (GraphNode V C).
Hypothesis CONS : consistent g.

Notation wt := (updated_weight ops dist valid).
Definition rw (e : GraphEdge C) : GraphEdge C :=
  match nth_error g (Z.to_nat (from_index e)), nth_error g (Z.to_nat (to_index e)) with
  | Some a, Some b => mkEdge (from_index e) (to_index e) (wt (value a) (value b)) (scratchpad e)
  | _, _ => e
  end.

Lemma rw_ends e : from_index (rw e) = from_index e /\ to_index (rw e) = to_index e.
Proof. unfold rw. destruct (nth_error g (Z.to_nat (from_index e))), (nth_error g (Z.to_nat (to_index e))); auto. Qed.

Lemma rw_set e e' a b : node_at g (from_index e) a -> node_at g (to_index e) b -> (e' = e \/ e' = rw e) ->
  SetWeight e' (wt (value a) (value b)) = rw e.
Proof.
  intros [_ Ha] [_ Hb] H. unfold SetWeight.
  assert (R : rw e = mkEdge (from_index e) (to_index e) (wt (value a) (value b)) (scratchpad e)).
  { unfold rw. rewrite Ha, Hb. reflexivity. }
  rewrite R in H |- *. destruct H as [->| ->]; reflexivity.
Qed.

(** Which out edges and which in edges have been updated. *)
Definition marked (om : Z -> nat -> bool) (im : Z -> Z -> bool) (g' : list (GraphNode V C)) : Prop :=
  Size g' = Size g /\
  forall i n, node_at g i n -> exists n', node_at g' i n' /\ value n' = value n /\
    in_edges n' = map (fun e => if im i (from_index e) then rw e else e) (in_edges n) /\
    length (out_edges n') = length (out_edges n) /\
    (forall k, nth_error (out_edges n') k = option_map (fun e => if om i k then rw e else e) (nth_error (out_edges n) k)).

Definition mark_out (om : Z -> nat -> bool) i k : Z -> nat -> bool := fun a b => om a b || ((a =? i) && (b =? k)%nat).
Definition mark_in (im : Z -> Z -> bool) m i : Z -> Z -> bool := fun a b => im a b || ((a =? m) && (b =? i)).

Lemma update_edge_step om im g' i n k e :
  marked om im g' -> node_at g i n -> nth_error (out_edges n) k = Some e ->
  exists g2, update_out_edge ops dist valid i g' k = Ok g2 /\ marked (mark_out om i k) (mark_in im (to_index e) i) g2.
Proof.
  intros [S M] Hn Ek. pose proof (nth_error_In _ _ Ek) as Ie.
  destruct CONS as [CI CO]. destruct (CO i n e Hn Ie) as (Fi & Nt & m & Hm & _).
  destruct (M i n Hn) as (n' & Hn' & Vn & In' & Ln & Out').
  destruct (M _ m Hm) as (m' & Hm' & Vm & Inm & Lm & Outm).
  assert (Ek' : exists e', nth_error (out_edges n') k = Some e' /\ (e' = e \/ e' = rw e)).
  { rewrite Out', Ek. cbn. destruct (om i k); eauto. }
  destruct Ek' as (e' & Ek' & He'). assert (To : to_index e' = to_index e) by (destruct He' as [->| ->]; [reflexivity|apply rw_ends]).
  unfold update_out_edge. rewrite (proj1 (GetNode_ok _ _ _) Hn'). cbn [bind].
  unfold raw_get. rewrite Ek'. cbn [bind]. rewrite To, (proj1 (GetNode_ok _ _ _) Hm'). cbn [bind].
  rewrite Vn, Vm.
  assert (SW : SetWeight e' (wt (value n) (value m)) = rw e).
  { apply rw_set; [rewrite Fi; exact Hn|exact Hm|exact He']. }
  rewrite SW. rewrite (UpdateNode_ok g' i n') by exact Hn'. cbn [bind].
  pose proof (node_at_range _ _ _ Hn') as Ri. pose proof (node_at_range _ _ _ Hm') as Rm.
  rewrite (UpdateNode_ok _ (to_index e) m').
  2:{ apply node_at_upd; [lia|]. right. split; [congruence|exact Hm']. }
  eexists. split; [reflexivity|]. split; [rewrite !Size_upd; exact S|].
  intros j nj Hj. destruct (M j nj Hj) as (nj' & Hj' & Vj & Inj & Lj & Outj).
  destruct (Z.eq_dec j (to_index e)) as [->|Nj].
  - rewrite (node_at_fun _ _ _ _ Hj Hm) in *. rewrite (node_at_fun _ _ _ _ Hj' Hm') in *.
    eexists. split; [apply node_at_upd; [lia|]; left; rewrite Size_upd; split; [reflexivity|]; split; [lia|reflexivity]|].
    cbn [value in_edges out_edges]. split; [exact Vm|]. split; [|split; [exact Lm|]].
    + rewrite Inm, map_map. apply map_ext_in. intros x Ix. destruct (CI _ m x Hm Ix) as (Tx & Nx & p & Hp & _).
      assert (Ex : from_index (if im (to_index e) (from_index x) then rw x else x) = from_index x).
      { destruct (im _ _); [apply rw_ends|reflexivity]. }
      rewrite Ex. unfold mark_in. rewrite Z.eqb_refl. cbn [andb].
      destruct (Z.eqb_spec (from_index x) i) as [Fx|Fx].
      * rewrite orb_true_r. apply rw_set; [rewrite Fx; exact Hn|rewrite Tx; exact Hm|].
        destruct (im _ _); auto.
      * rewrite orb_false_r. reflexivity.
    + intros k'. rewrite Outm. unfold mark_out. destruct (Z.eqb_spec (to_index e) i); [congruence|]. cbn [andb].
      rewrite orb_false_r. reflexivity.
  - destruct (Z.eq_dec j i) as [->|Nji].
    + rewrite (node_at_fun _ _ _ _ Hj Hn) in *. rewrite (node_at_fun _ _ _ _ Hj' Hn') in *.
      eexists. split; [apply node_at_upd; [lia|]; right; split; [exact Nj|]; apply node_at_upd; [lia|]; left;
        split; [reflexivity|]; split; [lia|reflexivity]|].
      cbn [value in_edges out_edges]. split; [exact Vn|]. split; [|split].
      * rewrite In'. apply map_ext. intros x. unfold mark_in. destruct (Z.eqb_spec i (to_index e)); [congruence|].
        cbn [andb]. rewrite orb_false_r. reflexivity.
      * rewrite upd_length. exact Ln.
      * intros k'. rewrite nth_error_upd. unfold mark_out. rewrite Z.eqb_refl. cbn [andb].
        destruct (Nat.eq_dec k k') as [<-|Nk].
        -- rewrite Nat.eqb_refl, orb_true_r, Ek. cbn [option_map].
           assert (k < length (out_edges n'))%nat by (apply nth_error_Some; congruence).
           destruct (lt_dec k (length (out_edges n'))); [reflexivity|lia].
        -- rewrite Out'. destruct (Nat.eqb_spec k' k); [congruence|]. rewrite orb_false_r. reflexivity.
    + exists nj'. split.
      { apply node_at_upd; [lia|]. right. split; [exact Nj|]. apply node_at_upd; [lia|]. right. split; [exact Nji|exact Hj']. }
      split; [exact Vj|]. split; [|split; [exact Lj|]].
      * rewrite Inj. apply map_ext. intros x. unfold mark_in. destruct (Z.eqb_spec j (to_index e)); [congruence|].
        cbn [andb]. rewrite orb_false_r. reflexivity.
      * intros k'. rewrite Outj. unfold mark_out. destruct (Z.eqb_spec j i); [congruence|]. cbn [andb].
        rewrite orb_false_r. reflexivity.
Qed.

Lemma update_edges_loop i n : node_at g i n -> forall len k om im g', marked om im g' ->
  (k + len <= length (out_edges n))%nat ->
  exists om' im' g2, mfold (update_out_edge ops dist valid i) g' (seq k len) = Ok g2 /\ marked om' im' g2 /\
    (forall a b, om a b = true -> om' a b = true) /\ (forall a b, im a b = true -> im' a b = true) /\
    (forall j, (k <= j < k + len)%nat -> om' i j = true) /\
    (forall j e, (k <= j < k + len)%nat -> nth_error (out_edges n) j = Some e -> im' (to_index e) i = true).
Proof.
  intros Hn. induction len as [|len IH]; intros k om im g' M L.
  - exists om, im, g'. cbn. split; [reflexivity|]. split; [exact M|]. repeat split; auto; intros; lia.
  - cbn [seq mfold]. destruct (nth_error (out_edges n) k) as [e|] eqn:Ek; [|apply nth_error_None in Ek; lia].
    destruct (update_edge_step om im g' i n k e M Hn Ek) as (g1 & E1 & M1). rewrite E1. cbn [bind].
    destruct (IH (S k) _ _ g1 M1) as (om' & im' & g2 & E2 & M2 & O2 & I2 & OK2 & IK2); [lia|].
    exists om', im', g2. split; [exact E2|]. split; [exact M2|].
    split; [intros a b H; apply O2; unfold mark_out; rewrite H; reflexivity|].
    split; [intros a b H; apply I2; unfold mark_in; rewrite H; reflexivity|].
    split.
    + intros j Hj. destruct (Nat.eq_dec j k) as [->|]; [|apply OK2; lia].
      apply O2. unfold mark_out. rewrite Z.eqb_refl, Nat.eqb_refl, orb_true_r. reflexivity.
    + intros j e' Hj Ej. destruct (Nat.eq_dec j k) as [->|]; [|eapply IK2; [|exact Ej]; lia].
      rewrite Ek in Ej. injection Ej as <-. apply I2. unfold mark_in. rewrite !Z.eqb_refl, orb_true_r. reflexivity.
Qed.

Lemma update_items_loop items : (forall i, In i items -> 0 <= i < Size g) -> forall om im g', marked om im g' ->
  exists om' im' g2, mfold (update_item ops dist valid) g' items = Ok g2 /\ marked om' im' g2 /\
    (forall a b, om a b = true -> om' a b = true) /\ (forall a b, im a b = true -> im' a b = true) /\
    (forall i n k e, In i items -> node_at g i n -> nth_error (out_edges n) k = Some e ->
       om' i k = true /\ im' (to_index e) i = true).
Proof.
  induction items as [|i items IH]; intros R om im g' M.
  - exists om, im, g'. cbn. split; [reflexivity|]. split; [exact M|]. repeat split; auto; contradiction.
  - cbn [mfold]. destruct (in_range_node_at g i (R i (or_introl eq_refl))) as (n & Hn).
    destruct (proj2 M i n Hn) as (n' & Hn' & Vn & In' & Ln & Out').
    unfold update_item at 1. rewrite (proj1 (GetNode_ok _ _ _) Hn'). cbn [bind]. rewrite Ln.
    destruct (update_edges_loop i n Hn (length (out_edges n)) 0 om im g' M) as (om1 & im1 & g1 & E1 & M1 & O1 & I1 & OK1 & IK1); [lia|].
    rewrite E1. cbn [bind].
    destruct (IH (fun j Hj => R j (or_intror Hj)) om1 im1 g1 M1) as (om' & im' & g2 & E2 & M2 & O2 & I2 & K2).
    exists om', im', g2. split; [exact E2|]. split; [exact M2|]. split; [auto|]. split; [auto|].
    intros j nj k e [<-|Ij] Hj Ek; [|exact (K2 j nj k e Ij Hj Ek)].
    rewrite (node_at_fun _ _ _ _ Hj Hn) in Ek.
    assert (k < length (out_edges n))%nat by (apply nth_error_Some; congruence).
    split; [apply O2, OK1; lia|]. apply I2. apply (IK1 k e); [lia|exact Ek].
Qed.

Lemma update_spec items : Permutation items (seqZ 0 (Size g)) ->
  exists g', UpdateRoadMapEdges ops dist valid items g = Ok g' /\ reweighted wt g g'.
Proof.
  intros P. unfold UpdateRoadMapEdges.
  destruct (CheckGraphLinkage_spec g) as (b & Eb & Hb). rewrite Eb. cbn [bind].
  rewrite (proj2 Hb CONS).
  assert (M0 : marked (fun _ _ => false) (fun _ _ => false) g).
  { split; [reflexivity|]. intros i n Hn. exists n. split; [exact Hn|]. split; [reflexivity|].
    split; [symmetry; apply map_id|]. split; [reflexivity|]. intros k. destruct (nth_error _ k); reflexivity. }
  assert (R : forall i, In i items <-> 0 <= i < Size g).
  { intros i. rewrite <- seqZ_in. split; intros I; [exact (Permutation_in _ P I)|exact (Permutation_in _ (Permutation_sym P) I)]. }
  destruct (update_items_loop items (fun i I => proj1 (R i) I) _ _ g M0) as (om & im & g' & E & [S M] & _ & _ & K).
  exists g'. split; [exact E|]. split; [exact S|]. cbv zeta. intros i n Hn.
  destruct (M i n Hn) as (n' & Hn' & Vn & In' & Ln & Out').
  assert (X : n' = mkNode (value n) (map rw (in_edges n)) (map rw (out_edges n))); [|rewrite X in Hn'; exact Hn'].
  destruct n' as [v ins outs]. cbn [value in_edges out_edges] in *. f_equal; [exact Vn| |].
  - rewrite In'. apply map_ext_in. intros e Ie. destruct (proj1 CONS i n e Hn Ie) as (Te & _ & m & Hm & o & Io & To).
    destruct (In_nth_error _ _ Io) as (k & Ek).
    destruct (K (from_index e) m k o) as [_ Kim]; [apply R; exact (node_at_range _ _ _ Hm)|exact Hm|exact Ek|].
    rewrite To in Kim. rewrite Kim. reflexivity.
  - apply nth_error_ext. intros k. rewrite Out', nth_error_map. destruct (nth_error (out_edges n) k) as [e|] eqn:Ek; [|reflexivity].
    cbn [option_map]. destruct (K i n k e) as [Ko _]; [apply R; exact (node_at_range _ _ _ Hn)|exact Hn|exact Ek|].
    rewrite Ko. reflexivity.
Qed.
End U.

Lemma update_rejects {V C} (ops : cost_ops C) dist valid (g : list (GraphNode V C)) items :
  ~ consistent g -> UpdateRoadMapEdges ops dist valid items g = Throw InvalidArgument.
Proof.
  intros N. unfold UpdateRoadMapEdges. destruct (CheckGraphLinkage_spec g) as (b & Eb & Hb). rewrite Eb. cbn [bind].
  destruct b; [|reflexivity]. exfalso. apply N, Hb. reflexivity.
Qed.
