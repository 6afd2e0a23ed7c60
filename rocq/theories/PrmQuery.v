(** Queries on an overlay and on a copy (C52), and what a query returns. *)
From Coq Require Import FunctionalExtensionality.
From Verif Require Import Base Effect ParallelismModel ParallelismProof GraphModel GraphSpec GraphProof
  SearchModel SearchSpec PrmModel PrmSpec PrmProof.
From Coq Require Import Permutation ZifyBool ZifyNat.
Local Open Scope Z_scope.

Section Q.
Context {V C : Type} (ops : cost_ops C).
Variable knn : @knn_provider V C.
Variable dist : V -> V -> C.
Variable valid : V -> V -> bool.
Variable order : Z -> Z -> list Z.
Hypothesis ORD : each_once order.

Lemma view_eq (b : graph_like V C) g : behaves_like b g -> b = as_graph_like g.
Proof.
  intros [S G]. destruct b as [s f]. unfold as_graph_like. cbn in S, G. subst s. f_equal.
  apply functional_extensionality. exact G.
Qed.

(** Same outcome, same readable roadmap, base untouched. *)
Definition same {A} (x : outcome A * list (GraphNode V C)) (y : outcome A * GraphOverlay V C) (base : graph_like V C) : Prop :=
  fst x = fst y /\ simulates (snd y) (snd x) /\ base_graph (snd y) = base.

Lemma same_bind {A B} (m1 : eff (list (GraphNode V C)) A) (m2 : eff (GraphOverlay V C) A)
    (f1 : A -> eff (list (GraphNode V C)) B) (f2 : A -> eff (GraphOverlay V C) B) g o base :
  same (m1 g) (m2 o) base ->
  (forall a g' o', simulates o' g' -> base_graph o' = base -> m1 g = (Ok a, g') -> same (f1 a g') (f2 a o') base) ->
  same (ebind m1 f1 g) (ebind m2 f2 o) base.
Proof.
  unfold ebind. destruct (m1 g) as [r1 g1], (m2 o) as [r2 o2]. intros (E & S & Bs) H. cbn in E, S, Bs. subst r2.
  destruct r1 as [a|e| |]; [exact (H a g1 o2 S Bs eq_refl)| | |]; (split; [reflexivity|]; split; [exact S|exact Bs]).
Qed.

Lemma same_lift {A} (x : outcome A) g o : simulates o g -> same (lift x g) (lift x o) (base_graph o).
Proof. intros S. split; [reflexivity|]. split; [exact S|reflexivity]. Qed.

Lemma edge_same g o a b w : simulates o g -> 0 <= a < Size g -> 0 <= b < Size g -> a <> b ->
  exists g', modify (fun g => rm_edge graph_roadmap g a b w) g = (Ok tt, g') /\ Size g' = Size g /\
  same (Ok tt, g') (modify (fun g => rm_edge overlay_roadmap g a b w) o) (base_graph o).
Proof.
  intros S Ra Rb N. pose proof (add_edge_sim o g a b w S) as H. unfold modify. cbn [rm_edge graph_roadmap overlay_roadmap].
  destruct (AddEdge_cases g a b w) as [(na & nb & _ & _ & _ & E)|(x & _ & X)]; [|exfalso; apply X; auto].
  rewrite E in H |- *. destruct (OverlayAddEdge o a b w) as [o'|e| |]; try contradiction. destruct H as [S' B'].
  eexists. split; [reflexivity|]. split; [rewrite !Size_upd; reflexivity|]. split; [reflexivity|]. split; assumption.
Qed.

Lemma connections_same l ds new : forall idxs g o,
  (forall i d, In (i, d) l -> 0 <= i < Size g /\ i <> new) -> 0 <= new < Size g -> simulates o g ->
  same (for_each (add_connection ops graph_roadmap l ds new) idxs g)
       (for_each (add_connection ops overlay_roadmap l ds new) idxs o) (base_graph o).
Proof.
  induction idxs as [|k idxs IH]; intros g o R Rn S; cbn [for_each].
  { split; [reflexivity|]. split; [exact S|reflexivity]. }
  assert (STEP : exists g', Size g' = Size g /\
     same (add_connection ops graph_roadmap l ds new k g) (add_connection ops overlay_roadmap l ds new k o) (base_graph o) /\
     snd (add_connection ops graph_roadmap l ds new k g) = g').
  { unfold add_connection, ebind, lift. destruct (at_get l k) as [[i d]| | |] eqn:El;
      try (exists g; split; [reflexivity|]; split; [|reflexivity]; split; [reflexivity|]; split; [exact S|reflexivity]).
    destruct (at_get ds k) as [p| | |];
      try (exists g; split; [reflexivity|]; split; [|reflexivity]; split; [reflexivity|]; split; [exact S|reflexivity]).
    assert (I : In (i, d) l).
    { unfold at_get in El. destruct (nth_error l k) eqn:En; [|discriminate]. injection El as ->. exact (nth_error_In _ _ En). }
    destruct (R i d I) as [Ri Ni]. cbn [fst].
    assert (S1 : exists ga, Size ga = Size g /\ exists oa, simulates oa ga /\ base_graph oa = base_graph o /\
       (match fst p with Some d0 => if not_negative ops d0 then modify (fun g0 => rm_edge graph_roadmap g0 i new d0) else ret tt | None => ret tt end : eff _ unit) g = (Ok tt, ga) /\
       (match fst p with Some d0 => if not_negative ops d0 then modify (fun g0 => rm_edge overlay_roadmap g0 i new d0) else ret tt | None => ret tt end : eff _ unit) o = (Ok tt, oa)).
    { assert (K : exists ga, Size ga = Size g /\ exists oa, simulates oa ga /\ base_graph oa = base_graph o /\ (ret tt : eff _ unit) g = (Ok tt, ga) /\ (ret tt : eff _ unit) o = (Ok tt, oa))
        by (exists g; split; [reflexivity|]; exists o; auto).
      destruct (fst p) as [c|]; [|exact K]. destruct (not_negative ops c); [|exact K].
      destruct (edge_same g o i new c S Ri Rn Ni) as (ga & Ea & Sa & H). exists ga. split; [exact Sa|].
      destruct (modify (fun g0 => rm_edge overlay_roadmap g0 i new c) o) as [r oa]. destruct H as (H1 & H2 & H3). cbn in *. subst r. exists oa. auto. }
    destruct S1 as (ga & Sa & oa & SIa & Ba & -> & ->).
    assert (S2 : exists gb, Size gb = Size g /\ exists ob, simulates ob gb /\ base_graph ob = base_graph o /\
       (match snd p with Some d0 => if not_negative ops d0 then modify (fun g0 => rm_edge graph_roadmap g0 new i d0) else ret tt | None => ret tt end : eff _ unit) ga = (Ok tt, gb) /\
       (match snd p with Some d0 => if not_negative ops d0 then modify (fun g0 => rm_edge overlay_roadmap g0 new i d0) else ret tt | None => ret tt end : eff _ unit) oa = (Ok tt, ob)).
    { assert (K : exists gb, Size gb = Size g /\ exists ob, simulates ob gb /\ base_graph ob = base_graph o /\ (ret tt : eff _ unit) ga = (Ok tt, gb) /\ (ret tt : eff _ unit) oa = (Ok tt, ob))
        by (exists ga; split; [exact Sa|]; exists oa; auto).
      destruct (snd p) as [c|]; [|exact K]. destruct (not_negative ops c); [|exact K].
      destruct (edge_same ga oa new i c SIa) as (gb & Eb & Sb & H); try lia. exists gb. split; [lia|].
      destruct (modify (fun g0 => rm_edge overlay_roadmap g0 new i c) oa) as [r ob]. destruct H as (H1 & H2 & H3). cbn in *. subst r. exists ob.
      split; [exact H2|]. split; [congruence|]. auto. }
    destruct S2 as (gb & Sb & ob & SIb & Bb & -> & ->). exists gb. split; [exact Sb|]. split; [|reflexivity].
    split; [reflexivity|]. split; assumption. }
  destruct STEP as (g' & Sz & H & Eg). apply same_bind; [exact H|]. intros [] g1 o1 S1 B1 E1. rewrite E1 in Eg. cbn in Eg. subst g1.
  rewrite <- B1. apply IH; [|lia|exact S1]. intros i d I. rewrite Sz. exact (R i d I).
Qed.

Lemma mfold_ok_items {S A} (f : S -> A -> outcome S) : forall items s s', mfold f s items = Ok s' ->
  forall x, In x items -> exists t t', f t x = Ok t'.
Proof.
  induction items as [|y items IH]; intros s s' E x I; [destruct I|]. cbn in E. apply bind_ok in E. destruct E as (s1 & E1 & E2).
  destruct I as [<-|I]; [eauto|]. exact (IH s1 s' E2 x I).
Qed.

Lemma add_node_same g o state dir K max symmetric dups : simulates o g ->
  same (AddNodeToRoadmap ops knn dist valid order graph_roadmap state dir K max symmetric dups g)
       (AddNodeToRoadmap ops knn dist valid order overlay_roadmap state dir K max symmetric dups o) (base_graph o).
Proof.
  intros S. cbv [AddNodeToRoadmap ebind get lift put ret]. cbn [rm_view graph_roadmap overlay_roadmap].
  rewrite (view_eq _ _ S).
  destruct (GetKNearestNeighbors knn (as_graph_like g) state K dir max) as [l|e| |] eqn:EK;
    try (split; [reflexivity|]; split; [exact S|reflexivity]).
  assert (UB : forall i d, In (i, d) l -> i < Size g).
  { unfold GetKNearestNeighbors in EK. apply bind_ok in EK. destruct EK as (l' & _ & EK).
    destruct (existsb _ l') eqn:X; [discriminate|]. injection EK as ->. intros i d I.
    destruct (Z_lt_le_dec i (Size g)) as [L|L]; [exact L|]. exfalso.
    assert (existsb (fun nb : Z * C => (gl_size (as_graph_like g) <=? fst nb) || (max <=? fst nb)) l = true); [|congruence].
    apply existsb_exists. exists (i, d). split; [exact I|]. cbn. lia. }
  destruct (if dups then None else find (fun nb => is_zero ops (snd nb)) l) as [[i d]|];
    [split; [reflexivity|]; split; [exact S|reflexivity]|].
  cbn [rm_add graph_roadmap overlay_roadmap].
  destruct (overlay_add_node_sim o g (mkNode state [] []) S) as (S1 & F1 & B1).
  destruct (OverlayAddNode o (mkNode state [] [])) as [new o1]. cbn [fst snd] in S1, F1, B1. subst new.
  unfold AddNodeValue, AddNode. cbv zeta.
  assert (SZ : Size (g ++ [mkNode state [] []]) = Size g + 1) by (unfold Size; rewrite app_length; cbn; lia).
  rewrite SZ. replace (Size g + 1 - 1) with (Size g) by lia. rewrite (view_eq _ _ S1).
  destruct (mfold _ _ _) as [ds|e| |] eqn:ED;
    try (split; [reflexivity|]; split; [exact S1|exact B1]).
  assert (R : forall i d, In (i, d) l -> 0 <= i < Size (g ++ [mkNode state [] []]) /\ i <> Size g).
  { intros i d I. pose proof (UB i d I). rewrite SZ. enough (0 <= i) by lia.
    destruct (In_nth_error _ _ I) as (k & Ek). assert (k < length l)%nat by (apply nth_error_Some; congruence).
    assert (IO : In (Z.of_nat k) (order (gl_size (as_graph_like (g ++ [mkNode state [] []]))) (Z.of_nat (length l)))).
    { eapply Permutation_in; [apply Permutation_sym, ORD; lia|]. apply seqZ_in. lia. }
    destruct (mfold_ok_items _ _ _ _ ED _ IO) as (t & t' & Et). unfold connection_distances in Et.
    rewrite Nat2Z.id in Et. unfold at_get at 1 in Et. rewrite Ek in Et. cbn [bind] in Et.
    apply bind_ok in Et. destruct Et as (n & En & _). cbn [fst gl_get as_graph_like] in En.
    apply GetNode_ok, node_at_range in En. lia. }
  rewrite <- B1.
  pose proof (connections_same l ds (Size g) (seq 0 (length l)) (g ++ [mkNode state [] []]) o1 R) as H.
  specialize (H ltac:(rewrite SZ; unfold Size; lia) S1).
  destruct (for_each _ _ (g ++ [mkNode state [] []])) as [r1 g1], (for_each _ _ o1) as [r2 o2].
  destruct H as (H1 & H2 & H3). cbn [fst snd] in H1, H2, H3. subst r2.
  destruct r1; (split; [reflexivity|]; split; [exact H2|exact H3]).
Qed.

Lemma add_states_same dir K max symmetric dups : forall states g o, simulates o g ->
  same (add_states ops knn dist valid order graph_roadmap dir K max symmetric dups states g)
       (add_states ops knn dist valid order overlay_roadmap dir K max symmetric dups states o) (base_graph o).
Proof.
  induction states as [|s states IH]; intros g o S; cbn [add_states].
  { split; [reflexivity|]. split; [exact S|reflexivity]. }
  apply same_bind; [apply add_node_same; exact S|]. intros i g1 o1 S1 B1 _.
  apply same_bind; [rewrite <- B1; apply IH; exact S1|]. intros is g2 o2 S2 B2 _.
  split; [reflexivity|]. split; assumption.
Qed.

Lemma query_same pick lazy starts goals K symmetric dups limit fuel g o : simulates o g ->
  same (QueryPathAndAddNodes ops knn dist valid order graph_roadmap pick lazy starts goals K symmetric dups limit fuel g)
       (QueryPathAndAddNodes ops knn dist valid order overlay_roadmap pick lazy starts goals K symmetric dups limit fuel o)
       (base_graph o).
Proof.
  intros S. unfold QueryPathAndAddNodes. destruct starts as [|s starts]; [apply same_lift; exact S|].
  destruct goals as [|t goals]; [apply same_lift; exact S|].
  cbv [ebind get lift]. cbn [rm_view graph_roadmap overlay_roadmap]. rewrite (view_eq _ _ S).
  pose proof (add_states_same NewStateToRoadmap K (gl_size (as_graph_like g)) symmetric dups (s :: starts) g o S) as H1.
  destruct (add_states ops knn dist valid order graph_roadmap NewStateToRoadmap _ _ _ _ _ g) as [r1 g1].
  destruct (add_states ops knn dist valid order overlay_roadmap NewStateToRoadmap _ _ _ _ _ o) as [r1' o1].
  destruct H1 as (E1 & S1 & B1). cbn [fst snd] in E1, S1, B1. subst r1'.
  destruct r1 as [si|e| |]; try (split; [reflexivity|]; split; [exact S1|exact B1]).
  rewrite (view_eq _ _ S1).
  pose proof (add_states_same RoadmapToNewState K (gl_size (as_graph_like g1)) symmetric dups (t :: goals) g1 o1 S1) as H2.
  destruct (add_states ops knn dist valid order graph_roadmap RoadmapToNewState _ _ _ _ _ g1) as [r2 g2].
  destruct (add_states ops knn dist valid order overlay_roadmap RoadmapToNewState _ _ _ _ _ o1) as [r2' o2].
  destruct H2 as (E2 & S2 & B2). cbn [fst snd] in E2, S2, B2. subst r2'. rewrite B1 in B2.
  destruct r2 as [gi|e| |]; try (split; [reflexivity|]; split; [exact S2|exact B2]).
  rewrite (view_eq _ _ S2).
  match goal with |- same (match ?x with Ok _ => _ | _ => _ end) _ _ => destruct x as [res|e| |] end;
    (split; [reflexivity|]; split; [exact S2|exact B2]).
Qed.

Lemma overlay_of (g : list (GraphNode V C)) : simulates (MakeOverlay (as_graph_like g)) g.
Proof. split; [reflexivity|]. intros i. reflexivity. Qed.

(** Overlay and copy give the same answer; the overlay still refers to the
    caller's roadmap, which none of its operations writes to. *)
Lemma query_overlay_copy pick lazy starts goals (roadmap : list (GraphNode V C)) K symmetric dups limit fuel :
  fst (QueryPathOverlay ops knn dist valid order lazy pick starts goals roadmap K symmetric dups limit fuel) =
  fst (QueryPathCopy ops knn dist valid order lazy pick starts goals roadmap K symmetric dups limit fuel) /\
  base_graph (snd (QueryPathOverlay ops knn dist valid order lazy pick starts goals roadmap K symmetric dups limit fuel))
  = as_graph_like roadmap.
Proof.
  pose proof (query_same pick lazy starts goals K symmetric dups limit fuel roadmap _ (overlay_of roadmap)) as (E & _ & B).
  unfold QueryPathOverlay, QueryPathCopy. split; [symmetry; exact E|exact B].
Qed.
End Q.
