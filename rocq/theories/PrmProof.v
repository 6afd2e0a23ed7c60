(** Proofs about adding a node to a roadmap (C49) and growing it (C50). *)
From Verif Require Import Base Effect ParallelismModel ParallelismProof GraphModel GraphSpec GraphProof
  SearchModel SearchSpec KnnSpec PrmModel PrmSpec.
From Coq Require Import Permutation ZifyBool ZifyNat.
Local Open Scope Z_scope.

Lemma seqZ_in lo hi i : In i (seqZ lo hi) <-> lo <= i < hi.
Proof.
  unfold seqZ. enough (H : forall n lo, In i (seq_from lo n) <-> lo <= i < lo + Z.of_nat n).
  { rewrite H. lia. }
  clear lo hi. induction n as [|n IH]; intros lo; cbn [seq_from In]; [lia|]. rewrite IH. lia.
Qed.

Lemma seqZ_nth hi k : (k < Z.to_nat hi)%nat -> nth_error (seqZ 0 hi) k = Some (Z.of_nat k).
Proof.
  unfold seqZ. rewrite Z.sub_0_r.
  enough (H : forall n lo k, (k < n)%nat -> nth_error (seq_from lo n) k = Some (lo + Z.of_nat k)).
  { intros L. rewrite H by exact L. reflexivity. }
  clear hi k. induction n as [|n IH]; intros lo k L; [lia|]. destruct k as [|k]; cbn [seq_from nth_error].
  - f_equal. lia.
  - rewrite IH by lia. f_equal. lia.
Qed.
Lemma seqZ_len hi : length (seqZ 0 hi) = Z.to_nat hi.
Proof.
  unfold seqZ. rewrite Z.sub_0_r. generalize 0 at 1. induction (Z.to_nat hi) as [|n IH]; intros lo; cbn; [reflexivity|].
  rewrite IH. reflexivity.
Qed.

(** A loop that writes each element once fills the vector, whatever the order. *)
Lemma fill_any {A} (step : list A -> Z -> outcome (list A)) (h : Z -> A) n items :
  (forall v i, length v = n -> In i items -> step v i = at_set v (Z.to_nat i) (h i)) ->
  (forall i, In i items -> 0 <= i < Z.of_nat n) ->
  forall v, length v = n -> exists v', mfold step v items = Ok v' /\ length v' = n /\
    forall k, (k < n)%nat -> nth_error v' k = if in_dec Z.eq_dec (Z.of_nat k) items then Some (h (Z.of_nat k)) else nth_error v k.
Proof.
  induction items as [|i items IH]; intros Hs Hr v Lv.
  - exists v. cbn. split; [reflexivity|]. split; [exact Lv|]. intros k _. reflexivity.
  - cbn [mfold]. rewrite (Hs v i Lv (or_introl eq_refl)). unfold at_set.
    pose proof (Hr i (or_introl eq_refl)). rewrite set_nth_upd by lia. cbn [bind].
    destruct (IH (fun v j Lv' Hj => Hs v j Lv' (or_intror Hj)) (fun j Hj => Hr j (or_intror Hj))
                (upd v (Z.to_nat i) (h i))) as (v' & E & L' & N'); [rewrite upd_length; exact Lv|].
    exists v'. split; [exact E|]. split; [exact L'|]. intros k Hk. rewrite N' by exact Hk.
    destruct (in_dec Z.eq_dec (Z.of_nat k) items) as [I|NI];
      destruct (in_dec Z.eq_dec (Z.of_nat k) (i :: items)) as [I'|NI']; try reflexivity.
    + exfalso. apply NI'. right. exact I.
    + destruct I' as [Ei|I']; [|contradiction]. replace (Z.to_nat i) with k by lia. rewrite Ei.
      rewrite nth_error_upd_same by lia. reflexivity.
    + apply nth_error_upd_other. intros <-. apply NI'. left. lia.
Qed.

Lemma fill_all {A} (step : list A -> Z -> outcome (list A)) (h : Z -> A) n items v :
  (forall v i, length v = n -> 0 <= i < Z.of_nat n -> step v i = at_set v (Z.to_nat i) (h i)) ->
  Permutation items (seqZ 0 (Z.of_nat n)) -> length v = n ->
  mfold step v items = Ok (map h (seqZ 0 (Z.of_nat n))).
Proof.
  intros Hs P Lv.
  assert (IN : forall i, In i items <-> 0 <= i < Z.of_nat n).
  { intros i. rewrite <- seqZ_in. split; intros I; [eapply Permutation_in; [exact P|exact I]|].
    eapply Permutation_in; [apply Permutation_sym; exact P|exact I]. }
  destruct (fill_any step h n items (fun v i L I => Hs v i L (proj1 (IN i) I)) (fun i I => proj1 (IN i) I) v Lv)
    as (v' & E & L' & N'). rewrite E. f_equal. apply nth_error_ext. intros k.
  destruct (lt_dec k n) as [L|L].
  - rewrite N' by exact L. destruct (in_dec Z.eq_dec (Z.of_nat k) items) as [_|NI]; [|exfalso; apply NI, IN; lia].
    rewrite nth_error_map, seqZ_nth by lia. reflexivity.
  - assert (X : nth_error v' k = None) by (apply nth_error_None; lia). rewrite X.
    symmetry. apply nth_error_None. rewrite map_length, seqZ_len. lia.
Qed.

Section P.
Context {V C : Type} (ops : cost_ops C).
Implicit Types (g : list (GraphNode V C)).

Lemma state_of_at g d i n : node_at g i n -> state_of g d i = value n.
Proof.
  intros [H E]. unfold state_of. apply nth_error_nth. rewrite nth_error_map, E. reflexivity.
Qed.

Lemma plus_nil g : plus_edges g [] g.
Proof.
  split; [reflexivity|]. intros i n Hn. cbn. rewrite !app_nil_r. destruct n; exact Hn.
Qed.

Lemma plus_one g es g1 e g2 : plus_edges g es g1 -> scratchpad e = 0%N ->
  AddEdgeBetweenNodes g1 (from_index e) (to_index e) (weight e) = Ok g2 -> plus_edges g (es ++ [e]) g2.
Proof.
  intros [S1 N1] E0 E. destruct (AddEdge_nodes _ _ _ _ _ E) as (Ra & Rb & Ne & S2 & N2).
  split; [lia|]. intros i n Hn. apply N2. eexists. split; [apply (N1 i n Hn)|].
  unfold with_edge. cbn. rewrite !filter_app, <- !app_assoc. cbn [filter].
  replace (mkEdge (from_index e) (to_index e) (weight e) 0%N) with e by (destruct e; cbn in *; congruence).
  rewrite (Z.eqb_sym i (to_index e)), (Z.eqb_sym i (from_index e)).
  destruct (to_index e =? i), (from_index e =? i); reflexivity.
Qed.

Lemma plus_more g es g1 e : plus_edges g es g1 -> scratchpad e = 0%N ->
  0 <= from_index e < Size g -> 0 <= to_index e < Size g -> from_index e <> to_index e ->
  exists g2, AddEdgeBetweenNodes g1 (from_index e) (to_index e) (weight e) = Ok g2 /\ plus_edges g (es ++ [e]) g2.
Proof.
  intros P E0 Ra Rb Ne. pose proof P as [S1 _].
  destruct (AddEdge_cases g1 (from_index e) (to_index e) (weight e)) as [(na & nb & _ & _ & _ & E)|(x & _ & X)].
  - eexists. split; [exact E|]. eapply plus_one; eassumption.
  - exfalso. apply X. rewrite S1. auto.
Qed.

Lemma plus_linked es : forall g g', linked g -> plus_edges g es g' ->
  (forall e, In e es -> 0 <= from_index e < Size g /\ 0 <= to_index e < Size g /\ from_index e <> to_index e) -> linked g'.
Proof.
  intros g g' (L1 & L2 & L3) [S N] R.
  assert (B : forall i n', node_at g' i n' -> exists n, node_at g i n /\
     n' = mkNode (value n) (in_edges n ++ filter (fun e => to_index e =? i) es)
                 (out_edges n ++ filter (fun e => from_index e =? i) es)).
  { intros i n' Hn'. pose proof (node_at_range _ _ _ Hn') as Rn. rewrite S in Rn.
    destruct (in_range_node_at g i Rn) as (n & Hn). exists n. split; [exact Hn|].
    exact (node_at_fun _ _ _ _ Hn' (N i n Hn)). }
  assert (EX : forall k, 0 <= k < Size g -> exists m, node_at g' k m).
  { intros k Rk. apply in_range_node_at. lia. }
  assert (EX2 : forall k, (exists m, node_at g k m) -> exists m, node_at g' k m).
  { intros k (m & Hm). apply EX. exact (node_at_range _ _ _ Hm). }
  split; [|split].
  - intros i n' e Hn' He. destruct (B i n' Hn') as (n & Hn & ->). cbn in He. apply in_app_iff in He.
    destruct He as [He|He].
    + destruct (L1 i n e Hn He) as (A1 & A2 & A3). auto.
    + apply filter_In in He. destruct He as [He Ee]. apply Z.eqb_eq in Ee. destruct (R e He) as (R1 & R2 & R3).
      split; [exact Ee|]. split; [congruence|]. apply EX. exact R2.
  - intros i n' e Hn' He. destruct (B i n' Hn') as (n & Hn & ->). cbn in He. apply in_app_iff in He.
    destruct He as [He|He].
    + destruct (L2 i n e Hn He) as (A1 & A2 & A3). auto.
    + apply filter_In in He. destruct He as [He Ee]. apply Z.eqb_eq in Ee. destruct (R e He) as (R1 & R2 & R3).
      split; [exact Ee|]. split; [congruence|]. apply EX. exact R1.
  - intros i j n' m' Hn' Hm'. destruct (B i n' Hn') as (n & Hn & ->), (B j m' Hm') as (m & Hm & ->). cbn.
    rewrite !filter_app, (L3 i j n m Hn Hm). f_equal. clear.
    induction es as [|e es IH]; [reflexivity|]. cbn [filter].
    destruct (from_index e =? i) eqn:E1, (to_index e =? j) eqn:E2; cbn [filter]; rewrite ?E1, ?E2, ?IH; reflexivity.
Qed.

Lemma plus_grows es (P : GraphEdge C -> Prop) g g' : plus_edges g es g' -> (forall e, In e es -> P e) -> grows_with P g g'.
Proof.
  intros [S N] HP. split.
  - intros i n Hn. do 3 eexists. split; [exact (N i n Hn)|]. cbn. repeat (split; [reflexivity|]).
    split; apply Forall_forall; intros e He; apply filter_In in He; apply HP, He.
  - intros i n' Hn' Hi. apply node_at_range in Hn'. lia.
Qed.

Lemma grows_refl P g : grows_with P g g.
Proof.
  split; [|intros i n' Hn' Hi; apply node_at_range in Hn'; lia].
  intros i n Hn. exists n, [], []. rewrite !app_nil_r. auto 10.
Qed.
Lemma grows_size P g g' : grows_with P g g' -> Size g <= Size g'.
Proof.
  intros [H _]. destruct (Z_lt_le_dec (Size g') (Size g)) as [L|]; [|assumption].
  assert (0 <= Size g') by (unfold Size; lia).
  destruct (in_range_node_at g (Size g')) as (n & Hn); [lia|].
  destruct (H _ _ Hn) as (n' & _ & _ & Hn' & _). apply node_at_range in Hn'. lia.
Qed.
Lemma grows_trans (P : GraphEdge C -> Prop) g1 g2 g3 : grows_with P g1 g2 -> grows_with P g2 g3 -> grows_with P g1 g3.
Proof.
  intros G1 G2. pose proof (grows_size _ _ _ G1) as S1. destruct G1 as [A1 B1], G2 as [A2 B2]. split.
  - intros i n Hn. destruct (A1 i n Hn) as (n2 & i2 & o2 & H2 & V2 & I2 & O2 & F2 & F2').
    destruct (A2 i n2 H2) as (n3 & i3 & o3 & H3 & V3 & I3 & O3 & F3 & F3').
    exists n3, (i2 ++ i3), (o2 ++ o3). rewrite !app_assoc, <- I2, <- O2.
    rewrite !Forall_app. split; [exact H3|]. split; [congruence|]. auto.
  - intros i n3 H3 Hi. destruct (Z_lt_le_dec i (Size g2)) as [L|L]; [|exact (B2 i n3 H3 L)].
    pose proof (node_at_range _ _ _ H3). destruct (in_range_node_at g2 i) as (n2 & H2); [lia|].
    destruct (B1 i n2 H2 Hi) as [F2 F2']. destruct (A2 i n2 H2) as (n3' & i3 & o3 & H3' & V3 & I3 & O3 & F3 & F3').
    rewrite (node_at_fun _ _ _ _ H3 H3'), I3, O3, !Forall_app. auto.
Qed.
Lemma grows_weaken (P Q : GraphEdge C -> Prop) g g' : (forall e, P e -> Q e) -> grows_with P g g' -> grows_with Q g g'.
Proof.
  intros H [A B]. split.
  - intros i n Hn. destruct (A i n Hn) as (n2 & i2 & o2 & H2 & V2 & I2 & O2 & F2 & F2').
    exists n2, i2, o2. split; [exact H2|]. split; [exact V2|]. split; [exact I2|]. split; [exact O2|].
    split; eapply Forall_impl; eauto.
  - intros i n' Hn' Hi. destruct (B i n' Hn' Hi). split; eapply Forall_impl; eauto.
Qed.
Lemma good_edge_grows dist valid P g g' e : grows_with P g g' -> good_edge dist valid g e -> good_edge dist valid g' e.
Proof.
  intros [A _] (a & b & Ha & Hb & X). destruct (A _ _ Ha) as (a' & _ & _ & Ha' & Va & _).
  destruct (A _ _ Hb) as (b' & _ & _ & Hb' & Vb & _). exists a', b'. rewrite Va, Vb. auto.
Qed.
Lemma grows_node P g v : grows_with P g (g ++ [mkNode v [] []]).
Proof.
  split.
  - intros i n Hn. exists n, [], []. rewrite !app_nil_r. split; [apply node_at_snoc; auto|auto 10].
  - intros i n' Hn' Hi. apply node_at_snoc in Hn'. destruct Hn' as [Hn'|[_ ->]].
    + apply node_at_range in Hn'. lia.
    + cbn. auto.
Qed.

Section Add.
Variable knn : @knn_provider V C.
Variable dist : V -> V -> C.
Variable valid : V -> V -> bool.
Variable order : Z -> Z -> list Z.
Hypothesis ORD : each_once order.
Hypothesis KNN : knn_truthful knn dist.

Notation geb0 d := (cgeb ops d (czero ops)).

(** Pair of distances stored for a neighbor. *)
Definition pair_for (symmetric : bool) (dir : direction) (state v : V) (d : C) : option C * option C :=
  if valid v state && symmetric then (Some d, Some d)
  else if negb symmetric then
    match dir with
    | RoadmapToNewState => (if valid v state then Some d else None, if valid state v then Some (dist state v) else None)
    | NewStateToRoadmap => (if valid state v then Some (dist state v) else None, if valid v state then Some d else None)
    end
  else (None, None).

Lemma get_nn_ok g state K dir max l :
  GetKNearestNeighbors knn (as_graph_like g) state K dir max = Ok l ->
  NoDup (map fst l) /\ forall i d, In (i, d) l ->
    0 <= i < Size g /\ i < max /\ exists n, node_at g i n /\ d = distance_towards dist dir state (value n).
Proof.
  unfold GetKNearestNeighbors. intros E. apply bind_ok in E. destruct E as (l' & El & E).
  destruct (existsb _ l') eqn:X; [discriminate|]. injection E as <-.
  destruct (KNN _ _ _ _ _ _ El) as [ND T]. split; [exact ND|]. intros i d I.
  destruct (T i d I) as (n & Hn & Ed). pose proof (node_at_range _ _ _ Hn) as R. split; [exact R|].
  split; [|exists n; auto].
  destruct (Z_lt_le_dec i max) as [L|L]; [exact L|]. exfalso.
  assert (existsb (fun nb : Z * C => (gl_size (as_graph_like g) <=? fst nb) || (max <=? fst nb)) l' = true); [|congruence].
  apply existsb_exists. exists (i, d). split; [exact I|]. cbn. lia.
Qed.

Lemma distances_ok g state dir symmetric l (o : list Z) :
  (forall i d, In (i, d) l -> 0 <= i < Size g) -> Permutation o (seqZ 0 (Z.of_nat (length l))) ->
  forall init, length init = length l ->
  mfold (connection_distances dist valid (as_graph_like (g ++ [mkNode state [] []])) state dir symmetric l) init o
  = Ok (map (fun nb => pair_for symmetric dir state (state_of g state (fst nb)) (snd nb)) l).
Proof.
  intros R P init Li.
  assert (H : mfold (connection_distances dist valid (as_graph_like (g ++ [mkNode state [] []])) state dir symmetric l) init o =
    Ok (map (fun k => let nb := nth (Z.to_nat k) l (0, czero ops) in
                      pair_for symmetric dir state (state_of g state (fst nb)) (snd nb)) (seqZ 0 (Z.of_nat (length l))))).
  { apply (fill_all _ _ (length l)); [|exact P|exact Li]. intros v k Lv Hk.
    unfold connection_distances. unfold at_get at 1.
    assert (L : (Z.to_nat k < length l)%nat) by lia.
    rewrite (nth_error_nth' l (0, czero ops) L). cbn [bind].
    set (nb := nth (Z.to_nat k) l (0, czero ops)).
    assert (I : In nb l) by (apply nth_In; exact L). destruct nb as [i d]. cbn [fst snd].
    destruct (in_range_node_at g i (R i d I)) as (n & Hn).
    rewrite (state_of_at g state i n Hn).
    assert (G : gl_get (as_graph_like (g ++ [mkNode state [] []])) i = Ok n).
    { cbn [gl_get as_graph_like]. apply GetNode_ok, node_at_snoc. left. exact Hn. }
    rewrite G. cbn [bind].
    unfold pair_for. destruct (valid (value n) state), symmetric; cbn; try reflexivity; destruct dir; reflexivity. }
  rewrite H. f_equal. apply nth_error_ext. intros k. rewrite !nth_error_map.
  destruct (lt_dec k (length l)) as [L|L].
  - rewrite seqZ_nth by lia. cbn [option_map]. rewrite Nat2Z.id, (nth_error_nth' l (0, czero ops) L). reflexivity.
  - assert (X : nth_error l k = None) by (apply nth_error_None; lia). rewrite X.
    assert (Y : nth_error (seqZ 0 (Z.of_nat (length l))) k = None) by (apply nth_error_None; rewrite seqZ_len; lia).
    rewrite Y. reflexivity.
Qed.

(** Edges added for one neighbor. *)
Definition pair_edges (new : Z) (i : Z) (p : option C * option C) : list (GraphEdge C) :=
  (match fst p with Some d => if geb0 d then [mkEdge i new d 0%N] else [] | None => [] end) ++
  (match snd p with Some d => if geb0 d then [mkEdge new i d 0%N] else [] | None => [] end).

Lemma connect_loop g new (pf : Z * C -> option C * option C) : forall l2 l1 es g1,
  (forall i d, In (i, d) (l1 ++ l2) -> 0 <= i < Size g /\ i <> new) -> 0 <= new < Size g ->
  plus_edges g es g1 ->
  exists g2, for_each (add_connection ops graph_roadmap (l1 ++ l2) (map pf (l1 ++ l2)) new)
      (seq (length l1) (length l2)) g1 = (Ok tt, g2) /\
    plus_edges g (es ++ flat_map (fun nb => pair_edges new (fst nb) (pf nb)) l2) g2.
Proof.
  induction l2 as [|[i d] l2 IH]; intros l1 es g1 R Rn P.
  - cbn. exists g1. rewrite app_nil_r. auto.
  - cbn [length seq for_each]. unfold ebind at 1. unfold add_connection at 1, ebind, lift.
    assert (G1 : at_get (l1 ++ (i, d) :: l2) (length l1) = Ok (i, d)).
    { unfold at_get. rewrite nth_error_app2, Nat.sub_diag by lia. reflexivity. }
    assert (G2 : at_get (map pf (l1 ++ (i, d) :: l2)) (length l1) = Ok (pf (i, d))).
    { unfold at_get. rewrite nth_error_map, nth_error_app2, Nat.sub_diag by lia. reflexivity. }
    rewrite G1, G2. cbn [fst snd].
    destruct (R i d) as [Ri Ni]; [apply in_app_iff; right; left; reflexivity|].
    set (p := pf (i, d)).
    assert (S1 : exists ga, (match fst p with
           | Some d0 => if not_negative ops d0 then modify (fun g0 => rm_edge graph_roadmap g0 i new d0) else ret tt
           | None => ret tt end : eff _ unit) g1 = (Ok tt, ga) /\
        plus_edges g (es ++ match fst p with Some d => if geb0 d then [mkEdge i new d 0%N] else [] | None => [] end) ga).
    { unfold not_negative. destruct (fst p) as [c|]; [|exists g1; rewrite app_nil_r; auto].
      destruct (geb0 c); [|exists g1; rewrite app_nil_r; auto].
      destruct (plus_more g es g1 (mkEdge i new c 0%N) P eq_refl) as (ga & Ea & Pa); cbn; try assumption.
      exists ga. cbn in Ea. unfold modify. cbn [rm_edge graph_roadmap]. rewrite Ea. auto. }
    destruct S1 as (ga & Ea & Pa). rewrite Ea.
    assert (S2 : exists gb, (match snd p with
           | Some d0 => if not_negative ops d0 then modify (fun g0 => rm_edge graph_roadmap g0 new i d0) else ret tt
           | None => ret tt end : eff _ unit) ga = (Ok tt, gb) /\
        plus_edges g (es ++ pair_edges new i p) gb).
    { unfold pair_edges. rewrite app_assoc. revert Pa. generalize (es ++ match fst p with Some d => if geb0 d then [mkEdge i new d 0%N] else [] | None => [] end).
      intros es' Pa. unfold not_negative. destruct (snd p) as [c|]; [|exists ga; rewrite app_nil_r; auto].
      destruct (geb0 c); [|exists ga; rewrite app_nil_r; auto].
      destruct (plus_more g es' ga (mkEdge new i c 0%N) Pa eq_refl) as (gb & Eb & Pb); cbn; try assumption.
      { congruence. }
      exists gb. cbn in Eb. unfold modify. cbn [rm_edge graph_roadmap]. rewrite Eb. auto. }
    destruct S2 as (gb & Eb & Pb). rewrite Eb.
    destruct (IH (l1 ++ [(i, d)]) (es ++ pair_edges new i p) gb) as (g2 & E2 & P2).
    { rewrite <- app_assoc. exact R. }
    { exact Rn. }
    { exact Pb. }
    rewrite <- app_assoc in E2. cbn [app] in E2. rewrite app_length in E2. cbn [length] in E2. rewrite Nat.add_1_r in E2.
    exists g2. split; [exact E2|]. cbn [flat_map fst]. rewrite app_assoc. exact P2.
Qed.

(** What AddNodeToRoadmap does once the neighbors are known. *)
Lemma add_node_exact g state dir K max symmetric dups l :
  GetKNearestNeighbors knn (as_graph_like g) state K dir max = Ok l ->
  exists i g', AddNodeToRoadmap ops knn dist valid order graph_roadmap state dir K max symmetric dups g = (Ok i, g') /\
  ((dups = false /\ g' = g /\ exists d, In (i, d) l /\ is_zero ops d = true) \/
   ((dups = false -> forall j d, In (j, d) l -> is_zero ops d = false) /\ i = Size g /\
    plus_edges (g ++ [mkNode state [] []])
      (flat_map (fun nb => pair_edges (Size g) (fst nb)
                   (pair_for symmetric dir state (state_of g state (fst nb)) (snd nb))) l) g')).
Proof.
  intros E. pose proof (get_nn_ok _ _ _ _ _ _ E) as [ND T].
  unfold AddNodeToRoadmap. unfold ebind at 1, get. cbv iota beta. unfold ebind at 1, lift.
  cbn [rm_view graph_roadmap]. rewrite E. cbv iota beta.
  assert (DUP : (if dups then None else find (fun nb => is_zero ops (snd nb)) l) = None ->
     dups = false -> forall j d, In (j, d) l -> is_zero ops d = false).
  { intros F -> j d I. exact (find_none _ _ F (j, d) I). }
  destruct (if dups then None else find (fun nb => is_zero ops (snd nb)) l) as [[i d]|] eqn:F.
  - exists i, g. split; [reflexivity|]. left. destruct dups; [discriminate|]. apply find_some in F. cbn in F.
    split; [reflexivity|]. split; [reflexivity|]. exists d. exact F.
  - cbn [rm_add graph_roadmap AddNodeValue AddNode].
    assert (SZ : Size (g ++ [mkNode state [] []]) = Size g + 1) by (unfold Size; rewrite app_length; cbn; lia).
    rewrite SZ. replace (Size g + 1 - 1) with (Size g) by lia.
    unfold ebind at 1, put. cbv iota beta. unfold ebind at 1, lift.
    rewrite (distances_ok g state dir symmetric l).
    2:{ intros i d I. apply (T i d I). }
    2:{ apply ORD. lia. }
    2:{ apply repeat_length. }
    cbv iota beta. unfold ebind at 1.
    destruct (connect_loop (g ++ [mkNode state [] []]) (Size g)
       (fun nb => pair_for symmetric dir state (state_of g state (fst nb)) (snd nb)) l [] [] (g ++ [mkNode state [] []])) as (g2 & E2 & P2).
    { cbn [app]. intros i d I. destruct (T i d I) as (R & _). rewrite SZ. lia. }
    { rewrite SZ. unfold Size. lia. }
    { apply plus_nil. }
    cbn [app length] in E2, P2. rewrite E2. cbv iota beta. exists (Size g), g2. split; [reflexivity|]. right.
    split; [exact (DUP eq_refl)|]. split; [reflexivity|exact P2].
Qed.

Lemma offered_equal g state dir symmetric l :
  (symmetric = true -> symmetric_functions dist valid) ->
  (dir = RoadmapToNewState \/ symmetric_functions dist valid) ->
  (forall i d, In (i, d) l -> exists n, node_at g i n /\ d = distance_towards dist dir state (value n)) ->
  flat_map (fun nb => pair_edges (Size g) (fst nb) (pair_for symmetric dir state (state_of g state (fst nb)) (snd nb))) l
  = offered_edges ops valid dist g state (Size g) (map fst l).
Proof.
  intros HS HD T. unfold offered_edges. induction l as [|[i d] l IH]; [reflexivity|].
  cbn [flat_map map fst snd]. rewrite IH by (intros j c I; apply T; right; exact I). f_equal.
  destruct (T i d (or_introl eq_refl)) as (n & Hn & Ed). rewrite (state_of_at g state i n Hn).
  set (v := value n) in *. unfold pair_edges, pair_for, edge_if. subst d.
  destruct symmetric.
  - specialize (HS eq_refl). destruct (HS state v) as [Sd Sv]. destruct dir; cbn [distance_towards];
      rewrite Sv, Sd; destruct (valid v state); cbn [andb negb fst snd]; rewrite ?Sd; reflexivity.
  - rewrite andb_false_r. cbn [negb].
    destruct dir; cbn [distance_towards].
    + destruct (valid v state), (valid state v); cbn; reflexivity.
    + destruct HD as [X|HD]; [discriminate|]. destruct (HD state v) as [Sd Sv]. rewrite Sv, Sd.
      destruct (valid v state); cbn; reflexivity.
Qed.

Lemma plus_back g es g' i n' : plus_edges g es g' -> node_at g' i n' -> exists n, node_at g i n /\ value n' = value n.
Proof.
  intros [S N] Hn'. pose proof (node_at_range _ _ _ Hn') as R. rewrite S in R.
  destruct (in_range_node_at g i R) as (n & Hn). exists n. split; [exact Hn|].
  rewrite (node_at_fun _ _ _ _ Hn' (N i n Hn)). reflexivity.
Qed.

Lemma offered_in g state l e : (forall i, In i l -> 0 <= i < Size g) ->
  In e (offered_edges ops valid dist g state (Size g) l) ->
  0 <= from_index e < Size g + 1 /\ 0 <= to_index e < Size g + 1 /\ from_index e <> to_index e.
Proof.
  intros R I. unfold offered_edges in I. apply in_flat_map in I. destruct I as (i & Ii & I). specialize (R i Ii).
  apply in_app_iff in I. unfold edge_if in I. destruct I as [I|I];
    (match type of I with In _ (if ?b then _ else _) => destruct b end; [destruct I as [<-|[]]; cbn; lia|destruct I]).

Qed.

Lemma offered_good g state l g' e : (forall i, In i l -> 0 <= i < Size g) ->
  plus_edges (g ++ [mkNode state [] []]) (offered_edges ops valid dist g state (Size g) l) g' ->
  In e (offered_edges ops valid dist g state (Size g) l) -> good_edge dist valid g' e.
Proof.
  intros R [S N] I. unfold offered_edges in I. apply in_flat_map in I. destruct I as (i & Ii & I). specialize (R i Ii).
  destruct (in_range_node_at g i R) as (n & Hn). rewrite (state_of_at g state i n Hn) in I.
  assert (A : node_at (g ++ [mkNode state [] []]) i n) by (apply node_at_snoc; left; exact Hn).
  assert (B : node_at (g ++ [mkNode state [] []]) (Size g) (mkNode state [] [])) by (apply node_at_snoc; right; auto).
  apply N in A, B. apply in_app_iff in I. unfold edge_if in I. destruct I as [I|I].
  - destruct (valid (value n) state) eqn:Ev; cbn [andb] in I; [|destruct I]. destruct (cgeb _ _ _); [|destruct I]. destruct I as [<-|[]].
    eexists _, _. cbn [from_index to_index weight]. split; [exact A|]. split; [exact B|]. cbn. auto.
  - destruct (valid state (value n)) eqn:Ev; cbn [andb] in I; [|destruct I]. destruct (cgeb _ _ _); [|destruct I]. destruct I as [<-|[]].
    eexists _, _. cbn [from_index to_index weight]. split; [exact B|]. split; [exact A|]. cbn. auto.
Qed.

Variable symmetric : bool.
Hypothesis SYM : symmetric = true -> symmetric_functions dist valid.

Lemma add_node_added g state dir K max dups r g' :
  (dir = RoadmapToNewState \/ symmetric_functions dist valid) ->
  AddNodeToRoadmap ops knn dist valid order graph_roadmap state dir K max symmetric dups g = (r, g') ->
  match r with
  | Ok i =>
    exists l, GetKNearestNeighbors knn (as_graph_like g) state K dir max = Ok l /\
    ((dups = false /\ g' = g /\ exists n, node_at g i n /\ is_zero ops (distance_towards dist dir state (value n)) = true) \/
     ((dups = false -> forall j n, In j (map fst l) -> node_at g j n ->
         is_zero ops (distance_towards dist dir state (value n)) = false) /\
      i = Size g /\
      plus_edges (g ++ [mkNode state [] []]) (offered_edges ops valid dist g state (Size g) (map fst l)) g' /\
      (linked g -> linked g')))
  | _ => g' = g /\ forall l, GetKNearestNeighbors knn (as_graph_like g) state K dir max <> Ok l
  end.
Proof.
  intros HD E. destruct (GetKNearestNeighbors knn (as_graph_like g) state K dir max) as [l|x| |] eqn:EK.
  2-4: assert (X : r <> Ok (Size g) /\ g' = g /\ match r with Ok _ => False | _ => True end)
     by (revert E; unfold AddNodeToRoadmap, ebind, get, lift; cbn [rm_view graph_roadmap]; rewrite EK;
         intros E; injection E as <- <-; split; [discriminate|auto]);
     destruct X as (_ & -> & X); destruct r; [contradiction| | |]; (split; [reflexivity|discriminate]).
  destruct (add_node_exact g state dir K max symmetric dups l EK) as (i & g2 & E2 & H). rewrite E2 in E.
  injection E as <- <-. exists l. split; [reflexivity|]. pose proof (get_nn_ok _ _ _ _ _ _ EK) as [ND T].
  destruct H as [(-> & -> & d & I & Z0)|(D & -> & P)].
  - left. split; [reflexivity|]. split; [reflexivity|]. destruct (T i d I) as (_ & _ & n & Hn & ->). exists n. auto.
  - right. split.
    { intros Hd j n Ij Hn. apply in_map_iff in Ij. destruct Ij as ([j' d] & Ej & Ij). cbn in Ej. subst j'.
      destruct (T j d Ij) as (_ & _ & n' & Hn' & Ed). rewrite (node_at_fun _ _ _ _ Hn Hn'), <- Ed. exact (D Hd j d Ij). }
    split; [reflexivity|].
    rewrite (offered_equal g state dir symmetric l SYM HD) in P by (intros j d I; apply (T j d I)).
    split; [exact P|]. intros L. eapply plus_linked; [|exact P|].
    + exact (linked_add_node g state L).
    + intros e I. unfold Size. rewrite app_length. cbn [length]. rewrite Nat2Z.inj_add. change (Z.of_nat 1) with 1. fold (Size g).
      apply (offered_in g state (map fst l)); [|exact I].
      intros j Ij. apply in_map_iff in Ij. destruct Ij as ([j' d] & Ej & Ij). cbn in Ej. subst j'. apply (T j d Ij).
Qed.

Lemma add_node_grows g state dir K max dups r g' :
  (dir = RoadmapToNewState \/ symmetric_functions dist valid) ->
  AddNodeToRoadmap ops knn dist valid order graph_roadmap state dir K max symmetric dups g = (r, g') ->
  grows_with (good_edge dist valid g') g g' /\ (linked g -> linked g') /\
  match r with
  | Ok i => (g' = g /\ dups = false /\ exists n, node_at g i n /\ is_zero ops (distance_towards dist dir state (value n)) = true) \/
            (i = Size g /\ Size g' = Size g + 1 /\ exists n, node_at g' i n /\ value n = state)
  | _ => g' = g /\ forall l, GetKNearestNeighbors knn (as_graph_like g) state K dir max <> Ok l
  end.
Proof.
  intros HD E. pose proof (add_node_added g state dir K max dups r g' HD E) as H.
  destruct r as [i|x| |]; try (destruct H as [-> H]; split; [apply grows_refl|]; auto).
  destruct H as (l & EK & [(-> & -> & n & Hn & Z0)|(D & -> & P & L)]).
  - split; [apply grows_refl|]. split; [auto|]. left. eauto.
  - pose proof (get_nn_ok _ _ _ _ _ _ EK) as [ND T].
    assert (R : forall i, In i (map fst l) -> 0 <= i < Size g).
    { intros j Ij. apply in_map_iff in Ij. destruct Ij as ([j' d] & Ej & Ij). cbn in Ej. subst j'. apply (T j d Ij). }
    split; [|split; [exact L|]].
    + eapply grows_trans; [apply grows_node|]. eapply plus_grows; [exact P|].
      intros e I. eapply offered_good; eassumption.
    + right. pose proof P as [S N]. split; [reflexivity|].
      split; [rewrite S; unfold Size; rewrite app_length; cbn; lia|].
      eexists. split; [apply N, node_at_snoc; right; split; reflexivity|]. reflexivity.
Qed.
End Add.
End P.
