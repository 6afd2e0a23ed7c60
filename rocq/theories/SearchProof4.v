(** Graph A*, exact integer costs, counterexamples (C18-C22). *)
From Coq Require Import Permutation ZifyBool ZifyNat.
From Flocq Require Import BinarySingleNaN.
From Verif Require Import Base ParallelismModel ParallelismProof GraphModel GraphSpec GraphProof GraphProof2
  SearchModel SearchSpec SearchProof SearchProof2 SearchProof3 Double SearchDouble.
Local Open Scope Z_scope.

(** *** Exact costs: integers and infinity (None). *)
Definition zadd (a b : option Z) : option Z :=
  match a, b with Some x, Some y => Some (x + y) | _, _ => None end.
Definition zltb (a b : option Z) : bool :=
  match a, b with Some x, Some y => x <? y | Some _, None => true | None, _ => false end.
Definition exact_cost : cost_ops (option Z) :=
  mkCost (Some 0) None zadd zltb (fun a b => negb (zltb a b)) (fun a => match a with None => true | _ => false end).

Lemma exact_laws : cost_laws exact_cost.
Proof.
  constructor; unfold cle, clt; simpl.
  - intros [a|]; simpl; [lia|reflexivity].
  - intros [a|] [b|] [c|]; simpl; try lia; auto.
  - intros [a|] [b|]; simpl; lia.
  - intros [a|] [b|]; simpl; destruct (_ <? _) || idtac; simpl; intuition congruence.
  - intros [a|] [b|] [w|]; simpl; try lia; auto.
  - intros [a|] [b|] [w|]; simpl; try lia; auto.
  - intros [a|] [w|]; simpl; try lia; auto.
  - intros [a|] [w|]; simpl; try lia; auto.
  - intros [a|]; reflexivity.
  - reflexivity.
  - intros [a|]; simpl; intuition congruence.
Qed.

Lemma exact_shift {T} (step : T -> T -> option Z -> Prop) s c l t d : walk exact_cost step s c l t d ->
  forall k, walk exact_cost step s (zadd k c) l t (zadd k d).
Proof.
  induction 1 as [s c|s c m w l t d Hs Hw IH]; intros k; [constructor|].
  eapply walk_on; [exact Hs|]. simpl in *. replace (zadd (zadd k c) w) with (zadd k (zadd c w)); [apply IH|].
  destruct k, c, w; simpl; try reflexivity. f_equal. lia.
Qed.

(** With exact costs the usual notion of an admissible heuristic is enough. *)
Lemma admissible_exact {T} (children : T -> outcome (list (T * option Z))) goal (h : T -> option Z) :
  (forall n l g d, goal g = true -> walk exact_cost (child_of children) n (Some 0) l g d -> cle exact_cost (h n) d) ->
  (forall g, goal g = true -> cle exact_cost (Some 0) (h g)) ->
  admissible exact_cost children goal h.
Proof.
  intros H1 H2. split; [|exact H2]. intros n c l g d Hc Hg W.
  destruct c as [c|].
  - pose proof (exact_shift _ _ _ _ _ _ W (Some (- c))) as W'. simpl in W'. replace (- c + c) with 0 in W' by lia.
    specialize (H1 n l g _ Hg W'). unfold cle in *. simpl in *. destruct (h n), d; simpl in *; try lia; auto.
  - assert (forall s c l g d, walk exact_cost (child_of children) s c l g d -> c = None -> d = None) as N.
    { induction 1; intros; [assumption|]. apply IHwalk. subst. reflexivity. }
    rewrite (N _ _ _ _ _ W eq_refl). reflexivity.
Qed.

(** *** Graph A* *)
Section GraphA.
Context {V C : Type} (ops : cost_ops C).
Hypothesis L : cost_laws ops.
Variables (g : list (GraphNode V C)) (b : graph_like V C).
Hypothesis BL : behaves_like b g.
Variables (valid : GraphEdge C -> bool) (distance : GraphEdge C -> C) (heuristic : Z -> Z -> C)
  (starts goals : list Z) (limit : bool) (pick : picker (pq_elem Z C)).
Hypothesis VP : valid_pick ops (@el_value Z C) pick.
Hypothesis NN : forall i n e, node_at g i n -> In e (out_edges n) -> valid e = true -> cle ops (czero ops) (distance e).
Notation le := (cle ops). Notation lt := (clt ops).
Notation kids := (graph_children b valid distance).
Let zstarts := map (fun s => (s, czero ops)) starts.
Let isgoal := fun i => existsb (Z.eqb i) goals.
Let hmin := fun i => fold_left (fun best t => if cltb ops (heuristic i t) best then heuristic i t else best) goals (cinf ops).

Lemma child_allowed i j w : child_of kids i j w <-> allowed_step g valid distance i j w.
Proof.
  unfold child_of, graph_children, allowed_step. rewrite (proj2 BL). split.
  - intros (cs & E & H). apply bind_ok in E as (n & En & E). injection E as <-.
    apply in_map_iff in H as (e & E & H). apply filter_In in H as [H1 H2]. injection E as <- <-.
    exists n, e. repeat split; auto; apply GetNode_ok in En; apply En.
  - intros (n & e & Hn & He & Hv & <- & <-). rewrite (proj1 (GetNode_ok g i n) Hn). cbn [bind].
    eexists. split; [reflexivity|]. apply in_map_iff. exists e. split; [reflexivity|]. apply filter_In. auto.
Qed.

Lemma walk_ext {T} (step step' : T -> T -> C -> Prop) s c l t d :
  (forall a b w, step a b w -> step' a b w) -> walk ops step s c l t d -> walk ops step' s c l t d.
Proof. intros H. induction 1; [constructor|econstructor; eauto]. Qed.

Lemma isgoal_in t : isgoal t = true <-> In t goals.
Proof. apply existsb_in. Qed.

Lemma route_graph path d : route ops kids zstarts isgoal path d <-> graph_route ops g valid distance starts goals path d.
Proof.
  split.
  - intros (s & c & t & Hs & Ht & W). apply in_map_iff in Hs as (s' & E & Hs). injection E as <- <-.
    exists s', t. split; [exact Hs|]. split; [apply isgoal_in, Ht|].
    eapply walk_ext; [|exact W]. intros. apply child_allowed. assumption.
  - intros (s & t & Hs & Ht & W). exists s, (czero ops), t. split; [apply in_map_iff; exists s; auto|].
    split; [apply isgoal_in, Ht|]. eapply walk_ext; [|exact W]. intros. apply child_allowed. assumption.
Qed.

Lemma graph_costs_ok : costs_ok ops kids zstarts.
Proof.
  split.
  - intros s c H. apply in_map_iff in H as (s' & E & _). injection E as _ <-.
    split; [apply cl_refl, L|apply cl_zero_inf, L].
  - intros s t w H. apply child_allowed in H as (n & e & Hn & He & Hv & _ & <-). eauto.
Qed.

Lemma hmin_le i t : In t goals -> le (hmin i) (heuristic i t).
Proof.
  unfold hmin. generalize (cinf ops). induction goals as [|x l IH]; intros best []; cbn [fold_left].
  - subst x. clear IH. assert (forall l best, le (fold_left (fun best t => if cltb ops (heuristic i t) best then heuristic i t else best) l best) best) as M.
    { clear - L. induction l as [|y l IH]; intros best; cbn [fold_left]; [apply cl_refl, L|].
      eapply cl_trans; [exact L|apply IH|]. destruct (cltb ops (heuristic i y) best) eqn:E; [apply (lt_le ops L), E|apply cl_refl, L]. }
    eapply cl_trans; [exact L|apply M|]. destruct (cltb ops (heuristic i t) best) eqn:E; [apply cl_refl, L|exact E].
  - apply IH. assumption.
Qed.

Lemma hmin_ge i : (forall t, In t goals -> le (czero ops) (heuristic i t)) -> le (czero ops) (hmin i).
Proof.
  unfold hmin. generalize (cl_top ops L (czero ops)). generalize (cinf ops).
  induction goals as [|x l IH]; intros best Hb H; cbn [fold_left]; [exact Hb|].
  apply IH; [|intros t Ht; apply H; right; exact Ht].
  destruct (cltb ops (heuristic i x) best); [apply H; left; reflexivity|exact Hb].
Qed.

Definition graph_admissible : Prop :=
  (forall i t c l d, le (czero ops) c -> In t goals -> walk ops (allowed_step g valid distance) i c l t d ->
     le (cadd ops c (heuristic i t)) d) /\
  (forall i t, In t goals -> le (czero ops) (heuristic i t)).

Lemma graph_admissible_ok : graph_admissible -> admissible ops kids isgoal hmin.
Proof.
  intros [A1 A2]. split.
  - intros n c l t d Hc Ht W. apply isgoal_in in Ht.
    eapply cl_trans; [exact L|apply cl_mono_r; [exact L|apply (hmin_le n t Ht)]|].
    eapply A1; eauto. eapply walk_ext; [|exact W]. intros. apply child_allowed. assumption.
  - intros t _. apply hmin_ge. intros. apply A2. assumption.
Qed.

Definition all_in_range : Prop := forall i, In i (starts ++ goals) -> 0 <= i < Size g.

Lemma lazy_reject fuel : ~ all_in_range ->
  PerformLazyAstarSearch ops b starts goals valid distance heuristic limit pick fuel = Throw InvalidArgument.
Proof using BL.
  clear NN VP. intros H. unfold PerformLazyAstarSearch. rewrite (proj1 BL).
  destruct (forallb (IndexInRange (Size g)) starts) eqn:E1; [|reflexivity].
  destruct (forallb (IndexInRange (Size g)) goals) eqn:E2; [|reflexivity]. exfalso. apply H.
  rewrite forallb_forall in E1, E2. intros i Hi. apply in_app_iff in Hi as [Hi|Hi].
  - specialize (E1 i Hi). unfold IndexInRange in E1. lia.
  - specialize (E2 i Hi). unfold IndexInRange in E2. lia.
Qed.

Lemma lazy_empty fuel : starts = [] ->
  PerformLazyAstarSearch ops b starts goals valid distance heuristic limit pick fuel = Throw InvalidArgument.
Proof.
  intros ->. unfold PerformLazyAstarSearch. cbn [map forallb negb].
  destruct (negb _); reflexivity.
Qed.

Lemma lazy_eq fuel : all_in_range ->
  PerformLazyAstarSearch ops b starts goals valid distance heuristic limit pick fuel =
  PerformAstarSearch ops Z.eqb zstarts isgoal kids hmin limit pick fuel.
Proof.
  intros H. unfold PerformLazyAstarSearch. rewrite (proj1 BL).
  replace (forallb (IndexInRange (Size g)) starts) with true.
  2:{ symmetry. apply forallb_forall. intros i Hi. assert (0 <= i < Size g) by (apply H, in_app_iff; auto). unfold IndexInRange. lia. }
  replace (forallb (IndexInRange (Size g)) goals) with true.
  2:{ symmetry. apply forallb_forall. intros i Hi. assert (0 <= i < Size g) by (apply H, in_app_iff; auto). unfold IndexInRange. lia. }
  cbn [negb]. unfold PerformLazyAstarSearchFn, PerformAstarSearch. fold zstarts isgoal hmin.
  pose proof (best_goal_start_spec ops L zstarts isgoal kids graph_costs_ok) as BG.
  destruct (best_goal_start ops isgoal zstarts) as [[s c]|]; [|reflexivity].
  destruct BG as [Hs _]. apply in_map_iff in Hs as (s' & E & Hs). injection E as -> _.
  assert (0 <= s < Size g) by (apply H, in_app_iff; auto). replace (0 <=? s) with true by lia. reflexivity.
Qed.

Lemma lazy_real fuel path c :
  PerformLazyAstarSearch ops b starts goals valid distance heuristic limit pick fuel = Ok (path, c) ->
  all_in_range /\
  ((path = [] /\ c = cinf ops) \/
   (path <> [] /\ lt c (cinf ops) /\ (exists d, graph_route ops g valid distance starts goals path d /\ le d c) /\
    (exists path', graph_route ops g valid distance starts goals path' c))).
Proof.
  intros H. assert (all_in_range) as R.
  { destruct (forallb (IndexInRange (Size g)) (starts ++ goals)) eqn:E.
    - rewrite forallb_forall in E. intros i Hi. specialize (E i Hi). unfold IndexInRange in E. lia.
    - exfalso. assert (~ all_in_range) as N.
      { intros R. assert (forallb (IndexInRange (Size g)) (starts ++ goals) = true) as E'.
        { apply forallb_forall. intros i Hi. specialize (R i Hi). unfold IndexInRange. lia. }
        congruence. }
      rewrite (lazy_reject fuel N) in H. discriminate. }
  split; [exact R|]. rewrite (lazy_eq fuel R) in H.
  destruct (astar_real ops Z.eqb Z.eqb_eq L zstarts isgoal kids hmin limit graph_costs_ok pick VP fuel path c H)
    as [E|(NE & Hc & (d & Rd & Hd) & (p' & Rp))]; [left; exact E|right].
  split; [exact NE|]. split; [exact Hc|]. split; [exists d; split; [apply route_graph, Rd|exact Hd]|].
  exists p'. apply route_graph, Rp.
Qed.

Lemma lazy_optimal fuel path c : graph_admissible ->
  PerformLazyAstarSearch ops b starts goals valid distance heuristic limit pick fuel = Ok (path, c) ->
  (path <> [] -> exists d, graph_route ops g valid distance starts goals path d /\ le d c /\ le c d) /\
  (forall path' d', graph_route ops g valid distance starts goals path' d' -> path <> [] /\ le c d').
Proof.
  intros A H. destruct (lazy_real fuel path c H) as [R _]. rewrite (lazy_eq fuel R) in H.
  destruct (astar_optimal_equal ops Z.eqb Z.eqb_eq L zstarts isgoal kids hmin limit graph_costs_ok pick VP fuel path c
    (graph_admissible_ok A)) as [H1 H2]; [|exact H|].
  - intros s x s' x' Hs Hs'. apply in_map_iff in Hs as (? & E & _), Hs' as (? & E' & _).
    injection E as _ <-. injection E' as _ <-. apply cl_refl, L.
  - split.
    + intros NE. destruct (H1 NE) as (d & Rd & X). exists d. split; [apply route_graph, Rd|exact X].
    + intros p' d' Rp. apply (H2 p' d'). apply route_graph, Rp.
Qed.

Lemma lazy_total fuel B : all_in_range -> starts <> [] ->
  (forall i n e, node_at g i n -> In e (out_edges n) -> 0 <= to_index e < Size g) ->
  (forall i n, node_at g i n -> (length (out_edges n) <= B)%nat) ->
  (forall s l t d, In s starts -> walk ops (allowed_step g valid distance) s (czero ops) l t d -> lt d (cinf ops)) ->
  (length starts * (B + 1) ^ length g <= fuel)%nat ->
  exists path c,
    PerformLazyAstarSearch ops b starts goals valid distance heuristic limit pick fuel = Ok (path, c) /\
    (path <> [] <-> exists path' d', graph_route ops g valid distance starts goals path' d').
Proof.
  intros R NS EXO DEG FIN HF. rewrite (lazy_eq fuel R).
  destruct (astar_complete ops Z.eqb Z.eqb_eq L zstarts isgoal kids hmin limit graph_costs_ok pick VP
    (upto (length g)) B fuel) as (path & c & E & HR).
  - unfold zstarts. destruct starts; [congruence|discriminate].
  - split.
    + intros s c H. apply in_map_iff in H as (s' & E & Hs). injection E as <- _. apply upto_in.
      apply R. apply in_app_iff. auto.
    + intros s t w _ H. apply child_allowed in H as (n & e & Hn & He & _ & <- & _). apply upto_in. eapply EXO; eauto.
  - intros s Hs. apply upto_in in Hs. destruct (in_range_node_at g s Hs) as (n & Hn).
    unfold graph_children. rewrite (proj2 BL), (proj1 (GetNode_ok g s n) Hn). cbn [bind].
    eexists. split; [reflexivity|]. rewrite map_length. etransitivity; [|eapply DEG, Hn].
    clear. induction (out_edges n) as [|e l IH]; [simpl; lia|]. simpl. destruct (valid e); simpl; lia.
  - intros s c l t d Hs W. apply in_map_iff in Hs as (s' & E & Hs). injection E as <- <-.
    eapply FIN; [exact Hs|]. eapply walk_ext; [|exact W]. intros. apply child_allowed. assumption.
  - unfold zstarts. rewrite map_length, upto_length. exact HF.
  - exists path, c. split; [exact E|]. rewrite HR. split; intros (p & d & X); exists p, d; apply route_graph, X.
Qed.
End GraphA.

(** *** Counterexamples *)

(** C18: doubles, an inadmissible heuristic and a rounding tie.  States 0 = s,
    1 = x, 2 = a, 3 = b, 4 = goal. *)
Definition dc (z : Z) : cost :=
  match bool_dec (nonneg (d_of_Z z)) true with
  | left H => exist _ (d_of_Z z) H
  | right _ => exist _ d0 eq_refl
  end.

Definition tie_children (s : Z) : outcome (list (Z * cost)) :=
  Ok (if s =? 0 then [(2, dc 2); (1, dc 1)]
      else if s =? 1 then [(2, dc 0)]
      else if s =? 2 then [(3, dc 1)]
      else if s =? 3 then [(4, dc 1)] else []).
Definition tie_heuristic (s : Z) : cost :=
  if (s =? 1) || (s =? 3) || (s =? 4) then dc (10 ^ 17) else dc 0.
Definition tie_pick : picker (pq_elem Z cost) := first_min double_cost (@el_value Z cost).
Definition tie_result := PerformAstarSearch double_cost Z.eqb [(0, dc 0)] (fun s => s =? 4) tie_children
  tie_heuristic false tie_pick 100.
Lemma tie_returns : exists c, tie_result = Ok ([0; 1; 2; 3; 4], c) /\ cltb double_cost (dc 3) c = true.
Proof.
  assert (match tie_result with
          | Ok (p, c) => p = [0; 1; 2; 3; 4] /\ cltb double_cost (dc 3) c = true
          | _ => False end) as H by (vm_compute; auto).
  destruct tie_result as [[p c]| | |]; try contradiction. destruct H as [-> H]. exists c. auto.
Qed.

Lemma tie_costs_ok : costs_ok double_cost tie_children [(0, dc 0)].
Proof.
  split.
  - intros s c [H|[]]. injection H as <- <-. split; vm_compute; reflexivity.
  - intros s t w (cs & E & H). unfold tie_children in E. injection E as <-.
    repeat match goal with H : In _ (if ?b then _ else _) |- _ => destruct b end;
      repeat destruct H as [H|H]; try contradiction; injection H as <- <-; vm_compute; reflexivity.
Qed.

Definition tie_weight (s m : Z) : cost :=
  if (s =? 0) && (m =? 2) then dc 2 else if (s =? 1) then dc 0 else dc 1.
Fixpoint tie_cost (c : cost) (path : list Z) : cost :=
  match path with
  | s :: ((m :: _) as r) => tie_cost (cadd double_cost c (tie_weight s m)) r
  | _ => c
  end.

Lemma tie_child s m w : child_of tie_children s m w -> w = tie_weight s m.
Proof.
  intros (cs & E & H). unfold tie_children in E. injection E as <-. unfold tie_weight.
  destruct (Z.eqb_spec s 0) as [->|]; [destruct H as [H|[H|[]]]; injection H as <- <-; reflexivity|].
  destruct (Z.eqb_spec s 1) as [->|]; [destruct H as [H|[]]; injection H as <- <-; reflexivity|].
  destruct (Z.eqb_spec s 2) as [->|]; [destruct H as [H|[]]; injection H as <- <-; reflexivity|].
  destruct (Z.eqb_spec s 3) as [->|]; [destruct H as [H|[]]; injection H as <- <-; reflexivity|destruct H].
Qed.

Lemma tie_walk_cost s c l g d : walk double_cost (child_of tie_children) s c l g d -> d = tie_cost c l.
Proof.
  induction 1 as [s c|s c m w l t d Hs Hw IH]; [reflexivity|].
  destruct (walk_first _ _ _ _ _ _ _ Hw) as (l' & ->). rewrite (tie_child _ _ _ Hs) in IH. exact IH.
Qed.

Lemma tie_walk d : route double_cost tie_children [(0, dc 0)] (fun s => s =? 4) [0; 1; 2; 3; 4] d ->
  cltb double_cost (dc 3) d = false.
Proof.
  intros (s & c & g & [H|[]] & _ & W). injection H as <- <-. rewrite (tie_walk_cost _ _ _ _ _ W).
  vm_compute. reflexivity.
Qed.

(** C20: an early start that is itself a goal wins over a cheaper route. *)
Definition early_children (s : Z) : outcome (list (Z * option Z)) :=
  Ok (if s =? 1 then [(2, Some 1)] else []).
Definition early_starts : list (Z * option Z) := [(0, Some 10); (1, Some 0)].
Definition early_goal (s : Z) : bool := (s =? 0) || (s =? 2).
Definition exact_pick : picker (pq_elem Z (option Z)) := first_min exact_cost (@el_value Z (option Z)).

Lemma early_returns : forall limit fuel,
  PerformAstarSearch exact_cost Z.eqb early_starts early_goal early_children (fun _ => Some 0) limit exact_pick fuel
  = Ok ([0], Some 10).
Proof. reflexivity. Qed.

Lemma early_better : route exact_cost early_children early_starts early_goal [1; 2] (Some 1).
Proof.
  exists 1, (Some 0), 2. split; [right; left; reflexivity|]. split; [reflexivity|].
  eapply walk_on with (w := Some 1); [exists [(2, Some 1)]; split; [reflexivity|left; reflexivity]|]. constructor.
Qed.

Lemma early_costs_ok : costs_ok exact_cost early_children early_starts.
Proof.
  split.
  - intros s c [H|[H|[]]]; injection H as <- <-; split; reflexivity.
  - intros s t w (cs & E & H). unfold early_children in E. injection E as <-.
    destruct (s =? 1); [|destruct H]. destruct H as [H|[]]. injection H as <- <-. reflexivity.
Qed.

Lemma early_admissible : admissible exact_cost early_children early_goal (fun _ => Some 0).
Proof.
  apply admissible_exact; [|reflexivity]. intros n l g d _ W.
  eapply (walk_nonneg exact_cost (child_of early_children) exact_laws); [|exact W].
  intros a c w. apply early_costs_ok.
Qed.

(** A small search used as example: 0 -> 1 -> 3 costs 2, 0 -> 2 -> 3 costs 5. *)
Definition diamond_children (s : Z) : outcome (list (Z * option Z)) :=
  Ok (if s =? 0 then [(2, Some 1); (1, Some 1)]
      else if s =? 1 then [(3, Some 1)]
      else if s =? 2 then [(3, Some 4)] else []).
Lemma diamond_result : 
  PerformAstarSearch exact_cost Z.eqb [(0, Some 0)] (Z.eqb 3) diamond_children (fun _ => Some 0) true exact_pick 20
  = Ok ([0; 1; 3], Some 2).
Proof. reflexivity. Qed.

Lemma diamond_costs_ok : costs_ok exact_cost diamond_children [(0, Some 0)].
Proof.
  split.
  - intros s c [H|[]]; injection H as <- <-; split; reflexivity.
  - intros s t w (cs & E & H). unfold diamond_children in E. injection E as <-.
    repeat match goal with H : In _ (if ?b then _ else _) |- _ => destruct b end;
      repeat destruct H as [H|H]; try contradiction; injection H as <- <-; reflexivity.
Qed.

Lemma diamond_admissible : admissible exact_cost diamond_children (Z.eqb 3) (fun _ => Some 0).
Proof.
  apply admissible_exact; [|reflexivity]. intros n l g d _ W.
  eapply (walk_nonneg exact_cost (child_of diamond_children) exact_laws); [|exact W].
  intros a c w. apply diamond_costs_ok.
Qed.

(** Example graph: 0 -> 1 (3), 0 -> 2 (1), 2 -> 1 (1), node 3 isolated. *)
Definition dij_graph : list (GraphNode Z (option Z)) :=
  let e f t w := mkEdge f t (Some w) 0%N in
  [mkNode 0 [] [e 0 1 3; e 0 2 1];
   mkNode 1 [e 0 1 3; e 2 1 1] [];
   mkNode 2 [e 0 2 1] [e 2 1 1];
   mkNode 3 [] []].
Definition dij_pick : picker (Z * option Z) := first_min exact_cost snd.
Lemma dij_result : PerformDijkstrasAlgorithm exact_cost (as_graph_like dij_graph) dij_pick 10 1
  = Ok ([2; 1; 1; -1], [Some 2; Some 0; Some 1; None]).
Proof. reflexivity. Qed.

Lemma dij_ok : (forall i n e, node_at dij_graph i n -> In e (in_edges n) ->
    0 <= from_index e < Size dij_graph /\ cle exact_cost (Some 0) (weight e)) /\
  (forall i n e, node_at dij_graph i n -> In e (out_edges n) ->
    0 <= to_index e < Size dij_graph /\ cle exact_cost (Some 0) (weight e)).
Proof.
  split; intros i n e [Hi Hn] He; apply nth_error_In in Hn; unfold dij_graph in Hn;
    repeat destruct Hn as [<-|Hn]; try contradiction; simpl in He;
    repeat destruct He as [<-|He]; try contradiction; simpl; split; try (cbv; reflexivity); unfold Size; simpl; lia.
Qed.

Lemma dij_astar : PerformGraphAstarSearch exact_cost 0 (as_graph_like dij_graph) [0; 3] [1]
  (fun _ _ => Some 0) true exact_pick 1000 = Ok ([0; 2; 1], Some 2).
Proof. reflexivity. Qed.

Lemma dijkstra_reject {V C} (ops : cost_ops C) (g : list (GraphNode V C)) (b : graph_like V C) start pick fuel :
  behaves_like b g -> ~ (0 <= start < Size g) ->
  PerformDijkstrasAlgorithm ops b pick fuel start = Throw InvalidArgument.
Proof.
  intros BL H. unfold PerformDijkstrasAlgorithm. rewrite (proj1 BL). unfold IndexInRange.
  replace ((0 <=? start) && (start <? Size g)) with false by lia. reflexivity.
Qed.

Lemma tie_refutes :
  ~ (forall (starts : list (Z * cost)) goal children heuristic limit pick fuel path c,
     costs_ok double_cost children starts -> valid_pick double_cost (@el_value Z cost) pick ->
     PerformAstarSearch double_cost Z.eqb starts goal children heuristic limit pick fuel = Ok (path, c) ->
     path <> [] ->
     exists d, route double_cost children starts goal path d /\ cle double_cost d c /\ cle double_cost c d).
Proof.
  intros H. destruct tie_returns as (c & E & Lt).
  destruct (H _ _ _ _ _ _ _ _ _ tie_costs_ok (first_min_valid double_cost double_laws _) E) as (d & R & _ & Hle); [discriminate|].
  apply tie_walk in R.
  pose proof (cl_trans _ double_laws _ _ _ Hle R) as X. unfold cle in X. congruence.
Qed.

Lemma early_refutes :
  ~ (forall (starts : list (Z * option Z)) goal children heuristic limit pick fuel path c,
     costs_ok exact_cost children starts -> valid_pick exact_cost (@el_value Z (option Z)) pick ->
     admissible exact_cost children goal heuristic ->
     PerformAstarSearch exact_cost Z.eqb starts goal children heuristic limit pick fuel = Ok (path, c) ->
     forall path' d', route exact_cost children starts goal path' d' -> cle exact_cost c d').
Proof.
  intros H. specialize (H _ _ _ _ true exact_pick O _ _ early_costs_ok (first_min_valid exact_cost exact_laws _)
    early_admissible (early_returns true O) _ _ early_better). discriminate.
Qed.

Lemma diamond_two : costs_ok exact_cost diamond_children [(0, Some 0); (2, Some 5)] /\
  PerformAstarSearch exact_cost Z.eqb [(0, Some 0); (2, Some 5)] (Z.eqb 3) diamond_children
    (fun _ => Some 0) true exact_pick 20 = Ok ([0; 1; 3], Some 2).
Proof.
  split; [|reflexivity]. split; [|apply diamond_costs_ok].
  intros s c [H|[H|[]]]; injection H as <- <-; split; reflexivity.
Qed.

Lemma diamond_finite : finite_space diamond_children [(0, Some 0)] [0; 1; 2; 3] /\
  (forall s, In s [0; 1; 2; 3] -> exists cs, diamond_children s = Ok cs /\ (length cs <= 2)%nat) /\
  (forall s c l t d, In (s, c) [(0, Some 0)] ->
     walk exact_cost (child_of diamond_children) s c l t d -> clt exact_cost d None).
Proof.
  split; [split|split].
  - intros s c [H|[]]. injection H as <- _. left. reflexivity.
  - intros s t w _ (cs & E & H). unfold diamond_children in E. injection E as <-.
    repeat match goal with H : In _ (if ?b then _ else _) |- _ => destruct b end;
      repeat destruct H as [H|H]; try contradiction; injection H as <- <-; simpl; tauto.
  - intros s Hs. eexists. split; [reflexivity|]. repeat destruct (_ =? _); simpl; lia.
  - intros s c l t d [H|[]] W. injection H as <- <-.
    assert (forall s c l t d, walk exact_cost (child_of diamond_children) s c l t d -> c <> None -> d <> None) as G.
    { induction 1 as [|a c m w k t' d' Hs Hw IH]; intros N; [exact N|]. apply IH.
      destruct Hs as (cs & E & H). unfold diamond_children in E. injection E as <-. simpl.
      destruct c as [c|]; [|congruence].
      repeat match goal with H : In _ (if ?b then _ else _) |- _ => destruct b end;
        repeat destruct H as [H|H]; try contradiction; injection H as <- <-; discriminate. }
    apply G in W; [|discriminate]. destruct d; [reflexivity|congruence].
Qed.

Lemma lazy_rejects {V C} (ops : cost_ops C) (g : list (GraphNode V C)) (b : graph_like V C)
    valid distance heuristic starts goals limit pick fuel :
  behaves_like b g ->
  starts = [] \/ ~ (forall i, In i (starts ++ goals) -> 0 <= i < Size g) ->
  PerformLazyAstarSearch ops b starts goals valid distance heuristic limit pick fuel = Throw InvalidArgument.
Proof. intros BL [H|H]; [apply lazy_empty, H|eapply lazy_reject; [exact BL|exact H]]. Qed.

Lemma weighted_optimal {V C} (ops : cost_ops C) (g : list (GraphNode V C)) (b : graph_like V C) (v0 : V)
    heuristic starts goals limit pick fuel path c :
  cost_laws ops -> behaves_like b g -> valid_pick ops (@el_value Z C) pick ->
  (forall i n e, node_at g i n -> In e (out_edges n) -> cle ops (czero ops) (weight e)) ->
  let usable := fun e : GraphEdge C => cltb ops (weight e) (cinf ops) in
  (forall i t ni nt c l d, cle ops (czero ops) c -> In t goals -> node_at g i ni -> node_at g t nt ->
     walk ops (allowed_step g usable (@weight C)) i c l t d ->
     cle ops (cadd ops c (heuristic (value ni) (value nt))) d) ->
  (forall x y, cle ops (czero ops) (heuristic x y)) ->
  (forall i n e, node_at g i n -> In e (out_edges n) -> 0 <= to_index e < Size g) ->
  PerformGraphAstarSearch ops v0 b starts goals heuristic limit pick fuel = Ok (path, c) ->
  (path <> [] -> exists d, graph_route ops g usable (@weight C) starts goals path d /\ cle ops d c /\ cle ops c d) /\
  (forall path' d', graph_route ops g usable (@weight C) starts goals path' d' -> path <> [] /\ cle ops c d').
Proof.
  intros L BL VP NN usable A1 A2 EXO H.
  destruct (lazy_real ops L g b BL usable (@weight C) (fun i j => heuristic (node_value b v0 i) (node_value b v0 j))
    starts goals limit pick VP (fun i n e Hn He _ => NN i n e Hn He) fuel path c H) as [R _].
  eapply (lazy_optimal ops L g b BL usable (@weight C) (fun i j => heuristic (node_value b v0 i) (node_value b v0 j))
    starts goals limit pick VP); [intros; eapply NN; eauto| |exact H].
  split; [|intros; apply A2]. intros i t k l d Hk Ht W.
  assert (forall j, 0 <= j < Size g -> exists n, node_at g j n /\ node_value b v0 j = value n) as NV.
  { intros j Hj. destruct (in_range_node_at g j Hj) as (n & Hn). exists n. split; [exact Hn|].
    unfold node_value. rewrite (proj2 BL), (proj1 (GetNode_ok g j n) Hn). reflexivity. }
  assert (0 <= t < Size g) as Rt by (apply R, in_app_iff; auto).
  assert (0 <= i < Size g) as Ri.
  { inversion W as [|? ? m w l0 ? ? Hs Hw]; subst; [exact Rt|]. destruct Hs as (n & e & Hn & _). eapply node_at_range, Hn. }
  destruct (NV i Ri) as (ni & Hni & ->). destruct (NV t Rt) as (nt & Hnt & ->). eapply A1; eauto.
Qed.
