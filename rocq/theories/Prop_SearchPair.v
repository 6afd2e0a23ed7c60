(** C164: simple_astar_search.hpp, searching from one state to another. *)
From Verif Require Import Base GraphModel GraphSpec GraphProof SearchModel SearchSpec SearchProof SearchProof2
  SearchProof3 SearchProof4 Double SearchDouble SearchPairSpec SearchPair.
Local Open Scope Z_scope.

(** C164: what is returned is a way over valid edges, whatever the functions are. *)
Theorem C164_way : forall (T C : Type) (ops : cost_ops C) eqb (start goal : T) children valid distance heuristic limit pick fuel path c,
  cost_laws ops -> (forall a b, eqb a b = true <-> a = b) -> valid_pick ops (@el_value T C) pick ->
  PerformAstarSearchPair ops eqb start goal children valid distance heuristic limit pick fuel = Ok (path, c) ->
  (path = [] /\ c = cinf ops) \/
  (path <> [] /\ clt ops c (cinf ops) /\ exists d, way ops children valid distance start goal path d /\ cle ops d c).
Proof.
  intros T C ops eqb start goal children valid distance heuristic limit pick fuel path c L EQ VP E.
  destruct (astar_real ops eqb EQ L _ _ _ _ _ (pair_costs ops L children valid distance start) pick VP fuel path c E) as [H|(H1 & H2 & (d & R & D) & _)].
  - now left.
  - right. split; [exact H1|]. split; [exact H2|]. exists d. split; [|exact D]. eapply route_way; eassumption.
Qed.
(** With distances that are not negative and a heuristic that never overestimates, the
    cost is that of the path, no way is cheaper, and no path means that there is no way. *)
Theorem C164_optimal : forall (T C : Type) (ops : cost_ops C) eqb (start goal : T) children valid distance heuristic limit pick fuel path c,
  cost_laws ops -> (forall a b, eqb a b = true <-> a = b) -> valid_pick ops (@el_value T C) pick ->
  (forall s t w, usable children valid distance s t w -> cle ops (czero ops) w) ->
  never_over ops children valid distance heuristic goal ->
  PerformAstarSearchPair ops eqb start goal children valid distance heuristic limit pick fuel = Ok (path, c) ->
  (path <> [] -> exists d, way ops children valid distance start goal path d /\ cle ops d c /\ cle ops c d) /\
  (forall path' d', way ops children valid distance start goal path' d' -> path <> [] /\ cle ops c d').
Proof.
  intros T C ops eqb start goal children valid distance heuristic limit pick fuel path c L EQ VP NN AD E.
  destruct (astar_optimal_equal ops eqb EQ L [(start, czero ops)] (fun s => eqb s goal) _ (fun s => heuristic s goal) limit (pair_costs ops L children valid distance start) pick VP fuel path c) as (H1 & H2).
  - now apply never_over_admissible.
  - intros s a s' a' [X|[]] [Y|[]]. injection X as <- <-. injection Y as <- <-. apply (cl_refl _ L).
  - exact E.
  - split.
    + intros N. destruct (H1 N) as (d & R & D). exists d. split; [eapply route_way; eassumption|exact D].
    + intros path' d' W. eapply H2. eapply way_route; eassumption.
Qed.
(** If only finitely many states can be met, at most [branching] children each, the search
    ends, and with finite costs it returns a path exactly when there is a way. *)
Theorem C164_total : forall (T C : Type) (ops : cost_ops C) eqb (start goal : T) children valid distance heuristic limit pick space branching fuel,
  cost_laws ops -> (forall a b, eqb a b = true <-> a = b) -> valid_pick ops (@el_value T C) pick ->
  (forall s t w, usable children valid distance s t w -> cle ops (czero ops) w) ->
  In start space -> (forall s t w, In s space -> usable children valid distance s t w -> In t space) ->
  (forall s, In s space -> length (children s) <= branching)%nat ->
  (forall l t d, walk ops (usable children valid distance) start (czero ops) l t d -> clt ops d (cinf ops)) ->
  ((branching + 1) ^ length space <= fuel)%nat ->
  exists path c, PerformAstarSearchPair ops eqb start goal children valid distance heuristic limit pick fuel = Ok (path, c) /\
    (path <> [] <-> exists path' d', way ops children valid distance start goal path' d').
Proof.
  intros T C ops eqb start goal children valid distance heuristic limit pick space branching fuel L EQ VP NN SI SC BR FI FU.
  destruct (astar_complete ops eqb EQ L [(start, czero ops)] (fun s => eqb s goal) _ (fun s => heuristic s goal) limit (pair_costs ops L children valid distance start) pick VP space branching fuel) as (path & c & E & H).
  - discriminate.
  - split; [intros s c [X|[]]; injection X as <- <-; exact SI|]. intros s t w I U. eapply SC; [exact I|]. eapply child_use. exact U.
  - intros s I. destruct (kids_complete ops eqb EQ children valid distance heuristic s (children s)) as (cs & E & N & _).
    { intros t I' V. apply (NN s t). repeat split; assumption. }
    exists cs. split; [exact E|]. specialize (BR s I). lia.
  - intros s c l t d [X|[]] W. injection X as <- <-. eapply FI. eapply walk_mono; [|exact W]. intros a b w U. eapply child_use. exact U.
  - cbn [length]. lia.
  - exists path, c. split; [exact E|]. rewrite H. split; intros (p' & d' & W); exists p', d'; [eapply route_way; eassumption|eapply way_route; eassumption].
Qed.
(** A negative distance on an edge out of the start is refused. *)
Theorem C164_negative : forall (T C : Type) (ops : cost_ops C) eqb (start goal : T) children valid distance heuristic limit pick fuel t,
  cost_laws ops -> (forall a b, eqb a b = true <-> a = b) -> valid_pick ops (@el_value T C) pick ->
  start <> goal -> In t (children start) -> valid start t = true -> clt ops (distance start t) (czero ops) -> (0 < fuel)%nat ->
  PerformAstarSearchPair ops eqb start goal children valid distance heuristic limit pick fuel = Throw InvalidArgument.
Proof.
  intros T C ops eqb start goal children valid distance heuristic limit pick fuel t L EQ VP NE I V N F.
  assert (EG : eqb start goal = false) by (destruct (eqb start goal) eqn:X; [apply EQ in X; contradiction|reflexivity]).
  unfold PerformAstarSearchPair, PerformAstarSearchEdges, PerformAstarSearch, best_goal_start. cbn [fold_left fst snd]. rewrite EG. cbn [andb snd].
  unfold astar_search. cbn [fold_left push_start fst snd].
  assert (IQ : is_queue_better ops eqb limit [] start (czero ops) = false) by (destruct limit; reflexivity). rewrite IQ. cbn [app].
  destruct fuel as [|fuel]; [lia|]. cbn [astar_loop]. unfold pq_pop, raw_get.
  match goal with |- context [pick 0%nat ?q] => destruct (VP 0%nat q ltac:(discriminate)) as (e & NT & _) end. rewrite NT.
  destruct (pick 0%nat _) as [|k]; [|destruct k; discriminate]. cbn in NT. injection NT as <-. cbn [bind el_state el_cost]. cbn [is_explored_better map_find].
  rewrite EG. rewrite (kids_bad ops valid distance start (children start) t I V); [reflexivity|].
  intros X. unfold cle, clt in *. congruence.
Qed.
Print Assumptions C164_way.
Print Assumptions C164_optimal.
Print Assumptions C164_total.
Print Assumptions C164_negative.
Example C164_nonvacuous : 
  (forall s t w, usable square_children square_valid square_distance s t w -> cle exact_cost (Some 0) w) /\
  never_over exact_cost square_children square_valid square_distance (fun _ _ => Some 0) 3 /\
  PerformAstarSearchPair exact_cost Z.eqb 0 3 square_children square_valid square_distance (fun _ _ => Some 0) true exact_pick 20 = Ok ([0; 1; 3], Some 2).
Proof. exact square_facts. Qed.
