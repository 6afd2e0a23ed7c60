(** Specification vocabulary for the searches (C17-C22). *)
From Verif Require Import Base GraphModel GraphSpec SearchModel.
Local Open Scope Z_scope.

(** a <= b, as "not b < a". *)
Definition cle {C} (ops : cost_ops C) (a b : C) : Prop := cltb ops b a = false.
Definition clt {C} (ops : cost_ops C) (a b : C) : Prop := cltb ops a b = true.

(** What the searches need of cost arithmetic: a total order, addition monotone
    and not decreasing when a non-negative number is added, infinity on top. No
    associativity, so rounded floating-point addition qualifies. *)
Record cost_laws {C} (ops : cost_ops C) : Prop := mkLaws {
  cl_refl : forall a, cle ops a a;
  cl_trans : forall a b c, cle ops a b -> cle ops b c -> cle ops a c;
  cl_total : forall a b, cle ops a b \/ cle ops b a;
  cl_geb : forall a b, cgeb ops a b = true <-> cle ops b a;
  cl_mono : forall a b w, cle ops a b -> cle ops (cadd ops a w) (cadd ops b w);
  cl_mono_r : forall a w v, cle ops w v -> cle ops (cadd ops a w) (cadd ops a v);
  cl_infl : forall a w, cle ops (czero ops) w -> cle ops a (cadd ops a w);
  cl_infl_l : forall a w, cle ops (czero ops) w -> cle ops a (cadd ops w a);
  cl_top : forall a, cle ops a (cinf ops);
  cl_zero_inf : clt ops (czero ops) (cinf ops);
  cl_isinf : forall a, cisinf ops a = true <-> cle ops (cinf ops) a }.

(** [walk step s c l t d]: starting at [s] with accumulated cost [c] and
    following [step] edges through the states [l] (first [s], last [t]) the cost
    accumulated, edge by edge from the left, is [d]. *)
Inductive walk {T C} (ops : cost_ops C) (step : T -> T -> C -> Prop)
    : T -> C -> list T -> T -> C -> Prop :=
| walk_here s c : walk ops step s c [s] s c
| walk_on s c m w l t d : step s m w -> walk ops step m (cadd ops c w) l t d ->
    walk ops step s c (s :: l) t d.

(** Priority queue contract: the element taken has no element strictly below. *)
Definition valid_pick {E C} (ops : cost_ops C) (key : E -> C) (pick : picker E) : Prop :=
  forall k q, q <> [] -> exists e, nth_error q (pick k q) = Some e /\
    forall e', In e' q -> cle ops (key e) (key e').

(** Edges of the search space given by a child generator. *)
Definition child_of {T C} (children : T -> outcome (list (T * C))) (s t : T) (w : C) : Prop :=
  exists cs, children s = Ok cs /\ In (t, w) cs.

(** A route from some start to a goal state with its accumulated cost. *)
Definition route {T C} (ops : cost_ops C) (children : T -> outcome (list (T * C)))
    (starts : list (T * C)) (goal : T -> bool) (path : list T) (cost : C) : Prop :=
  exists s c g, In (s, c) starts /\ goal g = true /\
    walk ops (child_of children) s c path g cost.

(** Non-negative start costs and edge costs; start costs finite. *)
Definition costs_ok {T C} (ops : cost_ops C) (children : T -> outcome (list (T * C)))
    (starts : list (T * C)) : Prop :=
  (forall s c, In (s, c) starts -> cle ops (czero ops) c /\ clt ops c (cinf ops)) /\
  (forall s t w, child_of children s t w -> cle ops (czero ops) w).

(** The heuristic never overestimates what remains to any goal and is not
    negative at goals.  With exact arithmetic the first part is the usual
    h(n) <= cost of every walk from n to a goal (C19_admissible_exact). *)
Definition admissible {T C} (ops : cost_ops C) (children : T -> outcome (list (T * C)))
    (goal : T -> bool) (heuristic : T -> C) : Prop :=
  (forall n c l g d, cle ops (czero ops) c -> goal g = true ->
     walk ops (child_of children) n c l g d -> cle ops (cadd ops c (heuristic n)) d) /\
  (forall g, goal g = true -> cle ops (czero ops) (heuristic g)).

(** Every state that can be met is in [space]. *)
Definition finite_space {T C} (children : T -> outcome (list (T * C))) (starts : list (T * C))
    (space : list T) : Prop :=
  (forall s c, In (s, c) starts -> In s space) /\
  (forall s t w, In s space -> child_of children s t w -> In t space).

(** Dijkstra: walks against the edge direction, from the start node outwards;
    a step from [n] to [m] is an edge m -> n stored at n. *)
Definition back_step {V C} (g : list (GraphNode V C)) (n m : Z) (w : C) : Prop :=
  exists node e, node_at g n node /\ In e (in_edges node) /\ from_index e = m /\ weight e = w.

(** Entry number [i] of a result vector. *)
Definition entry {A} (l : list A) (i : Z) (a : A) : Prop :=
  0 <= i /\ nth_error l (Z.to_nat i) = Some a.

(** [follows prev l]: each index of [l] is the recorded predecessor of the next. *)
Fixpoint follows (prev : list Z) (l : list Z) : Prop :=
  match l with
  | a :: ((b :: _) as r) => entry prev b a /\ follows prev r
  | _ => True
  end.

(** Number of in edges of all nodes together. *)
Definition total_in_edges {V C} (g : list (GraphNode V C)) : nat :=
  list_sum (map (fun n => length (in_edges n)) g).

(** Graph A*: a step along an out edge the validity function accepts. *)
Definition allowed_step {V C} (g : list (GraphNode V C)) (valid : GraphEdge C -> bool)
    (distance : GraphEdge C -> C) (i j : Z) (w : C) : Prop :=
  exists n e, node_at g i n /\ In e (out_edges n) /\ valid e = true /\ to_index e = j /\ distance e = w.

Definition graph_route {V C} (ops : cost_ops C) (g : list (GraphNode V C)) (valid : GraphEdge C -> bool)
    (distance : GraphEdge C -> C) (starts goals : list Z) (path : list Z) (cost : C) : Prop :=
  exists s t, In s starts /\ In t goals /\
    walk ops (allowed_step g valid distance) s (czero ops) path t cost.
