(** C191: printed graphs can be read back. *)
From Coq Require Import String Ascii ZArith Lia.
From Verif Require Import Base GraphModel GraphSpec GraphProof GraphProof2 PrintModel PrintSpec PrintProof GraphPrintModel GraphPrintSpec GraphPrint.
Local Open Scope string_scope.

(** A graph is printed as one text per node, in order, with new lines between them. *)
Theorem C191_graph : forall (V W : Type) (print_value : V -> string) (to_string : W -> string) (g : list (GraphNode V W)),
  PrintGraph print_value to_string g = "Graph - Nodes : " ++ joined newline (map (PrintNode print_value to_string) g).
Proof. intros. apply graph_form. Qed.
(** Two graphs printed alike have as many nodes, and node by node values with the same text and
    the same edges in the same order: both ends, the scratchpad and the text of the weight. *)
Theorem C191_graph_told : forall (V W : Type) (print_value : V -> string) (to_string : W -> string) (g g' : list (GraphNode V W)),
  (forall v, no_bracket (print_value v)) -> (forall w, number_text (to_string w)) ->
  PrintGraph print_value to_string g = PrintGraph print_value to_string g' ->
  map (node_content print_value to_string) g = map (node_content print_value to_string) g'.
Proof. intros V W pv ts g g' A B. apply graph_tells; assumption. Qed.
(** The same for an edge and a node, whatever is printed after them. *)
Theorem C191_edge_told : forall (W : Type) (to_string : W -> string) (e e' : GraphEdge W) r r', (forall w, number_text (to_string w)) ->
  PrintEdge to_string e ++ r = PrintEdge to_string e' ++ r' -> edge_content to_string e = edge_content to_string e' /\ r = r'.
Proof. intros W ts e e' r r' B. apply edge_tells; assumption. Qed.
Theorem C191_node_told : forall (V W : Type) (print_value : V -> string) (to_string : W -> string) (n n' : GraphNode V W) r r',
  (forall v, no_bracket (print_value v)) -> (forall w, number_text (to_string w)) ->
  PrintNode print_value to_string n ++ r = PrintNode print_value to_string n' ++ r' ->
  node_content print_value to_string n = node_content print_value to_string n' /\ r = r'.
Proof. intros V W pv ts n n' r r' A B. apply node_tells; assumption. Qed.
(** Printing an overlay in which every index has a node succeeds; the text says of every index
    whether its node is in the overlay, and what the node is. *)
Theorem C191_overlay_printed : forall (V W : Type) (print_value : V -> string) (to_string : W -> string) (o : GraphOverlay V W), all_there o ->
  exists s, PrintOverlay print_value to_string o = Ok s.
Proof. intros V W pv ts o H. destruct (overlay_form pv ts o H) as (l & E & _). eauto. Qed.
Theorem C191_overlay_told : forall (V W : Type) (print_value : V -> string) (to_string : W -> string) (o o' : GraphOverlay V W) s,
  (forall v, no_bracket (print_value v)) -> (forall w, number_text (to_string w)) -> all_there o -> all_there o' ->
  PrintOverlay print_value to_string o = Ok s -> PrintOverlay print_value to_string o' = Ok s ->
  Z.to_nat (overlay_size o) = Z.to_nat (overlay_size o') /\
  forall i, (0 <= i < overlay_size o)%Z -> in_overlay o i = in_overlay o' i /\
    exists n n', OverlayGetNode o i = Ok n /\ OverlayGetNode o' i = Ok n' /\ node_content print_value to_string n = node_content print_value to_string n'.
Proof. intros V W pv ts o o' s A B. apply overlay_tells; assumption. Qed.
Lemma same_elements {T} (a b : list T) : (forall j, nth_error a j = nth_error b j) -> a = b.
Proof.
  revert b. induction a as [|x a IH]; intros [|y b] E; [reflexivity|discriminate (E 0%nat)|discriminate (E 0%nat)|].
  f_equal; [specialize (E 0%nat); cbn in E; congruence|]. apply IH. intros j. exact (E (S j)).
Qed.
(** After any history of calls on an overlay of a graph, printing it succeeds and gives, in order
    and each with its mark, the nodes of the graph as if it had received the same calls. *)
Theorem C191_overlay_history : forall (V W : Type) (print_value : V -> string) (to_string : W -> string) (base : graph_like V W) (g : list (GraphNode V W)) ops,
  gl_size base = Size g -> (forall i, gl_get base i = GetNode g i) ->
  let o := snd (run_ops overlay_op (MakeOverlay base) ops) in let h := snd (run_ops graph_op g ops) in
  exists marks, length marks = length h /\
    (forall i, (i < length h)%nat -> nth i marks false = in_overlay o (Z.of_nat i)) /\
    PrintOverlay print_value to_string o = Ok ("Overlaid Graph - Nodes : " ++
      joined newline (map (fun x => (if fst x : bool then "(overlay) " else "(base) ") ++ PrintNode print_value to_string (snd x)) (combine marks h))).
Proof.
  intros V W pv ts base g ops A B o h. destruct (overlay_like_copy base g ops A B) as (_ & _ & S & N). fold o h in S, N.
  assert (H : all_there o).
  { intros i I. rewrite N. rewrite S in I. unfold Size, GetNode, at_get in *. destruct (Z.ltb_spec i 0) as [L|L]; [lia|]. destruct (nth_error h (Z.to_nat i)) eqn:E; [eauto|]. apply nth_error_None in E. clear - E I L. lia. }
  destruct (overlay_form pv ts o H) as (l & E & L & X). rewrite S in L. unfold Size in L. rewrite Nat2Z.id in L.
  assert (Q : map snd l = h).
  { apply same_elements. intros j. destruct (Nat.lt_ge_cases j (length l)) as [J|J].
    - destruct (X j J) as (x & X1 & _ & X2). rewrite (map_nth_error snd _ _ X1). rewrite N in X2. unfold GetNode, at_get in X2. destruct (Z.ltb_spec (Z.of_nat j) 0); [lia|]. rewrite Nat2Z.id in X2.
      destruct (nth_error h j); [congruence|discriminate].
    - rewrite (proj2 (nth_error_None (map snd l) j)), (proj2 (nth_error_None h j)); [reflexivity|rewrite <- L; exact J|rewrite map_length; exact J]. }
  exists (map fst l). split; [rewrite map_length; exact L|]. split.
  - intros i I. destruct (X i ltac:(lia)) as (x & X1 & X2 & _). rewrite <- X2. apply nth_error_nth, map_nth_error, X1.
  - rewrite E. do 3 f_equal. rewrite <- Q. clear. induction l as [|[m n] l IH]; [reflexivity|]. cbn [map combine fst snd]. f_equal. exact IH.
Qed.
Print Assumptions C191_graph.
Print Assumptions C191_graph_told.
Print Assumptions C191_edge_told.
Print Assumptions C191_node_told.
Print Assumptions C191_overlay_printed.
Print Assumptions C191_overlay_told.
Print Assumptions C191_overlay_history.
(** A graph of two nodes with an edge, and an overlay on it in which the second node was
    migrated. *)
Definition ex_value (z : Z) : string := print_integer z.
Definition ex_weight (z : Z) : string := print_integer z ++ ".000000".
Definition ex_graph : list (GraphNode Z Z) := let e := mkEdge 0%Z 1%Z 5%Z 7%N in [mkNode 3%Z [] [e]; mkNode (-4)%Z [e] []].
Definition ex_overlay : GraphOverlay Z Z := mkOverlay (mkGraphLike 2 (fun i => match nth_error ex_graph (Z.to_nat i) with Some n => Ok n | None => Throw OutOfRange end)) [(1%Z, mkNode 9%Z [] [])] 2.
Example C191_case : PrintGraph ex_value ex_weight ex_graph =
  "Graph - Nodes : Node : 3 In Edges : [] Out Edges : [(0->1) : 5.000000 [7]]" ++ newline ++ "Node : -4 In Edges : [(0->1) : 5.000000 [7]] Out Edges : []" /\
  PrintOverlay ex_value ex_weight ex_overlay = Ok ("Overlaid Graph - Nodes : (base) Node : 3 In Edges : [] Out Edges : [(0->1) : 5.000000 [7]]" ++ newline ++ "(overlay) Node : 9 In Edges : [] Out Edges : []").
Proof. split; reflexivity. Qed.
Lemma word_in s : word s -> forall c, In c (list_ascii_of_string s) -> word_char c.
Proof. induction s as [|d s IH]; cbn; [tauto|]. intros [A B] c [<-|I]; [exact A|]. apply IH; assumption. Qed.
Lemma uint_number d : forall c, In c (list_ascii_of_string (DecimalString.NilEmpty.string_of_uint d)) -> number_char c.
Proof. induction d; cbn [DecimalString.NilEmpty.string_of_uint list_ascii_of_string In]; intros c I; [destruct I|..]; (destruct I as [<-|I]; [unfold number_char; cbn; tauto|auto]). Qed.
Example C191_nonvacuous : (forall v, no_bracket (ex_value v)) /\ (forall w, number_text (ex_weight w)) /\ all_there ex_overlay.
Proof.
  split; [|split].
  - intros v I. apply (word_in _ (integer_word v)) in I. revert I. not_in.
  - intros w. unfold ex_weight. split; [destruct (print_integer w); discriminate|]. intros c I.
    assert (S : forall a b, In c (list_ascii_of_string (a ++ b)) -> In c (list_ascii_of_string a) \/ In c (list_ascii_of_string b)) by (induction a as [|d a IH]; cbn; intros b [E|J] || intros b J; auto; destruct (IH b J); auto).
    apply S in I as [I|I]; [|cbn in I; repeat (destruct I as [<-|I]; [unfold number_char; cbn; tauto|]); tauto]. clear S.
    assert (U : forall d, In c (list_ascii_of_string (DecimalString.NilZero.string_of_uint d)) -> number_char c).
    { intros d J. destruct d; cbn in J; try (apply (uint_number _ _ J)); destruct J as [<-|J]; try tauto; try (unfold number_char; cbn; tauto); try exact (uint_number _ _ J). }
    unfold print_integer, DecimalString.NilZero.string_of_int in I. destruct (Z.to_int w) as [d|d]; [apply (U d I)|]. cbn [list_ascii_of_string In] in I. destruct I as [<-|I]; [unfold number_char; cbn; tauto|apply (U d I)].
  - intros i I. cbn in I. assert (i = 0 \/ i = 1)%Z as [->| ->] by lia; eexists; reflexivity.
Qed.
