(** Printed graphs can be read back (C191). *)
From Coq Require Import String Ascii ZArith Lia.
From Verif Require Import Base GraphModel PrintModel PrintSpec PrintProof GraphPrintModel GraphPrintSpec.
Local Open Scope string_scope.

Lemma length_app a b : String.length (a ++ b) = (String.length a + String.length b)%nat. Proof. induction a; cbn; congruence. Qed.
Lemma suffix_inj a b s : a ++ s = b ++ s -> a = b.
Proof.
  revert b. induction a as [|c a IH]; intros [|d b] E; cbn [String.append] in E; [reflexivity| | |].
  - exfalso. apply (f_equal String.length) in E. cbn [String.length] in E. rewrite length_app in E. lia.
  - exfalso. apply (f_equal String.length) in E. cbn [String.length] in E. rewrite length_app in E. lia.
  - injection E as -> E. f_equal. apply IH, E.
Qed.

Lemma word_app a b : word a -> word b -> word (a ++ b). Proof. induction a; cbn; tauto. Qed.
(** Values of a type told apart up to [k] by their texts, whatever follows. *)
Definition tells {T C} (p : T -> string) (k : T -> C) : Prop := forall v w r1 r2, p v ++ r1 = p w ++ r2 -> k v = k w /\ r1 = r2.
Lemma tail_tells {T C} (p : T -> string) (k : T -> C) d s c : tells p k -> d <> c ->
  forall l l' r1 r2, tail (String d s) p l ++ String c r1 = tail (String d s) p l' ++ String c r2 -> map k l = map k l' /\ r1 = r2.
Proof.
  intros P D. induction l as [|x l IH]; intros [|x' l'] r1 r2 E; cbn [tail String.append] in E.
  - injection E as ->. auto.
  - injection E as E _. congruence.
  - injection E as E _. congruence.
  - injection E as E. rewrite !sapp_assoc in E. apply sapp_inj in E. apply P in E as [K E]. apply IH in E as [M ->]. cbn [map]. rewrite K, M. auto.
Qed.
Lemma tail_tells_end {T C} (p : T -> string) (k : T -> C) d s : tells p k ->
  forall l l', tail (String d s) p l = tail (String d s) p l' -> map k l = map k l'.
Proof.
  intros P. induction l as [|x l IH]; intros [|x' l'] E; cbn [tail String.append] in E; try discriminate; [reflexivity|].
  injection E as E. apply sapp_inj in E. apply P in E as [K E]. apply IH in E. cbn [map]. now rewrite K, E.
Qed.
(** A list with separators and an end. *)
Definition listed {T} (p : T -> string) (l : list T) : string := match l with [] => "" | x :: r => p x ++ tail ", " p r end.
Lemma listed_tells {T C} (p : T -> string) (k : T -> C) c : tells p k -> (","%char <> c) -> (forall v, exists d s, p v = String d s /\ d <> c) ->
  forall l l' r1 r2, listed p l ++ String c r1 = listed p l' ++ String c r2 -> map k l = map k l' /\ r1 = r2.
Proof.
  intros P D F [|x l] [|x' l'] r1 r2 E; cbn [listed] in E.
  - injection E as ->. auto.
  - exfalso. destruct (F x') as (d & s & Q & N). rewrite Q in E. cbn [String.append] in E. injection E as E _. congruence.
  - exfalso. destruct (F x) as (d & s & Q & N). rewrite Q in E. cbn [String.append] in E. injection E as E _. congruence.
  - rewrite !sapp_assoc in E. apply P in E as [K E]. apply (tail_tells p k) in E as [M ->]; auto. cbn [map]. rewrite K, M. auto.
Qed.
Lemma bracket_split a b r1 r2 : no_bracket a -> no_bracket b -> a ++ String "[" r1 = b ++ String "[" r2 -> a = b /\ r1 = r2.
Proof.
  unfold no_bracket. revert b. induction a as [|c a IH]; intros [|d b] A B E; cbn [list_ascii_of_string In String.append] in *.
  - injection E as ->. auto.
  - injection E as E _. exfalso. apply B. left. congruence.
  - injection E as E _. exfalso. apply A. left. congruence.
  - injection E as -> E. destruct (IH b) as [-> ->]; tauto.
Qed.
Lemma no_bracket_app a b : no_bracket a -> no_bracket b -> no_bracket (a ++ b).
Proof. unfold no_bracket. induction a as [|c a IH]; cbn [list_ascii_of_string In String.append]; tauto. Qed.

Section Print.
Context {V W : Type} (print_value : V -> string) (to_string : W -> string).
Hypothesis (PV : forall v, no_bracket (print_value v)) (PW : forall w, number_text (to_string w)).
Lemma edge_tells : tells (PrintEdge to_string) (edge_content to_string).
Proof.
  intros [f t w s] [f' t' w' s'] r1 r2 E. unfold PrintEdge in E. cbn [from_index to_index weight scratchpad] in E. rewrite !sapp_assoc in E. cbn [String.append] in E. injection E as E.
  rewrite ?sapp_assoc in E.
  assert (A : forall x r, x ++ String "-" (String ">" r) = (x ++ "-") ++ String ">" r) by (intros; rewrite sapp_assoc; reflexivity).
  rewrite !A in E. apply word_split in E as [E1 E]; [|apply word_app; [apply integer_word|cbn; unfold word_char; cbn; tauto]|apply word_app; [apply integer_word|cbn; unfold word_char; cbn; tauto]|apply stops_lit; not_in|apply stops_lit; not_in].
  apply suffix_inj, integer_inj in E1. injection E as E. rewrite ?sapp_assoc in E.
  apply word_split in E as [E2 E]; [|apply integer_word|apply integer_word|apply stops_lit; not_in|apply stops_lit; not_in]. apply integer_inj in E2.
  cbn [String.append] in E. injection E as E. rewrite ?sapp_assoc in E.
  apply nsplit in E as [E3 E]; [|apply nword_text, PW|apply nword_text, PW|apply nlit; not_in|apply nlit; not_in]. cbn [String.append] in E. injection E as E. rewrite ?sapp_assoc in E.
  apply word_split in E as [E4 E]; [|apply integer_word|apply integer_word|apply stops_lit; not_in|apply stops_lit; not_in]. apply integer_inj in E4.
  cbn [String.append] in E. injection E as ->. apply N2Z.inj in E4. subst. unfold edge_content. cbn. rewrite E3. auto.
Qed.
Lemma rest_tail l s : edges_rest to_string l s = s ++ tail ", " (PrintEdge to_string) l.
Proof. revert s. induction l as [|e l IH]; intros s; cbn [edges_rest tail]; [now rewrite sapp_nil|]. rewrite IH, !sapp_assoc. reflexivity. Qed.
Lemma edges_listed l s : print_edges to_string l s = s ++ listed (PrintEdge to_string) l.
Proof. destruct l as [|e l]; cbn [print_edges listed]; [now rewrite sapp_nil|]. rewrite rest_tail, sapp_assoc. reflexivity. Qed.
Lemma node_form n : PrintNode print_value to_string n =
  "Node : " ++ (print_value (value n) ++ " In Edges : ") ++ "[" ++ listed (PrintEdge to_string) (in_edges n) ++ "] Out Edges : [" ++ listed (PrintEdge to_string) (out_edges n) ++ "]".
Proof. unfold PrintNode. cbv zeta. rewrite !edges_listed, !sapp_assoc. reflexivity. Qed.
Lemma edge_first e : exists d s, PrintEdge to_string e = String d s /\ d <> "]"%char.
Proof. eexists _, _. split; [reflexivity|discriminate]. Qed.
Lemma node_tells : tells (PrintNode print_value to_string) (node_content print_value to_string).
Proof.
  intros n n' r1 r2 E. rewrite !node_form in E. rewrite (sapp_assoc "Node : "), (sapp_assoc "Node : ") in E. apply sapp_inj in E.
  rewrite !(sapp_assoc (_ ++ " In Edges : ")) in E. cbn [String.append] in E.
  assert (NB : forall v, no_bracket (print_value v ++ " In Edges : ")).
  { intros v. apply no_bracket_app; [apply PV|]. unfold no_bracket. cbn. intuition discriminate. }
  apply bracket_split in E as [E1 E]; auto. apply suffix_inj in E1. rewrite !sapp_assoc in E. cbn [String.append] in E.
  apply (listed_tells _ (edge_content to_string)) in E as [E2 E]; [|exact edge_tells|discriminate|exact edge_first].
  injection E as E. rewrite !sapp_assoc in E. cbn [String.append] in E.
  apply (listed_tells _ (edge_content to_string)) in E as [E3 E]; [|exact edge_tells|discriminate|exact edge_first].
  unfold node_content. rewrite E1, E2, E3. auto.
Qed.
Lemma nodes_tail l s : nodes_rest print_value to_string l s = s ++ tail newline (PrintNode print_value to_string) l.
Proof. revert s. induction l as [|n l IH]; intros s; cbn [nodes_rest tail]; [now rewrite sapp_nil|]. rewrite IH, !sapp_assoc. reflexivity. Qed.
Lemma node_nonempty n r : PrintNode print_value to_string n ++ r <> "". Proof. rewrite node_form. discriminate. Qed.
Lemma graph_tells g g' : PrintGraph print_value to_string g = PrintGraph print_value to_string g' -> map (node_content print_value to_string) g = map (node_content print_value to_string) g'.
Proof.
  destruct g as [|n g], g' as [|n' g']; unfold PrintGraph; cbv zeta; rewrite ?nodes_tail, ?(sapp_assoc "Graph - Nodes : "); intros E.
  - reflexivity.
  - rewrite <- (sapp_nil "Graph - Nodes : ") in E at 1. apply sapp_inj in E. symmetry in E. now apply node_nonempty in E.
  - rewrite <- (sapp_nil "Graph - Nodes : ") in E at 2. apply sapp_inj in E. now apply node_nonempty in E.
  - apply sapp_inj in E. apply node_tells in E as [K E]. apply (tail_tells_end _ (node_content print_value to_string)) in E; [|exact node_tells]. cbn [map]. now rewrite K, E.
Qed.
Lemma graph_form g : PrintGraph print_value to_string g = "Graph - Nodes : " ++ joined newline (map (PrintNode print_value to_string) g).
Proof. destruct g as [|n g]; [reflexivity|]. unfold PrintGraph. cbv zeta. rewrite nodes_tail, joined_tail, sapp_assoc. reflexivity. Qed.

(** ** Overlays *)
Definition entry : Type := (bool * GraphNode V W)%type.
Definition print_entry (x : entry) : string := (if fst x then "(overlay) " else "(base) ") ++ PrintNode print_value to_string (snd x).
Definition entry_content (x : entry) := (fst x, node_content print_value to_string (snd x)).
Lemma entry_tells : tells print_entry entry_content.
Proof.
  intros [a n] [b m] r1 r2 E. unfold print_entry in E. cbn [fst snd] in E. destruct a, b; rewrite !sapp_assoc in E.
  - apply sapp_inj in E. apply node_tells in E as [K ->]. unfold entry_content. cbn. rewrite K. auto.
  - discriminate.
  - discriminate.
  - apply sapp_inj in E. apply node_tells in E as [K ->]. unfold entry_content. cbn. rewrite K. auto.
Qed.
Lemma omap_in {A} i (m : list (Z * A)) : existsb (fun x => (i =? fst x)%Z) m = match omap_find i m with Some _ => true | None => false end.
Proof. induction m as [|[k v] m IH]; cbn [existsb omap_find fst]; [reflexivity|]. destruct (i =? k)%Z; [reflexivity|exact IH]. Qed.
Lemma node_string o i n : OverlayGetNode o i = Ok n -> get_node_string print_value to_string o i = Ok (print_entry (in_overlay o i, n)).
Proof.
  unfold OverlayGetNode, get_node_string, in_overlay. rewrite omap_in. destruct (omap_find i (overlay o)) as [m|].
  - intros [= ->]. reflexivity.
  - intros ->. reflexivity.
Qed.
Lemma overlay_tail o : forall n i s, (0 <= i)%Z -> (i + Z.of_nat n <= overlay_size o)%Z -> all_there o ->
  exists l, overlay_rest print_value to_string o n i s = Ok (s ++ tail newline print_entry l) /\ length l = n /\
    forall j, (j < n)%nat -> exists x, nth_error l j = Some x /\ fst x = in_overlay o (i + Z.of_nat j) /\ OverlayGetNode o (i + Z.of_nat j) = Ok (snd x).
Proof.
  induction n as [|n IH]; intros i s I B H; cbn [overlay_rest].
  - exists []. rewrite sapp_nil. split; [reflexivity|]. split; [reflexivity|]. intros j J. lia.
  - destruct (H i ltac:(lia)) as (m & M). rewrite (node_string o i m M). cbn [bind].
    destruct (IH (i + 1)%Z (s ++ newline ++ print_entry (in_overlay o i, m)) ltac:(lia) ltac:(lia) H) as (l & E & L & N).
    exists ((in_overlay o i, m) :: l). rewrite E, !sapp_assoc. split; [reflexivity|]. split; [cbn; lia|]. intros [|j] J.
    + exists (in_overlay o i, m). cbn. rewrite Z.add_0_r. auto.
    + destruct (N j ltac:(lia)) as (x & X). exists x. cbn [nth_error]. replace (i + Z.of_nat (S j))%Z with (i + 1 + Z.of_nat j)%Z by lia. exact X.
Qed.
(** What is printed of an overlay: the entries in order. *)
Definition entries_of (o : GraphOverlay V W) (l : list entry) : Prop :=
  length l = Z.to_nat (overlay_size o) /\ forall j, (j < length l)%nat -> exists x, nth_error l j = Some x /\ fst x = in_overlay o (Z.of_nat j) /\ OverlayGetNode o (Z.of_nat j) = Ok (snd x).
Lemma overlay_form o : all_there o -> exists l, PrintOverlay print_value to_string o = Ok ("Overlaid Graph - Nodes : " ++ joined newline (map print_entry l)) /\ entries_of o l.
Proof.
  intros H. unfold PrintOverlay. cbv zeta. destruct (Z.ltb_spec 0 (overlay_size o)) as [P|P].
  - destruct (H 0%Z ltac:(lia)) as (m & M). rewrite (node_string o 0 m M). cbn [bind].
    destruct (overlay_tail o (Z.to_nat (overlay_size o - 1)) 1 ("Overlaid Graph - Nodes : " ++ print_entry (in_overlay o 0, m)) ltac:(lia) ltac:(lia) H) as (l & E & L & N).
    exists ((in_overlay o 0, m) :: l). rewrite E, joined_tail, sapp_assoc. split; [reflexivity|]. unfold entries_of. cbn [length]. split; [lia|]. intros [|j] J.
    + exists (in_overlay o 0, m). cbn. auto.
    + destruct (N j ltac:(lia)) as (x & X). exists x. cbn [nth_error]. replace (Z.of_nat (S j)) with (1 + Z.of_nat j)%Z by lia. exact X.
  - exists []. split; [reflexivity|]. split; [cbn; lia|]. cbn. intros; lia.
Qed.
Lemma entries_tell l l' : joined newline (map print_entry l) = joined newline (map print_entry l') -> map entry_content l = map entry_content l'.
Proof.
  destruct l as [|x l], l' as [|x' l']; intros E; rewrite ?joined_tail in E.
  - reflexivity.
  - destruct x' as [[] ?]; discriminate E.
  - destruct x as [[] ?]; discriminate E.
  - apply entry_tells in E as [K E]. apply (tail_tells_end _ entry_content) in E; [|exact entry_tells]. cbn [map]. now rewrite K, E.
Qed.
Lemma overlay_tells o o' s : all_there o -> all_there o' -> PrintOverlay print_value to_string o = Ok s -> PrintOverlay print_value to_string o' = Ok s ->
  Z.to_nat (overlay_size o) = Z.to_nat (overlay_size o') /\
  forall i, (0 <= i < overlay_size o)%Z -> in_overlay o i = in_overlay o' i /\
    exists n n', OverlayGetNode o i = Ok n /\ OverlayGetNode o' i = Ok n' /\ node_content print_value to_string n = node_content print_value to_string n'.
Proof.
  intros H H' E E'. destruct (overlay_form o H) as (l & F & L & N). destruct (overlay_form o' H') as (l' & F' & L' & N').
  assert (Q : map entry_content l = map entry_content l').
  { apply entries_tell. rewrite E in F. rewrite E' in F'. rewrite F in F'. injection F' as F'. exact F'. }
  assert (LL : length l = length l') by (apply (f_equal (@length _)) in Q; now rewrite !map_length in Q).
  split; [congruence|]. intros i I. destruct (N (Z.to_nat i) ltac:(lia)) as (x & X & A & B). destruct (N' (Z.to_nat i) ltac:(lia)) as (x' & X' & A' & B').
  rewrite Z2Nat.id in * by lia. pose proof (map_nth_error entry_content _ _ X) as Y. pose proof (map_nth_error entry_content _ _ X') as Y'. rewrite Q in Y. rewrite Y in Y'. assert (Y1 : entry_content x = entry_content x') by congruence. clear Y Y'.
  split; [rewrite <- A, <- A'; exact (f_equal fst Y1)|]. exists (snd x), (snd x'). split; [exact B|]. split; [exact B'|exact (f_equal snd Y1)].
Qed.
End Print.
