(** Proofs for PrintModel.v. *)
From Coq Require Import String Ascii ZArith DecimalString DecimalZ DecimalFacts Decimal.
From Verif Require Import Base UtilityModel MathModel RotationModel PrintModel PrintSpec.
Local Open Scope string_scope.

Lemma sapp_assoc a b c : (a ++ b) ++ c = a ++ b ++ c. Proof. induction a; cbn; congruence. Qed.
Lemma sapp_nil a : a ++ "" = a. Proof. induction a; cbn; congruence. Qed.
Lemma sapp_inj a b c : a ++ b = a ++ c -> b = c. Proof. induction a; cbn; [auto|]. intros E. injection E. auto. Qed.

(** ** Shape *)
Fixpoint tail {T} (sep : string) (p : T -> string) (l : list T) : string := match l with [] => "" | x :: r => sep ++ p x ++ tail sep p r end.
Lemma indexed_tail {T} sep (p : T -> string) l s : indexed_rest sep p l s = s ++ tail sep p l.
Proof. revert s. induction l as [|x l IH]; intros s; cbn [indexed_rest tail]; [rewrite sapp_nil; reflexivity|]. rewrite IH, !sapp_assoc. reflexivity. Qed.
Lemma iterated_tail {T} sep (p : T -> string) l s : iterated sep p false l s = s ++ tail sep p l.
Proof. revert s. induction l as [|x l IH]; intros s; cbn [iterated tail]; [rewrite sapp_nil; reflexivity|]. rewrite IH, !sapp_assoc. reflexivity. Qed.
Lemma comma_tail {A} (w : A -> string) l s : comma_rest w l s = s ++ tail ", " w l.
Proof. revert s. induction l as [|x l IH]; intros s; cbn [comma_rest tail]; [rewrite sapp_nil; reflexivity|]. rewrite IH, !sapp_assoc. reflexivity. Qed.
Lemma joined_tail {T} sep (p : T -> string) x l : joined sep (map p (x :: l)) = p x ++ tail sep p l.
Proof.
  revert x. induction l as [|y l IH]; intros x; [cbn; rewrite sapp_nil; reflexivity|].
  change (joined sep (map p (x :: y :: l))) with (p x ++ sep ++ joined sep (map p (y :: l))). rewrite IH. reflexivity.
Qed.
Lemma indexed_shape {T} b sep (p : T -> string) l : l <> [] ->
  print_indexed b sep p l = (if b then "[" else "") ++ joined sep (map p l) ++ (if b then "]" else "").
Proof.
  intros N. destruct l as [|x l]; [congruence|]. rewrite joined_tail. unfold print_indexed. rewrite !indexed_tail. destruct b; [rewrite !sapp_assoc; reflexivity|].
  rewrite sapp_nil. reflexivity.
Qed.
Lemma iterated_shape {T} b sep op cl (p : T -> string) l : l <> [] ->
  print_iterated b sep op cl p l = (if b then op else "") ++ joined sep (map p l) ++ (if b then cl else "").
Proof.
  intros N. destruct l as [|x l]; [congruence|]. rewrite joined_tail. unfold print_iterated. cbn [iterated]. rewrite !iterated_tail. destruct b; [rewrite !sapp_assoc; reflexivity|].
  rewrite sapp_nil. reflexivity.
Qed.
Lemma row_shape {A} (w : A -> string) rows s : Forall (fun r => r <> []) rows ->
  row_rest w rows s = s ++ tail newline (fun r => joined ", " (map w r)) rows.
Proof.
  intros F. revert s. induction F as [|r rows N F IH]; intros s; cbn [row_rest tail]; [rewrite sapp_nil; reflexivity|].
  destruct r as [|x r]; [congruence|]. rewrite IH, comma_tail, joined_tail, !sapp_assoc. reflexivity.
Qed.

(** ** Unambiguous *)
Fixpoint word (s : string) : Prop := match s with "" => True | String c r => word_char c /\ word r end.
(** What may follow a value. *)
Definition opens (c : ascii) : Prop := In c (list_ascii_of_string "[({<").
Definition stops (s : string) : Prop := s = "" \/ exists c r, s = String c r /\ ~ word_char c /\ ~ opens c.
Lemma opens_bracket c : opens c -> bracket c.
Proof. unfold opens, bracket. cbn. tauto. Qed.
Ltac not_in := let H := fresh in intros H; cbn in H; repeat (destruct H as [H|H]; [discriminate H|]); exact H.
Lemma stops_lit c r : ~ word_char c -> ~ opens c -> stops (String c r). Proof. intros. right. exists c, r. auto. Qed.
Lemma stops_sep sep r : proper_separator sep -> stops (sep ++ r).
Proof. intros (c & s & -> & W & B). right. exists c, (s ++ r). split; [reflexivity|]. split; [exact W|]. intros O. apply B, opens_bracket, O. Qed.
Lemma word_split a b r1 r2 : word a -> word b -> stops r1 -> stops r2 -> a ++ r1 = b ++ r2 -> a = b /\ r1 = r2.
Proof.
  revert b. induction a as [|c a IH]; intros [|d b] A B S1 S2 E; cbn [word String.append] in *.
  - auto.
  - destruct S1 as [->|(c & r & -> & W & _)]; [discriminate|]. injection E as -> _. tauto.
  - destruct S2 as [->|(d & r & -> & W & _)]; [discriminate|]. injection E as -> _. tauto.
  - injection E as -> E. destruct (IH b) as [-> ->]; tauto.
Qed.
Lemma uint_word d : word (NilEmpty.string_of_uint d).
Proof. induction d; cbn; (split; [unfold word_char; cbn; tauto|assumption]) || exact I. Qed.
Lemma uint_word0 d : word (NilZero.string_of_uint d).
Proof. destruct d; [cbn; split; [unfold word_char; cbn; tauto|exact I]|..]; apply uint_word. Qed.
Lemma integer_word z : word (print_integer z).
Proof. unfold print_integer. destruct (Z.to_int z); cbn [NilZero.string_of_int]; [apply uint_word0|]. split; [unfold word_char; cbn; tauto|apply uint_word0]. Qed.
Lemma to_uint_nonnil p : Pos.to_uint p <> Nil.
Proof. apply DecimalPos.Unsigned.to_uint_nonnil. Qed.
Lemma integer_inj x y : print_integer x = print_integer y -> x = y.
Proof.
  intros E. apply (f_equal NilZero.int_of_string) in E. unfold print_integer in E.
  rewrite !NilZero.isi in E by (destruct x, y; cbn; try discriminate; intros H; injection H as H; revert H; apply to_uint_nonnil).
  injection E as E. apply (f_equal Z.of_int) in E. rewrite !DecimalZ.of_to in E. exact E.
Qed.
Lemma bool_word b : word (print_bool b).
Proof. destruct b; cbn; unfold word_char; cbn; tauto. Qed.

Section Injective.
Variable sep : string.
Hypothesis SEP : proper_separator sep.
Definition separable {T} (p : T -> string) : Prop :=
  forall v w r1 r2, stops r1 -> stops r2 -> p v ++ r1 = p w ++ r2 -> v = w /\ r1 = r2.
Lemma stops_close c r : (c = "]" \/ c = ")" \/ c = "}")%char -> stops (String c r).
Proof. intros [->|[->| ->]]; apply stops_lit; not_in. Qed.
Lemma stops_tail {T} (p : T -> string) l c r : (c = "]" \/ c = ")" \/ c = "}")%char -> stops (tail sep p l ++ String c r).
Proof. intros C. destruct l as [|x l]; cbn [tail]; [apply stops_close, C|]. rewrite !sapp_assoc. apply stops_sep, SEP. Qed.
Lemma sep_not_close c r s : (c = "]" \/ c = ")" \/ c = "}")%char -> sep ++ r = String c s -> False.
Proof. intros C E. destruct SEP as (d & t & -> & _ & B). injection E as -> _. apply B. unfold bracket. cbn. destruct C as [->|[->| ->]]; tauto. Qed.
Lemma tail_inj {T} (p : T -> string) c : (c = "]" \/ c = ")" \/ c = "}")%char -> separable p ->
  forall l l' r1 r2, tail sep p l ++ String c r1 = tail sep p l' ++ String c r2 -> l = l' /\ r1 = r2.
Proof.
  intros C P. induction l as [|x l IH]; intros [|x' l'] r1 r2 E; cbn [tail] in E.
  - injection E as ->. auto.
  - exfalso. rewrite !sapp_assoc in E. cbn [String.append] in E. symmetry in E. revert E. apply sep_not_close, C.
  - exfalso. rewrite !sapp_assoc in E. cbn [String.append] in E. revert E. apply sep_not_close, C.
  - rewrite !sapp_assoc in E. apply sapp_inj in E. apply P in E as [-> E]; [|apply stops_tail, C|apply stops_tail, C].
    apply IH in E as [-> ->]. auto.
Qed.
Lemma nonempty_inj {T} (p : T -> string) op c : (c = "]" \/ c = ")" \/ c = "}")%char -> opens op -> separable p ->
  forall l l' r1 r2, stops r1 -> stops r2 ->
  (match l with [] => "" | x :: r => String op (p x ++ tail sep p r ++ String c "") end) ++ r1 =
  (match l' with [] => "" | x :: r => String op (p x ++ tail sep p r ++ String c "") end) ++ r2 -> l = l' /\ r1 = r2.
Proof.
  intros C O P [|x l] [|x' l'] r1 r2 S1 S2 E.
  - auto.
  - destruct S1 as [->|(d & r & -> & W & N)]; [discriminate|]. injection E as -> _. tauto.
  - destruct S2 as [->|(d & r & -> & W & N)]; [discriminate|]. injection E as -> _. tauto.
  - cbn [String.append] in E. injection E as E. rewrite !sapp_assoc in E. cbn [String.append] in E.
    apply P in E as [-> E]; [|apply stops_tail, C|apply stops_tail, C]. apply (tail_inj p c C P) in E as [-> ->]. auto.
Qed.
Lemma indexed_form {T} (p : T -> string) l : print_indexed true sep p l = match l with [] => "" | x :: r => String "[" (p x ++ tail sep p r ++ "]") end.
Proof. destruct l as [|x l]; [reflexivity|]. cbn [print_indexed]. rewrite indexed_tail, !sapp_assoc. reflexivity. Qed.
Lemma iterated_form {T} (p : T -> string) o c l : print_iterated true sep (String o "") (String c "") p l = match l with [] => "" | x :: r => String o (p x ++ tail sep p r ++ String c "") end.
Proof. destruct l as [|x l]; [reflexivity|]. unfold print_iterated. cbn [iterated]. rewrite iterated_tail, !sapp_assoc. reflexivity. Qed.
Lemma pair_separable {A B} (pa : A -> string) (pb : B -> string) : separable pa -> separable pb ->
  separable (fun v => print_pair true (pa (fst v)) (pb (snd v))).
Proof.
  intros SA SB [a b] [a' b'] r1 r2 S1 S2 E. cbn [fst snd] in E. unfold print_pair in E. rewrite !sapp_assoc in E. cbn [String.append] in E. injection E as E.
  rewrite ?sapp_assoc in E. apply SA in E as [-> E]; [|apply stops_lit; not_in|apply stops_lit; not_in]. cbn [String.append] in E. injection E as E.
  rewrite ?sapp_assoc in E. apply SB in E as [-> E]; [|apply stops_lit; not_in|apply stops_lit; not_in]. injection E as ->. auto.
Qed.
Lemma print_separable t : no_text t -> separable (Print true sep t).
Proof.
  induction t as [| | |a IHa b IHb|a IH|a IH|a IH|a IHa b IHb]; cbn [no_text Print]; intros N.
  - intros v w r1 r2 S1 S2 E. apply word_split in E as [E ->]; auto using integer_word. split; [apply integer_inj, E|reflexivity].
  - intros v w r1 r2 S1 S2 E. apply word_split in E as [E ->]; auto using bool_word. split; [destruct v, w; (discriminate E || reflexivity)|reflexivity].
  - destruct N.
  - destruct N as [Na Nb]. apply pair_separable; auto.
  - intros v w r1 r2 S1 S2 E. rewrite !indexed_form in E. eapply nonempty_inj in E; eauto. unfold opens; cbn; tauto.
  - intros v w r1 r2 S1 S2 E. unfold print_list in E. rewrite !iterated_form in E. eapply nonempty_inj in E; eauto. unfold opens; cbn; tauto.
  - intros v w r1 r2 S1 S2 E. unfold print_set in E. rewrite !iterated_form in E. eapply nonempty_inj in E; eauto. unfold opens; cbn; tauto.
  - destruct N as [Na Nb]. intros v w r1 r2 S1 S2 E. unfold print_map in E. rewrite !iterated_form in E.
    eapply nonempty_inj in E; eauto; [unfold opens; cbn; tauto|]. apply pair_separable; auto.
Qed.
End Injective.

(** ** Eigen *)
Section Numbers.
Fixpoint nword (s : string) : Prop := match s with "" => True | String c r => number_char c /\ nword r end.
Lemma nword_text s : number_text s -> nword s.
Proof. intros [_ H]. induction s as [|c s IH]; cbn [nword]; [exact I|]. split; [apply H; left; reflexivity|]. apply IH. intros d D. apply H. right. exact D. Qed.
Definition nstops (s : string) : Prop := match s with "" => True | String c _ => ~ number_char c end.
Lemma nsplit a b r1 r2 : nword a -> nword b -> nstops r1 -> nstops r2 -> a ++ r1 = b ++ r2 -> a = b /\ r1 = r2.
Proof.
  revert b. induction a as [|c a IH]; intros [|d b] A B S1 S2 E; cbn [nword String.append] in *.
  - auto.
  - destruct r1 as [|c r1]; [discriminate|]. injection E as -> _. cbn [nstops] in S1. tauto.
  - destruct r2 as [|d r2]; [discriminate|]. injection E as <- _. cbn [nstops] in S2. tauto.
  - injection E as -> E. destruct (IH b) as [-> ->]; tauto.
Qed.
Lemma nlit c r : ~ number_char c -> nstops (String c r). Proof. auto. Qed.
(** Rows "a, b, c" ended by [e]. *)
Lemma ntail_inj e1 e2 r1 r2 l : forall l', Forall nword l -> Forall nword l' -> (~ number_char e1 /\ e1 <> ","%char) -> (~ number_char e2 /\ e2 <> ","%char) ->
  tail ", " (fun s => s) l ++ String e1 r1 = tail ", " (fun s => s) l' ++ String e2 r2 -> l = l' /\ String e1 r1 = String e2 r2.
Proof.
  induction l as [|x l IH]; intros [|x' l'] F F' E1 E2 E; cbn [tail] in E.
  - auto.
  - rewrite ?sapp_assoc in E. cbn [String.append] in E. injection E as -> _. tauto.
  - rewrite ?sapp_assoc in E. cbn [String.append] in E. injection E as <- _. tauto.
  - rewrite ?sapp_assoc in E. apply sapp_inj in E. inversion F; inversion F'; subst.
    assert (S : forall m e r, ~ number_char e -> nstops (tail ", " (fun s => s) m ++ String e r)) by (intros [|y m] e r N; cbn [tail]; [exact N|]; cbn [String.append nstops]; not_in).
    apply nsplit in E as [-> E]; auto; [|apply S; tauto|apply S; tauto]. destruct (IH l') as [-> ->]; auto.
Qed.
Lemma tail_map {A} sep (w : A -> string) l : tail sep w l = tail sep (fun s => s) (map w l).
Proof. induction l; cbn [tail map]; congruence. Qed.
Context {A : Type} (w : A -> string).
Hypothesis W : forall a, number_text (w a).
Lemma wn a : nword (w a). Proof. apply nword_text, W. Qed.
Lemma wns l : Forall nword (map w l). Proof. apply Forall_forall. intros s S. apply in_map_iff in S as (a & <- & _). apply wn. Qed.
Lemma first_char a : exists c r, w a = String c r /\ number_char c.
Proof. destruct (W a) as [N H]. destruct (w a) as [|c r]; [congruence|]. exists c, r. split; [reflexivity|]. apply H. left. reflexivity. Qed.
Lemma tail_stops l e r : ~ number_char e -> nstops (tail ", " (fun s : string => s) l ++ String e r).
Proof. intros N. destruct l as [|y m]; cbn [tail]; [exact N|]. cbn [String.append nstops]. not_in. Qed.
Lemma VectorXd_inj v u : print_VectorXd w v = print_VectorXd w u -> map w v = map w u.
Proof.
  unfold print_VectorXd. destruct v as [|x v], u as [|y u]; rewrite ?comma_tail; intros E.
  - reflexivity.
  - exfalso. rewrite ?sapp_assoc in E. cbn [String.append] in E. destruct (first_char y) as (c & r & Q & N). rewrite Q in E. cbn [String.append] in E. injection E as <- _. revert N. not_in.
  - exfalso. rewrite ?sapp_assoc in E. cbn [String.append] in E. destruct (first_char x) as (c & r & Q & N). rewrite Q in E. cbn [String.append] in E. injection E as -> _. revert N. not_in.
  - rewrite ?sapp_assoc in E. apply sapp_inj in E. rewrite (tail_map _ _ v), (tail_map _ _ u) in E.
    apply nsplit in E as [E1 E]; auto using wn; [|apply tail_stops; not_in|apply tail_stops; not_in].
    apply ntail_inj in E as [E _]; auto using wns; try (split; [not_in|discriminate]). cbn [map]. congruence.
Qed.
Lemma triple_inj (l1 l2 l3 l4 : string) a b c a' b' c' : (forall s, nstops (l2 ++ s)) -> (forall s, nstops (l3 ++ s)) -> (forall s, nstops (l4 ++ s)) ->
  l1 ++ w a ++ l2 ++ w b ++ l3 ++ w c ++ l4 = l1 ++ w a' ++ l2 ++ w b' ++ l3 ++ w c' ++ l4 -> w a = w a' /\ w b = w b' /\ w c = w c'.
Proof.
  intros S2 S3 S4 E. apply sapp_inj in E. apply nsplit in E as [-> E]; auto using wn. apply sapp_inj in E.
  apply nsplit in E as [-> E]; auto using wn. apply sapp_inj in E. apply nsplit in E as [-> _]; auto using wn.
  - specialize (S4 ""). rewrite sapp_nil in S4. exact S4.
  - specialize (S4 ""). rewrite sapp_nil in S4. exact S4.
Qed.
Lemma row_inj r r' e1 e2 s1 s2 : r <> [] -> r' <> [] -> (~ number_char e1 /\ e1 <> ","%char) -> (~ number_char e2 /\ e2 <> ","%char) ->
  joined ", " (map w r) ++ String e1 s1 = joined ", " (map w r') ++ String e2 s2 -> map w r = map w r' /\ String e1 s1 = String e2 s2.
Proof.
  intros N N' E1 E2 E. destruct r as [|x r], r' as [|x' r']; try congruence. rewrite !joined_tail, !sapp_assoc in E. rewrite (tail_map _ _ r), (tail_map _ _ r') in E.
  apply nsplit in E as [A1 E]; auto using wn; [|apply tail_stops; tauto|apply tail_stops; tauto]. apply ntail_inj in E as [A2 A3]; auto using wns. cbn [map]. split; congruence.
Qed.
Lemma rows_inj rows : forall rows' r r', r <> [] -> r' <> [] -> Forall (fun r => r <> []) rows -> Forall (fun r => r <> []) rows' ->
  joined ", " (map w r) ++ tail newline (fun r => joined ", " (map w r)) rows ++ "]" = joined ", " (map w r') ++ tail newline (fun r => joined ", " (map w r)) rows' ++ "]" ->
  map (map w) (r :: rows) = map (map w) (r' :: rows').
Proof.
  induction rows as [|x rows IH]; intros [|x' rows'] r r' N N' F F' E; cbn [tail] in E.
  - apply row_inj in E as [E _]; auto; try (split; [not_in|discriminate]). cbn [map]. congruence.
  - exfalso. cbn [newline String.append] in E. apply row_inj in E as [_ E]; auto; try (split; [not_in|discriminate]). discriminate.
  - exfalso. cbn [newline String.append] in E. apply row_inj in E as [_ E]; auto; try (split; [not_in|discriminate]). discriminate.
  - cbn [newline String.append] in E. apply row_inj in E as [E1 E]; auto; try (split; [not_in|discriminate]). injection E as E. rewrite !sapp_assoc in E.
    inversion F; inversion F'; subst. apply IH in E; auto. cbn [map] in *. congruence.
Qed.
Lemma MatrixXd_form r rows : r <> [] -> Forall (fun r => r <> []) rows ->
  print_MatrixXd w (r :: rows) = "MatrixXd:" ++ newline ++ "[" ++ joined ", " (map w r) ++ tail newline (fun r => joined ", " (map w r)) rows ++ "]".
Proof.
  intros N F. destruct r as [|x r]; [congruence|]. unfold print_MatrixXd. rewrite row_shape by exact F. rewrite comma_tail, joined_tail, !sapp_assoc. reflexivity.
Qed.
End Numbers.

(** Integers read back. *)
Lemma digits_acc d : forall acc, digits_value (Zpos acc) (NilEmpty.string_of_uint d) = Zpos (Pos.of_uint_acc d acc).
Proof.
  induction d; intros acc; [reflexivity|..]; cbn [NilEmpty.string_of_uint digits_value Pos.of_uint_acc]; rewrite <- IHd; f_equal; unfold digit_value.
  all: match goal with |- (_ + (Z.of_nat ?n - 48))%Z = _ => let v := eval vm_compute in (Z.of_nat n - 48)%Z in replace (Z.of_nat n - 48)%Z with v by reflexivity end.
  all: lia.
Qed.
Lemma digits_uint d : digits_value 0 (NilEmpty.string_of_uint d) = Z.of_N (Pos.of_uint d).
Proof.
  induction d; [reflexivity|exact IHd|..]; cbn [NilEmpty.string_of_uint digits_value Pos.of_uint Z.of_N]; rewrite <- digits_acc; reflexivity.
Qed.
Lemma digits_uint0 d : digits_value 0 (NilZero.string_of_uint d) = Z.of_N (Pos.of_uint d).
Proof. destruct d; try (exact (digits_uint _)). reflexivity. Qed.
Lemma first_digit d : exists c r, NilZero.string_of_uint d = String c r /\ (c =? "-")%char = false.
Proof. destruct d; cbn; do 2 eexists; (split; [reflexivity|reflexivity]). Qed.
Lemma numeral_print z : numeral_value (print_integer z) = z.
Proof.
  transitivity (Z.of_int (Z.to_int z)); [|apply DecimalZ.of_to]. unfold print_integer. destruct (Z.to_int z) as [d|d]; cbn [NilZero.string_of_int].
  - destruct (first_digit d) as (c & r & E & N). pose proof (digits_uint0 d) as H. rewrite E in *. unfold numeral_value. rewrite N. exact H.
  - cbn [numeral_value]. change ("-" =? "-")%char with true. cbn iota. rewrite digits_uint0. reflexivity.
Qed.
