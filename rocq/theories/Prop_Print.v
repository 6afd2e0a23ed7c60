(** C155-C157: the texts of print.hpp. *)
From Coq Require Import String Ascii ZArith.
From Verif Require Import Base UtilityModel MathModel RotationModel PrintModel PrintSpec PrintProof.
Local Open Scope string_scope.

(** C155: a container that is not empty is written as its elements' texts in order with
    the separator between neighbours, in brackets of its kind if delimiters are asked for;
    an element of a map is the pair of its key and its value.  An empty container is
    written as nothing at all, brackets included. *)
Theorem C155_shape : forall (add_delimiters : bool) (separator : string) (a b : ty),
  let d s := if add_delimiters then s else "" in
  let pr t v := Print add_delimiters separator t v in
  (forall l : val (TIndexed a), l <> [] -> pr (TIndexed a) l = d "[" ++ joined separator (map (pr a) l) ++ d "]") /\
  (forall l : val (TIterated a), l <> [] -> pr (TIterated a) l = d "[" ++ joined separator (map (pr a) l) ++ d "]") /\
  (forall l : val (TSet a), l <> [] -> pr (TSet a) l = d "(" ++ joined separator (map (pr a) l) ++ d ")") /\
  (forall l : val (TMap a b), l <> [] -> pr (TMap a b) l = d "{" ++ joined separator (map (pr (TPair a b)) l) ++ d "}") /\
  (forall (x : val a) (y : val b), pr (TPair a b) (x, y) = d "<" ++ pr a x ++ ": " ++ pr b y ++ d ">") /\
  (pr (TIndexed a) [] = "" /\ pr (TIterated a) [] = "" /\ pr (TSet a) [] = "" /\ pr (TMap a b) [] = "").
Proof.
  intros. repeat split.
  - intros l N. apply indexed_shape, N.
  - intros l N. apply iterated_shape, N.
  - intros l N. apply iterated_shape, N.
  - intros l N. apply (iterated_shape add_delimiters separator "{" "}" (pr (TPair a b)) l N).
  - intros x y. unfold pr, d. cbn [Print fst snd]. unfold print_pair. destruct add_delimiters; rewrite ?sapp_nil; reflexivity.
Qed.
(** Integers are written as decimal numerals, truth values as words, strings as they are. *)
Theorem C155_leaves : forall (add_delimiters : bool) (separator : string),
  let pr t v := Print add_delimiters separator t v in
  (forall z : Z, numeral_value (pr TInteger z) = z) /\
  pr TBool true = "true" /\ pr TBool false = "false" /\ (forall s : string, pr TText s = s).
Proof. intros. split; [exact numeral_print|]. repeat split. Qed.
Print Assumptions C155_leaves.
Print Assumptions C155_shape.
Example C155_bytes : Print true ", " (TMap TInteger (TIndexed TBool)) [(7%Z, [true; false]); (12%Z, [])] = "{<7: [true, false]>, <12: >}".
Proof. reflexivity. Qed.

(** C156: with delimiters the text of numbers and truth values, nested in containers in any
    way, determines the value: different values of a type have different texts. *)
Theorem C156_unambiguous_partial : forall (separator : string) (t : ty), proper_separator separator -> no_text t ->
  forall v w : val t, Print true separator t v = Print true separator t w -> v = w.
Proof.
  intros sep t S N v w E. apply (print_separable sep S t N v w "" ""); [left; reflexivity|left; reflexivity|]. rewrite E. reflexivity.
Qed.
(** The default separator is one of those. *)
Theorem C156_default_separator : proper_separator ", ".
Proof. exists ","%char, " ". split; [reflexivity|]. split; intros H; cbn in H; repeat (destruct H as [H|H]; [discriminate H|]); exact H. Qed.
(** Without delimiters nested containers run together, and an empty one leaves no trace ... *)
Theorem C156_no_delimiters_refuted :
  Print false ", " (TIndexed (TIndexed TInteger)) [[1%Z; 2%Z]; [3%Z]] = Print false ", " (TIndexed (TIndexed TInteger)) [[1%Z]; [2%Z; 3%Z]] /\
  Print false ", " (TIndexed (TIndexed TInteger)) [] = Print false ", " (TIndexed (TIndexed TInteger)) [[]].
Proof. split; reflexivity. Qed.
(** ... and strings are written as they are, so that one that contains the separator reads
    as two. *)
Theorem C156_text_refuted :
  Print true ", " (TIndexed TText) ["a, b"] = Print true ", " (TIndexed TText) ["a"; "b"].
Proof. reflexivity. Qed.
Print Assumptions C156_unambiguous_partial.
Print Assumptions C156_default_separator.
Print Assumptions C156_no_delimiters_refuted.
Print Assumptions C156_text_refuted.

(** C157: Eigen's vectors, matrices and quaternions: two of a size have the same text
    exactly when all their entries have, entry by entry.  [write] is the text an ostream
    gives for an entry, which consists of the characters of numbers. *)
Theorem C157_vectors : forall (A : Type) (write : A -> string), (forall a, number_text (write a)) ->
  (forall x y x' y', print_Vector2d write (x, y) = print_Vector2d write (x', y') <-> write x = write x' /\ write y = write y') /\
  (forall x y z x' y' z', print_Vector3d write (x, y, z) = print_Vector3d write (x', y', z') <-> write x = write x' /\ write y = write y' /\ write z = write z') /\
  (forall x y z w x' y' z' w', print_Vector4d write (x, y, z, w) = print_Vector4d write (x', y', z', w') <->
     write x = write x' /\ write y = write y' /\ write z = write z' /\ write w = write w') /\
  (forall v u : list A, print_VectorXd write v = print_VectorXd write u <-> map write v = map write u).
Proof.
  intros A w W. pose proof (wn w W) as N. repeat apply conj; intros *.
  - split; [|intros (E1 & E2); unfold print_Vector2d; rewrite E1, E2; reflexivity]. unfold print_Vector2d. intros E. apply sapp_inj in E.
    apply nsplit in E as [-> E]; auto; try (apply nlit; not_in). apply sapp_inj in E. apply nsplit in E as [-> _]; auto; apply nlit; not_in.
  - split; [|intros (E1 & E2 & E3); unfold print_Vector3d; rewrite E1, E2, E3; reflexivity]. unfold print_Vector3d. intros E. apply sapp_inj in E.
    do 2 (apply nsplit in E as [-> E]; auto; try (apply nlit; not_in); apply sapp_inj in E). apply nsplit in E as [-> _]; auto; apply nlit; not_in.
  - split; [|intros (E1 & E2 & E3 & E4); unfold print_Vector4d; rewrite E1, E2, E3, E4; reflexivity]. unfold print_Vector4d. intros E. apply sapp_inj in E.
    do 3 (apply nsplit in E as [-> E]; auto; try (apply nlit; not_in); apply sapp_inj in E). apply nsplit in E as [-> _]; auto; apply nlit; not_in.
  - split; [apply VectorXd_inj, W|]. unfold print_VectorXd. destruct v as [|x v], u as [|y u]; try discriminate; auto. intros E. cbn [map] in E. injection E as E1 E2.
    rewrite !comma_tail, (tail_map _ _ v), (tail_map _ _ u), E1, E2. reflexivity.
Qed.
Theorem C157_quaternion : forall (A : Type) (write : A -> string), (forall a, number_text (write a)) -> forall p q : quat A,
  print_Quaterniond write p = print_Quaterniond write q <->
  write (qx p) = write (qx q) /\ write (qy p) = write (qy q) /\ write (qz p) = write (qz q) /\ write (qw p) = write (qw q).
Proof.
  intros A w W p q. pose proof (wn w W) as N. split; [|intros (E1 & E2 & E3 & E4); unfold print_Quaterniond; rewrite E1, E2, E3, E4; reflexivity].
  unfold print_Quaterniond. intros E. apply sapp_inj in E.
  do 3 (apply nsplit in E as [-> E]; auto; try (apply nlit; not_in); apply sapp_inj in E). apply nsplit in E as [-> _]; auto; apply nlit; not_in.
Qed.
(** Matrices with at least one row and one column, of any sizes. *)
Theorem C157_matrices : forall (A : Type) (write : A -> string), (forall a, number_text (write a)) -> forall m n : list (list A),
  m <> [] -> n <> [] -> Forall (fun r => r <> []) m -> Forall (fun r => r <> []) n ->
  (print_MatrixXd write m = print_MatrixXd write n <-> map (map write) m = map (map write) n).
Proof.
  intros A w W m n M N FM FN. destruct m as [|r rows], n as [|r' rows']; try congruence. inversion FM; inversion FN; subst. rewrite !MatrixXd_form by assumption. split.
  - intros E. do 3 apply sapp_inj in E. eapply rows_inj; eauto.
  - intros E. cbn [map] in E. injection E as E1 E2. rewrite E1.
    assert (T : forall rs rs', map (map w) rs = map (map w) rs' -> tail newline (fun r => joined ", " (map w r)) rs = tail newline (fun r => joined ", " (map w r)) rs').
    { induction rs as [|x rs IH]; intros [|y rs'] E; try discriminate; auto. cbn [map] in E. injection E as EA EB. cbn [tail]. rewrite EA, (IH rs' EB). reflexivity. }
    rewrite (T _ _ E2). reflexivity.
Qed.
(** The texts themselves: entries by name, in this order. *)
Theorem C157_labels : forall (A : Type) (write : A -> string) (ar : arith A),
  (forall x y, print_Vector2d write (x, y) = "Vector2d: " ++ labelled [("x", write x); ("y", write y)]) /\
  (forall x y z, print_Vector3d write (x, y, z) = "Vector3d: " ++ labelled [("x", write x); ("y", write y); ("z", write z)]) /\
  (forall x y z w, print_Vector4d write (x, y, z, w) = "Vector4d: " ++ labelled [("x", write x); ("y", write y); ("z", write z); ("w", write w)]) /\
  (forall v, print_VectorXd write v = "VectorXd: <" ++ joined ", " (map write v) ++ ">") /\
  (forall q, print_Quaterniond write q = "Quaterniond: " ++ labelled [("x", write (qx q)); ("y", write (qy q)); ("z", write (qz q)); ("w", write (qw q))]) /\
  (forall x y z r, let q := q_of_matrix ar r in
     print_Isometry3d ar write (mkIso r (x, y, z)) = "Isometry3d: " ++ labelled [("x", write x); ("y", write y); ("z", write z)] ++ ", " ++
       labelled [("x", write (qx q)); ("y", write (qy q)); ("z", write (qz q)); ("w", write (qw q))]).
Proof.
  intros A w ar. unfold labelled. cbn [map joined fst snd]. repeat apply conj; intros *;
    unfold print_Vector2d, print_Vector3d, print_Vector4d, print_Quaterniond, print_Isometry3d; cbn [iso_translation iso_rotation].
  4: { destruct v as [|x v]; [reflexivity|]. unfold print_VectorXd. rewrite comma_tail. cbn [map]. change (joined ", " (w x :: map w v)) with (joined ", " (map w (x :: v))); rewrite joined_tail, !sapp_assoc. reflexivity. }
  all: cbv zeta; rewrite ?sapp_assoc; reflexivity.
Qed.
Print Assumptions C157_labels.
Print Assumptions C157_vectors.
Print Assumptions C157_quaternion.
Print Assumptions C157_matrices.
Example C157_met : print_MatrixXd print_integer [[1; -2]; [30; 4]]%Z = "MatrixXd:" ++ newline ++ "[1, -2" ++ newline ++ "30, 4]".
Proof. reflexivity. Qed.
Example C157_number : number_text (print_integer (-120)).
Proof. split; [discriminate|]. cbn. intros c H. unfold number_char. cbn. intuition (subst; auto 20). Qed.
