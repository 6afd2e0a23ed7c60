(** Model of print.hpp: the text Print gives for values built from numbers, truth values
    and strings with the standard containers, and for Eigen's vectors, matrices,
    quaternions and isometries.

    C++ picks the overload from the type; a type here is a [ty], its values [val], and
    the choice of the overload is the recursion of [Print] on the type.  A container is
    the list of its elements in the order of iteration (for the hashed containers: the
    order in which they happen to be visited).  How an ostream writes a double is a
    parameter; print.hpp sets twelve significant digits. *)
From Coq Require Import String Ascii ZArith DecimalString.
From Verif Require Import Base UtilityModel MathModel RotationModel.
Local Open Scope string_scope.

Inductive ty : Type :=
| TInteger                    (* integers of any width, uint8_t among them *)
| TBool
| TText                       (* std::string *)
| TPair (a b : ty)            (* std::pair *)
| TIndexed (a : ty)           (* std::vector, std::array *)
| TIterated (a : ty)          (* std::list, std::deque *)
| TSet (a : ty)               (* std::set, multiset, unordered_set, unordered_multiset *)
| TMap (a b : ty).            (* std::map, multimap, unordered_map, unordered_multimap *)
Fixpoint val (t : ty) : Type :=
  match t with
  | TInteger => Z
  | TBool => bool
  | TText => string
  | TPair a b => (val a * val b)%type
  | TIndexed a | TIterated a | TSet a => list (val a)
  | TMap a b => list (val a * val b)
  end.

(** std::ostream << of an integer and std::to_string: decimal digits after a minus sign
    for negative numbers.  print.hpp:28-38; for uint8_t, 205-213, which keeps it from
    being written as a character. *)
Definition print_integer (z : Z) : string := NilZero.string_of_int (Z.to_int z).
(** print.hpp:188-203. *)
Definition print_bool (b : bool) : string := if b then "true" else "false".

Section Containers.
Variables (add_delimiters : bool) (separator : string).
(** Pairs, print.hpp:381-398. *)
Definition print_pair (first second : string) : string :=
  if add_delimiters then "<" ++ first ++ ": " ++ second ++ ">" else first ++ ": " ++ second.
(** The loop "for idx from 1: separator, element". *)
Fixpoint indexed_rest {T : Type} (print : T -> string) (l : list T) (strm : string) : string :=
  match l with
  | [] => strm
  | x :: r => indexed_rest print r (strm ++ separator ++ print x)
  end.
(** std::array, print.hpp:400-429, and std::vector, 431-458: nothing at all is written
    for an empty one. *)
Definition print_indexed {T : Type} (print : T -> string) (l : list T) : string :=
  match l with
  | [] => ""
  | x :: r => if add_delimiters then indexed_rest print r ("[" ++ print x) ++ "]" else indexed_rest print r (print x)
  end.
(** The loop over iterators: the separator comes before every element but the first. *)
Fixpoint iterated {T : Type} (print : T -> string) (at_begin : bool) (l : list T) (strm : string) : string :=
  match l with
  | [] => strm
  | x :: r => iterated print false r (if at_begin then strm ++ print x else strm ++ separator ++ print x)
  end.
Definition print_iterated {T : Type} (opening closing : string) (print : T -> string) (l : list T) : string :=
  match l with
  | [] => ""
  | _ => if add_delimiters then iterated print true l opening ++ closing else iterated print true l ""
  end.
(** std::list, print.hpp:460-502, and std::deque, 548-590.  std::forward_list, 504-546,
    has no size() and so does not compile. *)
Definition print_list {T : Type} := @print_iterated T "[" "]".
(** Sets, print.hpp:685-727, 729-771, 873-918, 920-965. *)
Definition print_set {T : Type} := @print_iterated T "(" ")".
(** Maps, print.hpp:592-636, 638-683, 773-821, 823-871: elements are printed as pairs. *)
Definition print_map {A B : Type} (print_a : A -> string) (print_b : B -> string) : list (A * B) -> string :=
  print_iterated "{" "}" (fun cur_pair => print_pair (print_a (fst cur_pair)) (print_b (snd cur_pair))).
(** Print. *)
Fixpoint Print (t : ty) : val t -> string :=
  match t with
  | TInteger => print_integer
  | TBool => print_bool
  | TText => fun s => s
  | TPair a b => fun p => print_pair (Print a (fst p)) (Print b (snd p))
  | TIndexed a => print_indexed (Print a)
  | TIterated a => print_list (Print a)
  | TSet a => print_set (Print a)
  | TMap a b => print_map (Print a) (Print b)
  end.
End Containers.

(** ** Eigen *)
Section Eigen.
Context {A : Type} (ar : arith A) (write : A -> string).
(** print.hpp:215-230. *)
Definition print_Vector2d (v : A * A) : string :=
  let '(x, y) := v in "Vector2d: <x: " ++ write x ++ " y: " ++ write y ++ ">".
(** print.hpp:232-249. *)
Definition print_Vector3d (v : A * A * A) : string :=
  let '(x, y, z) := v in "Vector3d: <x: " ++ write x ++ " y: " ++ write y ++ " z: " ++ write z ++ ">".
(** print.hpp:251-270. *)
Definition print_Vector4d (v : A * A * A * A) : string :=
  let '(x, y, z, w) := v in "Vector4d: <x: " ++ write x ++ " y: " ++ write y ++ " z: " ++ write z ++ " w: " ++ write w ++ ">".
(** The loops "for idx from 1: comma, element". *)
Fixpoint comma_rest (l : list A) (strm : string) : string :=
  match l with
  | [] => strm
  | x :: r => comma_rest r (strm ++ ", " ++ write x)
  end.
(** print.hpp:272-295. *)
Definition print_VectorXd (v : list A) : string :=
  match v with
  | [] => "VectorXd: <>"
  | x :: r => comma_rest r ("VectorXd: <" ++ write x) ++ ">"
  end.
Definition newline : string := String (ascii_of_nat 10) "".
(** The loop over the rows after the first; a row of no columns does not occur there. *)
Fixpoint row_rest (rows : list (list A)) (strm : string) : string :=
  match rows with
  | [] => strm
  | [] :: r => row_rest r (strm ++ newline)
  | (x :: cols) :: r => row_rest r (comma_rest cols (strm ++ newline ++ write x))
  end.
(** A MatrixXd is the list of its rows.  print.hpp:297-329. *)
Definition print_MatrixXd (m : list (list A)) : string :=
  match m with
  | (x :: cols) :: rows => row_rest rows (comma_rest cols ("MatrixXd:" ++ newline ++ "[" ++ write x)) ++ "]"
  | _ => "MatrixXd:" ++ newline ++ "[]"
  end.
(** print.hpp:331-350. *)
Definition print_Quaterniond (q : quat A) : string :=
  "Quaterniond: <x: " ++ write (qx q) ++ " y: " ++ write (qy q) ++ " z: " ++ write (qz q) ++ " w: " ++ write (qw q) ++ ">".
(** print.hpp:352-379. *)
Definition print_Isometry3d (t : isometry A) : string :=
  let '(x, y, z) := iso_translation t in
  let q := q_of_matrix ar (iso_rotation t) in
  "Isometry3d: <x: " ++ write x ++ " y: " ++ write y ++ " z: " ++ write z ++ ">, <x: " ++
  write (qx q) ++ " y: " ++ write (qy q) ++ " z: " ++ write (qz q) ++ " w: " ++ write (qw q) ++ ">".
End Eigen.
