(** Vocabulary for print.hpp. *)
From Coq Require Import String Ascii ZArith.
From Verif Require Import Base PrintModel.
Local Open Scope string_scope.

(** Texts with a separator between neighbours. *)
Fixpoint joined (separator : string) (texts : list string) : string :=
  match texts with
  | [] => ""
  | [x] => x
  | x :: r => x ++ separator ++ joined separator r
  end.
(** Types in which no string occurs. *)
Fixpoint no_text (t : ty) : Prop :=
  match t with
  | TInteger | TBool => True
  | TText => False
  | TPair a b | TMap a b => no_text a /\ no_text b
  | TIndexed a | TIterated a | TSet a => no_text a
  end.
(** Characters that numbers and truth values are made of, and brackets. *)
Definition word_char (c : ascii) : Prop := In c (list_ascii_of_string "-0123456789aeflrstu").
Definition bracket (c : ascii) : Prop := In c (list_ascii_of_string "[](){}<>").
(** A separator whose first character is neither: the default is a comma and a space. *)
Definition proper_separator (s : string) : Prop := exists c r, s = String c r /\ ~ word_char c /\ ~ bracket c.
(** What an ostream writes for a double: digits, signs, a point, and the letters of e,
    inf and nan; at least one character. *)
Definition number_char (c : ascii) : Prop := In c (list_ascii_of_string "-+.0123456789aefin").
Definition number_text (s : string) : Prop := s <> "" /\ forall c, In c (list_ascii_of_string s) -> number_char c.
(** "name: text" entries in angle brackets after the name of the type. *)
Definition labelled (entries : list (string * string)) : string :=
  "<" ++ joined " " (map (fun e => fst e ++ ": " ++ snd e) entries) ++ ">".
(** The value of a decimal numeral: digits, after a minus sign if negative. *)
Definition digit_value (c : ascii) : Z := (Z.of_nat (nat_of_ascii c) - 48)%Z.
Fixpoint digits_value (acc : Z) (s : string) : Z :=
  match s with
  | EmptyString => acc
  | String c r => digits_value (10 * acc + digit_value c)%Z r
  end.
Definition numeral_value (s : string) : Z :=
  match s with
  | String c r => if (c =? "-")%char then (- digits_value 0 r)%Z else digits_value 0 s
  | EmptyString => 0%Z
  end.
