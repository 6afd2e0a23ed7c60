(** Independent specification of standard (RFC 4648) base64, used to state the
    properties of the base64 helpers.  Nothing here refers to the model. *)
From Verif Require Import Base.
Local Open Scope N_scope.

(** Every element of the list is a byte. *)
Definition bytes (b : list N) : Prop := Forall (fun x => x < 256) b.
(** Every character is 7-bit ASCII. *)
Definition ascii (s : list N) : Prop := Forall (fun x => x < 128) s.

(** RFC 4648 table 1: A-Z, a-z, 0-9, +, /. *)
Definition b64_char (v : N) : N :=
  if v <? 26 then 65 + v
  else if v <? 52 then 97 + (v - 26)
  else if v <? 62 then 48 + (v - 52)
  else if v =? 62 then 43 else 47.

(** RFC 4648 section 4: 24-bit groups as four sextets, with = padding. *)
Fixpoint rfc4648 (b : list N) : list N :=
  match b with
  | [] => []
  | [x] => [b64_char (x / 4); b64_char (x mod 4 * 16); 61; 61]
  | [x; y] => [b64_char (x / 4); b64_char (x mod 4 * 16 + y / 16);
               b64_char (y mod 16 * 4); 61]
  | x :: y :: z :: r =>
      b64_char (x / 4) :: b64_char (x mod 4 * 16 + y / 16)
      :: b64_char (y mod 16 * 4 + z / 64) :: b64_char (z mod 64) :: rfc4648 r
  end.

(** A byte buffer that a std::vector can hold (max_size is 2^63-1). *)
Definition fits (b : list N) : Prop := N.of_nat (length b) < 2 ^ 63.

(** The 64-character alphabet of standard base64. *)
Definition is_alpha (c : N) : Prop :=
  (65 <= c <= 90) \/ (97 <= c <= 122) \/ (48 <= c <= 57) \/ c = 43 \/ c = 47.

