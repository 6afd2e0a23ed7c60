(** The scalars of MathModel.v instantiated with real numbers (exact arithmetic)
    and with IEEE binary64. *)
From Coq Require Import Reals Lra.
From Flocq Require Import Core BinarySingleNaN.
From Verif Require Import Base Double MathModel.

(** std::fmod on reals: x - n y with n the quotient rounded towards zero. *)
Definition Rfmod (x y : R) : R := (x - IZR (Ztrunc (x / y)) * y)%R.

(** Exact arithmetic. *)
Definition real_arith : arith R := {|
  a_of := IZR; aadd := Rplus; asub := Rminus; amul := Rmult; adiv := Rdiv; aopp := Ropp; aabs := Rabs; asqrt := sqrt;
  afmod := Rfmod; altb := Rlt_bool; aleb := Rle_bool; aeqb := Req_bool; a_pi := PI |}.

(** M_PI: 7074237752028440 * 2^-51. *)
Definition d_of_me (m e : Z) : double := binary_normalize 53 1024 eq_refl eq_refl mode_NE m e false.
Definition dpi : double := d_of_me 7074237752028440 (-51).

(** std::fmod on double: computed exactly on the integers that remain after
    scaling by the smaller exponent; a zero result has the sign of x. *)
Definition dfmod (x y : double) : double :=
  match x, y with
  | B754_finite sx mx ex _, B754_finite _ my ey _ =>
    let e := Z.min ex ey in
    let r := Z.rem (Zpos mx * 2 ^ (ex - e)) (Zpos my * 2 ^ (ey - e)) in
    binary_normalize 53 1024 eq_refl eq_refl mode_NE (cond_Zopp sx r) e sx
  | B754_zero _, B754_finite _ _ _ _ => x
  | B754_zero _, B754_infinity _ => x
  | B754_finite _ _ _ _, B754_infinity _ => x
  | _, _ => B754_nan
  end.

(** IEEE binary64. *)
Definition double_arith : arith double := {|
  a_of := d_of_Z; aadd := dadd; asub := dsub; amul := dmul; adiv := ddiv; aopp := @Bopp 53 1024; aabs := @Babs 53 1024;
  asqrt := @Bsqrt 53 1024 eq_refl eq_refl mode_NE;
  afmod := dfmod; altb := dlt; aleb := dle; aeqb := @Beqb 53 1024; a_pi := dpi |}.
