(** IEEE-754 binary64 arithmetic (C++ double) from Flocq, round to nearest even. *)
From Coq Require Import ZArith Reals Lra Lia Bool.
From Flocq Require Import Core BinarySingleNaN.

Definition double : Type := binary_float 53 1024.
#[global] Instance prec53 : Prec_gt_0 53 := eq_refl.
#[global] Instance emax1024 : Prec_lt_emax 53 1024 := eq_refl.

Definition dadd (x y : double) : double := Bplus mode_NE x y.
Definition dsub (x y : double) : double := Bminus mode_NE x y.
Definition dmul (x y : double) : double := Bmult mode_NE x y.
Definition ddiv (x y : double) : double := Bdiv mode_NE x y.
Definition dlt (x y : double) : bool := Bltb x y.
Definition dle (x y : double) : bool := Bleb x y.
Definition d0 : double := B754_zero false.
Definition dinf : double := B754_infinity false.
(** static_cast<double>(z) *)
Definition d_of_Z (z : Z) : double := binary_normalize 53 1024 eq_refl eq_refl mode_NE z 0 false.

Definition fexp64 : Z -> Z := SpecFloat.fexp 53 1024.
Definition rnd64 (x : R) : R := round radix2 fexp64 ZnearestE x.

Lemma fexp64_valid : Valid_exp fexp64.
Proof. apply (fexp_correct 53 1024 eq_refl). Qed.
#[global] Existing Instance fexp64_valid.

Lemma rnd64_mono x y : (x <= y)%R -> (rnd64 x <= rnd64 y)%R.
Proof. apply round_le; typeclasses eauto. Qed.

Lemma rnd64_fix (x : double) : rnd64 (B2R x) = B2R x.
Proof. apply round_generic; [typeclasses eauto|]. apply generic_format_B2R. Qed.

Lemma rnd64_0 : rnd64 0 = 0%R.
Proof. apply round_0. typeclasses eauto. Qed.
