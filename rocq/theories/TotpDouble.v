(** The order of binary64 and of extended reals as TotpQuery.v needs it; computed
    trajectories. *)
From Coq Require Import Reals Lra Bool ZArith List Lia.
From Flocq Require Import Core BinarySingleNaN.
From Verif Require Import Base Double DoubleFacts MathModel MathReal TotpModel TotpSpec TotpScalar TotpProof TotpQuery.

Lemma dle_fin x y : dle x y = true -> is_finite x = true -> is_finite y = true -> (B2R x <= B2R y)%R.
Proof. intros H Fx Fy. now apply dle_R. Qed.
Lemma dle_trans a b c : dle a b = true -> dle b c = true -> dle a c = true.
Proof.
  destruct (is_finite a) eqn:Fa, (is_finite b) eqn:Fb, (is_finite c) eqn:Fc.
  1: { rewrite !dle_R by assumption. lra. }
  all: destruct a as [[]|[]| |[]], b as [[]|[]| |[]], c as [[]|[]| |[]]; try discriminate; cbn; auto.
Qed.
Lemma dle_num a b : dle a b = true -> dle b b = true.
Proof.
  destruct (is_finite b) eqn:Fb.
  - intros _. apply dle_R; auto. lra.
  - destruct b as [[]|[]| |[]]; try discriminate; auto. destruct a as [[]|[]| |[]]; cbn; auto.
Qed.
Lemma dle_total a b : dle a a = true -> dle b b = true -> dlt a b = false -> dle b a = true.
Proof.
  destruct (is_finite a) eqn:Fa, (is_finite b) eqn:Fb.
  1: { intros _ _ H. apply dle_R; auto. destruct (Rle_or_lt (B2R b) (B2R a)) as [|L]; [assumption|]. apply dlt_R in L; auto. congruence. }
  all: destruct a as [[]|[]| |[]], b as [[]|[]| |[]]; try discriminate; cbn; auto.
Qed.
Lemma dle_not a : dle d0 a = true -> dlt a d0 = false.
Proof.
  destruct (is_finite a) eqn:Fa.
  - intros H. destruct (dlt a d0) eqn:L; [|reflexivity]. apply dlt_R in L; auto. apply dle_R in H; auto. lra.
  - destruct a as [[]|[]| |[]]; try discriminate; auto.
Qed.
Lemma d_of_0 : d_of_Z 0 = d0. Proof. reflexivity. Qed.

Section Samples.
Variable m : trig.
Notation z := d_of_Z.
(** From 0 to 1 with maximum velocity and acceleration 1 and a time step of 1. *)
Definition simple : outcome (@trajectory double) :=
  ParametrizePathTOTP double_arith (dextras m) 10 [[z 0]; [z 1]] [z 1] [z 1] (z 0) (z 1).
Definition dhalf : double := ddiv (z 1) (z 2).
Definition dquarter : double := ddiv (z 1) (z 4).
Definition three_halves : double := ddiv (z 3) (z 2).
Definition dnan : double := B754_nan.

Definition simple_path : @path double :=
  mkPath (z 1) [] [mkSegment (z 1) (LinearShape [z 0] [z 1]) (z 0)].
Definition simple_trajectory : @trajectory double :=
  mkTrajectory simple_path
    [mkTimed (z 0) (z 0) (z 0); mkTimed dhalf (z 1) (z 1); mkTimed dhalf (z 1) (z 1); mkTimed (z 1) (z 0) (z 2)].
End Samples.
