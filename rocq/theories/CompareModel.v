(** Model of the exact comparisons of math.cpp over a type of scalars (MathModel.v); the
    comparisons with a tolerance are in MathModel.v and ColorModel.v. *)
From Verif Require Import Base MathModel.

Section Compare.
Context {A : Type} (ar : arith A).
(** Equal3d, math.cpp:11-21. *)
Definition Equal3d (v1 v2 : A * A * A) : bool :=
  let '(x1, y1, z1) := v1 in let '(x2, y2, z2) := v2 in
  aeqb ar x1 x2 && aeqb ar y1 y2 && aeqb ar z1 z2.
(** Equal4d, math.cpp:24-35. *)
Definition Equal4d (v1 v2 : A * A * A * A) : bool :=
  let '(x1, y1, z1, w1) := v1 in let '(x2, y2, z2, w2) := v2 in
  aeqb ar x1 x2 && aeqb ar y1 y2 && aeqb ar z1 z2 && aeqb ar w1 w2.
(** CloseEnough on Vector3d, math.cpp:51-69. *)
Definition CloseEnough3d (v1 v2 : A * A * A) (threshold : A) : bool :=
  let '(x1, y1, z1) := v1 in let '(x2, y2, z2) := v2 in
  CloseEnoughVector ar [x1; y1; z1] [x2; y2; z2] threshold.
End Compare.
