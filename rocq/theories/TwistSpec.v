(** Vocabulary for C159: flowing along a velocity field, and logarithms of rigid
    motions.  Matrices, rigid motions and derivatives are those of MathLinSpec.v. *)
From Coq Require Import Reals.
From Verif Require Import Base MathLinSpec.
Local Open Scope R_scope.

(** The matrix a point's coordinates (x, 1) are multiplied with to get its velocity when
    it moves with translational velocity v and rotational velocity w. *)
Definition field (v w : r3) : r44 := let '(a, b, c) := v in let '(p, q, r) := w in
  ((0, - r, q, a), (r, 0, - p, b), (- q, p, 0, c), (0, 0, 0, 0)).
(** Flowing along h for one unit of time, from the identity, ends in m. *)
Definition flows_to (h m : r44) : Prop :=
  exists F : R -> r44, F 0 = id4 /\ (forall t, derivative_at F t (mul4 h (F t))) /\ F 1 = m.
Definition length3 (v : r3) : R := sqrt (dot3 v v).
(** The logarithm of a rigid motion: the field with the least rotation that flows to it.
    It is unique unless the rotation is by half a turn. *)
Definition is_logarithm (h m : r44) : Prop :=
  exists v w, h = field v w /\ flows_to h m /\ length3 w <= PI.
