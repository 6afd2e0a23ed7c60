(** Vocabulary for the properties of MathLinModel.v over real numbers: 3x3 and 4x4
    matrices as tuples of rows, rotations, rigid motions and derivatives.  Vectors
    of any size and their inner product, sum and norm are those of MathVec.v. *)
From Coq Require Import Reals.
From Verif Require Import Base.
Local Open Scope R_scope.

Definition r3 : Type := (R * R * R)%type.
Definition r33 : Type := (r3 * r3 * r3)%type.
Definition r4 : Type := (R * R * R * R)%type.
Definition r44 : Type := (r4 * r4 * r4 * r4)%type.

Definition dot3 (a b : r3) : R := let '(x, y, z) := a in let '(p, q, r) := b in x * p + y * q + z * r.
Definition cross3 (a b : r3) : r3 := let '(x, y, z) := a in let '(p, q, r) := b in
  (y * r - z * q, z * p - x * r, x * q - y * p).
Definition transpose3 (m : r33) : r33 :=
  let '((a, b, c), (d, e, f), (g, h, i)) := m in ((a, d, g), (b, e, h), (c, f, i)).
Definition apply3 (m : r33) (v : r3) : r3 := let '(r1, r2, r3) := m in (dot3 r1 v, dot3 r2 v, dot3 r3 v).
Definition mul3 (m n : r33) : r33 :=
  let '(c1, c2, c3) := transpose3 n in let '(r1, r2, r3) := m in
  ((dot3 r1 c1, dot3 r1 c2, dot3 r1 c3), (dot3 r2 c1, dot3 r2 c2, dot3 r2 c3), (dot3 r3 c1, dot3 r3 c2, dot3 r3 c3)).
Definition id3 : r33 := ((1, 0, 0), (0, 1, 0), (0, 0, 1)).
Definition det3 (m : r33) : R := let '(r1, r2, r3) := m in dot3 r1 (cross3 r2 r3).
(** Rotation matrices. *)
Definition is_rotation (m : r33) : Prop := mul3 m (transpose3 m) = id3 /\ det3 m = 1.

Definition dot4 (a b : r4) : R := let '(x, y, z, w) := a in let '(p, q, r, s) := b in x * p + y * q + z * r + w * s.
Definition apply4 (m : r44) (v : r4) : r4 := let '(r1, r2, r3, r4) := m in (dot4 r1 v, dot4 r2 v, dot4 r3 v, dot4 r4 v).
Definition transpose4 (m : r44) : r44 :=
  let '((a, b, c, d), (e, f, g, h), (i, j, k, l), (m, n, o, p)) := m in
  ((a, e, i, m), (b, f, j, n), (c, g, k, o), (d, h, l, p)).
Definition mul4 (m n : r44) : r44 :=
  let '(c1, c2, c3, c4) := transpose4 n in let '(r1, r2, r3, r4) := m in
  let row r := (dot4 r c1, dot4 r c2, dot4 r c3, dot4 r c4) in (row r1, row r2, row r3, row r4).
Definition id4 : r44 := ((1, 0, 0, 0), (0, 1, 0, 0), (0, 0, 1, 0), (0, 0, 0, 1)).
(** The rigid motion x -> m x + p as a matrix. *)
Definition motion (m : r33) (p : r3) : r44 :=
  let '((a, b, c), (d, e, f), (g, h, i)) := m in let '(x, y, z) := p in
  ((a, b, c, x), (d, e, f, y), (g, h, i, z), (0, 0, 0, 1)).
Definition is_rigid (t : r44) : Prop := exists m p, is_rotation m /\ t = motion m p.

(** Entries, and derivatives entry by entry. *)
Definition entries (m : r44) : list R :=
  let '((a, b, c, d), (e, f, g, h), (i, j, k, l), (m, n, o, p)) := m in
  [a; b; c; d; e; f; g; h; i; j; k; l; m; n; o; p].
Definition derivative_at (f : R -> r44) (t : R) (d : r44) : Prop :=
  forall k, (k < 16)%nat -> derivable_pt_lim (fun s => nth k (entries (f s)) 0) t (nth k (entries d) 0).
(** The velocity field of a twist (v, w) at x is v + w cross x: as a matrix acting on
    (x, 1). *)
Definition generates (h : r44) (v w : r3) : Prop :=
  forall x y z, let '(p, q, r) := cross3 w (x, y, z) in let '(a, b, c) := v in
  apply4 h (x, y, z, 1) = (p + a, q + b, r + c, 0).

(** The weighted inner product. *)
Fixpoint weighted_dot (u v w : list R) : R :=
  match u, v, w with x :: u', y :: v', z :: w' => z * (x * y) + weighted_dot u' v' w' | _, _, _ => 0 end.
