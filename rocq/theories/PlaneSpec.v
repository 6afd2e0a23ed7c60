(** Vocabulary for the plane fit: singular value decompositions and sums of squares. *)
From Coq Require Import Reals.
From Verif Require Import Base MathModel MathReal MathVec MathLinModel.
Local Open Scope R_scope.

(** f 0 + ... + f (n - 1). *)
Fixpoint sumn (n : nat) (f : nat -> R) : R := match n with O => 0 | S m => sumn m f + f m end.
Definition rsum (l : list R) : R := fold_right Rplus 0 l.
Definition delta (i j : nat) : R := if (i =? j)%nat then 1 else 0.
(** [vs] are orthonormal vectors of length [d]; as many as the dimension make a basis, in
    which the squared length of every vector is the sum of its squared components. *)
Definition orthonormal (d : nat) (vs : list (list R)) : Prop :=
  Forall (fun v => length v = d) vs /\
  (forall i j, (i < length vs)%nat -> (j < length vs)%nat -> dot (nth i vs []) (nth j vs []) = delta i j) /\
  (length vs = d -> forall w, length w = d -> dot w w = sumn d (fun i => dot (nth i vs []) w ^ 2)).
(** A thin singular value decomposition of the d by n matrix with the given columns: its
    entries are those of U S V^T, U and V have min(d, n) orthonormal columns, and the
    singular values are not negative. *)
Definition is_svd (d : nat) (columns : list (list R)) (sv : list R) (U : list (list R)) : Prop :=
  let n := length columns in
  let k := Nat.min d n in
  exists V : list (list R),
    length sv = k /\ length U = k /\ length V = k /\ Forall (fun s => 0 <= s) sv /\ orthonormal d U /\ orthonormal n V /\
    forall j r, (j < n)%nat -> (r < d)%nat ->
      nth r (nth j columns []) 0 = sumn k (fun i => nth i sv 0 * nth j (nth i V []) 0 * nth r (nth i U []) 0).
(** [total] is the sum of the squared distances of the points to the plane. *)
Definition squared_error (p : Hyperplane) (points : list (list R)) (total : R) : Prop :=
  exists ds, Forall2 (fun x d => GetSquaredDistanceToPlane real_arith p x = Ok d) points ds /\ total = rsum ds.
