(** Vocabulary for MultivariteGaussianDistribution. *)
From Coq Require Import Reals List.
From Verif Require Import Base GaussianModel MultivariateModel.
Import ListNotations.
Local Open Scope R_scope.

(** Symmetric, and positive semidefinite: what a covariance matrix is. *)
Definition symmetric (n : nat) (m : matrix) : Prop := forall i j, (i < n)%nat -> (j < n)%nat -> m i j = m j i.
Definition semidefinite (n : nat) (m : matrix) : Prop :=
  forall x : nat -> R, 0 <= sum_to n (fun i => sum_to n (fun j => x i * m i j * x j)).
Definition equal_to (n : nat) (a b : matrix) : Prop := forall i j, (i < n)%nat -> (j < n)%nat -> a i j = b i j.
Definition times_transpose (n : nat) (a : matrix) : matrix := fun i j => sum_to n (fun k => a i k * a j k).
Definition unit_matrix : matrix := fun i j => if Nat.eqb i j then 1 else 0.
(** What Eigen promises for a symmetric matrix: a Cholesky factor if it reports success; and
    orthonormal eigenvectors with their eigenvalues. *)
Definition solvers_ok (s : solvers) (n : nat) (m : matrix) : Prop :=
  (forall l, cholesky s n m = Some l -> equal_to n (times_transpose n l) m) /\
  (let '(vals, vecs) := eigen s n m in
     equal_to n (times_transpose n vecs) unit_matrix /\
     equal_to n (fun i j => sum_to n (fun k => vecs k i * vecs k j)) unit_matrix /\
     equal_to n (fun i j => sum_to n (fun k => vecs i k * vals k * vecs j k)) m).
(** An expectation of functions of the draws: linear, 1 for the constant 1. *)
Record expectation (E : (list R -> R) -> R) : Prop := {
  expect_sum : forall f g, E (fun z => f z + g z) = E f + E g;
  expect_scale : forall c f, E (fun z => c * f z) = c * E f;
  expect_one : E (fun _ => 1) = 1;
  expect_same : forall f g, (forall z, f z = g z) -> E f = E g }.
(** Uncorrelated draws of mean 0 and variance 1, as independent standard normal draws are. *)
Definition standard_draws (n : nat) (E : (list R -> R) -> R) : Prop :=
  (forall i, (i < n)%nat -> E (fun z => nth i z 0) = 0) /\
  (forall i j, (i < n)%nat -> (j < n)%nat -> E (fun z => nth i z 0 * nth j z 0) = unit_matrix i j).
