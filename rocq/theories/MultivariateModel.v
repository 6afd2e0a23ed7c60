(** Model of MultivariteGaussianDistribution in gaussian_distributions.hpp, in exact
    arithmetic.  A matrix is a function of row and column, a vector of n numbers a
    list.  Eigen's Cholesky and eigenvalue solvers are parameters. *)
From Coq Require Import Reals List.
From Verif Require Import Base GaussianModel.
Import ListNotations.
Local Open Scope R_scope.

Definition matrix := nat -> nat -> R.
(** The sum of f 0 ... f (n - 1), for Eigen's products. *)
Fixpoint sum_to (n : nat) (f : nat -> R) : R := match n with O => 0 | S k => sum_to k f + f k end.
Record solvers : Type := {
  (** Eigen::LLT: the lower factor, or nothing when info() is not Success. *)
  cholesky : nat -> matrix -> option matrix;
  (** Eigen::SelfAdjointEigenSolver: eigenvalues, and eigenvectors as columns. *)
  eigen : nat -> matrix -> (nat -> R) * matrix }.

(** CalculateNormTransform, gaussian_distributions.hpp:388-407. *)
Definition CalculateNormTransform (s : solvers) (n : nat) (covariance : matrix) : matrix :=
  match cholesky s n covariance with
  | Some matrixL => matrixL
  | None =>
    let '(eigenvalues, eigenvectors) := eigen s n covariance in
    fun i j => eigenvectors i j * sqrt (Rmax (eigenvalues j) 0)
  end.
(** The members, gaussian_distributions.hpp:371-372; [mg_rows] is mean_.rows(). *)
Record MultivariateGaussian : Type := mkMG { mg_rows : nat; mg_mean : nat -> R; mg_transform : matrix }.
(** The constructor, gaussian_distributions.hpp:410-431, without the tests for NaN and
    infinity, which real numbers never meet. *)
Definition MakeMultivariateGaussian (s : solvers) (mean_rows : nat) (mean : nat -> R) (covariance_rows covariance_cols : nat) (covariance : matrix) : outcome MultivariateGaussian :=
  do _ <- CheckMultivariateSizes mean_rows covariance_rows covariance_cols;
  Ok (mkMG mean_rows mean (CalculateNormTransform s covariance_rows covariance)).
(** The loop of Sample, gaussian_distributions.hpp:379-384: rows draws in order. *)
Fixpoint unit_draws {G} (src : source G) (rows : nat) (g : G) : list R * G :=
  match rows with
  | O => ([], g)
  | S k => let '(d, g) := normal_draw src g in let '(ds, g) := unit_draws src k g in (d :: ds, g)
  end.
(** norm_transform_ * draw + mean_, gaussian_distributions.hpp:385. *)
Definition transformed (d : MultivariateGaussian) (draws : list R) : list R :=
  map (fun i => sum_to (mg_rows d) (fun j => mg_transform d i j * nth j draws 0) + mg_mean d i) (seq 0 (mg_rows d)).
(** Sample, gaussian_distributions.hpp:376-386, and operator(), 433-437. *)
Definition MultivariateSample {G} (src : source G) (d : MultivariateGaussian) (g : G) : list R * G :=
  let '(draws, g) := unit_draws src (mg_rows d) g in (transformed d draws, g).
