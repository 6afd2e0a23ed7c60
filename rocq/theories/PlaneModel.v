(** Model of FitPlaneToPoints and of Hyperplane::GetNormedDotProduct. *)
From Verif Require Import Base MathModel MathLinModel.

Section Plane.
Context {A : Type} (ar : arith A).
Notation "a *' b" := (amul ar a b) (at level 40, left associativity).
Notation "a /' b" := (adiv ar a b) (at level 40, left associativity).
Notation c0 := (a_of ar 0).

(** Eigen's stableNormalized(): the largest absolute coefficient is taken out first. *)
Definition max_abs (v : list A) : A := fold_left (fun m x => if altb ar m (aabs ar x) then aabs ar x else m) v c0.
Definition stableNormalized (v : list A) : list A :=
  let w := max_abs v in
  let scaled := map (fun x => x /' w) v in
  let z := eig_dot ar scaled scaled in
  if altb ar c0 z then map (fun x => x /' (asqrt ar z *' w)) v else v.
(** Hyperplane::GetNormedDotProduct, math.hpp:631-637. *)
Definition GetNormedDotProduct (p : Hyperplane) (point : list A) : outcome A :=
  do check_vector <- eig_sub ar point (plane_origin p);
  Ok (eig_dot ar (stableNormalized check_vector) (plane_normal p)).

(** Eigen::JacobiSVD with thin U: from the columns of a matrix to the singular values and the
    columns of U. *)
Variable svd : list (list A) -> list A * list (list A).
(** The columns of centered_points, math.cpp:940-946. *)
Fixpoint center (points : list (list A)) (centroid : list A) : outcome (list (list A)) :=
  match points with
  | [] => Ok []
  | current_point :: rest =>
      do c <- eig_sub ar current_point centroid;
      do cs <- center rest centroid;
      Ok (c :: cs)
  end.
(** The loop for the least singular value, math.cpp:956-966: None stands for the starting
    infinity and the index -1. *)
Fixpoint min_loop (values : list A) (idx : nat) (best : option (A * nat)) : option (A * nat) :=
  match values with
  | [] => best
  | v :: r =>
      let better := match best with None => true | Some (m, _) => altb ar v m end in
      min_loop r (S idx) (if better then Some (v, idx) else best)
  end.
(** FitPlaneToPoints, math.cpp:936-978. *)
Definition FitPlaneToPoints (points : list (list A)) : outcome Hyperplane :=
  do centroid <- AverageEigenVector ar points [];
  do centered_points <- center points centroid;
  let '(singular_values, u_matrix) := svd centered_points in
  match min_loop singular_values 0 None with
  | None => Throw RuntimeError
  | Some (_, best_singular_value_index) =>
      do best_left_singular_vector <- raw_get u_matrix best_singular_value_index;
      MakeHyperplane centroid (stableNormalized best_left_singular_vector)
  end.
End Plane.
