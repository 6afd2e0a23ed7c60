(** Model of include/common_robotics_utilities/simple_dtw.hpp.

    The costs are of a type [D] with an order, an addition, zero and infinity
    (double in the code); the distance function may throw.  The containers are
    vectors.  Sizes given to the constructor are not negative. *)
From Verif Require Import Base Effect.
Local Open Scope Z_scope.

Section Dtw.
Context {D A B : Type}.
Variables (ltb : D -> D -> bool) (add : D -> D -> D) (zero inf : D).

(** dtw_matrix_, an Eigen::MatrixXd. *)
Record matrix : Type := mkMatrix { m_rows : Z; m_cols : Z; m_data : Z -> Z -> D }.
(** operator() of an Eigen matrix: outside the matrix it is undefined. *)
Definition inside (m : matrix) (r c : Z) : bool := (0 <=? r) && (r <? m_rows m) && (0 <=? c) && (c <? m_cols m).
Definition m_get (m : matrix) (r c : Z) : outcome D := if inside m r c then Ok (m_data m r c) else UB.
Definition m_set (m : matrix) (r c : Z) (x : D) : outcome matrix :=
  if inside m r c
  then Ok (mkMatrix (m_rows m) (m_cols m) (fun i j => if (i =? r) && (j =? c) then x else m_data m i j))
  else UB.

(** InitializeMatrix, simple_dtw.hpp:23-43. *)
Definition InitializeMatrix (first_size second_size : Z) (m : matrix) : matrix :=
  let rows := first_size + 1 in
  let cols := second_size + 1 in
  if (m_rows m <? rows) || (m_cols m <? cols) then
    mkMatrix rows cols
      (fun r c =>
         if (1 <? rows) && (1 <? cols) && (((1 <=? r) && (c =? 0)) || ((r =? 0) && (1 <=? c))) then inf else zero)
  else m.

(** The constructors, 49-58: dtw_matrix_ starts without rows. *)
Definition MakeDTW (first_size second_size : Z) : matrix :=
  InitializeMatrix first_size second_size (mkMatrix 0 0 (fun _ _ => zero)).

Variable distance_fn : A -> B -> outcome D.

(** The update of one cell, 84-108. *)
Definition dtw_cell (i j : Z) (a : A) (b : B) : eff matrix unit :=
  run index_cost <- lift (distance_fn a b);
  run m <- get;
  run im1j <- lift (m_get m (i - 1) j);
  run im1jm1 <- lift (m_get m (i - 1) (j - 1));
  run ijm1 <- lift (m_get m i (j - 1));
  let prev_cost :=
    if ltb im1j im1jm1 && ltb im1j ijm1 then im1j
    else if ltb ijm1 im1j && ltb ijm1 im1jm1 then ijm1
    else im1jm1 in
  let new_cost := add index_cost prev_cost in
  run m' <- lift (m_set m i j new_cost);
  put m'.

(** The loop over the second sequence, 80-109, from column [j]. *)
Fixpoint dtw_row (i j : Z) (a : A) (second : list B) : eff matrix unit :=
  match second with
  | [] => ret tt
  | b :: rest => run _ <- dtw_cell i j a b; dtw_row i (j + 1) a rest
  end.
(** The loop over the first sequence, 76-110, from row [i]. *)
Fixpoint dtw_rows (i : Z) (first : list A) (second : list B) : eff matrix unit :=
  match first with
  | [] => ret tt
  | a :: rest => run _ <- dtw_row i 1 a second; dtw_rows (i + 1) rest second
  end.

(** SimpleDTW::EvaluateWarpingCost, 60-116. *)
Definition EvaluateWarpingCost (first : list A) (second : list B) : eff matrix D :=
  if (length first =? 0)%nat then lift (Throw InvalidArgument)
  else if (length second =? 0)%nat then lift (Throw InvalidArgument)
  else
    let n := Z.of_nat (length first) in
    let k := Z.of_nat (length second) in
    run m <- get;
    run _ <- put (InitializeMatrix n k m);
    run _ <- dtw_rows 1 first second;
    run m <- get;
    lift (m_get m n k).

(** The free function EvaluateWarpingCost, 119-131. *)
Definition FreshWarpingCost (first : list A) (second : list B) : outcome D :=
  fst (EvaluateWarpingCost first second (MakeDTW 0 0)).
End Dtw.
