(** Model of include/common_robotics_utilities/simple_hausdorff_distance.hpp and
    of BuildPairwiseDistanceMatrix, math.hpp:532-604.

    Simplifications: the distance function is a total function that neither
    throws nor has side effects; sizes are mathematical integers.  Calls of a
    parallel loop's work function run one after another in the order in which
    they began: calls with the same thread number cannot overlap (C09) and others
    write different slots or cells (DistProof.v, [writers_disjoint]). *)
From Verif Require Import Base ParallelismModel KnnModel.
Local Open Scope Z_scope.

(** Eigen::MatrixXd: sizes and coefficients; access outside is undefined
    behaviour. *)
Record mat (C : Type) : Type := mkMat { m_rows : Z; m_cols : Z; m_cell : Z -> Z -> C }.
Arguments mkMat {C}.
Arguments m_rows {C}.
Arguments m_cols {C}.
Arguments m_cell {C}.

Definition mat_get {C} (m : mat C) (i j : Z) : outcome C :=
  if (0 <=? i) && (i <? m_rows m) && (0 <=? j) && (j <? m_cols m) then Ok (m_cell m i j) else UB.
Definition mat_set {C} (m : mat C) (i j : Z) (v : C) : outcome (mat C) :=
  if (0 <=? i) && (i <? m_rows m) && (0 <=? j) && (j <? m_cols m)
  then Ok (mkMat (m_rows m) (m_cols m) (fun a b => if (a =? i) && (b =? j) then v else m_cell m a b))
  else UB.
(** Eigen::MatrixXd(rows, cols): coefficients are not initialised. *)
Definition new_mat {D} (rows cols : Z) : mat (option D) := mkMat rows cols (fun _ _ => None).

Section Dist.
Context {D A B : Type}.
(** operator< of doubles, 0.0 and infinity. *)
Variable ltb : D -> D -> bool.
Variables zero inf : D.

(** The inner loop over second_distribution, simple_hausdorff_distance.hpp:56-67,
    119-130, 175-184 and 233-244, with [get jdx] the distance of element jdx. *)
Definition minimum_distance (get : Z -> outcome D) (size : Z) : outcome D :=
  mfold (fun m j => do c <- get j; Ok (if ltb c m then c else m)) inf (seqZ 0 size).

(** distance_fn(first, second_distribution[jdx]), lines 61-62 and 124-125, or
    distance_matrix(index, jdx), lines 179 and 237-239. *)
Definition from_function (dist : A -> B -> D) (first : list A) (second : list B) (i j : Z) : outcome D :=
  do a <- raw_get first (Z.to_nat i);
  do b <- raw_get second (Z.to_nat j);
  Ok (dist a b).

(** ComputeDistanceSerial after the argument checks, 113-137 and 227-250. *)
Definition serial_loop (get : Z -> Z -> outcome D) (n k : Z) : outcome D :=
  mfold (fun mx i => do mn <- minimum_distance (get i) k; Ok (if ltb mx mn then mn else mx))
        zero (seqZ 0 n).

(** per_item_work of ComputeDistanceParallel, 54-73 and 171-190. *)
Definition per_item_work (get : Z -> Z -> outcome D) (k : Z) (storage : list D) (c : Z * (Z * Z)) : outcome (list D) :=
  do mn <- minimum_distance (get (fst (snd c))) k;
  do s <- at_get storage (Z.to_nat (fst c));
  if ltb s mn then at_set storage (Z.to_nat (fst c)) mn else Ok storage.

(** ComputeDistanceParallel after the argument checks, 50-90 and 168-206, for one
    execution [tr] of its loop, which ended with [r]. *)
Definition parallel_loop (get : Z -> Z -> outcome D) (k num_threads : Z) (tr : list event) (r : outcome unit) : outcome D :=
  after_loop r
    (do storage <- mfold (per_item_work get k) (repeat zero (Z.to_nat num_threads)) (loop_calls tr);
     Ok (fold_left (fun mx mn => if ltb mx mn then mn else mx) storage zero)).

(** The executions of the StaticParallelForIndexLoop over [0, size) at lines
    75-77, 192-194 and math.hpp:570-572, 599-601, in which no call throws (the
    distance function does not). *)
Definition index_loop_execution (spurious omp_in_build : bool) (team : nat)
    (num_threads size : Z) (tr : list event) (r : outcome unit) : Prop :=
  run index_body spurious
    (StaticParallelForLoop index_body omp_in_build team num_threads 0 size BEST_AVAILABLE)
    tr (SFinal r) /\
  Forall (fun ev => match ev with EvEnd _ _ _ (Some _) => False | _ => True end) tr.

Notation size l := (Z.of_nat (length l)).

(** Argument checks of the variants with a distance function, 42-48, 104-111. *)
Definition nonempty_args (first : list A) (second : list B) (k : outcome D) : outcome D :=
  if size first =? 0 then Throw InvalidArgument
  else if size second =? 0 then Throw InvalidArgument else k.
(** and with a distance matrix, 154-166 and 213-225. *)
Definition matrix_args (first : list A) (second : list B) (m : mat D) (k : outcome D) : outcome D :=
  nonempty_args first second
    (if negb (m_rows m =? size first) || negb (m_cols m =? size second)
     then Throw InvalidArgument else k).

(** ComputeDistance with a distance function, simple_hausdorff_distance.hpp:
    269-289 (dispatch on the degree of parallelism), 32-92 and 94-141. *)
Definition ComputeDistance (dist : A -> B -> D) (first : list A) (second : list B)
    (num_threads : Z) (tr : list event) (r : outcome unit) : outcome D :=
  nonempty_args first second
    (if IsParallel num_threads
     then parallel_loop (from_function dist first second) (size second) num_threads tr r
     else serial_loop (from_function dist first second) (size first) (size second)).

(** ComputeDistance with a distance matrix, 308-328, 144-208 and 210-254. *)
Definition ComputeDistanceWithMatrix (m : mat D) (first : list A) (second : list B)
    (num_threads : Z) (tr : list event) (r : outcome unit) : outcome D :=
  matrix_args first second m
    (if IsParallel num_threads
     then parallel_loop (mat_get m) (size second) num_threads tr r
     else serial_loop (mat_get m) (size first) (size second)).
End Dist.

Section Pairwise.
Context {D : Type}.
Variable zero : D.
Notation size l := (Z.of_nat (length l)).

(** per_item_work of BuildPairwiseDistanceMatrix(data, ...), math.hpp:543-564. *)
Definition fill_pairs {A} (dist : A -> A -> D) (data : list A) (m : mat (option D)) (idx : Z)
  : outcome (mat (option D)) :=
  do item <- raw_get data (Z.to_nat idx);
  mfold (fun m jdx =>
           if negb (idx =? jdx) then
             do other <- raw_get data (Z.to_nat jdx);
             let distance := dist item other in
             do m <- mat_set m idx jdx (Some distance);
             mat_set m jdx idx (Some distance)
           else
             do m <- mat_set m idx jdx (Some zero);
             mat_set m jdx idx (Some zero))
        m (seqZ idx (size data)).

(** BuildPairwiseDistanceMatrix(data, distance_fn, parallelism), math.hpp:
    532-575, for one execution of its loop. *)
Definition BuildPairwiseDistanceMatrix {A} (dist : A -> A -> D) (data : list A)
    (tr : list event) (r : outcome unit) : outcome (mat (option D)) :=
  after_loop r
    (mfold (fun m c => fill_pairs dist data m (fst (snd c)))
           (new_mat (size data) (size data)) (loop_calls tr)).

(** per_item_work of BuildPairwiseDistanceMatrix(data1, data2, ...), math.hpp:
    586-597. *)
Definition fill_row {A B} (dist : A -> B -> D) (data1 : list A) (data2 : list B)
    (m : mat (option D)) (data1_index : Z) : outcome (mat (option D)) :=
  do first_item <- raw_get data1 (Z.to_nat data1_index);
  mfold (fun m data2_index =>
           do second <- raw_get data2 (Z.to_nat data2_index);
           mat_set m data1_index data2_index (Some (dist first_item second)))
        m (seqZ 0 (size data2)).

(** BuildPairwiseDistanceMatrix(data1, data2, distance_fn, parallelism),
    math.hpp:577-604. *)
Definition BuildPairwiseDistanceMatrix2 {A B} (dist : A -> B -> D) (data1 : list A) (data2 : list B)
    (tr : list event) (r : outcome unit) : outcome (mat (option D)) :=
  after_loop r
    (mfold (fun m c => fill_row dist data1 data2 m (fst (snd c)))
           (new_mat (size data1) (size data2)) (loop_calls tr)).
End Pairwise.
