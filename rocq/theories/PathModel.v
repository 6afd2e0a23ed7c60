(** Model of include/common_robotics_utilities/path_processing.hpp.  Callbacks on
    states are functions (they may not keep state of their own); the random source
    may, its state is [W].  double is IEEE binary64; size_t values are below 2^64
    and containers hold fewer than 2^63 elements. *)
From Coq Require Import ZArith.
From Flocq Require Import Core BinarySingleNaN.
From Verif Require Import Base Double Effect UtilityModel VoxelModel ParallelismModel.
Local Open Scope Z_scope.

(** static_cast<uint32_t>(std::ceil(x)): undefined when the value does not fit. *)
Definition ceil_to_uint32 (x : double) : outcome Z :=
  if is_finite x then
    let z := - dfloor_Z (Bopp x) in
    if (0 <=? z) && (z <? 2 ^ 32) then Ok z else UB
  else UB.

(** operator== on doubles. *)
Definition deq (x y : double) : bool := Beqb x y.

Section Path.
Context {V : Type}.
Variable edge_valid : V -> V -> bool.
Variable distance : V -> V -> double.
Variable interpolate : V -> V -> double -> V.

(** The loop of ComputePercentCollisionFree, path_processing.hpp:29-42: number of
    valid edges before the first invalid one. *)
Fixpoint collision_free_edges (q1 : V) (rest : list V) : Z :=
  match rest with
  | [] => 0
  | q2 :: r => if edge_valid q1 q2 then 1 + collision_free_edges q2 r else 0
  end.

(** ComputePercentCollisionFree, path_processing.hpp:20-61. *)
Definition ComputePercentCollisionFree (path : list V) : double :=
  match path with
  | [] => d1
  | [q] => if edge_valid q q then d1 else d0
  | q :: rest => ddiv (d_of_Z (collision_free_edges q rest)) (d_of_Z (Z.of_nat (length path) - 1))
  end.

(** States added between two states of a path, path_processing.hpp:94-108; the
    interpolated states are those of the segments [segments] out of
    [num_segments]. *)
Definition interpolated (a b : V) (num_segments : Z) (segments : list Z) : list V :=
  map (fun k => interpolate a b (ddiv (d_of_Z k) (d_of_Z num_segments))) segments.

(** path.begin() + first up to path.begin() + last. *)
Definition range (path : list V) (first last : nat) : list V := firstn (last - first) (skipn first path).

(** AttemptShortcut, path_processing.hpp:63-187; [steps] is
    remaining_backtracking_steps.  An empty result means failure. *)
Fixpoint AttemptShortcut (path : list V) (resample_interval : double) (check_marginal : bool)
    (steps : nat) (start_index end_index : nat) : outcome (list V) :=
  if (end_index <=? start_index)%nat then Throw InvalidArgument
  else
    do start_config <- raw_get path start_index;
    do end_config <- raw_get path end_index;
    do single <-
      (if edge_valid start_config end_config then
         do middle <-
           (if dlt d0 resample_interval then
              do n <- ceil_to_uint32 (ddiv (distance start_config end_config) resample_interval);
              Ok (interpolated start_config end_config n (seqZ 1 n))
            else Ok []);
         let shortcut := start_config :: middle ++ [end_config] in
         if (length shortcut <=? 2)%nat || negb check_marginal then Ok (Some shortcut)
         else if deq (ComputePercentCollisionFree shortcut) d1 then Ok (Some shortcut)
         else Ok None
       else Ok None);
    match single with
    | Some shortcut => Ok shortcut
    | None =>
      match steps with
      | O => Ok []
      | S available =>
        let window := (end_index - start_index)%nat in
        if (2 <=? window)%nat then
          let middle_index := (start_index + window / 2)%nat in
          do first_half <- AttemptShortcut path resample_interval check_marginal available start_index middle_index;
          do second_half <- AttemptShortcut path resample_interval check_marginal available middle_index end_index;
          match first_half, second_half with
          | _ :: _, _ :: second_rest => Ok (first_half ++ second_rest)
          | _ :: _, [] => Ok (first_half ++ range path (middle_index + 1) (end_index + 1))
          | [], _ :: _ => Ok (range path start_index middle_index ++ second_half)
          | [], [] => Ok []
          end
        else Ok []
      end
    end.

(** math::Interpolate, math.cpp:384-392, with utility::ClampValue on doubles. *)
Definition Interpolate (p1 p2 ratio : double) : outcome double :=
  do real_ratio <- ClampValue dlt (fun a b => dle b a) ratio d0 d1;
  Ok (dadd (dmul p1 (dsub d1 real_ratio)) (dmul p2 real_ratio)).

Section Smooth.
Context {W : Type}.
Variable uniform_unit_real : eff W double.

(** ShortcutSmoothPath, path_processing.hpp:189-277: the while loop; [fuel] bounds
    the iterations of the model.  A negative index (possible only when the random
    source leaves [0, 1)) is taken for undefined behaviour: the conversion to
    size_t makes it an index beyond any container. *)
Fixpoint smooth_loop (max_iterations max_failed : Z) (max_backtracking : nat) (fraction interval : double)
    (check_marginal : bool) (fuel : nat) (num_iterations failed : Z) (current : list V) : eff W (list V) :=
  if (num_iterations <? max_iterations) && (failed <? max_failed) && (2 <? Z.of_nat (length current)) then
    match fuel with
    | O => lift Diverge
    | S fuel' =>
      let size := Z.of_nat (length current) in
      let again := smooth_loop max_iterations max_failed max_backtracking fraction interval check_marginal fuel' (num_iterations + 1) in
      run u1 <- uniform_unit_real;
      run base_index <- lift (GetUniformRandomIndex (- 2 ^ 63) (2 ^ 63 - 1) u1 size);
      run u2 <- uniform_unit_real;
      run offset_fraction <- lift (Interpolate (Bopp fraction) fraction u2);
      run offset <- lift (floor_to_int64 (dmul (d_of_Z size) offset_fraction));
      run offset_index <- lift (i64 (base_index + offset));
      run safe_offset_index <- lift (ClampValue Z.ltb Z.geb offset_index 0 (size - 1));
      let start_index := Z.to_nat (Z.min base_index safe_offset_index) in
      let end_index := Z.to_nat (Z.max base_index safe_offset_index) in
      if base_index <? 0 then lift UB
      else if (end_index <=? start_index + 1)%nat then again failed current
      else
        run shortcut <- lift (AttemptShortcut current interval check_marginal max_backtracking start_index end_index);
        match shortcut with
        | [] => again (failed + 1) current
        | _ => again failed (firstn start_index current ++ shortcut ++ skipn (end_index + 1) current)
        end
    end
  else ret current.

Definition ShortcutSmoothPath (path : list V) (max_iterations max_failed : Z) (max_backtracking : nat)
    (fraction interval : double) (check_marginal : bool) (fuel : nat) : eff W (list V) :=
  smooth_loop max_iterations max_failed max_backtracking fraction interval check_marginal fuel 0 0 path.
End Smooth.

(** ResamplePath, path_processing.hpp:279-335: states appended for one edge.  With
    num_segments = 2^32 - 1 the loop counter, a uint32_t, wraps and never exceeds it. *)
Definition resample_edge (spacing : double) (previous current : V) : outcome (list V) :=
  do n <- ceil_to_uint32 (ddiv (distance previous current) spacing);
  if n =? 0 then Ok []
  else if n =? 1 then Ok [current]
  else if n =? 2 ^ 32 - 1 then Diverge
  else Ok (interpolated previous current n (seqZ 1 (n + 1))).
Fixpoint resample_loop (spacing : double) (previous : V) (rest : list V) : outcome (list V) :=
  match rest with
  | [] => Ok []
  | current :: r =>
      do seg <- resample_edge spacing previous current;
      do more <- resample_loop spacing current r;
      Ok (seg ++ more)
  end.
Definition ResamplePath (path : list V) (spacing : double) : outcome (list V) :=
  match path with
  | [] | [_] => Ok path
  | p :: rest =>
      if dle spacing d0 then Throw InvalidArgument
      else do l <- resample_loop spacing p rest; Ok (p :: l)
  end.
End Path.
