(** Model of the functions of include/common_robotics_utilities/simple_rrt_planner.hpp
    that make callbacks for the planners.  The user's functions may fail and may
    change their own data [W]. *)
From Coq Require Import ZArith.
From Flocq Require Import Core BinarySingleNaN.
From Verif Require Import Base Double Effect UtilityModel VoxelModel KnnModel RrtModel.
Local Open Scope Z_scope.

(** static_cast<int32_t>(std::ceil(x)): undefined when the value does not fit. *)
Definition ceil_to_int32 (x : double) : outcome Z :=
  if is_finite x then
    let z := - dfloor_Z (Bopp x) in
    if (- 2 ^ 31 <=? z) && (z <? 2 ^ 31) then Ok z else UB
  else UB.
(** 1.0 and std::numeric_limits<double>::epsilon(). *)
Definition one : double := d_of_Z 1.
Definition epsilon : double := ddiv one (d_of_Z (2 ^ 52)).

Section Propagation.
Context {S W : Type}.
Variable distance_fn : S -> S -> eff W double.
Variable state_interpolation_fn : S -> S -> double -> eff W S.
Variable edge_validity_check_fn : S -> S -> eff W bool.
Variable step_size : double.

(** The function made by MakeKinematicRRTExtendPropagationFunction and
    MakeKinematicBiRRTExtendPropagationFunction,
    simple_rrt_planner.hpp:1728-1742 and 1772-1788. *)
Definition extend_propagation (nearest sampled : S) : eff W (list (S * Z)) :=
  run distance <- distance_fn nearest sampled;
  let ratio := if dlt step_size distance then ddiv step_size distance else one in
  run extend_state <-
    (if dlt ratio one then state_interpolation_fn nearest sampled ratio else ret sampled);
  run valid <- edge_validity_check_fn nearest extend_state;
  if valid : bool then ret [(extend_state, -1)] else ret [].

(** The while loop of the function made by
    MakeKinematicRRTConnectPropagationFunction, 1827-1866.  [remaining] is
    total_steps - steps: the loop body either adds a state or ends the loop. *)
Fixpoint connect_loop (remaining : nat) (sampled current : S) (parent_offset : Z) (propagated_states : list (S * Z))
    : eff W (list (S * Z)) :=
  match remaining with
  | O => ret propagated_states
  | Datatypes.S rest =>
      run target_distance <- distance_fn current sampled;
      if dlt step_size target_distance then
        run current_target <- state_interpolation_fn current sampled (ddiv step_size target_distance);
        run valid <- edge_validity_check_fn current current_target;
        if valid : bool then
          connect_loop rest sampled current_target (parent_offset + 1)
            (propagated_states ++ [(current_target, parent_offset)])
        else ret propagated_states
      else if dle (Babs target_distance) epsilon then ret propagated_states
      else
        run valid <- edge_validity_check_fn current sampled;
        if valid : bool then ret (propagated_states ++ [(sampled, parent_offset)])
        else ret propagated_states
  end.

(** The function made by MakeKinematicRRTConnectPropagationFunction and
    MakeKinematicBiRRTConnectPropagationFunction, 1818-1868 and 1898-1950. *)
Definition connect_propagation (nearest sampled : S) : eff W (list (S * Z)) :=
  run total_distance <- distance_fn nearest sampled;
  run total_steps <- lift (ceil_to_int32 (ddiv total_distance step_size));
  connect_loop (Z.to_nat total_steps) sampled nearest (-1) [].

(** MakeKinematicRRTExtendPropagationFunction, 1712-1744, and
    MakeKinematicRRTConnectPropagationFunction, 1802-1870, with their BiRRT
    variants, 1756-1790 and 1882-1952. *)
Definition MakeKinematicRRTExtendPropagationFunction : outcome (S -> S -> eff W (list (S * Z))) :=
  if dle step_size d0 then Throw InvalidArgument else Ok extend_propagation.
Definition MakeKinematicRRTConnectPropagationFunction : outcome (S -> S -> eff W (list (S * Z))) :=
  if dle step_size d0 then Throw InvalidArgument else Ok connect_propagation.
End Propagation.

(** MakeUniformRandomBiRRTSelectSampleTypeFunction, 1452-1478. *)
Definition MakeUniformRandomBiRRTSelectSampleTypeFunction {S W}
    (uniform_unit_real_fn : eff W double) (tree_sampling_bias : double)
    : outcome (list (rrt_node S) -> list (rrt_node S) -> active_tree -> eff W sample_type) :=
  if dle d0 tree_sampling_bias && dle tree_sampling_bias one then
    Ok (fun _ _ _ =>
          run u <- uniform_unit_real_fn;
          ret (if dle u tree_sampling_bias then TREE_SAMPLE else STATE_SAMPLE))
  else Throw InvalidArgument.

(** MakeUniformRandomBiRRTSelectActiveTreeFunction, 1480-1512. *)
Definition MakeUniformRandomBiRRTSelectActiveTreeFunction {S W}
    (uniform_unit_real_fn : eff W double) (p_switch_tree : double)
    : outcome (list (rrt_node S) -> list (rrt_node S) -> active_tree -> eff W active_tree) :=
  if dle d0 p_switch_tree && dle p_switch_tree one then
    Ok (fun _ _ a =>
          run u <- uniform_unit_real_fn;
          ret (if dle u p_switch_tree then match a with START_TREE => GOAL_TREE | GOAL_TREE => START_TREE end else a))
  else Throw InvalidArgument.

(** MakeStateAndGoalsSamplingFunction, 1522-1586; goal_states.size() is a size_t. *)
Definition MakeStateAndGoalsSamplingFunction {S W}
    (state_sampling_fn : eff W S) (goal_states : list S) (goal_bias : double)
    (uniform_unit_real_fn : eff W double) : outcome (eff W S) :=
  if dlt goal_bias d0 || dlt one goal_bias then Throw InvalidArgument
  else
    match goal_states with
    | [] => Throw InvalidArgument
    | _ =>
        Ok (run u <- uniform_unit_real_fn;
            if dlt goal_bias u then state_sampling_fn
            else if (length goal_states =? 1)%nat then lift (at_get goal_states 0)
            else
              run v <- uniform_unit_real_fn;
              run i <- lift (GetUniformRandomIndex 0 (2 ^ 64 - 1) v (Z.of_nat (length goal_states)));
              lift (at_get goal_states (Z.to_nat i)))
    end.

(** MakeUniformRandomBiRRTTreeSamplingFunction, 1588-1603: Size() is an int64_t. *)
Definition MakeUniformRandomBiRRTTreeSamplingFunction {S W} (uniform_unit_real_fn : eff W double)
    : list (rrt_node S) -> active_tree -> eff W Z :=
  fun target_tree _ =>
    run u <- uniform_unit_real_fn;
    lift (GetUniformRandomIndex (- 2 ^ 63) (2 ^ 63 - 1) u (TreeSize target_tree)).

(** The function made by MakeLinearRRTNearestNeighborsFunction and its kinematic
    and BiRRT variants, 1609-1700, from what GetKNearestNeighbors returned. *)
Definition nearest_index {D} (neighbors : outcome (list (Z * D))) : outcome Z :=
  do neighbors <- neighbors;
  match neighbors with n :: _ => Ok (fst n) | [] => Throw RuntimeError end.
(** With parallelism None. *)
Definition linear_nearest_neighbor {D S Sample} (infinity : D)
    (psort : nat -> list (Z * D) -> list (Z * D)) (distance_fn : S -> Sample -> D)
    (tree : list (rrt_node S)) (sampled : Sample) : outcome Z :=
  nearest_index (GetKNearestNeighborsSerial infinity tree (fun n => distance_fn (state_value n) sampled) psort 1).

(** class TimeoutCheckHelper, 1361-1413, with the functions made from it by
    MakeRRTTimeoutTerminationFunction and MakeBiRRTTimeoutTerminationFunction,
    1423-1449: start_time_ and the steady clock in nanoseconds. *)
Record timeout_helper : Type := mkTimeout { timeout_s : double; start_time : option Z }.
Definition MakeTimeoutCheckHelper (timeout : double) : outcome timeout_helper :=
  if dle timeout d0 then Throw RuntimeError else Ok (mkTimeout timeout None).
(** (now - start) > timeout_: both are converted to double nanoseconds. *)
Definition time_exceeded (timeout : double) (start now : Z) : bool :=
  dlt (dmul timeout (d_of_Z 1000000000)) (d_of_Z (now - start)).
Definition TimeoutCheck (h : timeout_helper) (now : Z) : outcome bool :=
  match start_time h with
  | Some start => Ok (time_exceeded (timeout_s h) start now)
  | None => Throw RuntimeError
  end.
Definition TimeoutStart (h : timeout_helper) (now : Z) : timeout_helper := mkTimeout (timeout_s h) (Some now).
Definition TimeoutReset (h : timeout_helper) : timeout_helper := mkTimeout (timeout_s h) None.
Definition TimeoutCheckOrStart (h : timeout_helper) (now : Z) : outcome (bool * timeout_helper) :=
  match start_time h with
  | Some _ => do b <- TimeoutCheck h now; Ok (b, h)
  | None => Ok (false, TimeoutStart h now)
  end.
