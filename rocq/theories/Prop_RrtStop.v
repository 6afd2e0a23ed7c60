(** C170: when RRT planning stops. *)
From Verif Require Import Base Effect RrtModel RrtSamples RrtStopSpec RrtStopProof.
Local Open Scope Z_scope.

(** C170.  The callbacks given to the planner are arbitrary, and write a log of the
    samples asked for, the solutions accepted and the order to stop.  Single-path
    planning: however it ends, no sample is asked for after a solution was accepted,
    and nothing happens after an order to stop.  When it returns, the path is empty
    exactly when it was told to stop, and not empty exactly when a solution was accepted. *)
Theorem C170_rrt_single_path {S Sample W} (cb : rrt_callbacks S Sample W) fuel (t : list (rrt_node S)) w r t' w' log :
  RRTPlanSinglePath (recorded cb) fuel (t, (w, [])) = (r, (t', (w', log))) ->
  no_sample_after_goal log /\ stop_last log /\
  forall path stats, r = Ok (path, stats) ->
    (path <> [] <-> In GoalSeen log) /\ (path = [] <-> exists pre, log = pre ++ [ToldToStop]).
Proof. exact (rrt_single cb fuel t w r t' w' log). Qed.
Print Assumptions C170_rrt_single_path.
Theorem C170_birrt_single_path {S W} (cb : birrt_callbacks S W) fuel (st gt : list (rrt_node S)) w r st' gt' w' log :
  BiRRTPlanSinglePath (bi_recorded cb) fuel ((st, gt), (w, [])) = (r, ((st', gt'), (w', log))) ->
  no_sample_after_goal log /\ stop_last log /\
  forall path stats, r = Ok (path, stats) ->
    (path <> [] <-> In GoalSeen log) /\ (path = [] <-> exists pre, log = pre ++ [ToldToStop]).
Proof. exact (bi_single cb fuel st gt w r st' gt' w' log). Qed.
Print Assumptions C170_birrt_single_path.

(** Multi-path planning returns only when told to stop, and then at once; it returns
    paths exactly when a solution was accepted, and no path is empty. *)
Theorem C170_rrt_multi_path {S Sample W} (cb : rrt_callbacks S Sample W) fuel (t : list (rrt_node S)) w r t' w' log :
  RRTPlanMultiPath (recorded cb) fuel (t, (w, [])) = (r, (t', (w', log))) ->
  stop_last log /\
  forall paths stats, r = Ok (paths, stats) ->
    (exists pre, log = pre ++ [ToldToStop]) /\ (paths <> [] <-> In GoalSeen log) /\ Forall (fun p => p <> []) paths.
Proof. exact (rrt_multi cb fuel t w r t' w' log). Qed.
Print Assumptions C170_rrt_multi_path.
Theorem C170_birrt_multi_path {S W} (cb : birrt_callbacks S W) fuel (st gt : list (rrt_node S)) w r st' gt' w' log :
  BiRRTPlanMultiPath (bi_recorded cb) fuel ((st, gt), (w, [])) = (r, ((st', gt'), (w', log))) ->
  stop_last log /\
  forall paths stats, r = Ok (paths, stats) ->
    (exists pre, log = pre ++ [ToldToStop]) /\ (paths <> [] <-> In GoalSeen log) /\ Forall (fun p => p <> []) paths.
Proof. exact (bi_multi cb fuel st gt w r st' gt' w' log). Qed.
Print Assumptions C170_birrt_multi_path.

(** The same callbacks: told to stop after nine rounds, single-path planning stops after
    two; told to stop after one, it fails; multi-path planning goes on after a solution. *)
Example C170_nonvacuous :
  let log9 := RRTPlanSinglePath (recorded sample_cb) 20 (sample_tree, ((9%nat, []), [])) in
  let log1 := RRTPlanSinglePath (recorded sample_cb) 20 (sample_tree, ((1%nat, []), [])) in
  let logm := RRTPlanMultiPath (recorded sample_cb) 20 (sample_tree, ((3%nat, []), [])) in
  let logb := BiRRTPlanSinglePath (bi_recorded bi_sample_cb) 20 (bi_sample_trees, (9%nat, [])) in
  (exists st, fst log9 = Ok ([0; 1; 2; 3], st)) /\ snd (snd (snd log9)) = [Sampled; Sampled; GoalSeen; GoalSeen] /\
  (exists st, fst log1 = Ok ([], st)) /\ snd (snd (snd log1)) = [Sampled; ToldToStop] /\
  (exists p st, fst logm = Ok (p, st) /\ length p = 4%nat) /\
  snd (snd (snd logm)) = [Sampled; Sampled; GoalSeen; GoalSeen; Sampled; GoalSeen; GoalSeen; ToldToStop] /\
  (exists st, fst logb = Ok ([0; 1; 2; 3; 4], st)) /\
  snd (snd (snd logb)) = [Sampled; Sampled; Sampled; Sampled; Sampled; Sampled; GoalSeen].
Proof.
  vm_compute. repeat split; try (eexists; reflexivity). do 2 eexists. split; reflexivity.
Qed.
