(** C188: what the planners tell their callbacks. *)
From Verif Require Import Base Effect RrtModel RrtSpec RrtSamples RrtTellSpec RrtTellProof RrtSame.
Local Open Scope Z_scope.

(** C188.  The functions given to the planner are arbitrary (the callbacks may even
    change the tree); the two callbacks also write what they are told to a log.  When
    planning returns, there is one path for every call of the goal-reached callback, in
    order, each leading to the node told. *)
Theorem C188_goal_reached {S Sample W} (cb : rrt_callbacks S Sample W) fuel (t : list (rrt_node S)) w f paths stats t' w' log :
  goal_reached_callback_fn cb = Some f ->
  RRTPlanMultiPath (telling cb) fuel (t, (w, [])) = (Ok (paths, stats), (t', (w', log))) ->
  Forall2 (path_to t') (solutions_told log) paths.
Proof. intros Ef E. exact (proj1 (multi_told false cb fuel t w f paths stats t' w' log Ef ltac:(discriminate) E)). Qed.
Print Assumptions C188_goal_reached.
Theorem C188_goal_bridge {S W} (cb : birrt_callbacks S W) fuel (st gt : list (rrt_node S)) w f paths stats st' gt' w' log :
  goal_bridge_callback_fn cb = Some f ->
  BiRRTPlanMultiPath (bi_telling cb) fuel ((st, gt), (w, [])) = (Ok (paths, stats), ((st', gt'), (w', log))) ->
  Forall2 (leads st' gt') (bridges_told log) paths.
Proof. intros Ef E. exact (proj1 (bi_multi_told false cb fuel st gt w f paths stats st' gt' w' log Ef ltac:(discriminate) E)). Qed.
Print Assumptions C188_goal_bridge.

(** Single-path planning: the path leads to the first node told, and is empty if the
    callback was not called. *)
Theorem C188_single_goal_reached {S Sample W} (cb : rrt_callbacks S Sample W) fuel (t : list (rrt_node S)) w f path stats t' w' log :
  goal_reached_callback_fn cb = Some f ->
  RRTPlanSinglePath (telling cb) fuel (t, (w, [])) = (Ok (path, stats), (t', (w', log))) ->
  match solutions_told log with [] => path = [] | i :: _ => path_to t' i path end.
Proof. intros Ef E. exact (proj1 (single_told false cb fuel t w f path stats t' w' log Ef ltac:(discriminate) E)). Qed.
Print Assumptions C188_single_goal_reached.
Theorem C188_single_goal_bridge {S W} (cb : birrt_callbacks S W) fuel (st gt : list (rrt_node S)) w f path stats st' gt' w' log :
  goal_bridge_callback_fn cb = Some f ->
  BiRRTPlanSinglePath (bi_telling cb) fuel ((st, gt), (w, [])) = (Ok (path, stats), ((st', gt'), (w', log))) ->
  match bridges_told log with [] => path = [] | b :: _ => leads st' gt' b path end.
Proof. intros Ef E. exact (proj1 (bi_single_told false cb fuel st gt w f path stats st' gt' w' log Ef ltac:(discriminate) E)). Qed.
Print Assumptions C188_single_goal_bridge.

(** If the callbacks leave the tree alone, the state-added callback is called exactly
    once for every new node, in the order of the nodes; and a solution is told right
    after its node, or at the start if it was in the tree given. *)
Theorem C188_state_added {S Sample W} (cb : rrt_callbacks S Sample W) fuel (t : list (rrt_node S)) w f paths stats t' w' log :
  goal_reached_callback_fn cb = Some f -> reading cb ->
  RRTPlanMultiPath (telling cb) fuel (t, (w, [])) = (Ok (paths, stats), (t', (w', log))) ->
  TreeSize t <= TreeSize t' /\ nodes_added log = numbers (TreeSize t) (TreeSize t') /\ told_in_order (TreeSize t) log.
Proof. intros Ef R E. exact (proj2 (multi_told true cb fuel t w f paths stats t' w' log Ef (fun _ => R) E) eq_refl). Qed.
Print Assumptions C188_state_added.
Theorem C188_single_state_added {S Sample W} (cb : rrt_callbacks S Sample W) fuel (t : list (rrt_node S)) w f path stats t' w' log :
  goal_reached_callback_fn cb = Some f -> reading cb ->
  RRTPlanSinglePath (telling cb) fuel (t, (w, [])) = (Ok (path, stats), (t', (w', log))) ->
  TreeSize t <= TreeSize t' /\ nodes_added log = numbers (TreeSize t) (TreeSize t') /\ told_in_order (TreeSize t) log.
Proof. intros Ef R E. exact (proj2 (single_told true cb fuel t w f path stats t' w' log Ef (fun _ => R) E) eq_refl). Qed.
Print Assumptions C188_single_state_added.
Theorem C188_bi_state_added {S W} (cb : birrt_callbacks S W) fuel (st gt : list (rrt_node S)) w f paths stats st' gt' w' log :
  goal_bridge_callback_fn cb = Some f -> bi_reading cb ->
  BiRRTPlanMultiPath (bi_telling cb) fuel ((st, gt), (w, [])) = (Ok (paths, stats), ((st', gt'), (w', log))) ->
  bi_told st gt st' gt' log.
Proof. intros Ef R E. exact (proj2 (bi_multi_told true cb fuel st gt w f paths stats st' gt' w' log Ef (fun _ => R) E) eq_refl). Qed.
Print Assumptions C188_bi_state_added.
Theorem C188_bi_single_state_added {S W} (cb : birrt_callbacks S W) fuel (st gt : list (rrt_node S)) w f path stats st' gt' w' log :
  goal_bridge_callback_fn cb = Some f -> bi_reading cb ->
  BiRRTPlanSinglePath (bi_telling cb) fuel ((st, gt), (w, [])) = (Ok (path, stats), ((st', gt'), (w', log))) ->
  bi_told st gt st' gt' log.
Proof. intros Ef R E. exact (proj2 (bi_single_told true cb fuel st gt w f path stats st' gt' w' log Ef (fun _ => R) E) eq_refl). Qed.
Print Assumptions C188_bi_single_state_added.

(** The log changes nothing: whatever happens in a run that writes it (a return, an exception
    of any function, undefined behaviour) happens in the run without it, with the same trees. *)
Theorem C188_same_run {S Sample W} (cb : rrt_callbacks S Sample W) fuel (t : list (rrt_node S)) w l r t' w' l' :
  RRTPlanMultiPath (telling cb) fuel (t, (w, l)) = (r, (t', (w', l'))) -> RRTPlanMultiPath cb fuel (t, w) = (r, (t', w')).
Proof. apply same_run, multi_sim, telling_related. Qed.
Print Assumptions C188_same_run.
Theorem C188_single_same_run {S Sample W} (cb : rrt_callbacks S Sample W) fuel (t : list (rrt_node S)) w l r t' w' l' :
  RRTPlanSinglePath (telling cb) fuel (t, (w, l)) = (r, (t', (w', l'))) -> RRTPlanSinglePath cb fuel (t, w) = (r, (t', w')).
Proof. apply same_run, single_sim, telling_related. Qed.
Print Assumptions C188_single_same_run.
Theorem C188_bi_same_run {S W} (cb : birrt_callbacks S W) fuel (ts : list (rrt_node S) * list (rrt_node S)) w l r ts' w' l' :
  BiRRTPlanMultiPath (bi_telling cb) fuel (ts, (w, l)) = (r, (ts', (w', l'))) -> BiRRTPlanMultiPath cb fuel (ts, w) = (r, (ts', w')).
Proof. apply same_run, bi_multi_sim, bi_telling_related. Qed.
Print Assumptions C188_bi_same_run.
Theorem C188_bi_single_same_run {S W} (cb : birrt_callbacks S W) fuel (ts : list (rrt_node S) * list (rrt_node S)) w l r ts' w' l' :
  BiRRTPlanSinglePath (bi_telling cb) fuel (ts, (w, l)) = (r, (ts', (w', l'))) -> BiRRTPlanSinglePath cb fuel (ts, w) = (r, (ts', w')).
Proof. apply same_run, bi_single_sim, bi_telling_related. Qed.
Print Assumptions C188_bi_single_same_run.

(** The sample planners, with callbacks that do nothing: what they are told. *)
Definition hearing : rrt_callbacks Z unit (nat * list rrt_event) := with_state_added no_op (with_goal_reached no_op sample_cb).
Definition bi_hearing : birrt_callbacks Z nat := with_bi_state_added no_op (with_goal_bridge no_op bi_sample_cb).
Example C188_nonvacuous :
  let r := RRTPlanMultiPath (telling hearing) 20 (sample_tree, ((3%nat, []), [])) in
  let b := BiRRTPlanMultiPath (bi_telling bi_hearing) 20 (bi_sample_trees, (3%nat, [])) in
  let b1 := BiRRTPlanSinglePath (bi_telling bi_hearing) 20 (bi_sample_trees, (9%nat, [])) in
  reading hearing /\ bi_reading bi_hearing /\
  (exists st, fst r = Ok ([[0; 1; 2; 3]; [0; 1; 2; 3; 4]; [0; 1; 2; 3; 4; 5]; [0; 1; 2; 3; 4; 5; 6]], st)) /\
  snd (snd (snd r)) = [Added 1; Added 2; Added 3; Reached 3; Added 4; Reached 4; Added 5; Reached 5; Added 6; Reached 6] /\
  (exists st, fst b = Ok ([[0; 1; 2; 3; 4]], st)) /\
  snd (snd (snd b)) = [BiAdded 1 START_TREE; BiAdded 1 GOAL_TREE; BiAdded 2 START_TREE; Bridged 2 1 START_TREE] /\
  (exists st, fst b1 = Ok ([0; 1; 2; 3; 4], st)) /\ bridges_told (snd (snd (snd b1))) = [(2, 1)].
Proof.
  cbv zeta. split; [split; [eexists; split; [reflexivity|intros i s; reflexivity]|intros f i E s; injection E as <-; reflexivity]|].
  split; [split; [eexists; split; [reflexivity|intros i s; reflexivity]|intros f i E s; injection E as <-; reflexivity]|].
  vm_compute. repeat split; eexists; reflexivity.
Qed.
