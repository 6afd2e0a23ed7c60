(** When planning stops (C170). *)
From Verif Require Import Base Effect RrtModel RrtStopSpec.
Local Open Scope Z_scope.

Definition some_of {A} (l : list A) : bool := match l with [] => false | _ :: _ => true end.
Lemma some_snoc {A} (l : list A) a : some_of (l ++ [a]) = true.
Proof. destruct l; reflexivity. Qed.

Section Generic.
Context {S Sample V : Type}.
Variable cb : rrt_callbacks S Sample V.
Variables (I0 : bool -> V -> Prop) (Go M F : V -> Prop) (D : bool -> V -> Prop).
Notation tree := (list (rrt_node S)).
Notation on P := (fun s : tree * V => P (snd s)).
Notation fails := (fun (_ : stop) (s : tree * V) => F (snd s)).
Hypothesis IF : forall g v, I0 g v -> F v.
Hypothesis MF : forall v, M v -> F v.
Hypothesis H_sample : forall g, hoare (fun v => I0 g v /\ Go v) (sampling_fn cb) (fun _ => I0 g) (fun _ => F).
Hypothesis H_near : forall g t s, hoare (I0 g) (nearest_neighbor_fn cb t s) (fun _ => I0 g) (fun _ => F).
Hypothesis H_prop : forall g s x, hoare (I0 g) (forward_propagation_fn cb s x) (fun _ => I0 g) (fun _ => F).
Hypothesis H_added : forall g f i, state_added_callback_fn cb = Some f -> hoare (on (I0 g)) (f i) (fun _ => on (I0 g)) fails.
Hypothesis H_check : forall g s, hoare (I0 g) (check_goal_reached_fn cb s) (fun b v => if b then M v else I0 g v) (fun _ => F).
Hypothesis H_goal : forall i, hoare (on M) (match goal_reached_callback_fn cb with Some f => f i | None => ret tt end) (fun _ => on (I0 true)) fails.
Hypothesis H_term : forall g n, hoare (I0 g) (termination_check_fn cb n) (fun b v => if b then D g v else I0 g v /\ Go v) (fun _ => F).

Lemma tree_kept P : hoare (on P) (the_tree (S := S)) (fun _ => on P) fails.
Proof. intros [t v] H. exact H. Qed.
Lemma look (P : V -> Prop) {A} (x : outcome A) : (forall v, P v -> F v) -> hoare (on P) (lift x) (fun _ => on P) fails.
Proof. intros PF. apply hoare_lift. intros s Hs. destruct x; auto. Qed.
Lemma aside (P : V -> Prop) {A} (m : eff V A) Q : hoare P m Q (fun _ => F) -> hoare (on P) (on_snd (T := tree) m) (fun a s => Q a (snd s)) fails.
Proof. intros H. apply hoare_snd. intros t. exact H. Qed.
Lemma inside (P : V -> Prop) {A} (m : eff tree A) : (forall v, P v -> F v) -> hoare (on P) (on_fst m) (fun _ => on P) fails.
Proof. intros PF. apply hoare_fst. intros v t Ht. cbn in *. destruct (m t) as [[a|e| |] t']; auto. Qed.

Lemma initial_goals_stop : forall fuel idx goals, hoare (on (I0 (some_of goals))) (initial_goals cb fuel idx goals) (fun goals' => on (I0 (some_of goals'))) fails.
Proof.
  induction fuel as [|f IH]; intros idx goals; cbn [initial_goals].
  - eapply hoare_bind; [apply tree_kept|]. intros t. cbv beta. apply hoare_if; intros _; [apply hoare_lift; intros s Hs; exact (IF _ _ Hs)|]. now apply hoare_ret.
  - eapply hoare_bind; [apply tree_kept|]. intros t. cbv beta. apply hoare_if; intros _; [|now apply hoare_ret].
    eapply hoare_bind; [apply (look _ _ (IF _))|]. intros n. cbv beta.
    eapply hoare_bind; [exact (aside _ _ _ (H_check (some_of goals) _))|]. intros [|]; cbv beta iota.
    + eapply hoare_bind with (Q := fun _ => on (I0 true)); [|intros _; rewrite <- (some_snoc goals idx); apply IH].
      pose proof (H_goal idx) as HG. unfold call. destruct (goal_reached_callback_fn cb); [exact HG|]. apply hoare_lift. intros s Hs. exact (MF _ Hs).
    + apply IH.
Qed.
Lemma add_propagated_stop nearest : forall props mapping goals, hoare (on (I0 (some_of goals))) (add_propagated cb nearest mapping props goals) (fun goals' => on (I0 (some_of goals'))) fails.
Proof.
  induction props as [|[current relative] props IH]; intros mapping goals; cbn [add_propagated]; [now apply hoare_ret|].
  eapply hoare_bind with (Q := fun _ => on (I0 (some_of goals))); [apply hoare_if; intros _; [apply (look _ _ (IF _))|now apply hoare_ret]|]. intros p.
  eapply hoare_bind; [apply (inside _ _ (IF _))|]. intros i. cbv beta zeta.
  eapply hoare_bind with (Q := fun _ => on (I0 (some_of goals))).
  { destruct (state_added_callback_fn cb) as [f|] eqn:E; [exact (H_added _ f i eq_refl)|now apply hoare_ret]. }
  intros _. eapply hoare_bind; [apply tree_kept|]. intros t. cbv beta. eapply hoare_bind; [apply (look _ _ (IF _))|]. intros n. cbv beta.
  eapply hoare_bind; [exact (aside _ _ _ (H_check (some_of goals) _))|]. intros [|]; cbv beta iota; [|apply IH].
  eapply hoare_bind; [apply H_goal|]. intros u. cbv beta. rewrite <- (some_snoc goals i). apply IH.
Qed.
Lemma iteration_stop c goals : hoare (on (fun v => I0 (some_of goals) v /\ Go v)) (rrt_iteration cb c goals) (fun r => on (I0 (some_of (snd r)))) fails.
Proof.
  unfold rrt_iteration. destruct c as [[total succ] fail].
  eapply hoare_bind; [exact (aside _ _ _ (H_sample (some_of goals)))|]. intros x. cbv beta zeta.
  eapply hoare_bind; [apply tree_kept|]. intros t. cbv beta. eapply hoare_bind; [exact (aside _ _ _ (H_near (some_of goals) _ _))|]. intros i. cbv beta.
  eapply hoare_bind; [apply (look _ _ (IF _))|]. intros n. cbv beta. eapply hoare_bind; [exact (aside _ _ _ (H_prop (some_of goals) _ _))|]. intros props. cbv beta.
  destruct props as [|p props]; [now apply hoare_ret|]. eapply hoare_bind; [apply add_propagated_stop|]. intros goals'. now apply hoare_ret.
Qed.
Lemma loop_stop : forall fuel c goals, hoare (on (I0 (some_of goals))) (rrt_loop cb fuel c goals) (fun r => on (D (some_of (snd r)))) fails.
Proof.
  induction fuel as [|f IH]; intros c goals; cbn [rrt_loop].
  - eapply hoare_bind; [apply tree_kept|]. intros t. cbv beta. eapply hoare_bind; [exact (aside _ _ _ (H_term (some_of goals) _))|]. intros [|]; cbv beta iota; [now apply hoare_ret|].
    apply hoare_lift. intros s [Hs _]. exact (IF _ _ Hs).
  - eapply hoare_bind; [apply tree_kept|]. intros t. cbv beta. eapply hoare_bind; [exact (aside _ _ _ (H_term (some_of goals) _))|]. intros [|]; cbv beta iota; [now apply hoare_ret|].
    eapply hoare_bind; [apply iteration_stop|]. intros [c' goals']. apply IH.
Qed.
Lemma paths_some (t : tree) goals paths : ExtractSolutionPaths t goals = Ok paths -> some_of paths = some_of goals /\ Forall (fun p => p <> []) paths.
Proof.
  revert paths. induction goals as [|g goals IH]; intros paths E; cbn [ExtractSolutionPaths] in E; [injection E as <-; split; [reflexivity|constructor]|].
  destruct (ExtractSolutionPath t g) as [p| | |] eqn:Ep; try discriminate E. cbn [bind] in E.
  destruct (ExtractSolutionPaths t goals) as [ps| | |]; try discriminate E. cbn [bind] in E. injection E as <-. split; [reflexivity|].
  constructor; [|now apply (IH ps)]. unfold ExtractSolutionPath in Ep. destruct (GetTreeNode t g) as [n| | |]; try discriminate Ep. cbn [bind] in Ep.
  destruct (walk _ _ _) as [rest| | |]; try discriminate Ep. cbn [bind] in Ep. injection Ep as <-. cbn [rev]. intros X. apply app_eq_nil in X as [_ X]. discriminate X.
Qed.
Hypothesis DF : forall g v, D g v -> F v.
Lemma plan_stop fuel : hoare (on (I0 false)) (RRTPlanMultiPath cb fuel) (fun r s => D (some_of (fst r)) (snd s) /\ Forall (fun p => p <> []) (fst r)) fails.
Proof.
  unfold RRTPlanMultiPath. eapply hoare_bind; [apply tree_kept|]. intros t. cbv beta.
  apply hoare_if; intros _; [apply hoare_lift; intros s Hs; exact (IF _ _ Hs)|].
  eapply hoare_bind; [apply (initial_goals_stop fuel 0 [])|]. intros goals. cbv beta.
  eapply hoare_bind; [apply loop_stop|]. intros [[[total succ] fail] goals']. cbv beta. cbn [snd].
  eapply hoare_bind; [apply tree_kept|]. intros t'. cbv beta.
  intros s Hs. unfold ebind, lift. destruct (ExtractSolutionPaths t' goals') as [paths| | |] eqn:E; try exact (DF _ _ Hs).
  destruct (paths_some _ _ _ E) as [A B]. cbn. rewrite A. split; assumption.
Qed.
End Generic.

Section BiGeneric.
Context {S V : Type}.
Variable cb : birrt_callbacks S V.
Variables (I0 : bool -> V -> Prop) (Go M F : V -> Prop) (D : bool -> V -> Prop).
Notation tree := (list (rrt_node S)).
Notation on P := (fun s : tree * tree * V => P (snd s)).
Notation fails := (fun (_ : stop) (s : tree * tree * V) => F (snd s)).
Notation IG g := (fun v => I0 g v /\ Go v).
Hypothesis IF : forall g v, I0 g v -> F v.
Hypothesis MF : forall v, M v -> F v.
Hypothesis H_kind : forall g st gt a, hoare (IG g) (select_sample_type_fn cb st gt a) (fun _ => IG g) (fun _ => F).
Hypothesis H_state : forall g, hoare (IG g) (state_sampling_fn cb) (fun _ => IG g) (fun _ => F).
Hypothesis H_tree : forall g t a, hoare (IG g) (tree_sampling_fn cb t a) (fun _ => IG g) (fun _ => F).
Hypothesis H_near : forall g t s a, hoare (I0 g) (bi_nearest_neighbor_fn cb t s a) (fun _ => I0 g) (fun _ => F).
Hypothesis H_prop : forall g s x a, hoare (I0 g) (propagation_fn cb s x a) (fun _ => I0 g) (fun _ => F).
Hypothesis H_added : forall g f i, bi_state_added_callback_fn cb = Some f ->
  hoare (fun s => I0 g (snd s)) (f i) (fun _ s => I0 g (snd s)) (fun _ s => F (snd s)).
Hypothesis H_check : forall g s x a, hoare (I0 g) (states_connected_fn cb s x a) (fun b v => if b then M v else I0 g v) (fun _ => F).
Hypothesis H_goal : forall i, hoare (on M) (match goal_bridge_callback_fn cb with Some f => f i | None => ret tt end) (fun _ => on (I0 true)) fails.
Hypothesis H_swap : forall g st gt a, hoare (I0 g) (select_active_tree_fn cb st gt a) (fun _ => I0 g) (fun _ => F).
Hypothesis H_term : forall g n m, hoare (I0 g) (bi_termination_check_fn cb n m) (fun b v => if b then D g v else IG g v) (fun _ => F).

Lemma start_kept P : hoare (on P) (start_tree (S := S)) (fun _ => on P) fails.
Proof. intros [t v] H. exact H. Qed.
Lemma goal_kept P : hoare (on P) (goal_tree (S := S)) (fun _ => on P) fails.
Proof. intros [t v] H. exact H. Qed.
Lemma active_kept a P : hoare (on P) (active_of (S := S) a) (fun _ => on P) fails.
Proof. intros [t v] H. destruct a; exact H. Qed.
Lemma target_kept a P : hoare (on P) (target_of (S := S) a) (fun _ => on P) fails.
Proof. intros [t v] H. destruct a; exact H. Qed.
Lemma bi_look (P : V -> Prop) {A} (x : outcome A) : (forall v, P v -> F v) -> hoare (on P) (lift x) (fun _ => on P) fails.
Proof. intros PF. apply hoare_lift. intros s Hs. destruct x; auto. Qed.
Lemma bi_aside (P : V -> Prop) {A} (m : eff V A) Q : hoare P m Q (fun _ => F) -> hoare (on P) (on_snd (T := tree * tree) m) (fun a s => Q a (snd s)) fails.
Proof. intros H. apply hoare_snd. intros t. exact H. Qed.
Lemma active_run (P Q : V -> Prop) {A} a (m : eff (tree * V) A) : hoare (fun s => P (snd s)) m (fun _ s => Q (snd s)) (fun _ s => F (snd s)) ->
  hoare (on P) (on_active a m) (fun _ => on Q) fails.
Proof.
  intros H [[st gt] v] Hs. cbn in Hs. unfold on_active.
  destruct a; [pose proof (H (st, v) Hs) as K|pose proof (H (gt, v) Hs) as K].
  - destruct (m (st, v)) as [[x|e| |] [t' v']]; exact K.
  - destruct (m (gt, v)) as [[x|e| |] [t' v']]; exact K.
Qed.
Lemma bi_inside (P : V -> Prop) {A} (m : eff tree A) : (forall v, P v -> F v) -> hoare (fun s : tree * V => P (snd s)) (on_fst m) (fun _ s => P (snd s)) (fun _ s => F (snd s)).
Proof. intros PF. apply hoare_fst. intros v t Ht. cbn in *. destruct (m t) as [[a|e| |] t']; auto. Qed.

Lemma initial_inner_stop : forall fuel si gi bridges, hoare (on (I0 (some_of bridges))) (initial_bridges_inner cb fuel si gi bridges) (fun b => on (I0 (some_of b))) fails.
Proof.
  induction fuel as [|f IH]; intros si gi bridges; cbn [initial_bridges_inner].
  - eapply hoare_bind; [apply goal_kept|]. intros t. cbv beta. apply hoare_if; intros _; [apply hoare_lift; intros s Hs; exact (IF _ _ Hs)|]. now apply hoare_ret.
  - eapply hoare_bind; [apply goal_kept|]. intros t. cbv beta. apply hoare_if; intros _; [|now apply hoare_ret].
    eapply hoare_bind; [apply start_kept|]. intros st. cbv beta.
    eapply hoare_bind; [apply (bi_look _ _ (IF _))|]. intros sn. cbv beta. eapply hoare_bind; [apply (bi_look _ _ (IF _))|]. intros gn. cbv beta.
    eapply hoare_bind; [exact (bi_aside _ _ _ (H_check (some_of bridges) _ _ _))|]. intros [|]; cbv beta iota; [|apply IH].
    eapply hoare_bind; [apply (bi_look _ _ MF)|]. intros br. cbv beta.
    eapply hoare_bind with (Q := fun _ => on (I0 true)); [|intros _; rewrite <- (some_snoc bridges br); apply IH].
    pose proof (H_goal (si, gi, START_TREE)) as HG. unfold call. destruct (goal_bridge_callback_fn cb); [exact HG|]. apply hoare_lift. intros s Hs. exact (MF _ Hs).
Qed.
Lemma initial_bridges_stop : forall fuel si bridges, hoare (on (I0 (some_of bridges))) (initial_bridges cb fuel si bridges) (fun b => on (I0 (some_of b))) fails.
Proof.
  induction fuel as [|f IH]; intros si bridges; cbn [initial_bridges].
  - eapply hoare_bind; [apply start_kept|]. intros t. cbv beta. apply hoare_if; intros _; [apply hoare_lift; intros s Hs; exact (IF _ _ Hs)|]. now apply hoare_ret.
  - eapply hoare_bind; [apply start_kept|]. intros t. cbv beta. apply hoare_if; intros _; [|now apply hoare_ret].
    eapply hoare_bind; [apply initial_inner_stop|]. intros b. cbv beta. apply IH.
Qed.
Lemma add_bi_stop a target nearest : forall props mapping bridges, hoare (on (I0 (some_of bridges))) (add_bi_propagated cb a target nearest mapping props bridges) (fun b => on (I0 (some_of b))) fails.
Proof.
  induction props as [|[current relative] props IH]; intros mapping bridges; cbn [add_bi_propagated]; [now apply hoare_ret|].
  eapply hoare_bind with (Q := fun _ => on (I0 (some_of bridges))); [apply hoare_if; intros _; [apply (bi_look _ _ (IF _))|now apply hoare_ret]|]. intros p.
  eapply hoare_bind; [apply (active_run (I0 (some_of bridges)) (I0 (some_of bridges)) a), (bi_inside _ _ (IF _))|]. intros i. cbv beta zeta.
  eapply hoare_bind with (Q := fun _ => on (I0 (some_of bridges))).
  { destruct (bi_state_added_callback_fn cb) as [f|] eqn:E; [apply active_run; exact (H_added _ f (i, a) eq_refl)|now apply hoare_ret]. }
  intros _. destruct target as [[ti ts]|]; [|apply IH].
  eapply hoare_bind; [apply active_kept|]. intros t. cbv beta. eapply hoare_bind; [apply (bi_look _ _ (IF _))|]. intros n. cbv beta.
  eapply hoare_bind; [exact (bi_aside _ _ _ (H_check (some_of bridges) _ _ _))|]. intros [|]; cbv beta iota; [|apply IH].
  eapply hoare_bind with (Q := fun _ => on M); [destruct a; apply (bi_look _ _ MF)|]. intros br. cbv beta.
  eapply hoare_bind; [apply H_goal|]. intros u. cbv beta. rewrite <- (some_snoc bridges br). apply IH.
Qed.
Lemma bi_iteration_stop a c bridges : hoare (on (IG (some_of bridges))) (birrt_iteration cb a c bridges) (fun r => on (I0 (some_of (snd r)))) fails.
Proof.
  unfold birrt_iteration. destruct c as [si gi total succ fail swaps states sols]. cbv zeta.
  assert (IGF : forall g v, IG g v -> F v) by (intros g v [H _]; exact (IF _ _ H)).
  eapply hoare_bind; [apply (start_kept (IG (some_of bridges)))|]. intros st. cbv beta. eapply hoare_bind; [apply (goal_kept (IG (some_of bridges)))|]. intros gt. cbv beta.
  eapply hoare_bind; [exact (bi_aside _ _ _ (H_kind (some_of bridges) _ _ _))|]. intros kind. cbv beta.
  eapply hoare_bind with (Q := fun _ => on (IG (some_of bridges))).
  { destruct kind.
    - eapply hoare_bind; [apply (target_kept a (IG (some_of bridges)))|]. intros tt0. cbv beta. eapply hoare_bind; [exact (bi_aside _ _ _ (H_tree (some_of bridges) _ _))|]. intros i. cbv beta.
      eapply hoare_bind; [apply (bi_look (IG (some_of bridges)) _ (IGF _))|]. intros n. now apply hoare_ret.
    - eapply hoare_bind; [exact (bi_aside _ _ _ (H_state (some_of bridges)))|]. intros s. now apply hoare_ret. }
  intros [ts target]. apply (hoare_pre _ (on (I0 (some_of bridges)))); [|intros s [H _]; exact H].
  eapply hoare_bind; [apply active_kept|]. intros t. cbv beta. eapply hoare_bind; [exact (bi_aside _ _ _ (H_near (some_of bridges) _ _ _))|]. intros i. cbv beta.
  eapply hoare_bind; [apply (bi_look _ _ (IF _))|]. intros n. cbv beta. eapply hoare_bind; [exact (bi_aside _ _ _ (H_prop (some_of bridges) _ _ _))|]. intros props. cbv beta.
  eapply hoare_bind with (Q := fun r => on (I0 (some_of (snd r)))).
  { destruct props as [|p props]; [now apply hoare_ret|]. eapply hoare_bind; [apply add_bi_stop|]. intros b. now apply hoare_ret. }
  intros [[succ' fail'] bridges']. cbn [snd].
  eapply hoare_bind; [apply start_kept|]. intros st'. cbv beta. eapply hoare_bind; [apply goal_kept|]. intros gt'. cbv beta.
  eapply hoare_bind; [exact (bi_aside _ _ _ (H_swap (some_of bridges') _ _ _))|]. intros a'. now apply hoare_ret.
Qed.
Lemma bi_loop_stop : forall fuel a c bridges, hoare (on (I0 (some_of bridges))) (birrt_loop cb fuel a c bridges) (fun r => on (D (some_of (snd r)))) fails.
Proof.
  induction fuel as [|f IH]; intros a c bridges; cbn [birrt_loop].
  all: eapply hoare_bind; [apply start_kept|]; intros st; cbv beta; eapply hoare_bind; [apply goal_kept|]; intros gt; cbv beta.
  all: eapply hoare_bind; [exact (bi_aside _ _ _ (H_term (some_of bridges) _ _))|]; intros [|]; cbv beta iota; [now apply hoare_ret|].
  - apply hoare_lift. intros s [Hs _]. exact (IF _ _ Hs).
  - eapply hoare_bind; [apply bi_iteration_stop|]. intros [[a' c'] b']. apply IH.
Qed.
Lemma path_some (t : tree) g p : ExtractSolutionPath t g = Ok p -> p <> [].
Proof.
  unfold ExtractSolutionPath. destruct (GetTreeNode t g) as [n| | |]; try discriminate. cbn [bind].
  destruct (walk _ _ _) as [rest| | |]; try discriminate. cbn [bind]. intros E. injection E as <-. cbn [rev]. intros X. apply app_eq_nil in X as [_ X]. discriminate X.
Qed.
Lemma bridges_some (st gt : tree) bridges paths : bridge_paths st gt bridges = Ok paths -> some_of paths = some_of bridges /\ Forall (fun p => p <> []) paths.
Proof.
  revert paths. induction bridges as [|[si gi] bridges IH]; intros paths E; cbn [bridge_paths] in E; [injection E as <-; split; [reflexivity|constructor]|].
  destruct (ExtractSolutionPath st si) as [p| | |] eqn:Ep; try discriminate E. cbn [bind] in E.
  destruct (ExtractSolutionPath gt gi) as [q| | |] eqn:Eq; try discriminate E. cbn [bind] in E.
  destruct (bridge_paths st gt bridges) as [ps| | |]; try discriminate E. cbn [bind] in E. injection E as <-. split; [reflexivity|].
  constructor; [|now apply (IH ps)]. intros X. apply app_eq_nil in X as [X _]. exact (path_some _ _ _ Ep X).
Qed.
Hypothesis DF : forall g v, D g v -> F v.
Lemma bi_plan_stop fuel : hoare (on (I0 false)) (BiRRTPlanMultiPath cb fuel) (fun r s => D (some_of (fst r)) (snd s) /\ Forall (fun p => p <> []) (fst r)) fails.
Proof.
  unfold BiRRTPlanMultiPath. eapply hoare_bind; [apply start_kept|]. intros st. cbv beta.
  apply hoare_if; intros _; [apply hoare_lift; intros s Hs; exact (IF _ _ Hs)|].
  eapply hoare_bind; [apply goal_kept|]. intros gt. cbv beta.
  apply hoare_if; intros _; [apply hoare_lift; intros s Hs; exact (IF _ _ Hs)|].
  eapply hoare_bind; [apply (initial_bridges_stop fuel 0 [])|]. intros bridges. cbv beta.
  eapply hoare_bind; [apply bi_loop_stop|]. intros [c b']. cbv beta. cbn [snd].
  eapply hoare_bind; [apply start_kept|]. intros st'. cbv beta. eapply hoare_bind; [apply goal_kept|]. intros gt'. cbv beta.
  intros s Hs. unfold ebind, lift. destruct (bridge_paths st' gt' b') as [paths| | |] eqn:E; try exact (DF _ _ Hs).
  destruct (bridges_some _ _ _ _ E) as [A B]. cbn. rewrite A. split; assumption.
Qed.
End BiGeneric.

(** Logs. *)
Definition goal_in (log : list moment) : bool := existsb (fun m => match m with GoalSeen => true | _ => false end) log.
Lemma goal_in_iff log : goal_in log = true <-> In GoalSeen log.
Proof.
  unfold goal_in. rewrite existsb_exists. split; [intros (m & I & E); now destruct m|intros I; now exists GoalSeen].
Qed.
Lemma goal_snoc log m : goal_in (log ++ [m]) = goal_in log || match m with GoalSeen => true | _ => false end.
Proof. unfold goal_in. rewrite existsb_app. cbn. now rewrite orb_false_r. Qed.
Lemma snoc_split {A} (l pre post : list A) x y : l ++ [x] = pre ++ y :: post -> (post = [] /\ x = y /\ l = pre) \/ exists post', post = post' ++ [x] /\ l = pre ++ y :: post'.
Proof.
  intros E. destruct post as [|z post] using rev_ind.
  - left. apply app_inj_tail in E as [E1 E2]. auto.
  - right. exists post. rewrite app_comm_cons, app_assoc in E. apply app_inj_tail in E as [E1 E2]. subst. auto.
Qed.
Lemma after_ok log m : no_sample_after_goal log -> (m = Sampled -> goal_in log = false) -> no_sample_after_goal (log ++ [m]).
Proof.
  intros N G pre post E I. apply snoc_split in E as [(-> & _ & _)|(post' & -> & E)]; [destruct I|].
  apply in_app_iff in I as [I|[->|[]]]; [exact (N pre post' E I)|]. specialize (G eq_refl).
  assert (X : goal_in log = true) by (apply goal_in_iff; rewrite E; apply in_app_iff; right; now left). congruence.
Qed.

(** Recording callbacks. *)
Section Recording.
Context {W : Type}.
Notation world := (W * list moment)%type.
Lemma keep_log {A} (m : eff W A) (P : list moment -> Prop) : hoare (fun w : world => P (snd w)) (on_fst m) (fun _ w => P (snd w)) (fun _ w => P (snd w)).
Proof. intros [w l] H. unfold on_fst. cbn [fst snd] in *. destruct (m w) as [[a|e| |] w']; exact H. Qed.
Lemma keep_beside {T A} (m : eff (T * W) A) (P : list moment -> Prop) :
  hoare (fun s : T * world => P (snd (snd s))) (beside m) (fun _ s => P (snd (snd s))) (fun _ s => P (snd (snd s))).
Proof. intros [t [w l]] H. unfold beside. cbn [snd] in *. destruct (m (t, w)) as [[a|e| |] [t' w']]; exact H. Qed.
Lemma noting_spec {A} m (f : eff W A) (P Q : list moment -> Prop) : (forall l, P l -> Q (l ++ [m])) ->
  hoare (fun w : world => P (snd w)) (noting m f) (fun _ w => Q (snd w)) (fun _ w => Q (snd w)).
Proof.
  intros H. unfold noting. eapply hoare_bind with (Q := fun _ w => Q (snd w)); [|intros _; apply keep_log].
  intros [w l] Hs. cbn. auto.
Qed.
Lemma noting_yes_spec m (f : eff W bool) (P Q E : list moment -> Prop) : (forall l, P l -> Q (l ++ [m])) -> (forall l, P l -> E l) ->
  hoare (fun w : world => P (snd w)) (noting_yes m f) (fun b w => if b then Q (snd w) else P (snd w)) (fun _ w => E (snd w)).
Proof.
  intros H PE [w l] Hs. unfold noting_yes, ebind, on_fst, note, ret. cbn [fst snd] in *. destruct (f w) as [[[|]|e| |] w']; cbn; auto.
Qed.
End Recording.

(** ** Conditions on logs *)
Lemma stop_last_none log : ~ In ToldToStop log -> stop_last log.
Proof. intros N pre post ->. exfalso. apply N, in_app_iff. right. now left. Qed.
Lemma stop_last_snoc log : ~ In ToldToStop log -> stop_last (log ++ [ToldToStop]).
Proof.
  intros N pre post E. apply snoc_split in E as [(-> & _ & _)|(post' & _ & ->)]; [reflexivity|]. exfalso. apply N, in_app_iff. right. now left.
Qed.
Lemma no_stop_snoc log m : ~ In ToldToStop log -> m <> ToldToStop -> ~ In ToldToStop (log ++ [m]).
Proof. intros N D I. apply in_app_iff in I as [I|[->|[]]]; [exact (N I)|now apply D]. Qed.

(** Multi-path planning. *)
Definition m_inv (g : bool) (log : list moment) : Prop := g = goal_in log /\ ~ In ToldToStop log.
Definition m_seen (log : list moment) : Prop := goal_in log = true /\ ~ In ToldToStop log.
Definition m_done (g : bool) (log : list moment) : Prop := g = goal_in log /\ exists pre, log = pre ++ [ToldToStop] /\ ~ In ToldToStop pre.
Lemma m_sample g l : m_inv g l -> m_inv g (l ++ [Sampled]).
Proof. intros [A B]. split; [rewrite goal_snoc, orb_false_r; exact A|apply no_stop_snoc; [exact B|discriminate]]. Qed.
Lemma m_goal g l : m_inv g l -> m_seen (l ++ [GoalSeen]).
Proof. intros [A B]. split; [rewrite goal_snoc; apply orb_true_r|apply no_stop_snoc; [exact B|discriminate]]. Qed.
Lemma m_stop g l : m_inv g l -> m_done g (l ++ [ToldToStop]).
Proof. intros [A B]. split; [rewrite goal_snoc, orb_false_r; exact A|]. now exists l. Qed.
Lemma m_last g l : m_inv g l -> stop_last l.
Proof. intros [_ B]. now apply stop_last_none. Qed.
Lemma m_seen_last l : m_seen l -> stop_last l.
Proof. intros [_ B]. now apply stop_last_none. Qed.
Lemma m_done_last g l : m_done g l -> stop_last l.
Proof. intros (_ & pre & -> & N). now apply stop_last_snoc. Qed.
Lemma m_seen_inv l : m_seen l -> m_inv true l.
Proof. intros [A B]. split; [now symmetry|exact B]. Qed.

(** Single-path planning: [found] is solution_found. *)
Definition s_inv (g found : bool) (log : list moment) : Prop := no_sample_after_goal log /\ found = goal_in log /\ m_inv g log.
Definition s_seen (log : list moment) : Prop := no_sample_after_goal log /\ m_seen log.
Definition s_done (g : bool) (log : list moment) : Prop :=
  no_sample_after_goal log /\ g = goal_in log /\ stop_last log /\ (g = false -> exists pre, log = pre ++ [ToldToStop]) /\ (g = true -> ~ In ToldToStop log).
Lemma s_sample g l : s_inv g false l -> s_inv g false (l ++ [Sampled]).
Proof.
  intros (N & Fo & I). split; [apply after_ok; [exact N|now intros _; symmetry]|]. split; [rewrite goal_snoc, orb_false_r; exact Fo|now apply m_sample].
Qed.
Lemma s_goal g found l : s_inv g found l -> s_seen (l ++ [GoalSeen]).
Proof. intros (N & Fo & I). split; [apply after_ok; [exact N|discriminate]|exact (m_goal g l I)]. Qed.
Lemma s_stop g found l : s_inv g found l -> found = false -> s_done g (l ++ [ToldToStop]).
Proof.
  intros (N & Fo & I) E. split; [apply after_ok; [exact N|discriminate]|]. destruct I as [A B].
  split; [rewrite goal_snoc, orb_false_r; exact A|]. split; [now apply stop_last_snoc|]. split; [intros _; now exists l|congruence].
Qed.
Lemma s_found g l : s_inv g true l -> s_done g l.
Proof.
  intros (N & Fo & [A B]). split; [exact N|]. split; [exact A|]. split; [now apply stop_last_none|]. split; [congruence|intros _; exact B].
Qed.
Lemma s_seen_inv l : s_seen l -> s_inv true true l.
Proof. intros [N S]. split; [exact N|]. split; [symmetry; apply S|now apply m_seen_inv]. Qed.

(** ** The planners *)
Section Planners.
Context {S Sample W : Type}.
Notation tree := (list (rrt_node S)).
Notation world := (W * list moment)%type.

Theorem rrt_multi (cb : rrt_callbacks S Sample W) fuel (t : tree) w r t' w' log :
  RRTPlanMultiPath (recorded cb) fuel (t, (w, [])) = (r, (t', (w', log))) ->
  stop_last log /\ forall paths stats, r = Ok (paths, stats) ->
    (exists pre, log = pre ++ [ToldToStop]) /\ (paths <> [] <-> In GoalSeen log) /\ Forall (fun p => p <> []) paths.
Proof.
  intros E.
  pose proof (plan_stop (recorded cb) (fun g (v : world) => m_inv g (snd v)) (fun _ => True) (fun v => m_seen (snd v)) (fun v => stop_last (snd v)) (fun g v => m_done g (snd v))) as P.
  specialize (P (fun g v => m_last g (snd v)) (fun v => m_seen_last (snd v))).
  assert (P1 := P ltac:(intros g; eapply hoare_weaken; [exact (noting_spec Sampled (sampling_fn cb) (m_inv g) (m_inv g) (m_sample g))|intros s [H _]; exact H|auto|intros e s H; exact (m_last _ _ H)])).
  assert (P2 := P1 ltac:(intros g x s; eapply hoare_weaken; [exact (keep_log _ (m_inv g))|auto|auto|intros e v H; exact (m_last _ _ H)])).
  assert (P3 := P2 ltac:(intros g x s; eapply hoare_weaken; [exact (keep_log _ (m_inv g))|auto|auto|intros e v H; exact (m_last _ _ H)])).
  assert (P4 := P3 ltac:(intros g f i Ef; cbn in Ef; destruct (state_added_callback_fn cb) as [f0|]; [|discriminate]; injection Ef as <-; eapply hoare_weaken; [exact (keep_beside (f0 i) (m_inv g))|auto|auto|intros e v H; exact (m_last _ _ H)])).
  assert (P5 := P4 ltac:(intros g s; exact (noting_yes_spec GoalSeen (check_goal_reached_fn cb s) (m_inv g) m_seen stop_last (m_goal g) (m_last g)))).
  assert (P6 := P5 ltac:(intros i; cbn [goal_reached_callback_fn recorded]; destruct (goal_reached_callback_fn cb) as [f0|]; cbn [option_map];
    [eapply hoare_weaken; [exact (keep_beside (f0 i) m_seen)|auto|intros u v H; exact (m_seen_inv _ H)|intros e v H; exact (m_seen_last _ H)]|apply hoare_ret; intros v H; exact (m_seen_inv _ H)])).
  assert (P7 := P6 ltac:(intros g n; eapply hoare_post; [exact (noting_yes_spec ToldToStop (termination_check_fn cb n) (m_inv g) (m_done g) stop_last (m_stop g) (m_last g))|intros [|] v H; auto])).
  assert (P8 := P7 (fun g v => m_done_last g (snd v)) fuel (t, (w, [])) (conj eq_refl (fun x => x))).
  rewrite E in P8. destruct r as [[paths stats]|e| |]; cbn [fst snd] in P8.
  - destruct P8 as [DN FA]. split; [exact (m_done_last _ _ DN)|]. intros paths' stats' Er. injection Er as <- <-. destruct DN as (G & pre & -> & N).
    split; [now exists pre|]. split; [|exact FA]. rewrite <- goal_in_iff, <- G. destruct paths; cbn; split; congruence.
  - split; [exact P8|discriminate].
  - split; [exact P8|discriminate].
  - split; [exact P8|discriminate].
Qed.

Theorem bi_multi (cb : birrt_callbacks S W) fuel (st gt : tree) w r st' gt' w' log :
  BiRRTPlanMultiPath (bi_recorded cb) fuel ((st, gt), (w, [])) = (r, ((st', gt'), (w', log))) ->
  stop_last log /\ forall paths stats, r = Ok (paths, stats) ->
    (exists pre, log = pre ++ [ToldToStop]) /\ (paths <> [] <-> In GoalSeen log) /\ Forall (fun p => p <> []) paths.
Proof.
  intros E.
  pose proof (bi_plan_stop (bi_recorded cb) (fun g (v : world) => m_inv g (snd v)) (fun _ => True) (fun v => m_seen (snd v)) (fun v => stop_last (snd v)) (fun g v => m_done g (snd v))) as P.
  specialize (P (fun g v => m_last g (snd v)) (fun v => m_seen_last (snd v))).
  assert (HS : forall A g (f : eff W A), hoare (fun v : world => m_inv g (snd v) /\ True) (noting Sampled f) (fun _ v => m_inv g (snd v) /\ True) (fun _ v => stop_last (snd v))).
  { intros A g f. eapply hoare_weaken; [exact (noting_spec Sampled f (m_inv g) (m_inv g) (m_sample g))|intros s [H _]; exact H|auto|intros e s H; exact (m_last _ _ H)]. }
  assert (HK : forall A g (f : eff W A), hoare (fun v : world => m_inv g (snd v)) (on_fst f) (fun _ v => m_inv g (snd v)) (fun _ v => stop_last (snd v))).
  { intros A g f. eapply hoare_weaken; [exact (keep_log _ (m_inv g))|auto|auto|intros e v H; exact (m_last _ _ H)]. }
  specialize (P (fun g st gt a => HS _ g _) (fun g => HS _ g _) (fun g t a => HS _ g _) (fun g t s a => HK _ g _) (fun g t s a => HK _ g _)).
  assert (P4 := P ltac:(intros g f i Ef; cbn in Ef; destruct (bi_state_added_callback_fn cb) as [f0|]; [|discriminate]; injection Ef as <-; eapply hoare_weaken; [exact (keep_beside (f0 i) (m_inv g))|auto|auto|intros e v H; exact (m_last _ _ H)])).
  assert (P5 := P4 ltac:(intros g s x a; exact (noting_yes_spec GoalSeen (states_connected_fn cb s x a) (m_inv g) m_seen stop_last (m_goal g) (m_last g)))).
  assert (P6 := P5 ltac:(intros i; cbn [goal_bridge_callback_fn bi_recorded]; destruct (goal_bridge_callback_fn cb) as [f0|]; cbn [option_map];
    [eapply hoare_weaken; [exact (keep_beside (f0 i) m_seen)|auto|intros u v H; exact (m_seen_inv _ H)|intros e v H; exact (m_seen_last _ H)]|apply hoare_ret; intros v H; exact (m_seen_inv _ H)])).
  specialize (P6 (fun g st gt a => HK _ g _)).
  assert (P7 := P6 ltac:(intros g n m; eapply hoare_post; [exact (noting_yes_spec ToldToStop (bi_termination_check_fn cb n m) (m_inv g) (m_done g) stop_last (m_stop g) (m_last g))|intros [|] v H; auto])).
  assert (P8 := P7 (fun g v => m_done_last g (snd v)) fuel ((st, gt), (w, [])) (conj eq_refl (fun x => x))).
  rewrite E in P8. destruct r as [[paths stats]|e| |]; cbn [fst snd] in P8.
  - destruct P8 as [DN FA]. split; [exact (m_done_last _ _ DN)|]. intros paths' stats' Er. injection Er as <- <-. destruct DN as (G & pre & -> & N).
    split; [now exists pre|]. split; [|exact FA]. rewrite <- goal_in_iff, <- G. destruct paths; cbn; split; congruence.
  - split; [exact P8|discriminate].
  - split; [exact P8|discriminate].
  - split; [exact P8|discriminate].
Qed.

(** Single-path planning. *)
Notation flagged := (world * bool)%type.
Definition s_fine (log : list moment) : Prop := no_sample_after_goal log /\ stop_last log.
Lemma s_inv_fine g f l : s_inv g f l -> s_fine l.
Proof. intros (N & _ & I). split; [exact N|exact (m_last _ _ I)]. Qed.
Lemma s_seen_fine l : s_seen l -> s_fine l.
Proof. intros (N & I). split; [exact N|exact (m_seen_last _ I)]. Qed.
Lemma s_done_fine g l : s_done g l -> s_fine l.
Proof. intros (N & _ & L & _). split; assumption. Qed.
Notation sI := (fun g (v : flagged) => s_inv g (snd v) (snd (fst v))).
Notation sGo := (fun v : flagged => snd v = false).
Notation sM := (fun v : flagged => s_seen (snd (fst v))).
Notation sF := (fun v : flagged => s_fine (snd (fst v))).
Notation sD := (fun g (v : flagged) => s_done g (snd (fst v))).
Lemma s_keep {A} g (f : eff W A) : hoare (sI g) (on_fst (on_fst f)) (fun _ => sI g) (fun _ => sF).
Proof.
  apply hoare_fst. intros b. cbn [fst snd]. eapply hoare_weaken; [exact (keep_log f (s_inv g b))|auto|auto|]. intros e v H. exact (s_inv_fine _ _ _ H).
Qed.
Lemma s_asks {A} g (f : eff W A) : hoare (fun v => sI g v /\ sGo v) (on_fst (noting Sampled f)) (fun _ v => sI g v /\ sGo v) (fun _ => sF).
Proof.
  apply hoare_fst. intros b. cbn [fst snd].
  eapply hoare_weaken; [exact (noting_spec Sampled f (fun l => s_inv g b l /\ b = false) (fun l => s_inv g b l /\ b = false) ltac:(intros l [H ->]; split; [now apply s_sample|reflexivity]))|auto|auto|].
  intros e v [H _]. exact (s_inv_fine _ _ _ H).
Qed.
Lemma s_checks g (f : eff W bool) : hoare (sI g) (on_fst (noting_yes GoalSeen f)) (fun b v => if b then sM v else sI g v) (fun _ => sF).
Proof.
  apply hoare_fst. intros b. cbn [fst snd]. exact (noting_yes_spec GoalSeen f (s_inv g b) s_seen s_fine (s_goal g b) (s_inv_fine g b)).
Qed.
Lemma s_beside {T A} (P : bool -> list moment -> Prop) (f : eff (T * W) A) : (forall b l, P b l -> s_fine l) ->
  hoare (fun s : T * flagged => P (snd (snd s)) (snd (fst (snd s)))) (beside (beside f)) (fun _ s => P (snd (snd s)) (snd (fst (snd s)))) (fun _ s => sF (snd s)).
Proof.
  intros PF [t [[w l] b]] H. unfold beside. cbn [fst snd] in *. destruct (f (t, w)) as [[a|e| |] [t' w']]; cbn [fst snd]; [exact H|exact (PF _ _ H)..].
Qed.
Lemma s_sets {T} (f : option (eff (T * W) unit)) :
  hoare (fun s : T * flagged => sM (snd s)) (run _ <- on_snd (on_snd (put true)); match f with Some f => beside (beside f) | None => ret tt end)
    (fun _ s => sI true (snd s)) (fun _ s => sF (snd s)).
Proof.
  eapply hoare_bind with (Q := fun _ s => sI true (snd s) /\ snd (snd s) = true).
  - intros [t [[w l] b]] H. cbn in *. split; [exact (s_seen_inv _ H)|reflexivity].
  - intros u. destruct f as [f|].
    + eapply hoare_weaken; [exact (s_beside (fun b l => s_inv true b l /\ b = true) f ltac:(intros b l [H _]; exact (s_inv_fine _ _ _ H)))|auto| |auto]. intros a s [H _]. exact H.
    + apply hoare_ret. intros s [H _]. exact H.
Qed.
Lemma s_ends g (f : eff W bool) : hoare (sI g) (run found <- on_snd get; if found : bool then ret true else on_fst (noting_yes ToldToStop f))
  (fun b v => if b then sD g v else sI g v /\ sGo v) (fun _ => sF).
Proof.
  intros [[w l] b] H. cbn [fst snd] in H. unfold ebind, on_snd, get. cbn [fst snd]. destruct b.
  - cbn. exact (s_found _ _ H).
  - unfold on_fst at 1. cbn [fst snd].
    pose proof (noting_yes_spec ToldToStop f (s_inv g false) (s_done g) s_fine (fun l H => s_stop g false l H eq_refl) (s_inv_fine g false) (w, l) H) as K.
    destruct (noting_yes ToldToStop f (w, l)) as [[[|]|e| |] [w' l']]; cbn [fst snd] in *; auto.
Qed.
Lemma s_nothing : no_sample_after_goal [].
Proof. intros pre post E. destruct pre; discriminate E. Qed.

Theorem rrt_single (cb : rrt_callbacks S Sample W) fuel (t : tree) w r t' w' log :
  RRTPlanSinglePath (recorded cb) fuel (t, (w, [])) = (r, (t', (w', log))) ->
  no_sample_after_goal log /\ stop_last log /\ forall path stats, r = Ok (path, stats) ->
    (path <> [] <-> In GoalSeen log) /\ (path = [] <-> exists pre, log = pre ++ [ToldToStop]).
Proof.
  intros E. unfold RRTPlanSinglePath in E. cbn [fst snd] in E.
  pose proof (plan_stop (single_callbacks (recorded cb)) sI sGo sM sF sD) as P.
  specialize (P (fun g v => s_inv_fine g (snd v) (snd (fst v))) (fun v => s_seen_fine (snd (fst v)))).
  assert (P1 := P (fun g => hoare_post _ _ _ _ _ (s_asks g (sampling_fn cb)) (fun a s H => proj1 H))).
  specialize (P1 (fun g t s => s_keep g _) (fun g s x => s_keep g _)).
  assert (P2 := P1 ltac:(intros g f i Ef; cbn in Ef; destruct (state_added_callback_fn cb) as [f0|]; [|discriminate]; cbn in Ef; injection Ef as <-;
     exact (s_beside (s_inv g) (f0 i) (s_inv_fine g)))).
  specialize (P2 (fun g s => s_checks g _)).
  assert (P3 := P2 ltac:(intros i; cbn [goal_reached_callback_fn single_callbacks recorded];
     destruct (goal_reached_callback_fn cb) as [f0|]; cbn [option_map]; [exact (s_sets (Some (f0 i)))|exact (s_sets None)])).
  specialize (P3 (fun g n => s_ends g _) (fun g v => s_done_fine g (snd (fst v))) fuel (t, ((w, []), false)) (conj s_nothing (conj eq_refl (conj eq_refl (fun x => x))))).
  destruct (RRTPlanMultiPath _ fuel _) as [r0 [t0 [w0 b0]]]. injection E as <- <- ->.
  destruct r0 as [[paths stats]|e| |]; cbn [fst snd bind] in *.
  - destruct P3 as [(N & G & L & NS & NG) FA]. split; [exact N|]. split; [exact L|]. intros p st Er. injection Er as <- <-.
    rewrite <- goal_in_iff, <- G. destruct paths as [|p paths]; cbn [some_of] in *.
    + split; [split; congruence|]. split; [intros _; now apply NS|reflexivity].
    + apply Forall_cons_iff in FA as [FA _]. split; [split; [reflexivity|intros _; exact FA]|]. split; [intros X; now destruct (FA X)|].
      intros [pre X]. exfalso. apply (NG eq_refl). rewrite X. apply in_app_iff. right. now left.
  - destruct P3 as [A B]. split; [exact A|]. split; [exact B|discriminate].
  - destruct P3 as [A B]. split; [exact A|]. split; [exact B|discriminate].
  - destruct P3 as [A B]. split; [exact A|]. split; [exact B|discriminate].
Qed.
Theorem bi_single (cb : birrt_callbacks S W) fuel (st gt : tree) w r st' gt' w' log :
  BiRRTPlanSinglePath (bi_recorded cb) fuel ((st, gt), (w, [])) = (r, ((st', gt'), (w', log))) ->
  no_sample_after_goal log /\ stop_last log /\ forall path stats, r = Ok (path, stats) ->
    (path <> [] <-> In GoalSeen log) /\ (path = [] <-> exists pre, log = pre ++ [ToldToStop]).
Proof.
  intros E. unfold BiRRTPlanSinglePath in E. cbn [fst snd] in E.
  pose proof (bi_plan_stop (bi_single_callbacks (bi_recorded cb)) sI sGo sM sF sD) as P.
  specialize (P (fun g v => s_inv_fine g (snd v) (snd (fst v))) (fun v => s_seen_fine (snd (fst v)))).
  specialize (P (fun g st gt a => s_asks g _) (fun g => s_asks g _) (fun g t a => s_asks g _) (fun g t s a => s_keep g _) (fun g s x a => s_keep g _)).
  assert (P2 := P ltac:(intros g f i Ef; cbn in Ef; destruct (bi_state_added_callback_fn cb) as [f0|]; [|discriminate]; cbn in Ef; injection Ef as <-;
     exact (s_beside (s_inv g) (f0 i) (s_inv_fine g)))).
  specialize (P2 (fun g s x a => s_checks g _)).
  assert (P3 := P2 ltac:(intros i; cbn [goal_bridge_callback_fn bi_single_callbacks bi_recorded];
     destruct (goal_bridge_callback_fn cb) as [f0|]; cbn [option_map]; [exact (s_sets (Some (f0 i)))|exact (s_sets None)])).
  specialize (P3 (fun g st gt a => s_keep g _) (fun g n m => s_ends g _) (fun g v => s_done_fine g (snd (fst v))) fuel ((st, gt), ((w, []), false)) (conj s_nothing (conj eq_refl (conj eq_refl (fun x => x))))).
  destruct (BiRRTPlanMultiPath _ fuel _) as [r0 [t0 [w0 b0]]]. injection E as <- -> ->.
  destruct r0 as [[paths stats]|e| |]; cbn [fst snd bind] in *.
  - destruct P3 as [(N & G & L & NS & NG) FA]. split; [exact N|]. split; [exact L|]. intros p s Er. injection Er as <- <-.
    rewrite <- goal_in_iff, <- G. destruct paths as [|p paths]; cbn [some_of] in *.
    + split; [split; congruence|]. split; [intros _; now apply NS|reflexivity].
    + apply Forall_cons_iff in FA as [FA _]. split; [split; [reflexivity|intros _; exact FA]|]. split; [intros X; now destruct (FA X)|].
      intros [pre X]. exfalso. apply (NG eq_refl). rewrite X. apply in_app_iff. right. now left.
  - destruct P3 as [A B]. split; [exact A|]. split; [exact B|discriminate].
  - destruct P3 as [A B]. split; [exact A|]. split; [exact B|discriminate].
  - destruct P3 as [A B]. split; [exact A|]. split; [exact B|discriminate].
Qed.
End Planners.
