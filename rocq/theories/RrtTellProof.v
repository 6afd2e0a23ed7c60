(** What the planners tell their callbacks (C188). *)
From Verif Require Import Base Effect ParallelismModel ParallelismProof RrtModel RrtSpec RrtProof RrtPlan RrtPlan2 RrtTellSpec.
Local Open Scope Z_scope.

(** ** Logs *)
Lemma nodes_added_app l l' : nodes_added (l ++ l') = nodes_added l ++ nodes_added l'.
Proof. induction l as [|[i|i] l IH]; cbn; [reflexivity|now rewrite IH|exact IH]. Qed.
Lemma solutions_told_app l l' : solutions_told (l ++ l') = solutions_told l ++ solutions_told l'.
Proof. induction l as [|[i|i] l IH]; cbn; [reflexivity|exact IH|now rewrite IH]. Qed.
Lemma bi_nodes_added_app a l l' : bi_nodes_added a (l ++ l') = bi_nodes_added a l ++ bi_nodes_added a l'.
Proof. induction l as [|[i [|]|i j b] l IH]; cbn; [reflexivity| | |exact IH]; destruct a; cbn; now rewrite IH. Qed.
Lemma bridges_told_app l l' : bridges_told (l ++ l') = bridges_told l ++ bridges_told l'.
Proof. induction l as [|[i b|i j b] l IH]; cbn; [reflexivity|exact IH|now rewrite IH]. Qed.
Lemma snoc_cut {A} (l pre post : list A) x y : l ++ [x] = pre ++ y :: post ->
  (post = [] /\ x = y /\ l = pre) \/ exists post', post = post' ++ [x] /\ l = pre ++ y :: post'.
Proof.
  intros E. destruct post as [|z post] using rev_ind.
  - left. apply app_inj_tail in E as [E1 E2]. auto.
  - right. exists post. rewrite app_comm_cons, app_assoc in E. apply app_inj_tail in E as [E1 E2]. subst. auto.
Qed.
Lemma in_order_added n l i : told_in_order n l -> told_in_order n (l ++ [Added i]).
Proof. intros H pre j post E. apply snoc_cut in E as [(_ & E & _)|(post' & _ & E)]; [discriminate|exact (H pre j post' E)]. Qed.
Lemma in_order_reached n l i : told_in_order n l -> ((0 <= i < n /\ nodes_added l = []) \/ exists l', l = l' ++ [Added i]) -> told_in_order n (l ++ [Reached i]).
Proof. intros H K pre j post E. apply snoc_cut in E as [(_ & E & ->)|(post' & _ & E)]; [injection E as ->; exact K|exact (H pre j post' E)]. Qed.
Lemma bi_order_added n m l i a : bi_told_in_order n m l -> bi_told_in_order n m (l ++ [BiAdded i a]).
Proof. intros H pre si gi b post E. apply snoc_cut in E as [(_ & E & _)|(post' & _ & E)]; [discriminate|exact (H pre si gi b post' E)]. Qed.
Lemma bi_order_bridged n m l si gi a : bi_told_in_order n m l ->
  ((0 <= si < n /\ 0 <= gi < m /\ a = START_TREE /\ bi_nodes_added START_TREE l = [] /\ bi_nodes_added GOAL_TREE l = []) \/
   exists l', l = l' ++ [BiAdded (match a with START_TREE => si | GOAL_TREE => gi end) a]) -> bi_told_in_order n m (l ++ [Bridged si gi a]).
Proof. intros H K pre s g b post E. apply snoc_cut in E as [(_ & E & ->)|(post' & _ & E)]; [injection E as -> -> ->; exact K|exact (H pre s g b post' E)]. Qed.

Lemma ok_hoare {S A} (m : eff S A) (P : S -> Prop) (Q : A -> S -> Prop) : (forall s a s', P s -> m s = (Ok a, s') -> Q a s') -> hoare P m Q any.
Proof. intros H s Hs. unfold any. destruct (m s) as [[a|e| |] s'] eqn:E; try exact I. exact (H s a s' Hs E). Qed.
Lemma numbers_one n m : n <= m -> numbers n (m + 1) = numbers n m ++ [m].
Proof. intros H. unfold numbers. replace (Z.to_nat (m + 1 - n)) with (Z.to_nat (m - n) + 1)%nat by lia. rewrite seq_app, map_app. cbn. f_equal. f_equal. lia. Qed.

Section Generic.
Context {S Sample V : Type}.
Variable cb : rrt_callbacks S Sample V.
Variable log : V -> list report.
Variable all : bool.
Notation tree := (list (rrt_node S)).
Notation world := (tree * V)%type.
Definition silent {A} (m : eff V A) : Prop := forall v a v', m v = (Ok a, v') -> log v' = log v.
Definition tells (e : report) (m : eff world unit) : Prop :=
  forall s u s', m s = (Ok u, s') -> log (snd s') = log (snd s) ++ [e] /\ (all = true -> fst s' = fst s).
Hypothesis Q_sample : silent (sampling_fn cb).
Hypothesis Q_near : forall t s, silent (nearest_neighbor_fn cb t s).
Hypothesis Q_prop : forall s x, silent (forward_propagation_fn cb s x).
Hypothesis Q_check : forall s, silent (check_goal_reached_fn cb s).
Hypothesis Q_term : forall n, silent (termination_check_fn cb n).
Hypothesis T_added : forall f i, state_added_callback_fn cb = Some f -> tells (Added i) (f i).
Hypothesis T_all : all = true -> state_added_callback_fn cb <> None.
Variable goal_fn : Z -> eff world unit.
Hypothesis G_some : goal_reached_callback_fn cb = Some goal_fn.
Hypothesis T_goal : forall i, tells (Reached i) (goal_fn i).
Variable n0 : Z.

(** [n]: the nodes told so far; [last]: the last thing told was node n - 1. *)
Definition kept (goals : list Z) (n : Z) (l : list report) : Prop :=
  solutions_told l = goals /\ (all = true -> n0 <= n /\ nodes_added l = numbers n0 n /\ told_in_order n0 l).
Definition J (goals : list Z) (s : world) : Prop := kept goals (TreeSize (fst s)) (log (snd s)).

Lemma aside_J {A} (m : eff V A) (P : list report -> tree -> Prop) : silent m ->
  hoare (fun s : world => P (log (snd s)) (fst s)) (on_snd m) (fun _ s => P (log (snd s)) (fst s)) any.
Proof.
  intros Q. apply ok_hoare. intros [t v] a [t' v'] H E. unfold on_snd in E. cbn [fst snd] in *.
  destruct (m v) as [r v1] eqn:Em. injection E as -> <- <-. now rewrite (Q _ _ _ Em).
Qed.
Lemma look_J {A} (x : outcome A) (P : world -> Prop) : hoare P (lift x) (fun _ => P) any.
Proof. apply ok_hoare. intros s a s' H E. injection E as _ <-. exact H. Qed.
Lemma tree_J (P : world -> Prop) : hoare P (the_tree : eff world tree) (fun t s => t = fst s /\ P s) any.
Proof. apply ok_hoare. intros s a s' H E. injection E as <- <-. auto. Qed.
Lemma tree_J' (P : world -> Prop) : hoare P (the_tree : eff world tree) (fun _ => P) any.
Proof. eapply hoare_post; [apply tree_J|]. intros a s [_ H]. exact H. Qed.

Lemma initial_tell : forall fuel idx goals, 0 <= idx ->
  hoare (fun s => J goals s /\ (all = true -> TreeSize (fst s) = n0)) (initial_goals cb fuel idx goals) (fun goals' => J goals') any.
Proof.
  induction fuel as [|f IH]; intros idx goals Hi; cbn [initial_goals]; (eapply hoare_bind; [apply tree_J|]); intros t; cbv beta.
  - apply hoare_if; intros _; [intros ? ?; exact I|]. apply hoare_ret. intros s H. apply H.
  - apply hoare_if; intros Hb; [|apply hoare_ret; intros s H; apply H].
    eapply hoare_bind; [apply look_J|]. intros n. cbv beta.
    eapply hoare_bind; [apply (aside_J _ (fun l t' => t = t' /\ kept goals (TreeSize t') l /\ (all = true -> TreeSize t' = n0)) (Q_check _))|].
    intros [|]; cbv beta iota; [|eapply hoare_pre; [apply IH; lia|]; intros s [_ H]; exact H].
    rewrite G_some. cbn [call].
    eapply hoare_bind with (Q := fun _ s => J (goals ++ [idx]) s /\ (all = true -> TreeSize (fst s) = n0)); [|intros _; apply IH; lia].
    apply ok_hoare. intros s u s' [Et [[K1 K2] Hn]] E. destruct (T_goal _ _ _ _ E) as [L R]. unfold J, kept. rewrite L, solutions_told_app, nodes_added_app, K1. cbn.
    split; [|intros Ha; rewrite R; auto]. split; [reflexivity|]. intros Ha. rewrite R by exact Ha. destruct (K2 Ha) as (A & B & C). specialize (Hn Ha).
    rewrite app_nil_r. split; [exact A|]. split; [exact B|]. apply in_order_reached; [exact C|]. left. subst t. apply Z.ltb_lt in Hb.
    split; [lia|]. rewrite B, Hn. unfold numbers. now rewrite Z.sub_diag.
Qed.

Lemma add_tell nearest : forall props mapping goals, hoare (J goals) (add_propagated cb nearest mapping props goals) (fun goals' => J goals') any.
Proof.
  induction props as [|[current relative] props IH]; intros mapping goals; cbn [add_propagated]; [apply hoare_ret; auto|].
  eapply hoare_bind with (Q := fun _ => J goals); [apply hoare_if; intros _; [apply look_J|apply hoare_ret; auto]|]. intros p.
  eapply hoare_bind with (Q := fun i s => TreeSize (fst s) = i + 1 /\ kept goals i (log (snd s))).
  { apply ok_hoare. intros [t v] i [t' v'] H E. unfold on_fst in E. cbn [fst snd] in *. destruct (AddNodeAndConnect current p t) as [r t1] eqn:Ea.
    injection E as -> <- <-. destruct (add_connect_values _ _ _ _ _ Ea) as (-> & B & _). split; [exact B|exact H]. }
  intros i. cbv beta zeta.
  eapply hoare_bind with (Q := fun _ s => (all = true -> TreeSize (fst s) = i + 1 /\ exists l', log (snd s) = l' ++ [Added i]) /\ kept goals (i + 1) (log (snd s))).
  { destruct (state_added_callback_fn cb) as [f|] eqn:Ef.
    - apply ok_hoare. intros s u s' [Hn [K1 K2]] E. destruct (T_added _ _ eq_refl _ _ _ E) as [L R]. rewrite L. split; [intros Ha; rewrite R by exact Ha; split; [exact Hn|now exists (log (snd s))]|].
      unfold kept. rewrite solutions_told_app, nodes_added_app. cbn. rewrite app_nil_r. split; [exact K1|]. intros Ha. destruct (K2 Ha) as (A & B & C).
      rewrite B. split; [lia|]. split; [symmetry; now apply numbers_one|now apply in_order_added].
    - apply hoare_ret. intros s [Hn [K1 K2]]. split; [intros Ha; now destruct (T_all Ha)|]. split; [exact K1|]. intros Ha. now destruct (T_all Ha). }
  intros _. eapply hoare_bind; [apply tree_J'|]. intros t. cbv beta. eapply hoare_bind; [apply look_J|]. intros n. cbv beta.
  eapply hoare_bind; [apply (aside_J _ (fun l t' => (all = true -> TreeSize t' = i + 1 /\ exists l', l = l' ++ [Added i]) /\ kept goals (i + 1) l) (Q_check _))|].
  intros [|]; cbv beta iota.
  - rewrite G_some. eapply hoare_bind with (Q := fun _ => J (goals ++ [i])); [|intros _; apply IH].
    apply ok_hoare. intros s u s' [Hn [K1 K2]] E. destruct (T_goal _ _ _ _ E) as [L R]. unfold J, kept. rewrite L, solutions_told_app, nodes_added_app, K1. cbn. split; [reflexivity|].
    intros Ha. rewrite R by exact Ha. destruct (K2 Ha) as (A & B & C). destruct (Hn Ha) as (D & F). rewrite app_nil_r, D. split; [exact A|]. split; [exact B|].
    apply in_order_reached; [exact C|]. right. exact F.
  - eapply hoare_pre; [apply IH|]. intros s [Hn [K1 K2]]. split; [exact K1|]. intros Ha. destruct (Hn Ha) as [-> _]. exact (K2 Ha).
Qed.
Lemma iteration_tell c goals : hoare (J goals) (rrt_iteration cb c goals) (fun r => J (snd r)) any.
Proof.
  unfold rrt_iteration. destruct c as [[total succ] fail].
  eapply hoare_bind; [apply (aside_J _ (fun l t => kept goals (TreeSize t) l) Q_sample)|]. intros x. cbv beta zeta.
  eapply hoare_bind; [apply tree_J'|]. intros t. cbv beta.
  eapply hoare_bind; [apply (aside_J _ (fun l t => kept goals (TreeSize t) l) (Q_near _ _))|]. intros i. cbv beta.
  eapply hoare_bind; [apply look_J|]. intros n. cbv beta.
  eapply hoare_bind; [apply (aside_J _ (fun l t => kept goals (TreeSize t) l) (Q_prop _ _))|]. intros props. cbv beta.
  destruct props as [|p props]; [apply hoare_ret; auto|]. eapply hoare_bind; [apply add_tell|]. intros goals'. apply hoare_ret. auto.
Qed.
Lemma loop_tell : forall fuel c goals, hoare (J goals) (rrt_loop cb fuel c goals) (fun r => J (snd r)) any.
Proof.
  induction fuel as [|f IH]; intros c goals; cbn [rrt_loop]; (eapply hoare_bind; [apply tree_J'|]); intros t; cbv beta;
    (eapply hoare_bind; [apply (aside_J _ (fun l t => kept goals (TreeSize t) l) (Q_term _))|]); intros [|]; cbv beta iota; try (apply hoare_ret; auto; fail).
  - intros ? ?; exact I.
  - eapply hoare_bind; [apply iteration_tell|]. intros [c' goals']. apply IH.
Qed.
Lemma plan_tell fuel : hoare (fun s => J [] s /\ (all = true -> TreeSize (fst s) = n0)) (RRTPlanMultiPath cb fuel)
  (fun r s => exists goals, J goals s /\ Forall2 (path_to (fst s)) goals (fst r)) any.
Proof.
  unfold RRTPlanMultiPath. eapply hoare_bind; [apply tree_J'|]. intros t. cbv beta.
  apply hoare_if; intros _; [intros ? ?; exact I|].
  eapply hoare_bind; [apply (initial_tell fuel 0 []); lia|]. intros goals. cbv beta.
  eapply hoare_bind; [apply loop_tell|]. intros [[[total succ] fail] goals']. cbv beta. cbn [snd].
  eapply hoare_bind; [apply tree_J|]. intros t'. cbv beta.
  apply ok_hoare. intros s r s' [-> HJ] E. unfold ebind, lift in E. destruct (ExtractSolutionPaths (fst s) goals') as [paths| | |] eqn:Ep; try discriminate E.
  injection E as <- <-. exists goals'. split; [exact HJ|]. cbn [fst]. now apply paths_of_goals.
Qed.
End Generic.

(** ** The bidirectional planner *)
Section BiGeneric.
Context {S V : Type}.
Variable cb : birrt_callbacks S V.
Variable log : V -> list bi_report.
Variable all : bool.
Notation tree := (list (rrt_node S)).
Notation world := (tree * tree * V)%type.
Definition bi_silent {A} (m : eff V A) : Prop := forall v a v', m v = (Ok a, v') -> log v' = log v.
Definition bi_tells {T} (e : bi_report) (m : eff (T * V) unit) : Prop :=
  forall s u s', m s = (Ok u, s') -> log (snd s') = log (snd s) ++ [e] /\ (all = true -> fst s' = fst s).
Hypothesis Q_kind : forall st gt a, bi_silent (select_sample_type_fn cb st gt a).
Hypothesis Q_state : bi_silent (state_sampling_fn cb).
Hypothesis Q_tree : forall t a, bi_silent (tree_sampling_fn cb t a).
Hypothesis Q_near : forall t s a, bi_silent (bi_nearest_neighbor_fn cb t s a).
Hypothesis Q_prop : forall s x a, bi_silent (propagation_fn cb s x a).
Hypothesis Q_check : forall s g a, bi_silent (states_connected_fn cb s g a).
Hypothesis Q_swap : forall st gt a, bi_silent (select_active_tree_fn cb st gt a).
Hypothesis Q_term : forall n m, bi_silent (bi_termination_check_fn cb n m).
Hypothesis T_added : forall f i, bi_state_added_callback_fn cb = Some f -> bi_tells (BiAdded (fst i) (snd i)) (f i).
Hypothesis T_all : all = true -> bi_state_added_callback_fn cb <> None.
Variable bridge_fn : Z * Z * active_tree -> eff world unit.
Hypothesis G_some : goal_bridge_callback_fn cb = Some bridge_fn.
Hypothesis T_bridge : forall b, bi_tells (Bridged (fst (fst b)) (snd (fst b)) (snd b)) (bridge_fn b).
Variables n0 m0 : Z.

Definition bkept (bridges : list (Z * Z)) (n m : Z) (l : list bi_report) : Prop :=
  bridges_told l = bridges /\
  (all = true -> n0 <= n /\ m0 <= m /\ bi_nodes_added START_TREE l = numbers n0 n /\ bi_nodes_added GOAL_TREE l = numbers m0 m /\ bi_told_in_order n0 m0 l).
Definition K (bridges : list (Z * Z)) (p : tree * tree) (l : list bi_report) : Prop := bkept bridges (TreeSize (fst p)) (TreeSize (snd p)) l.
Notation on P := (fun s : world => P (fst s) (log (snd s))).

Lemma baside {A} (m : eff V A) (P : tree * tree -> list bi_report -> Prop) : bi_silent m -> hoare (on P) (on_snd m) (fun _ => on P) any.
Proof.
  intros Q. apply ok_hoare. intros [t v] a [t' v'] H E. unfold on_snd in E. cbn [fst snd] in *.
  destruct (m v) as [r v1] eqn:Em. injection E as -> <- <-. now rewrite (Q _ _ _ Em).
Qed.
Lemma blook {A} (x : outcome A) (P : world -> Prop) : hoare P (lift x) (fun a s => x = Ok a /\ P s) any.
Proof. apply ok_hoare. intros s a s' H E. injection E as -> <-. auto. Qed.
Lemma blook' {A} (x : outcome A) (P : world -> Prop) : hoare P (lift x) (fun _ => P) any.
Proof. eapply hoare_post; [apply blook|]. intros a s [_ H]. exact H. Qed.
Lemma bstart (P : world -> Prop) : hoare P (start_tree : eff world tree) (fun t s => t = fst (fst s) /\ P s) any.
Proof. apply ok_hoare. intros s a s' H E. injection E as <- <-. auto. Qed.
Lemma bgoal (P : world -> Prop) : hoare P (goal_tree : eff world tree) (fun t s => t = snd (fst s) /\ P s) any.
Proof. apply ok_hoare. intros s a s' H E. injection E as <- <-. auto. Qed.
Lemma bstart' (P : world -> Prop) : hoare P (start_tree : eff world tree) (fun _ => P) any.
Proof. eapply hoare_post; [apply bstart|]. intros a s [_ H]. exact H. Qed.
Lemma bgoal' (P : world -> Prop) : hoare P (goal_tree : eff world tree) (fun _ => P) any.
Proof. eapply hoare_post; [apply bgoal|]. intros a s [_ H]. exact H. Qed.
Lemma bactive' a (P : world -> Prop) : hoare P (active_of a : eff world tree) (fun _ => P) any.
Proof. destruct a; [apply bstart'|apply bgoal']. Qed.
Lemma btarget' a (P : world -> Prop) : hoare P (target_of a : eff world tree) (fun _ => P) any.
Proof. destruct a; [apply bgoal'|apply bstart']. Qed.

Lemma kept_bridged bridges n m l si gi a : bkept bridges n m l ->
  (all = true -> (0 <= si < n0 /\ 0 <= gi < m0 /\ a = START_TREE /\ bi_nodes_added START_TREE l = [] /\ bi_nodes_added GOAL_TREE l = []) \/
   exists l', l = l' ++ [BiAdded (match a with START_TREE => si | GOAL_TREE => gi end) a]) ->
  bkept (bridges ++ [(si, gi)]) n m (l ++ [Bridged si gi a]).
Proof.
  intros [A B] H. split; [now rewrite bridges_told_app, A|]. intros Ha. destruct (B Ha) as (C & D & E & F & G). rewrite !bi_nodes_added_app. cbn. rewrite !app_nil_r.
  repeat split; auto. apply bi_order_bridged; auto.
Qed.
Notation fixed p := (all = true -> TreeSize (fst p) = n0 /\ TreeSize (snd p) = m0).

Lemma inner_tell : forall fuel si gi bridges, 0 <= si -> 0 <= gi -> (all = true -> si < n0) ->
  hoare (on (fun p l => K bridges p l /\ fixed p)) (initial_bridges_inner cb fuel si gi bridges) (fun b => on (fun p l => K b p l /\ fixed p)) any.
Proof.
  induction fuel as [|f IH]; intros si gi bridges Hs Hg Hn; cbn [initial_bridges_inner]; (eapply hoare_bind; [apply bgoal|]); intros t; cbv beta.
  - apply hoare_if; intros _; [intros ? ?; exact I|]. apply hoare_ret. intros s [_ H]. exact H.
  - apply hoare_if; intros Hb; [|apply hoare_ret; intros s [_ H]; exact H].
    eapply hoare_bind; [apply bstart'|]. intros st. cbv beta. eapply hoare_bind; [apply blook'|]. intros sn. cbv beta. eapply hoare_bind; [apply blook'|]. intros gn. cbv beta.
    eapply hoare_bind; [apply (baside _ (fun p l => t = snd p /\ K bridges p l /\ fixed p) (Q_check _ _ _))|].
    intros [|]; cbv beta iota; [|eapply hoare_pre; [apply IH; [exact Hs|lia|exact Hn]|]; intros s [_ H]; exact H].
    eapply hoare_bind; [apply blook|]. intros br. cbv beta. rewrite G_some. cbn [call].
    eapply hoare_bind with (Q := fun _ => on (fun p l => K (bridges ++ [br]) p l /\ fixed p)); [|intros _; apply IH; [exact Hs|lia|exact Hn]].
    apply ok_hoare. intros s u s' [Eb [Et [HK Hf]]] E. destruct (T_bridge _ _ _ _ E) as [L R]. cbn [fst snd] in L.
    assert (br = (si, gi)) as ->. { unfold MakeGoalBridge in Eb. destruct (si <? 0), (gi <? 0); try discriminate. now injection Eb as <-. }
    assert (SZ : all = true -> fst s' = fst s) by exact R. rewrite L.
    assert (KK : bkept (bridges ++ [(si, gi)]) (TreeSize (fst (fst s))) (TreeSize (snd (fst s))) (log (snd s) ++ [Bridged si gi START_TREE])).
    { apply kept_bridged; [exact HK|]. intros Ha. left. apply Z.ltb_lt in Hb. destruct (Hf Ha) as [F1 F2]. destruct HK as [_ HK]. destruct (HK Ha) as (_ & _ & C & D & _).
      rewrite Et, F2 in Hb. rewrite F1 in C. rewrite F2 in D. specialize (Hn Ha).
      split; [lia|]. split; [lia|]. split; [reflexivity|]. rewrite C, D. unfold numbers. rewrite !Z.sub_diag. split; reflexivity. }
    split; [|intros Ha; rewrite R by exact Ha; auto]. split; [exact (proj1 KK)|]. intros Ha. rewrite R by exact Ha. exact (proj2 KK Ha).
Qed.
Lemma initial_bi_tell : forall fuel si bridges, 0 <= si ->
  hoare (on (fun p l => K bridges p l /\ fixed p)) (initial_bridges cb fuel si bridges) (fun b => on (fun p l => K b p l)) any.
Proof.
  induction fuel as [|f IH]; intros si bridges Hs; cbn [initial_bridges]; (eapply hoare_bind; [apply bstart|]); intros t; cbv beta.
  - apply hoare_if; intros _; [intros ? ?; exact I|]. apply hoare_ret. intros s [_ H]. apply H.
  - apply hoare_if; intros Hb; [|apply hoare_ret; intros s [_ H]; apply H]. apply Z.ltb_lt in Hb.
    intros s [Et Hs0]. 
    assert (X : all = true -> si < n0). { intros Ha. destruct Hs0 as [_ Hf]. destruct (Hf Ha) as [F1 _]. rewrite <- F1, <- Et. exact Hb. }
    assert (Y : hoare (on (fun p l => K bridges p l /\ fixed p)) (run b <- initial_bridges_inner cb f si 0 bridges; initial_bridges cb f (si + 1) b) (fun b => on (fun p l => K b p l)) any).
    { eapply hoare_bind; [apply inner_tell; [exact Hs|lia|exact X]|]. intros b. apply IH. lia. }
    exact (Y s Hs0).
Qed.

Lemma add_bi_tell a target nearest : forall props mapping bridges,
  hoare (on (K bridges)) (add_bi_propagated cb a target nearest mapping props bridges) (fun b => on (K b)) any.
Proof.
  induction props as [|[current relative] props IH]; intros mapping bridges; cbn [add_bi_propagated]; [apply hoare_ret; auto|].
  eapply hoare_bind with (Q := fun _ => on (K bridges)); [apply hoare_if; intros _; [apply blook'|apply hoare_ret; auto]|]. intros p.
  (* the tree that grew has i + 1 nodes; node i has not been told yet *)
  set (before := fun i (t : tree * tree) l => match a with
     | START_TREE => TreeSize (fst t) = i + 1 /\ bkept bridges i (TreeSize (snd t)) l
     | GOAL_TREE => TreeSize (snd t) = i + 1 /\ bkept bridges (TreeSize (fst t)) i l end).
  eapply hoare_bind with (Q := fun i => on (before i)).
  { apply ok_hoare. intros [[st gt] v] i [[st' gt'] v'] H E. unfold on_active, on_fst in E. cbn [fst snd] in *. unfold before. destruct a; cbn [fst snd] in *.
    - destruct (AddNodeAndConnect current p st) as [r t1] eqn:Ea. injection E as -> <- <- <-. destruct (add_connect_values _ _ _ _ _ Ea) as (-> & B & _). split; [exact B|exact H].
    - destruct (AddNodeAndConnect current p gt) as [r t1] eqn:Ea. injection E as -> <- <- <-. destruct (add_connect_values _ _ _ _ _ Ea) as (-> & B & _). split; [exact B|exact H]. }
  intros i. cbv beta zeta.
  set (after := fun (t : tree * tree) l => (all = true -> exists l', l = l' ++ [BiAdded i a]) /\ K bridges t l).
  eapply hoare_bind with (Q := fun _ => on after).
  { destruct (bi_state_added_callback_fn cb) as [f|] eqn:Ef.
    - apply ok_hoare. intros [[st gt] v] u [[st' gt'] v'] H E. unfold on_active in E. unfold before in H. unfold after, K. cbn [fst snd] in *. destruct a; cbn [fst snd] in *.
      + destruct (f (i, START_TREE) (st, v)) as [r [t1 v1]] eqn:Ea. injection E as -> <- <- <-. destruct (T_added _ _ eq_refl _ _ _ Ea) as [L R]. cbn [fst snd] in *.
        destruct H as [Hn [K1 K2]]. rewrite L. split; [intros _; now exists (log v)|]. split; [rewrite bridges_told_app; cbn; now rewrite app_nil_r|].
        intros Ha. rewrite R by exact Ha. rewrite Hn. destruct (K2 Ha) as (A & B & C & D & F). rewrite !bi_nodes_added_app. cbn. rewrite app_nil_r, C, D.
        split; [lia|]. split; [exact B|]. split; [symmetry; now apply numbers_one|]. split; [reflexivity|now apply bi_order_added].
      + destruct (f (i, GOAL_TREE) (gt, v)) as [r [t1 v1]] eqn:Ea. injection E as -> <- <- <-. destruct (T_added _ _ eq_refl _ _ _ Ea) as [L R]. cbn [fst snd] in *.
        destruct H as [Hn [K1 K2]]. rewrite L. split; [intros _; now exists (log v)|]. split; [rewrite bridges_told_app; cbn; now rewrite app_nil_r|].
        intros Ha. rewrite R by exact Ha. rewrite Hn. destruct (K2 Ha) as (A & B & C & D & F). rewrite !bi_nodes_added_app. cbn. rewrite app_nil_r, C, D.
        split; [exact A|]. split; [lia|]. split; [reflexivity|]. split; [symmetry; now apply numbers_one|now apply bi_order_added].
    - apply hoare_ret. intros [[st gt] v] H. unfold before in H. unfold after, K. cbn [fst snd] in *. split; [intros Ha; now destruct (T_all Ha)|].
      destruct a; destruct H as [_ [K1 _]]; (split; [exact K1|intros Ha; now destruct (T_all Ha)]). }
  intros _. destruct target as [[ti ts]|]; [|eapply hoare_pre; [apply IH|]; intros s [_ H]; exact H].
  eapply hoare_bind; [apply bactive'|]. intros t. cbv beta. eapply hoare_bind; [apply blook'|]. intros n. cbv beta.
  eapply hoare_bind; [apply (baside _ after (Q_check _ _ _))|]. intros [|]; cbv beta iota; [|eapply hoare_pre; [apply IH|]; intros s [_ H]; exact H].
  eapply hoare_bind with (Q := fun br s => br = (match a with START_TREE => (i, ti) | GOAL_TREE => (ti, i) end) /\ on after s).
  { destruct a; (eapply hoare_post; [apply blook|]); intros br s [Eb H]; unfold MakeGoalBridge in Eb; cbv beta;
      destruct (i <? 0), (ti <? 0); try discriminate; injection Eb as <-; split; auto. }
  intros br. cbv beta. rewrite G_some. eapply hoare_bind with (Q := fun _ => on (K (bridges ++ [br]))); [|intros _; apply IH].
  apply ok_hoare. intros s u s' [Eb [HL HK]] E. destruct (T_bridge _ _ _ _ E) as [L R]. cbn [fst snd] in L. rewrite L.
  assert (KK : bkept (bridges ++ [(fst br, snd br)]) (TreeSize (fst (fst s))) (TreeSize (snd (fst s))) (log (snd s) ++ [Bridged (fst br) (snd br) a])).
  { apply kept_bridged; [exact HK|]. intros Ha. right. destruct (HL Ha) as [l' El]. exists l'. rewrite El. subst br. now destruct a. }
  rewrite <- surjective_pairing in KK. split; [exact (proj1 KK)|]. intros Ha. rewrite R by exact Ha. exact (proj2 KK Ha).
Qed.
Lemma bi_iteration_tell a c bridges : hoare (on (K bridges)) (birrt_iteration cb a c bridges) (fun r => on (K (snd r))) any.
Proof.
  unfold birrt_iteration. destruct c as [si gi total succ fail swaps states sols]. cbv zeta.
  eapply hoare_bind; [apply bstart'|]. intros st. cbv beta. eapply hoare_bind; [apply bgoal'|]. intros gt. cbv beta.
  eapply hoare_bind; [apply (baside _ (K bridges) (Q_kind _ _ _))|]. intros kind. cbv beta.
  eapply hoare_bind with (Q := fun _ => on (K bridges)).
  { destruct kind.
    - eapply hoare_bind; [apply btarget'|]. intros tt0. cbv beta. eapply hoare_bind; [apply (baside _ (K bridges) (Q_tree _ _))|]. intros i. cbv beta.
      eapply hoare_bind; [apply blook'|]. intros n. apply hoare_ret. auto.
    - eapply hoare_bind; [apply (baside _ (K bridges) Q_state)|]. intros s. apply hoare_ret. auto. }
  intros [ts target].
  eapply hoare_bind; [apply bactive'|]. intros t. cbv beta. eapply hoare_bind; [apply (baside _ (K bridges) (Q_near _ _ _))|]. intros i. cbv beta.
  eapply hoare_bind; [apply blook'|]. intros n. cbv beta. eapply hoare_bind; [apply (baside _ (K bridges) (Q_prop _ _ _))|]. intros props. cbv beta.
  eapply hoare_bind with (Q := fun r => on (K (snd r))).
  { destruct props as [|p props]; [apply hoare_ret; auto|]. eapply hoare_bind; [apply add_bi_tell|]. intros b. apply hoare_ret. auto. }
  intros [[succ' fail'] bridges']. cbn [snd].
  eapply hoare_bind; [apply bstart'|]. intros st'. cbv beta. eapply hoare_bind; [apply bgoal'|]. intros gt'. cbv beta.
  eapply hoare_bind; [apply (baside _ (K bridges') (Q_swap _ _ _))|]. intros a'. apply hoare_ret. auto.
Qed.
Lemma bi_loop_tell : forall fuel a c bridges, hoare (on (K bridges)) (birrt_loop cb fuel a c bridges) (fun r => on (K (snd r))) any.
Proof.
  induction fuel as [|f IH]; intros a c bridges; cbn [birrt_loop].
  all: eapply hoare_bind; [apply bstart'|]; intros st; cbv beta; eapply hoare_bind; [apply bgoal'|]; intros gt; cbv beta.
  all: eapply hoare_bind; [apply (baside _ (K bridges) (Q_term _ _))|]; intros [|]; cbv beta iota; try (apply hoare_ret; auto; fail).
  - intros ? ?; exact I.
  - eapply hoare_bind; [apply bi_iteration_tell|]. intros [[a' c'] b']. apply IH.
Qed.
Lemma bridges_lead (st gt : tree) : forall bridges paths, bridge_paths st gt bridges = Ok paths -> Forall2 (leads st gt) bridges paths.
Proof.
  induction bridges as [|[si gi] bridges IH]; intros paths E; cbn [bridge_paths] in E; [injection E as <-; constructor|].
  destruct (ExtractSolutionPath st si) as [p| | |] eqn:Ep; try discriminate E. cbn [bind] in E.
  destruct (ExtractSolutionPath gt gi) as [q| | |] eqn:Eq; try discriminate E. cbn [bind] in E.
  destruct (bridge_paths st gt bridges) as [ps| | |]; try discriminate E. cbn [bind] in E. injection E as <-. constructor; [|now apply IH].
  exists p, q. split; [now apply extract_path|]. split; [now apply extract_path|reflexivity].
Qed.
Lemma bi_plan_tell fuel : hoare (on (fun p l => K [] p l /\ fixed p)) (BiRRTPlanMultiPath cb fuel)
  (fun r s => exists bridges, on (K bridges) s /\ Forall2 (leads (fst (fst s)) (snd (fst s))) bridges (fst r)) any.
Proof.
  unfold BiRRTPlanMultiPath. eapply hoare_bind; [apply bstart'|]. intros st. cbv beta. apply hoare_if; intros _; [intros ? ?; exact I|].
  eapply hoare_bind; [apply bgoal'|]. intros gt. cbv beta. apply hoare_if; intros _; [intros ? ?; exact I|].
  eapply hoare_bind; [apply (initial_bi_tell fuel 0 []); lia|]. intros bridges. cbv beta.
  eapply hoare_bind; [apply bi_loop_tell|]. intros [c b']. cbv beta. cbn [snd].
  eapply hoare_bind; [apply bstart|]. intros st'. cbv beta. eapply hoare_bind; [apply bgoal|]. intros gt'. cbv beta.
  apply ok_hoare. intros s r s' [-> [-> HK]] E. unfold ebind, lift in E. destruct (bridge_paths _ _ b') as [paths| | |] eqn:Ep; try discriminate E.
  injection E as <- <-. exists b'. split; [exact HK|]. cbn [fst]. now apply bridges_lead.
Qed.
End BiGeneric.

(** ** The callbacks that write the log *)
Lemma fst_quiet {W E A} (f : eff W A) (v : W * E) a v' : on_fst f v = (Ok a, v') -> snd v' = snd v.
Proof. unfold on_fst. destruct (f (fst v)). intros H. injection H as _ <-. reflexivity. Qed.
Lemma fst_fst_quiet {W E B A} (f : eff W A) (v : W * E * B) a v' : on_fst (on_fst f) v = (Ok a, v') -> snd (fst v') = snd (fst v).
Proof. unfold on_fst. destruct (f (fst (fst v))). intros H. injection H as _ <-. reflexivity. Qed.
Lemma reporting_tells {T W E} (e : E) (f : eff (T * W) unit) s u s' : reporting e f s = (Ok u, s') ->
  snd (snd s') = snd (snd s) ++ [e] /\ (reads_tree f -> fst s' = fst s).
Proof.
  destruct s as [t [w l]]. unfold reporting, report_to, ebind, on_snd, get, put, beside. cbn [fst snd].
  destruct (f (t, w)) as [r [t1 w1]] eqn:Ef. intros H. injection H as -> <-. cbn. split; [reflexivity|]. intros R. specialize (R (t, w)). now rewrite Ef in R.
Qed.
Lemma reporting_tells_flag {T W E B} (e : E) (f : eff (T * W) unit) (s : T * (W * list E * B)) u s' : beside (reporting e f) s = (Ok u, s') ->
  snd (fst (snd s')) = snd (fst (snd s)) ++ [e] /\ (reads_tree f -> fst s' = fst s).
Proof.
  destruct s as [t [[w l] b]]. unfold beside at 1. destruct (reporting e f (t, (w, l))) as [r [t1 w1]] eqn:Er. intros H. injection H as -> <-.
  exact (reporting_tells e f _ _ _ Er).
Qed.

Section Told.
Context {S Sample W : Type}.
Notation tree := (list (rrt_node S)).
Lemma added_reads (cb : rrt_callbacks S Sample W) (all : bool) f i : (all = true -> reading cb) -> state_added_callback_fn cb = Some f -> all = true -> reads_tree (f i).
Proof. intros H E Ha. destruct (H Ha) as [(g & Eg & R) _]. rewrite E in Eg. injection Eg as ->. apply R. Qed.
Lemma multi_told (all : bool) (cb : rrt_callbacks S Sample W) fuel (t : tree) w f paths stats t' w' log :
  goal_reached_callback_fn cb = Some f -> (all = true -> reading cb) ->
  RRTPlanMultiPath (telling cb) fuel (t, (w, [])) = (Ok (paths, stats), (t', (w', log))) ->
  Forall2 (path_to t') (solutions_told log) paths /\
  (all = true -> TreeSize t <= TreeSize t' /\ nodes_added log = numbers (TreeSize t) (TreeSize t') /\ told_in_order (TreeSize t) log).
Proof.
  intros Ef HR E.
  pose proof (plan_tell (telling cb) (fun v => snd v) all) as P.
  specialize (P (fun v a v' => fst_quiet _ v a v') (fun _ _ v a v' => fst_quiet _ v a v') (fun _ _ v a v' => fst_quiet _ v a v') (fun _ v a v' => fst_quiet _ v a v') (fun _ v a v' => fst_quiet _ v a v')).
  assert (P1 := P ltac:(intros g i Eg s u s' Es; cbn in Eg; destruct (state_added_callback_fn cb) as [g0|] eqn:Eg0; [|discriminate]; injection Eg as <-;
    destruct (reporting_tells _ _ _ _ _ Es) as [A B]; split; [exact A|intros Ha; apply B; exact (added_reads cb all g0 i HR Eg0 Ha)])).
  assert (P2 := P1 ltac:(intros Ha; destruct (HR Ha) as [(g & Eg & _) _]; cbn; rewrite Eg; discriminate) (fun i => reporting (Reached i) (f i)) ltac:(cbn; rewrite Ef; reflexivity)).
  assert (P3 := P2 ltac:(intros i s u s' Es; destruct (reporting_tells _ _ _ _ _ Es) as [A B]; split; [exact A|intros Ha; apply B; exact (proj2 (HR Ha) f i Ef)]) (TreeSize t) fuel (t, (w, []))).
  rewrite E in P3. cbn [fst snd] in P3. destruct P3 as (goals & [J1 J2] & F).
  { split; [|reflexivity]. split; [reflexivity|]. intros _. cbn [fst snd]. split; [lia|]. split; [unfold numbers; now rewrite Z.sub_diag|].
    intros pre i post X. destruct pre; discriminate X. }
  cbn [fst snd] in *. subst goals. split; [exact F|exact J2].
Qed.
Lemma single_told (all : bool) (cb : rrt_callbacks S Sample W) fuel (t : tree) w f path stats t' w' log :
  goal_reached_callback_fn cb = Some f -> (all = true -> reading cb) ->
  RRTPlanSinglePath (telling cb) fuel (t, (w, [])) = (Ok (path, stats), (t', (w', log))) ->
  match solutions_told log with [] => path = [] | i :: _ => path_to t' i path end /\
  (all = true -> TreeSize t <= TreeSize t' /\ nodes_added log = numbers (TreeSize t) (TreeSize t') /\ told_in_order (TreeSize t) log).
Proof.
  intros Ef HR E. unfold RRTPlanSinglePath in E. cbn [fst snd] in E.
  pose proof (plan_tell (single_callbacks (telling cb)) (fun v => snd (fst v)) all) as P.
  specialize (P (fun v a v' => fst_fst_quiet _ v a v') (fun _ _ v a v' => fst_fst_quiet _ v a v') (fun _ _ v a v' => fst_fst_quiet _ v a v') (fun _ v a v' => fst_fst_quiet _ v a v')).
  assert (P0 := P ltac:(intros n [[w0 l0] b0] a v' Es; cbn in Es; unfold ebind, on_snd, get in Es; cbn in Es; destruct b0; cbn in Es;
    [injection Es as _ <-; reflexivity|exact (fst_fst_quiet _ _ _ _ Es)])).
  assert (P1 := P0 ltac:(intros g i Eg s u s' Es; cbn in Eg; destruct (state_added_callback_fn cb) as [g0|] eqn:Eg0; [|discriminate]; injection Eg as <-;
    destruct (reporting_tells_flag _ _ _ _ _ Es) as [A B]; split; [exact A|intros Ha; apply B; exact (added_reads cb all g0 i HR Eg0 Ha)])).
  assert (P2 := P1 ltac:(intros Ha; destruct (HR Ha) as [(g & Eg & _) _]; cbn; rewrite Eg; discriminate) _ eq_refl).
  assert (P3 := P2 ltac:(intros i [t0 [[w0 l0] b0]] u s' Es; cbn in Es; rewrite Ef in Es; cbn in Es;
    destruct (f i (t0, w0)) as [r1 [t1 w1]] eqn:Efi; injection Es as -> <-; cbn; split; [reflexivity|intros Ha; pose proof (proj2 (HR Ha) f i Ef (t0, w0)) as R; rewrite Efi in R; exact R]) (TreeSize t) fuel (t, ((w, []), false))).
  destruct (RRTPlanMultiPath _ fuel _) as [r0 [t0 [w0 b0]]]. injection E as Er <- ->.
  destruct r0 as [[paths st]|e| |]; try discriminate Er. cbn [bind fst snd] in *. injection Er as <- <-.
  destruct P3 as (goals & [J1 J2] & F).
  { split; [|reflexivity]. split; [reflexivity|]. intros _. cbn [fst snd]. split; [lia|]. split; [unfold numbers; now rewrite Z.sub_diag|].
    intros pre i post X. destruct pre; discriminate X. }
  cbn [fst snd] in *. subst goals. split; [|exact J2]. destruct F; [reflexivity|assumption].
Qed.
End Told.

Section BiTold.
Context {S W : Type}.
Notation tree := (list (rrt_node S)).
Lemma bi_added_reads (cb : birrt_callbacks S W) (all : bool) f i : (all = true -> bi_reading cb) -> bi_state_added_callback_fn cb = Some f -> all = true -> reads_tree (f i).
Proof. intros H E Ha. destruct (H Ha) as [(g & Eg & R) _]. rewrite E in Eg. injection Eg as ->. apply R. Qed.
Lemma bi_start (all : bool) (st gt : tree) : K all (TreeSize st) (TreeSize gt) [] (st, gt) [] /\ (all = true -> TreeSize st = TreeSize st /\ TreeSize gt = TreeSize gt).
Proof.
  split; [|auto]. split; [reflexivity|]. intros _. cbn [fst snd]. unfold numbers. rewrite !Z.sub_diag. split; [lia|]. split; [lia|]. split; [reflexivity|]. split; [reflexivity|].
  intros pre si gi a post X. destruct pre; discriminate X.
Qed.
Lemma bi_multi_told (all : bool) (cb : birrt_callbacks S W) fuel (st gt : tree) w f paths stats st' gt' w' log :
  goal_bridge_callback_fn cb = Some f -> (all = true -> bi_reading cb) ->
  BiRRTPlanMultiPath (bi_telling cb) fuel ((st, gt), (w, [])) = (Ok (paths, stats), ((st', gt'), (w', log))) ->
  Forall2 (leads st' gt') (bridges_told log) paths /\ (all = true -> bi_told st gt st' gt' log).
Proof.
  intros Ef HR E.
  pose proof (bi_plan_tell (bi_telling cb) (fun v => snd v) all) as P.
  specialize (P (fun _ _ _ v a v' => fst_quiet _ v a v') (fun v a v' => fst_quiet _ v a v') (fun _ _ v a v' => fst_quiet _ v a v') (fun _ _ _ v a v' => fst_quiet _ v a v')
    (fun _ _ _ v a v' => fst_quiet _ v a v') (fun _ _ _ v a v' => fst_quiet _ v a v') (fun _ _ _ v a v' => fst_quiet _ v a v') (fun _ _ v a v' => fst_quiet _ v a v')).
  assert (P1 := P ltac:(intros g i Eg s u s' Es; cbn in Eg; destruct (bi_state_added_callback_fn cb) as [g0|] eqn:Eg0; [|discriminate]; injection Eg as <-;
    destruct (reporting_tells _ _ _ _ _ Es) as [A B]; split; [exact A|intros Ha; apply B; exact (bi_added_reads cb all g0 i HR Eg0 Ha)])).
  assert (P2 := P1 ltac:(intros Ha; destruct (HR Ha) as [(g & Eg & _) _]; cbn; rewrite Eg; discriminate) (fun b => reporting (Bridged (fst (fst b)) (snd (fst b)) (snd b)) (f b)) ltac:(cbn; rewrite Ef; reflexivity)).
  assert (P3 := P2 ltac:(intros i s u s' Es; destruct (reporting_tells _ _ _ _ _ Es) as [A B]; split; [exact A|intros Ha; apply B; exact (proj2 (HR Ha) f i Ef)])
    (TreeSize st) (TreeSize gt) fuel ((st, gt), (w, [])) (bi_start all st gt)).
  rewrite E in P3. cbn [fst snd] in P3. destruct P3 as (goals & [J1 J2] & F). cbn [fst snd] in *. subst goals. split; [exact F|exact J2].
Qed.
Lemma bi_single_told (all : bool) (cb : birrt_callbacks S W) fuel (st gt : tree) w f path stats st' gt' w' log :
  goal_bridge_callback_fn cb = Some f -> (all = true -> bi_reading cb) ->
  BiRRTPlanSinglePath (bi_telling cb) fuel ((st, gt), (w, [])) = (Ok (path, stats), ((st', gt'), (w', log))) ->
  match bridges_told log with [] => path = [] | b :: _ => leads st' gt' b path end /\ (all = true -> bi_told st gt st' gt' log).
Proof.
  intros Ef HR E. unfold BiRRTPlanSinglePath in E. cbn [fst snd] in E.
  pose proof (bi_plan_tell (bi_single_callbacks (bi_telling cb)) (fun v => snd (fst v)) all) as P.
  specialize (P (fun _ _ _ v a v' => fst_fst_quiet _ v a v') (fun v a v' => fst_fst_quiet _ v a v') (fun _ _ v a v' => fst_fst_quiet _ v a v') (fun _ _ _ v a v' => fst_fst_quiet _ v a v')
    (fun _ _ _ v a v' => fst_fst_quiet _ v a v') (fun _ _ _ v a v' => fst_fst_quiet _ v a v') (fun _ _ _ v a v' => fst_fst_quiet _ v a v')).
  assert (P0 := P ltac:(intros n m [[w0 l0] b0] a v' Es; cbn in Es; unfold ebind, on_snd, get in Es; cbn in Es; destruct b0; cbn in Es;
    [injection Es as _ <-; reflexivity|exact (fst_fst_quiet _ _ _ _ Es)])).
  assert (P1 := P0 ltac:(intros g i Eg s u s' Es; cbn in Eg; destruct (bi_state_added_callback_fn cb) as [g0|] eqn:Eg0; [|discriminate]; injection Eg as <-;
    destruct (reporting_tells_flag _ _ _ _ _ Es) as [A B]; split; [exact A|intros Ha; apply B; exact (bi_added_reads cb all g0 i HR Eg0 Ha)])).
  assert (P2 := P1 ltac:(intros Ha; destruct (HR Ha) as [(g & Eg & _) _]; cbn; rewrite Eg; discriminate) _ eq_refl).
  assert (P3 := P2 ltac:(intros i [t0 [[w0 l0] b0]] u s' Es; cbn in Es; rewrite Ef in Es; cbn in Es;
    destruct (f i (t0, w0)) as [r1 [t1 w1]] eqn:Efi; injection Es as -> <-; cbn; split; [reflexivity|intros Ha; pose proof (proj2 (HR Ha) f i Ef (t0, w0)) as R; rewrite Efi in R; exact R])
    (TreeSize st) (TreeSize gt) fuel ((st, gt), ((w, []), false)) (bi_start all st gt)).
  destruct (BiRRTPlanMultiPath _ fuel _) as [r0 [t0 [w0 b0]]]. injection E as Er -> ->.
  destruct r0 as [[paths s]|e| |]; try discriminate Er. cbn [bind fst snd] in *. injection Er as <- <-.
  destruct P3 as (goals & [J1 J2] & F). cbn [fst snd] in *. subst goals. split; [|exact J2]. destruct F; [reflexivity|assumption].
Qed.
End BiTold.
