(** Top-level A* results (C18-C22). *)
From Coq Require Import Permutation ZifyBool ZifyNat.
From Verif Require Import Base GraphModel GraphSpec SearchModel SearchSpec SearchProof.

Section Top.
Context {T C : Type} (ops : cost_ops C) (eqb : T -> T -> bool).
Hypothesis eqb_ok : forall a b, eqb a b = true <-> a = b.
Hypothesis L : cost_laws ops.
Notation le := (cle ops). Notation lt := (clt ops).
Variables (starts : list (T * C)) (goal : T -> bool) (children : T -> outcome (list (T * C)))
  (heuristic : T -> C) (limit : bool).
Notation child := (child_of children).
Hypothesis CO : costs_ok ops children starts.
Variable pick : picker (pq_elem T C).
Hypothesis VP : valid_pick ops (@el_value T C) pick.

Lemma start_backs l : forall q m, (forall e, In e q -> el_back e = None) ->
  forall e, In e (fst (fold_left (push_start ops eqb limit heuristic) l (q, m))) -> el_back e = None.
Proof.
  induction l as [|[s c] l IH]; intros q m H e He; [apply H, He|].
  cbn [fold_left] in He. unfold push_start at 2 in He. cbn [fst snd] in He.
  destruct (is_queue_better ops eqb limit m s c).
  - exact (IH q m H e He).
  - eapply IH; [|exact He]. intros e' He'. apply in_app_iff in He' as [He'|[<-|[]]]; auto.
Qed.

(** Everything the search can return. *)
Inductive search_post : outcome (list T * C) -> Prop :=
| sp_throw s c e : realised ops starts children s c -> children s = Throw e -> search_post (Throw e)
| sp_ub s c : realised ops starts children s c -> children s = UB -> search_post UB
| sp_div : search_post Diverge
| sp_none : (forall path d, ~ route ops children starts goal path d) -> search_post (Ok ([], cinf ops))
| sp_some path c d g : path <> [] -> goal g = true ->
    (exists s c0, In (s, c0) starts /\ walk ops child s c0 path g d) ->
    le d c -> realised ops starts children g c ->
    (admissible ops children goal heuristic -> (forall s c, In (s, c) starts -> goal s = false) ->
     forall path' d', route ops children starts goal path' d' -> le c d') ->
    search_post (MakeAstarResult ops path c).

Lemma astar_search_post fuel :
  search_post (astar_search ops eqb starts goal children heuristic limit pick fuel).
Proof.
  unfold astar_search.
  pose proof (init_inv ops eqb eqb_ok L starts goal children heuristic limit CO starts [] [] []) as I.
  destruct (fold_left (push_start ops eqb limit heuristic) starts ([], [])) as [q m].
  destruct I as [I _]; [intros e []|discriminate|intros s c []|intros e []|reflexivity|].
  pose proof (astar_loop_post ops eqb eqb_ok L starts goal children heuristic limit CO pick VP fuel 0 q m [] I) as PP.
  inversion PP as [E|s c0 e RL E1 E|s c0 RL E1 E|s c0 RL E1 E|m' ex I' E|q' m' ex top rest I' P M B G E]; clear PP; cbn [bind].
  - constructor.
  - eapply sp_throw; eauto.
  - eapply sp_ub; eauto.
  - constructor.
  - apply sp_none. intros path d. eapply none_no_route; eauto.
  - set (ex' := map_put (el_state top) (el_cost top, el_back top) ex).
    assert (explored_ok ops eqb starts children ex') as EX by (eapply expand_explored; eauto).
    assert (map_find eqb (el_state top) ex' = Some (el_cost top, el_back top)) as F.
    { unfold ex'. rewrite map_find_put, (eqb_refl' eqb eqb_ok). reflexivity. }
    assert (In top q') as Ht by (apply (Permutation_in top (Permutation_sym P)); left; reflexivity).
    destruct (extract_spec ops eqb eqb_ok L starts goal children heuristic ex' _ _ _ EX F)
      as (path & s & c0 & d & Hs & W & Hd & NE & Ex). rewrite Ex.
    eapply sp_some; eauto.
    + eapply inv_real; eauto.
    + intros A NG path' d' R. eapply pop_optimal; eauto.
Qed.

Lemma best_goal_start_gen l : forall best, 
  let r := fold_left (fun (best : C * option (T * C)) s =>
         if goal (fst s) && cltb ops (snd s) (fst best) then (snd s, Some s) else best) l best in
  le (fst r) (fst best) /\
  (forall s c, In (s, c) l -> goal s = true -> le (fst r) c) /\
  ((r = best) \/ exists s c, r = (c, Some (s, c)) /\ In (s, c) l /\ goal s = true /\ lt c (fst best)).
Proof.
  induction l as [|[s c] l IH]; intros best; cbn [fold_left].
  - split; [apply cl_refl, L|]. split; [intros s c []|left; reflexivity].
  - cbn [fst snd]. destruct (goal s && cltb ops c (fst best)) eqn:E.
    + apply andb_true_iff in E as [G E]. destruct (IH (c, Some (s, c))) as (H1 & H2 & H3). cbn [fst] in H1, H3.
      split; [|split].
      * eapply cl_trans; [exact L|exact H1|]. apply (lt_le ops L), E.
      * intros s' c' [H|H] G'; [injection H as <- <-; exact H1|eauto].
      * right. destruct H3 as [->|(s1 & c1 & -> & Hin & G1 & Hlt)].
        -- exists s, c. repeat split; auto. left; reflexivity.
        -- exists s1, c1. repeat split; auto; [right; exact Hin|]. eapply lt_le_trans; [exact L|exact Hlt|apply (lt_le ops L), E].
    + destruct (IH best) as (H1 & H2 & H3). split; [exact H1|]. split.
      * intros s' c' [H|H] G'; [|eauto]. injection H as <- <-. rewrite G' in E. simpl in E.
        eapply cl_trans; [exact L|exact H1|exact E].
      * destruct H3 as [H3|(s1 & c1 & H3 & Hin & X)]; [auto|]. right. exists s1, c1. split; [exact H3|].
        split; [right; exact Hin|exact X].
Qed.

Lemma best_goal_start_spec :
  match best_goal_start ops goal starts with
  | Some (s, c) => In (s, c) starts /\ goal s = true /\ lt c (cinf ops) /\
      forall s' c', In (s', c') starts -> goal s' = true -> le c c'
  | None => forall s c, In (s, c) starts -> goal s = false
  end.
Proof.
  unfold best_goal_start. pose proof (best_goal_start_gen starts (cinf ops, None)) as H. cbv zeta in H.
  destruct H as (H1 & H2 & [E|(s & c & E & Hin & G & Hlt)]); rewrite E in *; cbn [snd fst] in *.
  - intros s c Hin. destruct (goal s) eqn:G; [|reflexivity]. exfalso.
    pose proof (H2 s c Hin G) as H. destruct (proj1 CO s c Hin) as [_ Hlt].
    unfold cle, clt in *. congruence.
  - repeat split; auto.
Qed.

Lemma MakeAstarResult_ok (path : list T) c r : MakeAstarResult ops path c = Ok r -> path <> [] ->
  r = (path, c) /\ lt c (cinf ops).
Proof.
  unfold MakeAstarResult. destruct path as [|x p]; [congruence|]. intros H _.
  destruct (cisinf ops c) eqn:E; [discriminate|]. injection H as <-. split; [reflexivity|].
  destruct (cltb ops c (cinf ops)) eqn:F; [exact F|]. exfalso.
  assert (cisinf ops c = true) by (apply (cl_isinf _ L); exact F). congruence.
Qed.

Lemma MakeAstarResult_nonempty (path : list T) c : lt c (cinf ops) -> MakeAstarResult ops path c = Ok (path, c).
Proof.
  intros H. unfold MakeAstarResult. destruct path; [reflexivity|]. destruct (cisinf ops c) eqn:E; [|reflexivity].
  apply (cl_isinf _ L) in E. unfold cle, clt in *. congruence.
Qed.

Lemma perform_cases fuel :
  (starts = [] /\ PerformAstarSearch ops eqb starts goal children heuristic limit pick fuel = Throw InvalidArgument) \/
  (starts <> [] /\ PerformAstarSearch ops eqb starts goal children heuristic limit pick fuel =
     match best_goal_start ops goal starts with
     | Some (s, c) => MakeAstarResult ops [s] c
     | None => astar_search ops eqb starts goal children heuristic limit pick fuel
     end).
Proof.
  unfold PerformAstarSearch. clear CO. destruct starts as [|s ss]; [left; auto|right]. split; [discriminate|reflexivity].
Qed.

(** C18 *)
Lemma astar_real fuel path c :
  PerformAstarSearch ops eqb starts goal children heuristic limit pick fuel = Ok (path, c) ->
  (path = [] /\ c = cinf ops) \/
  (path <> [] /\ lt c (cinf ops) /\
   (exists d, route ops children starts goal path d /\ le d c) /\
   (exists path', route ops children starts goal path' c)).
Proof.
  destruct (perform_cases fuel) as [[_ ->]|[NS ->]]; [discriminate|].
  pose proof best_goal_start_spec as BG.
  destruct (best_goal_start ops goal starts) as [[s c0]|].
  - destruct BG as (Hin & G & Hlt & _). intros H. rewrite MakeAstarResult_nonempty in H by exact Hlt. injection H as <- <-.
    right. split; [discriminate|]. split; [exact Hlt|].
    assert (route ops children starts goal [s] c0) as R.
    { exists s, c0, s. split; [exact Hin|]. split; [exact G|]. constructor. }
    split; [exists c0|exists [s]]; auto. split; [exact R|apply cl_refl, L].
  - intros H. pose proof (astar_search_post fuel) as SP. rewrite H in SP.
    inversion SP as [| | |HN E|p c1 d g NE G W Hd RL OPT E].
    + left. auto.
    + symmetry in E. destruct (MakeAstarResult_ok _ _ _ (eq_sym E) NE) as (E1 & Hlt). injection E1 as -> ->.
      right. split; [exact NE|]. split; [exact Hlt|]. destruct W as (s & c0 & Hin & W).
      split; [exists d; split; [exists s, c0, g; auto|exact Hd]|].
      destruct RL as (s1 & c1' & l1 & Hin1 & W1). exists l1, s1, c1', g. auto.
Qed.

(** C20 partial: no start is itself a goal. *)
Lemma astar_optimal fuel path c :
  admissible ops children goal heuristic ->
  (forall s c, In (s, c) starts -> goal s = false) ->
  PerformAstarSearch ops eqb starts goal children heuristic limit pick fuel = Ok (path, c) ->
  (path <> [] -> exists d, route ops children starts goal path d /\ le d c /\ le c d) /\
  (forall path' d', route ops children starts goal path' d' -> path <> [] /\ le c d').
Proof.
  intros A NG. destruct (perform_cases fuel) as [[_ ->]|[NS ->]]; [discriminate|].
  pose proof best_goal_start_spec as BG.
  destruct (best_goal_start ops goal starts) as [[s c0]|].
  - destruct BG as (Hin & G & _). rewrite (NG s c0 Hin) in G. discriminate.
  - intros H. pose proof (astar_search_post fuel) as SP. rewrite H in SP.
    inversion SP as [| | |HN E|p c1 d g NE G W Hd RL OPT E].
    + split; [congruence|]. intros p' d' R. exfalso. eapply HN, R.
    + destruct (MakeAstarResult_ok _ _ _ (eq_sym (eq_sym E)) NE) as (E1 & Hlt). injection E1 as -> ->.
      destruct W as (s & c0 & Hin & W).
      assert (route ops children starts goal p d) as R by (exists s, c0, g; auto).
      assert (forall path' d', route ops children starts goal path' d' -> le c1 d') as O.
      { apply OPT; [exact A|exact NG]. }
      split; [intros _; exists d; split; [exact R|]; split; [exact Hd|]; eapply O, R|].
      intros p' d' R'. split; [exact NE|]. eapply O, R'.
Qed.

(** C19: starts of equal cost; a start may itself be a goal. *)
Lemma astar_optimal_equal fuel path c :
  admissible ops children goal heuristic ->
  (forall s c s' c', In (s, c) starts -> In (s', c') starts -> le c c') ->
  PerformAstarSearch ops eqb starts goal children heuristic limit pick fuel = Ok (path, c) ->
  (path <> [] -> exists d, route ops children starts goal path d /\ le d c /\ le c d) /\
  (forall path' d', route ops children starts goal path' d' -> path <> [] /\ le c d').
Proof.
  intros A EQ H.
  pose proof best_goal_start_spec as BG. destruct (best_goal_start ops goal starts) as [[s c0]|] eqn:EB.
  2:{ eapply astar_optimal; eauto. }
  destruct BG as (Hin & G & Hlt & _).
  destruct (perform_cases fuel) as [[_ HP]|[NS HP]]; rewrite HP in H; [discriminate|]. rewrite EB in H.
  rewrite MakeAstarResult_nonempty in H by exact Hlt. injection H as <- <-.
  assert (route ops children starts goal [s] c0) as R.
  { exists s, c0, s. split; [exact Hin|]. split; [exact G|]. constructor. }
  split; [intros _; exists c0; split; [exact R|]; split; apply cl_refl, L|].
  intros p d (s1 & c1 & g1 & Hin1 & G1 & W). split; [discriminate|].
  eapply cl_trans; [exact L|eapply EQ; [exact Hin|exact Hin1]|].
  eapply walk_nonneg; [exact L| |exact W]. intros a b w Hw. eapply (proj2 CO), Hw.
Qed.

(** C21 *)
Lemma astar_terminates space branching fuel :
  finite_space children starts space ->
  (forall s cs, In s space -> children s = Ok cs -> length cs <= branching) ->
  (forall s, In s space -> children s <> Diverge) ->
  length starts * (branching + 1) ^ length space <= fuel ->
  PerformAstarSearch ops eqb starts goal children heuristic limit pick fuel <> Diverge.
Proof.
  intros FS BR ND HF. destruct (perform_cases fuel) as [[_ ->]|[NS ->]]; [discriminate|].
  destruct (best_goal_start ops goal starts) as [[s c]|].
  { unfold MakeAstarResult. destruct (cisinf ops c); discriminate. }
  unfold astar_search.
  pose proof (init_inv ops eqb eqb_ok L starts goal children heuristic limit CO starts [] [] []) as I.
  pose proof (start_backs starts [] []) as SB.
  destruct (fold_left (push_start ops eqb limit heuristic) starts ([], [])) as [q m].
  destruct I as [I LQ]; [intros e []|discriminate|intros s c []|intros e []|reflexivity|].
  cbn [fst] in SB. specialize (SB (fun e H => match H with end)).
  pose proof (astar_loop_post ops eqb eqb_ok L starts goal children heuristic limit CO pick VP fuel 0 q m [] I) as PP.
  assert (astar_loop ops eqb goal children heuristic limit pick fuel 0 q m [] <> Diverge) as NDV.
  { eapply (astar_loop_terminates ops eqb eqb_ok L starts goal children heuristic limit CO pick VP space branching);
      [exact FS|exact BR|exact I|eapply start_lineage; eauto| |exact ND].
    clear - HF LQ. unfold weigh. rewrite map_map. simpl.
    assert (list_sum (map (fun _ : pq_elem T C => (branching + 1) ^ (length space - 0)) q) =
            length q * (branching + 1) ^ length space) as ->.
    { rewrite Nat.sub_0_r. clear. induction q; simpl; lia. }
    simpl in LQ. nia. }
  inversion PP as [E|s c0 e RL E1 E|s c0 RL E1 E|s c0 RL E1 E|m' ex I' E|q' m' ex top rest I' P M B G E]; rewrite <- E in NDV; cbn [bind]; try congruence; try discriminate.
  set (ex' := map_put (el_state top) (el_cost top, el_back top) ex).
  assert (explored_ok ops eqb starts children ex') as EX by (eapply expand_explored; eauto).
  assert (map_find eqb (el_state top) ex' = Some (el_cost top, el_back top)) as F.
  { unfold ex'. rewrite map_find_put, (eqb_refl' eqb eqb_ok). reflexivity. }
  destruct (extract_spec ops eqb eqb_ok L starts goal children heuristic ex' _ _ _ EX F)
      as (path & s & c0 & d & Hs & W & Hd & NE & Ex). rewrite Ex.
  unfold MakeAstarResult. destruct path; [discriminate|]. destruct (cisinf ops (el_cost top)); discriminate.
Qed.

Lemma astar_complete space branching fuel :
  starts <> [] ->
  finite_space children starts space ->
  (forall s, In s space -> exists cs, children s = Ok cs /\ length cs <= branching) ->
  (forall s c l t d, In (s, c) starts -> walk ops child s c l t d -> lt d (cinf ops)) ->
  length starts * (branching + 1) ^ length space <= fuel ->
  exists path c,
    PerformAstarSearch ops eqb starts goal children heuristic limit pick fuel = Ok (path, c) /\
    (path <> [] <-> exists path' d', route ops children starts goal path' d').
Proof.
  intros NS FS CH FIN HF.
  assert (PerformAstarSearch ops eqb starts goal children heuristic limit pick fuel <> Diverge) as ND.
  { apply (astar_terminates space branching); auto.
    - intros s cs Hs E. destruct (CH s Hs) as (cs' & E' & Hb). rewrite E in E'. injection E' as <-. auto.
    - intros s Hs E. destruct (CH s Hs) as (cs' & E' & Hb). congruence. }
  assert (forall s c, realised ops starts children s c -> In s space) as RS.
  { intros s c (s1 & c1 & l & Hin & W). pose proof (proj1 FS _ _ Hin) as H. clear Hin.
    induction W as [|a b m w l t d Hs W IH]; [exact H|]. apply IH. eapply (proj2 FS); eauto. }
  destruct (perform_cases fuel) as [[? _]|[_ HP]]; [congruence|]. rewrite HP in *.
  pose proof best_goal_start_spec as BG.
  destruct (best_goal_start ops goal starts) as [[s c]|].
  - destruct BG as (Hin & G & Hlt & _). rewrite MakeAstarResult_nonempty by exact Hlt.
    exists [s], c. split; [reflexivity|]. split; [|discriminate]. intros _. exists [s], c, s, c, s.
    split; [exact Hin|]. split; [exact G|constructor].
  - pose proof (astar_search_post fuel) as SP.
    inversion SP as [s cx e RL E1 E|s cx RL E1 E|E|HN E|p c1 d g NE G W Hd RL OPT E].
    + destruct (CH s (RS _ _ RL)) as (? & ? & _). congruence.
    + destruct (CH s (RS _ _ RL)) as (? & ? & _). congruence.
    + congruence.
    + exists [], (cinf ops). split; [reflexivity|]. split; [congruence|]. intros (p & d & R). exfalso. eapply HN, R.
    + exists p, c1. destruct RL as (s1 & c1' & l1 & Hin1 & W1).
      rewrite MakeAstarResult_nonempty by (eapply FIN; eauto). split; [reflexivity|]. split; [|auto].
      intros _. destruct W as (s & c0 & Hin & W). exists p, d, s, c0, g. auto.
Qed.
End Top.

(** A picker that always takes the first minimal entry. *)
Fixpoint min_pos {E C} (ops : cost_ops C) (key : E -> C) (q : list E) : nat * option E :=
  match q with
  | [] => (O, None)
  | e :: r => match min_pos ops key r with
              | (_, None) => (O, Some e)
              | (i, Some m) => if cltb ops (key m) (key e) then (S i, Some m) else (O, Some e)
              end
  end.
Definition first_min {E C} (ops : cost_ops C) (key : E -> C) : picker E :=
  fun _ q => fst (min_pos ops key q).

Lemma first_min_valid {E C} (ops : cost_ops C) (L : cost_laws ops) (key : E -> C) :
  valid_pick ops key (first_min ops key).
Proof.
  intros k q NE. unfold first_min.
  assert (match min_pos ops key q with
          | (_, None) => q = []
          | (i, Some e) => nth_error q i = Some e /\ forall e', In e' q -> cle ops (key e) (key e')
          end) as H.
  { clear k NE. induction q as [|e q IH]; [reflexivity|]. simpl. destruct (min_pos ops key q) as [i [m|]].
    - destruct IH as [H1 H2]. destruct (cltb ops (key m) (key e)) eqn:E1.
      + split; [exact H1|]. intros e' [<-|H]; [apply (lt_le ops L), E1|auto].
      + split; [reflexivity|]. intros e' [<-|H]; [apply cl_refl, L|].
        eapply cl_trans; [exact L|exact E1|auto].
    - subst q. split; [reflexivity|]. intros e' [<-|[]]. apply cl_refl, L. }
  destruct (min_pos ops key q) as [i [m|]]; [|congruence]. exists m. exact H.
Qed.
