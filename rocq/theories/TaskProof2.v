(** The selection of the next primitive and the execution loop (C67, C87). *)
From Coq Require Import String.
From Verif Require Import Base SearchModel SearchSpec SearchProof SearchProof2 TaskModel TaskSpec TaskProof.
Local Open Scope Z_scope.
Local Open Scope list_scope.

Section Planning.
Context {State C W : Type} (ops : cost_ops C) (L : cost_laws ops).
Context (eqb : State -> State -> bool) (EQ : forall a b, eqb a b = true <-> a = b).
Notation prim := (primitive State C W).
Context (w : W) (ps : list prim) (complete : W -> State -> bool) (h : option (W -> State -> C)).
Context (pick : picker (pq_elem (State * Z) C)) (VP : valid_pick ops (@el_value (State * Z) C) pick).
Notation children := (fun o : State * Z => generate_children ops w 0 ps (fst o)).
Notation goal := (fun o : State * Z => complete w (fst o)).
Notation heur := (fun o : State * Z => match h with Some h => h w (fst o) | None => czero ops end).
Notation starts os := (map (fun s : State => ((s, -1), czero ops)) os).

Lemma outcome_equal_ok (a b : State * Z) : outcome_equal eqb a b = true <-> a = b.
Proof.
  destruct a as [s i], b as [t j]. unfold outcome_equal. cbn. rewrite andb_true_iff, Z.eqb_eq, EQ.
  split; [intros [-> ->]; reflexivity|intros [= -> ->]; auto].
Qed.

Lemma package_in k (os : list (State * C)) cs : package ops k os = Ok cs -> forall t j c, In ((t, j), c) cs <-> j = k /\ In (t, c) os /\ cltb ops c (czero ops) = false.
Proof.
  revert cs. induction os as [|[s c] os IH]; intros cs; cbn [package].
  - intros [= <-]. intros t j c. cbn. tauto.
  - unfold MakeStateWithCost. destruct (cltb ops c (czero ops)) eqn:E; [discriminate|]. cbn [bind].
    destruct (package ops k os) as [xs| | |] eqn:Ex; try discriminate. cbn [bind]. intros [= <-] t j c'. cbn [In]. rewrite (IH xs eq_refl). split.
    + intros [[= <- <- <-]|(-> & H & N)]; [repeat split; auto|repeat split; auto].
    + intros (-> & [[= -> ->]|H] & N); [now left|right; auto].
Qed.
Lemma package_ok k (os : list (State * C)) : (forall t c, In (t, c) os -> cle ops (czero ops) c) -> exists cs, package ops k os = Ok cs.
Proof.
  induction os as [|[s c] os IH]; intros H; cbn [package]; [now eexists|].
  unfold MakeStateWithCost. rewrite (H s c (or_introl eq_refl)). cbn [bind]. destruct IH as [cs ->]; [intros t c' H'; apply (H t c'); now right|]. now eexists.
Qed.

Lemma generated_in (s : State) : forall (qs : list prim) k cs, generate_children ops w k qs s = Ok cs -> forall t j c, In ((t, j), c) cs ->
  k <= j /\ cltb ops c (czero ops) = false /\ exists p os, nth_error qs (Z.to_nat (j - k)) = Some p /\ IsCandidate p w s = true /\ GetOutcomes p w s = Ok os /\ In (t, c) os.
Proof.
  induction qs as [|q qs IH]; intros k cs; cbn [generate_children].
  - now intros [= <-].
  - set (here := if IsCandidate q w s then _ else _). destruct here as [hs| | |] eqn:Eh; try discriminate. cbn [bind].
    destruct (generate_children ops w (k + 1) qs s) as [ts| | |] eqn:Et; try discriminate. cbn [bind]. intros [= <-] t j c Hin.
    apply in_app_iff in Hin as [Hin|Hin].
    + unfold here in Eh. destruct (IsCandidate q w s) eqn:Ec; [|injection Eh as <-; contradiction].
      destruct (GetOutcomes q w s) as [os| | |] eqn:Eo; try discriminate. cbn [bind] in Eh.
      apply (package_in k os hs Eh) in Hin as (-> & Hin & N). split; [lia|]. split; [exact N|]. exists q, os. rewrite Z.sub_diag. auto.
    + destruct (IH (k + 1) ts Et t j c Hin) as (Hk & N & p & os & A & B & D & E). split; [lia|]. split; [exact N|]. exists p, os.
      replace (Z.to_nat (j - k)) with (S (Z.to_nat (j - (k + 1)))) by lia. auto.
Qed.

Lemma generated_all (s : State) : forall (qs : list prim) k, (forall p, In p qs -> IsCandidate p w s = true ->
    exists outcomes, GetOutcomes p w s = Ok outcomes /\ forall t c, In (t, c) outcomes -> cle ops (czero ops) c) ->
  exists cs, generate_children ops w k qs s = Ok cs /\
  forall p t c os, In p qs -> IsCandidate p w s = true -> GetOutcomes p w s = Ok os -> In (t, c) os -> exists j, In ((t, j), c) cs.
Proof.
  induction qs as [|q qs IH]; intros k F; cbn [generate_children].
  - eexists. split; [reflexivity|]. intros p t c os [].
  - destruct (IH (k + 1)) as (ts & Et & Hts); [intros p Hp; apply F; now right|]. rewrite Et.
    destruct (IsCandidate q w s) eqn:Ec.
    + destruct (F q (or_introl eq_refl) Ec) as (os & Eo & NN). rewrite Eo. cbn [bind]. destruct (package_ok k os NN) as [hs Eh]. rewrite Eh. cbn [bind].
      eexists. split; [reflexivity|]. intros p t c os' [<-|Hp] Cp Op Hin.
      * rewrite Eo in Op. injection Op as <-. exists k. apply in_app_iff. left. apply (package_in k os hs Eh). repeat split; auto. apply (NN t c Hin).
      * destruct (Hts p t c os' Hp Cp Op Hin) as [j Hj]. exists j. apply in_app_iff. now right.
    + cbn [bind]. eexists. split; [reflexivity|]. intros p t c os' [<-|Hp] Cp Op Hin; [congruence|].
      destruct (Hts p t c os' Hp Cp Op Hin) as [j Hj]. now exists j.
Qed.

Lemma costs_fine os : costs_ok ops children (starts os).
Proof.
  split.
  - intros s c H. apply in_map_iff in H as (x & [= <- <-] & _). split; [apply cl_refl, L|apply cl_zero_inf, L].
  - intros s [t j] c (cs & E & Hin). exact (proj1 (proj2 (generated_in (fst s) ps 0 cs E t j c Hin))).
Qed.

(** A step of the search is a possible step of the task. *)
Lemma child_step s i t j c : child_of children (s, i) (t, j) c ->
  0 <= j /\ exists p, nth_error ps (Z.to_nat j) = Some p /\ may_lead ps w p s t c.
Proof.
  intros (cs & E & Hin). cbn [fst] in E. destruct (generated_in s ps 0 cs E t j c Hin) as (Hj & _ & p & os & A & B & D & F).
  split; [exact Hj|]. rewrite Z.sub_0_r in A. exists p. split; [exact A|]. split; [eapply nth_error_In, A|]. split; [exact B|]. now exists os.
Qed.
Lemma project_walk s c l g d : walk ops (child_of children) s c l g d -> walk ops (task_step ps w) (fst s) c (map fst l) (fst g) d.
Proof.
  induction 1 as [s c|s c m x l t d Hs _ IH]; [constructor|]. cbn [map]. econstructor; [|exact IH].
  destruct s as [s i], m as [m j]. destruct (child_step s i m j x Hs) as (_ & p & _ & M). now exists p.
Qed.
Lemma lift_walk s c l t d : outcomes_fine ops ps w -> walk ops (task_step ps w) s c l t d ->
  forall i, exists l' j, walk ops (child_of children) (s, i) c l' (t, j) d.
Proof.
  intros F. induction 1 as [s c|s c m x l t d (p & Hp & Cp & os & Eo & Hin) _ IH]; intros i; [do 2 eexists; constructor|].
  destruct (generated_all s ps 0) as (cs & Ec & Hcs); [intros q Hq; apply (F q s Hq)|].
  destruct (Hcs p m x os Hp Cp Eo Hin) as [j Hj]. destruct (IH j) as (l' & j' & Wk). exists ((s, i) :: l'), j'.
  econstructor; [|exact Wk]. exists cs. now split.
Qed.

Lemma find_first (s : State) os : forall k, (In s os -> k <= find_outcome eqb s k os < k + Z.of_nat (length os) /\ nth_error os (Z.to_nat (find_outcome eqb s k os - k)) = Some s) /\
  (~ In s os -> find_outcome eqb s k os = -1).
Proof.
  induction os as [|t os IH]; intros k; cbn [find_outcome].
  - split; [intros []|reflexivity].
  - destruct (eqb s t) eqn:E.
    + apply EQ in E. subst t. split; [|intros N; exfalso; apply N; now left]. intros _. cbn [length]. rewrite Z.sub_diag. split; [lia|reflexivity].
    + assert (NE : t <> s) by (intros ->; assert (eqb s s = true) by (now apply EQ); congruence).
      destruct (IH (k + 1)) as [A B]. split.
      * intros [<-|Hin]; [congruence|]. destruct (A Hin) as [R N]. cbn [length]. split; [lia|].
        replace (Z.to_nat (find_outcome eqb s (k + 1) os - k)) with (S (Z.to_nat (find_outcome eqb s (k + 1) os - (k + 1)))) by lia. exact N.
      * intros N. apply B. intros H. apply N. now right.
Qed.

Lemma walk_head {T} (step : T -> T -> C -> Prop) s c l t d : walk ops step s c l t d ->
  (l = [s] /\ t = s /\ d = c) \/ exists m x r, step s m x /\ l = s :: m :: r /\ walk ops step m (cadd ops c x) (m :: r) t d.
Proof.
  destruct 1 as [s c|s c m x l t d Hs Wk]; [now left|]. right. exists m, x.
  inversion Wk as [m' c' Em|m' c' n y l' t' d' Hm Wk' Em]; subst.
  - exists []. repeat split; auto.
  - exists l'. repeat split; auto.
Qed.

(** What the selection returns. *)
Theorem next_ok os fuel plan next idx :
  GetNextPrimitiveToExecute ops eqb w ps complete os h pick fuel = Ok (plan, next, idx) ->
  exists s, at_index os idx = Ok s /\ In s os /\
  match next with
  | None => complete w s = true
  | Some p => (exists t c, may_lead ps w p s t c) /\ forall s', In s' os -> complete w s' = false
  end /\
  (fst plan = [(s, -1)] \/ exists p j t r, next = Some p /\ fst plan = (s, -1) :: (t, j) :: r /\ 0 <= j /\ nth_error ps (Z.to_nat j) = Some p) /\
  PlanTaskStateSequence ops eqb w ps complete os h pick fuel = Ok plan.
Proof.
  unfold GetNextPrimitiveToExecute. destruct os as [|o os]; [discriminate|]. set (all := o :: os).
  destruct (PlanTaskStateSequence ops eqb w ps complete all h pick fuel) as [[path cost]| | |] eqn:EP; try discriminate. cbn [bind].
  destruct (cisinf ops cost) eqn:EI; [discriminate|]. intros H.
  pose proof EP as PP. unfold PlanTaskStateSequence in PP.
  pose proof (astar_real ops (outcome_equal eqb) outcome_equal_ok L (starts all) goal children heur true (costs_fine all) pick VP fuel path cost PP) as [[-> ->]|(NE & _ & (d & R & _) & _)].
  { exfalso. assert (cisinf ops (cinf ops) = true) by (apply (cl_isinf _ L), cl_refl, L). congruence. }
  destruct R as (s0 & c0 & g & Hin & Hg & Wk). apply in_map_iff in Hin as (s & [= <- <-] & Hs).
  destruct (proj1 (find_first s all 0) Hs) as [FR FN]. rewrite Z.sub_0_r in FN.
  assert (AT : at_index all (find_outcome eqb s 0 all) = Ok s).
  { unfold at_index. destruct (find_outcome eqb s 0 all <? 0) eqn:E; [apply Z.ltb_lt in E; lia|]. unfold at_get. now rewrite FN. }
  destruct (walk_head _ _ _ _ _ _ Wk) as [(-> & -> & ->)|([t j] & x & r & Hst & -> & Wk')].
  - cbn [at_get nth_error bind fst snd length] in H. destruct (find_outcome eqb s 0 all <? 0) eqn:E; [discriminate|]. change (1 <? 1)%nat with false in H. cbv iota in H. injection H as <- <- <-.
    exists s. split; [exact AT|]. split; [exact Hs|]. split; [exact Hg|]. split; [now left|reflexivity].
  - cbn [at_get nth_error bind fst snd length] in H. destruct (find_outcome eqb s 0 all <? 0) eqn:E; [discriminate|].
    destruct (child_step s (-1) t j x Hst) as (Hj & p & Ep & M).
    assert (AP : at_index ps j = Ok p).
    { unfold at_index. destruct (j <? 0) eqn:Ej; [apply Z.ltb_lt in Ej; lia|]. unfold at_get. now rewrite Ep. }
    change (1 <? S (S (length r)))%nat with true in H. cbn [bind] in H. rewrite AP in H. cbn [bind] in H. injection H as <- <- <-.
    exists s. split; [exact AT|]. split; [exact Hs|]. split; [split; [now exists t, x|]|split; [right; now exists p, j, t, r|reflexivity]].
    intros s' Hs'. destruct (perform_cases ops (outcome_equal eqb) (starts all) goal children heur true pick fuel) as [[HN _]|[_ HP]]; [discriminate HN|].
    pose proof (best_goal_start_spec ops L (starts all) goal children (costs_fine all)) as BG. rewrite HP in PP.
    destruct (best_goal_start ops goal (starts all)) as [[b cb]|].
    + exfalso. unfold MakeAstarResult in PP. destruct (cisinf ops cb); discriminate PP.
    + apply (BG (s', -1) (czero ops)). apply in_map_iff. now exists s'.
Qed.

(** A plan exists only if some outcome can complete the task, and is cheapest if
    the heuristic is admissible. *)
Lemma fine_admissible : (forall a, cle ops (cadd ops a (czero ops)) a) -> heuristic_fine ops ps w complete h ->
  admissible ops children goal heur.
Proof.
  intros Z0 HF. split.
  - intros n c l g d Hc Hg Wk. pose proof (project_walk _ _ _ _ _ Wk) as PW. destruct h as [hf|].
    + exact (proj1 HF _ _ _ _ _ Hc Hg PW).
    + eapply cl_trans; [exact L|apply Z0|]. eapply walk_nonneg; [exact L| |exact Wk]. intros a b x Hx. exact (proj2 (costs_fine []) a b x Hx).
  - intros g Hg. destruct h as [hf|]; [now apply (proj2 HF)|apply cl_refl, L].
Qed.

Lemma route_completes os path d : route ops children (starts os) goal path d -> exists s, In s os /\ completes_at ops ps w complete s d.
Proof.
  intros (s0 & c0 & g & Hin & Hg & Wk). apply in_map_iff in Hin as (s & [= <- <-] & Hs). exists s. split; [exact Hs|].
  exists (map fst path), (fst g). split; [exact (project_walk _ _ _ _ _ Wk)|exact Hg].
Qed.
Lemma completes_route os s d : outcomes_fine ops ps w -> In s os -> completes_at ops ps w complete s d ->
  exists path, route ops children (starts os) goal path d.
Proof.
  intros F Hs (l & t & Wk & Ht). destruct (lift_walk s (czero ops) l t d F Wk (-1)) as (l' & j & Wk'). exists l'.
  exists (s, -1), (czero ops), (t, j). split; [apply in_map_iff; now exists s|]. now split.
Qed.

Theorem next_cheapest os fuel plan p idx s :
  (forall a, cle ops (cadd ops a (czero ops)) a) -> heuristic_fine ops ps w complete h -> outcomes_fine ops ps w ->
  GetNextPrimitiveToExecute ops eqb w ps complete os h pick fuel = Ok (plan, Some p, idx) -> at_index os idx = Ok s ->
  exists d, completes_with ops ps w complete p s d /\
    forall s' d', In s' os -> completes_at ops ps w complete s' d' -> cle ops d d'.
Proof.
  intros Z0 HF OF H AT. destruct (next_ok os fuel plan (Some p) idx H) as (s1 & AT1 & Hs & _ & PL & EP).
  rewrite AT in AT1. injection AT1 as <-. destruct plan as [path cost].
  pose proof EP as PP. unfold PlanTaskStateSequence in PP.
  destruct (astar_optimal_equal ops (outcome_equal eqb) outcome_equal_ok L (starts os) goal children heur true (costs_fine os) pick VP fuel path cost) as [A B];
    [exact (fine_admissible Z0 HF)| |exact PP|].
  { intros a ca b cb Ha Hb. apply in_map_iff in Ha as (? & [= <- <-] & _). apply in_map_iff in Hb as (? & [= <- <-] & _). apply cl_refl, L. }
  cbn [fst] in PL.
  assert (NE : path <> []) by (destruct PL as [->|(? & ? & ? & ? & _ & -> & _)]; discriminate).
  destruct (A NE) as (d & R & D1 & D2). destruct R as (s0 & c0 & g & Hin & Hg & Wk). apply in_map_iff in Hin as (s2 & [= <- <-] & Hs2).
  exists d. split.
  - destruct (walk_head _ _ _ _ _ _ Wk) as [(E & -> & ->)|([t j] & x & r & Hst & E & Wk')].
    + exfalso. unfold GetNextPrimitiveToExecute in H. destruct os as [|o os]; [discriminate|]. rewrite EP in H. cbn [bind] in H. destruct (cisinf ops cost); [discriminate|].
      rewrite E in H. cbn [at_get nth_error bind fst snd length] in H. destruct (find_outcome eqb s2 0 (o :: os) <? 0); [discriminate|]. change (1 <? 1)%nat with false in H. discriminate.
    + destruct PL as [E'|(p' & j' & t' & r' & Ep & E' & Hj & Np)]; rewrite E in E'; [discriminate|]. injection E' as <- <- <- <-. injection Ep as <-.
      destruct (child_step s2 (-1) t j x Hst) as (_ & q & Nq & M). assert (q = p) by congruence. subst q.
      exists t, x, (map fst ((t, j) :: r)), (fst g). split; [exact M|]. split; [exact (project_walk _ _ _ _ _ Wk')|exact Hg].
  - intros s' d' Hs' CM. destruct (completes_route os s' d' OF Hs' CM) as [path' R']. eapply cl_trans; [exact L|exact D1|]. exact (proj2 (B path' d' R')).
Qed.

(** On a finite space the selection finds a plan exactly if there is one. *)
Lemma lengths_bounded {A B} (f : A -> outcome (list B)) (l : list A) : exists b, forall x y, In x l -> f x = Ok y -> (length y <= b)%nat.
Proof.
  induction l as [|a l [b IH]]; [exists 0%nat; intros x y []|].
  destruct (f a) as [y| | |] eqn:E.
  - exists (Nat.max (length y) b). intros x y' [<-|H] E'; [rewrite E in E'; injection E' as <-; lia|]. specialize (IH x y' H E'). lia.
  - exists b. intros x y' [<-|H] E'; [congruence|eauto].
  - exists b. intros x y' [<-|H] E'; [congruence|eauto].
  - exists b. intros x y' [<-|H] E'; [congruence|eauto].
Qed.
Theorem next_total os space : os <> [] -> outcomes_fine ops ps w ->
  (forall s, In s os -> In s space) -> (forall s t c, In s space -> task_step ps w s t c -> In t space) ->
  (forall s l t d, In s os -> walk ops (task_step ps w) s (czero ops) l t d -> clt ops d (cinf ops)) ->
  exists bound, forall fuel, (bound <= fuel)%nat ->
  ((exists s d, In s os /\ completes_at ops ps w complete s d) /\
   exists plan next idx, GetNextPrimitiveToExecute ops eqb w ps complete os h pick fuel = Ok (plan, next, idx)) \/
  ((forall s d, In s os -> ~ completes_at ops ps w complete s d) /\
   GetNextPrimitiveToExecute ops eqb w ps complete os h pick fuel = Throw RuntimeError).
Proof.
  intros NE OF S1 S2 FIN.
  set (ids := map (fun k => Z.of_nat k - 1) (seq 0 (S (length ps)))).
  set (sp := list_prod space ids).
  destruct (lengths_bounded children sp) as [b Hb].
  exists (length (starts os) * (b + 1) ^ length sp)%nat. intros fuel Hf.
  assert (IDS : forall j, -1 <= j < Z.of_nat (length ps) -> In j ids).
  { intros j Hj. unfold ids. apply in_map_iff. exists (Z.to_nat (j + 1)). split; [lia|]. apply in_seq. lia. }
  assert (FS : finite_space children (starts os) sp).
  { split.
    - intros s c H. apply in_map_iff in H as (x & [= <- <-] & Hx). apply in_prod; [now apply S1|apply IDS; lia].
    - intros [s i] [t j] c Hs CH. apply in_prod_iff in Hs as [Hs _]. destruct (child_step s i t j c CH) as (Hj & p & Np & M).
      apply in_prod; [apply (S2 s t c Hs); exists p; exact M|]. apply IDS.
      assert (Z.to_nat j < length ps)%nat by (apply nth_error_Some; congruence). lia. }
  destruct (astar_complete ops (outcome_equal eqb) outcome_equal_ok L (starts os) goal children heur true (costs_fine os) pick VP sp b fuel) as (path & cost & EP & IFF).
  - destruct os; [congruence|discriminate].
  - exact FS.
  - intros [s i] Hs. destruct (generated_all s ps 0) as (cs & Ec & _); [intros q Hq; apply (OF q s Hq)|]. exists cs. cbn [fst]. split; [exact Ec|]. apply (Hb (s, i) cs Hs). exact Ec.
  - intros s c l t d Hin Wk. apply in_map_iff in Hin as (x & [= <- <-] & Hx). exact (FIN x _ _ _ Hx (project_walk _ _ _ _ _ Wk)).
  - exact Hf.
  - pose proof (astar_real ops (outcome_equal eqb) outcome_equal_ok L (starts os) goal children heur true (costs_fine os) pick VP fuel path cost EP) as RE.
    destruct path as [|f path].
    + right. split.
      * intros s d Hs CM. destruct (completes_route os s d OF Hs CM) as [p' R]. apply (proj2 IFF); [now exists p', d|reflexivity].
      * destruct RE as [[_ ->]|[N _]]; [|congruence]. unfold GetNextPrimitiveToExecute, PlanTaskStateSequence. rewrite EP. cbn [bind].
        assert (cisinf ops (cinf ops) = true) as -> by (apply (cl_isinf _ L), cl_refl, L). destruct os; [congruence|reflexivity].
    + left. destruct RE as [[N _]|(_ & CF & (d & R & _) & _)]; [discriminate|]. split.
      * destruct (route_completes os _ _ R) as (s & Hs & CM). now exists s, d.
      * unfold GetNextPrimitiveToExecute, PlanTaskStateSequence. rewrite EP. cbn [bind].
        assert (cisinf ops cost = false) as ->.
        { destruct (cisinf ops cost) eqn:E; [|reflexivity]. apply (cl_isinf _ L) in E. unfold clt, cle in *. congruence. }
        destruct R as (s0 & c0 & g & Hin & Hg & Wk). apply in_map_iff in Hin as (s & [= <- <-] & Hs).
        destruct (proj1 (find_first s os 0) Hs) as [FR FN].
        assert (FNN : (find_outcome eqb s 0 os <? 0) = false) by (apply Z.ltb_ge; lia).
        destruct (walk_head _ _ _ _ _ _ Wk) as [(E & -> & ->)|([t j] & x & r & Hst & E & Wk')]; rewrite E; cbn [at_get nth_error bind fst snd length]; rewrite FNN.
        -- destruct os; [congruence|]. cbn. now do 3 eexists.
        -- destruct (child_step s (-1) t j x Hst) as (Hj & p & Ep & M). change (1 <? S (S (length r)))%nat with true. cbn [bind].
           assert (AP : at_index ps j = Ok p).
           { unfold at_index. destruct (j <? 0) eqn:Ej; [apply Z.ltb_lt in Ej; lia|]. unfold at_get. now rewrite Ep. }
           rewrite AP. destruct os; [congruence|]. cbn. now do 3 eexists.
Qed.
End Planning.

(** * The execution loop *)
Section Loop.
Context {State C W : Type} (ops : cost_ops C) (L : cost_laws ops).
Context (eqb : State -> State -> bool) (EQ : forall a b, eqb a b = true <-> a = b).
Notation prim := (primitive State C W).
Notation ev := (event State C W).
Context (lg : option (string -> outcome unit)) (ps : list prim) (complete : W -> State -> bool) (mx : Z)
  (h : option (W -> State -> C)) (cbs : callbacks State C W) (pick_of : nat -> picker (pq_elem (State * Z) C)) (sf : nat).
Notation loop := (execution_loop ops eqb lg ps complete mx h cbs pick_of sf).
Implicit Types (log : list ev).

Lemma executions_cons (e : ev) log : executions (e :: log) = (if is_execution e then 1 else 0) + executions log.
Proof. unfold executions. cbn [filter]. destruct (is_execution e); cbn [length]; lia. Qed.
Lemma executions_nonneg log : 0 <= executions log.
Proof. unfold executions. lia. Qed.


Lemma choice k w os plan next idx : (forall n, valid_pick ops (@el_value (State * Z) C) (pick_of n)) ->
  GetNextPrimitiveToExecute ops eqb w ps complete os h (pick_of k) sf = Ok (plan, next, idx) ->
  exists s, at_index os idx = Ok s /\ good_choice ps complete w os s next.
Proof.
  intros VP H. destruct (next_ok ops L eqb EQ w ps complete h (pick_of k) (VP k) os sf plan next idx H) as (s & A & B & D & _).
  exists s. split; [exact A|]. split; [exact B|]. destruct next as [p|]; [|exact D]. destruct D as [(t & c & M) D]. destruct M as (M1 & M2 & _). auto.
Qed.

Lemma loop_spec : (forall n, valid_pick ops (@el_value (State * Z) C) (pick_of n)) ->
  forall fuel k w os trace n log r, 0 <= n -> (0 <= mx -> n <= mx) -> loop fuel k w os trace n = (log, r) ->
  task_run ps complete os log /\
  (0 <= mx -> n + executions log <= mx) /\
  forall t w', r = Ok (t, w') -> t = trace ++ selected_states log /\
    ((0 <= mx /\ n + executions log = mx) \/ exists log0 w0 os0 s, log = log0 ++ [Plans w0 os0 s None]).
Proof.
  intros VP. induction fuel as [|fuel IH]; intros k w os trace n log r Hn Hm; cbn [execution_loop].
  - destruct (negb _) eqn:E.
    + intros [= <- <-]. split; [constructor|]. split; [unfold executions; cbn; lia|]. intros t w' [= <- <-]. split; [now rewrite app_nil_r|].
      left. apply negb_true_iff, orb_false_iff in E as [E1 E2]. apply Z.ltb_ge in E1, E2. unfold executions. cbn. lia.
    + intros [= <- <-]. split; [constructor|]. split; [unfold executions; cbn; lia|]. discriminate.
  - destruct (negb _) eqn:E.
    { intros [= <- <-]. split; [constructor|]. split; [unfold executions; cbn; lia|]. intros t w' [= <- <-]. split; [now rewrite app_nil_r|].
      left. apply negb_true_iff, orb_false_iff in E as [E1 E2]. apply Z.ltb_ge in E1, E2. unfold executions. cbn. lia. }
    apply negb_false_iff, orb_true_iff in E.
    destruct (GetNextPrimitiveToExecute ops eqb w ps complete os h (pick_of k) sf) as [[[plan next] idx]|e| |] eqn:EN;
      try (intros [= <- <-]; split; [constructor|]; split; [unfold executions; cbn; lia|discriminate]).
    destruct (choice k w os plan next idx VP EN) as (s & AT & GC). rewrite AT.
    assert (ONE : forall (r' : outcome (list State * W)), ([Plans w os s next], r') = (log, r) -> (forall t w', r' <> Ok (t, w')) ->
      task_run ps complete os log /\ (0 <= mx -> n + executions log <= mx) /\
      forall t w', r = Ok (t, w') -> t = trace ++ selected_states log /\
        ((0 <= mx /\ n + executions log = mx) \/ exists log0 w0 os0 s, log = log0 ++ [Plans w0 os0 s None])).
    { intros r' [= <- <-] NO. split; [now constructor|]. split; [unfold executions; cbn; lia|]. intros t w' ->. exfalso. now apply (NO t w'). }
    destruct (match post_outcome cbs with Some f => f w os idx plan | None => Ok w end) as [w1| | |];
      try (intros HE; eapply ONE; [exact HE|discriminate]).
    destruct next as [p|].
    2:{ intros [= <- <-]. split; [now constructor|]. split; [unfold executions; cbn; lia|]. intros t w' [= <- <-]. split; [reflexivity|]. right. now exists [], w, os, s. }
    destruct (match pre_execution cbs with Some f => f w1 s p plan | None => Ok w1 end) as [w2| | |];
      try (intros HE; eapply ONE; [exact HE|discriminate]).
    destruct (Log lg (Name p)) as [u| | |];
      try (intros HE; eapply ONE; [exact HE|discriminate]).
    destruct (n =? int32_max); [intros HE; eapply ONE; [exact HE|discriminate]|].
    assert (N1 : 0 <= mx -> n + 1 <= mx) by (rewrite !Z.ltb_lt in E; lia).
    assert (TWO : forall (r' : outcome (list State * W)), ([Plans w os s (Some p); Executes w2 p s], r') = (log, r) -> (forall t w', r' <> Ok (t, w')) ->
      task_run ps complete os log /\ (0 <= mx -> n + executions log <= mx) /\
      forall t w', r = Ok (t, w') -> t = trace ++ selected_states log /\
        ((0 <= mx /\ n + executions log = mx) \/ exists log0 w0 os0 s, log = log0 ++ [Plans w0 os0 s None])).
    { intros r' [= <- <-] NO. split; [now apply run_executed|]. split; [unfold executions; cbn; lia|]. intros t w' ->. exfalso. now apply (NO t w'). }
    destruct (Execute p w2 s) as [[os' w3]| | |] eqn:EX;
      try (intros HE; eapply TWO; [exact HE|discriminate]).
    destruct (match post_execution cbs with Some f => f w3 os' | None => Ok w3 end) as [w4| | |];
      try (intros HE; eapply TWO; [exact HE|discriminate]).
    destruct (loop fuel (S k) w4 os' (trace ++ [s]) (n + 1)) as [log' r'] eqn:EL.
    unfold logged. cbn [fst snd]. intros [= <- <-].
    assert (N0 : 0 <= n + 1) by lia. destruct (IH _ _ _ _ _ _ _ N0 N1 EL) as (A & B & D).
    split; [eapply run_more; eauto|]. split; [rewrite !executions_cons; cbn [is_execution]; lia|].
    intros t w' Er. destruct (D t w' Er) as [D1 D2]. split; [rewrite D1; cbn [selected_states flat_map app]; rewrite <- app_assoc; reflexivity|].
    destruct D2 as [D2|(log0 & w0 & os0 & s0 & ->)].
    + left. rewrite !executions_cons. cbn [is_execution]. lia.
    + right. exists (Plans w os s (Some p) :: Executes w2 p s :: log0), w0, os0, s0. reflexivity.
Qed.

Lemma loop_returns : (forall n, valid_pick ops (@el_value (State * Z) C) (pick_of n)) ->
  everything_returns lg ps cbs -> mx <= int32_max ->
  (forall k w os, calls_return (GetNextPrimitiveToExecute ops eqb w ps complete os h (pick_of k) sf)) ->
  forall fuel k w os trace n, 0 <= n <= mx -> mx - n <= Z.of_nat fuel -> calls_return (snd (loop fuel k w os trace n)).
Proof.
  intros VP (R1 & R2 & R3 & R4 & R5) HM RN. induction fuel as [|fuel IH]; intros k w os trace n Hn Hf; cbn [execution_loop].
  - destruct (n <? mx) eqn:E1; [apply Z.ltb_lt in E1; lia|]. destruct (mx <? 0) eqn:E2; [apply Z.ltb_lt in E2; lia|]. cbn. split; discriminate.
  - destruct (negb _) eqn:E; [cbn; split; discriminate|].
    apply negb_false_iff, orb_true_iff in E. assert (LT : n < mx) by (rewrite !Z.ltb_lt in E; lia). clear E.
    specialize (RN k w os). destruct (GetNextPrimitiveToExecute ops eqb w ps complete os h (pick_of k) sf) as [[[plan next] idx]|e| |] eqn:EN;
      [|cbn; split; discriminate|now destruct (proj2 RN)|now destruct (proj1 RN)].
    destruct (choice k w os plan next idx VP EN) as (s & AT & GC). rewrite AT.
    assert (RP : calls_return (match post_outcome cbs with Some f => f w os idx plan | None => Ok w end)).
    { destruct (post_outcome cbs) as [f|] eqn:EC; [now apply R5|split; discriminate]. }
    destruct (match post_outcome cbs with Some f => f w os idx plan | None => Ok w end) as [w1| | |]; [|cbn; split; discriminate|now destruct (proj2 RP)|now destruct (proj1 RP)].
    destruct next as [p|]; [|cbn; split; discriminate].
    assert (RQ : calls_return (match pre_execution cbs with Some f => f w1 s p plan | None => Ok w1 end)).
    { destruct (pre_execution cbs) as [f|] eqn:EC; [now apply R3|split; discriminate]. }
    destruct (match pre_execution cbs with Some f => f w1 s p plan | None => Ok w1 end) as [w2| | |]; [|cbn; split; discriminate|now destruct (proj2 RQ)|now destruct (proj1 RQ)].
    specialize (R1 (Name p)). destruct (Log lg (Name p)) as [u| | |]; [|cbn; split; discriminate|now destruct (proj2 R1)|now destruct (proj1 R1)].
    destruct (n =? int32_max) eqn:E; [apply Z.eqb_eq in E; lia|].
    assert (RX := R2 p w2 s (proj1 (proj2 GC))). destruct (Execute p w2 s) as [[os' w3]| | |] eqn:EX; [|cbn; split; discriminate|now destruct (proj2 RX)|now destruct (proj1 RX)].
    assert (RY : calls_return (match post_execution cbs with Some f => f w3 os' | None => Ok w3 end)).
    { destruct (post_execution cbs) as [f|] eqn:EC; [now apply R4|split; discriminate]. }
    destruct (match post_execution cbs with Some f => f w3 os' | None => Ok w3 end) as [w4| | |]; [|cbn; split; discriminate|now destruct (proj2 RY)|now destruct (proj1 RY)].
    cbn. apply IH; lia.
Qed.
End Loop.
