(** A* with children, validity and distance functions. *)
From Verif Require Import Base GraphModel GraphSpec GraphProof SearchModel SearchSpec SearchProof SearchProof2
  SearchProof3 SearchProof4 Double SearchDouble SearchPairSpec.
Local Open Scope Z_scope.

Section Pair.
Context {T C : Type} (ops : cost_ops C) (eqb : T -> T -> bool) (EQ : forall a b, eqb a b = true <-> a = b) (L : cost_laws ops).
Variables (children : T -> list T) (valid : T -> T -> bool) (distance heuristic : T -> T -> C).
Notation kids := (fun s => valid_children ops valid distance s (children s)).
Notation use := (usable children valid distance).

Lemma kids_sound s l cs : valid_children ops valid distance s l = Ok cs ->
  forall t w, In (t, w) cs -> In t l /\ valid s t = true /\ w = distance s t /\ cle ops (czero ops) w.
Proof.
  revert cs. induction l as [|c r IH]; intros cs E t w I; cbn in E.
  - injection E as <-. destruct I.
  - destruct (valid s c) eqn:V.
    + unfold MakeStateWithCost in E. destruct (cltb ops (distance s c) (czero ops)) eqn:N; [discriminate|].
      cbn [bind] in E. destruct (valid_children ops valid distance s r) as [xs| | |] eqn:R; try discriminate. injection E as <-.
      destruct I as [I|I].
      * injection I as <- <-. repeat split; auto. now left.
      * destruct (IH xs eq_refl t w I) as (A & B & D). split; [now right|split; [exact B|exact D]].
    + destruct (IH cs E t w I) as (A & B & D). split; [now right|split; [exact B|exact D]].
Qed.
Lemma kids_complete s l : (forall t, In t l -> valid s t = true -> cle ops (czero ops) (distance s t)) ->
  exists cs, valid_children ops valid distance s l = Ok cs /\ (length cs <= length l)%nat /\
    forall t, In t l -> valid s t = true -> In (t, distance s t) cs.
Proof.
  induction l as [|c r IH]; intros H; cbn.
  - exists []. repeat split; [cbn; lia|intros t []].
  - destruct IH as (xs & E & N & A); [intros t I; apply H; now right|].
    destruct (valid s c) eqn:V.
    + unfold MakeStateWithCost. pose proof (H c (or_introl eq_refl) V) as P. unfold cle in P. rewrite P. cbn [bind]. rewrite E. cbn [bind].
      exists ((c, distance s c) :: xs). split; [reflexivity|]. split; [cbn; lia|]. intros t [<-|I] VT; [now left|right; auto].
    + exists xs. split; [exact E|]. split; [cbn; lia|]. intros t [<-|I] VT; [congruence|auto].
Qed.
Lemma kids_bad s l t : In t l -> valid s t = true -> ~ cle ops (czero ops) (distance s t) ->
  valid_children ops valid distance s l = Throw InvalidArgument.
Proof.
  induction l as [|c r IH]; intros I V N; [destruct I|]. cbn. destruct (valid s c) eqn:VC.
  - unfold MakeStateWithCost. destruct (cltb ops (distance s c) (czero ops)) eqn:B; [reflexivity|]. cbn [bind].
    destruct I as [<-|I]; [contradiction|]. now rewrite IH.
  - destruct I as [<-|I]; [congruence|]. now apply IH.
Qed.
Lemma child_use s t w : child_of kids s t w -> use s t w /\ cle ops (czero ops) w.
Proof. intros (cs & E & I). destruct (kids_sound _ _ _ E t w I) as (A & B & D & F). split; [split; auto|exact F]. Qed.
Lemma pair_costs start : costs_ok ops kids [(start, czero ops)].
Proof.
  split.
  - intros s c [E|[]]. injection E as <- <-. split; [apply (cl_refl _ L)|apply (cl_zero_inf _ L)].
  - intros s t w H. apply (child_use s t w H).
Qed.
Lemma walk_mono (P Q : T -> T -> C -> Prop) s c l t d : (forall a b w, P a b w -> Q a b w) -> walk ops P s c l t d -> walk ops Q s c l t d.
Proof. intros H. induction 1; [constructor|econstructor; eauto]. Qed.
Lemma route_way start goal path d : route ops kids [(start, czero ops)] (fun s => eqb s goal) path d -> way ops children valid distance start goal path d.
Proof.
  intros (s & c & g & [E|[]] & G & W). injection E as <- <-. apply EQ in G as ->.
  eapply walk_mono; [|exact W]. intros a b w H. apply (child_use a b w H).
Qed.
Hypothesis nonneg : forall s t w, use s t w -> cle ops (czero ops) w.
Lemma use_child s t w : use s t w -> child_of kids s t w.
Proof.
  intros (I & V & ->). destruct (kids_complete s (children s)) as (cs & E & _ & A); [intros t' I' V'; apply (nonneg s t'); repeat split; assumption|].
  exists cs. split; [exact E|]. now apply A.
Qed.
Lemma way_route start goal path d : way ops children valid distance start goal path d -> route ops kids [(start, czero ops)] (fun s => eqb s goal) path d.
Proof.
  intros W. exists start, (czero ops), goal. split; [now left|]. split; [now apply EQ|]. eapply walk_mono; [|exact W]. exact use_child.
Qed.
Lemma never_over_admissible goal : never_over ops children valid distance heuristic goal ->
  admissible ops kids (fun s => eqb s goal) (fun s => heuristic s goal).
Proof.
  intros (H1 & H2). split.
  - intros n c l g d P G W. apply EQ in G as ->. eapply H1; [exact P|]. eapply walk_mono; [|exact W]. intros a b w H. apply (child_use a b w H).
  - intros g G. apply EQ in G as ->. exact H2.
Qed.
End Pair.

(** A square with a diagonal that is not allowed. *)
Definition square_children (s : Z) : list Z := if s =? 0 then [3; 1; 2] else if s =? 1 then [3; 0] else if s =? 2 then [3] else [].
Definition square_valid (s t : Z) : bool := negb ((s =? 0) && (t =? 3)).
Definition square_distance (s t : Z) : option Z := Some (if s =? 2 then 5 else 1).
Lemma square_facts :
  (forall s t w, usable square_children square_valid square_distance s t w -> cle exact_cost (Some 0) w) /\
  never_over exact_cost square_children square_valid square_distance (fun _ _ => Some 0) 3 /\
  PerformAstarSearchPair exact_cost Z.eqb 0 3 square_children square_valid square_distance (fun _ _ => Some 0) true exact_pick 20 = Ok ([0; 1; 3], Some 2).
Proof.
  assert (N : forall s t w, usable square_children square_valid square_distance s t w -> cle exact_cost (Some 0) w).
  { intros s t w (_ & _ & ->). unfold square_distance, cle. cbn. destruct (s =? 2); reflexivity. }
  split; [exact N|]. split; [|vm_compute; reflexivity]. split; [|reflexivity].
  intros n c l d P W. assert (W' : cle exact_cost c d).
  { clear P. induction W as [s c|s c m w l t d U W IH]; [apply (cl_refl _ exact_laws)|].
    eapply (cl_trans _ exact_laws); [|exact IH]. apply (cl_infl _ exact_laws). eapply N, U. }
  destruct c as [c|], d as [d|]; cbn in *; unfold cle in *; cbn in *; try congruence. rewrite Z.add_0_r. exact W'.
Qed.
