(** Growing a roadmap (C50). *)
From Verif Require Import Base Effect ParallelismModel GraphModel GraphSpec GraphProof
  SearchModel SearchSpec PrmModel PrmSpec PrmProof.
Local Open Scope Z_scope.

Section Grow.
Context {V C W : Type} (ops : cost_ops C).
Variable knn : @knn_provider V C.
Variable dist : V -> V -> C.
Variable valid : V -> V -> bool.
Variable order : Z -> Z -> list Z.
Variable symmetric : bool.
Hypothesis ORD : each_once order.
Hypothesis KNN : knn_truthful knn dist.
Hypothesis SYM : symmetric = true -> symmetric_functions dist valid.
Variable sampling : eff W V.
Variable state_valid : V -> eff W bool.
Variable terminate : Z -> eff W bool.
Variable accepted : V -> Prop.
Hypothesis ACC : accepts accepted state_valid.
Variables (K : Z) (dups : bool).

Definition grown (g g' : list (GraphNode V C)) : Prop :=
  grows_with (good_edge dist valid g') g g' /\ (linked g -> linked g') /\
  (forall i n, node_at g' i n -> Size g <= i -> accepted (value n)).

Lemma grown_refl g : grown g g.
Proof.
  split; [apply grows_refl|]. split; [auto|]. intros i n Hn Hi. apply node_at_range in Hn. lia.
Qed.
Lemma grown_trans g1 g2 g3 : grown g1 g2 -> grown g2 g3 -> grown g1 g3.
Proof.
  intros (A1 & L1 & V1) (A2 & L2 & V2). split; [|split].
  - eapply grows_trans; [|exact A2]. eapply grows_weaken; [|exact A1]. intros e. apply (good_edge_grows _ _ _ _ _ _ A2).
  - auto.
  - intros i n Hn Hi. destruct (Z_lt_le_dec i (Size g2)) as [L|L]; [|exact (V2 i n Hn L)].
    pose proof (node_at_range _ _ _ Hn). destruct (in_range_node_at g2 i) as (n2 & H2); [lia|].
    destruct A2 as [A2 _]. destruct (A2 i n2 H2) as (n' & _ & _ & Hn' & Ev & _).
    rewrite (node_at_fun _ _ _ _ Hn Hn'), Ev. exact (V1 i n2 H2 Hi).
Qed.

Lemma grow_loop_spec fuel : forall st g w r g' w',
  grow_loop ops knn dist valid order graph_roadmap sampling state_valid terminate K symmetric dups fuel st (g, w) = (r, (g', w')) ->
  grown g g' /\
  match r with
  | Ok st' =>
    (total_samples st = successful_samples st + duplicate_samples st + failed_samples st ->
     total_samples st' = successful_samples st' + duplicate_samples st' + failed_samples st') /\
    Size g' - Size g = successful_samples st' - successful_samples st /\
    successful_samples st <= successful_samples st' /\ duplicate_samples st <= duplicate_samples st' /\
    failed_samples st <= failed_samples st' /\
    (dups = true -> duplicate_samples st' = duplicate_samples st)
  | _ => True
  end.
Proof.
  induction fuel as [|fuel IH]; intros st g w r g' w'.
  - cbn [grow_loop]. unfold ebind, get, on_snd. cbn [fst snd]. cbn [rm_view graph_roadmap].
    destruct (terminate (gl_size (as_graph_like g)) w) as [[b|x| |] w1]; try (intros E; injection E as <- <- <-; split; [apply grown_refl|exact I]).
    destruct b; unfold ret, lift; intros E; injection E as <- <- <-; (split; [apply grown_refl|]); [|exact I]. auto 10 with zarith.
  - cbn [grow_loop]. unfold ebind at 1, get at 1. unfold ebind at 1, on_snd at 1. cbn [fst snd]. cbn [rm_view graph_roadmap].
    destruct (terminate (gl_size (as_graph_like g)) w) as [[b|x| |] w1]; try (intros E; injection E as <- <- <-; split; [apply grown_refl|exact I]).
    destruct b; [unfold ret; intros E; injection E as <- <- <-; split; [apply grown_refl|auto 10 with zarith]|].
    unfold ebind at 1, on_snd at 1. cbn [fst snd].
    destruct (sampling w1) as [[v|x| |] w2]; try (intros E; injection E as <- <- <-; split; [apply grown_refl|exact I]).
    unfold ebind at 1, on_snd at 1. cbn [fst snd].
    destruct (state_valid v w2) as [[ok|x| |] w3] eqn:EV; try (intros E; injection E as <- <- <-; split; [apply grown_refl|exact I]).
    destruct ok.
    + unfold ebind at 1, get at 1. cbn [fst]. unfold ebind at 1, on_fst at 1. cbn [fst snd].
      destruct (AddNodeToRoadmap ops knn dist valid order graph_roadmap v RoadmapToNewState K
                  (gl_size (as_graph_like g)) symmetric dups g) as [r1 g1] eqn:EA.
      destruct (add_node_grows ops knn dist valid order ORD KNN symmetric SYM g v RoadmapToNewState K _ dups r1 g1 (or_introl eq_refl) EA) as (GR & LI & R1).
      assert (G1 : grown g g1).
      { split; [exact GR|]. split; [exact LI|]. intros i n Hn Hi. destruct r1 as [j|x| |].
        - destruct R1 as [(-> & _)|(-> & S1 & m & Hm & <-)].
          + apply node_at_range in Hn. lia.
          + pose proof (node_at_range _ _ _ Hn). replace i with (Size g) in Hn by lia.
            rewrite (node_at_fun _ _ _ _ Hn Hm). exact (ACC _ _ _ EV).
        - destruct R1 as [-> _]. apply node_at_range in Hn. lia.
        - destruct R1 as [-> _]. apply node_at_range in Hn. lia.
        - destruct R1 as [-> _]. apply node_at_range in Hn. lia. }
      destruct r1 as [j|x| |]; try (intros E; injection E as <- <- <-; split; [exact G1|exact I]).
      unfold ebind at 1, get at 1. cbn [fst].
      destruct (Z.ltb_spec (gl_size (as_graph_like g)) (gl_size (as_graph_like g1))) as [L|L]; cbn [gl_size as_graph_like] in L;
        intros E; apply IH in E; destruct E as [G2 H2]; (split; [exact (grown_trans _ _ _ G1 G2)|]);
        destruct r as [st'| | |]; auto; cbn in H2; destruct H2 as (T & S & A1 & A2 & A3 & A4);
        (destruct R1 as [(-> & Ed & _)|(-> & S1 & _)]); (split; [intros; apply T; lia|]); repeat split; try lia;
        intros D; try (rewrite D in Ed; discriminate); specialize (A4 D); lia.
    + intros E. apply IH in E. destruct E as [G2 H2]. split; [exact G2|].
      destruct r as [st'| | |]; auto; cbn in H2; destruct H2 as (T & S & A1 & A2 & A3 & A4).
      split; [intros; apply T; lia|]. repeat split; try lia.
Qed.

Lemma grow_spec fuel g w r g' w' :
  GrowRoadMap ops knn dist valid order graph_roadmap sampling state_valid terminate K symmetric dups fuel (g, w) = (r, (g', w')) ->
  grows_with (good_edge dist valid g') g g' /\ (linked g -> linked g') /\
  (forall i n, node_at g' i n -> Size g <= i -> accepted (value n)) /\
  match r with
  | Ok st => total_samples st = successful_samples st + duplicate_samples st + failed_samples st /\
             Size g' = Size g + successful_samples st /\
             0 <= successful_samples st /\ 0 <= duplicate_samples st /\ 0 <= failed_samples st /\
             (dups = true -> duplicate_samples st = 0)
  | _ => True
  end.
Proof.
  intros E. apply grow_loop_spec in E. destruct E as ((A & B & D) & H). split; [exact A|]. split; [exact B|].
  split; [exact D|]. destruct r; auto. cbn in H. destruct H as (T & S & H1 & H2 & H3 & H4). repeat split; try lia; auto.
Qed.
End Grow.
