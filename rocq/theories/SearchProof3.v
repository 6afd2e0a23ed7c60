(** Dijkstra (C17). *)
From Coq Require Import Permutation ZifyBool ZifyNat.
From Verif Require Import Base ParallelismModel ParallelismProof GraphModel GraphSpec GraphProof GraphProof2 SearchModel SearchSpec SearchProof.
Local Open Scope Z_scope.

Lemma at_index_ok {A} (l : list A) i : 0 <= i < Z.of_nat (length l) ->
  exists a, at_index l i = Ok a /\ entry l i a.
Proof.
  intros H. unfold at_index, at_get, entry. destruct (Z.ltb_spec i 0); [lia|].
  destruct (nth_error l (Z.to_nat i)) as [a|] eqn:E; [exists a; auto|].
  apply nth_error_None in E. lia.
Qed.

Lemma set_index_ok {A} (l : list A) i a : 0 <= i < Z.of_nat (length l) ->
  set_index l i a = Ok (upd l (Z.to_nat i) a).
Proof.
  intros H. unfold set_index, at_set. destruct (Z.ltb_spec i 0); [lia|].
  rewrite set_nth_upd by lia. reflexivity.
Qed.

Lemma entry_upd {A} (l : list A) i a j b : 0 <= i < Z.of_nat (length l) ->
  entry (upd l (Z.to_nat i) a) j b <-> (j = i /\ b = a) \/ (j <> i /\ entry l j b).
Proof.
  intros H. unfold entry. rewrite nth_error_upd. destruct (Nat.eq_dec (Z.to_nat i) (Z.to_nat j)) as [E|E].
  - destruct (lt_dec (Z.to_nat i) (length l)); [|lia]. split.
    + intros [H1 H2]. left. split; [lia|congruence].
    + intros [[-> ->]|[N [H1 _]]]; [split; [lia|reflexivity]|lia].
  - split.
    + intros [H1 H2]. right. split; [intros ->; lia|auto].
    + intros [[-> _]|[_ [H1 H2]]]; [lia|auto].
Qed.

Lemma entry_range {A} (l : list A) i a : entry l i a -> 0 <= i < Z.of_nat (length l).
Proof. intros [H E]. assert (Z.to_nat i < length l)%nat by (apply nth_error_Some; congruence). lia. Qed.

Lemma entry_fun {A} (l : list A) i a b : entry l i a -> entry l i b -> a = b.
Proof. intros [_ H] [_ H']. congruence. Qed.

Lemma entry_ex {A} (l : list A) i : 0 <= i < Z.of_nat (length l) -> exists a, entry l i a.
Proof. intros H. destruct (at_index_ok l i H) as (a & _ & E). eauto. Qed.

Lemma existsb_in i l : existsb (Z.eqb i) l = true <-> In i l.
Proof.
  rewrite existsb_exists. split; [intros (x & H & E); apply Z.eqb_eq in E; congruence|].
  intros H. exists i. split; [exact H|apply Z.eqb_refl].
Qed.

Lemma existsb_notin i l : existsb (Z.eqb i) l = false <-> ~ In i l.
Proof. rewrite <- existsb_in. destruct (existsb (Z.eqb i) l); split; intros; congruence. Qed.

Lemma follows_upd prev l i a : 0 <= i < Z.of_nat (length prev) -> ~ In i (tl l) ->
  follows prev l -> follows (upd prev (Z.to_nat i) a) l.
Proof.
  intros R. induction l as [|x l IH]; intros H F; [exact I|]. destruct l as [|y l]; [exact I|].
  destruct F as [F1 F2]. simpl in H. split.
  - apply entry_upd; [exact R|]. right. split; [intros ->; apply H; left; reflexivity|exact F1].
  - apply IH; [|exact F2]. intros C. apply H. right. exact C.
Qed.

Lemma follows_snoc prev l a b : follows prev (l ++ [a]) -> entry prev b a -> follows prev ((l ++ [a]) ++ [b]).
Proof.
  induction l as [|x l IH]; intros F E.
  - simpl. auto.
  - destruct l as [|y l]; simpl in *; [destruct F; auto|]. destruct F as [F1 F2]. split; [exact F1|]. apply IH; auto.
Qed.

Section Dij.
Context {V C : Type} (ops : cost_ops C).
Hypothesis L : cost_laws ops.
Notation le := (cle ops). Notation lt := (clt ops).
Notation INF := (cinf ops).
Variables (g : list (GraphNode V C)) (b : graph_like V C) (start : Z).
Hypothesis BL : behaves_like b g.
Hypothesis EX : forall i n e, node_at g i n -> In e (in_edges n) -> 0 <= from_index e < Size g.
Hypothesis NN : forall i n e, node_at g i n -> In e (in_edges n) -> le (czero ops) (weight e).
Hypothesis ST : 0 <= start < Size g.
Notation step := (back_step g).

Definition same (x y : C) : Prop := le x y /\ le y x.

Record DInv (s : dijkstra_state) : Prop := mkDInv {
  di_lenp : length (d_prev s) = length g;
  di_lend : length (d_dist s) = length g;
  di_path : forall v d, entry (d_dist s) v d -> lt d INF ->
    exists l c, walk ops step start (czero ops) l v c /\ same c d /\ follows (d_prev s) l /\
      (forall x, In x l -> x = v \/ In x (d_explored s));
  di_queue : forall v d, entry (d_dist s) v d -> lt d INF -> ~ In v (d_explored s) -> In (v, d) (d_queue s);
  di_entry : forall v d, In (v, d) (d_queue s) -> lt d INF /\ exists dv, entry (d_dist s) v dv /\ le dv d;
  di_order : forall x dx e, In x (d_explored s) -> entry (d_dist s) x dx -> In e (d_queue s) -> le dx (snd e);
  di_fin : forall x, In x (d_explored s) -> exists dx, entry (d_dist s) x dx /\ lt dx INF;
  di_start : exists d, entry (d_dist s) start d /\ le d (czero ops) }.

Definition closed_for (s : dijkstra_state) (x : Z) (es : list (GraphEdge C)) : Prop :=
  forall dx e dv, entry (d_dist s) x dx -> In e es -> entry (d_dist s) (from_index e) dv ->
    le dv (cadd ops dx (weight e)).

(** During the edge loop: [d_explored s] already holds [top]. *)
Definition during (top : Z * C) (done : list (GraphEdge C)) (s : dijkstra_state) : Prop :=
  DInv s /\ In (fst top) (d_explored s) /\
  (exists dt, entry (d_dist s) (fst top) dt /\ same dt (snd top)) /\
  (forall x dx, In x (d_explored s) -> entry (d_dist s) x dx -> le dx (snd top)) /\
  closed_for s (fst top) done /\
  (forall x n, In x (d_explored s) -> x <> fst top -> node_at g x n -> closed_for s x (in_edges n)).

Lemma edge_step top n done e s : node_at g (fst top) n -> In e (in_edges n) ->
  during top done s ->
  exists s', dijkstra_edge ops top s e = Ok s' /\ during top (e :: done) s' /\
    d_explored s' = d_explored s /\ (length (d_queue s') <= S (length (d_queue s)))%nat.
Proof.
  intros Hn He (I & Ht & (dt & Edt & [S1 S2]) & Hord & Hcl & Hcl2).
  pose proof (EX _ _ _ Hn He) as R. pose proof (NN _ _ _ Hn He) as W. unfold Size in R.
  unfold dijkstra_edge. destruct (at_index_ok (d_dist s) (from_index e)) as (st & Es & Est).
  { rewrite (di_lend _ I). exact R. }
  rewrite Es. cbn [bind]. set (nd := cadd ops (snd top) (weight e)).
  assert (le (snd top) nd) as Hnd by (apply cl_infl; assumption).
  destruct (cltb ops nd st) eqn:Lt.
  - assert (~ In (from_index e) (d_explored s)) as NE.
    { intros H. pose proof (Hord _ _ H Est) as H1. apply (lt_irrefl ops L st).
      eapply le_lt_trans; [exact L|exact H1|]. eapply le_lt_trans; [exact L|exact Hnd|exact Lt]. }
    rewrite (proj2 (existsb_notin _ _) NE).
    rewrite set_index_ok by (rewrite (di_lenp _ I); exact R). cbn [bind].
    rewrite set_index_ok by (rewrite (di_lend _ I); exact R). cbn [bind].
    assert (from_index e <> fst top) as NT by (intros E; apply NE; rewrite E; exact Ht).
    assert (lt nd INF) as Hfin. { eapply lt_le_trans; [exact L|exact Lt|apply cl_top, L]. }
    assert (forall v d, entry (upd (d_dist s) (Z.to_nat (from_index e)) nd) v d <->
       (v = from_index e /\ d = nd) \/ (v <> from_index e /\ entry (d_dist s) v d)) as EU.
    { intros v d. apply entry_upd. rewrite (di_lend _ I). exact R. }
    assert (forall x dx, In x (d_explored s) -> entry (upd (d_dist s) (Z.to_nat (from_index e)) nd) x dx -> entry (d_dist s) x dx) as EE.
    { intros x dx Hx H. apply EU in H as [[-> _]|[_ H]]; [contradiction|exact H]. }
    eexists. split; [reflexivity|]. split; [|split; [reflexivity|cbn [d_queue]; rewrite app_length; simpl; lia]].
    split; [|split; [exact Ht|split; [|split; [|split]]]].
    + constructor; cbn [d_prev d_dist d_queue d_explored].
      * rewrite upd_length. apply I.
      * rewrite upd_length. apply I.
      * intros v d Hv Hd. apply EU in Hv as [[-> ->]|[Nv Hv]].
        -- destruct (di_path _ I _ _ Edt) as (l & c & W1 & [Sa Sb] & F & Hl).
           { destruct (di_fin _ I _ Ht) as (dx & Ex & Hx). rewrite (entry_fun _ _ _ _ Edt Ex). exact Hx. }
           exists (l ++ [from_index e]), (cadd ops c (weight e)). split; [|split; [|split]].
           ++ eapply walk_snoc; [exact W1|]. exists n, e. auto.
           ++ split; (apply cl_mono; [exact L|]).
              ** eapply cl_trans; [exact L|exact Sa|exact S1].
              ** eapply cl_trans; [exact L|exact S2|exact Sb].
           ++ destruct (walk_last _ _ _ _ _ _ _ W1) as (l' & El).
              assert (~ In (from_index e) l) as Nl.
              { intros H. apply Hl in H as [H|H]; contradiction. }
              rewrite El. apply follows_snoc.
              ** rewrite <- El. apply follows_upd; [rewrite (di_lenp _ I); exact R| |exact F].
                 intros H. apply Nl. destruct l; [exact H|right; exact H].
              ** apply entry_upd; [rewrite (di_lenp _ I); exact R|]. left. auto.
           ++ intros x Hx. apply in_app_iff in Hx as [Hx|[<-|[]]]; [|left; reflexivity].
              right. apply Hl in Hx as [->|Hx]; [exact Ht|exact Hx].
        -- destruct (di_path _ I _ _ Hv Hd) as (l & c & W1 & Sm & F & Hl).
           exists l, c. split; [exact W1|]. split; [exact Sm|]. split; [|exact Hl].
           apply follows_upd; [rewrite (di_lenp _ I); exact R| |exact F].
           intros H. assert (In (from_index e) l) as H' by (destruct l; [exact H|right; exact H]).
           apply Hl in H' as [H'|H']; [congruence|contradiction].
      * intros v d Hv Hd Nv. apply in_app_iff. apply EU in Hv as [[-> ->]|[_ Hv]]; [right; left; reflexivity|].
        left. apply (di_queue _ I); assumption.
      * intros v d Hv. apply in_app_iff in Hv as [Hv|[Hv|[]]].
        -- destruct (di_entry _ I _ _ Hv) as (H1 & dv & H2 & H3). split; [exact H1|].
           destruct (Z.eq_dec v (from_index e)) as [->|Nv].
           ++ exists nd. split; [apply EU; left; auto|].
              rewrite (entry_fun _ _ _ _ Est H2) in Lt. eapply cl_trans; [exact L|apply (lt_le ops L), Lt|exact H3].
           ++ exists dv. split; [apply EU; right; auto|exact H3].
        -- injection Hv as <- <-. split; [exact Hfin|]. exists nd. split; [apply EU; left; auto|apply cl_refl, L].
      * intros x dx e' Hx Hdx He'. apply (EE _ _ Hx) in Hdx. apply in_app_iff in He' as [He'|[<-|[]]].
        -- eapply (di_order _ I); eauto.
        -- cbn [snd]. eapply cl_trans; [exact L|eapply Hord; eauto|exact Hnd].
      * intros x Hx. destruct (di_fin _ I x Hx) as (dx & H1 & H2). exists dx. split; [|exact H2].
        apply EU. right. split; [intros ->; contradiction|exact H1].
      * destruct (di_start _ I) as (d & H1 & H2). destruct (Z.eq_dec start (from_index e)) as [E|N].
        -- exists nd. split; [apply EU; left; auto|]. rewrite E in H1. rewrite (entry_fun _ _ _ _ Est H1) in Lt.
           eapply cl_trans; [exact L|apply (lt_le ops L), Lt|exact H2].
        -- exists d. split; [apply EU; right; auto|exact H2].
    + exists dt. split; [apply EU; right; auto|split; assumption].
    + cbn [d_explored]. intros x dx Hx Hdx. apply (EE _ _ Hx) in Hdx. eapply Hord; eauto.
    + intros dx e' dv Hdx He' Hdv. apply (EE _ _ Ht) in Hdx. cbn [d_dist] in Hdv. apply EU in Hdv as [[E1 ->]|[N1 Hdv]].
      * destruct He' as [<-|He'].
        -- apply cl_mono; [exact L|]. rewrite (entry_fun _ _ _ _ Hdx Edt). exact S2.
        -- eapply cl_trans; [exact L|apply (lt_le ops L), Lt|]. apply (Hcl dx e' st Hdx He'). rewrite E1. exact Est.
      * destruct He' as [<-|He']; [contradiction|]. exact (Hcl dx e' dv Hdx He' Hdv).
    + cbn [d_explored]. intros x n' Hx Nx Hn' dx e' dv Hdx He' Hdv. apply (EE _ _ Hx) in Hdx.
      cbn [d_dist] in Hdv. apply EU in Hdv as [[E1 ->]|[N1 Hdv]].
      * eapply cl_trans; [exact L|apply (lt_le ops L), Lt|]. apply (Hcl2 x n' Hx Nx Hn' dx e' st Hdx He'). rewrite E1. exact Est.
      * exact (Hcl2 x n' Hx Nx Hn' dx e' dv Hdx He' Hdv).
  - exists s. split; [reflexivity|]. split; [|split; [reflexivity|lia]].
    split; [exact I|]. split; [exact Ht|]. split; [exists dt; split; [exact Edt|split; assumption]|].
    split; [exact Hord|]. split; [|exact Hcl2].
    intros dx e' dv Hdx [<-|He'] Hdv; [|exact (Hcl dx e' dv Hdx He' Hdv)].
    rewrite (entry_fun _ _ _ _ Hdv Est), (entry_fun _ _ _ _ Hdx Edt).
    eapply cl_trans; [exact L|exact Lt|]. apply cl_mono; assumption.
Qed.

Lemma edges_fold top n : node_at g (fst top) n -> forall es done s,
  (forall e, In e es -> In e (in_edges n)) -> during top done s ->
  exists s', mfold (dijkstra_edge ops top) s es = Ok s' /\ during top (rev es ++ done) s' /\
    d_explored s' = d_explored s /\ (length (d_queue s') <= length es + length (d_queue s))%nat.
Proof.
  intros Hn. induction es as [|e es IH]; intros done s Hes D.
  - exists s. split; [reflexivity|]. split; [exact D|]. split; [reflexivity|simpl; lia].
  - destruct (edge_step top n done e s Hn (Hes e (or_introl eq_refl)) D) as (s1 & E1 & D1 & X1 & Q1).
    destruct (IH (e :: done) s1 (fun e' H => Hes e' (or_intror H)) D1) as (s2 & E2 & D2 & X2 & Q2).
    exists s2. cbn [mfold]. rewrite E1. cbn [bind]. split; [exact E2|]. split; [|split; [congruence|simpl; lia]].
    simpl. rewrite <- app_assoc. exact D2.
Qed.

(** Work left: queue entries and in edges of unexplored nodes. *)
Definition indeg (i : Z) : nat := match GetNode g i with Ok n => length (in_edges n) | _ => O end.
Definition pending (E : list Z) (l : list Z) : nat :=
  list_sum (map (fun i => if existsb (Z.eqb i) E then O else indeg i) l).

Lemma pending_cons E x l : pending E (x :: l) = ((if existsb (Z.eqb x) E then O else indeg x) + pending E l)%nat.
Proof. reflexivity. Qed.

Lemma pending_notin E i l : ~ In i l -> pending (i :: E) l = pending E l.
Proof.
  induction l as [|x l IH]; intros H; [reflexivity|]. rewrite !pending_cons.
  rewrite IH by (intros H'; apply H; right; exact H'). cbn [existsb].
  destruct (Z.eqb_spec x i) as [->|N]; [exfalso; apply H; left; reflexivity|reflexivity].
Qed.

Lemma pending_in E i l : NoDup l -> In i l -> ~ In i E ->
  (pending (i :: E) l + indeg i = pending E l)%nat.
Proof.
  intros ND H NE. induction ND as [|x l Nx ND IH]; [destruct H|].
  rewrite !pending_cons. cbn [existsb]. destruct H as [->|H].
  - rewrite Z.eqb_refl. cbn [orb].
    rewrite pending_notin by exact Nx. rewrite (proj2 (existsb_notin _ _) NE). lia.
  - specialize (IH H). destruct (Z.eqb_spec x i) as [->|N]; [contradiction|]. cbn [orb]. lia.
Qed.

Definition closed (s : dijkstra_state) : Prop :=
  forall x n, In x (d_explored s) -> node_at g x n -> closed_for s x (in_edges n).

Lemma loop_spec pick : valid_pick ops snd pick -> forall fuel k s,
  DInv s -> closed s ->
  (length (d_queue s) + pending (d_explored s) (upto (length g)) <= fuel)%nat ->
  exists s', dijkstra_loop ops b pick fuel k s = Ok s' /\ DInv s' /\ closed s' /\ d_queue s' = [].
Proof.
  intros VP. induction fuel as [|fuel IH]; intros k s I CL HF.
  - destruct (d_queue s) as [|e q] eqn:Eq; [|simpl in HF; lia]. exists s. simpl. rewrite Eq. auto.
  - destruct (d_queue s) as [|e0 q0] eqn:Eq; [exists s; simpl; rewrite Eq; auto|]. rewrite <- Eq in HF.
    destruct (pq_pop_spec ops snd pick k (d_queue s) VP) as (top & rest & Ep & P & M); [congruence|].
    assert (dijkstra_loop ops b pick (S fuel) k s =
      if existsb (Z.eqb (fst top)) (d_explored s)
      then dijkstra_loop ops b pick fuel (S k) (mkDij (d_prev s) (d_dist s) rest (d_explored s))
      else do n <- gl_get b (fst top);
           do s1 <- mfold (dijkstra_edge ops top)
                     (mkDij (d_prev s) (d_dist s) rest (fst top :: d_explored s)) (in_edges n);
           dijkstra_loop ops b pick fuel (S k) s1) as ->.
    { cbn [dijkstra_loop]. rewrite Eq at 1. rewrite Ep. reflexivity. }
    pose proof (Permutation_length P) as PL. simpl in PL.
    assert (forall e, In e rest -> In e (d_queue s)) as Sub.
    { intros e He. apply (Permutation_in e (Permutation_sym P)). right. exact He. }
    assert (In top (d_queue s)) as Ht by (apply (Permutation_in top (Permutation_sym P)); left; reflexivity).
    destruct (existsb (Z.eqb (fst top)) (d_explored s)) eqn:X.
    + apply existsb_in in X. apply IH; [|exact CL|cbn [d_queue d_explored]; lia].
      constructor; cbn [d_prev d_dist d_queue d_explored];
        try first [exact (di_lenp _ I)|exact (di_lend _ I)|exact (di_path _ I)|exact (di_fin _ I)|exact (di_start _ I)].
      * intros v d Hv Hd Nv. pose proof (di_queue _ I v d Hv Hd Nv) as H.
        apply (Permutation_in _ P) in H as [->|H]; [contradiction|exact H].
      * intros v d H. apply (di_entry _ I). auto.
      * intros x dx e Hx Hdx He. apply (di_order _ I x dx e); auto.
    + apply existsb_notin in X. destruct top as [t d]. cbn [fst snd] in *.
      destruct (di_entry _ I t d Ht) as (Hd & dt & Edt & Hle).
      pose proof (entry_range _ _ _ Edt) as R. rewrite (di_lend _ I) in R.
      destruct (in_range_node_at g t R) as (n & Hn).
      rewrite (proj2 BL), (proj1 (GetNode_ok g t n) Hn). cbn [bind].
      assert (lt dt INF) as Hdt by (eapply le_lt_trans; [exact L|exact Hle|exact Hd]).
      assert (le d dt) as Hle' by (apply (M (t, dt)), (di_queue _ I); assumption).
      destruct (edges_fold (t, d) n Hn (in_edges n) [] (mkDij (d_prev s) (d_dist s) rest (t :: d_explored s)))
        as (s1 & E1 & D1 & X1 & Q1).
      * auto.
      * split; [|split; [left; reflexivity|split; [exists dt; split; [exact Edt|split; assumption]|split; [|split]]]].
        -- constructor; cbn [d_prev d_dist d_queue d_explored];
        try first [exact (di_lenp _ I)|exact (di_lend _ I)|exact (di_path _ I)|exact (di_fin _ I)|exact (di_start _ I)].
           ++ intros v dv Hv Hdv. destruct (di_path _ I v dv Hv Hdv) as (l & c & W & Sm & F & Hl).
              exists l, c. repeat split; auto; try apply Sm. intros x Hx. destruct (Hl x Hx); auto. right. right. assumption.
           ++ intros v dv Hv Hdv Nv. assert (In (v, dv) (d_queue s)) as H.
              { apply (di_queue _ I); auto. intros H. apply Nv. right. exact H. }
              apply (Permutation_in _ P) in H as [H|H]; [|exact H]. injection H as -> _. exfalso. apply Nv. left. reflexivity.
           ++ intros v dv H. apply (di_entry _ I). auto.
           ++ intros x dx e [<-|Hx] Hdx He.
              ** rewrite (entry_fun _ _ _ _ Hdx Edt). eapply cl_trans; [exact L|exact Hle|]. apply M, Sub, He.
              ** apply (di_order _ I x dx e); auto.
           ++ intros x [<-|Hx]; [exists dt; auto|]. apply (di_fin _ I x Hx).
        -- cbn [snd d_explored d_dist]. intros x dx [<-|Hx] Hdx.
           ++ rewrite (entry_fun _ _ _ _ Hdx Edt). exact Hle.
           ++ apply (di_order _ I x dx (t, d)); auto.
        -- intros dx e dv _ [].
        -- cbn [fst d_explored]. intros x n' [<-|Hx] Nx Hn'; [congruence|]. exact (CL x n' Hx Hn').
      * rewrite E1. cbn [bind]. destruct D1 as (I1 & _ & _ & _ & C1 & C2). cbn [d_explored fst] in *.
        apply IH; [exact I1| |].
        -- intros x n' Hx Hn'. destruct (Z.eq_dec x t) as [->|N].
           ++ rewrite (node_at_fun _ _ _ _ Hn' Hn). intros dx e dv H1 H2 H3. apply (C1 dx e dv H1); [|exact H3].
              rewrite app_nil_r. apply -> in_rev. exact H2.
           ++ apply C2; auto.
        -- rewrite X1. cbn [d_queue] in Q1.
           pose proof (pending_in (d_explored s) t (upto (length g))) as HP.
           assert (indeg t = length (in_edges n)) as Hdeg.
           { unfold indeg. rewrite (proj1 (GetNode_ok g t n) Hn). reflexivity. }
           rewrite Hdeg in HP. specialize (HP ltac:(rewrite <- upto_seqZ; apply seqZ_nodup) ltac:(apply upto_in; exact R) X). lia.
Qed.

Lemma pending_total : pending [] (upto (length g)) = total_in_edges g.
Proof.
  unfold pending, total_in_edges. simpl.
  assert (forall pre l, g = pre ++ l ->
    list_sum (map indeg (map (fun i => Z.of_nat i) (seq (length pre) (length l)))) =
    list_sum (map (fun n => length (in_edges n)) l)) as H.
  { intros pre l. revert pre. induction l as [|n l IH]; intros pre E; [reflexivity|]. simpl.
    specialize (IH (pre ++ [n])). rewrite app_length in IH. simpl in IH. rewrite Nat.add_1_r in IH.
    rewrite IH by (rewrite <- app_assoc; exact E). f_equal.
    unfold indeg. rewrite (proj1 (GetNode_ok g (Z.of_nat (length pre)) n)); [reflexivity|].
    split; [lia|]. rewrite Nat2Z.id, E. rewrite nth_error_app2 by lia. rewrite Nat.sub_diag. reflexivity. }
  rewrite <- (H [] g eq_refl). simpl. do 2 f_equal.
  clear. induction (length g) as [|n IH]; [reflexivity|]. rewrite seq_S, map_app, <- IH. reflexivity.
Qed.

Lemma dijkstra_spec pick fuel : valid_pick ops snd pick -> (1 + total_in_edges g <= fuel)%nat ->
  exists prev dist, PerformDijkstrasAlgorithm ops b pick fuel start = Ok (prev, dist) /\
    length prev = length g /\ length dist = length g /\
    forall v, 0 <= v < Size g -> exists d, entry dist v d /\
      (forall l c, walk ops step start (czero ops) l v c -> le d c) /\
      (lt d INF -> exists l c, walk ops step start (czero ops) l v c /\ le c d /\ le d c /\ follows prev l).
Proof.
  intros VP HF. unfold PerformDijkstrasAlgorithm. rewrite (proj1 BL).
  unfold IndexInRange. replace ((0 <=? start) && (start <? Size g)) with true by lia. cbn [negb].
  unfold Size in ST |- *. rewrite Nat2Z.id.
  rewrite set_index_ok by (rewrite repeat_length; lia). cbn [bind].
  rewrite set_index_ok by (rewrite repeat_length; lia). cbn [bind].
  assert (forall v d, entry (upd (repeat INF (length g)) (Z.to_nat start) (czero ops)) v d ->
     (v = start /\ d = czero ops) \/ (v <> start /\ d = INF)) as EU.
  { intros v d H. apply entry_upd in H; [|rewrite repeat_length; lia].
    destruct H as [H|[H1 [_ H2]]]; [auto|]. right. split; [exact H1|]. apply nth_error_In, repeat_spec in H2. exact H2. }
  assert (entry (upd (repeat INF (length g)) (Z.to_nat start) (czero ops)) start (czero ops)) as ES.
  { apply entry_upd; [rewrite repeat_length; lia|]. auto. }
  destruct (loop_spec pick VP fuel 0 (mkDij (upd (repeat (-1) (length g)) (Z.to_nat start) start)
    (upd (repeat INF (length g)) (Z.to_nat start) (czero ops)) [(start, czero ops)] [])) as (s & E & I & CL & Q).
  - constructor; cbn [d_prev d_dist d_queue d_explored].
    + rewrite upd_length, repeat_length. reflexivity.
    + rewrite upd_length, repeat_length. reflexivity.
    + intros v d Hv Hd. apply EU in Hv as [[-> ->]|[_ ->]]; [|exfalso; apply (lt_irrefl ops L _ Hd)].
      exists [start], (czero ops). split; [constructor|]. split; [split; apply cl_refl, L|]. split; [exact Logic.I|].
      intros x [<-|[]]. auto.
    + intros v d Hv Hd _. apply EU in Hv as [[-> ->]|[_ ->]]; [left; reflexivity|exfalso; apply (lt_irrefl ops L _ Hd)].
    + intros v d [H|[]]. injection H as <- <-. split; [apply cl_zero_inf, L|]. exists (czero ops). split; [exact ES|apply cl_refl, L].
    + intros x dx e [].
    + intros x [].
    + exists (czero ops). split; [exact ES|apply cl_refl, L].
  - intros x n [].
  - cbn [d_queue d_explored]. rewrite pending_total. simpl. lia.
  - rewrite E. cbn [bind]. exists (d_prev s), (d_dist s). split; [reflexivity|].
    split; [apply I|]. split; [apply I|]. intros v Hv. destruct (entry_ex (d_dist s) v) as (d & Ed).
    { rewrite (di_lend _ I). exact Hv. }
    exists d. split; [exact Ed|]. split.
    + assert (forall x c l v0 c0, walk ops step x c l v0 c0 -> forall dx, entry (d_dist s) x dx -> le dx c ->
        forall dv, entry (d_dist s) v0 dv -> le dv c0) as WG.
      { induction 1 as [x c|x c m w l t c0 Hst Hw IHw]; intros dx Hx Hxc dv Hdv.
        - rewrite (entry_fun _ _ _ _ Hdv Hx). exact Hxc.
        - destruct Hst as (n & e & Hn & He & <- & <-).
          destruct (entry_ex (d_dist s) (from_index e)) as (dm & Em).
          { rewrite (di_lend _ I). apply (EX _ _ _ Hn He). }
          apply (IHw dm Em); [|exact Hdv]. destruct (cltb ops dx INF) eqn:Fin.
          + assert (In x (d_explored s)) as Hxe.
            { destruct (in_dec Z.eq_dec x (d_explored s)) as [H|H]; [exact H|]. exfalso.
              pose proof (di_queue _ I x dx Hx Fin H) as H'. rewrite Q in H'. destruct H'. }
            eapply cl_trans; [exact L|exact (CL x n Hxe Hn dx e dm Hx He Em)|]. apply cl_mono; assumption.
          + eapply cl_trans; [exact L|apply cl_top, L|]. eapply cl_trans; [exact L|exact Fin|].
            eapply cl_trans; [exact L|exact Hxc|]. apply cl_infl; [exact L|]. eapply NN; eauto. }
      intros l c W. destruct (di_start _ I) as (d0 & E0 & H0). eapply WG; eauto.
    + intros Hd. destruct (di_path _ I v d Ed Hd) as (l & c & W & [S1 S2] & F & _). exists l, c. auto.
Qed.

End Dij.
