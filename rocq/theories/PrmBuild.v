(** Building a roadmap (C51). *)
From Verif Require Import Base Effect ParallelismModel ParallelismProof GraphModel GraphSpec GraphProof
  SearchModel SearchSpec KnnSpec PrmModel PrmSpec PrmProof.
From Coq Require Import Permutation ZifyBool ZifyNat.
Local Open Scope Z_scope.

Section Sampling.
Context {V C W : Type} (ops : cost_ops C).
Hypothesis LAWS : cost_laws ops.
Variable sampling : eff W V.
Variable state_valid : V -> eff W bool.
Variable dist : V -> V -> C.
Variable search : list (option V) -> (option V -> C) -> Z -> outcome (list (Z * C)).
Hypothesis SEARCH : search_contract ops search.
Variable accepted : V -> Prop.
Hypothesis ACC : accepts accepted state_valid.

Lemma positive_le d x : positive ops d = true -> leD (cltb ops) d x -> positive ops x = true.
Proof.
  unfold positive, leD. intros P L. destruct (cltb ops (czero ops) x) eqn:E; [reflexivity|]. exfalso.
  assert (cle ops d (czero ops)) as X; [|unfold cle in X; congruence].
  eapply (cl_trans ops LAWS); [exact L|exact E].
Qed.

Lemma valid_sample_spec dups states : forall tries w v w',
  valid_sample ops sampling state_valid dist search dups states tries w = (Ok (Some v), w') ->
  accepted v /\ (dups = false -> forall s, In (Some s) states -> positive ops (dist s v) = true).
Proof.
  induction tries as [|tries IH]; intros w v w' E; [discriminate|]. cbn [valid_sample] in E. unfold ebind at 1 in E.
  destruct (sampling w) as [[s| | |] w1]; try discriminate. unfold ebind at 1 in E.
  destruct (state_valid s w1) as [[ok| | |] w2] eqn:EV; try discriminate.
  destruct ok; cbn [andb] in E; [|exact (IH _ _ _ E)]. pose proof (ACC _ _ _ EV) as A.
  destruct dups.
  { unfold ret in E. injection E as <- <-. split; [exact A|discriminate]. }
  unfold ebind at 1, lift in E. destruct (SEARCH states (sampled_distance ops dist s) 1) as (sel & Es & KN); [lia|].
  rewrite Es in E. unfold ebind at 1 in E. unfold at_get in E.
  destruct (nth_error sel 0) as [[j d]|] eqn:En; [|discriminate]. cbn [snd] in E.
  destruct (positive ops d) eqn:P; [|exact (IH _ _ _ E)]. unfold ret in E. injection E as <- <-.
  split; [exact A|]. intros _ x Ix. destruct (In_nth_error _ _ Ix) as (i & Ei).
  assert (Li : (i < length states)%nat) by (apply nth_error_Some; congruence).
  assert (Ij : In (j, d) sel) by exact (nth_error_In _ _ En).
  destruct (kn_true _ _ _ _ _ _ _ KN j d Ij) as (Rj & y & Ey & ->).
  destruct (Z.eq_dec (Z.of_nat i) j) as [<-|Ne].
  - rewrite Nat2Z.id in Ey. rewrite Ei in Ey. injection Ey as <-. exact P.
  - apply (positive_le _ (sampled_distance ops dist s (Some x)) P).
    eapply (kn_nearest _ _ _ _ _ _ _ KN (Z.of_nat i)); [lia|rewrite Nat2Z.id; exact Ei| |exact Ij].
    (* the only selected item is j *)
    pose proof (kn_size _ _ _ _ _ _ _ KN) as SZ. assert (length sel = 1%nat) as L1 by lia.
    destruct sel as [|[j' d'] [|]]; try discriminate. cbn in En. injection En as -> ->. cbn. intros [X|[]]; congruence.
Qed.

Definition all_accepted (states : list (option V)) : Prop := forall v, In (Some v) states -> accepted v.
Definition all_apart (states : list (option V)) : Prop := forall i j a b, (i < j)%nat ->
  nth_error states i = Some (Some a) -> nth_error states j = Some (Some b) -> positive ops (dist a b) = true.

Lemma set_nth_in {A} (l l' : list A) i v x : set_nth l i v = Some l' -> In x l' -> x = v \/ In x l.
Proof.
  intros E I. apply set_nth_some in E. destruct E as [L ->]. destruct (In_nth_error _ _ I) as (k & Ek).
  rewrite nth_error_upd in Ek. destruct (Nat.eq_dec i k) as [<-|].
  - destruct (lt_dec i (length l)); [|discriminate]. injection Ek as <-. auto.
  - right. exact (nth_error_In _ _ Ek).
Qed.

Lemma sample_items_accepted dups tries : forall items states w states' w',
  sample_items ops sampling state_valid dist search dups tries items states w = (Ok states', w') ->
  all_accepted states -> all_accepted states' /\ length states' = length states.
Proof.
  induction items as [|i items IH]; intros states w states' w' E A.
  - cbn in E. unfold ret in E. injection E as <- <-. auto.
  - cbn [sample_items] in E. unfold ebind at 1 in E.
    destruct (valid_sample ops sampling state_valid dist search dups states tries w) as [[s| | |] w1] eqn:ES; try discriminate.
    unfold ebind at 1, lift in E. unfold at_set in E. destruct (set_nth states (Z.to_nat i) s) as [st1|] eqn:E1; [|discriminate].
    apply IH in E.
    + destruct E as [E1' E2]. split; [exact E1'|]. apply set_nth_some in E1. destruct E1 as [_ ->]. rewrite upd_length in E2. exact E2.
    + intros v Iv. destruct (set_nth_in _ _ _ _ _ E1 Iv) as [<-|I]; [|exact (A v I)].
      exact (proj1 (valid_sample_spec _ _ _ _ _ _ ES)).
Qed.

Lemma sample_items_apart tries : forall n k states w states' w',
  sample_items ops sampling state_valid dist search false tries (seq_from (Z.of_nat k) n) states w = (Ok states', w') ->
  all_apart states -> (forall j a, (k <= j)%nat -> nth_error states j = Some a -> a = None) -> all_apart states'.
Proof.
  induction n as [|n IH]; intros k states w states' w' E A N.
  - cbn in E. unfold ret in E. injection E as <- <-. exact A.
  - cbn [seq_from sample_items] in E. unfold ebind at 1 in E.
    destruct (valid_sample ops sampling state_valid dist search false states tries w) as [[s| | |] w1] eqn:ES; try discriminate.
    unfold ebind at 1, lift in E. unfold at_set in E. destruct (set_nth states (Z.to_nat (Z.of_nat k)) s) as [st1|] eqn:E1; [|discriminate].
    rewrite Nat2Z.id in E1. apply set_nth_some in E1. destruct E1 as [L ->].
    replace (Z.of_nat k + 1) with (Z.of_nat (S k)) in E by lia. apply IH in E; [exact E| |].
    + intros i j a b Lij Ha Hb. rewrite nth_error_upd in Ha, Hb.
      destruct (Nat.eq_dec k i) as [<-|Ni].
      * destruct (Nat.eq_dec k j) as [<-|Nj]; [lia|]. assert (Some b = None) as X by (apply (N j); [lia|exact Hb]). discriminate.
      * destruct (Nat.eq_dec k j) as [<-|Nj]; [|exact (A i j a b Lij Ha Hb)].
        destruct (lt_dec k (length states)); [|lia]. injection Hb as ->.
        apply (proj2 (valid_sample_spec _ _ _ _ _ _ ES) eq_refl). exact (nth_error_In _ _ Ha).
    + intros j a Lj Hj. rewrite nth_error_upd in Hj. destruct (Nat.eq_dec k j); [lia|]. apply (N j); [lia|exact Hj].
Qed.
End Sampling.

Section Links.
Context {V C : Type} (ops : cost_ops C).
Variable dist : V -> V -> C.
Variable valid : V -> V -> bool.
Variable symmetric : bool.
Hypothesis SYM : symmetric = true -> symmetric_functions dist valid.
Variable vs : list V.
Variable dflt : V.

Notation v i := (nth (Z.to_nat i) vs dflt).
Notation size := (Z.of_nat (length vs)).
Definition edge i j : GraphEdge C := mkEdge i j (dist (v i) (v j)) 0%N.

(** The roadmap with the given neighbors of every node. *)
Definition laid (ins outs : Z -> list Z) (g : list (GraphNode V C)) : Prop :=
  Size g = size /\
  forall i, 0 <= i < size -> node_at g i (mkNode (v i) (map (fun j => edge j i) (ins i)) (map (fun j => edge i j) (outs i))).

(** Neighbors are other nodes joined by valid edges. *)
Definition proper (ins outs : Z -> list Z) : Prop :=
  forall i, 0 <= i < size ->
    NoDup (ins i) /\ NoDup (outs i) /\
    (forall j, In j (ins i) -> 0 <= j < size /\ j <> i /\ valid (v j) (v i) = true) /\
    (forall j, In j (outs i) -> 0 <= j < size /\ j <> i /\ valid (v i) (v j) = true).

Definition put1 (f : Z -> list Z) i x : Z -> list Z := fun k => if k =? i then f k ++ [x] else f k.

Lemma laid_ext ins outs ins' outs' g : laid ins outs g ->
  (forall i, 0 <= i < size -> ins i = ins' i /\ outs i = outs' i) -> laid ins' outs' g.
Proof. intros [S N] H. split; [exact S|]. intros i R. destruct (H i R) as [<- <-]. exact (N i R). Qed.

Lemma laid_node ins outs g i n : laid ins outs g -> node_at g i n ->
  0 <= i < size /\ n = mkNode (v i) (map (fun j => edge j i) (ins i)) (map (fun j => edge i j) (outs i)).
Proof.
  intros [S N] Hn. pose proof (node_at_range _ _ _ Hn) as R. rewrite S in R. split; [exact R|].
  exact (node_at_fun _ _ _ _ Hn (N i R)).
Qed.

Lemma laid_in ins outs g i j : laid ins outs g -> 0 <= i < size ->
  exists g', UpdateNode g i (fun n => AddInEdge n (edge j i)) = Ok g' /\ laid (put1 ins i j) outs g'.
Proof.
  intros [S N] R. pose proof (N i R) as Hn. rewrite (UpdateNode_ok _ _ _ _ Hn). eexists. split; [reflexivity|].
  split; [rewrite Size_upd; exact S|]. intros k Rk. apply node_at_upd; [lia|]. unfold put1.
  destruct (Z.eqb_spec k i) as [->|Nk].
  - left. split; [reflexivity|]. split; [lia|]. unfold AddInEdge. cbn. rewrite map_app. reflexivity.
  - right. split; [exact Nk|exact (N k Rk)].
Qed.
Lemma laid_out ins outs g i j : laid ins outs g -> 0 <= i < size ->
  exists g', UpdateNode g i (fun n => AddOutEdge n (edge i j)) = Ok g' /\ laid ins (put1 outs i j) g'.
Proof.
  intros [S N] R. pose proof (N i R) as Hn. rewrite (UpdateNode_ok _ _ _ _ Hn). eexists. split; [reflexivity|].
  split; [rewrite Size_upd; exact S|]. intros k Rk. apply node_at_upd; [lia|]. unfold put1.
  destruct (Z.eqb_spec k i) as [->|Nk].
  - left. split; [reflexivity|]. split; [lia|]. unfold AddOutEdge. cbn. rewrite map_app. reflexivity.
  - right. split; [exact Nk|exact (N k Rk)].
Qed.

(** Neighbors that connect_item adds. *)
Definition from_valid i (js : list Z) : list Z := filter (fun j => negb (j =? i) && valid (v j) (v i)) js.
Definition to_valid i (js : list Z) : list Z := filter (fun j => negb (j =? i) && valid (v i) (v j)) js.
Definition more (f : Z -> list Z) i (js : list Z) : Z -> list Z := fun k => if k =? i then f k ++ js else f k.

Lemma connect_neighbors i : 0 <= i < size -> forall l ins outs g, laid ins outs g ->
  (forall j d, In (j, d) l -> 0 <= j < size /\ d = dist (v j) (v i)) ->
  exists g', mfold (connect_neighbor dist valid symmetric i (v i)) g l = Ok g' /\
    laid (more ins i (from_valid i (map fst l))) (more outs i (to_valid i (map fst l))) g'.
Proof.
  intros Ri. induction l as [|[j d] l IH]; intros ins outs g L T.
  - exists g. split; [reflexivity|]. eapply laid_ext; [exact L|]. intros k _. unfold more, from_valid, to_valid. cbn.
    destruct (k =? i); rewrite ?app_nil_r; auto.
  - cbn [mfold]. destruct (T j d (or_introl eq_refl)) as [Rj ->].
    assert (STEP : exists g1, connect_neighbor dist valid symmetric i (v i) g (j, dist (v j) (v i)) = Ok g1 /\
              laid (more ins i (from_valid i [j])) (more outs i (to_valid i [j])) g1).
    { unfold connect_neighbor. cbn [fst snd]. destruct (Z.eqb_spec j i) as [->|Nj].
      - exists g. split; [reflexivity|]. eapply laid_ext; [exact L|]. intros k _. unfold more, from_valid, to_valid. cbn.
        rewrite Z.eqb_refl. cbn. destruct (k =? i); rewrite ?app_nil_r; auto.
      - rewrite (proj1 (GetNode_ok _ _ _) (proj2 L j Rj)). cbn [bind value].
        assert (S1 : exists g1, (if valid (v j) (v i) then UpdateNode g i (fun n => AddInEdge n (mkEdge j i (dist (v j) (v i)) 0%N)) else Ok g) = Ok g1 /\
                     laid (more ins i (from_valid i [j])) outs g1).
        { unfold from_valid. cbn [filter]. destruct (Z.eqb_spec j i); [congruence|]. cbn [negb andb].
          destruct (valid (v j) (v i)).
          - destruct (laid_in ins outs g i j L Ri) as (g1 & E1 & L1). exists g1. split; [exact E1|exact L1].
          - exists g. split; [reflexivity|]. eapply laid_ext; [exact L|]. intros k _. unfold more. destruct (k =? i); rewrite ?app_nil_r; auto. }
        destruct S1 as (g1 & -> & L1). cbn [bind].
        assert (X : (if symmetric && valid (v j) (v i)
                     then UpdateNode g1 i (fun n => AddOutEdge n (mkEdge i j (dist (v j) (v i)) 0%N))
                     else if valid (v i) (v j) then UpdateNode g1 i (fun n => AddOutEdge n (mkEdge i j (dist (v i) (v j)) 0%N)) else Ok g1)
                  = if valid (v i) (v j) then UpdateNode g1 i (fun n => AddOutEdge n (edge i j)) else Ok g1).
        { destruct symmetric; [|reflexivity]. destruct (SYM eq_refl (v i) (v j)) as [Sd Sv]. rewrite Sv.
          destruct (valid (v j) (v i)); [|reflexivity]. cbn [andb]. unfold edge. rewrite Sd. reflexivity. }
        rewrite X. clear X. unfold to_valid. cbn [filter]. destruct (Z.eqb_spec j i); [congruence|]. cbn [negb andb].
        destruct (valid (v i) (v j)).
        + destruct (laid_out _ outs g1 i j L1 Ri) as (g2 & E2 & L2). exists g2. split; [exact E2|exact L2].
        + exists g1. split; [reflexivity|]. eapply laid_ext; [exact L1|]. intros k _. unfold more. destruct (k =? i); rewrite ?app_nil_r; auto. }
    destruct STEP as (g1 & E1 & L1). rewrite E1. cbn [bind].
    destruct (IH _ _ g1 L1) as (g2 & E2 & L2); [intros j' d' I; apply T; right; exact I|].
    exists g2. split; [exact E2|]. eapply laid_ext; [exact L2|]. intros k _. unfold more, from_valid, to_valid. cbn [map fst filter].
    destruct (k =? i); [|auto]. rewrite <- !app_assoc. split; f_equal.
    + destruct (negb (j =? i) && valid (v j) (v i)); reflexivity.
    + destruct (negb (j =? i) && valid (v i) (v j)); reflexivity.
Qed.

Variable knn : @knn_provider V C.
Hypothesis KNN : knn_truthful knn dist.

Lemma filter_nodup {A} (f : A -> bool) l : NoDup l -> NoDup (filter f l).
Proof.
  induction 1 as [|x l N D IH]; cbn; [constructor|]. destruct (f x); [|exact IH]. constructor; [|exact IH].
  intros I. apply filter_In in I. tauto.
Qed.

Lemma connect_items K : forall items ins outs g g', NoDup items -> (forall i, In i items -> 0 <= i < size) ->
  laid ins outs g -> proper ins outs -> (forall i, In i items -> ins i = [] /\ outs i = []) ->
  mfold (connect_item knn dist valid symmetric K) g items = Ok g' ->
  exists ins' outs', laid ins' outs' g' /\ proper ins' outs' /\
    (forall i, ~ In i items -> ins' i = ins i /\ outs' i = outs i) /\
    forall i, In i items -> exists gm l, map value gm = vs /\
      GetKNearestNeighbors knn (as_graph_like gm) (v i) (K + 1) RoadmapToNewState (Size gm) = Ok l /\
      ins' i = from_valid i (map fst l) /\ outs' i = to_valid i (map fst l).
Proof.
  induction items as [|i items IH]; intros ins outs g g' ND R L P EMP E.
  - cbn in E. injection E as <-. exists ins, outs. split; [exact L|]. split; [exact P|]. split; [auto|]. intros i [].
  - cbn [mfold] in E. apply bind_ok in E. destruct E as (g1 & E1 & E2).
    pose proof (R i (or_introl eq_refl)) as Ri. inversion ND as [|? ? NI ND']; subst.
    unfold connect_item in E1. rewrite (proj1 (GetNode_ok _ _ _) (proj2 L i Ri)) in E1. cbn [bind value] in E1.
    destruct (2 ^ 63 - 1 <=? K); [discriminate|]. apply bind_ok in E1. destruct E1 as (l & EK & E1).
    destruct (get_nn_ok knn dist valid KNN _ _ _ _ _ _ EK) as [NDl T].
    assert (T' : forall j d, In (j, d) l -> 0 <= j < size /\ d = dist (v j) (v i)).
    { intros j d I. destruct (T j d I) as (Rj & _ & n & Hn & Ed). destruct (laid_node _ _ _ _ _ L Hn) as [Rj' ->].
      cbn in Ed. auto. }
    destruct (connect_neighbors i Ri l ins outs g L T') as (g1' & E1' & L1). rewrite E1' in E1. injection E1 as <-.
    destruct (EMP i (or_introl eq_refl)) as [Ei Eo].
    assert (P1 : proper (more ins i (from_valid i (map fst l))) (more outs i (to_valid i (map fst l)))).
    { intros k Rk. unfold more. destruct (Z.eqb_spec k i) as [->|Nk]; [|exact (P k Rk)]. rewrite Ei, Eo. cbn [app].
      split; [apply filter_nodup; exact NDl|]. split; [apply filter_nodup; exact NDl|].
      assert (RR : forall j, In j (map fst l) -> 0 <= j < size).
      { intros j Ij. apply in_map_iff in Ij. destruct Ij as ([j' d] & Ej & Ij). cbn in Ej. subst j'. apply (T' j d Ij). }
      split; intros j Ij; apply filter_In in Ij; destruct Ij as [Ij Fj]; apply andb_true_iff in Fj; destruct Fj as [F1 F2];
        (split; [apply RR; exact Ij|]; split; [lia|exact F2]). }
    destruct (IH _ _ g1' g' ND' (fun j Hj => R j (or_intror Hj)) L1 P1) as (ins' & outs' & L' & P' & KEEP & DONE); [|exact E2|].
    { intros j Ij. unfold more. destruct (Z.eqb_spec j i) as [->|]; [contradiction|]. apply EMP. right. exact Ij. }
    exists ins', outs'. split; [exact L'|]. split; [exact P'|]. split.
    + intros k Nk. destruct (KEEP k) as [-> ->]; [intros X; apply Nk; right; exact X|]. unfold more.
      destruct (Z.eqb_spec k i) as [->|]; [exfalso; apply Nk; left; reflexivity|auto].
    + intros k [<-|Ik]; [|exact (DONE k Ik)]. exists g, l. split.
      { apply nth_error_ext. intros q. rewrite nth_error_map. pose proof (proj1 L) as SZ. unfold Size in SZ.
        destruct (lt_dec q (length vs)) as [Lq|Lq].
        - destruct (proj2 L (Z.of_nat q)) as [_ Hq]; [lia|]. rewrite Nat2Z.id in Hq. rewrite Hq. cbn [option_map value].
          symmetry. apply nth_error_nth'. exact Lq.
        - assert (X : nth_error g q = None) by (apply nth_error_None; lia). rewrite X. symmetry. apply nth_error_None. lia. }
      split; [exact EK|]. destruct (KEEP i NI) as [-> ->]. unfold more. rewrite Z.eqb_refl, Ei, Eo. auto.
Qed.

(** The linkage loops. *)
Lemma link_ins i : 0 <= i < size -> forall js ins outs g, laid ins outs g -> proper ins outs ->
  (forall j, In j js -> In j (ins i)) ->
  exists outs' g', mfold (link_in_edge i) g (map (fun j => edge j i) js) = Ok g' /\ laid ins outs' g' /\ proper ins outs' /\
    (forall k x, In x (outs k) -> In x (outs' k)) /\ (forall j, In j js -> In i (outs' j)) /\
    (forall k x, In x (outs' k) -> In x (outs k) \/ (x = i /\ In k (ins i))) /\ outs' i = outs i.
Proof.
  intros Ri. induction js as [|j js IH]; intros ins outs g L P SUB.
  - exists outs, g. cbn. split; [reflexivity|]. split; [exact L|]. split; [exact P|]. split; [auto|]. split; [intros j []|]. split; auto.
  - cbn [map mfold]. destruct (P i Ri) as (NDi & NDo & PI & PO).
    destruct (PI j (SUB j (or_introl eq_refl))) as (Rj & Nj & Vj).
    unfold link_in_edge at 1. cbn [from_index edge]. rewrite (proj1 (GetNode_ok _ _ _) (proj2 L j Rj)). cbn [bind out_edges weight].
    assert (X : existsb (fun x => to_index x =? i) (map (fun k => edge j k) (outs j)) = true <-> In i (outs j)).
    { rewrite existsb_exists. split.
      - intros (e & Ie & Ee). apply in_map_iff in Ie. destruct Ie as (k & <- & Ik). cbn in Ee. apply Z.eqb_eq in Ee. congruence.
      - intros Ii. exists (edge j i). split; [apply in_map_iff; eauto|]. cbn. apply Z.eqb_refl. }
    destruct (existsb _ (map (fun k => edge j k) (outs j))) eqn:EX.
    + cbn [bind]. destruct (IH ins outs g L P) as (outs' & g' & E' & L' & P' & A1 & A2 & A3 & A4); [intros k Ik; apply SUB; right; exact Ik|].
      exists outs', g'. split; [exact E'|]. split; [exact L'|]. split; [exact P'|]. split; [exact A1|]. split; [|split; [exact A3|exact A4]].
      intros k [<-|Ik]; [apply A1, X; reflexivity|exact (A2 k Ik)].
    + destruct (laid_out ins outs g j i L Rj) as (g1 & E1 & L1). unfold edge in E1 at 1. change (weight (edge j i)) with (dist (v j) (v i)). rewrite E1. cbn [bind].
      assert (NI : ~ In i (outs j)) by (intros II; apply X in II; discriminate).
      assert (P1 : proper ins (put1 outs j i)).
      { intros k Rk. destruct (P k Rk) as (B1 & B2 & B3 & B4). unfold put1. destruct (Z.eqb_spec k j) as [->|]; [|auto].
        split; [exact B1|]. split.
        - apply (Permutation_NoDup (l := i :: outs j)); [apply Permutation_cons_append|]. constructor; assumption.
        - split; [exact B3|]. intros x Ix. apply in_app_iff in Ix. destruct Ix as [Ix|[<-|[]]]; [exact (B4 x Ix)|]. split; [exact Ri|]. split; [congruence|exact Vj]. }
      destruct (IH ins (put1 outs j i) g1 L1 P1) as (outs' & g' & E' & L' & P' & A1 & A2 & A3 & A4); [intros k Ik; apply SUB; right; exact Ik|].
      exists outs', g'. split; [exact E'|]. split; [exact L'|]. split; [exact P'|].
      split; [intros k x Ix; apply A1; unfold put1; destruct (k =? j); [apply in_app_iff; left|]; exact Ix|].
      split; [|split].
      * intros k [<-|Ik]; [|exact (A2 k Ik)]. apply A1. unfold put1. rewrite Z.eqb_refl. apply in_app_iff. right. left. reflexivity.
      * intros k x Ix. apply A3 in Ix. destruct Ix as [Ix|Ix]; [|auto]. unfold put1 in Ix. destruct (Z.eqb_spec k j) as [->|]; [|auto].
        apply in_app_iff in Ix. destruct Ix as [Ix|[<-|[]]]; [auto|]. right. split; [reflexivity|]. apply SUB. left. reflexivity.
      * rewrite A4. unfold put1. destruct (Z.eqb_spec i j); [congruence|reflexivity].
Qed.

Lemma link_outs i : 0 <= i < size -> forall js ins outs g, laid ins outs g -> proper ins outs ->
  (forall j, In j js -> In j (outs i)) ->
  exists ins' g', mfold (link_out_edge i) g (map (fun j => edge i j) js) = Ok g' /\ laid ins' outs g' /\ proper ins' outs /\
    (forall k x, In x (ins k) -> In x (ins' k)) /\ (forall j, In j js -> In i (ins' j)) /\
    (forall k x, In x (ins' k) -> In x (ins k) \/ (x = i /\ In k (outs i))) /\ ins' i = ins i.
Proof.
  intros Ri. induction js as [|j js IH]; intros ins outs g L P SUB.
  - exists ins, g. cbn. split; [reflexivity|]. split; [exact L|]. split; [exact P|]. split; [auto|]. split; [intros j []|]. split; auto.
  - cbn [map mfold]. destruct (P i Ri) as (NDi & NDo & PI & PO).
    destruct (PO j (SUB j (or_introl eq_refl))) as (Rj & Nj & Vj).
    unfold link_out_edge at 1. cbn [to_index edge]. rewrite (proj1 (GetNode_ok _ _ _) (proj2 L j Rj)). cbn [bind in_edges weight].
    assert (X : existsb (fun x => from_index x =? i) (map (fun k => edge k j) (ins j)) = true <-> In i (ins j)).
    { rewrite existsb_exists. split.
      - intros (e & Ie & Ee). apply in_map_iff in Ie. destruct Ie as (k & <- & Ik). cbn in Ee. apply Z.eqb_eq in Ee. congruence.
      - intros Ii. exists (edge i j). split; [apply in_map_iff; eauto|]. cbn. apply Z.eqb_refl. }
    destruct (existsb _ (map (fun k => edge k j) (ins j))) eqn:EX.
    + cbn [bind]. destruct (IH ins outs g L P) as (ins' & g' & E' & L' & P' & A1 & A2 & A3 & A4); [intros k Ik; apply SUB; right; exact Ik|].
      exists ins', g'. split; [exact E'|]. split; [exact L'|]. split; [exact P'|]. split; [exact A1|]. split; [|split; [exact A3|exact A4]].
      intros k [<-|Ik]; [apply A1, X; reflexivity|exact (A2 k Ik)].
    + destruct (laid_in ins outs g j i L Rj) as (g1 & E1 & L1). unfold edge in E1 at 1. change (weight (edge i j)) with (dist (v i) (v j)). rewrite E1. cbn [bind].
      assert (NI : ~ In i (ins j)) by (intros II; apply X in II; discriminate).
      assert (P1 : proper (put1 ins j i) outs).
      { intros k Rk. destruct (P k Rk) as (B1 & B2 & B3 & B4). unfold put1. destruct (Z.eqb_spec k j) as [->|]; [|auto].
        split.
        - apply (Permutation_NoDup (l := i :: ins j)); [apply Permutation_cons_append|]. constructor; assumption.
        - split; [exact B2|]. split; [|exact B4]. intros x Ix. apply in_app_iff in Ix. destruct Ix as [Ix|[<-|[]]]; [exact (B3 x Ix)|]. split; [exact Ri|]. split; [congruence|exact Vj]. }
      destruct (IH (put1 ins j i) outs g1 L1 P1) as (ins' & g' & E' & L' & P' & A1 & A2 & A3 & A4); [intros k Ik; apply SUB; right; exact Ik|].
      exists ins', g'. split; [exact E'|]. split; [exact L'|]. split; [exact P'|].
      split; [intros k x Ix; apply A1; unfold put1; destruct (k =? j); [apply in_app_iff; left|]; exact Ix|].
      split; [|split].
      * intros k [<-|Ik]; [|exact (A2 k Ik)]. apply A1. unfold put1. rewrite Z.eqb_refl. apply in_app_iff. right. left. reflexivity.
      * intros k x Ix. apply A3 in Ix. destruct Ix as [Ix|Ix]; [|auto]. unfold put1 in Ix. destruct (Z.eqb_spec k j) as [->|]; [|auto].
        apply in_app_iff in Ix. destruct Ix as [Ix|[<-|[]]]; [auto|]. right. split; [reflexivity|]. apply SUB. left. reflexivity.
      * rewrite A4. unfold put1. destruct (Z.eqb_spec i j); [congruence|reflexivity].
Qed.

Definition matched (ins outs : Z -> list Z) i : Prop :=
  (forall j, In j (ins i) -> In i (outs j)) /\ (forall j, In j (outs i) -> In i (ins j)).

Lemma link_nodes : forall items ins outs g, (forall i, In i items -> 0 <= i < size) -> laid ins outs g -> proper ins outs ->
  exists ins' outs' g', mfold link_node g items = Ok g' /\ laid ins' outs' g' /\ proper ins' outs' /\
    (forall k x, In x (ins k) -> In x (ins' k)) /\ (forall k x, In x (outs k) -> In x (outs' k)) /\
    (forall i, In i items \/ matched ins outs i -> matched ins' outs' i).
Proof.
  induction items as [|i items IH]; intros ins outs g R L P.
  - exists ins, outs, g. cbn. split; [reflexivity|]. split; [exact L|]. split; [exact P|]. split; [auto|]. split; [auto|].
    intros i [[]|H]. exact H.
  - cbn [mfold]. pose proof (R i (or_introl eq_refl)) as Ri. unfold link_node at 1.
    rewrite (proj1 (GetNode_ok _ _ _) (proj2 L i Ri)). cbn [bind in_edges].
    destruct (link_ins i Ri (ins i) ins outs g L P (fun j H => H)) as (outs1 & g1 & E1 & L1 & P1 & A1 & A2 & A3 & A4).
    rewrite E1. cbn [bind]. rewrite (proj1 (GetNode_ok _ _ _) (proj2 L1 i Ri)). cbn [bind out_edges].
    destruct (link_outs i Ri (outs1 i) ins outs1 g1 L1 P1 (fun j H => H)) as (ins1 & g2 & E2 & L2 & P2 & B1 & B2 & B3 & B4).
    rewrite E2. cbn [bind].
    destruct (IH ins1 outs1 g2 (fun j Hj => R j (or_intror Hj)) L2 P2) as (ins' & outs' & g' & E' & L' & P' & D1 & D2 & D3).
    exists ins', outs', g'. split; [exact E'|]. split; [exact L'|]. split; [exact P'|]. split; [auto|]. split; [auto|].
    assert (Mi : matched ins1 outs1 i).
    { split.
      - intros j Ij. rewrite B4 in Ij. exact (A2 j Ij).
      - exact B2. }
    intros k Hk. apply D3. destruct Hk as [[<-|Ik]|[H1 H2]].
    + right. exact Mi.
    + left. exact Ik.
    + right. split.
      * intros j Ij. apply B3 in Ij. destruct Ij as [Ij|[-> Ij]]; [apply A1, H1; exact Ij|exact Ij].
      * intros j Ij. apply A3 in Ij. destruct Ij as [Ij|[-> Ij]]; [apply B1, H2; exact Ij|]. rewrite B4. exact Ij.
Qed.

Lemma filter_one {A} (f : A -> Z) (l : list Z) (h : Z -> A) x : (forall y, f (h y) = y) -> NoDup l ->
  filter (fun e => f e =? x) (map h l) = if in_dec Z.eq_dec x l then [h x] else [].
Proof.
  intros F. induction l as [|y l IH]; intros ND; [reflexivity|]. cbn [map filter]. rewrite F. inversion ND as [|? ? NI ND']; subst.
  rewrite IH by exact ND'. destruct (Z.eqb_spec y x) as [->|Ny].
  - destruct (in_dec Z.eq_dec x l); [contradiction|]. destruct (in_dec Z.eq_dec x (x :: l)) as [_|N]; [reflexivity|]. exfalso. apply N. left. reflexivity.
  - destruct (in_dec Z.eq_dec x l) as [I|I], (in_dec Z.eq_dec x (y :: l)) as [I'|I']; try reflexivity.
    + exfalso. apply I'. right. exact I.
    + destruct I' as [E|I']; [congruence|contradiction].
Qed.

Lemma laid_linked ins outs g : laid ins outs g -> proper ins outs -> (forall i, 0 <= i < size -> matched ins outs i) ->
  linked g /\ good_graph dist valid g.
Proof.
  intros L P M. split.
  - split; [|split].
    + intros i n e Hn He. destruct (laid_node _ _ _ _ _ L Hn) as [Ri ->]. cbn in He. apply in_map_iff in He. destruct He as (j & <- & Ij).
      destruct (P i Ri) as (_ & _ & _ & PO). destruct (PO j Ij) as (Rj & Nj & _). cbn. split; [reflexivity|]. split; [exact Nj|].
      eexists. exact (proj2 L j Rj).
    + intros i n e Hn He. destruct (laid_node _ _ _ _ _ L Hn) as [Ri ->]. cbn in He. apply in_map_iff in He. destruct He as (j & <- & Ij).
      destruct (P i Ri) as (_ & _ & PI & _). destruct (PI j Ij) as (Rj & Nj & _). cbn. split; [reflexivity|]. split; [exact Nj|].
      eexists. exact (proj2 L j Rj).
    + intros i j n m Hn Hm. destruct (laid_node _ _ _ _ _ L Hn) as [Ri ->], (laid_node _ _ _ _ _ L Hm) as [Rj ->]. cbn [in_edges out_edges].
      rewrite (filter_one (@to_index C) (outs i) (fun k => edge i k) j) by (auto; apply (P i Ri)).
      rewrite (filter_one (@from_index C) (ins j) (fun k => edge k j) i) by (auto; apply (P j Rj)).
      destruct (M i Ri) as [M1 M2], (M j Rj) as [M3 M4].
      destruct (in_dec Z.eq_dec j (outs i)) as [I|I], (in_dec Z.eq_dec i (ins j)) as [I'|I']; try reflexivity; exfalso.
      * apply I', M2, I.
      * apply I, M3, I'.
  - intros i n e Hn He. destruct (laid_node _ _ _ _ _ L Hn) as [Ri ->]. cbn in He. destruct (P i Ri) as (_ & _ & PI & PO).
    destruct He as [He|He]; apply in_map_iff in He; destruct He as (j & <- & Ij).
    + destruct (PI j Ij) as (Rj & _ & Vj). eexists; eexists; cbn; split; [exact (proj2 L j Rj)|]. split; [exact (proj2 L i Ri)|]. cbn. auto.
    + destruct (PO j Ij) as (Rj & _ & Vj). eexists; eexists; cbn; split; [exact (proj2 L i Ri)|]. split; [exact (proj2 L j Rj)|]. cbn. auto.
Qed.
End Links.

Lemma populate_ok {V C} (states : list (option V)) : forall (g : list (GraphNode V C)) g', populate states g = Ok g' ->
  exists vs, states = map Some vs /\ g' = g ++ map (fun x => mkNode x [] []) vs.
Proof.
  induction states as [|[x|] states IH]; intros g g' E; cbn in E; [injection E as <-|apply IH in E|discriminate].
  - exists []. rewrite app_nil_r. auto.
  - destruct E as (vs & -> & ->). exists (x :: vs). cbn. rewrite <- app_assoc. auto.
Qed.

Lemma seqZ_NoDup n : NoDup (seqZ 0 n).
Proof.
  unfold seqZ. rewrite Z.sub_0_r. generalize 0. induction (Z.to_nat n) as [|k IH]; intros lo; cbn; constructor; [|apply IH].
  assert (H : forall k lo x, In x (seq_from lo k) -> lo <= x).
  { clear. induction k as [|k IH]; intros lo x; cbn; [tauto|]. intros [<-|I]; [lia|]. apply IH in I. lia. }
  intros I. apply H in I. lia.
Qed.

Section Build.
Context {V C W : Type} (ops : cost_ops C).
Hypothesis LAWS : cost_laws ops.
Variable sampling : eff W V.
Variable state_valid : V -> eff W bool.
Variable knn : @knn_provider V C.
Variable dist : V -> V -> C.
Variable valid : V -> V -> bool.
Variable search : list (option V) -> (option V -> C) -> Z -> outcome (list (Z * C)).
Variable accepted : V -> Prop.
Variables symmetric dups : bool.
Hypothesis SEARCH : search_contract ops search.
Hypothesis ACC : accepts accepted state_valid.
Hypothesis KNN : knn_truthful knn dist.
Hypothesis SYM : symmetric = true -> symmetric_functions dist valid.

Lemma build_spec sample_order connect_order size K tries use_parallel w g w' :
  Permutation connect_order (seqZ 0 size) ->
  BuildRoadMap ops sampling state_valid knn dist valid search sample_order connect_order size K tries use_parallel symmetric dups w = (Ok g, w') ->
  0 <= size /\ 1 <= K /\ 1 <= tries /\ Size g = size /\
  (forall i n, node_at g i n -> accepted (value n)) /\
  (dups = false -> forall i j ni nj, i < j -> node_at g i ni -> node_at g j nj -> positive ops (dist (value ni) (value nj)) = true) /\
  linked g /\ good_graph dist valid g /\
  (forall i n, node_at g i n -> exists gm l, map value gm = map value g /\
     GetKNearestNeighbors knn (as_graph_like gm) (value n) (K + 1) RoadmapToNewState (Size gm) = Ok l /\
     forall j m, In j (map fst l) -> j <> i -> node_at g j m ->
       (valid (value m) (value n) = true -> exists e, In e (in_edges n) /\ from_index e = j) /\
       (valid (value n) (value m) = true -> exists e, In e (out_edges n) /\ to_index e = j)).
Proof.
  intros PO E. unfold BuildRoadMap in E.
  destruct (Z.ltb_spec size 0); [discriminate|]. destruct (Z.ltb_spec K 1); [discriminate|]. destruct (Z.ltb_spec tries 1); [discriminate|].
  unfold ebind at 1 in E. destruct (sample_items _ _ _ _ _ _ _ _ _ w) as [[states| | |] w1] eqn:ES; try discriminate.
  unfold ebind, lift in E. destruct (populate states []) as [g0| | |] eqn:EP; try discriminate.
  destruct (mfold (connect_item knn dist valid symmetric K) g0 connect_order) as [g1| | |] eqn:EC; try discriminate.
  destruct (mfold link_node g1 (seqZ 0 (Size g1))) as [g2| | |] eqn:EL; try discriminate. injection E as <- _.
  destruct (populate_ok _ _ _ EP) as (vs & -> & ->). cbn [app] in EC.
  assert (A0 : all_accepted accepted (repeat None (Z.to_nat size))).
  { intros x Ix. apply repeat_spec in Ix. discriminate. }
  destruct (sample_items_accepted ops LAWS sampling state_valid dist search SEARCH accepted ACC _ _ _ _ _ _ _ ES A0) as [ACCV LEN].
  rewrite map_length, repeat_length in LEN.
  assert (APART : dups = false -> all_apart ops dist (map Some vs)).
  { intros ->. rewrite andb_false_r in ES. unfold seqZ in ES. rewrite Z.sub_0_r in ES.
    apply (sample_items_apart ops LAWS sampling state_valid dist search SEARCH accepted ACC _ _ 0%nat _ _ _ _ ES).
    - intros i j a b _ Ha _. exfalso. apply nth_error_In, repeat_spec in Ha. discriminate.
    - intros j a _ Hj. apply nth_error_In, repeat_spec in Hj. exact Hj. }
  destruct vs as [|dflt vs0] eqn:Evs.
  { assert (size = 0) by (cbn in LEN; lia). subst size. cbn in EC. 
    assert (connect_order = []) as -> by (apply Permutation_sym in PO; exact (Permutation_nil PO)).
    cbn in EC. injection EC as <-. cbn in EL. injection EL as <-.
    assert (NO : forall i n, ~ node_at (@nil (GraphNode V C)) i n) by (intros i n [_ X]; destruct (Z.to_nat i); discriminate).
    repeat (split; [lia|]). split; [reflexivity|]. split; [intros i n Hn; destruct (NO _ _ Hn)|].
    split; [intros _ i j ni nj _ Hn; destruct (NO _ _ Hn)|]. split; [apply linked_nil|].
    split; [intros i n e Hn; destruct (NO _ _ Hn)|]. intros i n Hn; destruct (NO _ _ Hn). }
  rewrite <- Evs in *. clear Evs vs0.
  assert (L0 : laid (C := C) dist vs dflt (fun _ => []) (fun _ => []) (map (fun x => mkNode x [] []) vs)).
  { split; [unfold Size; rewrite map_length; reflexivity|]. intros i Ri. cbn. split; [lia|]. rewrite nth_error_map.
    rewrite (nth_error_nth' vs dflt) by lia. reflexivity. }
  assert (P0 : proper valid vs dflt (fun _ => []) (fun _ => [])).
  { intros i Ri. split; [constructor|]. split; [constructor|]. split; intros j []. }
  assert (RC : forall i, In i connect_order <-> 0 <= i < Z.of_nat (length vs)).
  { intros i. rewrite LEN, Z2Nat.id by lia. rewrite <- seqZ_in.
    split; intros I; [exact (Permutation_in _ PO I)|exact (Permutation_in _ (Permutation_sym PO) I)]. }
  destruct (connect_items dist valid symmetric SYM vs dflt knn KNN K connect_order _ _ _ g1
              (Permutation_NoDup (Permutation_sym PO) (seqZ_NoDup size)) (fun i I => proj1 (RC i) I) L0 P0 (fun i _ => conj eq_refl eq_refl) EC)
    as (ins1 & outs1 & L1 & P1 & _ & DONE).
  destruct (link_nodes dist valid symmetric SYM vs dflt (seqZ 0 (Size g1)) ins1 outs1 g1) as (ins & outs & g2' & E2 & L2 & P2 & B1 & B2 & M2).
  { intros i Ii. apply seqZ_in in Ii. rewrite (proj1 L1) in Ii. exact Ii. }
  { exact L1. }
  { exact P1. }
  rewrite EL in E2. injection E2 as <-.
  assert (MM : forall i, 0 <= i < Z.of_nat (length vs) -> matched ins outs i).
  { intros i Ri. apply M2. left. apply seqZ_in. rewrite (proj1 L1). exact Ri. }
  destruct (laid_linked dist valid vs dflt ins outs g2 L2 P2 MM) as [LK GG].
  split; [lia|]. split; [lia|]. split; [lia|]. split; [rewrite (proj1 L2); lia|]. split; [|split; [|split; [exact LK|split; [exact GG|]]]].
  - intros i n Hn. destruct (laid_node _ _ _ _ _ _ _ _ L2 Hn) as [Ri ->]. cbn. apply ACCV. apply in_map, nth_In. lia.
  - intros D i j ni nj Lij Hi Hj. destruct (laid_node _ _ _ _ _ _ _ _ L2 Hi) as [Ri ->], (laid_node _ _ _ _ _ _ _ _ L2 Hj) as [Rj ->]. cbn.
    apply (APART D (Z.to_nat i) (Z.to_nat j)); [lia| |]; rewrite nth_error_map, (nth_error_nth' vs dflt) by lia; reflexivity.
  - assert (EV : map value g2 = vs).
    { apply nth_error_ext. intros q. rewrite nth_error_map. pose proof (proj1 L2) as SZ. unfold Size in SZ.
      destruct (lt_dec q (length vs)) as [Lq|Lq].
      - destruct (proj2 L2 (Z.of_nat q)) as [_ Hq]; [lia|]. rewrite Nat2Z.id in Hq. rewrite Hq. cbn [option_map value].
        symmetry. apply nth_error_nth'. exact Lq.
      - assert (X : nth_error g2 q = None) by (apply nth_error_None; lia). rewrite X. symmetry. apply nth_error_None. lia. }
    intros i n Hn. destruct (laid_node _ _ _ _ _ _ _ _ L2 Hn) as [Ri ->]. cbn [value in_edges out_edges].
    destruct (DONE i) as (gm & l & Em & EK & Ei & Eo); [apply RC; exact Ri|].
    exists gm, l. split; [congruence|]. split; [exact EK|]. intros j m Ij Nj Hm.
    destruct (laid_node _ _ _ _ _ _ _ _ L2 Hm) as [Rj ->]. cbn [value]. split; intros Vj.
    + exists (edge dist vs dflt j i). split; [|reflexivity]. apply in_map_iff. exists j. split; [reflexivity|]. apply B1. rewrite Ei.
      apply filter_In. split; [exact Ij|]. rewrite Vj. destruct (Z.eqb_spec j i); [congruence|reflexivity].
    + exists (edge dist vs dflt i j). split; [|reflexivity]. apply in_map_iff. exists j. split; [reflexivity|]. apply B2. rewrite Eo.
      apply filter_In. split; [exact Ij|]. rewrite Vj. destruct (Z.eqb_spec j i); [congruence|reflexivity].
Qed.
End Build.
