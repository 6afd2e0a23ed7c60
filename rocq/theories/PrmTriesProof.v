(** Proofs of C173. *)
From Verif Require Import Base Effect ParallelismModel ParallelismProof GraphModel GraphSpec GraphProof
  SearchModel SearchSpec KnnSpec PrmModel PrmSpec PrmProof PrmBuild PrmPath KnnModel KnnProof PrmTriesSpec.
From Coq Require Import Permutation ZifyBool ZifyNat.
Local Open Scope Z_scope.

Lemma made_app a b : tries_made (a ++ b) = tries_made a + tries_made b.
Proof. unfold tries_made. rewrite filter_app, app_length. lia. Qed.
Lemma found_app a b : valid_found (a ++ b) = valid_found a + valid_found b.
Proof. unfold valid_found. rewrite filter_app, app_length. lia. Qed.
Lemma found_nonneg a : 0 <= valid_found a. Proof. unfold valid_found. lia. Qed.

Section Tries.
Context {V C W : Type} (ops : cost_ops C).
Variable sampling : eff W V.
Variable state_valid : V -> eff W bool.
Variable dist : V -> V -> C.
Variable search : list (option V) -> (option V -> C) -> Z -> outcome (list (Z * C)).
Hypothesis SEARCH : search_contract ops search.
Hypothesis SAMPLING : returns sampling.
Hypothesis VALIDITY : forall v, returns (state_valid v).
Variable dups : bool.

Lemma run_ok {S A B} (m : eff S A) (f : A -> eff S B) s a s' : m s = (Ok a, s') -> ebind m f s = f a s'.
Proof. intros E. unfold ebind. now rewrite E. Qed.

Lemma search_first states d : states <> [] -> exists x l, search states d 1 = Ok (x :: l).
Proof.
  intros N. destruct (SEARCH states d 1) as (sel & E & K); [lia|]. rewrite E.
  destruct sel as [|x l]; [|eauto]. exfalso. pose proof (kn_size _ _ _ _ _ _ _ K) as L. cbn in L.
  destruct states; [congruence|]. cbn in L. lia.
Qed.

(** One call of the sampling function and of the check. *)
Lemma valid_sample_tries states : states <> [] -> forall tries w log,
  exists res w' added,
    valid_sample ops (jotted_sampling sampling) (jotted_validity state_valid) dist search dups states tries (w, log)
      = (Ok res, (w', log ++ added)) /\
    tries_made added <= Z.of_nat tries /\
    match res with
    | Some _ => 1 <= tries_made added /\ 1 <= valid_found added /\ (dups = true -> valid_found added = 1)
    | None => tries_made added = Z.of_nat tries /\ (dups = true -> valid_found added = 0)
    end.
Proof.
  intros NE. induction tries as [|tries IH]; intros w log.
  - exists None, w, []. cbn. rewrite app_nil_r. unfold tries_made, valid_found. cbn. split; [reflexivity|]. split; [lia|]. split; [lia|reflexivity].
  - cbn [valid_sample]. destruct (SAMPLING w) as (v & w1 & E1).
    rewrite (run_ok (jotted_sampling sampling) _ (w, log) v (w1, log ++ [Asked])).
    2:{ unfold jotted_sampling, jot, ebind, on_snd, on_fst, get, put. cbn. now rewrite E1. }
    destruct (VALIDITY v w1) as (b & w2 & E2).
    rewrite (run_ok (jotted_validity state_valid v) _ (w1, log ++ [Asked]) b (w2, (log ++ [Asked]) ++ [Judged b])).
    2:{ unfold jotted_validity, jot, ebind, on_snd, on_fst, get, put, ret. cbn. rewrite E2. reflexivity. }
    rewrite <- app_assoc. cbn [app].
    assert (REC : forall ok, (dups = true -> ok = false) -> ok = b ->
      exists res w' added,
        valid_sample ops (jotted_sampling sampling) (jotted_validity state_valid) dist search dups states tries (w2, log ++ [Asked; Judged b])
          = (Ok res, (w', log ++ added)) /\
        tries_made added <= Z.of_nat (S tries) /\
        match res with
        | Some _ => 1 <= tries_made added /\ 1 <= valid_found added /\ (dups = true -> valid_found added = 1)
        | None => tries_made added = Z.of_nat (S tries) /\ (dups = true -> valid_found added = 0)
        end).
    { intros ok D ->. destruct (IH w2 (log ++ [Asked; Judged b])) as (res & w' & added & E & T & R).
      exists res, w', ([Asked; Judged b] ++ added). rewrite E, <- app_assoc. split; [reflexivity|].
      rewrite made_app, found_app. change (tries_made [Asked; Judged b]) with 1.
      assert (F : 0 <= valid_found [Asked; Judged b] /\ (dups = true -> valid_found [Asked; Judged b] = 0)).
      { split; [apply found_nonneg|]. intros H. rewrite (D H). reflexivity. }
      split; [lia|]. destruct res; destruct R as [R1 R2].
      - destruct R2 as [R2 R3]. split; [lia|]. split; [lia|]. intros H. rewrite (proj2 F H), (R3 H). lia.
      - split; [lia|]. intros H. rewrite (proj2 F H), (R2 H). lia. }
    destruct b; cbn [andb].
    + destruct dups eqn:D.
      * exists (Some v), w2, [Asked; Judged true]. split; [reflexivity|]. unfold tries_made, valid_found. cbn. lia.
      * destruct (search_first states (sampled_distance ops dist v) NE) as (x & l & ES). rewrite ES.
        unfold lift. rewrite (run_ok _ _ _ (x :: l) (w2, log ++ [Asked; Judged true])) by reflexivity.
        rewrite (run_ok _ _ _ x (w2, log ++ [Asked; Judged true])) by reflexivity.
        destruct (positive ops (snd x)); [|apply (REC true); [discriminate|reflexivity]].
        exists (Some v), w2, [Asked; Judged true]. split; [reflexivity|]. unfold tries_made, valid_found. cbn. lia.
    + apply (REC false); [reflexivity|reflexivity].
Qed.

Lemma upd_nonempty {A} (l : list A) i v : l <> [] -> upd l i v <> [].
Proof. intros N E. apply N. apply length_zero_iff_nil. rewrite <- (upd_length l i v), E. reflexivity. Qed.

(** The whole sampling loop: which items failed, and how many samples were asked for. *)
Lemma sample_items_tries tries : (1 <= tries)%nat -> forall items states w log,
  NoDup items -> (forall i, In i items -> 0 <= i < Z.of_nat (length states)) ->
  exists states' w' added,
    sample_items ops (jotted_sampling sampling) (jotted_validity state_valid) dist search dups tries items states (w, log)
      = (Ok states', (w', log ++ added)) /\
    length states' = length states /\
    (forall k, ~ In (Z.of_nat k) items -> nth_error states' k = nth_error states k) /\
    Z.of_nat (length items) <= tries_made added <= Z.of_nat (length items) * Z.of_nat tries /\
    (dups = true -> valid_found added <= Z.of_nat (length items)) /\
    (((forall k s, In (Z.of_nat k) items -> nth_error states' k = Some s -> s <> None) /\
      Z.of_nat (length items) <= valid_found added) \/
     (exists k, In (Z.of_nat k) items /\ nth_error states' k = Some None /\
      Z.of_nat (length items) - 1 + Z.of_nat tries <= tries_made added /\
      (dups = true -> valid_found added < Z.of_nat (length items)))).
Proof.
  intros T1. induction items as [|i items IH]; intros states w log ND R.
  - exists states, w, []. cbn. rewrite app_nil_r. split; [reflexivity|]. split; [reflexivity|].
    split; [reflexivity|]. unfold tries_made, valid_found. cbn. split; [lia|]. split; [lia|]. left. split; [intros k s []|lia].
  - inversion ND as [|? ? NI ND']; subst. pose proof (R i (or_introl eq_refl)) as Ri.
    assert (NE : states <> []) by (intros ->; cbn in Ri; lia).
    cbn [sample_items]. destruct (valid_sample_tries states NE tries w log) as (res & w1 & a1 & E1 & T & RS).
    rewrite (run_ok _ _ _ res (w1, log ++ a1)) by exact E1.
    rewrite (run_ok _ _ _ (upd states (Z.to_nat i) res) (w1, log ++ a1)).
    2:{ unfold lift, at_set. rewrite set_nth_upd by lia. reflexivity. }
    destruct (IH (upd states (Z.to_nat i) res) w1 (log ++ a1) ND') as (states' & w' & a2 & E2 & L & KEEP & B & D & CASE).
    { intros j Ij. rewrite upd_length. apply R. now right. }
    exists states', w', (a1 ++ a2). rewrite E2, <- app_assoc. split; [reflexivity|].
    rewrite upd_length in L. split; [exact L|].
    split.
    { intros k Nk. rewrite KEEP by (intros X; apply Nk; now right). rewrite nth_error_upd.
      destruct (Nat.eq_dec (Z.to_nat i) k) as [E|]; [|reflexivity]. exfalso. apply Nk. left. lia. }
    assert (AT : nth_error states' (Z.to_nat i) = Some res).
    { rewrite KEEP by (now rewrite Z2Nat.id by lia). rewrite nth_error_upd. destruct (Nat.eq_dec _ _); [|congruence].
      destruct (lt_dec (Z.to_nat i) (length states)); [reflexivity|lia]. }
    rewrite made_app, found_app. cbn [length].
    assert (B1 : 1 <= tries_made a1 <= Z.of_nat tries) by (destruct res; lia).
    split; [nia|].
    split.
    { intros H. specialize (D H). destruct res; destruct RS as (RS1 & RS2); [destruct RS2 as [_ RS2]|]; specialize (RS2 H); lia. }
    destruct res as [v|].
    + destruct RS as (_ & F1 & F2). destruct CASE as [[ALL FND]|(k & Ik & Nk & Tk & Fk)].
      * left. split; [|lia]. intros k s [Ek|Ik] Hs; [|exact (ALL k s Ik Hs)]. assert (k = Z.to_nat i) as -> by lia. rewrite AT in Hs. injection Hs as <-. discriminate.
      * right. exists k. split; [now right|]. split; [exact Nk|]. split; [lia|]. intros H. specialize (Fk H). specialize (F2 H). lia.
    + destruct RS as (TN & F0). right. exists (Z.to_nat i). split; [left; lia|]. split; [exact AT|]. split; [lia|].
      intros H. specialize (F0 H). specialize (D H). lia.
Qed.
End Tries.

Lemma populate_total {V C} (states : list (option V)) : (forall s, In s states -> s <> None) ->
  forall g : list (GraphNode V C), exists g', populate states g = Ok g'.
Proof.
  induction states as [|[v|] states IH]; intros H g; [eexists; reflexivity| |exfalso; exact (H None (or_introl eq_refl) eq_refl)].
  cbn. apply IH. intros s Hs. apply H. now right.
Qed.
Lemma populate_none {V C} (states : list (option V)) : In None states ->
  forall g : list (GraphNode V C), populate states g = Throw RuntimeError.
Proof.
  induction states as [|[v|] states IH]; intros I g; [destruct I| |reflexivity].
  cbn. apply IH. destruct I as [E|I]; [discriminate|exact I].
Qed.

Section Connect.
Context {V C : Type}.
Variable dist : V -> V -> C.
Variable valid : V -> V -> bool.
Variable symmetric : bool.
Hypothesis SYM : symmetric = true -> symmetric_functions dist valid.
Variable vs : list V.
Variable dflt : V.
Variable knn : @knn_provider V C.
Hypothesis KNN : knn_truthful knn dist.
Hypothesis ANSWERS : knn_answers knn.

Lemma connect_total K : 1 <= K < 2 ^ 63 - 1 -> forall items ins outs (g : list (GraphNode V C)),
  (forall i, In i items -> 0 <= i < Z.of_nat (length vs)) -> laid dist vs dflt ins outs g ->
  exists g', mfold (connect_item knn dist valid symmetric K) g items = Ok g'.
Proof.
  intros HK. induction items as [|i items IH]; intros ins outs g R L; [eexists; reflexivity|].
  pose proof (R i (or_introl eq_refl)) as Ri. cbn [mfold].
  unfold connect_item at 1. rewrite (proj1 (GetNode_ok _ _ _) (proj2 L i Ri)). cbn [bind value].
  destruct (Z.leb_spec (2 ^ 63 - 1) K); [lia|].
  destruct (ANSWERS g (nth (Z.to_nat i) vs dflt) (K + 1) RoadmapToNewState) as (l & El); [lia|].
  destruct (KNN _ _ _ _ _ _ El) as [NDl T].
  assert (RNG : forall j d, In (j, d) l -> 0 <= j < Z.of_nat (length vs) /\ d = dist (nth (Z.to_nat j) vs dflt) (nth (Z.to_nat i) vs dflt)).
  { intros j d I. destruct (T j d I) as (n & Hn & Ed). destruct (laid_node _ _ _ _ _ _ _ _ L Hn) as [Rj ->]. auto. }
  assert (EK : GetKNearestNeighbors knn (as_graph_like g) (nth (Z.to_nat i) vs dflt) (K + 1) RoadmapToNewState (Size g) = Ok l).
  { unfold GetKNearestNeighbors. rewrite El. cbn [bind].
    destruct (existsb _ l) eqn:EX; [|reflexivity]. apply existsb_exists in EX. destruct EX as ([j d] & I & B).
    destruct (RNG j d I) as [Rj _]. pose proof (proj1 L) as SZ. cbn in B. lia. }
  rewrite EK. cbn [bind].
  destruct (connect_neighbors dist valid symmetric SYM vs dflt i Ri l ins outs g L RNG) as (g1 & E1 & L1). rewrite E1. cbn [bind].
  apply (IH _ _ g1 (fun j Hj => R j (or_intror Hj)) L1).
Qed.
End Connect.

Section Build.
Context {V C W : Type} (ops : cost_ops C).
Hypothesis LAWS : cost_laws ops.
Variable sampling : eff W V.
Variable state_valid : V -> eff W bool.
Variable knn : @knn_provider V C.
Variable dist : V -> V -> C.
Variable valid : V -> V -> bool.
Variable search : list (option V) -> (option V -> C) -> Z -> outcome (list (Z * C)).
Variables symmetric dups : bool.
Hypothesis SEARCH : search_contract ops search.
Hypothesis KNN : knn_truthful knn dist.
Hypothesis ANSWERS : knn_answers knn.
Hypothesis SYM : symmetric = true -> symmetric_functions dist valid.
Hypothesis SAMPLING : returns sampling.
Hypothesis VALIDITY : forall v, returns (state_valid v).

Lemma build_tail vs connect_order size K : Permutation connect_order (seqZ 0 size) -> 1 <= K < 2 ^ 63 - 1 -> 0 <= size ->
  Z.of_nat (length vs) = size ->
  exists g, (do g1 <- mfold (connect_item knn dist valid symmetric K) (map (fun x => mkNode x [] []) vs : list (GraphNode V C)) connect_order;
             mfold link_node g1 (seqZ 0 (Size g1))) = Ok g.
Proof.
  intros PO HK Hs LEN. destruct vs as [|dflt vs0] eqn:Evs.
  { cbn in LEN. subst size. assert (connect_order = []) as -> by (apply Permutation_sym in PO; exact (Permutation_nil PO)).
    eexists. reflexivity. }
  rewrite <- Evs in *. clear Evs vs0.
  assert (L0 : laid (C := C) dist vs dflt (fun _ => []) (fun _ => []) (map (fun x => mkNode x [] []) vs)).
  { split; [unfold Size; rewrite map_length; reflexivity|]. intros i Ri. cbn. split; [lia|]. rewrite nth_error_map.
    rewrite (nth_error_nth' vs dflt) by lia. reflexivity. }
  assert (P0 : proper valid vs dflt (fun _ => []) (fun _ => [])).
  { intros i Ri. split; [constructor|]. split; [constructor|]. split; intros j []. }
  assert (RC : forall i, In i connect_order -> 0 <= i < Z.of_nat (length vs)).
  { intros i I. apply (Permutation_in _ PO) in I. apply seqZ_in in I. lia. }
  destruct (connect_total dist valid symmetric SYM vs dflt knn KNN ANSWERS K HK connect_order _ _ _ RC L0) as (g1 & E1).
  destruct (connect_items dist valid symmetric SYM vs dflt knn KNN K connect_order _ _ _ g1
              (Permutation_NoDup (Permutation_sym PO) (seqZ_NoDup size)) RC L0 P0 (fun i _ => conj eq_refl eq_refl) E1)
    as (ins1 & outs1 & L1 & P1 & _ & _).
  destruct (link_nodes dist valid symmetric SYM vs dflt (seqZ 0 (Size g1)) ins1 outs1 g1) as (ins & outs & g2 & E2 & _).
  { intros i Ii. apply seqZ_in in Ii. rewrite (proj1 L1) in Ii. exact Ii. }
  { exact L1. }
  { exact P1. }
  exists g2. rewrite E1. cbn [bind]. exact E2.
Qed.

Lemma build_tries sample_order connect_order size K tries use_parallel w r w' log :
  Permutation sample_order (seqZ 0 size) -> Permutation connect_order (seqZ 0 size) ->
  0 <= size -> 1 <= K < 2 ^ 63 - 1 -> 1 <= tries ->
  BuildRoadMap ops (jotted_sampling sampling) (jotted_validity state_valid) knn dist valid search
    sample_order connect_order size K tries use_parallel symmetric dups (w, []) = (r, (w', log)) ->
  size <= tries_made log <= size * tries /\
  (dups = true -> valid_found log <= size) /\
  (((exists g, r = Ok g) /\ size <= valid_found log) \/
   (r = Throw RuntimeError /\ size - 1 + tries <= tries_made log /\ (dups = true -> valid_found log < size))).
Proof.
  intros PS PO Hs HK Ht E. unfold BuildRoadMap in E.
  destruct (Z.ltb_spec size 0); [lia|]. destruct (Z.ltb_spec K 1); [lia|]. destruct (Z.ltb_spec tries 1); [lia|].
  set (items := if use_parallel && dups then sample_order else seqZ 0 size) in E.
  assert (PI : Permutation items (seqZ 0 size)) by (unfold items; destruct (use_parallel && dups); [exact PS|reflexivity]).
  assert (LI : Z.of_nat (length items) = size).
  { rewrite (Permutation_length PI). unfold seqZ. rewrite Z.sub_0_r.
    assert (X : forall n lo, length (seq_from lo n) = n) by (induction n; intros; cbn; auto). rewrite X. lia. }
  assert (T1 : (1 <= Z.to_nat tries)%nat) by lia.
  destruct (sample_items_tries ops sampling state_valid dist search SEARCH SAMPLING VALIDITY dups (Z.to_nat tries) T1
    items (repeat None (Z.to_nat size)) w []) as (states & w1 & added & ES & LS & _ & B & D & CASE).
  { exact (Permutation_NoDup (Permutation_sym PI) (seqZ_NoDup size)). }
  { intros i I. apply (Permutation_in _ PI), seqZ_in in I. rewrite repeat_length. lia. }
  rewrite (run_ok _ _ _ states (w1, [] ++ added) ES) in E. cbn [app] in E. rewrite repeat_length in LS. rewrite LI in *.
  rewrite Z2Nat.id in * by lia.
  unfold ebind, lift in E.
  destruct CASE as [[ALL FND]|(k & Ik & Nk & Tk & Fk)].
  - assert (AS : forall s, In s states -> s <> None).
    { intros s Is. destruct (In_nth_error _ _ Is) as (k & Ek). apply (ALL k s); [|exact Ek].
      apply (Permutation_in _ (Permutation_sym PI)). apply seqZ_in.
      assert (k < length states)%nat by (apply nth_error_Some; congruence). lia. }
    destruct (populate_total states AS (@nil (GraphNode V C))) as (g0 & EP). rewrite EP in E.
    destruct (populate_ok _ _ _ EP) as (vs & -> & ->). cbn [app] in E. rewrite map_length in LS.
    destruct (build_tail vs connect_order size K PO HK Hs) as (g & EG); [lia|].
    destruct (mfold (connect_item knn dist valid symmetric K) _ connect_order) as [g1| | |]; try discriminate EG.
    cbn [bind] in EG. rewrite EG in E. injection E as <- _ <-. split; [exact B|]. split; [exact D|]. left. split; [eauto|exact FND].
  - apply nth_error_In in Nk. rewrite (populate_none _ Nk) in E. injection E as <- _ <-.
    split; [exact B|]. split; [exact D|]. right. auto.
Qed.
End Build.

(** The library's provider returns an answer. *)
Lemma read_nodes_total {V C} (g : list (GraphNode V C)) : forall l, (forall i, In i l -> 0 <= i < Size g) ->
  exists ns, read_nodes (as_graph_like g) l = Ok ns.
Proof.
  induction l as [|i l IH]; intros R; [eexists; reflexivity|]. cbn [read_nodes].
  destruct (nth_error g (Z.to_nat i)) as [n|] eqn:E.
  - assert (GN : GetNode g i = Ok n) by (apply GetNode_ok; split; [apply R; now left|exact E]).
    change (gl_get (as_graph_like g) i) with (GetNode g i). rewrite GN. cbn [bind].
    destruct IH as (ns & ->); [intros j Ij; apply R; now right|]. eexists. reflexivity.
  - exfalso. apply nth_error_None in E. pose proof (R i (or_introl eq_refl)) as H. unfold Size in H. lia.
Qed.

Lemma library_answers {V C} (ltb : C -> C -> bool) infinity psort (dist : V -> V -> C) : partial_sort_contract ltb psort ->
  knn_answers (LinearGraphKNN (fun nodes d K => GetKNearestNeighborsInRangeSerial infinity nodes d psort 0 (Z.of_nat (length nodes)) K) dist).
Proof.
  intros PS g state K dir HK. unfold LinearGraphKNN. change (gl_size (as_graph_like g)) with (Size g).
  destruct (Z.ltb_spec (Size g) (Size g)); [lia|]. destruct (Z.ltb_spec (Size g) 0); [unfold Size in *; lia|].
  destruct (read_nodes_total g (seqZ 0 (Size g))) as (ns & En); [intros i Ii; now apply seqZ_in in Ii|]. rewrite En. cbn [bind].
  destruct (KnnProof.serial_nearest ltb infinity ns (fun n => match dir with RoadmapToNewState => dist (value n) state | NewStateToRoadmap => dist state (value n) end)
    psort PS 0 (Z.of_nat (length ns)) K) as (sel & E & _); [lia..|]. eauto.
Qed.
