(** Proofs about ClusterModel.v: the search for the closest pair. *)
From Coq Require Import ZArith Reals Lra Permutation Relations.
From Flocq Require Import Core BinarySingleNaN.
From Verif Require Import Base Double DoubleFacts ParallelismModel ParallelismSpec ParallelismProof KnnModel KnnSpec DistModel DistSpec DistProof SearchDouble DistProof2 ClusterModel ClusterSpec.
Local Open Scope Z_scope.
Notation size l := (Z.of_nat (length l)).

(** * Lists *)
Lemma at_index_ok {A} (l : list A) i a : 0 <= i -> nth_error l (Z.to_nat i) = Some a -> at_index l i = Ok a.
Proof. intros H E. unfold at_index, at_get. destruct (Z.ltb_spec i 0); [lia|]. now rewrite E. Qed.
Lemma set_index_ok {A} (l : list A) i v : 0 <= i < size l -> set_index l i v = Ok (upd l (Z.to_nat i) v).
Proof.
  intros H. unfold set_index, at_set. destruct (Z.ltb_spec i 0); [lia|]. rewrite set_nth_upd by lia. reflexivity.
Qed.

(** * The search as folds over lists of candidates *)
Definition better (best p : ClosestPair) : ClosestPair := if dlt (cp_distance p) (cp_distance best) then p else best.

Section Proof.
Variable dm : mat (option double).
Variable strategy : ClusterStrategy.
Variable n : Z.
Variable d : Z -> Z -> double.
Hypothesis M : distances dm n d.
Hypothesis NN : between n (fun i j => dlt (d i j) d0 = false).

Lemma matrix_at_ok i j : 0 <= i < n -> 0 <= j < n -> matrix_at dm i j = Ok (d i j).
Proof.
  destruct M as (MR & MC & MV). intros Hi Hj. unfold matrix_at, mat_get. rewrite MR, MC.
  repeat (match goal with |- context [Z.leb ?x ?y] => destruct (Z.leb_spec x y); [|lia] end).
  repeat (match goal with |- context [Z.ltb ?x ?y] => destruct (Z.ltb_spec x y); [|lia] end).
  cbn [andb bind]. rewrite MV by assumption. reflexivity.
Qed.

(** Distance of two clusters: the folds without errors. *)
Definition mm_step (i : Z) (mm : double * double) (j : Z) : double * double := (std_min (fst mm) (d i j), std_max (snd mm) (d i j)).
Definition minmax (rows cols : list Z) : double * double :=
  fold_left (fun mm i => fold_left (mm_step i) cols mm) rows (dinf, d0).
Definition linkage (rows cols : list Z) : double :=
  match strategy with COMPLETE_LINK => snd (minmax rows cols) | SINGLE_LINK => fst (minmax rows cols) end.

Lemma cluster_distance_ok rows cols : Forall (fun i => 0 <= i < n) rows -> Forall (fun i => 0 <= i < n) cols ->
  cluster_distance dm strategy rows cols = Ok (linkage rows cols).
Proof.
  intros Hr Hc. unfold cluster_distance, linkage, minmax.
  assert (G : forall mm, mfold (fun mm i => mfold (fun mm j => do d <- matrix_at dm i j; Ok (std_min (fst mm) d, std_max (snd mm) d)) mm cols) mm rows
    = Ok (fold_left (fun mm i => fold_left (mm_step i) cols mm) rows mm)).
  { induction Hr as [|i rows Hi Hr IH]; intros mm; cbn [mfold fold_left]; [reflexivity|].
    assert (G1 : forall mm, mfold (fun mm j => do d <- matrix_at dm i j; Ok (std_min (fst mm) d, std_max (snd mm) d)) mm cols = Ok (fold_left (mm_step i) cols mm)).
    { clear IH Hr mm. induction Hc as [|j cols Hj Hc IHc]; intros mm; cbn [mfold fold_left]; [reflexivity|].
      rewrite matrix_at_ok by assumption. cbn [bind]. rewrite IHc. reflexivity. }
    rewrite G1. cbn [bind]. apply IH. }
  rewrite G. cbn [bind]. reflexivity.
Qed.

(** Candidates of a state. *)
Definition cand_clusters (clusters : list (list Z)) (k1 : Z) : list ClosestPair :=
  match nth (Z.to_nat k1) clusters [] with
  | [] => []
  | c1 => flat_map (fun k2 => match nth (Z.to_nat k2) clusters [] with
                              | [] => []
                              | c2 => [mkPair (mkItem k1 true) (mkItem k2 true) (linkage c1 c2)]
                              end) (seqZ (k1 + 1) (size clusters))
  end.
Definition cand_values (mask : list bool) (clusters : list (list Z)) (i : Z) : list ClosestPair :=
  if nth (Z.to_nat i) mask true then [] else
  flat_map (fun j => if nth (Z.to_nat j) mask true then [] else [mkPair (mkItem i false) (mkItem j false) (d i j)]) (seqZ (i + 1) (size mask)) ++
  flat_map (fun k => match nth (Z.to_nat k) clusters [] with
                     | [] => []
                     | c => [mkPair (mkItem i false) (mkItem k true) (linkage [i] c)]
                     end) (seqZ 0 (size clusters)).

(** What the search may assume of its arguments. *)
Definition usable (mask : list bool) (clusters : list (list Z)) : Prop :=
  size mask = n /\ NoDup (concat clusters) /\
  (forall i, In i (concat clusters) -> 0 <= i < n /\ nth (Z.to_nat i) mask true = true).

Lemma mfold_flat {A} (f : ClosestPair -> A -> outcome ClosestPair) (g : A -> list ClosestPair) l :
  (forall b a, In a l -> f b a = Ok (fold_left better (g a) b)) ->
  forall b, mfold f b l = Ok (fold_left better (flat_map g l) b).
Proof.
  induction l as [|a l IH]; intros H b; cbn [mfold flat_map]; [reflexivity|].
  rewrite H by now left. cbn [bind]. rewrite IH by (intros; apply H; now right). rewrite fold_left_app. reflexivity.
Qed.

Lemma std_min_nonneg a b : dlt a d0 = false -> dlt b d0 = false -> dlt (std_min a b) d0 = false.
Proof. intros A B. unfold std_min. destruct (dlt b a); assumption. Qed.
Lemma std_max_nonneg a b : dlt a d0 = false -> dlt b d0 = false -> dlt (std_max a b) d0 = false.
Proof. intros A B. unfold std_max. destruct (dlt a b); assumption. Qed.

Lemma linkage_nonneg rows cols : (forall i j, In i rows -> In j cols -> dlt (d i j) d0 = false) -> dlt (linkage rows cols) d0 = false.
Proof.
  intros H. unfold linkage, minmax.
  assert (G : forall rows mm, (forall i j, In i rows -> In j cols -> dlt (d i j) d0 = false) ->
     dlt (fst mm) d0 = false /\ dlt (snd mm) d0 = false ->
     let r := fold_left (fun mm i => fold_left (mm_step i) cols mm) rows mm in dlt (fst r) d0 = false /\ dlt (snd r) d0 = false).
  { clear H rows. induction rows as [|i rows IH]; intros mm H Hm; cbn [fold_left]; [exact Hm|].
    apply IH; [intros; apply H; [now right|assumption]|].
    assert (Hi : forall j, In j cols -> dlt (d i j) d0 = false) by (intros; apply H; [now left|assumption]).
    clear - Hi Hm. revert mm Hm. induction cols as [|j l IH]; intros mm [A B]; cbn [fold_left]; [split; assumption|].
    apply IH; [intros; apply Hi; now right|]. unfold mm_step. cbn [fst snd].
    split; [apply std_min_nonneg|apply std_max_nonneg]; auto; apply Hi; now left. }
  destruct (G rows (dinf, d0) H) as [A B]; [split; reflexivity|]. destruct strategy; assumption.
Qed.

Lemma closer_ok best i1 c1 i2 c2 x : 0 <= i1 -> 0 <= i2 -> (c1 = c2 -> i1 <> i2) -> dlt x d0 = false ->
  closer best i1 c1 i2 c2 x = Ok (better best (mkPair (mkItem i1 c1) (mkItem i2 c2) x)).
Proof.
  intros H1 H2 Hc X. unfold closer, better. cbn [cp_distance]. destruct (dlt x (cp_distance best)); [|reflexivity].
  unfold new_item. destruct (Z.ltb_spec i1 0); [lia|]. destruct (Z.ltb_spec i2 0); [lia|]. cbn [bind].
  unfold new_pair, item_is_valid. cbn [item_index item_is_cluster]. rewrite X.
  destruct (Z.leb_spec 0 i1); [|lia]. destruct (Z.leb_spec 0 i2); [|lia]. cbn [negb].
  destruct (Bool.eqb c1 c2 && (i1 =? i2)) eqn:E; [|reflexivity].
  apply andb_true_iff in E. destruct E as [E1 E2]. apply Bool.eqb_prop in E1. apply Z.eqb_eq in E2. now elim (Hc E1).
Qed.

Lemma nth_concat (clusters : list (list Z)) k x : In x (nth k clusters []) -> In x (concat clusters).
Proof.
  intros H. apply in_concat. exists (nth k clusters []). split; [|exact H].
  destruct (Nat.lt_ge_cases k (length clusters)) as [L|L]; [now apply nth_In|]. rewrite nth_overflow in H by exact L. destruct H.
Qed.

Lemma nodup_two (clusters : list (list Z)) : NoDup (concat clusters) -> forall k1 k2 x, k1 <> k2 ->
  In x (nth k1 clusters []) -> In x (nth k2 clusters []) -> False.
Proof.
  induction clusters as [|c l IH]; intros H k1 k2 x N A B; [destruct k1; destruct A|].
  cbn [concat] in H. assert (D : forall x, In x c -> In x (concat l) -> False).
  { clear - H. induction c as [|a c IH]; [intros x []|]. cbn in H. inversion H as [|? ? Na Hc]; subst.
    intros x [->|I] J; [apply Na; apply in_or_app; now right|exact (IH Hc x I J)]. }
  assert (Hl : NoDup (concat l)) by (clear - H; induction c; [exact H|inversion H; auto]).
  destruct k1 as [|k1], k2 as [|k2]; cbn [nth] in A, B; [lia| | |].
  - exact (D x A (nth_concat _ _ _ B)).
  - exact (D x B (nth_concat _ _ _ A)).
  - exact (IH Hl k1 k2 x ltac:(lia) A B).
Qed.

Lemma cluster_range mask clusters k : usable mask clusters -> Forall (fun i => 0 <= i < n) (nth k clusters []).
Proof. intros (_ & _ & H). apply Forall_forall. intros x Hx. apply H. exact (nth_concat _ _ _ Hx). Qed.

Lemma scan_cluster_ok mask clusters best k1 : usable mask clusters -> 0 <= k1 < size clusters ->
  scan_cluster dm strategy clusters best k1 = Ok (fold_left better (cand_clusters clusters k1) best).
Proof.
  intros U H. unfold scan_cluster, cand_clusters.
  rewrite (at_index_ok _ _ (nth (Z.to_nat k1) clusters [])) by (try apply nth_error_nth'; lia). cbn [bind].
  pose proof (cluster_range _ _ (Z.to_nat k1) U) as R1.
  destruct (nth (Z.to_nat k1) clusters []) as [|x c1] eqn:E1; [reflexivity|].
  apply mfold_flat. intros b k2 Hk. rewrite seqZ_in in Hk.
  rewrite (at_index_ok _ _ (nth (Z.to_nat k2) clusters [])) by (try apply nth_error_nth'; lia). cbn [bind].
  pose proof (cluster_range _ _ (Z.to_nat k2) U) as R2.
  destruct (nth (Z.to_nat k2) clusters []) as [|y c2] eqn:E2; [reflexivity|].
  rewrite cluster_distance_ok by assumption. cbn [bind fold_left]. apply closer_ok; try lia.
  apply linkage_nonneg. intros i j Hi Hj. rewrite Forall_forall in R1, R2. apply NN; auto. intros <-.
  destruct U as (_ & ND & _). apply (nodup_two clusters ND (Z.to_nat k1) (Z.to_nat k2) i); [lia|now rewrite E1|now rewrite E2].
Qed.

Lemma scan_value_ok mask clusters best i : usable mask clusters -> 0 <= i < n ->
  scan_value dm strategy mask clusters best i = Ok (fold_left better (cand_values mask clusters i) best).
Proof.
  intros U H. pose proof U as (Ln & ND & UC). unfold scan_value, cand_values.
  rewrite (at_index_ok _ _ (nth (Z.to_nat i) mask true)) by (try apply nth_error_nth'; lia). cbn [bind].
  destruct (nth (Z.to_nat i) mask true) eqn:Ei; [reflexivity|]. rewrite fold_left_app.
  erewrite mfold_flat with (g := fun j => if nth (Z.to_nat j) mask true then [] else [mkPair (mkItem i false) (mkItem j false) (d i j)]).
  2:{ intros b j Hj. rewrite seqZ_in in Hj.
    rewrite (at_index_ok _ _ (nth (Z.to_nat j) mask true)) by (try apply nth_error_nth'; lia). cbn [bind].
    destruct (nth (Z.to_nat j) mask true); [reflexivity|]. rewrite matrix_at_ok by lia. cbn [bind fold_left].
    apply closer_ok; try lia. apply NN; lia. }
  cbn [bind]. apply mfold_flat. intros b k Hk. rewrite seqZ_in in Hk.
  rewrite (at_index_ok _ _ (nth (Z.to_nat k) clusters [])) by (try apply nth_error_nth'; lia). cbn [bind].
  pose proof (cluster_range _ _ (Z.to_nat k) U) as R2.
  destruct (nth (Z.to_nat k) clusters []) as [|y c2] eqn:E2; [reflexivity|].
  rewrite cluster_distance_ok by (exact R2 || (constructor; [exact H|constructor])). cbn [bind fold_left]. apply closer_ok; try lia; try congruence.
  apply linkage_nonneg. intros i' j [<-|[]] Hj. rewrite Forall_forall in R2. apply NN; auto. intros <-.
  assert (X : nth (Z.to_nat i) mask true = true) by (apply UC; apply (nth_concat clusters (Z.to_nat k)); now rewrite E2). congruence.
Qed.

(** The result of a search is the default pair or a candidate, and no candidate is
    closer. *)
Definition chosen (cands : list ClosestPair) (p : ClosestPair) : Prop := p = default_pair \/ In p cands.
Definition minimal (cands : list ClosestPair) (p : ClosestPair) : Prop :=
  Forall (fun q => nonneg (cp_distance q) = true) cands ->
  nonneg (cp_distance p) = true /\ leD dlt (cp_distance p) dinf /\ Forall (fun q => leD dlt (cp_distance p) (cp_distance q)) cands.

Lemma fold_better cands : forall b, let p := fold_left better cands b in
  (p = b \/ In p cands) /\
  (nonneg (cp_distance b) = true -> Forall (fun q => nonneg (cp_distance q) = true) cands ->
   nonneg (cp_distance p) = true /\ leD dlt (cp_distance p) (cp_distance b) /\ Forall (fun q => leD dlt (cp_distance p) (cp_distance q)) cands).
Proof.
  induction cands as [|q cands IH]; intros b; cbn [fold_left].
  - split; [now left|]. intros Hb _. split; [exact Hb|]. split; [now apply (oo_irrefl _ _ double_order_on)|constructor].
  - destruct (IH (better b q)) as [A B]. split.
    + destruct A as [->|A]; [|right; now right]. unfold better. destruct (dlt _ _); [right; now left|now left].
    + intros Hb F. inversion F as [|? ? Hq F']; subst.
      assert (Hbq : nonneg (cp_distance (better b q)) = true) by (unfold better; destruct (dlt _ _); assumption).
      destruct (B Hbq F') as (P1 & P2 & P3).
      assert (L1 : leD dlt (cp_distance (better b q)) (cp_distance b)).
      { unfold better. destruct (dlt (cp_distance q) (cp_distance b)) eqn:E; [|now apply (oo_irrefl _ _ double_order_on)].
        apply (lt_le_on dlt _ double_order_on); assumption. }
      assert (L2 : leD dlt (cp_distance (better b q)) (cp_distance q)).
      { unfold better. destruct (dlt (cp_distance q) (cp_distance b)) eqn:E; [now apply (oo_irrefl _ _ double_order_on)|exact E]. }
      split; [exact P1|]. split; [apply (oo_weak _ _ double_order_on) with (b := cp_distance (better b q)); assumption|].
      constructor; [apply (oo_weak _ _ double_order_on) with (b := cp_distance (better b q)); assumption|exact P3].
Qed.

Lemma search_ok (scan : ClosestPair -> Z -> outcome ClosestPair) (g : Z -> list ClosestPair) sp ob team nt k x :
  (forall b i, 0 <= i < k -> scan b i = Ok (fold_left better (g i) b)) -> 0 <= k ->
  (IsParallel nt = true -> valid_call nt 0 k team /\ index_loop_execution sp ob team nt k (fst x) (snd x)) ->
  exists p, search scan k nt x = Ok p /\ chosen (flat_map g (seqZ 0 k)) p /\ minimal (flat_map g (seqZ 0 k)) p.
Proof.
  intros S K X. unfold search. destruct (IsParallel nt).
  - destruct (X eq_refl) as [V Y]. clear X. destruct x as [tr r]. cbn [fst snd] in *.
    destruct (index_execution_calls _ _ _ _ _ _ _ V Y) as (-> & Perm & TN). unfold after_loop.
    assert (Hidx : forall c, In c (loop_calls tr) -> 0 <= fst (snd c) < k).
    { intros c Hc. apply (seqZ_in 0 k). apply (Permutation_in _ Perm). apply in_map_iff. now exists c. }
    set (step := fun storage (c : Z * (Z * Z)) => do best <- at_index storage (fst c); do best <- scan best (fst (snd c)); set_index storage (fst c) best).
    assert (G : forall cs st, Forall (fun c : Z * (Z * Z) => 0 <= fst c < nt) cs -> (forall c, In c cs -> 0 <= fst (snd c) < k) ->
      length st = Z.to_nat nt -> Forall (chosen (flat_map g (seqZ 0 k))) st ->
      exists st', mfold step st cs = Ok st' /\ length st' = Z.to_nat nt /\ Forall (chosen (flat_map g (seqZ 0 k))) st' /\
       (Forall (fun q => nonneg (cp_distance q) = true) (flat_map g (seqZ 0 k)) ->
        (forall t s, nth_error st t = Some s -> exists s', nth_error st' t = Some s' /\ leD dlt (cp_distance s') (cp_distance s)) /\
        (forall c q, In c cs -> In q (g (fst (snd c))) -> exists s', In s' st' /\ leD dlt (cp_distance s') (cp_distance q)))).
    { induction cs as [|c cs IH]; intros st FT Hin Len FC; cbn [mfold].
      - exists st. split; [reflexivity|]. split; [exact Len|]. split; [exact FC|]. intros NNg. split; [|intros c q []].
        intros t s Ht. exists s. split; [exact Ht|]. apply (oo_irrefl _ _ double_order_on).
        rewrite Forall_forall in FC. destruct (FC _ (nth_error_In _ _ Ht)) as [->|I]; [reflexivity|]. rewrite Forall_forall in NNg. now apply NNg.
      - inversion FT as [|? ? Tc FT']; subst. pose proof (Hin c ltac:(now left)) as Ii.
        destruct (nth_error st (Z.to_nat (fst c))) as [s|] eqn:Es; [|apply nth_error_None in Es; lia].
        set (s1 := fold_left better (g (fst (snd c))) s).
        assert (Est : step st c = Ok (upd st (Z.to_nat (fst c)) s1)).
        { unfold step. rewrite (at_index_ok _ _ s) by (try exact Es; lia). cbn [bind]. rewrite S by exact Ii. cbn [bind].
          apply set_index_ok. lia. }
        rewrite Est. cbn [bind]. destruct (fold_better (g (fst (snd c))) s) as [FB1 FB2]. fold s1 in FB1, FB2.
        assert (Cs : chosen (flat_map g (seqZ 0 k)) s) by (rewrite Forall_forall in FC; exact (FC _ (nth_error_In _ _ Es))).
        assert (Sub : forall q, In q (g (fst (snd c))) -> In q (flat_map g (seqZ 0 k))).
        { intros q Hq. apply in_flat_map. exists (fst (snd c)). split; [rewrite seqZ_in; lia|exact Hq]. }
        assert (Cs1 : chosen (flat_map g (seqZ 0 k)) s1) by (destruct FB1 as [->|I]; [exact Cs|right; auto]).
        set (st1 := upd st (Z.to_nat (fst c)) s1).
        destruct (IH st1 FT' ltac:(intros; apply Hin; now right)) as (st' & E' & L' & C' & O').
        + unfold st1. now rewrite upd_length.
        + rewrite Forall_forall in *. intros y Hy. destruct (In_nth_error _ _ Hy) as [t Ht]. unfold st1 in Ht. rewrite nth_error_upd in Ht.
          destruct (Nat.eq_dec (Z.to_nat (fst c)) t); [destruct (lt_dec _ _); [injection Ht as <-; exact Cs1|discriminate]|]. apply FC. exact (nth_error_In _ _ Ht).
        + exists st'. split; [exact E'|]. split; [exact L'|]. split; [exact C'|]. intros NNg. destruct (O' NNg) as [O1 O2].
          assert (Nn : forall p, chosen (flat_map g (seqZ 0 k)) p -> nonneg (cp_distance p) = true).
          { intros p [->|I]; [reflexivity|]. rewrite Forall_forall in NNg. now apply NNg. }
          destruct FB2 as (F1 & F2 & F3); [now apply Nn|apply Forall_forall; intros q Hq; apply Nn; right; auto|].
          assert (Hlt : (Z.to_nat (fst c) < length st)%nat) by (apply nth_error_Some; congruence).
          assert (N1 : nth_error st1 (Z.to_nat (fst c)) = Some s1) by (unfold st1; now apply nth_error_upd_same).
          destruct (O1 _ _ N1) as (s' & Ns' & Ls').
          assert (Cs' : chosen (flat_map g (seqZ 0 k)) s') by (rewrite Forall_forall in C'; exact (C' _ (nth_error_In _ _ Ns'))).
          split.
          * intros t y Ht. destruct (Nat.eq_dec (Z.to_nat (fst c)) t) as [<-|Ne].
            -- assert (y = s) by congruence. subst y. exists s'. split; [exact Ns'|].
               apply (oo_weak _ _ double_order_on) with (b := cp_distance s1); auto.
            -- apply O1. unfold st1. rewrite nth_error_upd_other by congruence. exact Ht.
          * intros c' q [<-|Hc'] Hq; [|exact (O2 c' q Hc' Hq)]. exists s'. split; [exact (nth_error_In _ _ Ns')|].
            apply (oo_weak _ _ double_order_on) with (b := cp_distance s1); auto; [apply Nn; right; auto|].
            rewrite Forall_forall in F3. now apply F3. }
    destruct (G (loop_calls tr) (repeat default_pair (Z.to_nat nt)) TN Hidx) as (st & E & L & C & O).
    { apply repeat_length. } { apply Forall_forall. intros q Hq. apply repeat_spec in Hq. now left. }
    cbn [bind]. rewrite E. cbn [bind]. eexists. split; [reflexivity|].
    change (fold_left _ st default_pair) with (fold_left better st default_pair).
    destruct (fold_better st default_pair) as [A B]. split.
    + destruct A as [->|A]; [now left|]. rewrite Forall_forall in C. now apply C.
    + intros NNg. destruct (O NNg) as [_ O2].
      assert (Nn : forall p, chosen (flat_map g (seqZ 0 k)) p -> nonneg (cp_distance p) = true).
      { intros p [->|I]; [reflexivity|]. rewrite Forall_forall in NNg. now apply NNg. }
      destruct B as (B1 & B2 & B3); [reflexivity|apply Forall_forall; intros q Hq; apply Nn; rewrite Forall_forall in C; now apply C|].
      split; [exact B1|]. split; [exact B2|]. apply Forall_forall. intros q Hq. apply in_flat_map in Hq. destruct Hq as (i & Hi & Hq).
      assert (Hi' : In i (map (fun c => fst (snd c)) (loop_calls tr))) by (apply (Permutation_in _ (Permutation_sym Perm)); exact Hi).
      apply in_map_iff in Hi'. destruct Hi' as (c & <- & Hc). destruct (O2 c q Hc Hq) as (s & Hs & Ls).
      rewrite Forall_forall in B3, C. apply (oo_weak _ _ double_order_on) with (b := cp_distance s); auto.
      apply Nn. right. apply in_flat_map. exists (fst (snd c)). split; assumption.
  - rewrite (mfold_flat scan g) by (intros b a Ha; apply S; rewrite seqZ_in in Ha; lia). eexists. split; [reflexivity|].
    destruct (fold_better (flat_map g (seqZ 0 k)) default_pair) as [A B]. split; [exact A|]. intros NNg. apply B; [reflexivity|exact NNg].
Qed.
End Proof.
