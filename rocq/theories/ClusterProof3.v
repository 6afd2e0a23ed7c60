(** Proofs about ClusterModel.v: complete runs. *)
From Coq Require Import ZArith Reals Lra Permutation Relations.
From Flocq Require Import Core BinarySingleNaN.
From Verif Require Import Base Double DoubleFacts ParallelismModel ParallelismSpec ParallelismProof KnnModel KnnSpec DistModel DistSpec SearchDouble DistProof2 ClusterModel ClusterSpec ClusterProof ClusterProof2.
Local Open Scope Z_scope.
Notation size l := (Z.of_nat (length l)).

(** * Doubles *)
Lemma dle_nonneg_r a b : nonneg a = true -> dle a b = true -> nonneg b = true.
Proof.
  intros A H. destruct (is_finite b) eqn:F.
  - destruct (nonneg_cases a A) as [->|[Fa Pa]].
    + destruct b as [s|s| |s m e B]; try discriminate; destruct s; discriminate.
    + apply dle_R in H; [|assumption|assumption]. apply dle_R; [reflexivity|exact F|]. cbn. lra.
  - destruct b as [s|s| |s m e B]; try discriminate; [destruct s; [|reflexivity]|]; destruct a as [s'|s'| |s' m' e' B']; try destruct s'; discriminate.
Qed.
Lemma le_bound a b bound : nonneg a = true -> nonneg b = true -> leD dlt a b -> dle b bound = true -> dle a bound = true.
Proof.
  intros A B L H. pose proof (dle_nonneg_r _ _ B H) as C. apply dle_true; auto. apply dle_true in H; auto. apply dlt_false in L; auto.
  exact (dleR_trans _ _ _ L H).
Qed.
Lemma inf_le x : nonneg x = true -> leD dlt dinf x -> x = dinf.
Proof. intros A L. apply dlt_false in L; auto. destruct L as [->|(F & _)]; [reflexivity|discriminate]. Qed.

Section Proof.
Variable dm : mat (option double).
Variable strategy : ClusterStrategy.
Variable n : Z.
Variable d : Z -> Z -> double.
Hypothesis M : distances dm n d.
Hypothesis NN : between n (fun i j => dlt (d i j) d0 = false).
Hypothesis Hn : 0 < n.
Variables (sp ob : bool) (team : nat) (nt : Z).
Hypothesis V : valid_call nt 0 n team.
Variable bound : double.
Notation linkage := (linkage strategy d).
Notation inv := (inv n).

Lemma rows_n : m_rows dm = n /\ m_cols dm = n.
Proof. destruct M as (A & B & _). auto. Qed.

Lemma filter_repeat k : filter negb (repeat false k) = repeat false k.
Proof. induction k; cbn; [reflexivity|now rewrite IHk]. Qed.
Lemma nth_false k j : nth j (repeat false k) true = true -> (k <= j)%nat.
Proof.
  intros H. destruct (Nat.lt_ge_cases j k) as [L|L]; [|exact L]. rewrite (nth_indep _ true false) in H by (now rewrite repeat_length).
  rewrite nth_repeat in H. discriminate.
Qed.
Lemma initial_inv : inv (initial_state dm) /\ live (initial_state dm) = n.
Proof.
  destruct rows_n as [R _]. unfold initial_state. rewrite R. split; [split; [|split]|].
  - split; [cbn; rewrite repeat_length; lia|]. split; [constructor|]. intros i [].
  - intros i Hi E. cbn [st_mask] in E. apply nth_false in E. lia.
  - cbn [st_mask st_clusters length]. rewrite filter_repeat, repeat_length. lia.
  - unfold live. cbn [st_mask st_clusters]. rewrite filter_repeat, repeat_length. cbn. lia.
Qed.

Lemma valid_small k : 0 <= k <= n -> valid_call nt 0 k team.
Proof. unfold valid_call in *. intros H. intuition lia. Qed.

Lemma inv_len st : inv st -> size (st_clusters st) <= n.
Proof. intros (_ & _ & C). lia. Qed.

(** One iteration. *)
Lemma iteration_ok st x1 x2 : inv st -> search_executions sp ob team nt st x1 x2 ->
  exists p, chosen (all_cands strategy n d (st_mask st) (st_clusters st)) p /\ minimal (all_cands strategy n d (st_mask st) (st_clusters st)) p /\
   ((cp_is_valid p = true /\ dle (cp_distance p) bound = true /\ In p (all_cands strategy n d (st_mask st) (st_clusters st)) /\
     exists st', merge st p = Ok st' /\ iteration dm strategy bound nt st x1 x2 = Ok (Some st')) \/
    ((p = default_pair \/ dle (cp_distance p) bound = false) /\ iteration dm strategy bound nt st x1 x2 = Ok None)).
Proof.
  intros I X. pose proof I as (U & _ & _).
  destruct (get_closest_pair_ok dm strategy n d M NN sp ob team nt (st_mask st) (st_clusters st) (st_distance st) x1 x2 U ltac:(lia)) as (p & E & C & Mi).
  { intros _. split; [exact V|]. apply valid_small. pose proof (inv_len st I). lia. } { destruct st; exact X. }
  exists p. split; [exact C|]. split; [exact Mi|]. unfold iteration. rewrite E. cbn [bind].
  destruct C as [->|C].
  - right. split; [now left|reflexivity].
  - assert (Vp : cp_is_valid p = true) by (destruct U as (Ln & _); exact (cand_valid strategy n d _ _ _ Ln C)). rewrite Vp. cbn [andb].
    destruct (dle (cp_distance p) bound) eqn:B; [|right; split; [now right|reflexivity]]. left.
    split; [reflexivity|]. split; [reflexivity|]. split; [exact C|].
    destruct (merge_ok strategy n d st p I C) as (st' & c1 & c2 & Em & _). exists st'. rewrite Em. split; reflexivity.
Qed.

Lemma iterates_ok k st : iterates dm strategy sp ob team nt bound k (initial_state dm) st ->
  inv st /\ live st + Z.of_nat k = n /\ 1 <= live st.
Proof.
  remember (initial_state dm) as st0 eqn:E0. induction 1 as [|k st0 st1 st2 x1 x2 I IH X E].
  - subst. destruct initial_inv as [A B]. split; [exact A|]. lia.
  - destruct (IH E0) as (I1 & L1 & _). destruct (iteration_ok st1 x1 x2 I1 X) as (p & C & _ & [(Vp & Bp & Ip & st' & Em & Ei)|[_ Ei]]); [|congruence].
    rewrite Ei in E. injection E as <-. destruct (merge_ok strategy n d st1 p I1 Ip) as (st'' & c1 & c2 & Em' & I2 & L2 & _ & G1 & _ & _ & _ & _ & In12).
    rewrite Em in Em'. injection Em' as <-. split; [exact I2|]. split; [lia|].
    unfold live, live_clusters. assert (In (c1 ++ c2) (filter (fun c : list Z => match c with [] => false | _ :: _ => true end) (st_clusters st'))).
    { apply filter_In. split; [exact In12|]. assert (c1 <> []) by (destruct G1 as [[_ ?]|(i & -> & _)]; [assumption|discriminate]). destruct c1; [congruence|reflexivity]. }
    destruct (filter _ (st_clusters st')); [contradiction|]. cbn [length]. lia.
Qed.

(** * The result *)
Lemma singletons_in mask : forall idx c, In c (singletons idx mask) <-> exists k, nth_error mask k = Some false /\ c = [idx + Z.of_nat k].
Proof.
  induction mask as [|b mask IH]; intros idx c; cbn [singletons].
  - split; [intros []|intros (k & E & _); destruct k; discriminate].
  - rewrite in_app_iff, IH. split.
    + intros [H|(k & E & ->)].
      * destruct b; [destruct H|]. destruct H as [<-|[]]. exists 0%nat. split; [reflexivity|]. f_equal. lia.
      * exists (S k). split; [exact E|]. f_equal. lia.
    + intros ([|k] & E & ->).
      * cbn in E. injection E as ->. left. left. f_equal. lia.
      * right. exists k. split; [exact E|]. f_equal. lia.
Qed.
Lemma singletons_concat mask : forall idx, NoDup (concat (singletons idx mask)) /\
  forall i, In i (concat (singletons idx mask)) <-> exists k, nth_error mask k = Some false /\ i = idx + Z.of_nat k.
Proof.
  intros idx. split.
  - revert idx. induction mask as [|b mask IH]; intros idx; cbn [singletons]; [constructor|]. rewrite concat_app.
    destruct b; cbn [concat app]; [apply IH|]. constructor; [|apply IH].
    intros H. apply in_concat in H. destruct H as (c & Hc & Hi). apply singletons_in in Hc. destruct Hc as (k & _ & ->). destruct Hi as [E|[]]. lia.
  - intros i. rewrite in_concat. split.
    + intros (c & Hc & Hi). apply singletons_in in Hc. destruct Hc as (k & E & ->). destruct Hi as [<-|[]]. now exists k.
    + intros (k & E & ->). exists [idx + Z.of_nat k]. split; [|now left]. apply singletons_in. now exists k.
Qed.
Lemma live_concat (l : list (list Z)) : concat (live_clusters l) = concat l.
Proof. unfold live_clusters. induction l as [|c l IH]; [reflexivity|]. destruct c; cbn; [exact IH|]. f_equal. now rewrite IH. Qed.

Lemma collect_in st c : inv st -> In c (fst (collect st)) <-> group n st c.
Proof.
  intros (U & _ & _). destruct U as (Ln & _). unfold collect, group. cbn [fst]. rewrite in_app_iff, filter_In, singletons_in. split.
  - intros [[A B]|(k & E & ->)].
    + left. split; [exact A|]. destruct c; discriminate.
    + right. exists (0 + Z.of_nat k). split; [reflexivity|]. assert ((k < length (st_mask st))%nat) by (apply nth_error_Some; congruence).
      split; [lia|]. replace (Z.to_nat (0 + Z.of_nat k)) with k by lia. now apply nth_error_nth.
  - intros [[A B]|(i & -> & [H E])].
    + left. split; [exact A|]. destruct c; [congruence|reflexivity].
    + right. exists (Z.to_nat i). split; [apply (nth_error_of _ _ _ true); [lia|exact E]|]. f_equal. lia.
Qed.

Lemma collect_partition st : inv st -> partition n (fst (collect st)).
Proof.
  intros I. split.
  - intros H. apply (collect_in st [] I) in H. destruct H as [[_ H]|(i & E & _)]; [congruence|discriminate].
  - pose proof I as (U & J & _). pose proof U as (Ln & ND & UC). unfold collect. cbn [fst]. rewrite concat_app.
    fold (live_clusters (st_clusters st)). rewrite live_concat. destruct (singletons_concat (st_mask st) 0) as [NS IS].
    apply NoDup_Permutation.
    + assert (G : forall a b : list Z, NoDup a -> NoDup b -> (forall x, In x a -> ~ In x b) -> NoDup (a ++ b)).
      { clear. induction a as [|x a IH]; intros b A B D; [exact B|]. inversion A; subst. cbn. constructor.
        - intros X. apply in_app_or in X. destruct X as [X|X]; [contradiction|]. exact (D x (or_introl eq_refl) X).
        - apply IH; auto. intros y Hy. apply D. now right. }
      apply G; auto. intros x Hx Hs. apply UC in Hx. destruct Hx as [R E]. apply IS in Hs. destruct Hs as (k & Ek & ->).
      replace (Z.to_nat (0 + Z.of_nat k)) with k in E by lia. rewrite (nth_error_nth _ _ _ Ek) in E. discriminate.
    + apply seqZ_nodup.
    + intros x. rewrite in_app_iff, IS, seqZ_in. split.
      * intros [H|(k & E & ->)]; [apply UC in H; lia|]. assert ((k < length (st_mask st))%nat) by (apply nth_error_Some; congruence). lia.
      * intros R. destruct (nth (Z.to_nat x) (st_mask st) true) eqn:E; [left; now apply J|]. right. exists (Z.to_nat x). split; [|lia].
        apply (nth_error_of _ _ _ true); [lia|exact E].
Qed.

(** * The bound *)
Definition prods (rows cols : list Z) : list (Z * Z) := list_prod rows cols.
Lemma minmax_flat rows cols : minmax d rows cols =
  fold_left (fun mm p => mm_step d (fst p) mm (snd p)) (prods rows cols) (dinf, d0).
Proof.
  unfold minmax, prods. generalize (dinf, d0). induction rows as [|i rows IH]; intros mm; cbn [fold_left list_prod]; [reflexivity|].
  rewrite fold_left_app, IH. f_equal. clear. revert mm. induction cols as [|j cols IH]; intros mm; cbn [fold_left map]; [reflexivity|]. apply IH.
Qed.
Lemma minmax_spec rows cols : (forall i j, In i rows -> In j cols -> nonneg (d i j) = true) ->
  let mm := minmax d rows cols in
  (nonneg (fst mm) = true /\ nonneg (snd mm) = true) /\
  (forall i j, In i rows -> In j cols -> leD dlt (fst mm) (d i j) /\ leD dlt (d i j) (snd mm)) /\
  ((fst mm = dinf \/ exists i j, In i rows /\ In j cols /\ fst mm = d i j) /\ (snd mm = d0 \/ exists i j, In i rows /\ In j cols /\ snd mm = d i j)).
Proof.
  intros H. cbn zeta. rewrite minmax_flat.
  assert (G : forall l mm, (forall p, In p l -> nonneg (d (fst p) (snd p)) = true) -> nonneg (fst mm) = true -> nonneg (snd mm) = true ->
    let r := fold_left (fun mm p => mm_step d (fst p) mm (snd p)) l mm in
    (nonneg (fst r) = true /\ nonneg (snd r) = true) /\
    (leD dlt (fst r) (fst mm) /\ leD dlt (snd mm) (snd r)) /\
    (forall p, In p l -> leD dlt (fst r) (d (fst p) (snd p)) /\ leD dlt (d (fst p) (snd p)) (snd r)) /\
    ((fst r = fst mm \/ exists p, In p l /\ fst r = d (fst p) (snd p)) /\ (snd r = snd mm \/ exists p, In p l /\ snd r = d (fst p) (snd p)))).
  { induction l as [|p l IH]; intros mm Hl H1 H2; cbn [fold_left].
    - split; [auto|]. split; [split; apply (oo_irrefl _ _ double_order_on); assumption|]. split; [intros p []|]. split; left; reflexivity.
    - pose proof (Hl p ltac:(now left)) as Hp. set (mm1 := mm_step d (fst p) mm (snd p)).
      assert (A1 : nonneg (fst mm1) = true) by (unfold mm1, mm_step, std_min; cbn [fst snd]; destruct (dlt _ _); assumption).
      assert (A2 : nonneg (snd mm1) = true) by (unfold mm1, mm_step, std_max; cbn [fst snd]; destruct (dlt _ _); assumption).
      destruct (IH mm1) as ((N1 & N2) & (L1 & L2) & P & (Q1 & Q2)); [intros; apply Hl; now right|assumption|assumption|].
      assert (B1 : leD dlt (fst mm1) (fst mm) /\ leD dlt (fst mm1) (d (fst p) (snd p)) /\ (fst mm1 = fst mm \/ fst mm1 = d (fst p) (snd p))).
      { unfold mm1, mm_step, std_min. cbn [fst snd]. destruct (dlt (d (fst p) (snd p)) (fst mm)) eqn:E.
        - split; [apply (DistProof.lt_le_on dlt _ double_order_on); assumption|]. split; [now apply (oo_irrefl _ _ double_order_on)|now right].
        - split; [now apply (oo_irrefl _ _ double_order_on)|]. split; [exact E|now left]. }
      assert (B2 : leD dlt (snd mm) (snd mm1) /\ leD dlt (d (fst p) (snd p)) (snd mm1) /\ (snd mm1 = snd mm \/ snd mm1 = d (fst p) (snd p))).
      { unfold mm1, mm_step, std_max. cbn [fst snd]. destruct (dlt (snd mm) (d (fst p) (snd p))) eqn:E.
        - split; [apply (DistProof.lt_le_on dlt _ double_order_on); assumption|]. split; [now apply (oo_irrefl _ _ double_order_on)|now right].
        - split; [now apply (oo_irrefl _ _ double_order_on)|]. split; [exact E|now left]. }
      destruct B1 as (B11 & B12 & B13), B2 as (B21 & B22 & B23).
      split; [auto|]. split; [split; [apply (oo_weak _ _ double_order_on) with (b := fst mm1)|apply (oo_weak _ _ double_order_on) with (b := snd mm1)]; assumption|]. split.
      + intros q [<-|Hq]; [|exact (P q Hq)]. split; [apply (oo_weak _ _ double_order_on) with (b := fst mm1)|apply (oo_weak _ _ double_order_on) with (b := snd mm1)]; assumption.
      + split.
        * destruct Q1 as [Q1|(q & Hq & Q1)]; [|right; exists q; split; [now right|exact Q1]]. rewrite Q1. destruct B13 as [->|E]; [now left|]. right. exists p. split; [now left|exact E].
        * destruct Q2 as [Q2|(q & Hq & Q2)]; [|right; exists q; split; [now right|exact Q2]]. rewrite Q2. destruct B23 as [->|E]; [now left|]. right. exists p. split; [now left|exact E]. }
  destruct (G (prods rows cols) (dinf, d0)) as (N & _ & P & (Q1 & Q2)); [|reflexivity|reflexivity|].
  { intros [i j] Hp. apply in_prod_iff in Hp. apply H; tauto. }
  split; [exact N|]. split.
  - intros i j Hi Hj. exact (P (i, j) (in_prod _ _ _ _ Hi Hj)).
  - split.
    + destruct Q1 as [Q1|([i j] & Hp & Q1)]; [now left|]. right. apply in_prod_iff in Hp. exists i, j. tauto.
    + destruct Q2 as [Q2|([i j] & Hp & Q2)]; [now left|]. right. apply in_prod_iff in Hp. exists i, j. tauto.
Qed.

Hypothesis NNN : between n (fun i j => nonneg (d i j) = true).
Hypothesis SYM : between n (fun i j => d i j = d j i).

(** What it means for two groups to be within [x] under the chosen linkage. *)
Definition close (c1 c2 : list Z) (x : double) : Prop :=
  match strategy with
  | COMPLETE_LINK => forall i j, In i c1 -> In j c2 -> dle (d i j) x = true
  | SINGLE_LINK => exists i j, In i c1 /\ In j c2 /\ dle (d i j) x = true
  end.

Definition inrange (c : list Z) : Prop := forall i, In i c -> 0 <= i < n.
Definition apart (c1 c2 : list Z) : Prop := forall x, In x c1 -> In x c2 -> False.

Lemma close_sym c1 c2 x : inrange c1 -> inrange c2 -> apart c1 c2 -> close c1 c2 x -> close c2 c1 x.
Proof.
  unfold close. intros R1 R2 A. destruct strategy.
  - intros (i & j & Hi & Hj & H). exists j, i. split; [exact Hj|]. split; [exact Hi|]. rewrite SYM; auto. intros <-. exact (A j Hi Hj).
  - intros H i j Hi Hj. rewrite SYM; auto. intros <-. exact (A i Hj Hi).
Qed.

Lemma linkage_close c1 c2 x : inrange c1 -> inrange c2 -> apart c1 c2 -> c1 <> [] -> c2 <> [] ->
  nonneg (linkage c1 c2) = true /\ (dle (linkage c1 c2) x = true <-> close c1 c2 x).
Proof.
  intros R1 R2 A N1 N2.
  assert (H : forall i j, In i c1 -> In j c2 -> nonneg (d i j) = true).
  { intros i j Hi Hj. apply NNN; auto. intros <-. exact (A i Hi Hj). }
  destruct (minmax_spec c1 c2 H) as ((P1 & P2) & P & Q1 & Q2). unfold ClusterProof.linkage, close.
  destruct c1 as [|i0 c1]; [congruence|]. destruct c2 as [|j0 c2]; [congruence|].
  set (rows := i0 :: c1) in *. set (cols := j0 :: c2) in *.
  assert (I0 : In i0 rows) by now left. assert (J0 : In j0 cols) by now left.
  destruct strategy; (split; [assumption|]).
  - split.
    + intros L. destruct Q1 as [E|(i & j & Hi & Hj & E)]; [|exists i, j; rewrite <- E; auto].
      exists i0, j0. split; [exact I0|]. split; [exact J0|]. rewrite (inf_le (d i0 j0)); [congruence|auto|]. rewrite <- E. apply P; assumption.
    + intros (i & j & Hi & Hj & L). apply (le_bound _ (d i j)); auto. apply P; assumption.
  - split.
    + intros L i j Hi Hj. apply (le_bound _ (snd (minmax d rows cols))); auto. apply P; assumption.
    + intros L. destruct Q2 as [E|(i & j & Hi & Hj & E)]; [|rewrite E; auto]. rewrite E. apply (le_bound _ (d i0 j0)); auto.
      unfold leD. destruct (nonneg_cases (d i0 j0) (H _ _ I0 J0)) as [->|[F Pz]]; [reflexivity|]. apply dlt_false; auto. right. split; [reflexivity|]. split; [exact F|exact Pz].
Qed.

Lemma group_range st c : inv st -> group n st c -> inrange c.
Proof.
  intros (U & _) [[H _]|(i & -> & [R _])] x Hx; [|destruct Hx as [<-|[]]; exact R].
  destruct U as (_ & _ & UC). apply UC. apply in_concat. now exists c.
Qed.
Lemma group_nonempty st c : group n st c -> c <> [].
Proof. intros [[_ H]|(i & -> & _)]; [exact H|discriminate]. Qed.

Lemma joined_close st c1 c2 x y : inv st -> group n st c1 -> group n st c2 -> apart c1 c2 -> joined strategy d c1 c2 x ->
  dle x y = true -> close c1 c2 y.
Proof.
  intros I G1 G2 A J L. pose proof (group_range _ _ I G1) as R1. pose proof (group_range _ _ I G2) as R2.
  pose proof (group_nonempty _ _ G1) as N1. pose proof (group_nonempty _ _ G2) as N2.
  assert (A' : apart c2 c1) by (intros z H1 H2; exact (A z H2 H1)).
  destruct J as [->|[->|(i & j & -> & -> & ->)]].
  - now apply linkage_close.
  - apply close_sym; auto. now apply linkage_close.
  - unfold close. destruct strategy.
    + exists i, j. split; [now left|]. split; [now left|exact L].
    + intros i' j' [<-|[]] [<-|[]]. exact L.
Qed.

(** Invariants of the loop. *)
Definition tight (st : cstate) : Prop :=
  match strategy with
  | COMPLETE_LINK => forall c i j, In c (st_clusters st) -> In i c -> In j c -> i <> j -> dle (d i j) bound = true
  | SINGLE_LINK => forall c i j, In c (st_clusters st) -> In i c -> In j c -> linked n d bound i j
  end.

Lemma linked_sym i j : linked n d bound i j -> linked n d bound j i.
Proof.
  induction 1 as [i j (Hi & Hj & N & L)|i|i j k _ IH1 _ IH2].
  - apply rt_step. split; [exact Hj|]. split; [exact Hi|]. split; [congruence|]. rewrite <- SYM; auto.
  - apply rt_refl.
  - exact (rt_trans _ _ _ _ _ IH2 IH1).
Qed.

Lemma tight_group st c : inv st -> tight st -> group n st c ->
  match strategy with
  | COMPLETE_LINK => forall i j, In i c -> In j c -> i <> j -> dle (d i j) bound = true
  | SINGLE_LINK => forall i j, In i c -> In j c -> linked n d bound i j
  end.
Proof.
  unfold tight. intros _ T [[H _]|(i & -> & _)]; destruct strategy.
  - intros i j. exact (T c i j H).
  - intros i j. exact (T c i j H).
  - intros a b [<-|[]] [<-|[]]. apply rt_refl.
  - intros a b [<-|[]] [<-|[]] N. congruence.
Qed.

Lemma tight_step st p st' : inv st -> tight st -> In p (all_cands strategy n d (st_mask st) (st_clusters st)) ->
  dle (cp_distance p) bound = true -> merge st p = Ok st' -> tight st'.
Proof.
  intros I T C B E. destruct (merge_ok strategy n d st p I C) as (st'' & c1 & c2 & E' & I' & _ & _ & G1 & G2 & J & A & W & _).
  rewrite E in E'. injection E' as <-. pose proof (joined_close st c1 c2 _ bound I G1 G2 A J B) as CL.
  pose proof (group_range _ _ I G1) as R1. pose proof (group_range _ _ I G2) as R2.
  pose proof (close_sym c1 c2 bound R1 R2 A CL) as CL'.
  pose proof (tight_group st c1 I T G1) as T1. pose proof (tight_group st c2 I T G2) as T2.
  unfold tight, close in *. destruct strategy.
  - intros c i j Hc Hi Hj. destruct (W c Hc) as [->|[->|[Hc' _]]]; [destruct Hi| |exact (T c i j Hc' Hi Hj)].
    destruct CL as (a & b & Ha & Hb & L).
    assert (AB : linked n d bound a b) by (apply rt_step; split; [auto|split; [auto|split; [intros <-; exact (A a Ha Hb)|exact L]]]).
    apply in_app_or in Hi. apply in_app_or in Hj. destruct Hi as [Hi|Hi], Hj as [Hj|Hj]; auto.
    + exact (rt_trans _ _ _ _ _ (T1 _ _ Hi Ha) (rt_trans _ _ _ _ _ AB (T2 _ _ Hb Hj))).
    + exact (rt_trans _ _ _ _ _ (T2 _ _ Hi Hb) (rt_trans _ _ _ _ _ (linked_sym _ _ AB) (T1 _ _ Ha Hj))).
  - intros c i j Hc Hi Hj N. destruct (W c Hc) as [->|[->|[Hc' _]]]; [destruct Hi| |exact (T c i j Hc' Hi Hj N)].
    apply in_app_or in Hi. apply in_app_or in Hj. destruct Hi as [Hi|Hi], Hj as [Hj|Hj]; auto.
Qed.

Lemma iterates_tight k st : iterates dm strategy sp ob team nt bound k (initial_state dm) st -> tight st /\ (st_distance st = d0 \/ dle (st_distance st) bound = true).
Proof.
  remember (initial_state dm) as st0 eqn:E0. induction 1 as [|k st0 st1 st2 x1 x2 I IH X E].
  - subst. split; [|now left]. unfold tight. destruct strategy; intros c i j [].
  - destruct (iterates_ok k st1) as (I1 & _ & _); [now rewrite <- E0|]. destruct (IH E0) as [T _].
    destruct (iteration_ok st1 x1 x2 I1 X) as (p & C & _ & [(Vp & Bp & Ip & st' & Em & Ei)|[_ Ei]]); [|congruence].
    rewrite Ei in E. injection E as <-. split; [exact (tight_step st1 p st' I1 T Ip Bp Em)|]. right.
    destruct (merge_ok strategy n d st1 p I1 Ip) as (st'' & c1 & c2 & Em' & _ & _ & D & _). rewrite Em in Em'. injection Em' as <-. now rewrite D.
Qed.

(** Groups that are still there at the end are not close. *)
Lemma groups_apart st c1 c2 : inv st -> group n st c1 -> group n st c2 -> c1 <> c2 -> apart c1 c2.
Proof.
  intros I G1 G2 N x H1 H2. pose proof I as ((Ln & ND & UC) & _).
  destruct G1 as [[I1 N1]|(i & -> & F1)], G2 as [[I2 N2]|(j & -> & F2)].
  - destruct (In_nth _ _ [] I1) as (k1 & L1 & E1). destruct (In_nth _ _ [] I2) as (k2 & L2 & E2).
    apply (nodup_two _ ND k1 k2 x); [congruence|now rewrite E1|now rewrite E2].
  - destruct H2 as [<-|[]]. apply (free_not_in n st j I F2). apply in_concat. now exists c1.
  - destruct H1 as [<-|[]]. apply (free_not_in n st i I F1). apply in_concat. now exists c2.
  - destruct H1 as [<-|[]], H2 as [<-|[]]. congruence.
Qed.

Lemma cands_nonneg st : inv st -> Forall (fun q => nonneg (cp_distance q) = true) (all_cands strategy n d (st_mask st) (st_clusters st)).
Proof.
  intros I. pose proof I as ((Ln & ND & UC) & _). apply Forall_forall. intros q H. apply in_cands in H; [|exact Ln].
  assert (R : forall k c, cluster_at (st_clusters st) k c -> group n st c).
  { intros k c (R & E & N). left. split; [|exact N]. rewrite <- E. apply nth_In. lia. }
  assert (RF : forall i, free n (st_mask st) i -> group n st [i]) by (intros i F; right; exists i; auto).
  destruct H as [(i & j & F1 & F2 & L & ->)|[(i & k & c & F & K & ->)|(k1 & k2 & c1 & c2 & K1 & K2 & L & ->)]]; cbn [cp_distance].
  - destruct F1, F2. apply NNN; lia.
  - pose proof (R _ _ K) as G. pose proof (RF _ F) as G1. apply linkage_close; eauto using group_range, group_nonempty.
    intros x [<-|[]] Hx. apply (free_not_in n st i I F). apply in_concat. exists c. split; [|exact Hx]. destruct G as [[G _]|(j & -> & F')]; [exact G|].
    destruct K as (RK & EK & _). rewrite <- EK. apply nth_In. lia.
  - pose proof (R _ _ K1) as G1. pose proof (R _ _ K2) as G2. apply linkage_close; eauto using group_range, group_nonempty.
    intros x H1 H2. destruct K1 as (R1 & E1 & _), K2 as (R2 & E2 & _). apply (nodup_two _ ND (Z.to_nat k1) (Z.to_nat k2) x); [lia|now rewrite E1|now rewrite E2].
Qed.

Lemma group_pair st c1 c2 : inv st -> group n st c1 -> group n st c2 -> c1 <> c2 ->
  exists q, In q (all_cands strategy n d (st_mask st) (st_clusters st)) /\
    (forall x, dle (cp_distance q) x = true <-> close c1 c2 x).
Proof.
  intros I G1 G2 N. pose proof I as ((Ln & ND & UC) & _). pose proof (groups_apart st c1 c2 I G1 G2 N) as A.
  assert (A' : apart c2 c1) by (intros z H1 H2; exact (A z H2 H1)).
  pose proof (group_range _ _ I G1) as R1. pose proof (group_range _ _ I G2) as R2.
  pose proof (group_nonempty _ _ G1) as N1. pose proof (group_nonempty _ _ G2) as N2.
  assert (CS : forall x, close c1 c2 x <-> close c2 c1 x) by (intros x; split; apply close_sym; auto).
  assert (K : forall c, In c (st_clusters st) -> c <> [] -> exists k, cluster_at (st_clusters st) k c).
  { intros c H Nc. destruct (In_nth _ _ [] H) as (k & L & E). exists (Z.of_nat k). split; [lia|]. rewrite Nat2Z.id. auto. }
  destruct G1 as [[I1 _]|(i & -> & F1)], G2 as [[I2 _]|(j & -> & F2)].
  - destruct (K c1 I1 N1) as (k1 & K1). destruct (K c2 I2 N2) as (k2 & K2).
    destruct (Z.lt_trichotomy k1 k2) as [L|[L|L]].
    + exists (mkPair (mkItem k1 true) (mkItem k2 true) (linkage c1 c2)). split; [|intros x; now apply linkage_close].
      apply in_cands; [exact Ln|]. right. right. exists k1, k2, c1, c2. auto.
    + destruct K1 as (_ & E1 & _), K2 as (_ & E2 & _). congruence.
    + exists (mkPair (mkItem k2 true) (mkItem k1 true) (linkage c2 c1)). split; [|intros x; rewrite CS; now apply linkage_close].
      apply in_cands; [exact Ln|]. right. right. exists k2, k1, c2, c1. auto.
  - destruct (K c1 I1 N1) as (k1 & K1). exists (mkPair (mkItem j false) (mkItem k1 true) (linkage [j] c1)).
    split; [|intros x; rewrite CS; now apply linkage_close]. apply in_cands; [exact Ln|]. right. left. exists j, k1, c1. auto.
  - destruct (K c2 I2 N2) as (k2 & K2). exists (mkPair (mkItem i false) (mkItem k2 true) (linkage [i] c2)).
    split; [|intros x; now apply linkage_close]. apply in_cands; [exact Ln|]. right. left. exists i, k2, c2. auto.
  - assert (CV : forall a b x, dle (d a b) x = true <-> close [a] [b] x).
    { intros a b x. unfold close. destruct strategy; split.
      - intros H. exists a, b. split; [now left|]. split; [now left|exact H].
      - intros (a' & b' & [<-|[]] & [<-|[]] & H). exact H.
      - intros H a' b' [<-|[]] [<-|[]]. exact H.
      - intros H. apply H; now left. }
    destruct (Z.lt_trichotomy i j) as [L|[L|L]]; [|congruence|].
    + exists (mkPair (mkItem i false) (mkItem j false) (d i j)). split; [|intros x; apply CV]. apply in_cands; [exact Ln|]. left. exists i, j. auto.
    + exists (mkPair (mkItem j false) (mkItem i false) (d j i)). split; [|intros x; rewrite CS; apply CV]. apply in_cands; [exact Ln|]. left. exists j, i. auto.
Qed.

Lemma separated st x1 x2 c1 c2 : between n (fun i j => is_finite (d i j) = true) -> inv st -> search_executions sp ob team nt st x1 x2 ->
  iteration dm strategy bound nt st x1 x2 = Ok None -> group n st c1 -> group n st c2 -> c1 <> c2 -> ~ close c1 c2 bound.
Proof.
  intros FIN I X E G1 G2 N CL. destruct (iteration_ok st x1 x2 I X) as (p & C & Mi & [(_ & _ & _ & st' & _ & E')|[D _]]); [congruence|].
  destruct (Mi (cands_nonneg st I)) as (P1 & P2 & P3). destruct (group_pair st c1 c2 I G1 G2 N) as (q & Hq & Eq).
  pose proof (cands_nonneg st I) as CN. rewrite Forall_forall in P3, CN. pose proof (P3 q Hq) as L. pose proof (CN q Hq) as Nq.
  pose proof (proj2 (Eq bound) CL) as B.
  destruct D as [->|D].
  - pose proof (inf_le _ Nq L) as Inf. assert (Big : exists x, is_finite x = true /\ close c1 c2 x).
    { pose proof (groups_apart st c1 c2 I G1 G2 N) as A. pose proof (group_range _ _ I G1) as R1. pose proof (group_range _ _ I G2) as R2.
      pose proof (group_nonempty _ _ G1) as N1. pose proof (group_nonempty _ _ G2) as N2.
      assert (H : forall i j, In i c1 -> In j c2 -> nonneg (d i j) = true /\ is_finite (d i j) = true).
      { intros i j Hi Hj. split; [apply NNN|apply FIN]; auto; intros <-; exact (A i Hi Hj). }
      destruct (minmax_spec c1 c2 (fun i j Hi Hj => proj1 (H i j Hi Hj))) as ((_ & PM) & P & _ & Q2).
      set (mx := snd (minmax d c1 c2)) in *.
      exists mx. split.
      { destruct Q2 as [->|(i & j & Hi & Hj & ->)]; [reflexivity|apply H; assumption]. }
      assert (LE : forall i j, In i c1 -> In j c2 -> dle (d i j) mx = true).
      { intros i j Hi Hj. destruct (H i j Hi Hj) as [Pn Fn]. apply dle_true; [exact Pn|exact PM|]. apply dlt_false; [exact Pn|exact PM|]. apply P; assumption. }
      unfold close. destruct strategy; [|exact LE]. destruct c1 as [|i c1]; [congruence|]. destruct c2 as [|j c2]; [congruence|].
      exists i, j. split; [now left|]. split; [now left|]. apply LE; now left. }
    destruct Big as (x & Fx & Cx). apply Eq in Cx. rewrite Inf in Cx. destruct x as [s|s| |s m e Bx]; try discriminate; destruct s; discriminate.
  - rewrite (le_bound _ _ _ P1 Nq L B) in D. discriminate.
Qed.
End Proof.
