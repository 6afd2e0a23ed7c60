(** Proofs about ClusterModel.v: merging, termination and the partition. *)
From Coq Require Import ZArith Permutation Relations.
From Verif Require Import Base Double ParallelismModel ParallelismSpec ParallelismProof KnnModel KnnSpec DistModel DistSpec SearchDouble DistProof2 ClusterModel ClusterSpec ClusterProof.
Local Open Scope Z_scope.
Notation size l := (Z.of_nat (length l)).

Definition isnil (c : list Z) : bool := match c with [] => true | _ => false end.
Definition live_clusters (clusters : list (list Z)) : list (list Z) := filter (fun c => match c with [] => false | _ :: _ => true end) clusters.

Lemma count_upd {A} (f : A -> bool) (l : list A) : forall k a b, nth_error l k = Some a ->
  (length (filter f (upd l k b)) + (if f a then 1 else 0) = length (filter f l) + (if f b then 1 else 0))%nat.
Proof.
  induction l as [|x l IH]; intros [|k] a b E; try discriminate; cbn [upd filter].
  - cbn in E. injection E as ->. destruct (f a), (f b); cbn [length]; lia.
  - cbn in E. specialize (IH k a b E). destruct (f x); cbn [length]; lia.
Qed.
Lemma concat_upd {A} (l : list (list A)) : forall k a b, nth_error l k = Some a ->
  Permutation (concat (upd l k b) ++ a) (concat l ++ b).
Proof.
  induction l as [|x l IH]; intros [|k] a b E; try discriminate; cbn [upd concat].
  - cbn in E. injection E as ->. rewrite <- !app_assoc. rewrite Permutation_app_comm. rewrite <- app_assoc.
    rewrite Permutation_app_comm. rewrite <- !app_assoc. apply Permutation_app_head. apply Permutation_app_comm.
  - cbn in E. rewrite <- !app_assoc. apply Permutation_app_head. exact (IH k a b E).
Qed.
Lemma nth_upd {A} (l : list A) k j v (dflt : A) : (k < length l)%nat -> nth j (upd l k v) dflt = if Nat.eq_dec k j then v else nth j l dflt.
Proof.
  intros L. rewrite <- !nth_default_eq. unfold nth_default. rewrite nth_error_upd.
  destruct (Nat.eq_dec k j) as [<-|]; [|reflexivity]. destruct (lt_dec k (length l)); [reflexivity|lia].
Qed.

Section Proof.
Variable dm : mat (option double).
Variable strategy : ClusterStrategy.
Variable n : Z.
Variable d : Z -> Z -> double.
Hypothesis M : distances dm n d.
Hypothesis NN : between n (fun i j => dlt (d i j) d0 = false).
Notation usable := (usable n).
Notation linkage := (linkage strategy d).

Definition all_cands (mask : list bool) (clusters : list (list Z)) : list ClosestPair :=
  flat_map (cand_values strategy d mask clusters) (seqZ 0 n) ++ flat_map (cand_clusters strategy d clusters) (seqZ 0 (size clusters)).

Definition free (mask : list bool) (i : Z) : Prop := 0 <= i < n /\ nth (Z.to_nat i) mask true = false.
Definition cluster_at (clusters : list (list Z)) (k : Z) (c : list Z) : Prop := 0 <= k < size clusters /\ nth (Z.to_nat k) clusters [] = c /\ c <> [].

Lemma in_cands mask clusters p : size mask = n -> In p (all_cands mask clusters) <->
  (exists i j, free mask i /\ free mask j /\ i < j /\ p = mkPair (mkItem i false) (mkItem j false) (d i j)) \/
  (exists i k c, free mask i /\ cluster_at clusters k c /\ p = mkPair (mkItem i false) (mkItem k true) (linkage [i] c)) \/
  (exists k1 k2 c1 c2, cluster_at clusters k1 c1 /\ cluster_at clusters k2 c2 /\ k1 < k2 /\ p = mkPair (mkItem k1 true) (mkItem k2 true) (linkage c1 c2)).
Proof.
  intros Ln. unfold all_cands. rewrite in_app_iff, !in_flat_map. split.
  - intros [(i & Hi & H)|(k1 & Hk & H)].
    + rewrite seqZ_in in Hi. unfold cand_values in H. destruct (nth (Z.to_nat i) mask true) eqn:Ei; [destruct H|].
      apply in_app_or in H. destruct H as [H|H]; apply in_flat_map in H; destruct H as (j & Hj & H); rewrite seqZ_in in Hj.
      * destruct (nth (Z.to_nat j) mask true) eqn:Ej; [destruct H|]. destruct H as [<-|[]]. left. exists i, j.
        split; [split; [lia|exact Ei]|]. split; [split; [lia|exact Ej]|]. split; [lia|reflexivity].
      * destruct (nth (Z.to_nat j) clusters []) as [|x c] eqn:Ej; [destruct H|]. destruct H as [<-|[]]. right. left. exists i, j, (x :: c).
        split; [split; [lia|exact Ei]|]. split; [split; [lia|split; [exact Ej|discriminate]]|reflexivity].
    + rewrite seqZ_in in Hk. unfold cand_clusters in H. destruct (nth (Z.to_nat k1) clusters []) as [|x c1] eqn:E1; [destruct H|].
      apply in_flat_map in H. destruct H as (k2 & Hk2 & H). rewrite seqZ_in in Hk2.
      destruct (nth (Z.to_nat k2) clusters []) as [|y c2] eqn:E2; [destruct H|]. destruct H as [<-|[]]. right. right. exists k1, k2, (x :: c1), (y :: c2).
      split; [split; [lia|split; [exact E1|discriminate]]|]. split; [split; [lia|split; [exact E2|discriminate]]|]. split; [lia|reflexivity].
  - intros [(i & j & [Hi Ei] & [Hj Ej] & L & ->)|[(i & k & c & [Hi Ei] & (Hk & Ek & Nk) & ->)|(k1 & k2 & c1 & c2 & (H1 & E1 & N1) & (H2 & E2 & N2) & L & ->)]].
    + left. exists i. split; [rewrite seqZ_in; lia|]. unfold cand_values. rewrite Ei. apply in_or_app. left. apply in_flat_map.
      exists j. split; [rewrite seqZ_in; lia|]. rewrite Ej. now left.
    + left. exists i. split; [rewrite seqZ_in; lia|]. unfold cand_values. rewrite Ei. apply in_or_app. right. apply in_flat_map.
      exists k. split; [rewrite seqZ_in; lia|]. rewrite Ek. destruct c; [congruence|now left].
    + right. exists k1. split; [rewrite seqZ_in; lia|]. unfold cand_clusters. rewrite E1. destruct c1 as [|x c1]; [congruence|]. apply in_flat_map.
      exists k2. split; [rewrite seqZ_in; lia|]. rewrite E2. destruct c2 as [|y c2]; [congruence|now left].
Qed.

Lemma cand_valid mask clusters p : size mask = n -> In p (all_cands mask clusters) -> cp_is_valid p = true.
Proof.
  intros Ln H. apply in_cands in H; [|exact Ln]. unfold cp_is_valid, item_is_valid.
  destruct H as [(i & j & [Hi Ei] & [Hj Ej] & L & ->)|[(i & k & c & [Hi Ei] & (Hk & Ek & Nk) & ->)|(k1 & k2 & c1 & c2 & (H1 & E1 & N1) & (H2 & E2 & N2) & L & ->)]];
    cbn [cp_first cp_second item_index]; apply andb_true_intro; split; apply Z.leb_le; lia.
Qed.

Lemma chosen_app l1 l2 p : chosen (l1 ++ l2) p <-> chosen l1 p \/ chosen l2 p.
Proof. unfold chosen. rewrite in_app_iff. tauto. Qed.

Lemma get_closest_pair_ok sp ob team nt mask clusters dist x1 x2 : usable mask clusters -> 0 <= n ->
  (IsParallel nt = true -> valid_call nt 0 n team /\ valid_call nt 0 (size clusters) team) ->
  search_executions sp ob team nt (mkState mask clusters dist) x1 x2 ->
  exists p, GetClosestPair dm strategy mask clusters nt x1 x2 = Ok p /\ chosen (all_cands mask clusters) p /\ minimal (all_cands mask clusters) p.
Proof.
  intros U Hn V X. pose proof U as (Ln & _ & _). unfold GetClosestPair, GetClosestValueToOther, GetClosestClusters.
  destruct (search_ok (scan_value dm strategy mask clusters) (cand_values strategy d mask clusters) sp ob team nt (size mask) x1) as (v & Ev & Cv & Mv).
  { intros b i Hi. apply (scan_value_ok dm strategy n d M NN); [exact U|lia]. } { lia. }
  { intros P. destruct (V P). destruct (X P) as [X1 _]. cbn [st_mask st_clusters] in X1. rewrite Ln in *. split; assumption. }
  rewrite Ev. cbn [bind].
  destruct (search_ok (scan_cluster dm strategy clusters) (cand_clusters strategy d clusters) sp ob team nt (size clusters) x2) as (c & Ec & Cc & Mc).
  { intros b i Hi. apply (scan_cluster_ok dm strategy n d M NN mask); assumption. } { lia. }
  { intros P. destruct (V P). destruct (X P) as [_ X2]. split; assumption. }
  rewrite Ec. cbn [bind]. eexists. split; [reflexivity|]. rewrite Ln in Cv, Mv.
  set (L1 := flat_map (cand_values strategy d mask clusters) (seqZ 0 n)) in *. set (L2 := flat_map (cand_clusters strategy d clusters) (seqZ 0 (size clusters))) in *.
  assert (VD : forall l p, (forall q, In q l -> In q (all_cands mask clusters)) -> chosen l p -> cp_is_valid p = false -> p = default_pair).
  { intros l p Hl [E|I] F; [exact E|]. rewrite (cand_valid mask clusters p Ln) in F by auto. discriminate. }
  assert (S1 : forall q, In q L1 -> In q (all_cands mask clusters)) by (intros; apply in_or_app; now left).
  assert (S2 : forall q, In q L2 -> In q (all_cands mask clusters)) by (intros; apply in_or_app; now right).
  split.
  - change (all_cands mask clusters) with (L1 ++ L2). apply chosen_app.
    destruct (cp_is_valid v && cp_is_valid c) eqn:B.
    { destruct (dlt (cp_distance v) (cp_distance c)); [now left|now right]. }
    destruct (cp_is_valid v) eqn:Bv; [now left|]. destruct (cp_is_valid c) eqn:Bc; [now right|]. left. now left.
  - intros F. change (all_cands mask clusters) with (L1 ++ L2) in F. apply Forall_app in F. destruct F as [F1 F2].
    destruct (Mv F1) as (V1 & V2 & V3). destruct (Mc F2) as (C1 & C2 & C3).
    assert (W : forall p q l, nonneg (cp_distance p) = true -> nonneg (cp_distance q) = true -> Forall (fun q => nonneg (cp_distance q) = true) l ->
       leD dlt (cp_distance p) (cp_distance q) -> Forall (fun r => leD dlt (cp_distance q) (cp_distance r)) l -> Forall (fun r => leD dlt (cp_distance p) (cp_distance r)) l).
    { intros p q l Hp Hq Hl Lpq Hr. rewrite Forall_forall in *. intros r I. apply (oo_weak _ _ double_order_on) with (b := cp_distance q); auto. }
    change (all_cands mask clusters) with (L1 ++ L2).
    destruct (cp_is_valid v && cp_is_valid c) eqn:B.
    { destruct (dlt (cp_distance v) (cp_distance c)) eqn:E.
      - split; [exact V1|]. split; [exact V2|]. apply Forall_app. split; [exact V3|]. apply (W v c L2); auto.
        apply (DistProof.lt_le_on dlt _ double_order_on); assumption.
      - split; [exact C1|]. split; [exact C2|]. apply Forall_app. split; [|exact C3]. apply (W c v L1); auto. }
    destruct (cp_is_valid v) eqn:Bv.
    { cbn in B. pose proof (VD L2 c S2 Cc B) as ->. split; [exact V1|]. split; [exact V2|]. apply Forall_app. split; [exact V3|]. apply (W v default_pair L2); auto. }
    pose proof (VD L1 v S1 Cv Bv) as ->.
    destruct (cp_is_valid c) eqn:Bc.
    { split; [exact C1|]. split; [exact C2|]. apply Forall_app. split; [|exact C3]. apply (W c default_pair L1); auto. }
    pose proof (VD L2 c S2 Cc Bc) as ->. split; [exact V1|]. split; [exact V2|]. apply Forall_app. split; assumption.
Qed.

(** * Merging *)
Definition inv (st : cstate) : Prop :=
  usable (st_mask st) (st_clusters st) /\
  (forall i, 0 <= i < n -> nth (Z.to_nat i) (st_mask st) true = true -> In i (concat (st_clusters st))) /\
  2 * size (st_clusters st) + size (filter negb (st_mask st)) <= n.
Definition live (st : cstate) : Z := size (filter negb (st_mask st)) + size (live_clusters (st_clusters st)).
Definition group (st : cstate) (c : list Z) : Prop := (In c (st_clusters st) /\ c <> []) \/ (exists i, c = [i] /\ free (st_mask st) i).

(** The distance of the pair that was merged. *)
Definition joined (c1 c2 : list Z) (x : double) : Prop :=
  x = linkage c1 c2 \/ x = linkage c2 c1 \/ (exists i j, c1 = [i] /\ c2 = [j] /\ x = d i j).

Lemma nth_error_of {A} (l : list A) k x dflt : (k < length l)%nat -> nth k l dflt = x -> nth_error l k = Some x.
Proof. intros L <-. now apply nth_error_nth'. Qed.

Lemma free_not_in st i : inv st -> free (st_mask st) i -> ~ In i (concat (st_clusters st)).
Proof. intros ((_ & _ & U) & _) [_ F] I. apply U in I. destruct I. congruence. Qed.

Lemma merge_ok st p : inv st -> In p (all_cands (st_mask st) (st_clusters st)) ->
  exists st' c1 c2, merge st p = Ok st' /\ inv st' /\ live st' + 1 = live st /\ st_distance st' = cp_distance p /\
    group st c1 /\ group st c2 /\ joined c1 c2 (cp_distance p) /\ (forall x, In x c1 -> In x c2 -> False) /\
    (forall c, In c (st_clusters st') -> c = [] \/ c = c1 ++ c2 \/ (In c (st_clusters st) /\ c <> [])) /\ In (c1 ++ c2) (st_clusters st').
Proof.
  intros I H. pose proof I as (U & J & C). pose proof U as (Ln & ND & UC). apply in_cands in H; [|exact Ln].
  destruct st as [mask clusters dist]. cbn [st_mask st_clusters st_distance] in *.
  destruct H as [(i & j & [Hi Ei] & [Hj Ej] & L & ->)|[(i & k & c & [Hi Ei] & (Hk & Ek & Nk) & ->)|(k1 & k2 & c1 & c2 & (H1 & E1 & N1) & (H2 & E2 & N2) & L & ->)]];
    unfold merge; cbn [cp_first cp_second cp_distance item_index item_is_cluster negb andb st_mask st_clusters].
  - (* two values *)
    rewrite set_index_ok by lia. cbn [bind]. rewrite set_index_ok by (rewrite upd_length; lia). cbn [bind].
    assert (Fi : ~ In i (concat clusters)) by (intros X; apply UC in X; destruct X; congruence).
    assert (Fj : ~ In j (concat clusters)) by (intros X; apply UC in X; destruct X; congruence).
    set (mask' := upd (upd mask (Z.to_nat i) true) (Z.to_nat j) true).
    assert (NM : forall x, nth (Z.to_nat x) mask' true = if Nat.eq_dec (Z.to_nat j) (Z.to_nat x) then true else if Nat.eq_dec (Z.to_nat i) (Z.to_nat x) then true else nth (Z.to_nat x) mask true).
    { intros x. unfold mask'. rewrite nth_upd by (rewrite upd_length; lia). destruct (Nat.eq_dec _ _); [reflexivity|]. rewrite nth_upd by lia. reflexivity. }
    assert (CF : size (filter negb mask') + 2 = size (filter negb mask)).
    { unfold mask'. pose proof (count_upd negb mask (Z.to_nat i) false true (nth_error_of mask (Z.to_nat i) false true ltac:(lia) Ei)) as Q1.
      assert (X : nth_error (upd mask (Z.to_nat i) true) (Z.to_nat j) = Some false).
      { rewrite nth_error_upd_other by lia. apply (nth_error_of _ _ _ true); [lia|exact Ej]. }
      pose proof (count_upd negb _ (Z.to_nat j) false true X) as Q2. cbn [negb] in *. lia. }
    exists (mkState mask' (clusters ++ [[i; j]]) (d i j)), [i], [j]. split; [reflexivity|]. split; [|split; [|split; [reflexivity|]]].
    + split; [|split]; cbn [st_mask st_clusters].
      * split; [unfold mask'; now rewrite !upd_length|]. rewrite concat_app. cbn [concat]. rewrite app_nil_r. split.
        -- apply (Permutation_NoDup (l := i :: j :: concat clusters)); [rewrite Permutation_app_comm; reflexivity|].
           constructor; [intros [->|X]; [lia|contradiction]|]. now constructor.
        -- intros x X. rewrite NM. apply in_app_or in X. destruct X as [X|[<-|[<-|[]]]].
           ++ destruct (UC x X) as [R E]. split; [exact R|]. rewrite E. repeat destruct (Nat.eq_dec _ _); reflexivity.
           ++ split; [exact Hi|]. destruct (Nat.eq_dec _ _); [reflexivity|]. destruct (Nat.eq_dec _ _); (reflexivity || lia).
           ++ split; [exact Hj|]. destruct (Nat.eq_dec _ _); (reflexivity || lia).
      * intros x Hx. rewrite NM, concat_app. cbn [concat]. rewrite app_nil_r. intros E. apply in_or_app.
        destruct (Nat.eq_dec (Z.to_nat j) (Z.to_nat x)); [right; right; left; lia|]. destruct (Nat.eq_dec (Z.to_nat i) (Z.to_nat x)); [right; left; lia|]. left. now apply J.
      * rewrite app_length. cbn [length]. lia.
    + unfold live, live_clusters. cbn [st_mask st_clusters]. rewrite filter_app, app_length. cbn [filter length]. lia.
    + split; [right; exists i; split; [reflexivity|split; assumption]|]. split; [right; exists j; split; [reflexivity|split; assumption]|].
      split; [right; right; exists i, j; auto|]. split; [intros x [<-|[]] [X|[]]; lia|]. split.
      * intros c X. cbn [st_clusters] in X. apply in_app_or in X. destruct X as [X|[<-|[]]]; [|right; left; reflexivity].
        destruct c; [now left|]. right. right. split; [exact X|discriminate].
      * cbn [st_clusters]. apply in_or_app. right. now left.
  - (* a value and a cluster *)
    rewrite (at_index_ok _ _ c) by (try (apply (nth_error_of _ _ _ []); [lia|exact Ek]); lia). cbn [bind].
    rewrite set_index_ok by lia. cbn [bind]. rewrite set_index_ok by lia. cbn [bind].
    assert (Fi : ~ In i (concat clusters)) by (intros X; apply UC in X; destruct X; congruence).
    set (mask' := upd mask (Z.to_nat i) true). set (cl' := upd clusters (Z.to_nat k) (c ++ [i])).
    assert (Ekk : nth_error clusters (Z.to_nat k) = Some c) by (apply (nth_error_of _ _ _ []); [lia|exact Ek]).
    assert (NM : forall x, nth (Z.to_nat x) mask' true = if Nat.eq_dec (Z.to_nat i) (Z.to_nat x) then true else nth (Z.to_nat x) mask true).
    { intros x. unfold mask'. now rewrite nth_upd by lia. }
    assert (PM : Permutation (concat cl') (i :: concat clusters)).
    { apply (Permutation_app_inv_r c). unfold cl'. rewrite (concat_upd clusters (Z.to_nat k) c (c ++ [i]) Ekk).
      rewrite app_assoc. rewrite Permutation_app_comm. reflexivity. }
    pose proof (count_upd negb mask (Z.to_nat i) false true (nth_error_of mask (Z.to_nat i) false true ltac:(lia) Ei)) as Q1. fold mask' in Q1. cbn [negb] in Q1.
    pose proof (count_upd (fun c => match c with [] => false | _ :: _ => true end) clusters (Z.to_nat k) c (c ++ [i]) Ekk) as Q2. fold cl' in Q2.
    exists (mkState mask' cl' (linkage [i] c)), c, [i]. split; [reflexivity|]. split; [|split; [|split; [reflexivity|]]].
    + split; [|split]; cbn [st_mask st_clusters].
      * split; [unfold mask'; now rewrite upd_length|]. split.
        -- apply (Permutation_NoDup (Permutation_sym PM)). now constructor.
        -- intros x X. rewrite NM. apply (Permutation_in _ PM) in X. destruct X as [<-|X].
           ++ split; [exact Hi|]. destruct (Nat.eq_dec _ _); (reflexivity || lia).
           ++ destruct (UC x X) as [R E]. split; [exact R|]. rewrite E. destruct (Nat.eq_dec _ _); (reflexivity || lia).
      * intros x Hx. rewrite NM. intros E. apply (Permutation_in _ (Permutation_sym PM)).
        destruct (Nat.eq_dec (Z.to_nat i) (Z.to_nat x)); [left; lia|]. right. now apply J.
      * unfold cl'. rewrite upd_length. lia.
    + unfold live, live_clusters. cbn [st_mask st_clusters].
      destruct c as [|y c]; [congruence|]. cbn [app] in Q2. lia.
    + split; [left; cbn [st_clusters]; split; [exact (nth_error_In _ _ Ekk)|exact Nk]|]. split; [right; exists i; split; [reflexivity|split; assumption]|].
      split; [right; left; reflexivity|]. split; [intros x X [<-|[]]; apply Fi; apply (nth_concat clusters (Z.to_nat k)); now rewrite Ek|]. split.
      * intros c' X. cbn [st_clusters] in X. destruct (In_nth_error _ _ X) as [t Ht]. unfold cl' in Ht. rewrite nth_error_upd in Ht.
        destruct (Nat.eq_dec (Z.to_nat k) t); [destruct (lt_dec _ _); [injection Ht as <-; right; now left|discriminate]|].
        destruct c'; [now left|]. right. right. split; [exact (nth_error_In _ _ Ht)|discriminate].
      * cbn [st_clusters]. unfold cl'. apply nth_error_In with (n := Z.to_nat k). apply nth_error_upd_same. lia.
  - (* two clusters *)
    assert (X1 : nth_error clusters (Z.to_nat k1) = Some c1) by (apply (nth_error_of _ _ _ []); [lia|exact E1]).
    assert (X2 : nth_error clusters (Z.to_nat k2) = Some c2) by (apply (nth_error_of _ _ _ []); [lia|exact E2]).
    rewrite (at_index_ok _ _ c1) by (lia || exact X1). cbn [bind]. rewrite (at_index_ok _ _ c2) by (lia || exact X2). cbn [bind].
    rewrite set_index_ok by lia. cbn [bind]. rewrite set_index_ok by (rewrite upd_length; lia). cbn [bind].
    set (cl1 := upd clusters (Z.to_nat k1) (c1 ++ c2)). set (cl' := upd cl1 (Z.to_nat k2) []).
    assert (X2' : nth_error cl1 (Z.to_nat k2) = Some c2) by (unfold cl1; rewrite nth_error_upd_other by lia; exact X2).
    assert (PM : Permutation (concat cl') (concat clusters)).
    { apply (Permutation_app_inv_r (c2 ++ c1)). unfold cl'. rewrite app_assoc. rewrite (concat_upd cl1 (Z.to_nat k2) c2 [] X2'). rewrite app_nil_r.
      unfold cl1. rewrite (concat_upd clusters (Z.to_nat k1) c1 (c1 ++ c2) X1). apply Permutation_app_head. apply Permutation_app_comm. }
    pose proof (count_upd (fun c => match c with [] => false | _ :: _ => true end) clusters (Z.to_nat k1) c1 (c1 ++ c2) X1) as Q1. fold cl1 in Q1.
    pose proof (count_upd (fun c => match c with [] => false | _ :: _ => true end) cl1 (Z.to_nat k2) c2 [] X2') as Q2. fold cl' in Q2.
    exists (mkState mask cl' (linkage c1 c2)), c1, c2. split; [reflexivity|]. split; [|split; [|split; [reflexivity|]]].
    + split; [|split]; cbn [st_mask st_clusters].
      * split; [exact Ln|]. split; [exact (Permutation_NoDup (Permutation_sym PM) ND)|]. intros x X. apply UC. exact (Permutation_in _ PM X).
      * intros x Hx E. apply (Permutation_in _ (Permutation_sym PM)). now apply J.
      * unfold cl', cl1. rewrite !upd_length. lia.
    + unfold live, live_clusters. cbn [st_mask st_clusters]. destruct c1 as [|y c1]; [congruence|]. destruct c2 as [|z c2]; [congruence|]. cbn [app] in Q1. lia.
    + split; [left; split; [exact (nth_error_In _ _ X1)|exact N1]|]. split; [left; split; [exact (nth_error_In _ _ X2)|exact N2]|].
      split; [left; reflexivity|]. split.
      { intros x A B. apply (nodup_two clusters ND (Z.to_nat k1) (Z.to_nat k2) x); [lia|now rewrite E1|now rewrite E2]. } split.
      * intros c X. cbn [st_clusters] in X. destruct (In_nth_error _ _ X) as [t Ht]. unfold cl' in Ht. rewrite nth_error_upd in Ht.
        destruct (Nat.eq_dec (Z.to_nat k2) t); [destruct (lt_dec _ _); [injection Ht as <-; now left|discriminate]|].
        unfold cl1 in Ht. rewrite nth_error_upd in Ht.
        destruct (Nat.eq_dec (Z.to_nat k1) t); [destruct (lt_dec _ _); [injection Ht as <-; right; now left|discriminate]|].
        destruct c; [now left|]. right. right. split; [exact (nth_error_In _ _ Ht)|discriminate].
      * cbn [st_clusters]. unfold cl'. apply nth_error_In with (n := Z.to_nat k1). rewrite nth_error_upd_other by lia.
        unfold cl1. apply nth_error_upd_same. lia.
Qed.
End Proof.
