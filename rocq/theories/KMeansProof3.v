From Coq Require Import Reals Lra Permutation Classical.
From Verif Require Import Base ParallelismModel ParallelismSpec ParallelismProof KnnModel KnnSpec KnnProof DistModel DistProof ClusterModel ClusterProof ClusterProof4 KMeansModel KMeansSpec KMeansProof KMeansProof2.
Local Open Scope Z_scope.
Notation size l := (Z.of_nat (length l)).

(** Sums of real numbers. *)
Definition sumR {A} (f : A -> R) (l : list A) : R := fold_right Rplus 0%R (map f l).
Lemma sumR_cons {A} (f : A -> R) a l : sumR f (a :: l) = (f a + sumR f l)%R.
Proof. reflexivity. Qed.
Lemma sumR_le {A} (f g : A -> R) l : (forall a, In a l -> (f a <= g a)%R) -> (sumR f l <= sumR g l)%R.
Proof.
  induction l as [|a l IH]; intros H; [cbn; lra|]. rewrite !sumR_cons.
  pose proof (H a (or_introl eq_refl)). pose proof (IH ltac:(intros; apply H; now right)). lra.
Qed.
Lemma sumR_eq {A} (f g : A -> R) l : (forall a, In a l -> (f a <= g a)%R) -> sumR f l = sumR g l -> forall a, In a l -> f a = g a.
Proof.
  induction l as [|a l IH]; intros H E x Hx; [destruct Hx|]. rewrite !sumR_cons in E.
  pose proof (H a (or_introl eq_refl)). pose proof (sumR_le f g l ltac:(intros; apply H; now right)).
  destruct Hx as [<-|Hx]; [lra|]. apply IH; [intros; apply H; now right|lra|exact Hx].
Qed.
Lemma sumR_ext {A} (f g : A -> R) l : (forall a, In a l -> f a = g a) -> sumR f l = sumR g l.
Proof. intros H. unfold sumR. f_equal. apply map_ext_in, H. Qed.

(** Grouping by label. *)
Lemma add_one (h : R) (g g' : Z -> R) k0 ks : NoDup ks -> In k0 ks -> g' k0 = (h + g k0)%R -> (forall k, k <> k0 -> g' k = g k) ->
  sumR g' ks = (h + sumR g ks)%R.
Proof.
  intros ND I E0 E. induction ks as [|k ks IH]; [destruct I|]. inversion_clear ND as [|? ? NI ND']. rewrite !sumR_cons.
  destruct (Z.eq_dec k k0) as [->|NE].
  - rewrite E0. rewrite (sumR_ext g' g ks); [lra|]. intros a Ha. apply E. intros ->. contradiction.
  - destruct I as [I|I]; [congruence|]. rewrite (IH ND' I), (E k NE). lra.
Qed.
Lemma group {B} (h : Z -> B -> R) n (P : list (Z * B)) : (forall p, In p P -> 0 <= fst p < n) ->
  sumR (fun p => h (fst p) (snd p)) P = sumR (fun k => sumR (h k) (map snd (filter (fun p => fst p =? k) P))) (seqZ 0 n).
Proof.
  induction P as [|[k0 b] P IH]; intros R.
  - cbn [filter map]. induction (seqZ 0 n); [reflexivity|]. rewrite sumR_cons, <- IHl. unfold sumR. cbn. lra.
  - rewrite sumR_cons. cbn [fst snd]. rewrite IH by (intros; apply R; now right). symmetry. apply (add_one _ _ _ k0).
    + apply seqZ_nodup.
    + apply seqZ_in. exact (R _ (or_introl eq_refl)).
    + cbn [filter fst]. now rewrite Z.eqb_refl.
    + intros k NE. cbn [filter fst]. destruct (Z.eqb_spec k0 k); [congruence|reflexivity].
Qed.

Lemma in_combine3 {Data W} (labels : list Z) (data : list Data) (weights : list W) p :
  In p (combine labels (combine data weights)) ->
  exists i, nth_error labels i = Some (fst p) /\ nth_error data i = Some (fst (snd p)) /\ nth_error weights i = Some (snd (snd p)).
Proof.
  revert data weights. induction labels as [|l labels IH]; intros [|x data] [|w weights] H; cbn in H; try contradiction.
  destruct H as [<-|H]; [exists 0%nat; auto|]. destruct (IH _ _ H) as (i & E). now exists (S i).
Qed.

Section K.
Context {Data D W : Type}.
Variable ltb : D -> D -> bool.
Variable infinity : D.
Variable psort : nat -> list (Z * D) -> list (Z * D).
Hypothesis PS : partial_sort_contract ltb psort.
Variable dist : Data -> Data -> D.
Variable avg : list Data -> list W -> Data.
Variable weight : W -> R.
Variable cost : Data -> Data -> R.
Hypothesis EM : exact_means ltb dist avg weight cost.
Notation relabel := (relabel infinity psort dist avg).
Variables (data : list Data) (weights : list W) (n : nat).
Hypothesis LW : length weights = length data.
Hypothesis WP : forall w, In w weights -> (0 < weight w)%R.
Hypothesis Hn : (0 < n)%nat.
Notation F := (relabel data weights n).
Notation C := (centre avg data weights).
Notation triples l := (combine l (combine data weights)).
Notation isl := (labelling data n).

(** Total cost of an assignment. *)
Definition J (c : Z -> Data) (l : list Z) : R := sumR (fun p : Z * (Data * W) => (weight (snd (snd p)) * cost (c (fst p)) (fst (snd p)))%R) (triples l).
Notation G l := (J (C l) l).

Lemma J_group c l : isl l -> J c l = sumR (fun k => sumR (fun q : Data * W => (weight (snd q) * cost (c k) (fst q))%R) (members data weights l k)) (seqZ 0 (Z.of_nat n)).
Proof.
  intros [_ R]. unfold J, members. apply (group (fun k q => (weight (snd q) * cost (c k) (fst q))%R)).
  intros p Hp. apply R. destruct (in_combine3 _ _ _ _ Hp) as (i & E & _). exact (nth_error_In _ _ E).
Qed.
Lemma member_weights l k q : In q (members data weights l k) -> (0 < weight (snd q))%R.
Proof.
  unfold members. rewrite in_map_iff. intros (p & <- & H). apply filter_In in H as [H _].
  destruct (in_combine3 _ _ _ _ H) as (i & _ & _ & E). apply WP. exact (nth_error_In _ _ E).
Qed.
Lemma cluster_cost l k c :
  (sumR (fun q : Data * W => (weight (snd q) * cost (C l k) (fst q))%R) (members data weights l k) <=
   sumR (fun q : Data * W => (weight (snd q) * cost c (fst q))%R) (members data weights l k))%R /\
  (members data weights l k <> [] ->
   sumR (fun q : Data * W => (weight (snd q) * cost c (fst q))%R) (members data weights l k) =
   sumR (fun q : Data * W => (weight (snd q) * cost (C l k) (fst q))%R) (members data weights l k) -> c = C l k).
Proof.
  destruct (members data weights l k) as [|q qs] eqn:E; [split; [cbn; lra|congruence]|].
  destruct (em_minimal _ _ _ _ _ EM (members data weights l k)) with (c := c) as [A B]; [congruence|apply member_weights|].
  unfold centre. rewrite E in *. split; [exact A|intros _; exact B].
Qed.

(** One pass: the cost does not grow, *)
Lemma centre_at l k : 0 <= k < Z.of_nat n -> nth_error (map (C l) (seqZ 0 (Z.of_nat n))) (Z.to_nat k) = Some (C l k).
Proof. intros Hk. rewrite (map_nth_error _ _ _ (seqZ0_nth n (Z.to_nat k) ltac:(lia))). now rewrite Z2Nat.id by lia. Qed.
Lemma isl_F l : isl (F l).
Proof. exact (relabelled ltb infinity psort PS dist avg data weights n Hn l). Qed.
Lemma nearer l : isl l -> (J (C l) (F l) <= J (C l) l)%R.
Proof.
  intros [L R]. unfold J.
  assert (Gn : forall (l1 l2 : list Z) (dat : list Data) (ws : list W), length l1 = length dat -> length l2 = length dat -> length ws = length dat ->
    (forall i a b x w, nth_error l1 i = Some a -> nth_error l2 i = Some b -> nth_error dat i = Some x -> nth_error ws i = Some w ->
       (weight w * cost (C l a) x <= weight w * cost (C l b) x)%R) ->
    (sumR (fun p : Z * (Data * W) => (weight (snd (snd p)) * cost (C l (fst p)) (fst (snd p)))%R) (combine l1 (combine dat ws)) <=
     sumR (fun p : Z * (Data * W) => (weight (snd (snd p)) * cost (C l (fst p)) (fst (snd p)))%R) (combine l2 (combine dat ws)))%R).
  { clear. induction l1 as [|a l1 IH]; intros [|b l2] [|x dat] [|w ws]; intros L1 L2 L3 H; cbn in L1, L2, L3; try discriminate; [cbn; lra|].
    cbn [combine]. rewrite !sumR_cons. cbn [fst snd].
    pose proof (H 0%nat a b x w eq_refl eq_refl eq_refl eq_refl).
    pose proof (IH l2 dat ws ltac:(lia) ltac:(lia) ltac:(lia) (fun i => H (S i))). lra. }
  apply Gn; [apply isl_F|exact L|exact LW|]. intros i a b x w Ea Eb Ex Ew.
  apply Rmult_le_compat_l; [left; exact (WP w (nth_error_In _ _ Ew))|].
  assert (Rb := R b (nth_error_In _ _ Eb)).
  unfold KMeansProof.relabel in Ea. rewrite (map_nth_error _ _ _ Ex) in Ea. injection Ea as Ea.
  destruct (nearest_ok ltb infinity psort PS dist avg (map (C l) (seqZ 0 (Z.of_nat n))) x) as (_ & _ & Rn & c & Ec & NR).
  { intros E'. apply (f_equal (@length _)) in E'. rewrite map_length, seqZ0_len in E'. cbn in E'. lia. }
  rewrite Ea in *. rewrite map_length, seqZ0_len in Rn. rewrite (centre_at l a Rn) in Ec. injection Ec as <-.
  destruct (Z.eq_dec b a) as [->|NE]; [lra|].
  specialize (NR b (C l b) (proj1 Rb) NE (centre_at l b Rb)).
  destruct (Rle_or_lt (cost (C l a) x) (cost (C l b) x)) as [H|H]; [exact H|]. apply (em_order _ _ _ _ _ EM) in H. congruence.
Qed.
Lemma G_mono l : isl l -> (G (F l) <= G l)%R.
Proof.
  intros I. apply Rle_trans with (J (C l) (F l)); [|now apply nearer]. rewrite !J_group by apply isl_F. apply sumR_le. intros k _. apply cluster_cost.
Qed.
(** and when it stays the same each centre stays or becomes the average of
    nothing. *)
Notation e := (avg [] []).
Lemma G_same l : isl l -> G (F l) = G l -> forall k, 0 <= k < Z.of_nat n -> C (F l) k = C l k \/ C (F l) k = e.
Proof.
  intros I E k Hk.
  assert (E' : J (C (F l)) (F l) = J (C l) (F l)).
  { pose proof (nearer l I). assert ((J (C (F l)) (F l) <= J (C l) (F l))%R); [|lra].
    rewrite !J_group by apply isl_F. apply sumR_le. intros j _. apply cluster_cost. }
  rewrite !J_group in E' by apply isl_F.
  assert (T := sumR_eq _ _ _ (fun j _ => proj1 (cluster_cost (F l) j (C l j))) E' k ltac:(apply seqZ_in; lia)). cbv beta in T.
  destruct (members data weights (F l) k) as [|q qs] eqn:Em; [right; unfold centre; now rewrite Em|].
  left. symmetry. apply (proj2 (cluster_cost (F l) k (C l k))); [congruence|]. rewrite Em. now symmetry.
Qed.

(** All labellings. *)
Fixpoint all_labellings (m : nat) : list (list Z) :=
  match m with
  | O => [[]]
  | S m => flat_map (fun k => map (cons k) (all_labellings m)) (seqZ 0 (Z.of_nat n))
  end.
Lemma all_in m l : length l = m -> (forall k, In k l -> 0 <= k < Z.of_nat n) -> In l (all_labellings m).
Proof.
  revert l. induction m as [|m IH]; intros [|k l] L R; try discriminate L; [now left|]. cbn [all_labellings]. apply in_flat_map.
  exists k. split; [apply seqZ_in, R; now left|]. apply in_map, IH; [now injection L|]. intros; apply R; now right.
Qed.
Definition below (v : R) (l : list Z) : bool := if Rlt_dec (G l) v then true else false.
Definition rank (l : list Z) : nat := length (filter (below (G l)) (all_labellings (length data))).
Lemma filter_sub {A} (f g : A -> bool) l : (forall a, f a = true -> g a = true) -> (length (filter f l) <= length (filter g l))%nat.
Proof.
  intros H. induction l as [|a l IH]; [cbn; lia|]. cbn [filter]. destruct (f a) eqn:E; [rewrite (H a E); cbn; lia|]. destruct (g a); cbn; lia.
Qed.
Lemma filter_strict {A} (f g : A -> bool) l x : (forall a, f a = true -> g a = true) -> In x l -> f x = false -> g x = true ->
  (length (filter f l) < length (filter g l))%nat.
Proof.
  intros H I E1 E2. induction l as [|a l IH]; [destruct I|]. cbn [filter]. destruct I as [->|I].
  - rewrite E1, E2. cbn [length]. pose proof (filter_sub f g l H). lia.
  - specialize (IH I). destruct (f a) eqn:E; [rewrite (H a E); cbn; lia|]. destruct (g a); cbn; lia.
Qed.
Lemma rank_drop l : isl l -> (G (F l) < G l)%R -> (rank (F l) < rank l)%nat.
Proof.
  intros I H. unfold rank. apply (filter_strict _ _ _ (F l)).
  - intros a. unfold below. destruct (Rlt_dec (G a) (G (F l))); [|discriminate]. intros _. destruct (Rlt_dec (G a) (G l)); [reflexivity|lra].
  - apply all_in; apply isl_F.
  - unfold below. destruct (Rlt_dec _ _); [lra|reflexivity].
  - unfold below. destruct (Rlt_dec _ _); [reflexivity|lra].
Qed.

(** The clusters whose centre is not the average of nothing. *)
Definition covers (ks : list Z) (l : list Z) : Prop := forall k, 0 <= k < Z.of_nat n -> C l k <> e -> In k ks.
Definition still (m : nat) (l : list Z) : Prop := forall j, (j < m)%nat -> Nat.iter j F l <> Nat.iter (S j) F l.
Lemma still_S m l : still (S m) l -> l <> F l /\ still m (F l).
Proof.
  intros H. split; [exact (H 0%nat ltac:(lia))|]. intros j Hj. specialize (H (S j) ltac:(lia)).
  change (Nat.iter (S (S j)) F l) with (F (Nat.iter (S j) F l)) in H.
  assert (X : forall i, Nat.iter i F (F l) = Nat.iter (S i) F l) by (induction i as [|i IHi]; [reflexivity|change (F (Nat.iter i F (F l)) = F (Nat.iter (S i) F l)); now rewrite IHi]).
  rewrite (X j), (X (S j)). exact H.
Qed.
Lemma still_bound m : forall l ks, isl l -> NoDup ks -> (forall k, In k ks -> 0 <= k < Z.of_nat n) -> covers ks l -> still m l ->
  (m <= rank l * (n + 2) + length ks + 1)%nat.
Proof.
  induction m as [|m IH]; intros l ks I ND RK CV ST; [lia|]. apply still_S in ST as [NE ST].
  destruct (Rle_lt_or_eq_dec _ _ (G_mono l I)) as [LT|EQ].
  - pose proof (rank_drop l I LT) as RD.
    pose proof (IH (F l) (seqZ 0 (Z.of_nat n)) (isl_F l) (seqZ_nodup _ _) (fun k H => proj1 (seqZ_in _ _ _) H) (fun k Hk _ => proj2 (seqZ_in _ _ _) Hk) ST) as B.
    rewrite seqZ0_len in B. nia.
  - pose proof (G_same l I EQ) as GS.
    assert (SR : rank (F l) = rank l) by (unfold rank; now rewrite EQ).
    assert (CV' : covers ks (F l)).
    { intros k Hk N. apply CV; [exact Hk|]. intros E. destruct (GS k Hk) as [X|X]; [apply N; now rewrite X|contradiction]. }
    destruct (classic (exists k, In k ks /\ C (F l) k = e)) as [(k & Ik & Ek)|NX].
    + apply in_split in Ik as (a & b & ->).
      pose proof (IH (F l) (a ++ b) (isl_F l) (NoDup_remove_1 _ _ _ ND)) as B.
      rewrite SR in B. rewrite !app_length in *. cbn [length]. 
      assert (B' : (m <= rank l * (n + 2) + (length a + length b) + 1)%nat); [|lia]. apply B; [|intros j Hj N|exact ST].
      * intros j Hj. apply RK. apply in_app_iff in Hj. apply in_app_iff. cbn. tauto.
      * specialize (CV' j Hj N). apply in_app_iff in CV' as [X|[->|X]]; [apply in_app_iff; tauto|contradiction|apply in_app_iff; tauto].
    + assert (ALL : forall k, 0 <= k < Z.of_nat n -> C (F l) k = C l k).
      { intros k Hk. destruct (GS k Hk) as [X|X]; [exact X|]. destruct (classic (C l k = e)) as [Y|Y]; [congruence|].
        exfalso. apply NX. exists k. split; [now apply CV|exact X]. }
      assert (FF : F (F l) = F l).
      { unfold KMeansProof.relabel at 1. replace (map (C (F l)) (seqZ 0 (Z.of_nat n))) with (map (C l) (seqZ 0 (Z.of_nat n))); [reflexivity|].
        apply map_ext_in. intros k Hk. symmetry. apply ALL, seqZ_in, Hk. }
      destruct m as [|m]; [lia|]. exfalso. apply still_S in ST as [N _]. apply N. now symmetry.
Qed.
Definition most : nat := length (all_labellings (length data)) * (n + 2) + n + 1.
Lemma still_most m l : isl l -> still m l -> (m <= most)%nat.
Proof.
  intros I ST.
  pose proof (still_bound m l (seqZ 0 (Z.of_nat n)) I (seqZ_nodup _ _) (fun k H => proj1 (seqZ_in _ _ _) H) (fun k Hk _ => proj2 (seqZ_in _ _ _) Hk) ST) as B.
  rewrite seqZ0_len in B. unfold most.
  assert (rank l <= length (all_labellings (length data)))%nat; [|nia].
  unfold rank. generalize (all_labellings (length data)). induction l0 as [|a l0 IH]; [cbn; lia|]. cbn [filter]. destruct (below _ a); cbn; lia.
Qed.

Variable dflt : Data.
Variables (sp ob : bool) (team : nat) (nt : Z).
Notation runs := (loop_runs sp ob team nt).
Hypothesis Vn : valid_call nt 0 (Z.of_nat n) team.
Hypothesis Vd : valid_call nt 0 (size data) team.
Lemma passes_bound m l l' : isl l -> passes infinity psort dist avg dflt sp ob team nt data weights (Z.of_nat n) m l l' -> (m <= most)%nat.
Proof.
  intros I P. apply (still_most m l I). clear - PS LW Hn I P Vn Vd. 
  remember (Z.of_nat n) as K eqn:EK. revert I.
  induction P as [l|m l x1 x2 l1 last X1 X2 E P IH]; intros I; [intros j Hj; lia|]. subst K.
  rewrite (update_ok ltb infinity psort PS dist avg dflt sp ob team nt data weights n l x1 x2 Hn LW (proj1 I) (proj2 I) Vn Vd X1 X2) in E.
  destruct (list_eq_dec Z.eq_dec l (F l)) as [|NE]; [discriminate|]. injection E as <-. specialize (IH (relabelled ltb infinity psort PS dist avg data weights n Hn l)).
  intros [|j] Hj; [exact NE|].
  assert (X : forall i, Nat.iter i F (F l) = Nat.iter (S i) F l) by (induction i as [|i IHi]; [reflexivity|change (F (Nat.iter i F (F l)) = F (Nat.iter (S i) F l)); now rewrite IHi]).
  rewrite <- (X j), <- (X (S j)). apply IH. lia.
Qed.
Lemma converges_exists l : isl l -> exists r, converges infinity psort dist avg dflt sp ob team nt data weights (Z.of_nat n) l r.
Proof.
  assert (ST0 : forall m l, isl l -> still (S m) l \/ exists j, (j <= m)%nat /\ Nat.iter j F l = Nat.iter (S j) F l).
  { intros m l' _. destruct (classic (exists j, (j <= m)%nat /\ Nat.iter j F l' = Nat.iter (S j) F l')) as [X|X]; [now right|]. left.
    intros j Hj E. apply X. exists j. split; [lia|exact E]. }
  intros I. destruct (ST0 most l I) as [X|(j & _ & E)]; [apply still_most in X; [lia|exact I]|].
  destruct (index_loop_exists sp ob team nt (Z.of_nat n) Vn) as [x1 X1]. destruct (index_loop_exists sp ob team nt (size data) Vd) as [x2 X2].
  revert l I E. induction j as [|j IH]; intros l I E.
  - exists (Ok (F l)). apply (converged_now _ _ _ _ _ _ _ _ _ _ _ _ l x1 x2 (F l) X1 X2).
    rewrite (update_ok ltb infinity psort PS dist avg dflt sp ob team nt data weights n l x1 x2 Hn LW (proj1 I) (proj2 I) Vn Vd X1 X2).
    destruct (list_eq_dec Z.eq_dec l (F l)) as [|NE]; [reflexivity|contradiction].
  - destruct (list_eq_dec Z.eq_dec l (F l)) as [Q|NE].
    + exists (Ok (F l)). apply (converged_now _ _ _ _ _ _ _ _ _ _ _ _ l x1 x2 (F l) X1 X2).
      rewrite (update_ok ltb infinity psort PS dist avg dflt sp ob team nt data weights n l x1 x2 Hn LW (proj1 I) (proj2 I) Vn Vd X1 X2).
      destruct (list_eq_dec Z.eq_dec l (F l)); [reflexivity|contradiction].
    + assert (X : forall i, Nat.iter i F (F l) = Nat.iter (S i) F l) by (induction i as [|i IHi]; [reflexivity|change (F (Nat.iter i F (F l)) = F (Nat.iter (S i) F l)); now rewrite IHi]).
      destruct (IH (F l) (isl_F l)) as [r R]; [now rewrite (X j), (X (S j))|]. exists r.
      apply (converged_later _ _ _ _ _ _ _ _ _ _ _ _ l x1 x2 (F l) r X1 X2); [|exact R].
      rewrite (update_ok ltb infinity psort PS dist avg dflt sp ob team nt data weights n l x1 x2 Hn LW (proj1 I) (proj2 I) Vn Vd X1 X2).
      destruct (list_eq_dec Z.eq_dec l (F l)); [contradiction|reflexivity].
Qed.
Lemma from_exists centers : length centers = n -> exists r, cluster_from infinity psort dist avg dflt sp ob team nt data weights (Z.of_nat n) centers r.
Proof.
  intros L. assert (NE : centers <> []) by (intros ->; cbn in L; lia).
  destruct (index_loop_exists sp ob team nt (size data) Vd) as [x X].
  destruct (converges_exists (map (nearest infinity psort dist centers) data)) as [r R].
  { split; [apply map_length|]. intros l Hl. apply in_map_iff in Hl as (y & <- & _).
    destruct (nearest_ok ltb infinity psort PS dist avg centers y NE) as (_ & _ & Rg & _). now rewrite L in Rg. }
  exists r. apply (cluster_labelled _ _ _ _ _ _ _ _ _ _ _ _ _ x (map (nearest infinity psort dist centers) data) r); [lia|exact X| |exact R].
  exact (perform_ok ltb infinity psort PS dist avg sp ob team nt data centers x NE Vd X).
Qed.
Variable draw : Z -> nat -> Z.
Hypothesis DR : draws_in_range draw.
Hypothesis DE : draws_everything draw.
Lemma plain_exists : Z.of_nat n <= size data -> exists r, cluster_plain infinity psort dist avg dflt draw sp ob team nt data weights (Z.of_nat n) r.
Proof.
  intros H. assert (Hd : 0 < size data) by lia.
  destruct (drawing_stops draw (size data) Hd (Z.of_nat n) DE H) as [k Ek].
  destruct (elements_ok (fun i => raw_get data (Z.to_nat i)) (drawn draw (size data) k)) as (c & Ec & Lc).
  { intros i Hi. apply (proj2 (drawn_nodup draw DR (size data) Hd k)) in Hi. destruct (in_range_gets data i Hi) as [a E]. exists a. unfold raw_get. now rewrite E. }
  destruct (from_exists c) as [r R]; [rewrite Lc; pose proof (drawing_exact draw (size data) (Z.of_nat n) k (Zle_0_nat n) Ek); lia|].
  exists r. exact (plain_runs _ _ _ _ _ _ _ _ _ _ data weights (Z.of_nat n) k _ c r Ek (Zle_0_nat n) (Permutation_refl _) Ec R).
Qed.
End K.
