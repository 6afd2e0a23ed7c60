(** Two clusters of different points never become empty. *)
From Coq Require Import Reals Lra Permutation.
From Verif Require Import Base ParallelismModel ParallelismSpec ParallelismProof KnnModel KnnSpec KnnProof DistModel DistProof ClusterModel ClusterProof KMeansModel KMeansSpec KMeansSpec2 KMeansProof KMeansProof2 KMeansProof3 KMeansProof4.
Local Open Scope Z_scope.
Notation size l := (Z.of_nat (length l)).

Section K.
Context {Data D W : Type}.
Variable ltb : D -> D -> bool.
Variable infinity : D.
Variable psort : nat -> list (Z * D) -> list (Z * D).
Hypothesis PS : partial_sort_contract ltb psort.
Variable dist : Data -> Data -> D.
Variables avg avg' : list Data -> list W -> Data.
Hypothesis AG : same_averages avg avg'.
Variable weight : W -> R.
Variable cost : Data -> Data -> R.
Hypothesis EU : euclidean_means ltb dist avg weight cost.
Variables (dflt : Data).
Variables (sp ob : bool) (team : nat) (nt : Z).

Lemma sum_neg {A} (f : A -> R) (l : list A) : (forall a, In a l -> (f a <= 0)%R) -> (sumR f l <= 0)%R /\ (forall a, In a l -> (f a < 0)%R -> (sumR f l < 0)%R).
Proof.
  induction l as [|a l IH]; intros H; [split; [cbn; lra|intros a []]|]. rewrite sumR_cons.
  destruct IH as [I1 I2]; [intros; apply H; now right|]. pose proof (H a (or_introl eq_refl)).
  split; [lra|]. intros b [<-|Hb] L; [lra|]. specialize (I2 b Hb L). lra.
Qed.
Lemma sum_pos (xs : list (Data * W)) : xs <> [] -> (forall p, In p xs -> (0 < weight (snd p))%R) -> (0 < sumR (fun p => weight (snd p)) xs)%R.
Proof.
  intros NE P. destruct xs as [|p xs]; [congruence|]. rewrite sumR_cons. pose proof (P p (or_introl eq_refl)).
  assert (0 <= sumR (fun p => weight (snd p)) xs)%R; [|lra].
  assert (Z0 : sumR (fun _ : Data * W => 0%R) xs = 0%R) by (clear; induction xs; [reflexivity|]; rewrite sumR_cons, IHxs; lra).
  rewrite <- Z0. apply sumR_le. intros q Hq. apply Rlt_le, P. now right.
Qed.
(** A mean is on the side of the averaged points. *)
Lemma mean_side (xs : list (Data * W)) a b : xs <> [] -> (forall p, In p xs -> (0 < weight (snd p))%R) ->
  (forall p, In p xs -> (cost a (fst p) <= cost b (fst p))%R) ->
  let m := avg (map fst xs) (map snd xs) in
  (cost a m <= cost b m)%R /\ ((exists p, In p xs /\ (cost a (fst p) < cost b (fst p))%R) -> (cost a m < cost b m)%R).
Proof.
  intros NE P S m. pose proof (eu_mean _ _ _ _ _ EU xs NE P a b) as E. cbv zeta in E. fold m in E.
  pose proof (sum_pos xs NE P) as SP. unfold sumR in SP.
  destruct (sum_neg (fun p : Data * W => (weight (snd p) * (cost a (fst p) - cost b (fst p)))%R) xs) as [N1 N2].
  { intros p Hp. pose proof (P p Hp). pose proof (S p Hp). nra. }
  unfold sumR in N1, N2. split; [nra|]. intros (p & Hp & L). specialize (N2 p Hp). assert (weight (snd p) * (cost a (fst p) - cost b (fst p)) < 0)%R by (pose proof (P p Hp); nra).
  specialize (N2 H). nra.
Qed.

Section Run.
Variables (data : list Data) (weights : list W).
Hypothesis LW : length weights = length data.
Hypothesis WP : forall w, In w weights -> (0 < weight w)%R.
Hypothesis Vn : valid_call nt 0 2 team.
Hypothesis Vd : valid_call nt 0 (size data) team.
Notation mem l k := (members data weights l k).
Notation C l k := (centre avg data weights l k).
Notation F := (relabel infinity psort dist avg data weights 2).
Notation F' := (relabel infinity psort dist avg' data weights 2).

(** The points labelled 0 are on one side of the points between [a] and [b], those
    labelled 1 on the other, and neither side is empty. *)
Definition parted (a b : Data) (l : list Z) : Prop :=
  labelling data 2 l /\
  (forall q, In q (mem l 0) -> (cost a (fst q) <= cost b (fst q))%R) /\ (forall q, In q (mem l 1) -> (cost b (fst q) <= cost a (fst q))%R) /\
  (exists q, In q (mem l 0) /\ (cost a (fst q) < cost b (fst q))%R) /\ (exists q, In q (mem l 1) /\ (cost b (fst q) < cost a (fst q))%R).

Lemma mem_weights l k q : In q (mem l k) -> (0 < weight (snd q))%R.
Proof.
  unfold members. rewrite in_map_iff. intros (p & <- & H). apply filter_In in H as [H _].
  destruct (in_combine3 _ _ _ _ H) as (i & _ & _ & E). apply WP. exact (nth_error_In _ _ E).
Qed.
Lemma parted_differ a b l : parted a b l -> C l 0 <> C l 1.
Proof.
  intros (L & S0 & S1 & (q0 & I0 & T0) & (q1 & I1 & T1)) E.
  destruct (mean_side (mem l 0) a b) as [_ A]; [intros X; rewrite X in I0; destruct I0|apply mem_weights|exact S0|].
  destruct (mean_side (mem l 1) b a) as [B _]; [intros X; rewrite X in I1; destruct I1|apply mem_weights|exact S1|].
  specialize (A (ex_intro _ q0 (conj I0 T0))). fold (C l 0) in A. fold (C l 1) in B. rewrite <- E in B. lra.
Qed.
(** Some point keeps its label. *)
Lemma stays l k a : mem l k <> [] -> C l k <> a -> exists q, In q (mem l k) /\ (cost (C l k) (fst q) < cost a (fst q))%R.
Proof.
  intros NE N. destruct (Exists_dec (fun q : Data * W => (cost (C l k) (fst q) < cost a (fst q))%R) (mem l k)) as [X|X].
  - intros q. apply Rlt_dec.
  - now apply Exists_exists in X.
  - exfalso. destruct (mean_side (mem l k) a (C l k) NE (mem_weights l k)) as [A _].
    { intros q Hq. destruct (Rlt_dec (cost (C l k) (fst q)) (cost a (fst q))) as [Y|Y]; [|lra]. exfalso. apply X, Exists_exists. now exists q. }
    fold (C l k) in A. pose proof (proj2 (eu_zero _ _ _ _ _ EU (C l k) (C l k)) eq_refl) as Z0. pose proof (eu_positive _ _ _ _ _ EU a (C l k)).
    apply N. symmetry. apply (eu_zero _ _ _ _ _ EU). lra.
Qed.

Lemma member_of (g : Data -> Z) q : In q (combine data weights) -> In q (mem (map g data) (g (fst q))).
Proof.
  intros I. unfold members. apply in_map_iff. exists (g (fst q), q). split; [reflexivity|]. apply filter_In. split; [|cbn [fst]; apply Z.eqb_refl].
  clear - I. revert weights I. induction data as [|x d IH]; intros [|w ws] I; cbn in *; try contradiction. destruct I as [<-|I]; [now left|right; now apply IH].
Qed.
Lemma member_inv (g : Data -> Z) k q : In q (mem (map g data) k) -> In q (combine data weights) /\ g (fst q) = k.
Proof.
  unfold members. rewrite in_map_iff. intros (p & <- & H). apply filter_In in H as [H E]. apply Z.eqb_eq in E.
  assert (G : In (snd p) (combine data weights) /\ fst p = g (fst (snd p))).
  { clear - H. revert weights H. induction data as [|x d IH]; intros [|w ws] H; cbn in *; try contradiction.
    destruct H as [<-|H]; [split; [now left|reflexivity]|]. destruct (IH _ H) as [A B]. split; [now right|exact B]. }
  split; [apply G|]. rewrite <- E. symmetry. apply G.
Qed.
Lemma mem_data l k q : In q (mem l k) -> In q (combine data weights).
Proof.
  unfold members. rewrite in_map_iff. intros (p & <- & H). apply filter_In in H as [H _]. destruct p as [a b]. exact (in_combine_r _ _ _ _ H).
Qed.
Lemma in_both x : In x data -> exists w, In (x, w) (combine data weights).
Proof.
  intros I. clear - LW I. revert weights LW I. induction data as [|y d IH]; intros [|w ws] L I; cbn in *; try contradiction; try discriminate.
  destruct I as [->|I]; [exists w; now left|]. destruct (IH ws ltac:(lia) I) as [w' H]. exists w'. now right.
Qed.

(** Labels of the nearer of two centres. *)
Lemma nearest_two a b x : 
  (nearest infinity psort dist [a; b] x = 0 /\ (cost a x <= cost b x)%R) \/ (nearest infinity psort dist [a; b] x = 1 /\ (cost b x <= cost a x)%R).
Proof.
  destruct (nearest_ok ltb infinity psort PS dist avg [a; b] x ltac:(discriminate)) as (d & _ & R & c & Ec & N).
  set (i := nearest infinity psort dist [a; b] x) in *. cbn [length] in R.
  assert (i = 0 \/ i = 1) as [E|E] by lia; rewrite E in *.
  - left. split; [reflexivity|]. injection Ec as <-. specialize (N 1 b ltac:(lia) ltac:(lia) eq_refl).
    destruct (Rlt_dec (cost b x) (cost a x)) as [X|X]; [|lra]. apply (eu_order _ _ _ _ _ EU) in X. congruence.
  - right. split; [reflexivity|]. injection Ec as <-. specialize (N 0 a ltac:(lia) ltac:(lia) eq_refl).
    destruct (Rlt_dec (cost a x) (cost b x)) as [X|X]; [|lra]. apply (eu_order _ _ _ _ _ EU) in X. congruence.
Qed.
Lemma parted_from a b x y : In x data -> In y data -> (cost a x < cost b x)%R -> (cost b y < cost a y)%R ->
  parted a b (map (nearest infinity psort dist [a; b]) data).
Proof.
  intros Ix Iy Lx Ly. unfold parted.
  split; [split; [apply map_length|intros l Hl; apply in_map_iff in Hl as (z & <- & _); destruct (nearest_two a b z) as [[-> _]|[-> _]]; lia]|].
  split; [intros q Hq; apply member_inv in Hq as [_ E]; destruct (nearest_two a b (fst q)) as [[E' H]|[E' H]]; [exact H|lia]|].
  split; [intros q Hq; apply member_inv in Hq as [_ E]; destruct (nearest_two a b (fst q)) as [[E' H]|[E' H]]; [lia|exact H]|].
  destruct (in_both x Ix) as [wx Hx], (in_both y Iy) as [wy Hy].
  split; [exists (x, wx)|exists (y, wy)]; (split; [|assumption]).
  - pose proof (member_of (nearest infinity psort dist [a; b]) (x, wx) Hx) as M. cbn [fst] in M.
    destruct (nearest_two a b x) as [[E' H]|[E' H]]; [now rewrite E' in M|lra].
  - pose proof (member_of (nearest infinity psort dist [a; b]) (y, wy) Hy) as M. cbn [fst] in M.
    destruct (nearest_two a b y) as [[E' H]|[E' H]]; [lra|now rewrite E' in M].
Qed.
Lemma parted_witnesses a b l : parted a b l ->
  exists x y, In x data /\ In y data /\ (cost (C l 0) x < cost (C l 1) x)%R /\ (cost (C l 1) y < cost (C l 0) y)%R.
Proof.
  intros P. pose proof (parted_differ a b l P) as N. destruct P as (L & _ & _ & (q0 & I0 & _) & (q1 & I1 & _)).
  destruct (stays l 0 (C l 1)) as (x & Ix & Tx); [intros X; rewrite X in I0; destruct I0|exact N|].
  destruct (stays l 1 (C l 0)) as (y & Iy & Ty); [intros X; rewrite X in I1; destruct I1|congruence|].
  apply mem_data in Ix, Iy. destruct x as [x wx], y as [y wy]. exists x, y.
  split; [exact (in_combine_l _ _ _ _ Ix)|]. split; [exact (in_combine_l _ _ _ _ Iy)|]. split; assumption.
Qed.
Lemma two_centres f l : map (centre f data weights l) (seqZ 0 (Z.of_nat 2)) = [centre f data weights l 0; centre f data weights l 1].
Proof. reflexivity. Qed.
Lemma parted_step a b l : parted a b l -> parted (C l 0) (C l 1) (F l).
Proof.
  intros P. destruct (parted_witnesses a b l P) as (x & y & Ix & Iy & Tx & Ty). unfold relabel. rewrite two_centres.
  exact (parted_from _ _ x y Ix Iy Tx Ty).
Qed.
Lemma same_centre a b l k : parted a b l -> k = 0 \/ k = 1 -> centre avg' data weights l k = C l k.
Proof.
  intros (_ & _ & _ & (q0 & I0 & _) & (q1 & I1 & _)) K. unfold centre. symmetry. apply AG. intros E. apply map_eq_nil in E.
  destruct K as [->| ->]; [rewrite E in I0; destruct I0|rewrite E in I1; destruct I1].
Qed.
Lemma same_step a b l : parted a b l -> F' l = F l.
Proof. intros P. unfold relabel. rewrite !two_centres. now rewrite !(same_centre a b l) by (tauto || exact P). Qed.

Notation conv f := (converges infinity psort dist f dflt sp ob team nt data weights 2).
Lemma converges_same l r : conv avg l r -> forall a b, parted a b l -> conv avg' l r.
Proof.
  intros H. induction H as [labels x1 x2 new X1 X2 E|labels x1 x2 new r X1 X2 E CV IH|labels x1 x2 o r X1 X2 E NO _]; intros a b P.
  all: pose proof (proj1 P) as L; change 2 with (Z.of_nat 2) in E.
  all: rewrite (update_ok ltb infinity psort PS dist avg dflt sp ob team nt data weights 2 labels x1 x2 ltac:(lia) LW (proj1 L) (proj2 L) Vn Vd X1 X2) in E.
  all: pose proof (update_ok ltb infinity psort PS dist avg' dflt sp ob team nt data weights 2 labels x1 x2 ltac:(lia) LW (proj1 L) (proj2 L) Vn Vd X1 X2) as E'.
  all: try rewrite (same_step a b labels P) in E'.
  - rewrite E in E'. exact (converged_now _ _ _ _ _ _ _ _ _ _ _ _ _ x1 x2 new X1 X2 E').
  - rewrite E in E'. refine (converged_later _ _ _ _ _ _ _ _ _ _ _ _ _ x1 x2 new r X1 X2 E' _).
    injection E as _ <-. exact (IH _ _ (parted_step a b labels P)).
  - subst o. discriminate.
Qed.
Lemma converges_parted l r : conv avg l r -> forall a b, parted a b l -> exists l' a' b', r = Ok l' /\ parted a' b' l'.
Proof.
  intros H. induction H as [labels x1 x2 new X1 X2 E|labels x1 x2 new r X1 X2 E CV IH|labels x1 x2 o r X1 X2 E NO _]; intros a b P.
  all: pose proof (proj1 P) as L; change 2 with (Z.of_nat 2) in E.
  all: rewrite (update_ok ltb infinity psort PS dist avg dflt sp ob team nt data weights 2 labels x1 x2 ltac:(lia) LW (proj1 L) (proj2 L) Vn Vd X1 X2) in E.
  - injection E as _ <-. eexists _, _, _. split; [reflexivity|exact (parted_step a b labels P)].
  - injection E as _ <-. exact (IH _ _ (parted_step a b labels P)).
  - subst o. discriminate.
Qed.

Notation from f := (cluster_from infinity psort dist f dflt sp ob team nt data weights 2).
Lemma from_same a b x y r : In x data -> In y data -> (cost a x < cost b x)%R -> (cost b y < cost a y)%R ->
  from avg [a; b] r -> from avg' [a; b] r /\ exists l' a' b', r = Ok l' /\ parted a' b' l'.
Proof.
  intros Ix Iy Lx Ly H. pose proof (parted_from a b x y Ix Iy Lx Ly) as P.
  destruct H as [B|z labels r S X E CV|z o r S X E NO _]; [cbn in B; lia| |].
  all: pose proof E as E2; rewrite (perform_ok ltb infinity psort PS dist avg sp ob team nt data [a; b] z ltac:(discriminate) Vd X) in E2.
  - injection E2 as <-. split; [|exact (converges_parted _ r CV a b P)].
    refine (cluster_labelled _ _ _ _ _ _ _ _ _ _ _ _ _ z _ r S X E _). exact (converges_same _ r CV a b P).
  - rewrite <- E2 in NO. discriminate NO.
Qed.

Variable draw : Z -> nat -> Z.
Hypothesis DR : draws_in_range draw.
Hypothesis ND : NoDup data.

Lemma elements_each {A} (get : Z -> outcome A) keys l : elements get keys = Ok l -> Forall2 (fun i a => get i = Ok a) keys l.
Proof.
  unfold elements. assert (G : forall keys l0 l, mfold (fun l i => do a <- get i; Ok (l ++ [a])) l0 keys = Ok l -> exists l1, l = l0 ++ l1 /\ Forall2 (fun i a => get i = Ok a) keys l1).
  { clear. induction keys as [|i keys IH]; intros l0 l E; cbn [mfold] in E; [injection E as <-; exists []; split; [now rewrite app_nil_r|constructor]|].
    destruct (get i) as [b| | |] eqn:Eb; try discriminate E. cbn [bind] in E. destruct (IH _ _ E) as (l1 & -> & H).
    exists (b :: l1). split; [now rewrite <- app_assoc|]. constructor; assumption. }
  intros E. destruct (G keys [] l E) as (l1 & -> & H). exact H.
Qed.

Notation plain f := (cluster_plain infinity psort dist f dflt draw sp ob team nt data weights 2).
Lemma plain_same r : data <> [] -> plain avg r -> plain avg' r /\ exists l' a' b', r = Ok l' /\ parted a' b' l'.
Proof.
  intros NE H. assert (Hd : 0 < size data) by (destruct data; [congruence|cbn [length]; lia]).
  destruct H as [k E L|k keys centers r E H0 P Ec CF|k keys o r E _ P Ec NO _]; [lia| |].
  - destruct (drawn_nodup draw DR (size data) Hd k) as [NK RK].
    assert (NKk : NoDup keys) by exact (Permutation_NoDup (Permutation_sym P) NK).
    assert (LK : length keys = 2%nat).
    { rewrite (Permutation_length P). pose proof (drawing_exact draw (size data) 2 k ltac:(lia) E). lia. }
    pose proof (elements_each _ _ _ Ec) as F2. destruct keys as [|i [|j [|]]]; try discriminate LK.
    inversion F2 as [|? a ? l1 Ei F2' A1 A2]; subst. inversion F2' as [|? b ? l2 Ej F2'' A1 A2]; subst. inversion F2''; subst.
    assert (IJ : i <> j) by (inversion NKk; cbn in *; intuition congruence).
    assert (Ri : 0 <= i < size data) by (apply RK, (Permutation_in _ P); now left).
    assert (Rj : 0 <= j < size data) by (apply RK, (Permutation_in _ P); right; now left).
    unfold raw_get in Ei, Ej. destruct (nth_error data (Z.to_nat i)) as [a0|] eqn:Ea; [|discriminate Ei]. injection Ei as ->.
    destruct (nth_error data (Z.to_nat j)) as [b0|] eqn:Eb; [|discriminate Ej]. injection Ej as ->.
    assert (AB : a <> b).
    { intros ->. apply IJ. assert (Z.to_nat i = Z.to_nat j); [|lia]. apply (proj1 (NoDup_nth_error data) ND); [lia|congruence]. }
    assert (ZZ : forall u, cost u u = 0%R) by (intros u; now apply (eu_zero _ _ _ _ _ EU)).
    assert (PP : forall u v, u <> v -> (0 < cost u v)%R).
    { intros u v UV. destruct (eu_positive _ _ _ _ _ EU u v) as [Q|Q]; [exact Q|]. exfalso. apply UV. now apply (eu_zero _ _ _ _ _ EU). }
    destruct (from_same a b a b r) as [S1 S2]; [exact (nth_error_In _ _ Ea)|exact (nth_error_In _ _ Eb)|rewrite ZZ; apply PP; congruence|rewrite ZZ; apply PP; congruence|exact CF|].
    split; [|exact S2]. exact (plain_runs _ _ _ _ _ _ _ _ _ _ _ _ _ k [i; j] [a; b] r E H0 P Ec S1).
  - exfalso. assert (G : exists l, elements (fun i => raw_get data (Z.to_nat i)) keys = Ok l /\ length l = length keys).
    { apply elements_ok. intros i Hi. pose proof (keys_range draw DR data k keys Hd P i Hi) as R.
      destruct (in_range_gets data i R) as [a Ea]. exists a. unfold raw_get. now rewrite Ea. }
    destruct G as (l & El & _). rewrite El in Ec. subst o. discriminate.
Qed.
Notation simple f := (cluster_simple infinity psort dist f dflt draw sp ob team nt data weights 2).
Lemma simple_same r : data <> [] -> simple avg r -> simple avg' r /\ exists l' a' b', r = Ok l' /\ parted a' b' l'.
Proof.
  intros NE [r' E|r' E H].
  - exfalso. unfold early_result in E. destruct data; [congruence|discriminate].
  - destruct (plain_same r' NE H) as [A B]. split; [now apply simple_plain|exact B].
Qed.
End Run.

Lemma forall2_length {A B} (R : A -> B -> Prop) l l' : Forall2 R l l' -> length l = length l'.
Proof. induction 1; cbn; congruence. Qed.

Variable draw : Z -> nat -> Z.
Hypothesis DR : draws_in_range draw.
Theorem weighted_same data weights pre r : length weights = length data -> (forall w, In w weights -> (0 < weight w)%R) ->
  NoDup data -> valid_call nt 0 (Z.max 2 (size data)) team ->
  ClusterWeighted infinity psort dist avg dflt draw sp ob team nt data weights 2 pre r ->
  ClusterWeighted infinity psort dist avg' dflt draw sp ob team nt data weights 2 pre r.
Proof.
  intros LW WP NDd V H.
  assert (VK : forall m, 0 <= m <= Z.max 2 (size data) -> valid_call nt 0 m team) by (intros m Hm; exact (valid_less _ _ _ _ V Hm)).
  assert (V2 := VK 2 ltac:(lia)). assert (Vd := VK (size data) ltac:(lia)).
  assert (PREP : forall k keys s sw, early_result data 2 = None -> drawing_ends draw (size data) (subset_size data) k -> Permutation keys (drawn draw (size data) k) ->
    elements (at_index data) keys = Ok s -> elements (at_index weights) keys = Ok sw ->
    NoDup s /\ length sw = length s /\ (forall w, In w sw -> (0 < weight w)%R) /\ (forall u, In u s -> In u data) /\ s <> [] /\ valid_call nt 0 (size s) team).
  { intros k keys s sw E DE P Es Esw. apply early_none in E as (NE & _).
    assert (Hd : 0 < size data) by (destruct data; [congruence|cbn [length]; lia]).
    destruct (drawn_nodup draw DR (size data) Hd k) as [NK RK].
    assert (NKk : NoDup keys) by exact (Permutation_NoDup (Permutation_sym P) NK).
    pose proof (elements_each _ _ _ Es) as F1. pose proof (elements_each _ _ _ Esw) as F2.
    pose proof (forall2_length _ _ _ F1) as L1. pose proof (forall2_length _ _ _ F2) as L2.
    pose proof (subset_size_ok data NE) as SS.
    pose proof (drawing_exact draw (size data) (subset_size data) k ltac:(lia) DE) as X0. rewrite <- (Permutation_length P), L1 in X0.
    assert (Rk : forall i, In i keys -> 0 <= i < size data) by (intros i Hi; apply RK; exact (Permutation_in _ P Hi)).
    assert (NS : NoDup s).
    { clear - F1 NKk NDd Rk. induction F1 as [|i a keys s G F1 IH]; constructor.
      - intros I. inversion NKk as [|? ? NI NK']; subst.
        assert (exists j, In j keys /\ at_index data j = Ok a) as (j & Ij & Gj).
        { clear - F1 I. induction F1 as [|j b keys s G F1 IH]; [destruct I|]. destruct I as [->|I]; [exists j; split; [now left|exact G]|]. destruct (IH I) as (j' & A & B). exists j'. split; [now right|exact B]. }
        apply NI. assert (i = j); [|congruence]. pose proof (Rk i (or_introl eq_refl)). pose proof (Rk j (or_intror Ij)).
        unfold at_index in G, Gj. destruct (i <? 0) eqn:?, (j <? 0) eqn:?; try discriminate; try lia.
        unfold at_get in G, Gj. destruct (nth_error data (Z.to_nat i)) as [u|] eqn:Eu; [|discriminate]. destruct (nth_error data (Z.to_nat j)) as [v|] eqn:Ev; [|discriminate].
        assert (Z.to_nat i = Z.to_nat j); [|lia]. apply (proj1 (NoDup_nth_error data) NDd); [lia|congruence].
      - apply IH; [now inversion NKk|intros j Ij; apply Rk; now right]. }
    assert (LSW : length sw = length s) by lia.
    assert (WS : forall w, In w sw -> (0 < weight w)%R).
    { intros w Iw. destruct (elements_in _ _ _ _ Esw Iw) as (i & Ii & Gi). apply WP. unfold at_index in Gi. destruct (i <? 0); [discriminate|].
      unfold at_get in Gi. destruct (nth_error weights (Z.to_nat i)) eqn:En; [|discriminate]. injection Gi as ->. exact (nth_error_In _ _ En). }
    assert (IS : forall u, In u s -> In u data).
    { intros u Iu. destruct (elements_in _ _ _ _ Es Iu) as (i & Ii & Gi). unfold at_index in Gi. destruct (i <? 0); [discriminate|].
      unfold at_get in Gi. destruct (nth_error data (Z.to_nat i)) eqn:En; [|discriminate]. injection Gi as ->. exact (nth_error_In _ _ En). }
    assert (NEs : s <> []) by (intros ->; cbn in X0; lia).
    assert (Vs : valid_call nt 0 (size s) team) by (apply VK; lia).
    exact (conj NS (conj LSW (conj WS (conj IS (conj NEs Vs))))). }
  destruct H as [r E|E Ov|r E Ep H|k keys s sw labels x centers r E Ep DE P Es Esw CS X Ec CF|k keys s sw labels x o r E Ep DE P Es Esw CS X Ec NO R0|k keys s sw o r E Ep DE P Es Esw CS NO R0|k keys o r E Ep DE P Eo NO R0].
  - now apply cw_early.
  - now apply cw_overflow.
  - apply cw_plain; [exact E|exact Ep|]. apply early_none in E as (NE & _). exact (proj1 (plain_same data weights LW WP V2 Vd draw DR NDd r NE H)).
  - destruct (PREP k keys s sw E DE P Es Esw) as (NS & LSW & WS & IS & NEs & Vs).
    destruct (simple_same s sw LSW WS V2 Vs draw DR NS (Ok labels) NEs CS) as (CS' & l' & a' & b' & El & PT). injection El as <-.
    destruct X as [X|X]; [lia|]. pose proof PT as (LB & _).
    change 2 with (Z.of_nat 2) in Ec, X.
    rewrite (compute_centers avg dflt sp ob team nt s sw labels 2 (proj1 LB) LSW (proj2 LB) x V2 X) in Ec. injection Ec as <-.
    change 2 with (Z.of_nat 2) in CF at 1. change (map (centre avg s sw labels) (seqZ 0 (Z.of_nat 2))) with [centre avg s sw labels 0; centre avg s sw labels 1] in CF. destruct (parted_witnesses s sw WS a' b' labels PT) as (u & v & Iu & Iv & Tu & Tv).
    destruct (from_same data weights LW WP V2 Vd _ _ u v r (IS u Iu) (IS v Iv) Tu Tv CF) as [CF' _].
    refine (cw_preliminary _ _ _ _ _ _ _ _ _ _ _ _ _ _ k keys s sw labels x _ r E Ep DE P Es Esw CS' (or_intror X) _ CF').
    change 2 with (Z.of_nat 2). rewrite (compute_centers avg' dflt sp ob team nt s sw labels 2 (proj1 LB) LSW (proj2 LB) x V2 X), two_centres.
    now rewrite !(same_centre s sw a' b' labels) by (tauto || exact PT).
  - exfalso. destruct (PREP k keys s sw E DE P Es Esw) as (NS & LSW & WS & IS & NEs & Vs).
    destruct (simple_same s sw LSW WS V2 Vs draw DR NS (Ok labels) NEs CS) as (CS' & l' & a' & b' & El & PT). injection El as <-.
    destruct X as [X|X]; [lia|]. pose proof PT as (LB & _). change 2 with (Z.of_nat 2) in Ec, X.
    rewrite (compute_centers avg dflt sp ob team nt s sw labels 2 (proj1 LB) LSW (proj2 LB) x V2 X) in Ec. subst o. discriminate.
  - exfalso. destruct (PREP k keys s sw E DE P Es Esw) as (NS & LSW & WS & IS & NEs & Vs).
    destruct (simple_same s sw LSW WS V2 Vs draw DR NS o NEs CS) as (CS' & l' & a' & b' & -> & PT). discriminate.
  - exact (cw_preliminary_subset _ _ _ _ _ _ _ _ _ _ _ _ _ _ k keys o r E Ep DE P Eo NO R0).
Qed.
End K.
