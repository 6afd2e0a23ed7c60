(** Property C169 (K-means and empty clusters).  Model in KMeansModel.v, vocabulary
    in KMeansSpec2.v. *)
From Coq Require Import Reals Lra Permutation.
From Verif Require Import Base ParallelismModel ParallelismSpec ParallelismProof KnnModel KnnSpec KnnProof KnnSort DistModel ClusterModel ClusterProof4 KMeansModel KMeansSpec KMeansSpec2 KMeansProof KMeansProof2 KMeansProof3 KMeansProof4 KMeansProof5 Prop_KMeans.
Local Open Scope Z_scope.

(** C169 (full claim: the averaging function is only asked for averages of at least
    one element, so what it does for none does not matter).  Proved for two clusters
    of data that are all different, with exact Euclidean means: whatever the weights,
    random draws, schedules and preliminary clustering, the results are the same for
    averaging functions that differ on empty clusters only. *)
Theorem C169_two_clusters_partial :
  forall (Data D W : Type) (ltb : D -> D -> bool) infinity psort, partial_sort_contract ltb psort ->
  forall (distance_fn : Data -> Data -> D) (weighted_average_fn weighted_average_fn' : list Data -> list W -> Data) weight cost,
  euclidean_means ltb distance_fn weighted_average_fn weight cost ->
  same_averages weighted_average_fn weighted_average_fn' ->
  forall default_data draw, draws_in_range draw ->
  forall spurious omp_in_build team num_threads data data_weights do_preliminary_clustering r,
  length data_weights = length data -> (forall w, In w data_weights -> (0 < weight w)%R) ->
  NoDup data -> valid_call num_threads 0 (Z.max 2 (size data)) team ->
  ClusterWeighted infinity psort distance_fn weighted_average_fn default_data draw spurious omp_in_build team num_threads
    data data_weights 2 do_preliminary_clustering r ->
  ClusterWeighted infinity psort distance_fn weighted_average_fn' default_data draw spurious omp_in_build team num_threads
    data data_weights 2 do_preliminary_clustering r.
Proof.
  intros Data D W ltb inf psort PS dist avg avg' weight cost EU AG dflt draw DR sp ob team nt data weights pre r LW WP ND V C.
  exact (weighted_same ltb inf psort PS dist avg avg' AG weight cost EU dflt sp ob team nt draw DR data weights pre r LW WP ND V C).
Qed.

(** Weighted means of integers; averages of nothing are [e]. *)
Definition int_mean (e : Z) (xs ws : list Z) : Z :=
  match xs with [] => e | _ :: _ => fold_right Z.add 0 (map (fun p => fst p * snd p) (combine xs ws)) / fold_right Z.add 0 ws end.
Lemma int_same e e' : same_averages (int_mean e) (int_mean e').
Proof. intros [|x xs] ws H; [congruence|reflexivity]. Qed.
Definition int_distance (a b : Z) : Z := Z.abs (a - b).

(** Results in the example below. *)
Section Runs.
Variables (e : Z) (data weights : list Z) (n : nat).
Hypothesis LW : length weights = length data.
Hypothesis Hn : (0 < n)%nat.
Hypothesis Vn : valid_call 1 0 (Z.of_nat n) 1.
Hypothesis Vd : valid_call 1 0 (size data) 1.
Notation F := (relabel 9999 full_sort int_distance (int_mean e) data weights n).
Fixpoint limit (k : nat) (l : list Z) : option (list Z) :=
  match k with O => None | S k => if list_eq_dec Z.eq_dec l (F l) then Some l else limit k (F l) end.
Notation conv := (converges 9999 full_sort int_distance (int_mean e) 0 false false 1 1 data weights (Z.of_nat n)).
Lemma limit_only k l l' r : labelling data n l -> limit k l = Some l' -> conv l r -> r = Ok l'.
Proof.
  intros L E H. revert k L E. induction H as [labels x1 x2 new X1 X2 U|labels x1 x2 new r X1 X2 U CV IH|labels x1 x2 o r X1 X2 U NO _]; intros k L E.
  all: rewrite (update_ok Z.ltb 9999 full_sort full_sort_contract int_distance (int_mean e) 0 false false 1 1 data weights n labels x1 x2 Hn LW (proj1 L) (proj2 L) Vn Vd X1 X2) in U.
  all: destruct k as [|k]; [discriminate E|]; cbn [limit] in E.
  - destruct (list_eq_dec Z.eq_dec labels (F labels)) as [Q|Q]; [|discriminate]. injection U as <-. injection E as <-. now f_equal.
  - destruct (list_eq_dec Z.eq_dec labels (F labels)) as [Q|Q]; [discriminate|]. injection U as <-.
    apply (IH k); [|exact E]. exact (relabelled Z.ltb 9999 full_sort full_sort_contract int_distance (int_mean e) data weights n Hn labels).
  - subst o. discriminate.
Qed.
Lemma limit_runs k l l' : labelling data n l -> limit k l = Some l' -> conv l (Ok l').
Proof.
  destruct (index_loop_exists false false 1 1 (Z.of_nat n) Vn) as [x1 X1]. destruct (index_loop_exists false false 1 1 (size data) Vd) as [x2 X2].
  revert l. induction k as [|k IH]; intros l L E; [discriminate E|]. cbn [limit] in E.
  pose proof (update_ok Z.ltb 9999 full_sort full_sort_contract int_distance (int_mean e) 0 false false 1 1 data weights n l x1 x2 Hn LW (proj1 L) (proj2 L) Vn Vd X1 X2) as U.
  destruct (list_eq_dec Z.eq_dec l (F l)) as [Q|Q].
  - injection E as <-. rewrite <- Q in U. exact (converged_now _ _ _ _ _ _ _ _ _ _ _ _ _ x1 x2 l X1 X2 U).
  - refine (converged_later _ _ _ _ _ _ _ _ _ _ _ _ _ x1 x2 (F l) (Ok l') X1 X2 U (IH (F l) _ E)).
    exact (relabelled Z.ltb 9999 full_sort full_sort_contract int_distance (int_mean e) data weights n Hn l).
Qed.
Definition start (centers : list Z) : list Z := map (nearest 9999 full_sort int_distance centers) data.
Lemma start_labelling centers : length centers = n -> labelling data n (start centers).
Proof.
  intros L. split; [apply map_length|]. intros l Hl. apply in_map_iff in Hl as (y & <- & _).
  destruct (nearest_ok Z.ltb 9999 full_sort full_sort_contract int_distance (int_mean e) centers y) as (_ & _ & R & _); [intros ->; cbn in L; lia|]. now rewrite L in R.
Qed.
Notation plain := (cluster_plain 9999 full_sort int_distance (int_mean e) 0 in_turn false false 1 1 data weights (Z.of_nat n)).
Notation get := (fun i => raw_get data (Z.to_nat i)).
Lemma plain_runs_to k m keys centers l' : drawing_ends in_turn (size data) (Z.of_nat n) k -> Permutation keys (drawn in_turn (size data) k) ->
  elements get keys = Ok centers -> length centers = n -> limit m (start centers) = Some l' -> plain (Ok l').
Proof.
  intros DE P Ec L E. refine (plain_runs _ _ _ _ _ _ _ _ _ _ _ _ _ k keys centers _ DE (Zle_0_nat n) P Ec _).
  destruct (index_loop_exists false false 1 1 (size data) Vd) as [x X].
  refine (cluster_labelled _ _ _ _ _ _ _ _ _ _ _ _ _ x (start centers) _ (f_equal Z.of_nat L) X _ (limit_runs m _ _ (start_labelling centers L) E)).
  apply (perform_ok Z.ltb 9999 full_sort full_sort_contract int_distance (int_mean e) false false 1 1 data centers x); [intros ->; cbn in L; lia|exact Vd|exact X].
Qed.
Lemma plain_only k (bad : list Z) : drawing_ends in_turn (size data) (Z.of_nat n) k -> length (drawn in_turn (size data) k) = n ->
  (forall keys, Permutation keys (drawn in_turn (size data) k) -> exists centers m l', elements get keys = Ok centers /\ length centers = n /\ limit m (start centers) = Some l' /\ l' <> bad) ->
  ~ plain (Ok bad).
Proof.
  intros DE LD G H.
  assert (UK : forall k', drawing_ends in_turn (size data) (Z.of_nat n) k' -> drawn in_turn (size data) k' = drawn in_turn (size data) k).
  { intros k' [A' B']. destruct DE as [A B]. destruct (lt_eq_lt_dec k k') as [[Lt|Eq]|Gt]; [|now subst|].
    - specialize (B' k Lt). lia.
    - specialize (B k' Gt). lia. }
  inversion H as [k' E Ln|k' keys centers r E H0 P Ec CF Er|k' keys o r E H0 P Ec NO Er]; subst.
  - rewrite (UK _ E) in P. destruct (G keys P) as (c & m & l' & Ec' & L & El & NB). rewrite Ec' in Ec. injection Ec as <-.
    inversion CF as [B|x labels r S X Ex CV|x o r S X Ex NO Er]; subst.
    + rewrite (perform_ok Z.ltb 9999 full_sort full_sort_contract int_distance (int_mean e) false false 1 1 data c x) in Ex; [|intros ->; cbn in L; lia|exact Vd|exact X].
      injection Ex as <-. pose proof (limit_only m _ l' _ (start_labelling c L) El CV) as Q. congruence.
    + rewrite (perform_ok Z.ltb 9999 full_sort full_sort_contract int_distance (int_mean e) false false 1 1 data c x) in NO; [discriminate|intros ->; cbn in L; lia|exact Vd|exact X].
  - rewrite (UK _ E) in P. destruct (G keys P) as (c & m & l' & Ec' & _). rewrite Ec' in NO. discriminate.
Qed.
End Runs.

Lemma two_keys (a b : Z) keys : Permutation keys [a; b] -> keys = [a; b] \/ keys = [b; a].
Proof.
  intros P. apply Permutation_sym, Permutation_length_2_inv in P. exact P.
Qed.
Lemma three_keys (a b c : Z) keys : Permutation keys [a; b; c] ->
  In keys [[a; b; c]; [a; c; b]; [b; a; c]; [b; c; a]; [c; a; b]; [c; b; a]].
Proof.
  intros P. pose proof (Permutation_length P) as L. destruct keys as [|x [|y [|z [|]]]]; try discriminate L.
  assert (Ix : In x [a; b; c]) by (apply (Permutation_in _ P); now left).
  destruct Ix as [<-|[<-|[<-|[]]]].
  - apply Permutation_cons_inv in P. destruct (two_keys _ _ _ P) as [E|E]; injection E as -> ->; cbn; tauto.
  - assert (Q : Permutation [y; z] [a; c]).
    { apply (Permutation_cons_inv (a := b)). rewrite P. apply perm_swap. }
    destruct (two_keys _ _ _ Q) as [E|E]; injection E as -> ->; cbn; tauto.
  - assert (Q : Permutation [y; z] [a; b]).
    { apply (Permutation_cons_inv (a := c)). rewrite P. exact (Permutation_sym (Permutation_cons_append [a; b] c)). }
    destruct (two_keys _ _ _ Q) as [E|E]; injection E as -> ->; cbn; tauto.
Qed.
Lemma small_valid n : 0 <= n <= 1000 -> valid_call 1 0 n 1.
Proof. exact (one_thread_valid n). Qed.

Lemma plain_of (inf : Z) psort dist avg dflt draw sp ob team nt (data : list Z) (weights : list Z) K l :
  ClusterWeighted inf psort dist avg dflt draw sp ob team nt data weights K false l -> early_result data K = None ->
  cluster_plain inf psort dist avg dflt draw sp ob team nt data weights K l.
Proof.
  intros C E0. destruct C as [r E|E Ov|r E _ C|k keys s sw labels x centers r E Ep|k keys s sw labels x o r E Ep|k keys s sw o r E Ep|k keys o r E Ep];
    [congruence|discriminate|exact C|discriminate|discriminate|discriminate|discriminate].
Qed.

(** Refuted for data with repetitions: of the two centres 5 and 5 one gets no
    element, and the result depends on its average. *)
Theorem C169_repeated_data_refuted :
  exists r, let run e := ClusterWeighted 9999 full_sort int_distance (int_mean e) 0 in_turn false false 1 1 [5; 5; 20] [1; 1; 1] 2 false in
  same_averages (int_mean 1000) (int_mean 5) /\ run 1000 (Ok r) /\ ~ run 5 (Ok r).
Proof.
  exists [0; 0; 0]. cbv zeta. split; [apply int_same|].
  assert (DE : drawing_ends in_turn (size [5; 5; 20]) (Z.of_nat 2) 2).
  { split; [cbn; lia|]. intros j Hj. destruct j as [|[|]]; cbn; lia. }
  split.
  - apply cw_plain; [reflexivity|reflexivity|].
    apply (plain_runs_to 1000 [5; 5; 20] [1; 1; 1] 2 eq_refl ltac:(lia) (small_valid 2 ltac:(lia)) (small_valid 3 ltac:(lia)) 2 5 [1; 0] [5; 5] [0; 0; 0] DE); reflexivity.
  - intros C. apply plain_of in C; [|reflexivity]. revert C.
    apply (plain_only 5 [5; 5; 20] [1; 1; 1] 2 eq_refl ltac:(lia) (small_valid 2 ltac:(lia)) (small_valid 3 ltac:(lia)) 2 [0; 0; 0] DE); [reflexivity|].
    intros keys P. destruct (two_keys 1 0 keys P) as [->| ->]; exists [5; 5], 5%nat, [1; 1; 0]; (split; [reflexivity|]); (split; [reflexivity|]); (split; [vm_compute; reflexivity|discriminate]).
Qed.

(** Refuted for three clusters of different data: the centres -11, 10 and 12 become
    -2, 5 and 12, and no element is nearest to 5. *)
Theorem C169_three_clusters_refuted :
  exists data weights r, NoDup data /\ (forall w, In w weights -> 0 < w) /\
  let run e := ClusterWeighted 9999 full_sort int_distance (int_mean e) 0 in_turn false false 1 1 data weights 3 false in
  same_averages (int_mean 1000) (int_mean 0) /\ run 1000 (Ok r) /\ ~ run 0 (Ok r).
Proof.
  exists [-11; 10; 12; -1; 0], [1; 10; 10; 9; 10], [0; 2; 2; 0; 0].
  split; [repeat constructor; cbn; intuition discriminate|]. split; [intros w Hw; cbn in Hw; lia|].
  cbv zeta. split; [apply int_same|].
  assert (DE : drawing_ends in_turn (size [-11; 10; 12; -1; 0]) (Z.of_nat 3) 3).
  { split; [cbn; lia|]. intros j Hj. destruct j as [|[|[|]]]; cbn; lia. }
  split.
  - apply cw_plain; [reflexivity|reflexivity|].
    apply (plain_runs_to 1000 [-11; 10; 12; -1; 0] [1; 10; 10; 9; 10] 3 eq_refl ltac:(lia) (small_valid 3 ltac:(lia)) (small_valid 5 ltac:(lia)) 3 9 [0; 1; 2] [-11; 10; 12] [0; 2; 2; 0; 0] DE); try reflexivity.
    apply (Permutation_rev [0; 1; 2]).
  - intros C. apply plain_of in C; [|reflexivity]. revert C.
    apply (plain_only 0 [-11; 10; 12; -1; 0] [1; 10; 10; 9; 10] 3 eq_refl ltac:(lia) (small_valid 3 ltac:(lia)) (small_valid 5 ltac:(lia)) 3 [0; 2; 2; 0; 0] DE); [reflexivity|].
    intros keys P. apply three_keys in P.
    assert (G : forall c l', length c = 3%nat -> elements (fun i => raw_get [-11; 10; 12; -1; 0] (Z.to_nat i)) keys = Ok c ->
      limit 0 [-11; 10; 12; -1; 0] [1; 10; 10; 9; 10] 3 9 (start [-11; 10; 12; -1; 0] c) = Some l' -> l' <> [0; 2; 2; 0; 0] ->
      exists centers m l', elements (fun i => raw_get [-11; 10; 12; -1; 0] (Z.to_nat i)) keys = Ok centers /\ length centers = 3%nat /\
        limit 0 [-11; 10; 12; -1; 0] [1; 10; 10; 9; 10] 3 m (start [-11; 10; 12; -1; 0] centers) = Some l' /\ l' <> [0; 2; 2; 0; 0]).
    { intros c l' A B C E. exists c, 9%nat, l'. repeat split; assumption. }
    cbn [In] in P. repeat destruct P as [<-|P]; try contradiction;
      (refine (G _ _ _ _ _ _); [|cbn; reflexivity|vm_compute; reflexivity|discriminate]; reflexivity).
Qed.

(** The hypotheses can be met: weighted means in space. *)
Section Space.
Local Open Scope R_scope.
Definition point : Type := (R * R * R)%type.
Definition p_cost (a x : point) : R :=
  let '(a1, a2, a3) := a in let '(x1, x2, x3) := x in (a1 - x1) * (a1 - x1) + (a2 - x2) * (a2 - x2) + (a3 - x3) * (a3 - x3).
Definition p_dist (a x : point) : R := sqrt (p_cost a x).
Definition p_mean (xs : list point) (ws : list R) : point :=
  (r_mean (map (fun x => fst (fst x)) xs) ws, r_mean (map (fun x => snd (fst x)) xs) ws, r_mean (map snd xs) ws).
Lemma p_cost_positive a x : 0 <= p_cost a x.
Proof. destruct a as [[a1 a2] a3], x as [[x1 x2] x3]. cbn. pose proof (Rle_0_sqr (a1 - x1)). pose proof (Rle_0_sqr (a2 - x2)). pose proof (Rle_0_sqr (a3 - x3)). unfold Rsqr in *. lra. Qed.
Lemma line_mean (g : point -> R) (xs : list (point * R)) a b : 0 < r_sum (@snd point R) xs ->
  let m := r_mean (map g (map fst xs)) (map snd xs) in
  r_sum (@snd point R) xs * ((a - m) * (a - m) - (b - m) * (b - m)) =
  r_sum (fun p => snd p * ((a - g (fst p)) * (a - g (fst p)) - (b - g (fst p)) * (b - g (fst p)))) xs.
Proof.
  intros WS m.
  assert (M : m * r_sum (@snd point R) xs = r_sum (fun p => snd p * g (fst p)) xs).
  { unfold m, r_mean.
    replace (r_sum (fun w => w) (map snd xs)) with (r_sum (@snd point R) xs) by (unfold r_sum; now rewrite map_map).
    replace (r_sum (fun p => snd p * fst p) (combine (map g (map fst xs)) (map snd xs))) with (r_sum (fun p => snd p * g (fst p)) xs).
    - field. lra.
    - clear. induction xs as [|[x w] xs IH]; [reflexivity|]. unfold r_sum in *. cbn [map combine fold_right fst snd]. now rewrite IH. }
  assert (E : r_sum (fun p => snd p * ((a - g (fst p)) * (a - g (fst p)) - (b - g (fst p)) * (b - g (fst p)))) xs =
              (a * a - b * b) * r_sum (@snd point R) xs - 2 * (a - b) * r_sum (fun p => snd p * g (fst p)) xs).
  { clear. induction xs as [|p xs IH]; unfold r_sum in *; cbn [map fold_right]; [lra|]. rewrite IH. lra. }
  rewrite E, <- M. ring.
Qed.
Lemma sum_split (f1 f2 f3 : point * R -> R) xs : r_sum (fun p => f1 p + f2 p + f3 p) xs = r_sum f1 xs + r_sum f2 xs + r_sum f3 xs.
Proof. induction xs as [|p xs IH]; unfold r_sum in *; cbn [map fold_right]; [lra|]. rewrite IH. lra. Qed.
Lemma p_euclid : euclidean_means r_ltb p_dist p_mean (fun w => w) p_cost.
Proof.
  constructor.
  - intros a b x. unfold r_ltb, p_dist. destruct (Rlt_dec _ _) as [L|L]; split; intros H; try reflexivity; try discriminate.
    + now apply sqrt_lt_0_alt in L.
    + exfalso. apply L. apply sqrt_lt_1_alt. split; [apply p_cost_positive|exact H].
  - apply p_cost_positive.
  - intros [[a1 a2] a3] [[x1 x2] x3]. cbn. split; intros H.
    + pose proof (Rle_0_sqr (a1 - x1)). pose proof (Rle_0_sqr (a2 - x2)). pose proof (Rle_0_sqr (a3 - x3)). unfold Rsqr in *.
      assert (A : forall u v : R, (u - v) * (u - v) = 0 -> u = v) by (intros u v Z; apply Rmult_integral in Z; lra).
      rewrite (A a1 x1), (A a2 x2), (A a3 x3) by lra. reflexivity.
    + injection H as -> -> ->. lra.
  - intros xs NE P mean [[a1 a2] a3] [[b1 b2] b3].
    assert (WS : 0 < r_sum (@snd point R) xs) by exact (sum_pos (fun w => w) xs NE P).
    pose proof (line_mean (fun x => fst (fst x)) xs a1 b1 WS) as L1. pose proof (line_mean (fun x => snd (fst x)) xs a2 b2 WS) as L2.
    pose proof (line_mean snd xs a3 b3 WS) as L3. cbv zeta in L1, L2, L3. unfold mean, p_mean, p_cost. cbv beta iota.
    change (fold_right Rplus 0 (map (fun p : point * R => snd p) xs)) with (r_sum (@snd point R) xs).
    match type of L1 with _ = ?r1 => match type of L2 with _ = ?r2 => match type of L3 with _ = ?r3 =>
      transitivity (r1 + r2 + r3); [rewrite <- L1, <- L2, <- L3; unfold point; ring|] end end end.
    rewrite <- (sum_split _ _ _ xs). unfold r_sum. f_equal. apply map_ext. intros [[[x1 x2] x3] w]. cbn [fst snd]. ring.
Qed.
End Space.
Example C169_nonvacuous :
  partial_sort_contract r_ltb (sort_by r_ltb) /\ euclidean_means r_ltb p_dist p_mean (fun w => w) p_cost /\ draws_in_range in_turn /\
  NoDup [(0, 0, 0); (1, 0, 0); (5, 1, 2)]%R /\ valid_call 1 0 (Z.max 2 3) 1.
Proof.
  split; [exact (sort_by_contract r_ltb r_order)|]. split; [exact p_euclid|]. split; [exact in_turn_range|].
  split; [|apply one_thread_valid; lia].
  assert (A : forall a b c a' b' c' : R, a <> a' -> (a, b, c) <> (a', b', c')) by (intros; congruence).
  repeat constructor; cbn [In]; intros H; repeat destruct H as [H|H]; try contradiction; revert H; apply A; lra.
Qed.

Print Assumptions C169_two_clusters_partial.
Print Assumptions C169_repeated_data_refuted.
Print Assumptions C169_three_clusters_refuted.
