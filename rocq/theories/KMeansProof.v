From Coq Require Import Permutation.
From Verif Require Import Base ParallelismModel ParallelismSpec ParallelismProof KnnModel KnnSpec KnnProof DistModel DistProof ClusterModel ClusterProof KMeansModel KMeansSpec.
Local Open Scope Z_scope.
Notation size l := (Z.of_nat (length l)).

Lemma seqZ0_len n : length (seqZ 0 (Z.of_nat n)) = n.
Proof. pose proof (seqZ_length 0 (Z.of_nat n)). lia. Qed.
Lemma seqZ0_snoc n : seqZ 0 (Z.of_nat (S n)) = seqZ 0 (Z.of_nat n) ++ [Z.of_nat n].
Proof. rewrite (seqZ_split 0 (Z.of_nat n)) by lia. f_equal. replace (Z.of_nat (S n)) with (Z.of_nat n + 1) by lia. apply seqZ_one. Qed.
Lemma seqZ0_nth n k : (k < n)%nat -> nth_error (seqZ 0 (Z.of_nat n)) k = Some (Z.of_nat k).
Proof.
  induction n as [|n IH]; intros H; [lia|]. rewrite seqZ0_snoc.
  destruct (Nat.eq_dec k n) as [->|]; [rewrite nth_error_app2; rewrite seqZ0_len; [now rewrite Nat.sub_diag|lia]|].
  rewrite nth_error_app1 by (rewrite seqZ0_len; lia). apply IH. lia.
Qed.
(** Reading every element by index. *)
Lemma map_by_index {A B} (f : Z -> B) (g : A -> B) (l : list A) :
  (forall i a, 0 <= i -> nth_error l (Z.to_nat i) = Some a -> f i = g a) -> map f (seqZ 0 (size l)) = map g l.
Proof.
  intros H. apply nth_error_ext. intros k. destruct (lt_dec k (length l)) as [L|L].
  - rewrite (map_nth_error f k _ (seqZ0_nth _ _ L)). destruct (nth_error l k) as [a|] eqn:E; [|apply nth_error_None in E; lia].
    rewrite (map_nth_error g k _ E). f_equal. apply H; [lia|]. now rewrite Nat2Z.id.
  - assert (nth_error (map f (seqZ 0 (size l))) k = None) as -> by (apply nth_error_None; rewrite map_length, seqZ0_len; lia).
    symmetry. apply nth_error_None. rewrite map_length. lia.
Qed.

(** Calls that write each its own slot. *)
Lemma slots {A} (work : list A -> Z -> outcome (list A)) (f : Z -> A) (n : nat) (cs : list (Z * (Z * Z))) (init : list A) :
  (forall l i, length l = n -> 0 <= i < Z.of_nat n -> work l i = Ok (upd l (Z.to_nat i) (f i))) ->
  Permutation (map (fun c => fst (snd c)) cs) (seqZ 0 (Z.of_nat n)) -> length init = n ->
  mfold (fun l c => work l (fst (snd c))) init cs = Ok (map f (seqZ 0 (Z.of_nat n))).
Proof.
  intros W P L.
  assert (G : forall cs l, length l = n -> (forall c, In c cs -> 0 <= fst (snd c) < Z.of_nat n) ->
    exists l', mfold (fun l (c : Z * (Z * Z)) => work l (fst (snd c))) l cs = Ok l' /\ length l' = n /\
      forall k, (k < n)%nat -> nth_error l' k = (if existsb (fun c => fst (snd c) =? Z.of_nat k) cs then Some (f (Z.of_nat k)) else nth_error l k)).
  { clear P L. induction cs0 as [|c cs0 IH]; intros l L R; cbn [mfold].
    - exists l. split; [reflexivity|]. split; [exact L|]. reflexivity.
    - assert (Rc := R c (or_introl eq_refl)). rewrite (W l _ L Rc). cbn [bind].
      destruct (IH (upd l (Z.to_nat (fst (snd c))) (f (fst (snd c))))) as (l' & E & L' & N); [now rewrite upd_length|intros; apply R; now right|].
      exists l'. split; [exact E|]. split; [exact L'|]. intros k Hk. rewrite N by exact Hk. cbn [existsb].
      destruct (existsb _ cs0); [now rewrite orb_true_r|]. rewrite orb_false_r, nth_error_upd.
      destruct (Z.eqb_spec (fst (snd c)) (Z.of_nat k)) as [->|NE].
      + rewrite Nat2Z.id. destruct (Nat.eq_dec k k); [|lia]. destruct (lt_dec k (length l)); [reflexivity|lia].
      + destruct (Nat.eq_dec (Z.to_nat (fst (snd c))) k); [lia|reflexivity]. }
  destruct (G cs init L) as (l' & E & L' & N).
  { intros c Hc. apply seqZ_in. apply (Permutation_in _ P). apply in_map_iff. now exists c. }
  rewrite E. f_equal. apply nth_error_ext. intros k. destruct (lt_dec k n) as [Hk|Hk].
  - rewrite N by exact Hk. rewrite (map_nth_error f k _ (seqZ0_nth _ _ Hk)).
    assert (X : existsb (fun c : Z * (Z * Z) => fst (snd c) =? Z.of_nat k) cs = true); [|now rewrite X].
    apply existsb_exists. assert (I : In (Z.of_nat k) (map (fun c => fst (snd c)) cs)).
    { apply (Permutation_in _ (Permutation_sym P)). apply seqZ_in. lia. }
    apply in_map_iff in I as (c & Ec & I). exists c. split; [exact I|]. now rewrite Ec, Z.eqb_refl.
  - transitivity (@None A); [apply nth_error_None; lia|symmetry; apply nth_error_None; rewrite map_length, seqZ0_len; lia].
Qed.

Section K.
Context {Data D W : Type}.
Variable ltb : D -> D -> bool.
Variable infinity : D.
Variable psort : nat -> list (Z * D) -> list (Z * D).
Hypothesis PS : partial_sort_contract ltb psort.
Variable dist : Data -> Data -> D.
Variable avg : list Data -> list W -> Data.
Variable dflt : Data.
Variables (sp ob : bool) (team : nat) (nt : Z).
Notation runs := (loop_runs sp ob team nt).

(** The label of a point. *)
Definition nearest (centers : list Data) (x : Data) : Z :=
  match GetKNearestNeighborsSerial infinity centers (fun c => dist c x) psort 1 with
  | Ok ((i, _) :: _) => i | _ => 0 end.
Lemma nearest_ok centers x : centers <> [] ->
  exists d, GetKNearestNeighborsSerial infinity centers (fun c => dist c x) psort 1 = Ok [(nearest centers x, d)] /\
    0 <= nearest centers x < size centers /\
    exists c, nth_error centers (Z.to_nat (nearest centers x)) = Some c /\
      forall j c', 0 <= j -> j <> nearest centers x -> nth_error centers (Z.to_nat j) = Some c' -> ltb (dist c' x) (dist c x) = false.
Proof.
  intros NE. unfold nearest, GetKNearestNeighborsSerial. assert (0 < size centers) by (destruct centers; [congruence|cbn [length]; lia]).
  destruct (serial_nearest ltb infinity centers (fun c => dist c x) psort PS 0 (size centers) 1) as (sel & E & [S ND T NR _]); try lia.
  rewrite E. destruct sel as [|[i d] [|p sel]]; cbn [length] in S; try lia.
  destruct (T i d (or_introl eq_refl)) as (R & c & Ec & ->).
  exists (dist c x). split; [reflexivity|]. split; [exact R|]. exists c. split; [exact Ec|].
  intros j c' Hj NEj Ec'. refine (NR j c' _ Ec' _ i (dist c x) (or_introl eq_refl)).
  - split; [lia|]. assert (nth_error centers (Z.to_nat j) <> None) by congruence. apply nth_error_Some in H0. lia.
  - cbn [map fst In]. intuition congruence.
Qed.

Lemma perform_ok data centers x : centers <> [] -> valid_call nt 0 (size data) team -> runs (size data) x ->
  PerformSingleClusteringIteration infinity psort dist data centers x = Ok (map (nearest centers) data).
Proof.
  intros NE V X. destruct (index_execution_calls _ _ _ _ _ _ _ V X) as (Er & P & _).
  unfold PerformSingleClusteringIteration, after_loop. rewrite Er. cbn [bind].
  destruct data as [|x0 data0].
  { apply Permutation_sym in P. change (seqZ 0 (size [])) with (@nil Z) in P. apply Permutation_nil in P. apply map_eq_nil in P. rewrite P. reflexivity. }
  set (data := x0 :: data0) in *.
  rewrite (slots (label_item infinity psort dist data centers) (fun i => nearest centers (nth (Z.to_nat i) data x0)) (length data)).
  - f_equal. apply map_by_index. intros i a Hi E. f_equal. now apply nth_error_nth.
  - intros l i L Hi. unfold label_item.
    destruct (nth_error data (Z.to_nat i)) as [a|] eqn:E; [|apply nth_error_None in E; lia].
    rewrite (at_index_ok _ _ a) by (lia || exact E). cbn [bind].
    destruct (nearest_ok centers a NE) as (d & -> & _). cbn [bind at_get nth_error fst].
    rewrite set_index_ok by lia. f_equal. f_equal. rewrite (nth_error_nth _ _ x0 E). reflexivity.
  - exact P.
  - apply repeat_length.
Qed.

(** Distribution of the first [m] data over the clusters. *)
Section Centers.
Variables (data : list Data) (weights : list W) (labels : list Z) (n : nat).
Hypothesis LL : length labels = length data.
Hypothesis LW : length weights = length data.
Hypothesis RL : forall l, In l labels -> 0 <= l < Z.of_nat n.
Notation part m k := (map snd (filter (fun p : Z * (Data * W) => fst p =? k) (firstn m (combine labels (combine data weights))))).

Lemma distribute_prefix m : (m <= length data)%nat ->
  mfold (distribute data weights labels) (repeat [] n, repeat [] n) (seqZ 0 (Z.of_nat m)) =
  Ok (map (fun k => map fst (part m k)) (seqZ 0 (Z.of_nat n)), map (fun k => map snd (part m k)) (seqZ 0 (Z.of_nat n))).
Proof.
  induction m as [|m IH]; intros Hm.
  - change (seqZ 0 (Z.of_nat 0)) with (@nil Z). cbn [mfold firstn filter map]. f_equal.
    assert (E : forall A, repeat (@nil A) n = map (fun _ => []) (seqZ 0 (Z.of_nat n))).
    { intros A. rewrite <- (seqZ0_len n) at 1. generalize (seqZ 0 (Z.of_nat n)). induction l; cbn; congruence. }
    now rewrite !E.
  - rewrite seqZ0_snoc. rewrite mfold_app, IH by lia. cbn [bind mfold].
    destruct (nth_error data m) as [x|] eqn:Ex; [|apply nth_error_None in Ex; lia].
    destruct (nth_error weights m) as [w|] eqn:Ew; [|apply nth_error_None in Ew; lia].
    destruct (nth_error labels m) as [l|] eqn:El; [|apply nth_error_None in El; lia].
    assert (Rl := RL l (nth_error_In _ _ El)).
    assert (Ep : nth_error (combine labels (combine data weights)) m = Some (l, (x, w))).
    { clear - Ex Ew El. revert labels data weights Ex Ew El. induction m; intros [|a la] [|b lb] [|c lc]; cbn; try discriminate; [congruence|]. apply IHm. }
    assert (Ef : firstn (S m) (combine labels (combine data weights)) = firstn m (combine labels (combine data weights)) ++ [(l, (x, w))]).
    { clear - Ep. revert Ep. generalize (combine labels (combine data weights)). induction m; intros [|p q]; cbn; try discriminate; [congruence|]. intros H. f_equal. now apply IHm. }
    unfold distribute. unfold raw_get. rewrite Nat2Z.id, Ex. cbn [bind].
    rewrite (at_index_ok labels _ l) by (lia || (rewrite Nat2Z.id; exact El)). cbn [bind fst snd].
    assert (Hl : (Z.to_nat l < n)%nat) by lia.
    assert (N : forall B (f : Z -> B), nth_error (map f (seqZ 0 (Z.of_nat n))) (Z.to_nat l) = Some (f l)).
    { intros B f. rewrite (map_nth_error f _ _ (seqZ0_nth _ _ Hl)). now rewrite Z2Nat.id by lia. }
    rewrite (at_index_ok _ _ _ (proj1 Rl) (N _ _)). cbn [bind].
    rewrite set_index_ok by (rewrite map_length, seqZ0_len; lia). cbn [bind].
    rewrite (at_index_ok _ _ _ (proj1 Rl) (N _ _)). cbn [bind].
    rewrite (at_index_ok weights _ w) by (lia || (rewrite Nat2Z.id; exact Ew)). cbn [bind].
    rewrite set_index_ok by (rewrite map_length, seqZ0_len; lia). cbn [bind].
    assert (U : forall B (g : Data * W -> B) b, g (x, w) = b ->
      upd (map (fun k => map g (part m k)) (seqZ 0 (Z.of_nat n))) (Z.to_nat l) (map g (part m l) ++ [b]) = map (fun k => map g (part (S m) k)) (seqZ 0 (Z.of_nat n))).
    { intros B g b Eb. apply nth_error_ext. intros k. rewrite nth_error_upd, map_length, seqZ0_len.
      destruct (Nat.eq_dec (Z.to_nat l) k) as [<-|NE].
      - destruct (lt_dec _ n); [|lia]. rewrite N. rewrite Ef, filter_app. cbn [filter fst]. rewrite Z.eqb_refl, !map_app. cbn [map]. cbn [snd]. rewrite Eb. reflexivity.
      - destruct (lt_dec k n) as [Hk|Hk].
        + rewrite !(map_nth_error _ _ _ (seqZ0_nth _ _ Hk)). rewrite Ef, filter_app. cbn [filter fst].
          destruct (Z.eqb_spec l (Z.of_nat k)); [lia|]. now rewrite app_nil_r.
        + transitivity (@None (list B)); [|symmetry]; apply nth_error_None; rewrite map_length, seqZ0_len; lia. }
    rewrite (U _ fst x eq_refl), (U _ snd w eq_refl). reflexivity.
Qed.

Lemma compute_centers x : valid_call nt 0 (Z.of_nat n) team -> runs (Z.of_nat n) x ->
  ComputeClusterCentersWeighted avg dflt data weights labels (Z.of_nat n) x = Ok (map (centre avg data weights labels) (seqZ 0 (Z.of_nat n))).
Proof.
  intros V X. destruct (index_execution_calls _ _ _ _ _ _ _ V X) as (Er & P & _).
  unfold ComputeClusterCentersWeighted. rewrite LL, Z.eqb_refl. unfold new_vector.
  destruct (Z.ltb_spec (Z.of_nat n) 0); [lia|]. cbn [bind]. rewrite !Nat2Z.id, distribute_prefix by lia. cbn [bind].
  unfold after_loop. rewrite Er. cbn [bind].
  assert (Ef : firstn (length data) (combine labels (combine data weights)) = combine labels (combine data weights)).
  { apply firstn_all2. rewrite !combine_length. lia. }
  rewrite Ef.
  apply slots; [|exact P|apply repeat_length]. intros l i L Hi. unfold average_cluster. cbn [fst snd].
  assert (N : forall B (f : Z -> B), nth_error (map f (seqZ 0 (Z.of_nat n))) (Z.to_nat i) = Some (f i)).
  { intros B f. rewrite (map_nth_error f _ _ (seqZ0_nth n (Z.to_nat i) ltac:(lia))). now rewrite Z2Nat.id by lia. }
  rewrite (at_index_ok _ _ _ (proj1 Hi) (N _ _)). cbn [bind]. rewrite (at_index_ok _ _ _ (proj1 Hi) (N _ _)). cbn [bind].
  rewrite set_index_ok by lia. reflexivity.
Qed.
End Centers.

Lemma convergence_ok a b : length a = length b -> CheckForConvergence a b = Ok (if list_eq_dec Z.eq_dec a b then true else false).
Proof.
  intros L. unfold CheckForConvergence. rewrite L, Z.eqb_refl.
  assert (G : forall m, (m <= length b)%nat ->
    mfold (fun same idx => if negb same then Ok false else do u <- at_index a idx; do v <- at_index b idx; Ok (u =? v)) true (seqZ 0 (Z.of_nat m))
    = Ok (if list_eq_dec Z.eq_dec (firstn m a) (firstn m b) then true else false)).
  { induction m as [|m IH]; intros Hm; [reflexivity|]. rewrite seqZ0_snoc, mfold_app, IH by lia. cbn [bind mfold].
    destruct (nth_error a m) as [u|] eqn:Eu; [|apply nth_error_None in Eu; lia].
    destruct (nth_error b m) as [v|] eqn:Ev; [|apply nth_error_None in Ev; lia].
    assert (F : forall (l : list Z) y, nth_error l m = Some y -> firstn (S m) l = firstn m l ++ [y]).
    { clear. induction m; intros [|p q] y; cbn; try discriminate; [congruence|]. intros H. f_equal. now apply IHm. }
    rewrite (F _ _ Eu), (F _ _ Ev).
    destruct (list_eq_dec _ (firstn m a) (firstn m b)) as [E|NE]; cbn [negb bind].
    - rewrite (at_index_ok a _ u) by (lia || (rewrite Nat2Z.id; exact Eu)). rewrite (at_index_ok b _ v) by (lia || (rewrite Nat2Z.id; exact Ev)). cbn [bind].
      destruct (Z.eqb_spec u v) as [->|NE], (list_eq_dec _ _ _) as [E'|NE']; try reflexivity; exfalso.
      + apply NE'. now rewrite E.
      + apply NE. rewrite E in E'. apply app_inv_head in E'. congruence.
    - destruct (list_eq_dec _ _ _) as [E'|NE']; [|reflexivity]. exfalso. apply NE. apply app_inj_tail in E'. apply E'. }
  rewrite G by lia. rewrite !firstn_all2 by lia. reflexivity.
Qed.

(** One pass of the loop, as a function of the labels. *)
Definition relabel (data : list Data) (weights : list W) (n : nat) (labels : list Z) : list Z :=
  map (nearest (map (centre avg data weights labels) (seqZ 0 (Z.of_nat n)))) data.
Lemma relabel_ok data weights n labels : (0 < n)%nat -> length (relabel data weights n labels) = length data /\
  forall l, In l (relabel data weights n labels) -> 0 <= l < Z.of_nat n.
Proof.
  intros Hn. unfold relabel. split; [apply map_length|]. intros l Hl. apply in_map_iff in Hl as (x & <- & _).
  assert (L : length (map (centre avg data weights labels) (seqZ 0 (Z.of_nat n))) = n) by (rewrite map_length; apply seqZ0_len).
  destruct (nearest_ok (map (centre avg data weights labels) (seqZ 0 (Z.of_nat n))) x) as (_ & _ & R & _).
  { intros E. rewrite E in L. cbn in L. lia. }
  now rewrite L in R.
Qed.
Lemma update_ok data weights n labels x1 x2 : (0 < n)%nat -> length weights = length data -> length labels = length data ->
  (forall l, In l labels -> 0 <= l < Z.of_nat n) -> valid_call nt 0 (Z.of_nat n) team -> valid_call nt 0 (size data) team ->
  runs (Z.of_nat n) x1 -> runs (size data) x2 ->
  update infinity psort dist avg dflt data weights (Z.of_nat n) labels x1 x2 =
  Ok (if list_eq_dec Z.eq_dec labels (relabel data weights n labels) then true else false, relabel data weights n labels).
Proof.
  intros Hn LW LL R V1 V2 X1 X2. unfold update. rewrite (compute_centers data weights labels n LL LW R x1 V1 X1). cbn [bind].
  rewrite perform_ok; [|intros E; apply (f_equal (@length _)) in E; rewrite map_length, seqZ0_len in E; cbn in E; lia|exact V2|exact X2].
  cbn [bind]. fold (relabel data weights n labels). rewrite convergence_ok; [reflexivity|]. unfold relabel. now rewrite map_length.
Qed.
Lemma fixed_stable data weights n labels : (0 < n)%nat -> length labels = length data -> labels = relabel data weights n labels ->
  stable_assignment ltb dist avg data weights (Z.of_nat n) labels.
Proof.
  intros Hn L E. destruct (relabel_ok data weights n labels Hn) as [_ R]. constructor; [exact L|intros l Hl; apply R; now rewrite <- E|].
  intros i x l Ex El j Hj NE. pose proof El as El'. rewrite E in El'. unfold relabel in El'. rewrite (map_nth_error _ _ _ Ex) in El'. injection El' as El'.
  assert (N : forall k, 0 <= k < Z.of_nat n -> nth_error (map (centre avg data weights labels) (seqZ 0 (Z.of_nat n))) (Z.to_nat k) = Some (centre avg data weights labels k)).
  { intros k Hk. rewrite (map_nth_error _ _ _ (seqZ0_nth n (Z.to_nat k) ltac:(lia))). now rewrite Z2Nat.id by lia. }
  destruct (nearest_ok (map (centre avg data weights labels) (seqZ 0 (Z.of_nat n))) x) as (_ & _ & Rn & c & Ec & NR).
  { intros E'. apply (f_equal (@length _)) in E'. rewrite map_length, seqZ0_len in E'. cbn in E'. lia. }
  rewrite El' in *. rewrite map_length, seqZ0_len in Rn. rewrite (N l Rn) in Ec. injection Ec as <-.
  apply (NR j); [lia|exact NE|now apply N].
Qed.
End K.
