From Coq Require Import Reals Lra Permutation.
From Verif Require Import Base ParallelismModel ParallelismSpec ParallelismProof KnnModel KnnSpec KnnProof DistModel DistProof ClusterModel ClusterProof ClusterProof4 KMeansModel KMeansSpec KMeansProof KMeansProof2 KMeansProof3.
Local Open Scope Z_scope.
Notation size l := (Z.of_nat (length l)).

Section K.
Context {Data D W : Type}.
Variable ltb : D -> D -> bool.
Variable infinity : D.
Variable psort : nat -> list (Z * D) -> list (Z * D).
Hypothesis PS : partial_sort_contract ltb psort.
Variable dist : Data -> Data -> D.
Variable avg : list Data -> list W -> Data.
Variable dflt : Data.
Variable draw : Z -> nat -> Z.
Hypothesis DR : draws_in_range draw.
Variables (sp ob : bool) (team : nat) (nt : Z).
Notation ClusterWeighted := (ClusterWeighted infinity psort dist avg dflt draw sp ob team nt).

(** More clusters than data: the drawing loop never ends. *)
Lemma weighted_stuck data weights K pre r : data <> [] -> size data < K -> 1 < K -> K * 5 <= int32_max \/ pre = false ->
  ~ ClusterWeighted data weights K pre r.
Proof.
  intros ND LK HK OV C.
  assert (E0 : early_result data K = None) by (apply early_none; repeat split; try assumption; lia).
  assert (Hd : 0 < size data) by (destruct data; [congruence|cbn [length]; lia]).
  assert (PRE : enable_preliminary pre data K = Ok true -> K * 5 <= subset_size data).
  { unfold enable_preliminary. destruct pre; [|discriminate]. destruct (_ && _); [|discriminate]. intros H. injection H as H. now apply Z.leb_le. }
  assert (SS : subset_size data <= size data) by (apply Z.div_le_upper_bound; lia).
  destruct C as [r E|E Ov|r E _ C|k keys s sw labels x centers r E Ep|k keys s sw labels x o r E Ep|k keys s sw o r E Ep|k keys o r E Ep];
    try (specialize (PRE Ep); lia); [congruence| |].
  - unfold enable_preliminary in Ov. destruct pre; [|discriminate]. destruct OV as [OV|OV]; [|discriminate].
    destruct (Z.leb_spec int32_min (K * 5)); [|unfold int32_min in *; lia]. destruct (Z.leb_spec (K * 5) int32_max); [discriminate|lia].
  - destruct C as [k DE|k keys c r DE|k keys o r DE]; pose proof (drawing_bounded draw DR (size data) Hd _ _ DE); lia.
Qed.

Variable weight : W -> R.
Variable cost : Data -> Data -> R.
Hypothesis EM : exact_means ltb dist avg weight cost.
Hypothesis DE : draws_everything draw.

Lemma elements_in {A} (get : Z -> outcome A) keys l a : elements get keys = Ok l -> In a l -> exists i, In i keys /\ get i = Ok a.
Proof.
  unfold elements. assert (G : forall keys l0, mfold (fun l i => do a <- get i; Ok (l ++ [a])) l0 keys = Ok l -> In a l -> In a l0 \/ exists i, In i keys /\ get i = Ok a).
  { clear. induction keys as [|i keys IH]; intros l0 E I; cbn [mfold] in E; [injection E as <-; now left|].
    destruct (get i) as [b| | |] eqn:Eb; try discriminate E. cbn [bind] in E. destruct (IH _ E I) as [H|(j & Hj & Ej)].
    - apply in_app_iff in H as [H|[<-|[]]]; [now left|]. right. exists i. split; [now left|exact Eb].
    - right. exists j. split; [now right|exact Ej]. }
  intros E I. destruct (G keys [] E I) as [[]|X]. exact X.
Qed.

Lemma weighted_exists data weights K pre : length weights = length data -> (forall w, In w weights -> (0 < weight w)%R) ->
  1 <= K <= size data -> K * 5 <= int32_max \/ pre = false -> valid_call nt 0 (Z.max K (size data)) team ->
  exists r, ClusterWeighted data weights K pre r.
Proof.
  intros LW WP HK OV V. assert (ND : data <> []) by (intros ->; cbn in HK; lia).
  destruct (Z.eq_dec K 1) as [->|N1].
  { exists (Ok (repeat 0 (length data))). apply cw_early. destruct data; [congruence|reflexivity]. }
  assert (E0 : early_result data K = None) by (apply early_none; repeat split; try assumption; lia).
  assert (VK : forall m, 0 <= m <= Z.max K (size data) -> valid_call nt 0 m team) by (intros m Hm; exact (valid_less _ _ _ _ V Hm)).
  destruct (Z_of_nat_complete K ltac:(lia)) as [n ->]. assert (Hn : (0 < n)%nat) by lia.
  assert (Vn := VK (Z.of_nat n) ltac:(lia)). assert (Vd := VK (size data) ltac:(lia)).
  assert (EP : enable_preliminary pre data (Z.of_nat n) = Ok false \/ enable_preliminary pre data (Z.of_nat n) = Ok true /\ Z.of_nat n * 5 <= subset_size data).
  { unfold enable_preliminary. destruct pre; [|now left]. destruct OV as [OV|OV]; [|discriminate].
    destruct (Z.leb_spec int32_min (Z.of_nat n * 5)); [|unfold int32_min in *; lia]. destruct (Z.leb_spec (Z.of_nat n * 5) int32_max); [cbn [andb]|lia].
    destruct (Z.leb_spec (Z.of_nat n * 5) (subset_size data)); auto. }
  destruct EP as [EP|[EP PR]].
  { destruct (plain_exists ltb infinity psort PS dist avg weight cost EM data weights n LW WP Hn dflt sp ob team nt Vn Vd draw DR DE ltac:(lia)) as [r R].
    exists r. now apply cw_plain. }
  assert (Hd : 0 < size data) by lia. pose proof (subset_size_ok data ND) as SS.
  destruct (drawing_stops draw (size data) Hd (subset_size data) DE ltac:(lia)) as [k Ek].
  set (keys := drawn draw (size data) k). assert (IR : forall i, In i keys -> 0 <= i < size data) by (apply (drawn_nodup draw DR (size data) Hd k)).
  destruct (elements_ok (at_index data) keys) as (s & Es & Ls).
  { intros i Hi. destruct (in_range_gets data i (IR i Hi)) as [a E]. exists a. apply at_index_ok; [|exact E]. apply IR in Hi. lia. }
  destruct (elements_ok (at_index weights) keys) as (sw & Esw & Lsw).
  { intros i Hi. pose proof (IR i Hi). destruct (in_range_gets weights i) as [a E]; [lia|]. exists a. apply at_index_ok; [lia|exact E]. }
  pose proof (drawing_exact draw (size data) (subset_size data) k ltac:(lia) Ek) as X. fold keys in X.
  assert (LSW : length sw = length s) by lia. assert (NS : s <> []) by (intros ->; cbn in Ls; lia).
  assert (Vs : valid_call nt 0 (size s) team) by (apply VK; lia).
  assert (WPs : forall w, In w sw -> (0 < weight w)%R).
  { intros w Hw. destruct (elements_in _ _ _ _ Esw Hw) as (i & _ & E). unfold at_index, at_get in E.
    destruct (i <? 0); [discriminate|]. destruct (nth_error weights (Z.to_nat i)) eqn:En; [|discriminate]. injection E as <-. apply WP. exact (nth_error_In _ _ En). }
  destruct (plain_exists ltb infinity psort PS dist avg weight cost EM s sw n LSW WPs Hn dflt sp ob team nt Vn Vs draw DR DE ltac:(lia)) as [rs Rs].
  assert (CS : cluster_simple infinity psort dist avg dflt draw sp ob team nt s sw (Z.of_nat n) rs).
  { apply simple_plain; [|exact Rs]. apply early_none; repeat split; try assumption; lia. }
  destruct (simple_stable ltb infinity psort PS dist avg dflt draw DR sp ob team nt s sw n rs LSW Hn NS Vn Vs CS) as (labels & -> & ST).
  destruct (index_loop_exists sp ob team nt (Z.of_nat n) Vn) as [x Xx].
  pose proof (compute_centers avg dflt sp ob team nt s sw labels n (sa_one_each _ _ _ _ _ _ _ ST) LSW (sa_range _ _ _ _ _ _ _ ST) x Vn Xx) as Ec.
  destruct (from_exists ltb infinity psort PS dist avg weight cost EM data weights n LW WP Hn dflt sp ob team nt Vn Vd (map (centre avg s sw labels) (seqZ 0 (Z.of_nat n)))) as [r R].
  { rewrite map_length. apply seqZ0_len. }
  exists r. exact (cw_preliminary _ _ _ _ _ _ _ _ _ _ data weights (Z.of_nat n) pre k keys s sw labels x _ r E0 EP Ek (Permutation_refl _) Es Esw CS (or_intror Xx) Ec R).
Qed.
End K.

(** Means of real numbers on a line. *)
Local Open Scope R_scope.
Definition r_ltb (a b : R) : bool := if Rlt_dec a b then true else false.
Definition r_dist (a x : R) : R := Rabs (a - x).
Definition r_sum {A} (f : A -> R) (l : list A) : R := fold_right Rplus 0 (map f l).
Definition r_mean (xs ws : list R) : R := r_sum (fun p => snd p * fst p) (combine xs ws) / r_sum (fun w => w) ws.
Lemma square_order a b : 0 <= a -> 0 <= b -> a < b <-> a * a < b * b.
Proof. intros A B. split; intros H; [nra|]. destruct (Rlt_or_le a b); [assumption|nra]. Qed.
Lemma r_exact : exact_means r_ltb r_dist r_mean (fun w => w) (fun a x => (a - x) * (a - x)).
Proof.
  constructor.
  - intros a b x. unfold r_ltb, r_dist. rewrite (Rsqr_abs (a - x) : (a - x) * (a - x) = _), (Rsqr_abs (b - x) : (b - x) * (b - x) = _).
    unfold Rsqr. rewrite <- (square_order (Rabs (a - x)) (Rabs (b - x)) (Rabs_pos _) (Rabs_pos _)).
    destruct (Rlt_dec _ _); split; intros; auto; discriminate.
  - intros xs NE P total mean c.
    assert (WS : 0 < r_sum (@snd R R) xs).
    { destruct xs as [|p xs]; [congruence|]. unfold r_sum. cbn [map fold_right]. pose proof (P p (or_introl eq_refl)).
      assert (0 <= fold_right Rplus 0 (map snd xs)); [|lra]. clear NE H. induction xs as [|q xs IH]; [cbn; lra|]. cbn [map fold_right].
      pose proof (P q (or_intror (or_introl eq_refl))). assert (0 <= fold_right Rplus 0 (map snd xs)); [|lra]. apply IH. intros r [<-|Hr]; apply P; [now left|right; now right]. }
    assert (T : forall c, total c = c * c * r_sum (@snd R R) xs - 2 * c * r_sum (fun p => snd p * fst p) xs + r_sum (fun p => snd p * (fst p * fst p)) xs).
    { intros c0. unfold total, r_sum. clear. induction xs as [|p xs IH]; cbn [map fold_right]; [lra|]. rewrite IH. lra. }
    assert (M : mean * r_sum (@snd R R) xs = r_sum (fun p => snd p * fst p) xs).
    { unfold mean, r_mean.
      replace (r_sum (fun w => w) (map snd xs)) with (r_sum (@snd R R) xs) by (unfold r_sum; now rewrite map_map).
      replace (combine (map fst xs) (map snd xs)) with xs by (clear; induction xs as [|[a b] xs IH]; cbn; congruence).
      field. lra. }
    assert (Q : total c = total mean + (c - mean) * (c - mean) * r_sum (@snd R R) xs).
    { rewrite !T, <- M. ring. }
    split; [rewrite Q; pose proof (Rle_0_sqr (c - mean)); unfold Rsqr in *; nra|].
    intros E. assert (Z0 : (c - mean) * (c - mean) = 0) by nra. nra.
Qed.
