From Coq Require Import Permutation.
From Verif Require Import Base ParallelismModel ParallelismSpec ParallelismProof KnnModel KnnSpec KnnProof DistModel DistProof ClusterModel ClusterProof ClusterProof4 KMeansModel KMeansSpec KMeansProof.
Local Open Scope Z_scope.
Notation size l := (Z.of_nat (length l)).

Section Draw.
Variable draw : Z -> nat -> Z.
Hypothesis DR : draws_in_range draw.
Variable n : Z.
Hypothesis Hn : 0 < n.
Notation drawn := (drawn draw n).

Lemma drawn_nodup k : NoDup (drawn k) /\ (forall i, In i (drawn k) -> 0 <= i < n).
Proof.
  induction k as [|k [ND R]]; cbn [KMeansModel.drawn]; [split; [constructor|intros i []]|].
  destruct (existsb (Z.eqb (draw n k)) (drawn k)) eqn:E; [auto|]. split.
  - constructor; [|exact ND]. intros I. assert (X : existsb (Z.eqb (draw n k)) (drawn k) = true); [|congruence].
    apply existsb_exists. exists (draw n k). split; [exact I|apply Z.eqb_refl].
  - intros i [<-|I]; [now apply DR|now apply R].
Qed.
Lemma drawn_size k : size (drawn k) <= n.
Proof.
  destruct (drawn_nodup k) as [ND R]. pose proof (NoDup_incl_length ND (l' := seqZ 0 n)) as H.
  assert (L : (length (drawn k) <= length (seqZ 0 n))%nat) by (apply H; intros i Hi; apply seqZ_in, R, Hi).
  pose proof (seqZ_length 0 n). lia.
Qed.
Lemma drawn_step k : size (drawn k) <= size (drawn (S k)) <= size (drawn k) + 1.
Proof. cbn [KMeansModel.drawn]. destruct (existsb _ _); cbn [length]; lia. Qed.
Lemma drawing_exact target k : 0 <= target -> drawing_ends draw n target k -> size (drawn k) = target.
Proof.
  intros H [A B]. destruct k as [|k]; [cbn in *; lia|]. pose proof (B k ltac:(lia)). pose proof (drawn_step k). lia.
Qed.
Lemma drawing_bounded target k : drawing_ends draw n target k -> target <= n.
Proof. intros [A _]. pose proof (drawn_size k). lia. Qed.
Lemma drawn_incl k i : (exists j, (j < k)%nat /\ draw n j = i) -> In i (drawn k).
Proof.
  intros (j & Hj & <-). induction k as [|k IH]; [lia|]. cbn [KMeansModel.drawn].
  destruct (Nat.eq_dec j k) as [->|].
  - destruct (existsb (Z.eqb (draw n k)) (drawn k)) eqn:E; [|now left]. apply existsb_exists in E as (i & I & E). apply Z.eqb_eq in E. now rewrite E.
  - specialize (IH ltac:(lia)). destruct (existsb _ _); [exact IH|now right].
Qed.
Lemma drawing_stops target : draws_everything draw -> target <= n -> exists k, drawing_ends draw n target k.
Proof.
  intros DE Ht.
  assert (B : forall m, (m <= Z.to_nat n)%nat -> exists k, forall i, 0 <= i < Z.of_nat m -> exists j, (j < k)%nat /\ draw n j = i).
  { induction m as [|m IH]; intros Hm; [exists 0%nat; intros; lia|]. destruct IH as [k Hk]; [lia|].
    destruct (DE n (Z.of_nat m) ltac:(lia)) as [j Hj]. exists (Nat.max k (S j)). intros i Hi.
    destruct (Z.eq_dec i (Z.of_nat m)) as [->|]; [exists j; split; [lia|exact Hj]|].
    destruct (Hk i ltac:(lia)) as (j' & L & E). exists j'. split; [lia|exact E]. }
  destruct (B (Z.to_nat n) (le_n _)) as [k Hk].
  assert (S : target <= size (drawn k)).
  { assert (L : (length (seqZ 0 n) <= length (drawn k))%nat).
    { apply NoDup_incl_length; [apply seqZ_nodup|]. intros i Hi. apply seqZ_in in Hi. apply drawn_incl. apply Hk. lia. }
    pose proof (seqZ_length 0 n). lia. }
  clear B Hk. induction k as [|k IH].
  - exists 0%nat. split; [exact S|intros; lia].
  - destruct (Z_le_gt_dec target (size (drawn k))) as [L|L]; [now apply IH|].
    exists (Datatypes.S k). split; [exact S|]. intros j Hj.
    assert (M : forall a b, (a <= b)%nat -> size (drawn a) <= size (drawn b)).
    { intros a b Hab. induction Hab as [|b Hab IHb]; [lia|]. pose proof (drawn_step b). lia. }
    pose proof (M j k ltac:(lia)). lia.
Qed.
End Draw.

Lemma elements_ok {A} (get : Z -> outcome A) keys : (forall i, In i keys -> exists a, get i = Ok a) ->
  exists l, elements get keys = Ok l /\ length l = length keys.
Proof.
  intros H. unfold elements.
  assert (G : forall keys l0, (forall i, In i keys -> exists a, get i = Ok a) ->
    exists l, mfold (fun l i => do a <- get i; Ok (l ++ [a])) l0 keys = Ok l /\ length l = (length l0 + length keys)%nat).
  { clear. induction keys as [|i keys IH]; intros l0 H; cbn [mfold]; [exists l0; split; [reflexivity|cbn; lia]|].
    destruct (H i (or_introl eq_refl)) as [a E]. rewrite E. cbn [bind].
    destruct (IH (l0 ++ [a])) as (l & E' & L); [intros; apply H; now right|]. exists l. split; [exact E'|]. rewrite L, app_length. cbn [length]. lia. }
  apply (G keys []), H.
Qed.
Lemma in_range_gets {A} (l : list A) i : 0 <= i < size l -> exists a, nth_error l (Z.to_nat i) = Some a.
Proof. intros H. destruct (nth_error l (Z.to_nat i)) as [a|] eqn:E; [now exists a|]. apply nth_error_None in E. lia. Qed.

Lemma valid_less nt team a b : valid_call nt 0 a team -> 0 <= b <= a -> valid_call nt 0 b team.
Proof. unfold valid_call. intuition lia. Qed.

Section K.
Context {Data D W : Type}.
Variable ltb : D -> D -> bool.
Variable infinity : D.
Variable psort : nat -> list (Z * D) -> list (Z * D).
Hypothesis PS : partial_sort_contract ltb psort.
Variable dist : Data -> Data -> D.
Variable avg : list Data -> list W -> Data.
Variable dflt : Data.
Variable draw : Z -> nat -> Z.
Hypothesis DR : draws_in_range draw.
Variables (sp ob : bool) (team : nat) (nt : Z).
Notation runs := (loop_runs sp ob team nt).
Notation stable := (stable_assignment ltb dist avg).
Notation converges := (converges infinity psort dist avg dflt sp ob team nt).
Notation cluster_from := (cluster_from infinity psort dist avg dflt sp ob team nt).
Notation cluster_plain := (cluster_plain infinity psort dist avg dflt draw sp ob team nt).
Notation cluster_simple := (cluster_simple infinity psort dist avg dflt draw sp ob team nt).
Notation ClusterWeighted := (ClusterWeighted infinity psort dist avg dflt draw sp ob team nt).
Notation relabel := (relabel infinity psort dist avg).

Definition labelling (data : list Data) (n : nat) (labels : list Z) : Prop :=
  length labels = length data /\ forall l, In l labels -> 0 <= l < Z.of_nat n.

Section From.
Variables (data : list Data) (weights : list W) (n : nat).
Hypothesis LW : length weights = length data.
Hypothesis Hn : (0 < n)%nat.
Hypothesis Vn : valid_call nt 0 (Z.of_nat n) team.
Hypothesis Vd : valid_call nt 0 (size data) team.

Lemma relabelled labels : labelling data n (relabel data weights n labels).
Proof. exact (relabel_ok ltb infinity psort PS dist avg data weights n labels Hn). Qed.

Lemma converges_stable labels r : labelling data n labels -> converges data weights (Z.of_nat n) labels r ->
  exists l, r = Ok l /\ stable data weights (Z.of_nat n) l.
Proof.
  intros L C. induction C as [labels x1 x2 new X1 X2 E|labels x1 x2 new r X1 X2 E C IH|labels x1 x2 o r X1 X2 E NO _].
  all: rewrite (update_ok ltb infinity psort PS dist avg dflt sp ob team nt data weights n labels x1 x2 Hn LW (proj1 L) (proj2 L) Vn Vd X1 X2) in E.
  - destruct (list_eq_dec Z.eq_dec labels (relabel data weights n labels)) as [F|F]; [|discriminate]. injection E as <-.
    exists (relabel data weights n labels). split; [reflexivity|]. rewrite <- F.
    apply (fixed_stable ltb infinity psort PS dist avg); [exact Hn|apply L|exact F].
  - injection E as _ <-. apply IH, relabelled.
  - subst o. discriminate.
Qed.

Lemma from_stable centers r : length centers = n -> cluster_from data weights (Z.of_nat n) centers r ->
  exists l, r = Ok l /\ stable data weights (Z.of_nat n) l.
Proof.
  intros L C. assert (NE : centers <> []) by (intros ->; cbn in L; lia).
  destruct C as [B|x labels r _ X E C|x o r _ X E NO _]; [lia| |].
  - rewrite (perform_ok ltb infinity psort PS dist avg sp ob team nt data centers x NE Vd X) in E. injection E as <-.
    refine (converges_stable _ r _ C). split; [apply map_length|]. intros l Hl. apply in_map_iff in Hl as (y & <- & _).
    destruct (nearest_ok ltb infinity psort PS dist avg centers y NE) as (_ & _ & R & _). now rewrite L in R.
  - rewrite (perform_ok ltb infinity psort PS dist avg sp ob team nt data centers x NE Vd X) in E. subst o. discriminate.
Qed.

Lemma keys_range k keys : 0 < size data -> Permutation keys (drawn draw (size data) k) -> forall i, In i keys -> 0 <= i < size data.
Proof. intros Hd P i Hi. apply (proj2 (drawn_nodup draw DR (size data) Hd k)). exact (Permutation_in _ P Hi). Qed.

Lemma plain_stable r : data <> [] -> cluster_plain data weights (Z.of_nat n) r ->
  Z.of_nat n <= size data /\ exists l, r = Ok l /\ stable data weights (Z.of_nat n) l.
Proof.
  intros ND C. assert (Hd : 0 < size data) by (destruct data; [congruence|cbn [length]; lia]).
  assert (G : forall k keys, Permutation keys (drawn draw (size data) k) -> exists l, elements (fun i => raw_get data (Z.to_nat i)) keys = Ok l /\ length l = length keys).
  { intros k keys P. apply elements_ok. intros i Hi. pose proof (keys_range k keys Hd P i Hi) as R.
    destruct (in_range_gets data i R) as [a E]. exists a. unfold raw_get. now rewrite E. }
  destruct C as [k E L|k keys centers r E _ P Ec C|k keys o r E _ P Ec NO _].
  - lia.
  - split; [exact (drawing_bounded draw DR _ Hd _ _ E)|]. destruct (G k keys P) as (l & El & L). rewrite El in Ec. injection Ec as <-.
    refine (from_stable l r _ C). rewrite L, (Permutation_length P). pose proof (drawing_exact draw _ _ _ (Zle_0_nat n) E). lia.
  - destruct (G k keys P) as (l & El & L). rewrite El in Ec. subst o. discriminate.
Qed.
End From.

Lemma plain_negative data weights K r : K < 0 -> cluster_plain data weights K r -> r = Throw LengthError.
Proof. intros H C. destruct C; try lia. reflexivity. Qed.

(** The early returns. *)
Lemma early_none (data : list Data) K : early_result data K = None <-> data <> [] /\ K <> 1 /\ K <> 0.
Proof.
  clear. unfold early_result. destruct data as [|x data]; [split; [discriminate|intros [H _]; congruence]|].
  destruct (Z.eqb_spec K 1) as [->|]; [split; [discriminate|intuition lia]|].
  destruct (Z.eqb_spec K 0) as [->|]; [split; [discriminate|intuition lia]|]. split; [intros _|reflexivity]. split; [discriminate|]. lia.
Qed.
Lemma early_stable data weights K r : 0 < K \/ data = [] -> early_result data K = Some r ->
  exists l, r = Ok l /\ stable data weights K l.
Proof.
  intros HK E. unfold early_result in E. destruct data as [|x data].
  - injection E as <-. exists []. split; [reflexivity|]. constructor; [reflexivity|intros l []|]. intros [|i] y l Ey; discriminate Ey.
  - destruct HK as [HK|]; [|discriminate]. destruct (Z.eqb_spec K 1) as [->|].
    + injection E as <-. exists (repeat 0 (length (x :: data))). split; [reflexivity|]. constructor.
      * apply repeat_length.
      * intros l Hl. apply repeat_spec in Hl. lia.
      * intros i y l _ El j Hj NE. apply nth_error_In, repeat_spec in El. lia.
    + destruct (Z.eqb_spec K 0); [lia|discriminate].
Qed.

Lemma simple_stable data weights n r : length weights = length data -> (0 < n)%nat -> data <> [] ->
  valid_call nt 0 (Z.of_nat n) team -> valid_call nt 0 (size data) team ->
  cluster_simple data weights (Z.of_nat n) r -> exists l, r = Ok l /\ stable data weights (Z.of_nat n) l.
Proof.
  intros LW Hn ND Vn Vd [r' E|r' E C]; [now apply early_stable; [lia|]|]. now apply (plain_stable data weights n LW Hn Vn Vd r').
Qed.

Lemma subset_size_ok data : (data : list Data) <> [] -> 0 < subset_size data <= size data.
Proof.
  intros ND. assert (0 < size data) by (destruct data; [congruence|cbn [length]; lia]). unfold subset_size.
  split; [apply Z.div_str_pos; lia|]. apply Z.div_le_upper_bound; lia.
Qed.

Lemma weighted_stable data weights K pre r :
  length weights = length data -> 0 < K \/ data = [] -> K * 5 <= int32_max \/ pre = false \/ data = [] ->
  valid_call nt 0 (Z.max K (size data)) team ->
  ClusterWeighted data weights K pre r ->
  (exists l, r = Ok l /\ stable data weights K l) /\ (data <> [] -> K <> 1 -> K <= size data).
Proof.
  intros LW HK OV V C.
  assert (ES : early_result data K = None -> 2 <= K /\ data <> [] /\ exists n, K = Z.of_nat n /\ (0 < n)%nat).
  { intros E. apply early_none in E as (ND & N1 & N0). split; [intuition lia|]. split; [exact ND|]. exists (Z.to_nat K). intuition lia. }
  assert (VK : forall m, 0 <= m <= Z.max K (size data) -> valid_call nt 0 m team) by (intros m Hm; exact (valid_less _ _ _ _ V Hm)).
  assert (PRE : enable_preliminary pre data K = Ok true -> K * 5 <= subset_size data).
  { unfold enable_preliminary. destruct pre; [|discriminate]. destruct (_ && _); [|discriminate]. intros H. injection H as H. now apply Z.leb_le. }
  assert (G : forall k keys, data <> [] -> Permutation keys (drawn draw (size data) k) ->
    drawing_ends draw (size data) (subset_size data) k ->
    exists s sw, elements (at_index data) keys = Ok s /\ elements (at_index weights) keys = Ok sw /\ length s = length keys /\ length sw = length keys /\ size s = subset_size data).
  { intros k keys ND P DE. assert (Hd : 0 < size data) by (destruct data; [congruence|cbn [length]; lia]).
    assert (IR : forall i, In i keys -> 0 <= i < size data) by (intros i Hi; apply (proj2 (drawn_nodup draw DR (size data) Hd k)); exact (Permutation_in _ P Hi)).
    destruct (elements_ok (at_index data) keys) as (s & Es & Ls).
    { intros i Hi. destruct (in_range_gets data i (IR i Hi)) as [a E]. exists a. apply at_index_ok; [|exact E]. apply IR in Hi. lia. }
    destruct (elements_ok (at_index weights) keys) as (sw & Esw & Lsw).
    { intros i Hi. pose proof (IR i Hi). destruct (in_range_gets weights i) as [a E]; [lia|]. exists a. apply at_index_ok; [lia|exact E]. }
    exists s, sw. repeat (split; [assumption|]). rewrite Ls, (Permutation_length P). apply (drawing_exact draw _ _ _); [|exact DE].
    pose proof (subset_size_ok data ND). lia. }
  destruct C as [r E|E Ov|r E _ C|k keys s sw labels x centers r E Ep DE P Es Esw CS X Ec C|k keys s sw labels x o r E Ep DE P Es Esw CS X Ec NO _|k keys s sw o r E Ep DE P Es Esw CS NO _|k keys o r E Ep DE P Eo NO _].
  - split; [now apply early_stable|]. intros ND N1. exfalso. destruct HK as [HK|HK]; [|congruence].
    assert (X : early_result data K = None) by (apply early_none; repeat split; try assumption; lia). congruence.
  - exfalso. destruct (ES E) as (H2 & ND & _). unfold enable_preliminary in Ov. destruct pre; [|discriminate].
    destruct OV as [OV|[OV|OV]]; [|discriminate|congruence].
    destruct (Z.leb_spec int32_min (K * 5)); [|unfold int32_min in *; lia]. destruct (Z.leb_spec (K * 5) int32_max); [discriminate|lia].
  - destruct (ES E) as (H2 & ND & n & -> & Hn).
    destruct (plain_stable data weights n LW Hn (VK (Z.of_nat n) ltac:(lia)) (VK (size data) ltac:(lia)) r ND C) as (L & R). split; [exact R|intros _ _; exact L].
  - destruct (ES E) as (H2 & ND & n & -> & Hn). destruct (G k keys ND P DE) as (s' & sw' & E1 & E2 & L1 & L2 & L3).
    rewrite E1 in Es. injection Es as <-. rewrite E2 in Esw. injection Esw as <-.
    pose proof (subset_size_ok data ND) as SS. pose proof (PRE Ep) as PR.
    assert (NS : s' <> []) by (intros ->; cbn in L3; lia).
    assert (LSW : length sw' = length s') by lia.
    assert (VS : valid_call nt 0 (size s') team) by (apply VK; lia).
    destruct (simple_stable s' sw' n (Ok labels) LSW Hn NS (VK (Z.of_nat n) ltac:(lia)) VS CS) as (l & El & ST). injection El as <-.
    destruct X as [X|X]; [lia|].
    rewrite (compute_centers avg dflt sp ob team nt s' sw' labels n (sa_one_each _ _ _ _ _ _ _ ST) LSW (sa_range _ _ _ _ _ _ _ ST) x (VK (Z.of_nat n) ltac:(lia)) X) in Ec.
    injection Ec as <-. split; [|lia].
    refine (from_stable data weights n LW Hn (VK (Z.of_nat n) ltac:(lia)) (VK (size data) ltac:(lia)) _ r _ C). rewrite map_length. apply seqZ0_len.
  - exfalso. destruct (ES E) as (H2 & ND & n & -> & Hn). destruct (G k keys ND P DE) as (s' & sw' & E1 & E2 & L1 & L2 & L3).
    rewrite E1 in Es. injection Es as <-. rewrite E2 in Esw. injection Esw as <-.
    pose proof (subset_size_ok data ND) as SS. pose proof (PRE Ep) as PR.
    assert (NS : s' <> []) by (intros ->; cbn in L3; lia).
    assert (LSW : length sw' = length s') by lia.
    assert (VS : valid_call nt 0 (size s') team) by (apply VK; lia).
    destruct (simple_stable s' sw' n (Ok labels) LSW Hn NS (VK (Z.of_nat n) ltac:(lia)) VS CS) as (l & El & ST). injection El as <-.
    destruct X as [X|X]; [lia|].
    rewrite (compute_centers avg dflt sp ob team nt s' sw' labels n (sa_one_each _ _ _ _ _ _ _ ST) LSW (sa_range _ _ _ _ _ _ _ ST) x (VK (Z.of_nat n) ltac:(lia)) X) in Ec.
    subst o. discriminate.
  - exfalso. destruct (ES E) as (H2 & ND & n & -> & Hn). destruct (G k keys ND P DE) as (s' & sw' & E1 & E2 & L1 & L2 & L3).
    rewrite E1 in Es. injection Es as <-. rewrite E2 in Esw. injection Esw as <-.
    pose proof (subset_size_ok data ND) as SS. pose proof (PRE Ep) as PR.
    assert (NS : s' <> []) by (intros ->; cbn in L3; lia).
    assert (LSW : length sw' = length s') by lia.
    assert (VS : valid_call nt 0 (size s') team) by (apply VK; lia).
    destruct (simple_stable s' sw' n o LSW Hn NS (VK (Z.of_nat n) ltac:(lia)) VS CS) as (l & -> & ST). discriminate.
  - exfalso. destruct (ES E) as (H2 & ND & _). destruct (G k keys ND P DE) as (s' & sw' & E1 & E2 & _).
    rewrite E1, E2 in Eo. cbn in Eo. subst o. discriminate.
Qed.

(** Bad numbers of clusters. *)
Lemma weighted_zero data weights pre r : data <> [] -> ClusterWeighted data weights 0 pre r -> r = Throw InvalidArgument.
Proof.
  intros ND C. assert (E0 : early_result data 0 = Some (Throw InvalidArgument)) by (destruct data; [congruence|reflexivity]).
  destruct C; congruence.
Qed.
Lemma weighted_negative data weights K pre r : data <> [] -> length weights = length data -> K < 0 -> int32_min <= K * 5 \/ pre = false ->
  ClusterWeighted data weights K pre r -> r = Throw LengthError.
Proof.
  intros ND LW HK OV C.
  assert (E0 : early_result data K = None) by (apply early_none; repeat split; try assumption; lia).
  assert (Hd : 0 < size data) by (destruct data; [congruence|cbn [length]; lia]).
  pose proof (subset_size_ok data ND) as SS.
  assert (G : forall k keys, Permutation keys (drawn draw (size data) k) -> drawing_ends draw (size data) (subset_size data) k ->
    exists s sw, elements (at_index data) keys = Ok s /\ elements (at_index weights) keys = Ok sw /\ s <> []).
  { intros k keys P DE.
    assert (IR : forall i, In i keys -> 0 <= i < size data) by (intros i Hi; apply (proj2 (drawn_nodup draw DR (size data) Hd k)); exact (Permutation_in _ P Hi)).
    destruct (elements_ok (at_index data) keys) as (s & Es & Ls).
    { intros i Hi. destruct (in_range_gets data i (IR i Hi)) as [a E]. exists a. apply at_index_ok; [|exact E]. apply IR in Hi. lia. }
    destruct (elements_ok (at_index weights) keys) as (sw & Esw & Lsw).
    { intros i Hi. pose proof (IR i Hi). destruct (in_range_gets weights i) as [a E]; [lia|]. exists a. apply at_index_ok; [lia|exact E]. }
    exists s, sw. split; [exact Es|]. split; [exact Esw|]. intros ->. cbn in Ls.
    pose proof (drawing_exact draw (size data) (subset_size data) k ltac:(lia) DE) as X. rewrite <- (Permutation_length P), <- Ls in X. cbn in X. lia. }
  assert (SI : forall s sw r, s <> [] -> cluster_simple s sw K r -> r = Throw LengthError).
  { intros s sw r0 NS [r1 E|r1 E C1]; [|exact (plain_negative _ _ _ _ HK C1)].
    assert (early_result s K = None) by (apply early_none; repeat split; try assumption; lia). congruence. }
  destruct C as [r E|E Ov|r E _ C|k keys s sw labels x centers r E Ep DE P Es Esw CS X Ec C|k keys s sw labels x o r E Ep DE P Es Esw CS X Ec NO _|k keys s sw o r E Ep DE P Es Esw CS NO ->|k keys o r E Ep DE P Eo NO _].
  - congruence.
  - exfalso. unfold enable_preliminary in Ov. destruct pre; [|discriminate]. destruct OV as [OV|OV]; [|discriminate].
    destruct (Z.leb_spec int32_min (K * 5)); [|lia]. destruct (Z.leb_spec (K * 5) int32_max); [discriminate|unfold int32_max in *; lia].
  - exact (plain_negative _ _ _ _ HK C).
  - exfalso. destruct (G k keys P DE) as (s' & sw' & E1 & E2 & NS). rewrite E1 in Es. injection Es as <-. pose proof (SI _ _ _ NS CS). discriminate.
  - exfalso. destruct (G k keys P DE) as (s' & sw' & E1 & E2 & NS). rewrite E1 in Es. injection Es as <-. pose proof (SI _ _ _ NS CS). discriminate.
  - destruct (G k keys P DE) as (s' & sw' & E1 & E2 & NS). rewrite E1 in Es. injection Es as <-. now rewrite (SI _ _ _ NS CS).
  - exfalso. destruct (G k keys P DE) as (s' & sw' & E1 & E2 & NS). rewrite E1, E2 in Eo. subst o. discriminate.
Qed.
Lemma weighted_overflow data weights K : data <> [] -> K * 5 < int32_min \/ int32_max < K * 5 -> ClusterWeighted data weights K true UB.
Proof.
  intros ND H. apply cw_overflow.
  - apply early_none. unfold int32_min, int32_max in H. repeat split; try assumption; lia.
  - unfold enable_preliminary. destruct (Z.leb_spec int32_min (K * 5)), (Z.leb_spec (K * 5) int32_max); try reflexivity. lia.
Qed.
End K.
