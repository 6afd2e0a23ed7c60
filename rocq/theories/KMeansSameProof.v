From Coq Require Import Permutation.
From Verif Require Import Base ParallelismModel ParallelismSpec ParallelismProof KnnModel KnnSpec KnnProof DistModel DistProof ClusterModel ClusterProof ClusterProof4 KMeansModel KMeansSpec KMeansProof KMeansProof2.
Local Open Scope Z_scope.
Notation size l := (Z.of_nat (length l)).

Lemma not_ok_bind {A B} (o : outcome A) (l : B) : is_ok o = false -> Ok l = (do _ <- o; Diverge) -> False.
Proof. destruct o; discriminate. Qed.

Section K.
Context {Data D W : Type}.
Variable ltb : D -> D -> bool.
Variable infinity : D.
Variable psort : nat -> list (Z * D) -> list (Z * D).
Hypothesis PS : partial_sort_contract ltb psort.
Variable dist : Data -> Data -> D.
Variable avg : list Data -> list W -> Data.
Variable dflt : Data.
Variable draw : Z -> nat -> Z.
Hypothesis DR : draws_in_range draw.
Notation relabel := (relabel infinity psort dist avg).
Notation stable := (stable_assignment ltb dist avg).

Section Two.
Variables (sp ob : bool) (team : nat) (nt : Z).
Variables (sp' ob' : bool) (team' : nat) (nt' : Z).

Section From.
Variables (data : list Data) (weights : list W) (n : nat).
Hypothesis LW : length weights = length data.
Hypothesis Hn : (0 < n)%nat.
Hypothesis Vn : valid_call nt 0 (Z.of_nat n) team.
Hypothesis Vd : valid_call nt 0 (size data) team.
Hypothesis Vn' : valid_call nt' 0 (Z.of_nat n) team'.
Hypothesis Vd' : valid_call nt' 0 (size data) team'.

Lemma converges_move labels r : labelling data n labels ->
  converges infinity psort dist avg dflt sp ob team nt data weights (Z.of_nat n) labels r ->
  converges infinity psort dist avg dflt sp' ob' team' nt' data weights (Z.of_nat n) labels r.
Proof.
  destruct (index_loop_exists sp' ob' team' nt' _ Vn') as [y1 Y1].
  destruct (index_loop_exists sp' ob' team' nt' _ Vd') as [y2 Y2].
  intros L C. induction C as [labels x1 x2 new X1 X2 E|labels x1 x2 new r X1 X2 E C IH|labels x1 x2 o r X1 X2 E NO _].
  all: rewrite (update_ok ltb infinity psort PS dist avg dflt sp ob team nt data weights n labels x1 x2 Hn LW (proj1 L) (proj2 L) Vn Vd X1 X2) in E.
  all: pose proof (update_ok ltb infinity psort PS dist avg dflt sp' ob' team' nt' data weights n labels y1 y2 Hn LW (proj1 L) (proj2 L) Vn' Vd' Y1 Y2) as E'.
  - apply (converged_now _ _ _ _ _ _ _ _ _ _ _ _ _ y1 y2); [exact Y1|exact Y2|]. now rewrite E'.
  - apply (converged_later _ _ _ _ _ _ _ _ _ _ _ _ _ y1 y2 new); [exact Y1|exact Y2|now rewrite E'|].
    apply IH. injection E as _ <-. exact (relabelled ltb infinity psort PS dist avg data weights n Hn labels).
  - subst o. discriminate.
Qed.

Lemma converges_unique labels r r' : labelling data n labels ->
  converges infinity psort dist avg dflt sp ob team nt data weights (Z.of_nat n) labels r ->
  converges infinity psort dist avg dflt sp ob team nt data weights (Z.of_nat n) labels r' -> r = r'.
Proof.
  intros L C. revert r' L. induction C as [labels x1 x2 new X1 X2 E|labels x1 x2 new r X1 X2 E C IH|labels x1 x2 o r X1 X2 E NO _]; intros r' L C'.
  all: rewrite (update_ok ltb infinity psort PS dist avg dflt sp ob team nt data weights n labels x1 x2 Hn LW (proj1 L) (proj2 L) Vn Vd X1 X2) in E.
  3: { subst o. discriminate. }
  all: destruct C' as [labels y1 y2 new' Y1 Y2 E'|labels y1 y2 new' r' Y1 Y2 E' C'|labels y1 y2 o' r' Y1 Y2 E' NO' _].
  all: rewrite (update_ok ltb infinity psort PS dist avg dflt sp ob team nt data weights n labels y1 y2 Hn LW (proj1 L) (proj2 L) Vn Vd Y1 Y2) in E'.
  all: try (subst o'; discriminate).
  - rewrite E in E'. injection E' as <-. reflexivity.
  - rewrite E in E'. discriminate.
  - rewrite E in E'. discriminate.
  - rewrite E in E'. injection E' as <-. apply IH; [|exact C']. injection E as _ <-. exact (relabelled ltb infinity psort PS dist avg data weights n Hn labels).
Qed.

Lemma first_labelling centers : length centers = n -> labelling data n (map (nearest infinity psort dist centers) data).
Proof.
  intros L. assert (NE : centers <> []) by (intros ->; cbn in L; lia).
  split; [apply map_length|]. intros l Hl. apply in_map_iff in Hl as (y & <- & _).
  destruct (nearest_ok ltb infinity psort PS dist avg centers y NE) as (_ & _ & R & _). now rewrite L in R.
Qed.

Lemma from_move centers r : length centers = n ->
  cluster_from infinity psort dist avg dflt sp ob team nt data weights (Z.of_nat n) centers r ->
  cluster_from infinity psort dist avg dflt sp' ob' team' nt' data weights (Z.of_nat n) centers r.
Proof.
  intros L C. assert (NE : centers <> []) by (intros ->; cbn in L; lia).
  destruct (index_loop_exists sp' ob' team' nt' _ Vd') as [y Y].
  destruct C as [B|x labels r B X E C|x o r B X E NO _]; [lia| |].
  all: rewrite (perform_ok ltb infinity psort PS dist avg sp ob team nt data centers x NE Vd X) in E.
  - injection E as <-. apply (cluster_labelled _ _ _ _ _ _ _ _ _ _ _ _ _ y (map (nearest infinity psort dist centers) data)); [exact B|exact Y| |].
    + exact (perform_ok ltb infinity psort PS dist avg sp' ob' team' nt' data centers y NE Vd' Y).
    + now apply converges_move; [apply first_labelling|].
  - subst o. discriminate.
Qed.

Lemma from_unique centers r r' : length centers = n ->
  cluster_from infinity psort dist avg dflt sp ob team nt data weights (Z.of_nat n) centers r ->
  cluster_from infinity psort dist avg dflt sp ob team nt data weights (Z.of_nat n) centers r' -> r = r'.
Proof.
  intros L C C'. assert (NE : centers <> []) by (intros ->; cbn in L; lia).
  destruct C as [B|x labels r B X E C|x o r B X E NO _]; [lia| |].
  all: rewrite (perform_ok ltb infinity psort PS dist avg sp ob team nt data centers x NE Vd X) in E.
  2: { subst o. discriminate. }
  destruct C' as [B'|x' labels' r' _ X' E' C'|x' o' r' _ X' E' NO' _]; [lia| |].
  all: rewrite (perform_ok ltb infinity psort PS dist avg sp ob team nt data centers x' NE Vd X') in E'.
  2: { subst o'. discriminate. }
  injection E as <-. injection E' as <-. exact (converges_unique _ r r' (first_labelling centers L) C C').
Qed.

Lemma plain_move r : data <> [] ->
  cluster_plain infinity psort dist avg dflt draw sp ob team nt data weights (Z.of_nat n) r ->
  cluster_plain infinity psort dist avg dflt draw sp' ob' team' nt' data weights (Z.of_nat n) r.
Proof.
  intros ND C. pose proof (plain_stable ltb infinity psort PS dist avg dflt draw DR sp ob team nt data weights n LW Hn Vn Vd r ND C) as (_ & l & El & _).
  assert (Hd : 0 < size data) by (destruct data; [congruence|cbn [length]; lia]).
  destruct C as [k E L|k keys centers r E L P Ec C|k keys o r E L P Ec NO ER].
  - lia.
  - apply (plain_runs _ _ _ _ _ _ _ _ _ _ _ _ _ k keys centers); try assumption. apply from_move; [|exact C].
    destruct (elements_ok (fun i => raw_get data (Z.to_nat i)) keys) as (l' & E' & L').
    { intros i Hi. pose proof (keys_range draw DR data k keys Hd P i Hi) as R. destruct (in_range_gets data i R) as [a Ea]. exists a. unfold raw_get. now rewrite Ea. }
    rewrite Ec in E'. injection E' as <-. rewrite L', (Permutation_length P). pose proof (drawing_exact draw _ _ _ (Zle_0_nat n) E). lia.
  - exfalso. exact (not_ok_bind o l NO (eq_trans (eq_sym El) ER)).
Qed.

Lemma simple_move r : data <> [] ->
  cluster_simple infinity psort dist avg dflt draw sp ob team nt data weights (Z.of_nat n) r ->
  cluster_simple infinity psort dist avg dflt draw sp' ob' team' nt' data weights (Z.of_nat n) r.
Proof. intros ND [r' E|r' E C]; [now apply simple_early|]. apply simple_plain; [exact E|]. now apply plain_move. Qed.
End From.

Lemma weighted_move data weights K pre r :
  length weights = length data -> 0 < K \/ data = [] -> K * 5 <= int32_max \/ pre = false \/ data = [] ->
  valid_call nt 0 (Z.max K (size data)) team -> valid_call nt' 0 (Z.max K (size data)) team' ->
  ClusterWeighted infinity psort dist avg dflt draw sp ob team nt data weights K pre r ->
  ClusterWeighted infinity psort dist avg dflt draw sp' ob' team' nt' data weights K pre r.
Proof.
  intros LW HK OV V V' C.
  destruct (weighted_stable ltb infinity psort PS dist avg dflt draw DR sp ob team nt data weights K pre r LW HK OV V C) as [(l & El & _) _].
  assert (ES : early_result data K = None -> 2 <= K /\ data <> [] /\ exists n, K = Z.of_nat n /\ (0 < n)%nat).
  { intros E. apply early_none in E as (ND & N1 & N0). split; [intuition lia|]. split; [exact ND|]. exists (Z.to_nat K). intuition lia. }
  assert (VK : forall m, 0 <= m <= Z.max K (size data) -> valid_call nt 0 m team) by (intros m Hm; exact (valid_less _ _ _ _ V Hm)).
  assert (VK' : forall m, 0 <= m <= Z.max K (size data) -> valid_call nt' 0 m team') by (intros m Hm; exact (valid_less _ _ _ _ V' Hm)).
  assert (PRE : enable_preliminary pre data K = Ok true -> K * 5 <= subset_size data).
  { unfold enable_preliminary. destruct pre; [|discriminate]. destruct (_ && _); [|discriminate]. intros H. injection H as H. now apply Z.leb_le. }
  assert (G : forall k keys s sw, data <> [] -> Permutation keys (drawn draw (size data) k) ->
    drawing_ends draw (size data) (subset_size data) k ->
    elements (at_index data) keys = Ok s -> elements (at_index weights) keys = Ok sw -> length sw = length s /\ size s = subset_size data).
  { intros k keys s sw ND P DE E1 E2. assert (Hd : 0 < size data) by (destruct data; [congruence|cbn [length]; lia]).
    assert (IR : forall i, In i keys -> 0 <= i < size data) by (intros i Hi; apply (proj2 (drawn_nodup draw DR (size data) Hd k)); exact (Permutation_in _ P Hi)).
    destruct (elements_ok (at_index data) keys) as (s' & Es & Ls).
    { intros i Hi. destruct (in_range_gets data i (IR i Hi)) as [a E]. exists a. apply at_index_ok; [|exact E]. apply IR in Hi. lia. }
    destruct (elements_ok (at_index weights) keys) as (sw' & Esw & Lsw).
    { intros i Hi. pose proof (IR i Hi). destruct (in_range_gets weights i) as [a E]; [lia|]. exists a. apply at_index_ok; [lia|exact E]. }
    rewrite E1 in Es. injection Es as <-. rewrite E2 in Esw. injection Esw as <-.
    split; [congruence|]. rewrite Ls, (Permutation_length P). apply (drawing_exact draw _ _ _); [|exact DE].
    pose proof (subset_size_ok data ND). lia. }
  destruct C as [r E|E Ov|r E Ep C|k keys s sw labels x centers r E Ep DE P Es Esw CS X Ec C|k keys s sw labels x o r E Ep DE P Es Esw CS X Ec NO ER|k keys s sw o r E Ep DE P Es Esw CS NO ER|k keys o r E Ep DE P Eo NO ER].
  - now apply cw_early.
  - discriminate.
  - destruct (ES E) as (H2 & ND & n & -> & Hn).
    pose proof (plain_stable ltb infinity psort PS dist avg dflt draw DR sp ob team nt data weights n LW Hn (VK (Z.of_nat n) ltac:(lia)) (VK (size data) ltac:(lia)) r ND C) as (B & _).
    apply cw_plain; [exact E|exact Ep|].
    apply (plain_move data weights n LW Hn); try assumption; first [apply VK|apply VK']; lia.
  - destruct (ES E) as (H2 & ND & n & -> & Hn). destruct (G k keys s sw ND P DE Es Esw) as (L2 & L3).
    pose proof (subset_size_ok data ND) as SS. pose proof (PRE Ep) as PR.
    assert (NS : s <> []) by (intros ->; cbn in L3; lia).
    destruct (simple_stable ltb infinity psort PS dist avg dflt draw DR sp ob team nt s sw n (Ok labels) L2 Hn NS (VK (Z.of_nat n) ltac:(lia)) (VK (size s) ltac:(lia)) CS) as (l' & El' & ST). injection El' as <-.
    destruct X as [X|X]; [lia|].
    rewrite (compute_centers avg dflt sp ob team nt s sw labels n (sa_one_each _ _ _ _ _ _ _ ST) L2 (sa_range _ _ _ _ _ _ _ ST) x (VK (Z.of_nat n) ltac:(lia)) X) in Ec.
    destruct (index_loop_exists sp' ob' team' nt' (Z.of_nat n) (VK' (Z.of_nat n) ltac:(lia))) as [y Y].
    apply (cw_preliminary _ _ _ _ _ _ _ _ _ _ _ _ _ _ k keys s sw labels y centers); try assumption.
    + apply (simple_move s sw n L2 Hn); try assumption; first [apply VK|apply VK']; lia.
    + now right.
    + now rewrite (compute_centers avg dflt sp' ob' team' nt' s sw labels n (sa_one_each _ _ _ _ _ _ _ ST) L2 (sa_range _ _ _ _ _ _ _ ST) y (VK' (Z.of_nat n) ltac:(lia)) Y).
    + apply (from_move data weights n LW Hn); try assumption; try (first [apply VK|apply VK']; lia).
      injection Ec as <-. rewrite map_length. apply seqZ0_len.
  - exfalso. exact (not_ok_bind o l NO (eq_trans (eq_sym El) ER)).
  - exfalso. exact (not_ok_bind o l NO (eq_trans (eq_sym El) ER)).
  - exfalso. exact (not_ok_bind o l NO (eq_trans (eq_sym El) ER)).
Qed.
End Two.
End K.
