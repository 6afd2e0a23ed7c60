(** Proofs of C172. *)
From Coq Require Import Reals Lra.
From Flocq Require Import Core BinarySingleNaN.
From Verif Require Import Base ParallelismModel ParallelismProof Double DoubleFacts
  VoxelModel VoxelSpec VoxelProof VoxelFloat HashedModel HashedSpec HashedProof HashedFloat ChunkModel ChunkSpec.
Local Open Scope R_scope.

Lemma size_bounds b c size n k : based_at b c size n k ->
  is_finite size = true /\ 0 < B2R c /\
  IZR n * B2R c * (1 - u53) <= B2R size <= IZR n * B2R c * (1 + u53) /\
  - (/ 2048 * B2R c) <= B2R b - IZR k * B2R size <= / 2048 * B2R c.
Proof.
  intros (Fb & Fc & Es & [C1 C2] & Hn & Hk & Eb).
  set (C := B2R c) in *.
  assert (N1 : 1 <= IZR n <= 1048576) by (split; apply IZR_le; lia).
  assert (K1 : -1048576 <= IZR k <= 1048576) by (split; apply IZR_le; lia).
  assert (P500 : 0 < bpow radix2 (-500)) by apply bpow_gt_0.
  assert (Cp : 0 < C) by lra.
  assert (T : bpow radix2 (-1022) <= bpow radix2 (-500) * u53).
  { rewrite <- u53_bpow, <- bpow_plus. apply bp. discriminate. }
  assert (B0 : bpow radix2 500 * 1048576 * 1048576 * 16 <= bpow radix2 1023).
  { rewrite <- bp20. change 16 with (bpow radix2 4). rewrite <- !bpow_plus. apply bp. discriminate. }
  assert (U : 0 < u53 < / 4503599627370496) by (unfold u53; lra).
  destruct (d_of_Z_exact n) as [En Fn]; [lia|].
  assert (NC : C <= IZR n * C <= 1048576 * C) by nra.
  destruct (dmul_val (d_of_Z n) c Fn Fc) as [ES FS].
  { fold C. rewrite En, Rabs_pos_eq by lra. apply Rle_trans with (2 := B0). nra. }
  fold C in ES. rewrite En in ES. rewrite <- Es in ES, FS. set (S := B2R size) in *.
  assert (D1 : Rabs (S - IZR n * C) <= IZR n * C * u53).
  { rewrite ES. apply rnd_abs; rewrite Rabs_pos_eq by lra; [|lra]. unfold u53 in *. lra. }
  apply Rabs_le_inv in D1.
  assert (S1 : IZR n * C * (1 - u53) <= S <= IZR n * C * (1 + u53)) by lra.
  assert (Sp : C / 2 <= S) by (unfold u53 in *; nra).
  assert (Sm : S <= 2097152 * C) by (unfold u53 in *; nra).
  split; [exact FS|]. split; [exact Cp|]. split; [exact S1|].
  apply Rabs_le_inv. rewrite Eb. destruct (Z.eq_dec k 0) as [Z0|Z0].
  - rewrite Z0, Rmult_0_l, rnd64_0, Rminus_0_r, Rabs_R0. lra.
  - assert (1 <= Rabs (IZR k)) as AK by (rewrite <- abs_IZR; apply IZR_le; clear -Z0; lia).
    assert (Rabs (IZR k) <= 1048576) as AK2 by (apply Rabs_le; lra).
    apply Rle_trans with (1048576 * (2097152 * C) * u53); [|unfold u53 in *; nra].
    apply rnd_abs; rewrite Rabs_mult, (Rabs_pos_eq S) by lra; [|nra].
    apply Rle_trans with (1 * S); [|nra]. unfold u53 in *. lra.
Qed.

(** A point [o] away from the base. *)
Lemma base_plus b c size n k o : based_at b c size n k -> is_finite o = true ->
  / 4 * B2R c <= B2R o <= 1048576 * B2R c ->
  is_finite (dadd b o) = true /\
  - (/ 512 * B2R c) <= B2R (dadd b o) - (IZR k * B2R size + B2R o) <= / 512 * B2R c.
Proof.
  intros A Fo HO. destruct (size_bounds _ _ _ _ _ A) as (FS & Cp & S1 & DB).
  destruct A as (Fb & Fc & Es & [C1 C2] & Hn & Hk & Eb). clear Es Eb.
  set (C := B2R c) in *. set (B := B2R b) in *. set (O := B2R o) in *. set (S := B2R size) in *.
  assert (N1 : 1 <= IZR n <= 1048576) by (split; apply IZR_le; lia).
  assert (K1 : -1048576 <= IZR k <= 1048576) by (split; apply IZR_le; lia).
  assert (T : bpow radix2 (-1022) <= bpow radix2 (-500) * / 8).
  { change (/ 8) with (bpow radix2 (-3)). rewrite <- bpow_plus. apply bp. discriminate. }
  assert (B0 : bpow radix2 500 * 1048576 * 1048576 * 16 <= bpow radix2 1023).
  { rewrite <- bp20. change 16 with (bpow radix2 4). rewrite <- !bpow_plus. apply bp. discriminate. }
  assert (Sm : 0 <= S <= 2097152 * C) by (unfold u53 in *; split; nra).
  assert (Sl : C * (1 - u53) <= S) by (unfold u53 in *; nra).
  assert (KS : - (1048576 * (2097152 * C)) <= IZR k * S <= 1048576 * (2097152 * C)) by (split; nra).
  assert (M : Rabs (B + O) <= 2199024304129 * C) by (apply Rabs_le; split; lra).
  destruct (dadd_val b o Fb Fo) as [ED FD].
  { fold B O. apply Rle_trans with (1 := M). apply Rle_trans with (2 := B0).
    apply Rle_trans with (2199024304129 * bpow radix2 500); [nra|].
    pose proof (bpow_gt_0 radix2 500). lra. }
  fold B O in ED. split; [exact FD|].
  destruct (Rle_lt_dec (bpow radix2 (-1022)) (Rabs (B + O))) as [L|L].
  - assert (D : Rabs (B2R (dadd b o) - (B + O)) <= 2199024304129 * C * u53) by (rewrite ED; apply rnd_abs; assumption).
    apply Rabs_le_inv in D. unfold u53 in *. lra.
  - (* a sum that small is within the cell only if it is the exact one; bound it by monotonicity *)
    assert (R1 : Rabs (B2R (dadd b o)) <= bpow radix2 (-1022)).
    { rewrite ED. apply abs_round_le_generic; try typeclasses eauto; [|lra].
      apply generic_format_bpow. unfold fexp64, SpecFloat.fexp, SpecFloat.emin. simpl. lia. }
    assert (T2 : bpow radix2 (-1022) <= bpow radix2 (-500) * / 16384).
    { change (/ 16384) with (bpow radix2 (-14)). rewrite <- bpow_plus. apply bp. discriminate. }
    apply Rabs_le_inv in R1. apply Rabs_lt_inv in L. lra.
Qed.

Lemma cell_offset c j : is_finite c = true -> bpow radix2 (-500) <= B2R c <= bpow radix2 500 ->
  (0 <= j < 2 ^ 20)%Z ->
  is_finite (centre c j) = true /\
  - (/ 512 * B2R c) <= B2R (centre c j) - (IZR j + / 2) * B2R c <= / 512 * B2R c.
Proof.
  intros Fc [C1 C2] Hj. set (C := B2R c) in *.
  assert (P500 : 0 < bpow radix2 (-500)) by apply bpow_gt_0.
  assert (J1 : 0 <= IZR j <= 1048575) by (split; apply IZR_le; lia).
  assert (T : bpow radix2 (-1022) <= bpow radix2 (-500) * / 8).
  { change (/ 8) with (bpow radix2 (-3)). rewrite <- bpow_plus. apply bp. discriminate. }
  assert (B0 : bpow radix2 500 * 1048576 * 1048576 * 16 <= bpow radix2 1023).
  { rewrite <- bp20. change 16 with (bpow radix2 4). rewrite <- !bpow_plus. apply bp. discriminate. }
  destruct (d_of_Z_exact j) as [Ej Fj]; [lia|]. destruct dhalf_val as [Eh Fh].
  assert (Eq : IZR j + / 2 = IZR (2 * j + 1) * bpow radix2 (-1)).
  { rewrite plus_IZR, mult_IZR. simpl bpow. lra. }
  destruct (dadd_val (d_of_Z j) dhalf Fj Fh) as [Es Fs].
  { rewrite Ej, Eh, Rabs_pos_eq by lra. apply Rle_trans with (bpow radix2 21); [simpl; lra|apply bp; discriminate]. }
  rewrite Ej, Eh, Eq in Es. rewrite rnd64_exact, <- Eq in Es by lia.
  unfold centre. destruct (dmul_val c (dadd (d_of_Z j) dhalf) Fc Fs) as [Em Fm].
  { fold C. rewrite Es, Rabs_pos_eq by nra. apply Rle_trans with (2 := B0).
    apply Rle_trans with (bpow radix2 500 * 1048576); [|pose proof (bpow_gt_0 radix2 500); lra].
    apply Rmult_le_compat; lra. }
  fold C in Em. rewrite Es in Em. split; [exact Fm|].
  assert (D : Rabs (B2R (dmul c (dadd (d_of_Z j) dhalf)) - C * (IZR j + / 2)) <= C * 1048576 * u53).
  { rewrite Em. apply rnd_abs; rewrite Rabs_pos_eq by nra; nra. }
  apply Rabs_le_inv in D. unfold u53 in D. lra.
Qed.

Lemma centre_inside b c size n k j : based_at b c size n k -> (0 <= j < n)%Z ->
  inside_cell (dadd b (centre c j)) c size n k j.
Proof.
  intros A Hj. pose proof A as (Fb & Fc & Es & C12 & Hn & Hk & Eb).
  destruct (size_bounds _ _ _ _ _ A) as (_ & Cp & _ & _).
  destruct (cell_offset c j Fc C12) as [FO DO]; [lia|].
  assert (J1 : 0 <= IZR j <= 1048575) by (split; apply IZR_le; lia).
  destruct (base_plus b c size n k (centre c j) A FO) as [FD DD]; [split; nra|].
  split; [exact FD|]. split; [exact Fc|]. split; [exact Es|]. split; [exact C12|].
  split; [exact Hn|]. split; [exact Hk|]. split; [exact Hj|]. split; lra.
Qed.

(** A point whose distance from the base is well inside the chunk has that base. *)
Lemma chunk_base_of b c size n k j x : based_at b c size n k -> inside_cell x c size n k j ->
  Beqb (region_base x size) b = true.
Proof.
  intros (Fb & _ & _ & _ & _ & _ & Eb) I. destruct (axis _ _ _ _ _ _ I) as (F & E & _).
  rewrite (Beqb_correct 53 1024) by assumption. rewrite E, Eb. case Req_bool_spec; congruence.
Qed.

Lemma inside_based x c size n k j : inside_cell x c size n k j -> based_at (region_base x size) c size n k.
Proof.
  intros I. pose proof I as (Fx & Fc & Es & C12 & Hn & Hk & Hj & _). destruct (axis _ _ _ _ _ _ I) as (F & E & _).
  unfold based_at. auto 10.
Qed.

Lemma middle_base b c size n k : based_at b c size n k ->
  Beqb (region_base (dadd b (dmul size dhalf)) size) b = true.
Proof.
  intros A. pose proof A as (Fb & Fc & Es & [C1 C2] & Hn & Hk & Eb).
  destruct (size_bounds _ _ _ _ _ A) as (FS & Cp & S1 & DB).
  set (C := B2R c) in *. set (S := B2R size) in *.
  assert (N1 : 1 <= IZR n <= 1048576) by (split; apply IZR_le; lia).
  assert (K1 : -1048576 <= IZR k <= 1048576) by (split; apply IZR_le; lia).
  assert (P500 : 0 < bpow radix2 (-500)) by apply bpow_gt_0.
  assert (T : bpow radix2 (-1022) <= bpow radix2 (-500) * / 8).
  { change (/ 8) with (bpow radix2 (-3)). rewrite <- bpow_plus. apply bp. discriminate. }
  assert (B0 : bpow radix2 500 * 1048576 * 1048576 * 16 <= bpow radix2 1023).
  { rewrite <- bp20. change 16 with (bpow radix2 4). rewrite <- !bpow_plus. apply bp. discriminate. }
  destruct dhalf_val as [Eh Fh].
  assert (U : 0 < u53 < / 4503599627370496) by (unfold u53; lra).
  assert (NC : C <= IZR n * C <= 1048576 * C) by nra.
  assert (Sl : C * (1 - u53) <= S) by nra.
  assert (Sm : S <= 1048577 * C) by nra.
  destruct (dmul_val size dhalf FS Fh) as [EH FH].
  { fold S. rewrite Eh, Rabs_pos_eq by nra. apply Rle_trans with (2 := B0). nra. }
  fold S in EH. rewrite Eh in EH. set (h := dmul size dhalf) in *.
  assert (DH : Rabs (B2R h - S * / 2) <= 1048577 * C * u53).
  { rewrite EH. apply rnd_abs; rewrite Rabs_pos_eq by nra; nra. }
  apply Rabs_le_inv in DH.
  assert (DH' : - (/ 1024 * C) <= B2R h - S * / 2 <= / 1024 * C) by (unfold u53 in *; lra).
  destruct (base_plus b c size n k h A FH) as [FD DD].
  { fold C. unfold u53 in *. split; nra. }
  fold S C in DD. set (x := dadd b h) in *. set (X := B2R x) in *.
  (* the chunk number *)
  set (q := X / S). assert (Xq : X = q * S) by (unfold q; field; unfold u53 in *; nra).
  assert (Sp : 0 < S) by (unfold u53 in *; nra).
  assert (Q1 : IZR k + / 4 <= q).
  { apply Rmult_le_reg_r with S; [lra|]. rewrite <- Xq. unfold u53 in *. nra. }
  assert (Q2 : q <= IZR k + 3 / 4).
  { apply Rmult_le_reg_r with S; [lra|]. rewrite <- Xq. unfold u53 in *. nra. }
  assert (Qa : / 4 <= Rabs q <= 2097152).
  { split.
    - destruct (Z_lt_le_dec k 0) as [L|L].
      + assert (IZR k <= -1) by (apply IZR_le; lia). rewrite Rabs_left by lra. lra.
      + assert (0 <= IZR k) by (apply IZR_le; lia). rewrite Rabs_pos_eq by lra. lra.
    - apply Rabs_le. lra. }
  assert (Bq : bpow radix2 (-1022) <= Rabs q).
  { apply Rle_trans with (2 := proj1 Qa). change (/ 4) with (bpow radix2 (-2)). apply bp. discriminate. }
  destruct (ddiv_val x size FD) as [EQ FQ]; [fold S; lra| |].
  { fold S X. fold q. apply Rle_trans with (1 := proj2 Qa). change 2097152 with (bpow radix2 21). apply bp. discriminate. }
  fold S X in EQ. fold q in EQ.
  pose proof (rnd_abs q _ Bq (proj2 Qa)) as DQ. rewrite <- EQ in DQ. apply Rabs_le_inv in DQ.
  assert (FL : dfloor_Z (ddiv x size) = k).
  { rewrite dfloor_Zfloor. apply Zfloor_between. unfold u53 in *. lra. }
  assert (DF : dfloor (ddiv x size) = d_of_Z k).
  { unfold dfloor. rewrite FL. destruct (ddiv x size) as [sg|sg| |sg m e Bd]; try reflexivity; try discriminate FQ.
    exfalso. simpl B2R in *. assert (Rabs (IZR k) < 1) as KK by (apply Rabs_lt; unfold u53 in *; lra).
    rewrite <- abs_IZR in KK. apply lt_IZR in KK. assert (k = 0%Z) as -> by lia. unfold u53 in *. lra. }
  destruct (d_of_Z_exact k) as [Ek Fk]; [lia|].
  destruct (dmul_val (d_of_Z k) size Fk FS) as [EB FB].
  { fold S. rewrite Ek. apply Rle_trans with (2 := B0). apply Rabs_le.
    assert (0 <= S <= 2097152 * bpow radix2 500) by nra. split; nra. }
  rewrite Ek in EB. fold S in EB.
  unfold region_base. rewrite DF. rewrite (Beqb_correct 53 1024) by assumption. rewrite EB, Eb.
  fold S. case Req_bool_spec; congruence.
Qed.

Local Open Scope Z_scope.
Section Grid.
Context {T User Iso : Type}.
Variable iso_inverse : Iso -> Iso.
Variable iso_apply : Iso -> vec4 -> vec4.
Variable on_access : User -> vec4 -> User * bool.
Notation hgrid := (@hgrid T User Iso).
Notation chunk := (@chunk T).

(** No two entries have equal keys. *)
Fixpoint keys_differ (m : list (region * chunk)) : Prop :=
  match m with
  | [] => True
  | e :: r => (forall e', In e' r -> region_eqb (fst e) (fst e') = false) /\ keys_differ r
  end.

Lemma put_fst (m : list (region * chunk)) r c : map fst (put_chunk m r c) = map fst m.
Proof. induction m as [|e m IH]; [reflexivity|]. cbn. destruct (region_eqb (fst e) r); cbn; [reflexivity|now rewrite IH]. Qed.

Lemma differ_fst (m m' : list (region * chunk)) : map fst m = map fst m' -> keys_differ m -> keys_differ m'.
Proof.
  revert m'. induction m as [|e m IH]; intros [|e' m'] E; try discriminate; [auto|]. cbn in E. injection E as E1 E2.
  cbn [keys_differ]. intros [H K]. split; [|now apply IH]. intros x Hx. apply (in_map fst) in Hx.
  rewrite <- E2 in Hx. apply in_map_iff in Hx. destruct Hx as (y & Ey & Hy). rewrite <- E1, <- Ey. now apply H.
Qed.

Lemma find_none_all (m : list (region * chunk)) r : find_chunk m r = None -> forall e, In e m -> region_eqb (fst e) r = false.
Proof.
  unfold find_chunk. intros F e I. destruct (find _ m) eqn:E; [discriminate|].
  exact (find_none _ _ E e I).
Qed.

Lemma differ_snoc (m : list (region * chunk)) r c : find_chunk m r = None -> keys_differ m -> keys_differ (m ++ [(r, c)]).
Proof.
  intros F. pose proof (find_none_all m r F) as N. clear F. induction m as [|e m IH]; [cbn; intros _; split; [intros _ []|exact I]|].
  intros [H K]. cbn [app keys_differ]. split; [|apply IH; [|exact K]; intros x Hx; apply N; now right].
  intros x Hx. apply in_app_iff in Hx. destruct Hx as [Hx|[<-|[]]]; [now apply H|]. apply N. now left.
Qed.

Lemma differ_set fuel : forall (g : hgrid) l t v, keys_differ (h_chunks g) ->
  keys_differ (h_chunks (fst (HSetLocation4d iso_apply on_access fuel g l t v))).
Proof.
  induction fuel as [|fuel IH]; intros g l t v K; [exact K|]. cbn [HSetLocation4d].
  destruct (on_access (h_user g) _) as [u allowed]. destruct allowed; [|exact K].
  cbn [h_with_user h_sizes h_chunks].
  destruct (GetContainingChunkRegion _ _) as [r| | |]; try exact K.
  destruct (find_chunk (h_chunks g) r) as [c|] eqn:F.
  - destruct (match t with SET_CHUNK => _ | SET_CELL => _ end) as [c' res]. cbn.
    apply (differ_fst (h_chunks g)); [now rewrite put_fst|exact K].
  - destruct (AllocateChunkAt _ r t) as [g2| | |] eqn:A; try exact K. apply IH.
    unfold AllocateChunkAt in A. destruct (new_chunk _ _ _ _) as [c| | |]; try discriminate. cbn [bind h_with_user h_chunks] in A.
    rewrite F in A. injection A as <-. cbn. now apply differ_snoc.
Qed.

Lemma differ_assign (g : hgrid) l v : keys_differ (h_chunks g) ->
  keys_differ (h_chunks (fst (HAssignLocation4d iso_apply on_access g l v))).
Proof.
  intros K. unfold HAssignLocation4d. destruct (GetContainingChunkRegion _ _) as [r| | |]; try exact K.
  destruct (find_chunk (h_chunks g) r) as [c|]; [|exact K].
  destruct (on_access (h_user g) _) as [u allowed]. destruct allowed; [|exact K].
  destruct (chunk_find_location _ _) as [[st i]| | |]; try exact K.
  destruct (chunk_assign c i v) as [c'| | |]; try exact K. cbn.
  apply (differ_fst (h_chunks g)); [now rewrite put_fst|exact K].
Qed.

Lemma differ_perform (g : hgrid) c : keys_differ (h_chunks g) ->
  keys_differ (h_chunks (fst (hperform iso_inverse iso_apply on_access g c))).
Proof.
  intros K. destruct c as [l t v|l v|v|o]; [| |exact K|exact K]; unfold hperform, settle.
  - destruct (snd (HSetLocation4d _ _ _ _ _ _ _)); cbn [fst]; try exact K; now apply differ_set.
  - destruct (snd (HAssignLocation4d _ _ _ _ _)); cbn [fst]; try exact K; now apply differ_assign.
Qed.

Lemma differ_all cs : forall (g : hgrid), keys_differ (h_chunks g) ->
  keys_differ (h_chunks (fst (hperform_all iso_inverse iso_apply on_access g cs))).
Proof.
  induction cs as [|c cs IH]; intros g K; [exact K|]. cbn [hperform_all].
  pose proof (differ_perform g c K) as K1. destruct (hperform _ _ _ g c) as [g1 rep]. cbn [fst] in K1.
  specialize (IH g1 K1). destruct (hperform_all _ _ _ g1 cs) as [g2 h]. exact IH.
Qed.

Lemma reachable_differ s (g : hgrid) : reachable_hgrid iso_inverse iso_apply s on_access g -> keys_differ (h_chunks g).
Proof.
  intros (u & o & def & cs & g0 & h & E & R). pose proof (differ_all cs g0) as D. rewrite R in D. apply D.
  unfold new_hgrid in E. destruct (sizes_valid s); [|discriminate]. injection E as <-. exact I.
Qed.

Lemma find_entry (m : list (region * chunk)) r c : keys_differ m -> In (r, c) m -> region_eqb r r = true ->
  find_chunk m r = Some c.
Proof.
  unfold find_chunk. induction m as [|e m IH]; [intros _ []|]. intros [H K] [->|I] Q.
  - cbn [find fst]. rewrite Q. reflexivity.
  - cbn [find]. pose proof (H _ I) as N. cbn [fst] in N. rewrite N. now apply IH.
Qed.

Lemma number_refl s r k : chunk_number s r k -> region_eqb r r = true.
Proof.
  destruct r as [[x y] z], k as [[kx ky] kz]. intros ((F1 & _) & (F2 & _) & (F3 & _)). unfold region_eqb.
  rewrite !(Beqb_correct 53 1024) by assumption. rewrite !andb_true_iff.
  repeat split; case Req_bool_spec; congruence.
Qed.

Lemma based_eqb b b' c size n k : based_at b c size n k -> Beqb b' b = true -> based_at b' c size n k.
Proof.
  intros (F & R) E. destruct (Beqb_cases b' b E) as [[_ ->]|(p & q & -> & ->)]; [now split|].
  split; [reflexivity|]. exact R.
Qed.
Lemma number_eqb s r r' k : chunk_number s r k -> region_eqb r' r = true -> chunk_number s r' k.
Proof.
  destruct r as [[x y] z], r' as [[x' y'] z'], k as [[kx ky] kz]. intros (A & B & C). unfold region_eqb.
  rewrite !andb_true_iff. intros [[X Y] Z]. split; [|split]; eapply based_eqb; eassumption.
Qed.

(** The cells of a chunk of a reachable grid. *)
Lemma entry_cells s (g : hgrid) r c k i :
  made_sizes s -> steady on_access -> reachable_hgrid iso_inverse iso_apply s on_access g ->
  In (r, c) (h_chunks g) -> chunk_number s r k -> in_grid (dims_of s) i ->
  inside_location s (GetCellLocationInGridFrame c i) k i /\
  exists v, chunk_get_index c (match c_fill c with CELL_FILLED => i | _ => (0, 0, 0) end) =
    Ok (match c_fill c with CELL_FILLED => FOUND_IN_CELL | _ => FOUND_IN_CHUNK end, Some v) /\
  forall l, iso_apply (iso_inverse (h_origin g)) l = GetCellLocationInGridFrame c i ->
    HGetLocationImmutable4d iso_apply g l =
    chunk_get_index c (match c_fill c with CELL_FILLED => i | _ => (0, 0, 0) end).
Proof.
  intros M St R I N Hi. assert (G := made_good s M).
  destruct (reach_shows iso_inverse iso_apply on_access s g M St R) as (w & S).
  pose proof (find_entry _ _ _ (reachable_differ s g R) I (number_refl s r k N)) as F.
  pose proof (sh_chunks _ _ _ _ _ S r) as CS. rewrite F in CS.
  pose proof CS as (RE & SE & D).
  assert (IL : inside_location s (GetCellLocationInGridFrame c i) k i).
  { pose proof (number_eqb s r (c_region c) k N RE) as N'. unfold GetCellLocationInGridFrame. rewrite SE.
    destruct (c_region c) as [[bx by_] bz], k as [[kx ky] kz], i as [[jx jy] jz]. destruct N' as (A & B & C).
    unfold in_grid, dims_of in Hi. cbn [IndexToLocationInGridFrame]. unfold inside_location.
    split; [|split]; apply centre_inside; try assumption; lia. }
  split; [exact IL|].
  destruct (cell_index s _ k i G IL) as [CI _]. pose proof (good_position s i G Hi) as P.
  set (p := GetCellLocationInGridFrame c i) in *.
  assert (EC : region_eqb (chunk_of s p) (c_region c) = true).
  { pose proof (number_eqb s r (c_region c) k N RE) as N'.
    destruct p as [[[x y] z] wc], (c_region c) as [[bx by_] bz], k as [[kx ky] kz], i as [[jx jy] jz].
    destruct N' as (A & B & C), IL as (A' & B' & C'). unfold chunk_of, region_eqb.
    rewrite (chunk_base_of _ _ _ _ _ _ _ A A'), (chunk_base_of _ _ _ _ _ _ _ B B'), (chunk_base_of _ _ _ _ _ _ _ C C').
    reflexivity. }
  assert (FC : find_chunk (h_chunks g) (chunk_of s p) = Some c).
  { rewrite (find_eqb _ _ r); [exact F|]. eapply region_trans; eassumption. }
  assert (GL : forall l, iso_apply (iso_inverse (h_origin g)) l = p ->
    HGetLocationImmutable4d iso_apply g l = chunk_get_location c p).
  { intros l El. unfold HGetLocationImmutable4d. rewrite (sh_inv _ _ _ _ _ S), El, (sh_sizes _ _ _ _ _ S).
    assert (GR : GetContainingChunkRegion s p = Ok (chunk_of s p)).
    { unfold GetContainingChunkRegion, chunk_of. destruct p as [[[x y] z] wc]. now rewrite (g_valid _ G). }
    rewrite GR. cbn [bind]. now rewrite FC. }
  assert (CI' : GetLocationDataIndex (c_region c) (c_sizes c) p = Ok (position (dims_of s) i)).
  { rewrite SE, <- CI. apply data_index_region. now rewrite region_sym. }
  destruct D as [(Fl & Pr & v & Ed & _)|(Fl & Pr & L & Nth)].
  - exists v. rewrite Fl. unfold chunk_get_index. rewrite Fl. cbn [Z.eqb andb].
    unfold chunk_get at 1. rewrite Ed. cbn. split; [reflexivity|].
    intros l El. rewrite (GL l El). unfold chunk_get_location. rewrite Fl. reflexivity.
  - exists (w_value w r (position (dims_of s) i)). rewrite Fl. unfold chunk_get_index. rewrite Fl, SE.
    assert (IB : IndexInBounds s i = true).
    { destruct i as [[jx jy] jz]. unfold in_grid, dims_of in Hi. unfold IndexInBounds.
      rewrite !andb_true_iff. repeat split; (apply Z.leb_le || apply Z.ltb_lt); lia. }
    rewrite IB, (data_index_position s i G Hi). cbn [bind].
    rewrite Pr in CS. rewrite (chunk_get_cell s r c _ _ CS P). cbn [bind].
    split; [reflexivity|].
    intros l El. rewrite (GL l El). unfold chunk_get_location. rewrite Fl, CI'. cbn [bind].
    destruct (Z.leb_spec 0 (position (dims_of s) i)); [|lia].
    rewrite (chunk_get_cell s r c _ _ CS P). reflexivity.
Qed.

(** The middle of a chunk is in the chunk. *)
Lemma entry_middle s (g : hgrid) r c k :
  made_sizes s -> steady on_access -> reachable_hgrid iso_inverse iso_apply s on_access g ->
  In (r, c) (h_chunks g) -> chunk_number s r k ->
  region_eqb (chunk_of s (GetChunkCenterInGridFrame c)) r = true.
Proof.
  intros M St R I N.
  destruct (reach_shows iso_inverse iso_apply on_access s g M St R) as (w & S).
  pose proof (find_entry _ _ _ (reachable_differ s g R) I (number_refl s r k N)) as F.
  pose proof (sh_chunks _ _ _ _ _ S r) as CS. rewrite F in CS. destruct CS as (RE & SE & _).
  apply region_trans with (2 := RE).
  pose proof (number_eqb s r (c_region c) k N RE) as N'. unfold GetChunkCenterInGridFrame. rewrite SE.
  destruct (c_region c) as [[bx by_] bz], k as [[kx ky] kz]. destruct N' as (A & B & C).
  unfold chunk_of, region_eqb. now rewrite (middle_base _ _ _ _ _ A), (middle_base _ _ _ _ _ B), (middle_base _ _ _ _ _ C).
Qed.

(** Chunks of ordinary locations have numbers. *)
Lemma ordinary_number s l k j : inside_location s l k j -> chunk_number s (chunk_of s l) k.
Proof.
  destruct l as [[[x y] z] w], k as [[kx ky] kz], j as [[jx jy] jz]. intros (A & B & C).
  split; [|split]; eapply inside_based; eassumption.
Qed.

Lemma differ_nth (m : list (region * chunk)) a b x y : keys_differ m -> (a < b)%nat ->
  nth_error m a = Some x -> nth_error m b = Some y -> region_eqb (fst x) (fst y) = false.
Proof.
  revert a b. induction m as [|e m IH]; intros a b K L Ea Eb; [destruct a; discriminate|].
  destruct K as [H K]. destruct b as [|b]; [lia|]. cbn in Eb. destruct a as [|a].
  - cbn in Ea. injection Ea as <-. apply H. eapply nth_error_In. exact Eb.
  - cbn in Ea. apply (IH a b); auto. lia.
Qed.

Lemma number_same s r r' k : chunk_number s r k -> chunk_number s r' k -> region_eqb r r' = true.
Proof.
  destruct r as [[x y] z], r' as [[x' y'] z'], k as [[kx ky] kz].
  intros (A & B & C) (A' & B' & C'). unfold region_eqb.
  assert (H : forall b b' c size n k, based_at b c size n k -> based_at b' c size n k -> Beqb b b' = true).
  { intros b b' c size n k (F & _ & _ & _ & _ & _ & E) (F' & _ & _ & _ & _ & _ & E').
    rewrite (Beqb_correct 53 1024) by assumption. rewrite E, E'. case Req_bool_spec; congruence. }
  now rewrite (H _ _ _ _ _ _ A A'), (H _ _ _ _ _ _ B B'), (H _ _ _ _ _ _ C C').
Qed.

Lemma entry_once s (g : hgrid) a b e e' k :
  reachable_hgrid iso_inverse iso_apply s on_access g ->
  nth_error (h_chunks g) a = Some e -> nth_error (h_chunks g) b = Some e' ->
  chunk_number s (fst e) k -> chunk_number s (fst e') k -> a = b.
Proof.
  intros R Ea Eb N N'. pose proof (reachable_differ s g R) as K.
  destruct (lt_eq_lt_dec a b) as [[L|E]|L]; [|exact E|].
  - pose proof (differ_nth _ _ _ _ _ K L Ea Eb) as D.
    rewrite (number_same s _ _ k N N') in D. discriminate.
  - pose proof (differ_nth _ _ _ _ _ K L Eb Ea) as D. rewrite (number_same s _ _ k N' N) in D. discriminate.
Qed.

Lemma find_in (m : list (region * chunk)) r c : find_chunk m r = Some c ->
  exists r', In (r', c) m /\ region_eqb r' r = true.
Proof.
  unfold find_chunk. destruct (find _ m) as [[r' c']|] eqn:E; [|discriminate]. intros H. injection H as <-.
  apply find_some in E. exists r'. exact E.
Qed.

Lemma entry_complete s (g : hgrid) l st v k j :
  made_sizes s -> steady on_access -> reachable_hgrid iso_inverse iso_apply s on_access g ->
  inside_location s (iso_apply (iso_inverse (h_origin g)) l) k j ->
  HGetLocationImmutable4d iso_apply g l = Ok (st, Some v) ->
  exists r c, In (r, c) (h_chunks g) /\ chunk_number s r k /\
    chunk_get_index c (match c_fill c with CELL_FILLED => j | _ => (0, 0, 0) end) = Ok (st, Some v).
Proof.
  intros M St R IL E. assert (G := made_good s M).
  destruct (reach_shows iso_inverse iso_apply on_access s g M St R) as (w & S).
  pose proof (ordinary_number s _ k j IL) as N. destruct (cell_index s _ k j G IL) as [CI Hj].
  unfold HGetLocationImmutable4d in E. rewrite (sh_inv _ _ _ _ _ S), (sh_sizes _ _ _ _ _ S) in E.
  set (p := iso_apply (iso_inverse (h_origin g)) l) in *.
  assert (GR : GetContainingChunkRegion s p = Ok (chunk_of s p)).
  { unfold GetContainingChunkRegion, chunk_of. destruct p as [[[x y] z] wc]. now rewrite (g_valid _ G). }
  rewrite GR in E. cbn [bind] in E. destruct (find_chunk (h_chunks g) (chunk_of s p)) as [c|] eqn:F; [|discriminate].
  destruct (find_in _ _ _ F) as (r & I & Q). exists r, c. split; [exact I|].
  split; [eapply number_eqb; eassumption|].
  pose proof (sh_chunks _ _ _ _ _ S (chunk_of s p)) as CS. rewrite F in CS. destruct CS as (RE & SE & D).
  revert E. unfold chunk_get_location, chunk_get_index. destruct (c_fill c); [discriminate| |].
  - intros E. exact E.
  - assert (CI' : GetLocationDataIndex (c_region c) (c_sizes c) p = Ok (position (dims_of s) j)).
    { rewrite SE, <- CI. now apply data_index_region. }
    rewrite CI'. cbn [bind]. pose proof (good_position s j G Hj) as P.
    destruct (Z.leb_spec 0 (position (dims_of s) j)); [|lia]. rewrite SE.
    assert (IB : IndexInBounds s j = true).
    { destruct j as [[jx jy] jz]. unfold in_grid, dims_of in Hj. unfold IndexInBounds.
      rewrite !andb_true_iff. repeat split; (apply Z.leb_le || apply Z.ltb_lt); lia. }
    now rewrite IB, (data_index_position s j G Hj).
Qed.
End Grid.
