(** Proofs about AliasModel.v. *)
From Verif Require Import Base ParallelismModel Double SerializationModel GraphModel VoxelModel HashedModel HashedProof AliasModel AliasSpec.
Local Open Scope Z_scope.

Section Voxel.
Context {T User Iso : Type}.
Variable iso_inverse : Iso -> Iso.
Variable on_access : User -> Z -> Z -> Z -> User * bool.
Variable on_raw : User -> User * bool.
Notation grid := (@grid T User Iso).

Lemma SetContentsRef_same (g : grid) r v :
  vread (with_data g []) r = Ok v -> SetContentsRef g r = SetContents g v.
Proof.
  intros E. unfold SetContentsRef, SetContents. cbn [with_data g_sizes].
  destruct (TotalCells (g_sizes g)) as [n| | |]; cbn [bind]; try reflexivity.
  destruct (Nat.eqb_spec (Z.to_nat n) 0) as [->|_]; [reflexivity|].
  change (mkGrid (g_origin g) (g_inverse g) (g_default g) (g_oob g) [] (g_sizes g) (g_initialized g) (g_user g)) with (with_data g []).
  rewrite E. reflexivity.
Qed.

Lemma not_cell_read (g : grid) r d : (forall k, r <> OwnCell k) -> vread (with_data g d) r = vread g r.
Proof. intros N. destruct r as [v|k| |]; try reflexivity. now destruct (N k). Qed.

Lemma not_cell_reads (g : grid) r : (forall k, r <> OwnCell k) -> exists v, vread g r = Ok v.
Proof. intros N. destruct r as [v|k| |]; try (eexists; reflexivity). now destruct (N k). Qed.

Lemma reset_value_alias (g : grid) r : (forall k, r <> OwnCell k) ->
  exists v, vread g r = Ok v /\ ResetWithNewValueRef g r = SetContents g v.
Proof.
  intros N. destruct (not_cell_reads g r N) as [v E]. exists v. split; [exact E|].
  apply SetContentsRef_same. now rewrite not_cell_read.
Qed.

Lemma reset_value_own (g : grid) k n :
  TotalCells (g_sizes g) = Ok n -> 0 < n -> ResetWithNewValueRef g (OwnCell k) = UB.
Proof.
  intros E P. unfold ResetWithNewValueRef, SetContentsRef. cbn [with_data g_sizes]. rewrite E. cbn [bind].
  destruct (Nat.eqb_spec (Z.to_nat n) 0); [lia|]. cbn [vread g_data]. destruct k; reflexivity.
Qed.

Lemma reset_default_alias (g : grid) r v : vread g r = Ok v ->
  ResetWithNewDefaultRef g r = SetContents (with_default g v) v.
Proof. intros E. unfold ResetWithNewDefaultRef. rewrite E. cbn [bind]. apply SetContentsRef_same. reflexivity. Qed.

Lemma initialize_alias (g : grid) o s def oob d b :
  vread g def = Ok d -> vread g oob = Ok b -> oob <> OwnDefault ->
  InitializeRef iso_inverse g o s def oob = Initialize iso_inverse g o s d b.
Proof.
  intros Ed Eb N. unfold InitializeRef, Initialize. destruct (sizes_valid s); [|reflexivity].
  set (g1 := mkGrid o _ _ _ _ _ _ _).
  assert (Ed1 : vread g1 def = Ok d) by (destruct def; exact Ed). rewrite Ed1. cbn [bind].
  assert (Eb1 : vread (with_default g1 d) oob = Ok b) by (destruct oob; [exact Eb|exact Eb|congruence|exact Eb]).
  rewrite Eb1. cbn [bind].
  rewrite (SetContentsRef_same _ OwnDefault d) by reflexivity.
  unfold g1. cbn [with_default with_oob g_origin g_inverse g_default g_oob g_data g_sizes g_initialized g_user].
  reflexivity.
Qed.

Lemma initialize_own_default (g g' : grid) o s def d :
  vread g def = Ok d -> InitializeRef iso_inverse g o s def OwnDefault = Ok g' -> g_oob g' = d.
Proof.
  intros Ed. unfold InitializeRef. destruct (sizes_valid s); [|discriminate].
  set (g1 := mkGrid o _ _ _ _ _ _ _).
  assert (Ed1 : vread g1 def = Ok d) by (destruct def; exact Ed). rewrite Ed1. cbn [bind vread with_default g_default].
  rewrite (SetContentsRef_same _ OwnDefault d) by reflexivity.
  unfold SetContents. destruct (TotalCells _); [|discriminate|discriminate|discriminate]. cbn [bind].
  intros E. injection E as <-. reflexivity.
Qed.

Lemma access_then (g : grid) k v : (do _ <- AccessIndex g k; AssignIndex g k v) = AssignIndex g k v.
Proof. unfold AccessIndex, AssignIndex. destruct (_ && _); [|reflexivity].
  unfold raw_get, raw_set. destruct (nth_error (g_data g) (Z.to_nat k)) eqn:E; cbn [bind]; [reflexivity|].
  apply nth_error_None in E. now rewrite set_nth_none. Qed.

Lemma vread_user (g : grid) u r : vread (with_user g u) r = vread g r.
Proof. destruct r; reflexivity. Qed.

Lemma set_index_alias f (g : grid) i r v : vread g r = Ok v ->
  SetIndexRef on_access f g i r = SetIndex on_access f g i v.
Proof.
  intros E. unfold SetIndexRef, SetIndex. destruct (IndexInBounds _ _); [|reflexivity].
  destruct (consult on_access f (g_user g) i) as [u allowed]. destruct allowed; [|reflexivity].
  destruct (GetDataIndex (g_sizes g) i) as [k| | |]; try reflexivity. cbn [bind]. rewrite vread_user, E.
  rewrite <- (access_then (with_user g u) k v).
  destruct (AccessIndex (with_user g u) k); reflexivity.
Qed.

Lemma set_data_index_alias (g : grid) i r v : vread g r = Ok v ->
  SetDataIndexRef on_raw g i r = SetDataIndex on_raw g i v.
Proof.
  intros E. unfold SetDataIndexRef, SetDataIndex. destruct (on_raw (g_user g)) as [u allowed].
  destruct allowed; [|reflexivity]. rewrite vread_user, E. cbn [bind]. rewrite access_then. reflexivity.
Qed.
End Voxel.

Section Hashed.
Context {T User Iso : Type}.
Variable iso_apply : Iso -> vec4 -> vec4.
Variable on_access : User -> vec4 -> User * bool.
Notation hgrid := (@hgrid T User Iso).
Notation chunk := (@chunk T).

Lemma hread_user (g : hgrid) u ref : hread (h_with_user g u) ref = hread g ref.
Proof. destruct ref; reflexivity. Qed.

Lemma chunk_get_then (c : chunk) i v : (do _ <- chunk_get c i; chunk_assign c i v) = chunk_assign c i v.
Proof. unfold chunk_get, chunk_assign. destruct (_ && _); [|reflexivity].
  unfold raw_get, raw_set. destruct (nth_error (c_data c) (Z.to_nat i)) eqn:E; cbn [bind]; [reflexivity|].
  apply nth_error_None in E. now rewrite set_nth_none. Qed.

Lemma hread_outside (g : hgrid) r ref : outside r ref -> hread_cleared g r ref = hread g ref.
Proof. destruct ref as [v| |r' k]; try reflexivity. cbn. now intros ->. Qed.

Lemma set_cell_same (g : hgrid) r c l ref v :
  hread g ref = Ok v -> outside r ref \/ c_fill c = CELL_FILLED ->
  chunk_set_cell_ref g r c l ref = chunk_set_cell c l v.
Proof.
  intros E O. unfold chunk_set_cell_ref, chunk_set_cell.
  destruct (c_fill c) eqn:F; cbn [bind].
  - rewrite F. reflexivity.
  - destruct O as [O|O]; [|discriminate].
    destruct (chunk_get c 0); try reflexivity. cbn [bind].
    destruct (SetCellFilledContents c a) as [c1| | |]; try reflexivity. cbn [bind].
    destruct (c_fill c1); try reflexivity.
    destruct (GetLocationDataIndex _ _ _) as [i| | |]; try reflexivity.
    destruct (0 <=? i); [|reflexivity]. rewrite (hread_outside _ _ _ O), E. cbn [bind].
    rewrite chunk_get_then. reflexivity.
  - rewrite F. destruct (GetLocationDataIndex _ _ _) as [i| | |]; try reflexivity.
    destruct (0 <=? i); [|reflexivity]. rewrite E. cbn [bind]. rewrite chunk_get_then. reflexivity.
Qed.

Lemma find_chunk_app (m : list (region * chunk)) r e c :
  find_chunk m r = Some c -> find_chunk (m ++ [e]) r = Some c.
Proof.
  unfold find_chunk. induction m as [|x m IH]; cbn; [discriminate|].
  destruct (region_eqb (fst x) r); [auto|exact IH].
Qed.

Lemma hread_allocate (g g2 : hgrid) r t ref v :
  AllocateChunkAt g r t = Ok g2 -> hread g ref = Ok v -> hread g2 ref = Ok v.
Proof.
  unfold AllocateChunkAt. destruct (new_chunk _ _ _ _) as [c| | |]; try discriminate. cbn [bind].
  destruct (find_chunk (h_chunks g) r) eqn:E; [discriminate|]. intros H. injection H as <-.
  destruct ref as [x| |r' k]; try (intros H; exact H). cbn.
  destruct (find_chunk (h_chunks g) r') eqn:E'; [|discriminate].
  now rewrite (find_chunk_app _ _ _ _ E').
Qed.

Lemma allocated_cells (s : GridSizes) r (v : T) c : new_chunk r s SET_CELL v = Ok c -> c_fill c = CELL_FILLED.
Proof. unfold new_chunk. destruct (sizes_valid s); [|discriminate]. unfold SetCellFilledContents.
  destruct (TotalCells _); [|discriminate|discriminate|discriminate]. cbn [bind]. intros E. injection E as <-. reflexivity. Qed.

Lemma hset_alias fuel : forall (g : hgrid) l t ref v,
  hread g ref = Ok v -> clear_of g (iso_apply (h_inverse g) l) t ref ->
  HSetLocationRef iso_apply on_access fuel g l t ref = HSetLocation4d iso_apply on_access fuel g l t v.
Proof.
  induction fuel as [|fuel IH]; intros g l t ref v E C; [reflexivity|]. cbn [HSetLocationRef HSetLocation4d].
  destruct (on_access (h_user g) (iso_apply (h_inverse g) l)) as [u allowed]. destruct allowed; [|reflexivity].
  cbn [h_with_user h_sizes h_chunks].
  destruct (GetContainingChunkRegion (h_sizes g) (iso_apply (h_inverse g) l)) as [r| | |] eqn:R; try reflexivity.
  destruct (find_chunk (h_chunks g) r) as [c|] eqn:F.
  - destruct t.
    + unfold chunk_set_value_ref, chunk_set_value. destruct (c_fill c); try reflexivity.
      all: destruct (C r R) as [O|[N _]]; [|discriminate]; rewrite (hread_outside _ _ _ O).
      all: change (mkHGrid _ _ _ _ _ _ _) with (h_with_user g u); rewrite hread_user, E; reflexivity.
    + rewrite (set_cell_same _ r c _ ref v); [reflexivity|now rewrite hread_user|].
      destruct (C r R) as [O|(_ & c' & F' & Fc)]; [now left|right]. congruence.
  - change (mkHGrid (h_origin g) (h_inverse g) (h_default g) (h_sizes g) (h_chunks g) (h_initialized g) u) with (h_with_user g u).
    destruct (AllocateChunkAt (h_with_user g u) r t) as [g2| | |] eqn:A; try reflexivity.
    apply IH.
    + apply (hread_allocate _ _ _ _ _ _ A). now rewrite hread_user.
    + destruct (C r R) as [O|(_ & c' & F' & _)]; [|congruence].
      unfold AllocateChunkAt in A. destruct (new_chunk _ _ _ _) as [c| | |]; try discriminate. cbn [bind] in A.
      destruct (find_chunk _ r); [discriminate|]. injection A as <-.
      intros r2 R2. left. cbn in R2. rewrite R in R2. injection R2 as <-. exact O.
Qed.

(** The element referred to is in the chunk the call writes. *)
Lemma hset_own_chunk fuel (g : hgrid) l r c k u :
  GetContainingChunkRegion (h_sizes g) (iso_apply (h_inverse g) l) = Ok r ->
  find_chunk (h_chunks g) r = Some c -> c_fill c <> NOT_FILLED -> region_eqb r r = true ->
  on_access (h_user g) (iso_apply (h_inverse g) l) = (u, true) ->
  snd (HSetLocationRef iso_apply on_access (S fuel) g l SET_CHUNK (HOwnCell r k)) = UB.
Proof.
  intros R F N Q A. cbn [HSetLocationRef]. rewrite A. cbn [h_with_user h_sizes h_chunks]. rewrite R, F.
  unfold chunk_set_value_ref. cbn [hread_cleared]. rewrite Q.
  destruct (c_fill c); [congruence|reflexivity|reflexivity].
Qed.
End Hashed.
