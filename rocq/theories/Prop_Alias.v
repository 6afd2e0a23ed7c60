(** C171: values given by reference into the grid itself. *)
From Coq Require Import Reals.
From Flocq Require Import BinarySingleNaN.
From Verif Require Import Base ParallelismModel Double SerializationModel GraphModel VoxelModel VoxelSpec VoxelProof VoxelSamples
  HashedModel HashedProof HashedSamples AliasModel AliasSpec AliasProof.
Local Open Scope Z_scope.

(** C171.  In full: every setter of VoxelGrid and DynamicSpatialHashedVoxelGrid has the effect it
    would have if given a copy of the value, also when the value it is given is one the same grid
    returned a reference to.  It fails:
    - ResetWithNewValue given a cell of the grid reads it after destroying it, for every grid with
      a cell and every cell;
    - Initialize given the grid's default value as out-of-bounds value makes it the new default;
    - SetLocation of a whole chunk given a cell of that chunk reads it after destroying it, in
      every grid that allows the access. *)
Theorem C171_reset_with_own_cell_refuted {T User Iso} (g : @grid T User Iso) k n :
  TotalCells (g_sizes g) = Ok n -> 0 < n -> ResetWithNewValueRef g (OwnCell k) = UB.
Proof. exact (reset_value_own g k n). Qed.
Print Assumptions C171_reset_with_own_cell_refuted.

Theorem C171_initialize_own_default_refuted {T User Iso} iso_inverse (g g' : @grid T User Iso) o s def d :
  vread g def = Ok d -> InitializeRef iso_inverse g o s def OwnDefault = Ok g' -> g_oob g' = d.
Proof. exact (initialize_own_default iso_inverse g g' o s def d). Qed.
Print Assumptions C171_initialize_own_default_refuted.

Theorem C171_set_chunk_own_cell_refuted {T User Iso} iso_apply on_access fuel (g : @hgrid T User Iso) l r c k u :
  GetContainingChunkRegion (h_sizes g) (iso_apply (h_inverse g) l) = Ok r ->
  find_chunk (h_chunks g) r = Some c -> c_fill c <> NOT_FILLED -> region_eqb r r = true ->
  on_access (h_user g) (iso_apply (h_inverse g) l) = (u, true) ->
  snd (HSetLocationRef iso_apply on_access (S fuel) g l SET_CHUNK (HOwnCell r k)) = UB.
Proof. exact (hset_own_chunk iso_apply on_access fuel g l r c k u). Qed.
Print Assumptions C171_set_chunk_own_cell_refuted.

(** Every other use of such a reference is as if the value had been copied before the call. *)
Theorem C171_set_partial {T User Iso} on_access f (g : @grid T User Iso) i r v : vread g r = Ok v ->
  SetIndexRef on_access f g i r = SetIndex on_access f g i v.
Proof. exact (set_index_alias on_access f g i r v). Qed.
Print Assumptions C171_set_partial.
Theorem C171_set_data_partial {T User Iso} on_raw (g : @grid T User Iso) i r v : vread g r = Ok v ->
  SetDataIndexRef on_raw g i r = SetDataIndex on_raw g i v.
Proof. exact (set_data_index_alias on_raw g i r v). Qed.
Print Assumptions C171_set_data_partial.
Theorem C171_reset_default_partial {T User Iso} (g : @grid T User Iso) r v : vread g r = Ok v ->
  ResetWithNewDefaultRef g r = SetContents (with_default g v) v.
Proof. exact (reset_default_alias g r v). Qed.
Print Assumptions C171_reset_default_partial.
Theorem C171_reset_value_partial {T User Iso} (g : @grid T User Iso) r : (forall k, r <> OwnCell k) ->
  exists v, vread g r = Ok v /\ ResetWithNewValueRef g r = SetContents g v.
Proof. exact (reset_value_alias g r). Qed.
Print Assumptions C171_reset_value_partial.
Theorem C171_initialize_partial {T User Iso} iso_inverse (g : @grid T User Iso) o s def oob d b :
  vread g def = Ok d -> vread g oob = Ok b -> oob <> OwnDefault ->
  InitializeRef iso_inverse g o s def oob = Initialize iso_inverse g o s d b.
Proof. exact (initialize_alias iso_inverse g o s def oob d b). Qed.
Print Assumptions C171_initialize_partial.
Theorem C171_hashed_set_partial {T User Iso} iso_apply on_access fuel (g : @hgrid T User Iso) l t ref v :
  hread g ref = Ok v -> clear_of g (iso_apply (h_inverse g) l) t ref ->
  HSetLocationRef iso_apply on_access fuel g l t ref = HSetLocation4d iso_apply on_access fuel g l t v.
Proof. exact (hset_alias iso_apply on_access fuel g l t ref v). Qed.
Print Assumptions C171_hashed_set_partial.

(** A copy of the cell would do for each of the refuted uses: what the call ought to give exists. *)
Example C171_reset_expected : exists v, vread sample_grid (OwnCell 5) = Ok v /\
  (exists g', SetContents sample_grid v = Ok g') /\ ResetWithNewValueRef sample_grid (OwnCell 5) = UB.
Proof.
  exists 7. destruct sample_new_ok as (_ & Es & _ & Ed). split; [cbn [vread]; rewrite Ed; reflexivity|].
  assert (Et : TotalCells (g_sizes sample_grid) = Ok 24) by (rewrite Es; vm_compute; reflexivity).
  split; [unfold SetContents; rewrite Et; eexists; reflexivity|].
  now apply (reset_value_own _ _ 24).
Qed.
(** A grid with default 7 and out-of-bounds value 8, given new default 1 and its old default 7 as
    out-of-bounds value: 7 is expected, the result has 1. *)
Example C171_initialize_expected :
  vread sample_grid OwnDefault = Ok 7 /\
  match InitializeRef (fun o => o) sample_grid tt sample_sizes (Elsewhere 1) OwnDefault with
  | Ok g' => g_oob g' = 1 | _ => False end /\
  match Initialize (fun o => o) sample_grid tt sample_sizes 1 7 with
  | Ok g' => g_oob g' = 7 | _ => False end.
Proof. split; [|split]; vm_compute; reflexivity. Qed.
(** The cells of the chunk at the origin hold 7; SetLocation with one of them. *)
Definition one_chunk : @hgrid Z unit unit :=
  fst (HSetLocation4d same_point always 3 (hsample tt) (d0, d0, d0, d1) SET_CELL 5).
Example C171_hashed_expected :
  hread one_chunk (HOwnCell (d0, d0, d0) 3) = Ok 7 /\
  snd (HSetLocationRef same_point always 3 one_chunk (d0, d0, d0, d1) SET_CHUNK (HOwnCell (d0, d0, d0) 3)) = UB /\
  snd (HSetLocation4d same_point always 3 one_chunk (d0, d0, d0, d1) SET_CHUNK 7) = Ok DID_SET_CHUNK /\
  snd (HSetLocationRef same_point always 3 one_chunk (d0, d0, d0, d1) SET_CELL (HOwnCell (d0, d0, d0) 3)) = Ok DID_SET_CELL /\
  clear_of one_chunk (d0, d0, d0, d1) SET_CELL (HOwnCell (d0, d0, d0) 3).
Proof.
  split; [vm_compute; reflexivity|]. split; [vm_compute; reflexivity|]. split; [vm_compute; reflexivity|].
  split; [vm_compute; reflexivity|]. intros r R. right. split; [reflexivity|].
  assert (H : match GetContainingChunkRegion (h_sizes one_chunk) (d0, d0, d0, d1) with
              | Ok r => match find_chunk (h_chunks one_chunk) r with Some c => c_fill c = CELL_FILLED | None => False end
              | _ => False end) by (vm_compute; reflexivity).
  rewrite R in H. destruct (find_chunk (h_chunks one_chunk) r) as [c|]; [|contradiction]. exists c. auto.
Qed.
(** A chunk that holds one value for all its cells: setting a cell to that value. *)
Definition one_value : @hgrid Z unit unit :=
  fst (HSetLocation4d same_point always 3 (hsample tt) (d0, d0, d0, d1) SET_CHUNK 5).
Example C171_expanded_chunk :
  hread one_value (HOwnCell (d0, d0, d0) 0) = Ok 5 /\
  snd (HSetLocationRef same_point always 3 one_value (d0, d0, d0, d1) SET_CELL (HOwnCell (d0, d0, d0) 0)) = UB /\
  snd (HSetLocation4d same_point always 3 one_value (d0, d0, d0, d1) SET_CELL 5) = Ok DID_SET_CELL.
Proof. split; [|split]; vm_compute; reflexivity. Qed.
