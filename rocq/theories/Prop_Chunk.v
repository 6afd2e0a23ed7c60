(** C172: reading a hashed grid chunk by chunk. *)
From Coq Require Import List Reals.
From Flocq Require Import Core BinarySingleNaN.
From Verif Require Import Base ParallelismModel Double DoubleFacts VoxelModel VoxelSpec VoxelProof VoxelSamples
  HashedModel HashedSpec HashedProof HashedFloat HashedSamples ChunkModel ChunkSpec ChunkProof.
Local Open Scope Z_scope.

(** C172.  Take any chunk of a grid made by any history of calls, with number [k] (at most 2^20
    chunks from the origin, at most 2^20 cells per axis), and any index [i] of a cell of it.
    GetCellLocationInGridFrame gives a point well inside cell [i] of chunk [k], and reading the grid
    at a location whose grid-frame coordinates are that point gives what the chunk's
    GetIndexImmutable gives for [i] (for the only index of a chunk that holds one value for all its
    cells).  Both are found. *)
Theorem C172_cells {T User Iso} iso_inverse iso_apply on_access s (g : @hgrid T User Iso) r c k i :
  made_sizes s -> steady on_access -> reachable_hgrid iso_inverse iso_apply s on_access g ->
  In (r, c) (h_chunks g) -> chunk_number s r k -> in_grid (dims_of s) i ->
  inside_location s (GetCellLocationInGridFrame c i) k i /\
  exists v, chunk_get_index c (match c_fill c with CELL_FILLED => i | _ => (0, 0, 0) end) =
    Ok (match c_fill c with CELL_FILLED => FOUND_IN_CELL | _ => FOUND_IN_CHUNK end, Some v) /\
  forall l, iso_apply (iso_inverse (h_origin g)) l = GetCellLocationInGridFrame c i ->
    HGetLocationImmutable4d iso_apply g l =
    chunk_get_index c (match c_fill c with CELL_FILLED => i | _ => (0, 0, 0) end).
Proof. exact (entry_cells iso_inverse iso_apply on_access s g r c k i). Qed.
Print Assumptions C172_cells.

(** Each chunk number occurs once, and whatever a read at an ordinary location finds is in the chunk
    of that number, at that index. *)
Theorem C172_once {T User Iso} iso_inverse iso_apply on_access s (g : @hgrid T User Iso) a b e e' k :
  reachable_hgrid iso_inverse iso_apply s on_access g ->
  nth_error (h_chunks g) a = Some e -> nth_error (h_chunks g) b = Some e' ->
  chunk_number s (fst e) k -> chunk_number s (fst e') k -> a = b.
Proof. exact (entry_once iso_inverse iso_apply on_access s g a b e e' k). Qed.
Print Assumptions C172_once.
Theorem C172_complete {T User Iso} iso_inverse iso_apply on_access s (g : @hgrid T User Iso) l st v k j :
  made_sizes s -> steady on_access -> reachable_hgrid iso_inverse iso_apply s on_access g ->
  inside_location s (iso_apply (iso_inverse (h_origin g)) l) k j ->
  HGetLocationImmutable4d iso_apply g l = Ok (st, Some v) ->
  exists r c, In (r, c) (h_chunks g) /\ chunk_number s r k /\
    chunk_get_index c (match c_fill c with CELL_FILLED => j | _ => (0, 0, 0) end) = Ok (st, Some v).
Proof. exact (entry_complete iso_inverse iso_apply on_access s g l st v k j). Qed.
Print Assumptions C172_complete.

(** GetChunkCenterInGridFrame is in the chunk. *)
Theorem C172_centre {T User Iso} iso_inverse iso_apply on_access s (g : @hgrid T User Iso) r c k :
  made_sizes s -> steady on_access -> reachable_hgrid iso_inverse iso_apply s on_access g ->
  In (r, c) (h_chunks g) -> chunk_number s r k ->
  region_eqb (chunk_of s (GetChunkCenterInGridFrame c)) r = true.
Proof. exact (entry_middle iso_inverse iso_apply on_access s g r c k). Qed.
Print Assumptions C172_centre.

(** One cell of chunk (-1, 0, 0) was set; index (1, 0, 0) of that chunk holds it and lies at
    (-0.5, 0.5, 0.5). *)
Definition chunk_sample : @hgrid Z unit unit :=
  fst (hperform_all (fun o => o) same_point always (hsample tt) [HSet sample_location SET_CELL 5]).
Example C172_nonvacuous :
  reachable_hgrid (fun o => o) same_point sample_sizes always chunk_sample /\
  chunk_number sample_sizes (chunk_of sample_sizes sample_location) (-1, 0, 0) /\
  match h_chunks chunk_sample with
  | [(r, c)] =>
      region_eqb r (chunk_of sample_sizes sample_location) = true /\
      chunk_get_index c (1, 0, 0) = Ok (FOUND_IN_CELL, Some 5) /\
      (let '(x, y, z, w) := GetCellLocationInGridFrame c (1, 0, 0) in
       Beqb x (Bopp dhalf) && Beqb y dhalf && Beqb z dhalf && Beqb w d1) = true
  | _ => False
  end.
Proof.
  split.
  { exists tt, tt, 7, [HSet sample_location SET_CELL 5], (hsample tt).
    exists (snd (hperform_all (fun o => o) same_point always (hsample tt) [HSet sample_location SET_CELL 5])).
    split; [apply hnew_ok|]. unfold chunk_sample. now destruct (hperform_all _ _ _ _ _). }
  split; [exact (ordinary_number _ _ _ _ sample_inside)|].
  vm_compute. split; [|split]; reflexivity.
Qed.
