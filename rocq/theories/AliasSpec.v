(** Vocabulary of C171. *)
From Verif Require Import Base Double GraphModel VoxelModel HashedModel AliasModel.
Local Open Scope Z_scope.

(** The reference is not into the chunk of [r]. *)
Definition outside {T} (r : region) (ref : href T) : Prop :=
  match ref with HOwnCell r' _ => region_eqb r' r = false | _ => True end.

(** Writing at [gl] (given in the grid's frame) does not discard the element referred to: it is
    not in the chunk written, or one cell is written of a chunk that already has cells. *)
Definition clear_of {T User Iso} (g : @hgrid T User Iso) (gl : vec4) (t : SetType_) (ref : href T) : Prop :=
  forall r, GetContainingChunkRegion (h_sizes g) gl = Ok r ->
    outside r ref \/ (t = SET_CELL /\ exists c, find_chunk (h_chunks g) r = Some c /\ c_fill c = CELL_FILLED).
