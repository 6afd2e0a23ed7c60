(** Specification vocabulary for the serialization of hashed grids (C78). *)
From Coq Require Import List.
From Verif Require Import Base ParallelismModel Double SerializationModel SerializationSpec VoxelModel VoxelSpec HashedModel HashedSpec.
Local Open Scope Z_scope.

(** A chunk holds the amount of data its fill status calls for. *)
Definition right_amount {T} (c : @chunk T) : Prop :=
  match c_fill c with
  | CELL_FILLED => Z.of_nat (length (c_data c)) = num_x_cells (c_sizes c) * num_y_cells (c_sizes c) * num_z_cells (c_sizes c)
  | CHUNK_FILLED => length (c_data c) = 1%nat
  | NOT_FILLED => c_data c = []
  end.
(** No two entries have equal regions. *)
Definition one_per_region {T} (m : list (region * @chunk T)) : Prop :=
  ForallOrdPairs (fun a b => region_eqb (fst a) (fst b) = false) m.
(** Every value the grid stores satisfies P. *)
Definition every_value {T User Iso} (P : T -> Prop) (g : @hgrid T User Iso) : Prop :=
  P (h_default g) /\ forall r c v, In (r, c) (h_chunks g) -> In v (c_data c) -> P v.
