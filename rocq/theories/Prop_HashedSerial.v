(** Property C78 (serialization in dynamic_spatial_hashed_voxel_grid.hpp). *)
From Coq Require Import Permutation.
From Verif Require Import Base ParallelismModel Double DoubleBits SerializationModel SerializationSpec SerializationProof
  VoxelModel VoxelSpec VoxelSerial VoxelSamples HashedModel HashedSpec HashedSamples
  HashedSerialModel HashedSerialSpec HashedSerial HashedSerialSamples.
Local Open Scope Z_scope.

(** C78 for chunks of at least one cell: in whatever order the chunks are written,
    reading the bytes gives the same grid with its chunks in that order, and every
    read of it gives what the original gives. *)
Theorem C78_round_trip_partial :
  forall (T Iso : Type) (le : bool) (iso_inverse : Iso -> Iso) (iso_apply : Iso -> vec4 -> vec4)
    (on_access : unit -> vec4 -> unit * bool) iso_to iso_of (max_size : N)
    (ser : Serializer T) des dom s (g : @hgrid T unit Iso) order before after,
  round_trips ser des dom ->
  made_sizes s -> reachable_hgrid iso_inverse iso_apply s on_access g ->
  0 < num_x_cells s -> 0 < num_y_cells s -> 0 < num_z_cells s ->
  every_value dom g -> (forall r c, In (r, c) (h_chunks g) -> (len64 (c_data c) <= max_size)%N) ->
  (len64 (h_chunks g) < 2 ^ 64)%N -> Permutation (h_chunks g) order ->
  length (iso_to (h_origin g)) = 128%nat -> is_bytes (iso_to (h_origin g)) -> iso_of (iso_to (h_origin g)) = h_origin g ->
  fits_vector (snd (SerializeHGrid le iso_to ser order g before) ++ after) ->
  DeserializeHGrid le iso_of iso_inverse max_size des (snd (SerializeHGrid le iso_to ser order g before) ++ after) (len64 before)
    = Ok (h_with_chunks g order, fst (SerializeHGrid le iso_to ser order g before)) /\
  forall l, HGetLocationImmutable4d iso_apply (h_with_chunks g order) l = HGetLocationImmutable4d iso_apply g l.
Proof.
  intros T Iso le ii ia oa it io ms ser des dom s g order before after RT M R.
  exact (hashed_round_trip ii ia oa le s it io ms ser des dom g order before after RT M R).
Qed.
Print Assumptions C78_round_trip_partial.

(** C78: what comes out of arbitrary bytes. *)
Theorem C78_any_bytes_consistent :
  forall (T Iso : Type) (le : bool) (iso_inverse : Iso -> Iso) iso_of (max_size : N) (des : Deserializer T) buf off
    (g : @hgrid T unit Iso) n,
  stays_inside des -> is_bytes buf -> fits_vector buf -> (off < 2 ^ 64)%N ->
  DeserializeHGrid le iso_of iso_inverse max_size des buf off = Ok (g, n) ->
  (forall r c, In (r, c) (h_chunks g) -> right_amount c) /\ one_per_region (h_chunks g) /\
  h_initialized g = sizes_valid (h_sizes g) /\ (h_chunks g <> [] -> sizes_valid (h_sizes g) = true) /\
  h_inverse g = iso_inverse (h_origin g) /\
  (0 < n)%N /\ (off + n <= len64 buf)%N.
Proof.
  intros T Iso le ii io ms des buf off g n S B F O E.
  destruct (hgrid_yields le ms (fun _ => []) io ii des S buf off g n B F E O) as (A1 & A2 & P1 & P2 & P3 & P4 & P5). repeat (split; [assumption|]). assumption.
Qed.
Print Assumptions C78_any_bytes_consistent.

(** C78 is false for chunks whose extent underflows to no cells at all: reading
    back the bytes of a new grid raises ... *)
Theorem C78_empty_chunk_refuted :
  exists s g bytes, degenerate_sizes = Ok s /\ made_sizes s /\
  new_hgrid (fun o : list N => o) tt zeros s 7%N = Ok g /\
  bytes = snd (SerializeHGrid true (fun o => o) (byte_ser true) (h_chunks g) g []) /\
  DeserializeHGrid true (fun o => o) (fun o => o) 1000 (byte_des true) bytes 0 = Throw RuntimeError.
Proof. exact empty_chunk_fails. Qed.
Print Assumptions C78_empty_chunk_refuted.

(** ... and bytes that name too many cells run into signed overflow. *)
Theorem C78_hostile_overflow_refuted :
  is_bytes hostile_hgrid /\ fits_vector hostile_hgrid /\
  DeserializeHGrid true (fun o : list N => o) (fun o => o) 1000 (byte_des true) hostile_hgrid 0 = UB.
Proof. exact hostile_hgrid_overflow. Qed.
Print Assumptions C78_hostile_overflow_refuted.

(** A grid with one chunk stored cell by cell and one stored as a whole. *)
Example C78_nonvacuous :
  reachable_hgrid (fun o => o) bytes_point sample_sizes always written_hgrid /\ made_sizes sample_sizes /\
  map (fun e => (c_fill (snd e), c_data (snd e))) (h_chunks written_hgrid)
    = [(CELL_FILLED, 5%N :: repeat 7%N 23); (CHUNK_FILLED, [9%N])] /\
  every_value (fun v => (v < 256 ^ N.of_nat 1)%N) written_hgrid /\
  (forall r c, In (r, c) (h_chunks written_hgrid) -> (len64 (c_data c) <= 1000)%N) /\
  h_origin written_hgrid = zeros /\
  round_trips (byte_ser true) (byte_des true) (fun v => (v < 256 ^ N.of_nat 1)%N) /\ stays_inside (byte_des true).
Proof.
  split; [exact written_reachable|]. split; [exact sample_made|]. destruct written_contents as (A & _ & B).
  split; [exact A|]. split; [exact written_values|]. split; [exact written_small|]. split; [exact B|].
  split; [|apply memcpyable_inside; cbn; lia]. apply SerializationProof2.rt_memcpyable, SerializationProof.uint_lawful. lia.
Qed.
