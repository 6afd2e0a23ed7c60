(** Model of the serialization of dynamic_spatial_hashed_voxel_grid.hpp.

    The order in which the std::unordered_map of chunks is written is not fixed by
    the code: it is a parameter ([order], the entries in the order of iteration).
    A fill status byte other than 1 or 2 is read as NOT_FILLED (the code keeps the
    byte, but every use compares it with CHUNK_FILLED and CELL_FILLED only, except
    for printing it or serializing it again). *)
From Flocq Require Import BinarySingleNaN.
From Verif Require Import Base ParallelismModel Double DoubleBits SerializationModel GraphModel VoxelModel HashedModel.
Local Open Scope N_scope.

Section HSerial.
Context {T Iso : Type}.
Variable le : bool.
Variable iso_to : Iso -> list N.
Variable iso_of : list N -> Iso.
Variable iso_inverse : Iso -> Iso.
Variable max_size : N.

Definition obj (x : double) : list N := to_obj (double_rep le) x.
(** ChunkRegion::Serialize, dynamic_spatial_hashed_voxel_grid.hpp:31-35: the four
    doubles of the base, the last of which is 1.0. *)
Definition SerializeRegion : Serializer region :=
  fun r buf => let '(x, y, z) := r in SerializeFixed 4 (obj x ++ obj y ++ obj z ++ obj d1) buf.
(** The k-th double of an object of several doubles. *)
Definition nth_double (k : nat) (b : list N) : double := of_obj (double_rep le) (firstn 8 (skipn (8 * k) b)).
(** ChunkRegion::Deserialize, dynamic_spatial_hashed_voxel_grid.hpp:37-45, with the
    constructor at 58-64. *)
Definition DeserializeRegion : Deserializer region :=
  fun buf off =>
    do b <- DeserializeFixed 4 buf off;
    if Beqb (nth_double 3 (fst b)) d1
    then MakeDeserialized (nth_double 0 (fst b), nth_double 1 (fst b), nth_double 2 (fst b)) (snd b)
    else Throw InvalidArgument.

(** DSHVGFillStatus as uint8_t, dynamic_spatial_hashed_voxel_grid.hpp:82. *)
Definition fill_code (f : FillStatus) : N := match f with NOT_FILLED => 0 | CHUNK_FILLED => 1 | CELL_FILLED => 2 end.
Definition fill_of (b : N) : FillStatus := if b =? 1 then CHUNK_FILLED else if b =? 2 then CELL_FILLED else NOT_FILLED.

(** Chunk SerializeSelf, dynamic_spatial_hashed_voxel_grid.hpp:308-327. *)
Definition SerializeChunk (item : Serializer T) : Serializer (@chunk T) :=
  fun c buf =>
    let b1 := snd (SerializeRegion (c_region c) buf) in
    let b2 := snd (SerializeGridSizes le (double_rep le) (c_sizes c) b1) in
    let b3 := snd (SerializeVectorLike false le item (c_data c) b2) in
    let b4 := snd (SerializeMemcpyable (uint_rep le 1) (fill_code (c_fill c)) b3) in
    written buf b4.
(** Chunk DeserializeSelf, dynamic_spatial_hashed_voxel_grid.hpp:329-386. *)
Definition DeserializeChunk (item : Deserializer T) : Deserializer (@chunk T) :=
  fun buf off =>
    do r <- DeserializeRegion buf off;
    let p1 := wrap (off + snd r) in
    do s <- DeserializeGridSizes le (double_rep le) buf p1;
    let p2 := wrap (p1 + snd s) in
    do d <- DeserializeVectorLike false le max_size item buf p2;
    let p3 := wrap (p2 + snd d) in
    do f <- DeserializeMemcpyable (uint_rep le 1) buf p3;
    let p4 := wrap (p3 + snd f) in
    let c := mkChunk (fst r) (fst d) (fst s) (fill_of (fst f)) in
    do good <- match c_fill c with
               | CELL_FILLED => do total <- TotalCells (c_sizes c); Ok (Z.of_nat (length (c_data c)) =? total)%Z
               | CHUNK_FILLED => Ok (length (c_data c) =? 1)%nat
               | NOT_FILLED => Ok (length (c_data c) =? 0)%nat
               end;
    if (good : bool) then MakeDeserialized c (sub64 p4 off) else Throw RuntimeError.

(** BaseSerializeSelf, dynamic_spatial_hashed_voxel_grid.hpp:632-658, for a grid
    without derived state. *)
Definition SerializeHGrid (item : Serializer T) (order : list (region * @chunk T)) (g : @hgrid T unit Iso) (buf : list N) : N * list N :=
  let b1 := snd (SerializeFixed 16 (iso_to (h_origin g)) buf) in
  let b2 := snd (item (h_default g) b1) in
  let b3 := snd (SerializeGridSizes le (double_rep le) (h_sizes g) b2) in
  let b4 := snd (SerializeMapLike false le SerializeRegion (SerializeChunk item) order b3) in
  let b5 := snd (SerializeMemcpyable (uint_rep le 1) (if h_initialized g then 1 else 0) b4) in
  written buf b5.
(** BaseDeserializeSelf, dynamic_spatial_hashed_voxel_grid.hpp:660-713, and
    DynamicSpatialHashedVoxelGrid::Deserialize, 1124-1134. *)
Definition DeserializeHGrid (item : Deserializer T) (buf : list N) (off : N) : outcome (@hgrid T unit Iso * N) :=
  do o <- DeserializeFixed 16 buf off;
  let p1 := wrap (off + snd o) in
  do def <- item buf p1;
  let p2 := wrap (p1 + snd def) in
  do s <- DeserializeGridSizes le (double_rep le) buf p2;
  let p3 := wrap (p2 + snd s) in
  do m <- DeserializeMapLike false le region_eqb DeserializeRegion (DeserializeChunk item) buf p3;
  let p4 := wrap (p3 + snd m) in
  do ini <- DeserializeMemcpyable (uint_rep le 1) buf p4;
  let p5 := wrap (p4 + snd ini) in
  let initialized := negb (fst ini =? 0) in
  if negb (Bool.eqb (sizes_valid (fst s)) initialized) then Throw RuntimeError else
  if (0 <? length (fst m))%nat && negb (sizes_valid (fst s)) then Throw RuntimeError else
  MakeDeserialized
    (mkHGrid (iso_of (fst o)) (iso_inverse (iso_of (fst o))) (fst def) (fst s) (fst m) initialized tt)
    (sub64 p5 off).
End HSerial.
