(** Model of hash_combine (utility.hpp:40-54) and of the std::hash specializations built on it. *)
From Flocq Require Import BinarySingleNaN.
From Verif Require Import Base Double VoxelModel HashedModel.
Local Open Scope Z_scope.

(** std::size_t, 64 bits. *)
Definition size_word (z : Z) : Z := z mod 2 ^ 64.
(** One member, utility.hpp:51-52: [h] is std::hash of the member; additions and the left shift
    wrap. *)
Definition hash_step (seed h : Z) : Z :=
  Z.lxor seed (size_word (h + 0x9e3779b9 + size_word (Z.shiftl seed 6) + Z.shiftr seed 2)).
(** hash_combine, utility.hpp:43-54: the hashes of the members in order. *)
Definition hash_combine (seed : Z) (members : list Z) : Z := fold_left hash_step members seed.
(** CRU_MAKE_HASHABLE, utility.hpp:72-83: the members of [t] (their hashes) into 0. *)
Definition make_hashable {T} (members : T -> list Z) (t : T) : Z := hash_combine 0 (members t).
(** std::hash<GridIndex>, voxel_grid.hpp:1412-1423; [hash_int] is std::hash<int64_t>. *)
Definition GridIndexHash (hash_int : Z -> Z) (index : Z * Z * Z) : Z :=
  let '(x, y, z) := index in hash_combine 0 [hash_int x; hash_int y; hash_int z].
(** GridIndex::operator==, voxel_grid.hpp:46-49. *)
Definition GridIndexEqual (a b : Z * Z * Z) : bool :=
  let '(x, y, z) := a in let '(x', y', z') := b in (x =? x') && (y =? y') && (z =? z').
(** std::hash<ChunkRegion>, dynamic_spatial_hashed_voxel_grid.hpp:1159-1171: three of the four
    components of the base; [hash_double] is std::hash<double>. *)
Definition ChunkRegionHash (hash_double : double -> Z) (r : region) : Z :=
  let '(x, y, z) := r in hash_combine 0 [hash_double x; hash_double y; hash_double z].
(** Finding a key in a std::unordered_map of chunks: only the entries in the bucket of the
    key's hash are compared with it. *)
Definition bucket_find {C} (hash : region -> Z) (buckets : Z) (m : list (region * C)) (r : region) : option C :=
  match find (fun e => (hash (fst e) mod buckets =? hash r mod buckets) && region_eqb (fst e) r) m with
  | Some e => Some (snd e) | None => None end.
