(** Model of include/common_robotics_utilities/dynamic_spatial_hashed_voxel_grid.hpp.

    double is IEEE binary64 (Double.v).  Memory allocation succeeds.  The
    std::unordered_map of chunks is an association list: find returns the entry
    whose key compares equal, emplace adds an entry when there is none (std::hash
    of equal regions is equal, and the order of iteration is not observable
    here).  Isometries, values and the derived class's callback are as in
    VoxelModel.v; grid-frame locations are Eigen::Vector4d. *)
From Verif Require Import Base ParallelismModel Double SerializationModel GraphModel VoxelModel.
From Flocq Require Import BinarySingleNaN.
Local Open Scope Z_scope.

(** std::floor. *)
Definition dfloor (x : double) : double :=
  match x with B754_finite _ _ _ _ => d_of_Z (dfloor_Z x) | _ => x end.

(** class ChunkRegion, dynamic_spatial_hashed_voxel_grid.hpp:23-77; the fourth
    coordinate is always 1.0. *)
Definition region : Type := (double * double * double)%type.
Definition region_eqb (a b : region) : bool :=
  let '(ax, ay, az) := a in let '(bx, by_, bz) := b in
  Beqb ax bx && Beqb ay by_ && Beqb az bz.

(** DSHVGFillStatus, DSHVGFoundStatus, DSHVGSetType, DSHVGSetStatus,
    dynamic_spatial_hashed_voxel_grid.hpp:79-89 (DSHVGFillType is SetType). *)
Inductive FillStatus : Type := NOT_FILLED | CHUNK_FILLED | CELL_FILLED.
Inductive FoundStatus : Type := NOT_FOUND | FOUND_IN_CHUNK | FOUND_IN_CELL | FIND_PROHIBITED.
Inductive SetType_ : Type := SET_CHUNK | SET_CELL.
Inductive SetStatus : Type := SET_PROHIBITED | DID_SET_CHUNK | DID_SET_CELL.

(** One axis of GetContainingChunkRegion,
    dynamic_spatial_hashed_voxel_grid.hpp:722-731. *)
Definition region_base (x size : double) : double := dmul (dfloor (ddiv x size)) size.

(** GetContainingChunkRegion, dynamic_spatial_hashed_voxel_grid.hpp:715-737. *)
Definition GetContainingChunkRegion (s : GridSizes) (l : vec4) : outcome region :=
  let '(x, y, z, _) := l in
  if sizes_valid s then
    Ok (region_base x (x_size s), region_base y (y_size s), region_base z (z_size s))
  else Throw RuntimeError.

(** GetLocationDataIndex, dynamic_spatial_hashed_voxel_grid.hpp:179-211. *)
Definition GetLocationDataIndex (base : region) (s : GridSizes) (l : vec4) : outcome Z :=
  let '(bx, by_, bz) := base in
  let '(lx, ly, lz, _) := l in
  let x := dsub lx bx in let y := dsub ly by_ in let z := dsub lz bz in
  if dlt x d0 || dlt y d0 || dlt z d0 ||
     dle (x_size s) x || dle (y_size s) y || dle (z_size s) z
  then Ok (-1)
  else
    do x_cell <- floor_to_int64 (ddiv x (cell_x_size s));
    do y_cell <- floor_to_int64 (ddiv y (cell_y_size s));
    do z_cell <- floor_to_int64 (ddiv z (cell_z_size s));
    if (x_cell <? 0) || (y_cell <? 0) || (z_cell <? 0) ||
       (num_x_cells s <=? x_cell) || (num_y_cells s <=? y_cell) || (num_z_cells s <=? z_cell)
    then Ok (-1)
    else GetDataIndex s (x_cell, y_cell, z_cell).

Section Hashed.
Context {T User Iso : Type}.
Variable iso_inverse : Iso -> Iso.
Variable iso_apply : Iso -> vec4 -> vec4.
(** OnMutableAccess(location), dynamic_spatial_hashed_voxel_grid.hpp:770-774. *)
Variable on_access : User -> vec4 -> User * bool.

(** class DynamicSpatialHashedVoxelGridChunk, members,
    dynamic_spatial_hashed_voxel_grid.hpp:174-177. *)
Record chunk : Type := mkChunk {
  c_region : region; c_data : list T; c_sizes : GridSizes; c_fill : FillStatus }.

(** AccessIndex, dynamic_spatial_hashed_voxel_grid.hpp:213-239: as read and as
    target of an assignment. *)
Definition chunk_get (c : chunk) (i : Z) : outcome T :=
  if (0 <=? i) && (i <? Z.of_nat (length (c_data c))) then raw_get (c_data c) (Z.to_nat i)
  else Throw OutOfRange.
Definition chunk_assign (c : chunk) (i : Z) (v : T) : outcome chunk :=
  if (0 <=? i) && (i <? Z.of_nat (length (c_data c))) then
    do d <- raw_set (c_data c) (Z.to_nat i) v; Ok (mkChunk (c_region c) d (c_sizes c) (c_fill c))
  else Throw OutOfRange.

(** SetCellFilledContents and SetChunkFilledContents,
    dynamic_spatial_hashed_voxel_grid.hpp:241-254. *)
Definition SetCellFilledContents (c : chunk) (v : T) : outcome chunk :=
  do n <- TotalCells (c_sizes c);
  Ok (mkChunk (c_region c) (repeat v (Z.to_nat n)) (c_sizes c) CELL_FILLED).
Definition SetChunkFilledContents (c : chunk) (v : T) : chunk :=
  mkChunk (c_region c) [v] (c_sizes c) CHUNK_FILLED.

(** Constructor, dynamic_spatial_hashed_voxel_grid.hpp:279-304. *)
Definition new_chunk (r : region) (s : GridSizes) (fill : SetType_) (v : T) : outcome chunk :=
  let c := mkChunk r [] s NOT_FILLED in
  if sizes_valid s then
    match fill with
    | SET_CELL => SetCellFilledContents c v
    | SET_CHUNK => Ok (SetChunkFilledContents c v)
    end
  else Throw InvalidArgument.

(** GetLocationImmutable4d of a chunk, dynamic_spatial_hashed_voxel_grid.hpp:451-476. *)
Definition chunk_get_location (c : chunk) (l : vec4) : outcome (FoundStatus * option T) :=
  match c_fill c with
  | CELL_FILLED =>
      do i <- GetLocationDataIndex (c_region c) (c_sizes c) l;
      if 0 <=? i then do v <- chunk_get c i; Ok (FOUND_IN_CELL, Some v) else Throw RuntimeError
  | CHUNK_FILLED => do v <- chunk_get c 0; Ok (FOUND_IN_CHUNK, Some v)
  | NOT_FILLED => Throw RuntimeError
  end.

(** GetLocationMutable4d of a chunk, dynamic_spatial_hashed_voxel_grid.hpp:478-502;
    the reference returned is the position of the element. *)
Definition chunk_find_location (c : chunk) (l : vec4) : outcome (FoundStatus * Z) :=
  match c_fill c with
  | CELL_FILLED =>
      do i <- GetLocationDataIndex (c_region c) (c_sizes c) l;
      if 0 <=? i then do _ <- chunk_get c i; Ok (FOUND_IN_CELL, i) else Throw RuntimeError
  | CHUNK_FILLED => do _ <- chunk_get c 0; Ok (FOUND_IN_CHUNK, 0)
  | NOT_FILLED => Throw RuntimeError
  end.

(** SetCellLocation4d, dynamic_spatial_hashed_voxel_grid.hpp:504-530 (532-558 is
    the same): the chunk left behind and the result. *)
Definition chunk_set_cell (c : chunk) (l : vec4) (v : T) : chunk * outcome SetStatus :=
  let expanded :=
    match c_fill c with
    | CHUNK_FILLED => do init <- chunk_get c 0; SetCellFilledContents c init
    | _ => Ok c
    end in
  match expanded with
  | Ok c1 =>
      match c_fill c1 with
      | CELL_FILLED =>
          match GetLocationDataIndex (c_region c1) (c_sizes c1) l with
          | Ok i =>
              if 0 <=? i then
                match chunk_assign c1 i v with
                | Ok c2 => (c2, Ok DID_SET_CELL)
                | Throw e => (c1, Throw e) | UB => (c1, UB) | Diverge => (c1, Diverge)
                end
              else (c1, Throw RuntimeError)
          | Throw e => (c1, Throw e) | UB => (c1, UB) | Diverge => (c1, Diverge)
          end
      | _ => (c1, Throw RuntimeError)
      end
  | Throw e => (c, Throw e) | UB => (c, UB) | Diverge => (c, Diverge)
  end.

(** SetChunkValue, dynamic_spatial_hashed_voxel_grid.hpp:560-571 and 573-584. *)
Definition chunk_set_value (c : chunk) (v : T) : chunk * outcome SetStatus :=
  match c_fill c with
  | NOT_FILLED => (c, Throw RuntimeError)
  | _ => (SetChunkFilledContents c v, Ok DID_SET_CHUNK)
  end.

(** class DynamicSpatialHashedVoxelGridBase, members,
    dynamic_spatial_hashed_voxel_grid.hpp:625-630, and the state of the derived
    class. *)
Record hgrid : Type := mkHGrid {
  h_origin : Iso; h_inverse : Iso; h_default : T; h_sizes : GridSizes;
  h_chunks : list (region * chunk); h_initialized : bool; h_user : User }.

Definition h_with_chunks (g : hgrid) (m : list (region * chunk)) : hgrid :=
  mkHGrid (h_origin g) (h_inverse g) (h_default g) (h_sizes g) m (h_initialized g) (h_user g).
Definition h_with_user (g : hgrid) (u : User) : hgrid :=
  mkHGrid (h_origin g) (h_inverse g) (h_default g) (h_sizes g) (h_chunks g) (h_initialized g) u.

(** std::unordered_map::find. *)
Definition find_chunk (m : list (region * chunk)) (r : region) : option chunk :=
  match find (fun e => region_eqb (fst e) r) m with Some e => Some (snd e) | None => None end.
(** Assignment through the iterator find returned. *)
Fixpoint put_chunk (m : list (region * chunk)) (r : region) (c : chunk) : list (region * chunk) :=
  match m with
  | [] => []
  | e :: rest => if region_eqb (fst e) r then (fst e, c) :: rest else e :: put_chunk rest r c
  end.

(** Constructor, dynamic_spatial_hashed_voxel_grid.hpp:792-810. *)
Definition new_hgrid (u : User) (origin : Iso) (s : GridSizes) (def : T) : outcome hgrid :=
  if sizes_valid s then Ok (mkHGrid origin (iso_inverse origin) def s [] true u)
  else Throw InvalidArgument.

(** AllocateChunkAt, dynamic_spatial_hashed_voxel_grid.hpp:739-750. *)
Definition AllocateChunkAt (g : hgrid) (r : region) (fill : SetType_) : outcome hgrid :=
  do c <- new_chunk r (h_sizes g) fill (h_default g);
  match find_chunk (h_chunks g) r with
  | Some _ => Throw RuntimeError
  | None => Ok (h_with_chunks g (h_chunks g ++ [(r, c)]))
  end.

(** GetLocationImmutable4d, dynamic_spatial_hashed_voxel_grid.hpp:859-875. *)
Definition HGetLocationImmutable4d (g : hgrid) (l : vec4) : outcome (FoundStatus * option T) :=
  let gl := iso_apply (h_inverse g) l in
  do r <- GetContainingChunkRegion (h_sizes g) gl;
  match find_chunk (h_chunks g) r with
  | Some c => chunk_get_location c gl
  | None => Ok (NOT_FOUND, None)
  end.

(** SetLocation4d, dynamic_spatial_hashed_voxel_grid.hpp:930-965 (983-1018 is the
    same).  After allocating a chunk the function calls itself; [fuel] bounds the
    depth of those calls. *)
Fixpoint HSetLocation4d (fuel : nat) (g : hgrid) (l : vec4) (t : SetType_) (v : T)
  : hgrid * outcome SetStatus :=
  match fuel with
  | O => (g, Diverge)
  | S fuel' =>
    let gl := iso_apply (h_inverse g) l in
    let '(u, allowed) := on_access (h_user g) gl in
    let g1 := h_with_user g u in
    if allowed then
      match GetContainingChunkRegion (h_sizes g1) gl with
      | Ok r =>
          match find_chunk (h_chunks g1) r with
          | Some c =>
              let '(c', res) := match t with SET_CELL => chunk_set_cell c gl v
                                           | SET_CHUNK => chunk_set_value c v end in
              (h_with_chunks g1 (put_chunk (h_chunks g1) r c'), res)
          | None =>
              match AllocateChunkAt g1 r t with
              | Ok g2 => HSetLocation4d fuel' g2 l t v
              | Throw e => (g1, Throw e) | UB => (g1, UB) | Diverge => (g1, Diverge)
              end
          end
      | Throw e => (g1, Throw e) | UB => (g1, UB) | Diverge => (g1, Diverge)
      end
    else (g1, Ok SET_PROHIBITED)
  end.

(** GetLocationMutable4d, dynamic_spatial_hashed_voxel_grid.hpp:890-912, followed
    by an assignment through the reference if there is one. *)
Definition HAssignLocation4d (g : hgrid) (l : vec4) (v : T) : hgrid * outcome FoundStatus :=
  let gl := iso_apply (h_inverse g) l in
  match GetContainingChunkRegion (h_sizes g) gl with
  | Ok r =>
      match find_chunk (h_chunks g) r with
      | Some c =>
          let '(u, allowed) := on_access (h_user g) gl in
          let g1 := h_with_user g u in
          if allowed then
            match chunk_find_location c gl with
            | Ok (st, i) =>
                match chunk_assign c i v with
                | Ok c' => (h_with_chunks g1 (put_chunk (h_chunks g1) r c'), Ok st)
                | Throw e => (g1, Throw e) | UB => (g1, UB) | Diverge => (g1, Diverge)
                end
            | Throw e => (g1, Throw e) | UB => (g1, UB) | Diverge => (g1, Diverge)
            end
          else (g1, Ok FIND_PROHIBITED)
      | None => (g, Ok NOT_FOUND)
      end
  | Throw e => (g, Throw e) | UB => (g, UB) | Diverge => (g, Diverge)
  end.

(** Calls that can change what reads return.  SetDefaultValue and
    UpdateOriginTransform: dynamic_spatial_hashed_voxel_grid.hpp:1033-1036,
    1048-1052. *)
Inductive hcall : Type :=
| HSet (l : vec4) (t : SetType_) (v : T)
| HAssign (l : vec4) (v : T)
| HSetDefault (v : T)
| HUpdateOrigin (o : Iso).

Inductive hreply : Type :=
| HStatus (s : SetStatus) | HFound (s : FoundStatus) | HReturned | HRaised (e : exn) | HUndefined.

Definition settle {B} (old : hgrid) (x : hgrid * outcome B) (k : B -> hreply) : hgrid * hreply :=
  match snd x with
  | Ok b => (fst x, k b)
  | Throw e => (fst x, HRaised e)
  | UB | Diverge => (old, HUndefined)
  end.

(** Depth of the recursion of SetLocation4d allowed before a call counts as not
    returning (two suffice, see HashedProof). *)
Definition depth : nat := 1000.

Definition hperform (g : hgrid) (c : hcall) : hgrid * hreply :=
  match c with
  | HSet l t v => settle g (HSetLocation4d depth g l t v) HStatus
  | HAssign l v => settle g (HAssignLocation4d g l v) HFound
  | HSetDefault v =>
      (mkHGrid (h_origin g) (h_inverse g) v (h_sizes g) (h_chunks g) (h_initialized g) (h_user g), HReturned)
  | HUpdateOrigin o =>
      (mkHGrid o (iso_inverse o) (h_default g) (h_sizes g) (h_chunks g) (h_initialized g) (h_user g), HReturned)
  end.

Fixpoint hperform_all (g : hgrid) (cs : list hcall) : hgrid * list (hcall * hreply) :=
  match cs with
  | [] => (g, [])
  | c :: r => let '(g1, rep) := hperform g c in
              let '(g2, h) := hperform_all g1 r in (g2, (c, rep) :: h)
  end.
End Hashed.
