(** The setters of voxel_grid.hpp and dynamic_spatial_hashed_voxel_grid.hpp take the value by
    reference.  Here the argument may refer into the grid itself; the functions are those of
    VoxelModel.v and HashedModel.v, with the moment at which the value is read made explicit.
    Assigning an element to itself does nothing. *)
From Verif Require Import Base ParallelismModel Double SerializationModel GraphModel VoxelModel HashedModel.
Local Open Scope Z_scope.

Section Voxel.
Context {T User Iso : Type}.
Variable iso_inverse : Iso -> Iso.
Variable on_access : User -> Z -> Z -> Z -> User * bool.
Variable on_raw : User -> User * bool.
Notation grid := (@grid T User Iso).

(** What a const T& can refer to: an object outside the grid, an element of data_ (as given by
    GetIndexImmutable and the like), default_value_ (GetDefaultValue) or oob_value_
    (GetOOBValue). *)
Inductive vref : Type := Elsewhere (v : T) | OwnCell (k : nat) | OwnDefault | OwnOOB.
(** The object read; an element that was destroyed is no longer there. *)
Definition vread (g : grid) (r : vref) : outcome T :=
  match r with
  | Elsewhere v => Ok v
  | OwnCell k => raw_get (g_data g) k
  | OwnDefault => Ok (g_default g)
  | OwnOOB => Ok (g_oob g)
  end.

(** SetContents, voxel_grid.hpp:579-584: clear(), then resize(), which reads the value if it
    makes elements. *)
Definition SetContentsRef (g : grid) (r : vref) : outcome grid :=
  let cleared := with_data g [] in
  do n <- TotalCells (g_sizes cleared);
  if (Z.to_nat n =? 0)%nat then Ok cleared
  else do v <- vread cleared r; Ok (with_data cleared (repeat v (Z.to_nat n))).
(** ResetWithDefault, ResetWithNewValue and ResetWithNewDefault, voxel_grid.hpp:786-800. *)
Definition ResetWithDefaultRef (g : grid) : outcome grid := SetContentsRef g OwnDefault.
Definition ResetWithNewValueRef (g : grid) (r : vref) : outcome grid := SetContentsRef g r.
Definition ResetWithNewDefaultRef (g : grid) (r : vref) : outcome grid :=
  do v <- vread g r; SetContentsRef (with_default g v) OwnDefault.
(** SetDefaultValue and SetOOBValue, voxel_grid.hpp:1134-1139. *)
Definition with_oob (g : grid) (v : T) : grid :=
  mkGrid (g_origin g) (g_inverse g) (g_default g) v (g_data g) (g_sizes g) (g_initialized g) (g_user g).
Definition SetDefaultValueRef (g : grid) (r : vref) : outcome grid := do v <- vread g r; Ok (with_default g v).
Definition SetOOBValueRef (g : grid) (r : vref) : outcome grid := do v <- vread g r; Ok (with_oob g v).
(** Initialize, voxel_grid.hpp:721-740: default_value_ is assigned before oob_value_ is. *)
Definition InitializeRef (g : grid) (origin : Iso) (s : GridSizes) (def oob : vref) : outcome grid :=
  if sizes_valid s then
    let g1 := mkGrid origin (iso_inverse origin) (g_default g) (g_oob g) (g_data g) (g_sizes g) (g_initialized g) (g_user g) in
    do d <- vread g1 def;
    let g2 := with_default g1 d in
    do o <- vread g2 oob;
    let g3 := with_oob g2 o in
    do g4 <- SetContentsRef (mkGrid (g_origin g3) (g_inverse g3) (g_default g3) (g_oob g3) (g_data g3) s (g_initialized g3) (g_user g3)) OwnDefault;
    Ok (mkGrid (g_origin g4) (g_inverse g4) (g_default g4) (g_oob g4) (g_data g4) (g_sizes g4) true (g_user g4))
  else Throw InvalidArgument.
(** SetIndex, voxel_grid.hpp:966-1004. *)
Definition SetIndexRef (f : flavour) (g : grid) (i : GridIndex) (r : vref) : outcome (grid * AccessStatus) :=
  if IndexInBounds (g_sizes g) i then
    let '(u, allowed) := consult on_access f (g_user g) i in
    let g' := with_user g u in
    if allowed then
      do k <- GetDataIndex (g_sizes g) i;
      do _ <- AccessIndex g' k;
      do v <- vread g' r;
      do g'' <- AssignIndex g' k v; Ok (g'', SUCCESS)
    else Ok (g', MUTABLE_ACCESS_PROHIBITED)
  else Ok (g, OUT_OF_BOUNDS).
(** SetDataIndex, voxel_grid.hpp:1092-1102. *)
Definition SetDataIndexRef (g : grid) (i : Z) (r : vref) : grid * outcome unit :=
  let '(u, allowed) := on_raw (g_user g) in
  let g' := with_user g u in
  if allowed then
    match (do _ <- AccessIndex g' i; do v <- vread g' r; AssignIndex g' i v) with
    | Ok g'' => (g'', Ok tt)
    | Throw e => (g', Throw e)
    | UB => (g', UB)
    | Diverge => (g', Diverge)
    end
  else (g', Throw RuntimeError).
End Voxel.
Arguments vref : clear implicits.

Section Hashed.
Context {T User Iso : Type}.
Variable iso_apply : Iso -> vec4 -> vec4.
Variable on_access : User -> vec4 -> User * bool.
Notation hgrid := (@hgrid T User Iso).
Notation chunk := (@chunk T).

(** What a const T& can refer to: an object outside the grid, default_value_ (GetDefaultValue),
    or an element of the chunk of a region (as given by GetLocationImmutable and the like). *)
Inductive href : Type := HElsewhere (v : T) | HOwnDefault | HOwnCell (r : region) (k : nat).
Definition hread (g : hgrid) (ref : href) : outcome T :=
  match ref with
  | HElsewhere v => Ok v
  | HOwnDefault => Ok (h_default g)
  | HOwnCell r k => match find_chunk (h_chunks g) r with Some c => raw_get (c_data c) k | None => UB end
  end.
(** The same after clear() was called on the data of the chunk of [cleared]: references to its
    elements are invalid. *)
Definition hread_cleared (g : hgrid) (cleared : region) (ref : href) : outcome T :=
  match ref with
  | HOwnCell r _ => if region_eqb r cleared then UB else hread g ref
  | _ => hread g ref
  end.

(** SetCellLocation4d, dynamic_spatial_hashed_voxel_grid.hpp:504-530, of the chunk [c] of [r]. *)
Definition chunk_set_cell_ref (g : hgrid) (r : region) (c : chunk) (l : vec4) (ref : href) : chunk * outcome SetStatus :=
  let expanded :=
    match c_fill c with
    | CHUNK_FILLED => do init <- chunk_get c 0; do c1 <- SetCellFilledContents c init; Ok (c1, true)
    | _ => Ok (c, false)
    end in
  match expanded with
  | Ok (c1, was_cleared) =>
      match c_fill c1 with
      | CELL_FILLED =>
          match GetLocationDataIndex (c_region c1) (c_sizes c1) l with
          | Ok i =>
              if 0 <=? i then
                match (do _ <- chunk_get c1 i;
                       do v <- (if was_cleared : bool then hread_cleared g r ref else hread g ref); chunk_assign c1 i v) with
                | Ok c2 => (c2, Ok DID_SET_CELL)
                | Throw e => (c1, Throw e) | UB => (c1, UB) | Diverge => (c1, Diverge)
                end
              else (c1, Throw RuntimeError)
          | Throw e => (c1, Throw e) | UB => (c1, UB) | Diverge => (c1, Diverge)
          end
      | _ => (c1, Throw RuntimeError)
      end
  | Throw e => (c, Throw e) | UB => (c, UB) | Diverge => (c, Diverge)
  end.
(** SetChunkValue, dynamic_spatial_hashed_voxel_grid.hpp:560-571 with 249-254: clear(), then
    resize(1, value). *)
Definition chunk_set_value_ref (g : hgrid) (r : region) (c : chunk) (ref : href) : chunk * outcome SetStatus :=
  match c_fill c with
  | NOT_FILLED => (c, Throw RuntimeError)
  | _ =>
      match hread_cleared g r ref with
      | Ok v => (SetChunkFilledContents c v, Ok DID_SET_CHUNK)
      | Throw e => (c, Throw e) | UB => (c, UB) | Diverge => (c, Diverge)
      end
  end.
(** SetLocation4d, dynamic_spatial_hashed_voxel_grid.hpp:930-965. *)
Fixpoint HSetLocationRef (fuel : nat) (g : hgrid) (l : vec4) (t : SetType_) (ref : href) : hgrid * outcome SetStatus :=
  match fuel with
  | O => (g, Diverge)
  | S fuel' =>
    let gl := iso_apply (h_inverse g) l in
    let '(u, allowed) := on_access (h_user g) gl in
    let g1 := h_with_user g u in
    if allowed then
      match GetContainingChunkRegion (h_sizes g1) gl with
      | Ok r =>
          match find_chunk (h_chunks g1) r with
          | Some c =>
              let '(c', res) := match t with SET_CELL => chunk_set_cell_ref g1 r c gl ref
                                           | SET_CHUNK => chunk_set_value_ref g1 r c ref end in
              (h_with_chunks g1 (put_chunk (h_chunks g1) r c'), res)
          | None =>
              match AllocateChunkAt g1 r t with
              | Ok g2 => HSetLocationRef fuel' g2 l t ref
              | Throw e => (g1, Throw e) | UB => (g1, UB) | Diverge => (g1, Diverge)
              end
          end
      | Throw e => (g1, Throw e) | UB => (g1, UB) | Diverge => (g1, Diverge)
      end
    else (g1, Ok SET_PROHIBITED)
  end.
End Hashed.
Arguments href : clear implicits.
