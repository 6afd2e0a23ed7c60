(** Specification vocabulary for the dynamic spatial hashed voxel grid (C31, C32,
    C77, C78). *)
From Coq Require Import List Reals.
From Flocq Require Import Core BinarySingleNaN.
From Verif Require Import Base ParallelismModel Double SerializationModel SerializationSpec VoxelModel VoxelSpec HashedModel.
Local Open Scope Z_scope.

(** The chunk a grid-frame location belongs to, and the cell inside it: [None]
    when the computed offset does not fall in the chunk (the defect of C32).
    These only fix which locations share a chunk and a cell;
    C31_ordinary_locations says where the boundaries are. *)
Definition chunk_of (s : GridSizes) (l : vec4) : region :=
  let '(x, y, z, _) := l in
  (region_base x (x_size s), region_base y (y_size s), region_base z (z_size s)).
Definition cell_of (s : GridSizes) (l : vec4) : option Z :=
  match GetLocationDataIndex (chunk_of s l) s l with
  | Ok i => if 0 <=? i then Some i else None
  | _ => None
  end.

Inductive presence : Type := Absent | Whole | PerCell.

Section View.
Context {T User Iso : Type}.
Variable iso_inverse : Iso -> Iso.
Variable iso_apply : Iso -> vec4 -> vec4.
Variable s : GridSizes.

(** What a user knows: which chunks exist and whether they hold one value or a
    value per cell, those values, the default value, and the frame. *)
Record hview : Type := mkHView {
  w_presence : region -> presence; w_value : region -> Z -> T; w_default : T; w_frame : vec4 -> vec4 }.

Definition first_hview (o : Iso) (def : T) : hview :=
  mkHView (fun _ => Absent) (fun _ _ => def) def (iso_apply (iso_inverse o)).

Definition set_presence (w : hview) (r : region) (p : presence) (k : Z -> T) : hview :=
  mkHView (fun q => if region_eqb r q then p else w_presence w q)
          (fun q => if region_eqb r q then k else w_value w q) (w_default w) (w_frame w).

(** The values of the cells of a chunk before a write to one of them. *)
Definition current (w : hview) (r : region) : Z -> T :=
  match w_presence w r with Absent => fun _ => w_default w | _ => w_value w r end.

Definition knows_chunk (w : hview) (l : vec4) (v : T) : hview :=
  set_presence w (chunk_of s (w_frame w l)) Whole (fun _ => v).
Definition knows_cell (w : hview) (l : vec4) (v : T) : hview :=
  let r := chunk_of s (w_frame w l) in
  set_presence w r PerCell
    (fun i => match cell_of s (w_frame w l) with
              | Some j => if i =? j then v else current w r i
              | None => current w r i end).
(** A cell write that raised has still made the chunk exist. *)
Definition knows_touched (w : hview) (l : vec4) : hview :=
  let r := chunk_of s (w_frame w l) in set_presence w r PerCell (current w r).

Definition hlearn (w : hview) (cr : @hcall T Iso * hreply) : hview :=
  match cr with
  | (HSet l SET_CELL v, HStatus DID_SET_CELL) => knows_cell w l v
  | (HSet l SET_CHUNK v, HStatus DID_SET_CHUNK) => knows_chunk w l v
  | (HSet l SET_CELL v, HRaised _) => knows_touched w l
  | (HAssign l v, HFound FOUND_IN_CELL) => knows_cell w l v
  | (HAssign l v, HFound FOUND_IN_CHUNK) => knows_chunk w l v
  | (HSetDefault v, HReturned) => mkHView (w_presence w) (w_value w) v (w_frame w)
  | (HUpdateOrigin o, HReturned) =>
      mkHView (w_presence w) (w_value w) (w_default w) (iso_apply (iso_inverse o))
  | _ => w
  end.
Definition hlearn_all (w : hview) (h : list (@hcall T Iso * hreply)) : hview := fold_left hlearn h w.

(** Asked again about the same location at once, the derived class gives the same
    answer. *)
Definition steady (on_access : User -> vec4 -> User * bool) : Prop :=
  forall u l, snd (on_access (fst (on_access u l)) l) = snd (on_access u l).

(** The grids a user can have. *)
Definition reachable_hgrid (on_access : User -> vec4 -> User * bool) (g : @hgrid T User Iso) : Prop :=
  exists u o def cs g0 h,
    new_hgrid iso_inverse u o s def = Ok g0 /\
    hperform_all iso_inverse iso_apply on_access g0 cs = (g, h).

End View.

(** Same contents, whatever the derived class's own state. *)
Definition same_hcontents {T User Iso} (g g' : @hgrid T User Iso) : Prop :=
  h_chunks g' = h_chunks g /\ h_sizes g' = h_sizes g /\ h_default g' = h_default g /\
  h_origin g' = h_origin g /\ h_inverse g' = h_inverse g /\ h_initialized g' = h_initialized g.

(** One axis of a location that is at least 1/1024 of a cell away from the
    boundaries of cell [j] of chunk [k], at most 2^20 chunks from the origin, with
    chunks of [n] <= 2^20 cells of size [c]; [size] is the computed chunk size. *)
Local Open Scope R_scope.
Definition inside_cell (x c size : double) (n k j : Z) : Prop :=
  is_finite x = true /\ is_finite c = true /\ size = dmul (d_of_Z n) c /\
  bpow radix2 (-500) <= B2R c <= bpow radix2 500 /\
  (0 < n <= 2 ^ 20)%Z /\ (- 2 ^ 20 <= k <= 2 ^ 20)%Z /\ (0 <= j < n)%Z /\
  IZR k * B2R size + (IZR j + / 1024) * B2R c <= B2R x <= IZR k * B2R size + (IZR j + 1 - / 1024) * B2R c.

(** A location in the grid frame that is well inside cell [j] of chunk [k]. *)
Definition inside_location (s : GridSizes) (l : vec4) (k j : Z * Z * Z) : Prop :=
  let '(x, y, z, _) := l in let '(kx, ky, kz) := k in let '(jx, jy, jz) := j in
  inside_cell x (cell_x_size s) (x_size s) (num_x_cells s) kx jx /\
  inside_cell y (cell_y_size s) (y_size s) (num_y_cells s) ky jy /\
  inside_cell z (cell_z_size s) (z_size s) (num_z_cells s) kz jz.
