(** Specification vocabulary for the voxel grid (C25-C30, C75, C76). *)
From Coq Require Import List Reals.
From Flocq Require Import Core BinarySingleNaN.
From Verif Require Import Base ParallelismModel Double SerializationModel SerializationSpec VoxelModel.
Local Open Scope Z_scope.

(** Sizes a caller can have: made by one of the constructors, with a number of
    cells (and of cells per layer) that is an int64_t. *)
Definition made_sizes (s : GridSizes) : Prop :=
  ((exists cx cy cz xs ys zs, GridSizesBySize cx cy cz xs ys zs = Ok s) \/
   (exists cx cy cz nx ny nz, GridSizesByCells cx cy cz nx ny nz = Ok s)) /\
  num_x_cells s * num_y_cells s <= int64_max /\
  num_x_cells s * num_y_cells s * num_z_cells s <= int64_max.

Definition in_grid (dims : Z * Z * Z) (i : GridIndex) : Prop :=
  let '(nx, ny, nz) := dims in let '(x, y, z) := i in
  0 <= x < nx /\ 0 <= y < ny /\ 0 <= z < nz.
Definition dims_of (s : GridSizes) : Z * Z * Z := (num_x_cells s, num_y_cells s, num_z_cells s).

(** Row-major position of a cell. *)
Definition position (dims : Z * Z * Z) (i : GridIndex) : Z :=
  let '(nx, ny, nz) := dims in let '(x, y, z) := i in (x * ny + y) * nz + z.

Section View.
Context {T User Iso : Type}.
Variable iso_inverse : Iso -> Iso.
Variable iso_apply : Iso -> vec4 -> vec4.

(** What a user knows of a grid: its dimensions, its default value, the content
    of each cell, and the cell of each location. *)
Record view : Type := mkView {
  v_dims : Z * Z * Z; v_default : T; v_cell : GridIndex -> T;
  v_where : vec4 -> outcome GridIndex }.

Definition index_eqb (i j : GridIndex) : bool :=
  let '(a, b, c) := i in let '(x, y, z) := j in (a =? x) && (b =? y) && (c =? z).

Definition put (w : view) (p : GridIndex -> bool) (val : GridIndex -> T) : view :=
  mkView (v_dims w) (v_default w) (fun i => if p i then val i else v_cell w i) (v_where w).
Definition everywhere (_ : GridIndex) : bool := true.

Definition locate (s : GridSizes) (o : Iso) (l : vec4) : outcome GridIndex :=
  LocationInGridFrameToGridIndex4d s (iso_apply (iso_inverse o) l).

(** How a call with its reply changes what the user knows: only successful writes
    matter, and they matter where they were directed. [s] are the sizes of the
    grid. *)
Definition learn (s : GridSizes) (w : view) (cr : call * reply) : view :=
  match cr with
  | (CallSetIndex _ i v, Status SUCCESS) | (CallAssignIndex _ i v, Status SUCCESS) =>
      put w (index_eqb i) (fun _ => v)
  | (CallSetLocation l v, Status SUCCESS) | (CallAssignLocation l v, Status SUCCESS) =>
      put w (fun j => match v_where w l with Ok i => index_eqb i j | _ => false end) (fun _ => v)
  | (CallSetDataIndex k v, Returned) | (CallAssignDataIndex k v, Returned) =>
      put w (fun j => position (v_dims w) j =? k) (fun _ => v)
  | (CallSetRawData d, Returned) =>
      put w everywhere (fun j => nth (Z.to_nat (position (v_dims w) j)) d (v_default w))
  | (CallResetWithDefault, Returned) => put w everywhere (fun _ => v_default w)
  | (CallResetWithNewValue v, Returned) => put w everywhere (fun _ => v)
  | (CallResetWithNewDefault v, Returned) =>
      mkView (v_dims w) v (fun _ => v) (v_where w)
  | (CallSetDefaultValue v, Returned) => mkView (v_dims w) v (v_cell w) (v_where w)
  | (CallUpdateOriginTransform o, Returned) =>
      mkView (v_dims w) (v_default w) (v_cell w) (locate s o)
  | (CallInitialize o s' def _, Returned) =>
      mkView (dims_of s') def (fun _ => def) (locate s' o)
  | _ => w
  end.

(** Sizes after a call. *)
Definition learn_sizes (s : GridSizes) (cr : @call T Iso * reply) : GridSizes :=
  match cr with (CallInitialize _ s' _ _, Returned) => s' | _ => s end.

Fixpoint learn_all (s : GridSizes) (w : view) (h : list (call * reply)) : view :=
  match h with
  | [] => w
  | cr :: r => learn_all (learn_sizes s cr) (learn s w cr) r
  end.

(** A new grid: every cell holds the default value. *)
Definition first_view (s : GridSizes) (o : Iso) (def : T) : view :=
  mkView (dims_of s) def (fun _ => def) (locate s o).

(** Initialize calls in the history use sizes made by the constructors. *)
Definition calls_made (cs : list (@call T Iso)) : Prop :=
  forall o s def oob, In (CallInitialize o s def oob) cs -> made_sizes s.

(** The observable fields of a grid that hold cell contents, sizes and settings
    (everything except the derived class's own state). *)
Definition same_contents (g g' : @grid T User Iso) : Prop :=
  g_data g' = g_data g /\ g_sizes g' = g_sizes g /\ g_default g' = g_default g /\
  g_oob g' = g_oob g /\ g_origin g' = g_origin g /\ g_inverse g' = g_inverse g /\
  g_initialized g' = g_initialized g.

(** Calls that take a location may run into the undefined conversion; all the
    others are defined. *)
Definition takes_location (c : @call T Iso) : bool :=
  match c with CallSetLocation _ _ | CallAssignLocation _ _ => true | _ => false end.

(** Calls that consult the derived class. *)
Definition gated_call (c : @call T Iso) : bool :=
  match c with
  | CallSetIndex _ _ _ | CallAssignIndex _ _ _ | CallSetLocation _ _ | CallAssignLocation _ _
  | CallSetDataIndex _ _ | CallAssignDataIndex _ _ | CallSetRawData _ => true
  | CallSetDefaultValue _ | CallSetOOBValue _ | CallUpdateOriginTransform _ => true
  | _ => false
  end.


Variable on_access : User -> Z -> Z -> Z -> User * bool.
Variable on_raw : User -> User * bool.

(** Grids a user can have. *)
Definition reachable_grid (g : @grid T User Iso) : Prop :=
  exists identity t0 u o s def oob cs g0 h,
    made_sizes s /\ calls_made cs /\
    new_grid iso_inverse identity t0 u o s def oob = Ok g0 /\
    perform_all iso_inverse iso_apply on_access on_raw g0 cs = (g, h).

End View.

(** VoxelGrid's callbacks, voxel_grid.hpp:1347-1357. *)
Definition allow_access (u : unit) (_ _ _ : Z) : unit * bool := (u, true).
Definition allow_raw (u : unit) : unit * bool := (u, true).

(** The interval of cell sizes and indices for which the statement is proved. *)
Local Open Scope R_scope.
Definition ordinary_cell (c : double) : Prop :=
  is_finite c = true /\ bpow radix2 (-1020) <= B2R c <= bpow radix2 970.

(** Locations whose scaled coordinates are below 2^62 convert without undefined
    behaviour. *)
Definition near (inv_cell x : double) : Prop :=
  is_finite x = true /\ is_finite inv_cell = true /\ Rabs (B2R x * B2R inv_cell) <= bpow radix2 62.

