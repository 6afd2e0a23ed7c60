(** Model of include/common_robotics_utilities/voxel_grid.hpp.

    double is IEEE binary64 (Double.v); int64_t arithmetic is checked, overflow is
    undefined behaviour ([i64]).  Memory allocation succeeds.  The backing store
    is std::vector<T>, a list.  Eigen::Isometry3d is an abstract type with its
    inverse and its action on homogeneous points.  A derived class is given by the
    state it adds and its two access callbacks, which may change that state but
    not the base class part; VoxelGrid is the instance whose callbacks always
    answer true. *)
From Verif Require Import Base ParallelismModel Double SerializationModel GraphModel.
From Flocq Require Import BinarySingleNaN.
Local Open Scope Z_scope.

(** std::floor of a finite double, as an integer. *)
Definition dfloor_Z (x : double) : Z :=
  match x with
  | B754_finite s m e _ =>
      let v := if s then Z.neg m else Z.pos m in
      if 0 <=? e then v * 2 ^ e else v / 2 ^ (- e)
  | _ => 0
  end.

(** static_cast<int64_t>(std::floor(x)): undefined behaviour when x is not finite
    or the result is not an int64_t. *)
Definition floor_to_int64 (x : double) : outcome Z :=
  if is_finite x then i64 (dfloor_Z x) else UB.

(** static_cast<int64_t>(std::ceil(x)). *)
Definition ceil_to_int64 (x : double) : outcome Z :=
  if is_finite x then i64 (- dfloor_Z (Bopp x)) else UB.

Definition d1 : double := d_of_Z 1.
(** The literal 0.5. *)
Definition dhalf : double := ddiv d1 (d_of_Z 2).

(** class GridSizes, members, voxel_grid.hpp:60-75. *)
Record GridSizes : Type := mkSizes {
  cell_x_size : double; cell_y_size : double; cell_z_size : double;
  inv_cell_x_size : double; inv_cell_y_size : double; inv_cell_z_size : double;
  x_size : double; y_size : double; z_size : double;
  num_x_cells : Z; num_y_cells : Z; num_z_cells : Z;
  stride1 : Z; stride2 : Z; sizes_valid : bool }.

(** DefaultInitialize, voxel_grid.hpp:166-183. *)
Definition default_sizes : GridSizes :=
  mkSizes d0 d0 d0 d0 d0 d0 d0 d0 d0 0 0 0 0 0 false.

(** CheckPositiveValid(double) and (int64_t), voxel_grid.hpp:77-85. *)
Definition CheckPositiveValidD (d : double) : bool := is_finite d && dlt d0 d.
Definition CheckPositiveValidI (n : Z) : bool := 0 <? n.

(** The assignments common to both Initialize functions,
    voxel_grid.hpp:100-118 and 141-158. *)
Definition set_sizes (cx cy cz : double) (nx ny nz : Z) : outcome GridSizes :=
  do s1 <- i64 (ny * nz);
  Ok (mkSizes cx cy cz (ddiv d1 cx) (ddiv d1 cy) (ddiv d1 cz)
        (dmul (d_of_Z nx) cx) (dmul (d_of_Z ny) cy) (dmul (d_of_Z nz) cz)
        nx ny nz s1 nz true).

(** Initialize with sizes of the grid, voxel_grid.hpp:87-126; [None] is the
    result false. *)
Definition InitializeBySize (cx cy cz xs ys zs : double) : outcome (option GridSizes) :=
  if CheckPositiveValidD cx && CheckPositiveValidD cy && CheckPositiveValidD cz &&
     CheckPositiveValidD xs && CheckPositiveValidD ys && CheckPositiveValidD zs then
    do nx <- ceil_to_int64 (ddiv xs cx);
    do ny <- ceil_to_int64 (ddiv ys cy);
    do nz <- ceil_to_int64 (ddiv zs cz);
    do s <- set_sizes cx cy cz nx ny nz; Ok (Some s)
  else Ok None.

(** Initialize with numbers of cells, voxel_grid.hpp:128-164. *)
Definition InitializeByCells (cx cy cz : double) (nx ny nz : Z) : outcome (option GridSizes) :=
  if CheckPositiveValidD cx && CheckPositiveValidD cy && CheckPositiveValidD cz &&
     CheckPositiveValidI nx && CheckPositiveValidI ny && CheckPositiveValidI nz then
    do s <- set_sizes cx cy cz nx ny nz; Ok (Some s)
  else Ok None.

(** Constructors, voxel_grid.hpp:214-247. *)
Definition GridSizesBySize (cx cy cz xs ys zs : double) : outcome GridSizes :=
  do r <- InitializeBySize cx cy cz xs ys zs;
  match r with Some s => Ok s | None => Throw InvalidArgument end.
Definition GridSizesByCells (cx cy cz : double) (nx ny nz : Z) : outcome GridSizes :=
  do r <- InitializeByCells cx cy cz nx ny nz;
  match r with Some s => Ok s | None => Throw InvalidArgument end.

(** TotalCells, voxel_grid.hpp:353-356. *)
Definition TotalCells (s : GridSizes) : outcome Z :=
  do a <- i64 (num_x_cells s * num_y_cells s);
  i64 (a * num_z_cells s).

(** class GridIndex, voxel_grid.hpp:22-56. *)
Definition GridIndex : Type := (Z * Z * Z)%type.

(** IndexInBounds, voxel_grid.hpp:373-387 and 389-401. *)
Definition IndexInBounds (s : GridSizes) (i : GridIndex) : bool :=
  let '(x, y, z) := i in
  (0 <=? x) && (0 <=? y) && (0 <=? z) &&
  (x <? num_x_cells s) && (y <? num_y_cells s) && (z <? num_z_cells s).

(** GetDataIndex, voxel_grid.hpp:403-413. *)
Definition GetDataIndex (s : GridSizes) (i : GridIndex) : outcome Z :=
  let '(x, y, z) := i in
  do a <- i64 (x * stride1 s);
  do b <- i64 (y * stride2 s);
  do c <- i64 (a + b);
  i64 (c + z).

(** int64_t division and remainder: by zero is undefined behaviour. *)
Definition quot64 (a b : Z) : outcome Z := if b =? 0 then UB else i64 (Z.quot a b).
Definition rem64 (a b : Z) : outcome Z :=
  if b =? 0 then UB else do _ <- i64 (Z.quot a b); Ok (Z.rem a b).

(** GetGridIndexFromDataIndex, voxel_grid.hpp:415-422. *)
Definition GetGridIndexFromDataIndex (s : GridSizes) (data_index : Z) : outcome GridIndex :=
  do x <- quot64 data_index (stride1 s);
  do remainder <- rem64 data_index (stride1 s);
  do y <- quot64 remainder (stride2 s);
  do z <- rem64 remainder (stride2 s);
  Ok (x, y, z).

(** Eigen::Vector4d *)
Definition vec4 : Type := (double * double * double * double)%type.

(** IndexToLocationInGridFrame, voxel_grid.hpp:424-440. *)
Definition centre (cell : double) (i : Z) : double := dmul cell (dadd (d_of_Z i) dhalf).
Definition IndexToLocationInGridFrame (s : GridSizes) (i : GridIndex) : vec4 :=
  let '(x, y, z) := i in
  (centre (cell_x_size s) x, centre (cell_y_size s) y, centre (cell_z_size s) z, d1).

(** LocationInGridFrameToGridIndex4d, voxel_grid.hpp:1186-1204.  (The 3d form,
    1174-1184, is the same without the test of the fourth coordinate.) *)
Definition LocationInGridFrameToGridIndex4d (s : GridSizes) (l : vec4) : outcome GridIndex :=
  let '(lx, ly, lz, lw) := l in
  if Beqb lw d1 then
    do x <- floor_to_int64 (dmul lx (inv_cell_x_size s));
    do y <- floor_to_int64 (dmul ly (inv_cell_y_size s));
    do z <- floor_to_int64 (dmul lz (inv_cell_z_size s));
    Ok (x, y, z)
  else Throw InvalidArgument.

(** enum class AccessStatus, voxel_grid.hpp:457-458 (UNKNOWN is never produced by
    the grid). *)
Inductive AccessStatus : Type := SUCCESS | OUT_OF_BOUNDS | MUTABLE_ACCESS_PROHIBITED.

Section Grid.
Context {T User Iso : Type}.
(** inverse() and the product with a homogeneous point. *)
Variable iso_inverse : Iso -> Iso.
Variable iso_apply : Iso -> vec4 -> vec4.
(** OnMutableAccess(x, y, z) and OnMutableRawAccess() of the derived class,
    voxel_grid.hpp:689-698. *)
Variable on_access : User -> Z -> Z -> Z -> User * bool.
Variable on_raw : User -> User * bool.

(** class VoxelGridBase, members, voxel_grid.hpp:541-548, and the state of the
    derived class. *)
Record grid : Type := mkGrid {
  g_origin : Iso; g_inverse : Iso; g_default : T; g_oob : T; g_data : list T;
  g_sizes : GridSizes; g_initialized : bool; g_user : User }.

Definition with_data (g : grid) (d : list T) : grid :=
  mkGrid (g_origin g) (g_inverse g) (g_default g) (g_oob g) d (g_sizes g) (g_initialized g) (g_user g).
Definition with_user (g : grid) (u : User) : grid :=
  mkGrid (g_origin g) (g_inverse g) (g_default g) (g_oob g) (g_data g) (g_sizes g) (g_initialized g) u.
Definition with_default (g : grid) (v : T) : grid :=
  mkGrid (g_origin g) (g_inverse g) v (g_oob g) (g_data g) (g_sizes g) (g_initialized g) (g_user g).

(** AccessIndex used for reading, voxel_grid.hpp:565-577. *)
Definition AccessIndex (g : grid) (i : Z) : outcome T :=
  if (0 <=? i) && (i <? Z.of_nat (length (g_data g))) then raw_get (g_data g) (Z.to_nat i)
  else Throw OutOfRange.

(** AccessIndex used as the target of an assignment, voxel_grid.hpp:551-563. *)
Definition AssignIndex (g : grid) (i : Z) (v : T) : outcome grid :=
  if (0 <=? i) && (i <? Z.of_nat (length (g_data g))) then
    do d <- raw_set (g_data g) (Z.to_nat i) v; Ok (with_data g d)
  else Throw OutOfRange.

(** SetContents, voxel_grid.hpp:579-584. *)
Definition SetContents (g : grid) (v : T) : outcome grid :=
  do n <- TotalCells (g_sizes g); Ok (with_data g (repeat v (Z.to_nat n))).

(** Initialize, voxel_grid.hpp:721-740 (the other form, 742-752, only computes
    an origin transform). *)
Definition Initialize (g : grid) (origin : Iso) (s : GridSizes) (def oob : T) : outcome grid :=
  if sizes_valid s then
    do g' <- SetContents (mkGrid origin (iso_inverse origin) def oob (g_data g) s (g_initialized g) (g_user g)) def;
    Ok (mkGrid (g_origin g') (g_inverse g') (g_default g') (g_oob g') (g_data g') (g_sizes g') true (g_user g'))
  else Throw InvalidArgument.

(** Default construction, voxel_grid.hpp:541-548 and 718 (the values of
    default_value_ and oob_value_ are whatever T() is), and construction with
    arguments, 702-716. *)
Definition default_grid (identity : Iso) (t0 : T) (u : User) : grid :=
  mkGrid identity identity t0 t0 [] default_sizes false u.
Definition new_grid (identity : Iso) (t0 : T) (u : User) (origin : Iso) (s : GridSizes) (def oob : T)
  : outcome grid := Initialize (default_grid identity t0 u) origin s def oob.

(** GetIndexImmutable, voxel_grid.hpp:857-882. *)
Definition GetIndexImmutable (g : grid) (i : GridIndex) : outcome (AccessStatus * option T) :=
  if IndexInBounds (g_sizes g) i then
    do k <- GetDataIndex (g_sizes g) i;
    do v <- AccessIndex g k; Ok (SUCCESS, Some v)
  else Ok (OUT_OF_BOUNDS, None).

(** The two ways the mutable accessors consult the derived class: with three
    coordinates, or through OnMutableAccess(const GridIndex&),
    voxel_grid.hpp:662-665, which passes index.Y() twice. *)
Inductive flavour : Type := ByCoordinates | ByGridIndex.
Definition consult (f : flavour) (u : User) (i : GridIndex) : User * bool :=
  let '(x, y, z) := i in
  match f with
  | ByCoordinates => on_access u x y z
  | ByGridIndex => on_access u x y y
  end.

(** GetIndexMutable, voxel_grid.hpp:905-942; a returned reference is the position
    of the element it refers to. *)
Definition GetIndexMutable (f : flavour) (g : grid) (i : GridIndex)
  : outcome (grid * (AccessStatus * option Z)) :=
  if IndexInBounds (g_sizes g) i then
    let '(u, allowed) := consult f (g_user g) i in
    let g' := with_user g u in
    if allowed then
      do k <- GetDataIndex (g_sizes g) i;
      do _ <- AccessIndex g' k; Ok (g', (SUCCESS, Some k))
    else Ok (g', (MUTABLE_ACCESS_PROHIBITED, None))
  else Ok (g, (OUT_OF_BOUNDS, None)).

(** SetIndex, voxel_grid.hpp:966-1004 and 1029-1068. *)
Definition SetIndex (f : flavour) (g : grid) (i : GridIndex) (v : T) : outcome (grid * AccessStatus) :=
  if IndexInBounds (g_sizes g) i then
    let '(u, allowed) := consult f (g_user g) i in
    let g' := with_user g u in
    if allowed then
      do k <- GetDataIndex (g_sizes g) i;
      do g'' <- AssignIndex g' k v; Ok (g'', SUCCESS)
    else Ok (g', MUTABLE_ACCESS_PROHIBITED)
  else Ok (g, OUT_OF_BOUNDS).

(** A call that may throw after the derived class has changed its own state: the
    grid it leaves behind and what it did. *)
Definition leaving (B : Type) : Type := (grid * outcome B)%type.

(** SetDataIndex, voxel_grid.hpp:1092-1114. *)
Definition SetDataIndex (g : grid) (i : Z) (v : T) : leaving unit :=
  let '(u, allowed) := on_raw (g_user g) in
  let g' := with_user g u in
  if allowed then
    match AssignIndex g' i v with
    | Ok g'' => (g'', Ok tt)
    | Throw e => (g', Throw e)
    | UB => (g', UB)
    | Diverge => (g', Diverge)
    end
  else (g', Throw RuntimeError).

(** GetDataIndexMutable, voxel_grid.hpp:1080-1090. *)
Definition GetDataIndexMutable (g : grid) (i : Z) : leaving Z :=
  let '(u, allowed) := on_raw (g_user g) in
  let g' := with_user g u in
  if allowed then (g', do _ <- AccessIndex g' i; Ok i)
  else (g', Throw RuntimeError).

(** SetRawData, voxel_grid.hpp:1282-1302. *)
Definition SetRawData (g : grid) (data : list T) : leaving unit :=
  let '(u, allowed) := on_raw (g_user g) in
  let g' := with_user g u in
  if allowed then
    match TotalCells (g_sizes g) with
    | Ok n => if Z.of_nat (length data) =? n then (with_data g' data, Ok tt)
              else (g', Throw RuntimeError)
    | Throw e => (g', Throw e)
    | UB => (g', UB)
    | Diverge => (g', Diverge)
    end
  else (g', Throw RuntimeError).

(** GetMutableRawData, voxel_grid.hpp:1268-1278: whether the caller gets the
    backing store. *)
Definition GetMutableRawData (g : grid) : leaving unit :=
  let '(u, allowed) := on_raw (g_user g) in
  (with_user g u, if allowed then Ok tt else Throw RuntimeError).

(** LocationToGridIndex4d, voxel_grid.hpp:1219-1224. *)
Definition LocationToGridIndex4d (g : grid) (l : vec4) : outcome GridIndex :=
  LocationInGridFrameToGridIndex4d (g_sizes g) (iso_apply (g_inverse g) l).

(** Location-based access, voxel_grid.hpp:842-853, 891-901, 952-962, 1015-1025. *)
Definition GetLocationImmutable4d (g : grid) (l : vec4) : outcome (AccessStatus * option T) :=
  do i <- LocationToGridIndex4d g l; GetIndexImmutable g i.
Definition GetLocationMutable4d (g : grid) (l : vec4) : outcome (grid * (AccessStatus * option Z)) :=
  do i <- LocationToGridIndex4d g l; GetIndexMutable ByGridIndex g i.
Definition SetLocation4d (g : grid) (l : vec4) (v : T) : outcome (grid * AccessStatus) :=
  do i <- LocationToGridIndex4d g l; SetIndex ByGridIndex g i v.

(** Calls a user can make.  Assign... is: take the mutable reference and, if there
    is one, assign through it. *)
Inductive call : Type :=
| CallSetIndex (f : flavour) (i : GridIndex) (v : T)
| CallAssignIndex (f : flavour) (i : GridIndex) (v : T)
| CallSetLocation (l : vec4) (v : T)
| CallAssignLocation (l : vec4) (v : T)
| CallSetDataIndex (k : Z) (v : T)
| CallAssignDataIndex (k : Z) (v : T)
| CallSetRawData (d : list T)
| CallResetWithDefault                  (* voxel_grid.hpp:786-789 *)
| CallResetWithNewValue (v : T)         (* voxel_grid.hpp:791-794 *)
| CallResetWithNewDefault (v : T)       (* voxel_grid.hpp:796-800 *)
| CallSetDefaultValue (v : T)           (* voxel_grid.hpp:1134-1137 *)
| CallSetOOBValue (v : T)               (* voxel_grid.hpp:1139 *)
| CallUpdateOriginTransform (o : Iso)   (* voxel_grid.hpp:1161-1165 *)
| CallInitialize (o : Iso) (s : GridSizes) (def oob : T).

(** What the caller sees. *)
Inductive reply : Type :=
| Status (s : AccessStatus) | Returned | Raised (e : exn) | Undefined.

Definition as_reply {B} (x : outcome B) (k : B -> reply) : reply :=
  match x with Ok b => k b | Throw e => Raised e | UB | Diverge => Undefined end.
Definition finish (g : grid) (x : outcome grid) : grid * reply :=
  match x with Ok g' => (g', Returned) | Throw e => (g, Raised e) | UB | Diverge => (g, Undefined) end.
Definition finish_status (g : grid) (x : outcome (grid * AccessStatus)) : grid * reply :=
  match x with Ok (g', s) => (g', Status s) | Throw e => (g, Raised e) | UB | Diverge => (g, Undefined) end.
Definition assign_through (g : grid) (v : T) (x : outcome (grid * (AccessStatus * option Z)))
  : grid * reply :=
  match x with
  | Ok (g', (s, Some k)) =>
      match AssignIndex g' k v with Ok g'' => (g'', Status s) | _ => (g', Undefined) end
  | Ok (g', (s, None)) => (g', Status s)
  | Throw e => (g, Raised e)
  | UB | Diverge => (g, Undefined)
  end.

Definition perform (g : grid) (c : call) : grid * reply :=
  match c with
  | CallSetIndex f i v => finish_status g (SetIndex f g i v)
  | CallAssignIndex f i v => assign_through g v (GetIndexMutable f g i)
  | CallSetLocation l v => finish_status g (SetLocation4d g l v)
  | CallAssignLocation l v => assign_through g v (GetLocationMutable4d g l)
  | CallSetDataIndex k v => let '(g', r) := SetDataIndex g k v in (g', as_reply r (fun _ => Returned))
  | CallAssignDataIndex k v =>
      let '(g', r) := GetDataIndexMutable g k in
      match r with
      | Ok j => match AssignIndex g' j v with Ok g'' => (g'', Returned) | _ => (g', Undefined) end
      | Throw e => (g', Raised e)
      | UB | Diverge => (g', Undefined)
      end
  | CallSetRawData d => let '(g', r) := SetRawData g d in (g', as_reply r (fun _ => Returned))
  | CallResetWithDefault => finish g (SetContents g (g_default g))
  | CallResetWithNewValue v => finish g (SetContents g v)
  | CallResetWithNewDefault v => finish g (SetContents (with_default g v) v)
  | CallSetDefaultValue v => (with_default g v, Returned)
  | CallSetOOBValue v =>
      (mkGrid (g_origin g) (g_inverse g) (g_default g) v (g_data g) (g_sizes g) (g_initialized g) (g_user g), Returned)
  | CallUpdateOriginTransform o =>
      (mkGrid o (iso_inverse o) (g_default g) (g_oob g) (g_data g) (g_sizes g) (g_initialized g) (g_user g), Returned)
  | CallInitialize o s def oob => finish g (Initialize g o s def oob)
  end.

(** A history: the calls and what each replied. *)
Fixpoint perform_all (g : grid) (cs : list call) : grid * list (call * reply) :=
  match cs with
  | [] => (g, [])
  | c :: r => let '(g1, rep) := perform g c in
              let '(g2, h) := perform_all g1 r in (g2, (c, rep) :: h)
  end.
End Grid.

(** ** Serialization *)

Section Serial.
Context {T Iso : Type}.
Variable le : bool.
Variable dbl : memcpyable double.
(** An Isometry3d is stored as its 16 doubles. *)
Variable iso_to : Iso -> list N.
Variable iso_of : list N -> Iso.
Variable iso_inverse : Iso -> Iso.
Variable max_size : N.

(** GridSizes::SerializeSelf, voxel_grid.hpp:258-272. *)
Definition SerializeGridSizes (s : GridSizes) (buf : list N) : N * list N :=
  let b1 := snd (SerializeMemcpyable dbl (cell_x_size s) buf) in
  let b2 := snd (SerializeMemcpyable dbl (cell_y_size s) b1) in
  let b3 := snd (SerializeMemcpyable dbl (cell_z_size s) b2) in
  let b4 := snd (SerializeMemcpyable (int64_rep le) (num_x_cells s) b3) in
  let b5 := snd (SerializeMemcpyable (int64_rep le) (num_y_cells s) b4) in
  let b6 := snd (SerializeMemcpyable (int64_rep le) (num_z_cells s) b5) in
  written buf b6.

(** GridSizes::DeserializeSelf and Deserialize, voxel_grid.hpp:274-321, 192-199. *)
Definition DeserializeGridSizes (buf : list N) (off : N) : outcome (GridSizes * N) :=
  do cx <- DeserializeMemcpyable dbl buf off;
  let p1 := wrap (off + snd cx) in
  do cy <- DeserializeMemcpyable dbl buf p1;
  let p2 := wrap (p1 + snd cy) in
  do cz <- DeserializeMemcpyable dbl buf p2;
  let p3 := wrap (p2 + snd cz) in
  do nx <- DeserializeMemcpyable (int64_rep le) buf p3;
  let p4 := wrap (p3 + snd nx) in
  do ny <- DeserializeMemcpyable (int64_rep le) buf p4;
  let p5 := wrap (p4 + snd ny) in
  do nz <- DeserializeMemcpyable (int64_rep le) buf p5;
  let p6 := wrap (p5 + snd nz) in
  do r <- InitializeByCells (fst cx) (fst cy) (fst cz) (fst nx) (fst ny) (fst nz);
  MakeDeserialized (match r with Some s => s | None => default_sizes end) (sub64 p6 off).

(** BaseSerializeSelf, voxel_grid.hpp:586-609, for a grid without derived state. *)
Definition SerializeGrid (item : Serializer T) (g : @grid T unit Iso) (buf : list N) : N * list N :=
  let b1 := snd (SerializeFixed 16 (iso_to (g_origin g)) buf) in
  let b2 := snd (item (g_default g) b1) in
  let b3 := snd (item (g_oob g) b2) in
  let b4 := snd (SerializeVectorLike false le item (g_data g) b3) in
  let b5 := snd (SerializeGridSizes (g_sizes g) b4) in
  let b6 := snd (SerializeMemcpyable (uint_rep le 1) (if g_initialized g then 1%N else 0%N) b5) in
  written buf b6.

(** BaseDeserializeSelf, voxel_grid.hpp:611-660, and VoxelGrid::Deserialize,
    1367-1376. *)
Definition DeserializeGrid (item : Deserializer T) (buf : list N) (off : N)
  : outcome (@grid T unit Iso * N) :=
  do o <- DeserializeFixed 16 buf off;
  let p1 := wrap (off + snd o) in
  do def <- item buf p1;
  let p2 := wrap (p1 + snd def) in
  do oob <- item buf p2;
  let p3 := wrap (p2 + snd oob) in
  do data <- DeserializeVectorLike false le max_size item buf p3;
  let p4 := wrap (p3 + snd data) in
  do s <- DeserializeGridSizes buf p4;
  let p5 := wrap (p4 + snd s) in
  do total <- TotalCells (fst s);
  if negb (total =? Z.of_nat (length (fst data))) then Throw RuntimeError else
  do ini <- DeserializeMemcpyable (uint_rep le 1) buf p5;
  let p6 := wrap (p5 + snd ini) in
  let initialized := negb (fst ini =? 0)%N in
  if negb (Bool.eqb (sizes_valid (fst s)) initialized) then Throw RuntimeError else
  MakeDeserialized
    (mkGrid (iso_of (fst o)) (iso_inverse (iso_of (fst o))) (fst def) (fst oob) (fst data)
            (fst s) initialized tt)
    (sub64 p6 off).
End Serial.
