(** Properties C25-C30, C75, C76 (voxel_grid.hpp). *)
From Coq Require Import Reals.
From Flocq Require Import Core BinarySingleNaN.
From Verif Require Import Base ParallelismModel Double DoubleBits SerializationModel SerializationSpec
  VoxelModel VoxelSpec VoxelProof VoxelFloat VoxelSerial VoxelSamples.
Local Open Scope Z_scope.

(** C25: on every grid made by a constructor, cells and data indices 0..total-1
    correspond one to one and the two conversions are inverse. *)
Theorem C25_index_bijection :
  forall s, made_sizes s ->
  (forall i, in_grid (dims_of s) i <-> IndexInBounds s i = true) /\
  (forall i, in_grid (dims_of s) i -> exists k, GetDataIndex s i = Ok k /\
     0 <= k < num_x_cells s * num_y_cells s * num_z_cells s /\ GetGridIndexFromDataIndex s k = Ok i) /\
  (forall k, 0 <= k < num_x_cells s * num_y_cells s * num_z_cells s ->
     exists i, GetGridIndexFromDataIndex s k = Ok i /\ in_grid (dims_of s) i /\ GetDataIndex s i = Ok k) /\
  (forall i j k, in_grid (dims_of s) i -> in_grid (dims_of s) j ->
     GetDataIndex s i = Ok k -> GetDataIndex s j = Ok k -> i = j).
Proof. exact index_bijection. Qed.
Print Assumptions C25_index_bijection.
Example C25_nonvacuous : made_sizes sample_sizes /\ dims_of sample_sizes = (2, 3, 4) /\
  in_grid (dims_of sample_sizes) (1, 2, 3) /\ GetDataIndex sample_sizes (1, 2, 3) = Ok 23.
Proof.
  split; [exact sample_made|]. split; [exact (proj2 sample_sizes_ok)|].
  rewrite (proj2 sample_sizes_ok). split; [unfold in_grid; lia|reflexivity].
Qed.

(** C26: after any history of calls on a new grid, reads agree with what the
    successful writes of the history say (learn_all, VoxelSpec.v). *)
Theorem C26_latest_write :
  forall (T User Iso : Type) (iso_inverse : Iso -> Iso) (iso_apply : Iso -> vec4 -> vec4)
    (on_access : User -> Z -> Z -> Z -> User * bool) (on_raw : User -> User * bool)
    identity (t0 : T) u o s def oob cs g0 g h,
  made_sizes s -> calls_made cs ->
  new_grid iso_inverse identity t0 u o s def oob = Ok g0 ->
  perform_all iso_inverse iso_apply on_access on_raw g0 cs = (g, h) ->
  let w := learn_all iso_inverse iso_apply s (first_view iso_inverse iso_apply s o def) h in
  dims_of (g_sizes g) = v_dims w /\
  (forall i, in_grid (v_dims w) i -> GetIndexImmutable g i = Ok (SUCCESS, Some (v_cell w i))) /\
  (forall i, ~ in_grid (v_dims w) i -> GetIndexImmutable g i = Ok (OUT_OF_BOUNDS, None)) /\
  (forall l, GetLocationImmutable4d iso_apply g l =
             (do i <- v_where w l; GetIndexImmutable g i)).
Proof. exact (@latest_write). Qed.
Print Assumptions C26_latest_write.

(** C26: a write the callback allows is done. *)
Theorem C26_allowed_writes_succeed :
  forall (T User Iso : Type) (iso_inverse : Iso -> Iso) (iso_apply : Iso -> vec4 -> vec4)
    (on_access : User -> Z -> Z -> Z -> User * bool) (on_raw : User -> User * bool)
    (g : @grid T User Iso) x y z (v : T),
  reachable_grid iso_inverse iso_apply on_access on_raw g -> in_grid (dims_of (g_sizes g)) (x, y, z) ->
  snd (on_access (g_user g) x y z) = true ->
  snd (perform iso_inverse iso_apply on_access on_raw g (CallSetIndex ByCoordinates (x, y, z) v)) = Status SUCCESS /\
  snd (perform iso_inverse iso_apply on_access on_raw g (CallAssignIndex ByCoordinates (x, y, z) v)) = Status SUCCESS.
Proof. exact (@allowed_write). Qed.
Print Assumptions C26_allowed_writes_succeed.

(** C26: writes out of bounds are reported and change nothing. *)
Theorem C26_out_of_bounds :
  forall (T User Iso : Type) (iso_inverse : Iso -> Iso) (iso_apply : Iso -> vec4 -> vec4)
    (on_access : User -> Z -> Z -> Z -> User * bool) (on_raw : User -> User * bool)
    (g : @grid T User Iso) f i (v : T),
  reachable_grid iso_inverse iso_apply on_access on_raw g -> ~ in_grid (dims_of (g_sizes g)) i ->
  perform iso_inverse iso_apply on_access on_raw g (CallSetIndex f i v) = (g, Status OUT_OF_BOUNDS) /\
  perform iso_inverse iso_apply on_access on_raw g (CallAssignIndex f i v) = (g, Status OUT_OF_BOUNDS).
Proof. exact (@oob_rejected). Qed.
Print Assumptions C26_out_of_bounds.

(** C26: one slot per cell, always. *)
Theorem C26_one_slot_per_cell :
  forall (T User Iso : Type) (iso_inverse : Iso -> Iso) (iso_apply : Iso -> vec4 -> vec4)
    (on_access : User -> Z -> Z -> Z -> User * bool) (on_raw : User -> User * bool) (g : @grid T User Iso),
  reachable_grid iso_inverse iso_apply on_access on_raw g ->
  Z.of_nat (length (g_data g)) = num_x_cells (g_sizes g) * num_y_cells (g_sizes g) * num_z_cells (g_sizes g).
Proof. exact (@one_slot_per_cell). Qed.
Print Assumptions C26_one_slot_per_cell.

(** C26: no call that takes an index (or nothing) has undefined behaviour. *)
Theorem C26_defined :
  forall (T User Iso : Type) (iso_inverse : Iso -> Iso) (iso_apply : Iso -> vec4 -> vec4)
    (on_access : User -> Z -> Z -> Z -> User * bool) (on_raw : User -> User * bool)
    (g : @grid T User Iso) c,
  reachable_grid iso_inverse iso_apply on_access on_raw g ->
  (forall o s def oob, c = CallInitialize o s def oob -> made_sizes s) -> takes_location c = false ->
  snd (perform iso_inverse iso_apply on_access on_raw g c) <> Undefined.
Proof. exact (@always_defined). Qed.
Print Assumptions C26_defined.

(** A history with successful, refused, out-of-bounds and failing calls. *)
Example C26_nonvacuous :
  sample_new = Ok sample_grid /\ made_sizes sample_sizes /\ calls_made sample_calls /\
  reachable_grid (fun o => o) same_point recorder record_raw sample_grid /\
  map snd (snd (perform_all (fun o => o) same_point recorder record_raw sample_grid sample_calls)) =
    [Status SUCCESS; Status OUT_OF_BOUNDS; Returned; Status SUCCESS; Raised RuntimeError; Status SUCCESS;
     Status MUTABLE_ACCESS_PROHIBITED].
Proof.
  split; [exact (proj1 sample_new_ok)|]. split; [exact sample_made|]. split; [exact sample_calls_made|].
  split; [exact sample_reachable|]. exact (proj1 sample_history).
Qed.

(** C27: a refused cell access reports it and changes nothing.  (For calls that
    pass a GridIndex the derived class is assumed to refuse the whole column,
    because of the defect of C28.) *)
Theorem C27_refused_cell_access :
  forall (T User Iso : Type) (iso_inverse : Iso -> Iso) (iso_apply : Iso -> vec4 -> vec4)
    (on_access : User -> Z -> Z -> Z -> User * bool) (on_raw : User -> User * bool)
    (g : @grid T User Iso) f x y z (v : T),
  in_grid (dims_of (g_sizes g)) (x, y, z) ->
  (forall z', f = ByCoordinates -> z' = z -> snd (on_access (g_user g) x y z') = false) ->
  (forall z', f = ByGridIndex -> snd (on_access (g_user g) x y z') = false) ->
  forall c, c = CallSetIndex f (x, y, z) v \/ c = CallAssignIndex f (x, y, z) v ->
  snd (perform iso_inverse iso_apply on_access on_raw g c) = Status MUTABLE_ACCESS_PROHIBITED /\
  same_contents g (fst (perform iso_inverse iso_apply on_access on_raw g c)).
Proof. exact (@refused_index). Qed.
Print Assumptions C27_refused_cell_access.

(** C27: refused raw access raises and changes nothing. *)
Theorem C27_refused_raw_access :
  forall (T User Iso : Type) (iso_inverse : Iso -> Iso) (iso_apply : Iso -> vec4 -> vec4)
    (on_access : User -> Z -> Z -> Z -> User * bool) (on_raw : User -> User * bool)
    (g : @grid T User Iso) c, snd (on_raw (g_user g)) = false ->
  (exists k v, c = CallSetDataIndex k v \/ c = CallAssignDataIndex k v) \/ (exists d, c = CallSetRawData d) ->
  snd (perform iso_inverse iso_apply on_access on_raw g c) = Raised RuntimeError /\
  same_contents g (fst (perform iso_inverse iso_apply on_access on_raw g c)).
Proof. exact (@refused_raw). Qed.
Print Assumptions C27_refused_raw_access.

(** C27: a refused request for the backing store raises. *)
Theorem C27_refused_backing_store :
  forall (T User Iso : Type) (on_raw : User -> User * bool) (g : @grid T User Iso),
  snd (on_raw (g_user g)) = false ->
  snd (GetMutableRawData on_raw g) = Throw RuntimeError /\ same_contents g (fst (GetMutableRawData on_raw g)).
Proof. exact (@refused_pointer). Qed.
Print Assumptions C27_refused_backing_store.

Example C27_nonvacuous :
  in_grid (dims_of (g_sizes sample_grid)) (1, 2, 3) /\
  snd (perform (fun o => o) same_point never never_raw sample_grid (CallSetIndex ByCoordinates (1, 2, 3) 5))
    = Status MUTABLE_ACCESS_PROHIBITED /\
  snd (perform (fun o => o) same_point never never_raw sample_grid (CallSetDataIndex 3 5)) = Raised RuntimeError.
Proof. split; [apply sample_in; lia|]. split; vm_compute; reflexivity. Qed.

(** C28, as stated for every mutable accessor, is false: through a GridIndex the
    callback is asked about (1, 0, 0) when cell (1, 0, 3) is written. *)
Theorem C28_callback_cell_refuted :
  ~ (forall (on_access : list (Z * Z * Z) -> Z -> Z -> Z -> list (Z * Z * Z) * bool) on_raw
       (g : @grid Z (list (Z * Z * Z)) unit) f x y z (v : Z),
     reachable_grid (fun o => o) same_point on_access on_raw g ->
     in_grid (dims_of (g_sizes g)) (x, y, z) ->
     g_user (fst (perform (fun o => o) same_point on_access on_raw g (CallSetIndex f (x, y, z) v)))
       = fst (on_access (g_user g) x y z)).
Proof.
  intros H.
  specialize (H recorder record_raw sample_grid ByGridIndex 1 0 3 5 sample_reachable (sample_in 1 0 3 ltac:(lia) ltac:(lia) ltac:(lia))).
  rewrite wrong_cell in H. destruct sample_new_ok as (_ & _ & E & _). rewrite E in H. discriminate.
Qed.
Print Assumptions C28_callback_cell_refuted.

(** C28 for the accessors that take three coordinates, and for every accessor when
    y = z.  Whatever the callback does, it is run once, on this cell. *)
Theorem C28_callback_cell_partial :
  forall (T User Iso : Type) (iso_inverse : Iso -> Iso) (iso_apply : Iso -> vec4 -> vec4)
    (on_access : User -> Z -> Z -> Z -> User * bool) (on_raw : User -> User * bool)
    (g : @grid T User Iso) x y z (v : T) c,
  in_grid (dims_of (g_sizes g)) (x, y, z) -> reachable_grid iso_inverse iso_apply on_access on_raw g ->
  c = CallSetIndex ByCoordinates (x, y, z) v \/ c = CallAssignIndex ByCoordinates (x, y, z) v \/
  (y = z /\ (c = CallSetIndex ByGridIndex (x, y, z) v \/ c = CallAssignIndex ByGridIndex (x, y, z) v)) ->
  g_user (fst (perform iso_inverse iso_apply on_access on_raw g c)) = fst (on_access (g_user g) x y z).
Proof. exact (@callback_sees). Qed.
Print Assumptions C28_callback_cell_partial.
Example C28_nonvacuous :
  reachable_grid (fun o => o) same_point recorder record_raw sample_grid /\
  in_grid (dims_of (g_sizes sample_grid)) (1, 0, 3).
Proof. split; [exact sample_reachable|apply sample_in; lia]. Qed.

(** C29: a voxel grid with at least one cell comes back equal. *)
Theorem C29_round_trip_partial :
  forall (T Iso : Type) (le : bool) iso_inverse iso_apply iso_to iso_of (max_size : N)
    (ser : Serializer T) des dom (g : @grid T unit Iso) before after,
  round_trips ser des dom ->
  reachable_grid iso_inverse iso_apply allow_access allow_raw g ->
  0 < num_x_cells (g_sizes g) -> 0 < num_y_cells (g_sizes g) -> 0 < num_z_cells (g_sizes g) ->
  dom (g_default g) -> dom (g_oob g) -> Forall dom (g_data g) -> (len64 (g_data g) <= max_size)%N ->
  length (iso_to (g_origin g)) = 128%nat -> is_bytes (iso_to (g_origin g)) -> iso_of (iso_to (g_origin g)) = g_origin g ->
  fits_vector (snd (SerializeGrid le (double_rep le) iso_to ser g before) ++ after) ->
  DeserializeGrid le (double_rep le) iso_of iso_inverse max_size des
     (snd (SerializeGrid le (double_rep le) iso_to ser g before) ++ after) (len64 before)
  = Ok (g, fst (SerializeGrid le (double_rep le) iso_to ser g before)).
Proof. exact voxel_round_trip. Qed.
Print Assumptions C29_round_trip_partial.

(** C29: what comes out of arbitrary bytes has one slot per cell. *)
Theorem C29_any_bytes_consistent :
  forall (T Iso : Type) (le : bool) iso_inverse iso_of (max_size : N) (des : Deserializer T) buf off
    (g : @grid T unit Iso) n,
  stays_inside des -> is_bytes buf -> fits_vector buf -> (off < 2 ^ 64)%N ->
  DeserializeGrid le (double_rep le) iso_of iso_inverse max_size des buf off = Ok (g, n) ->
  Z.of_nat (length (g_data g)) = num_x_cells (g_sizes g) * num_y_cells (g_sizes g) * num_z_cells (g_sizes g) /\
  g_initialized g = sizes_valid (g_sizes g) /\ g_inverse g = iso_inverse (g_origin g) /\
  (0 < n)%N /\ (off + n <= len64 buf)%N.
Proof. exact voxel_any_bytes. Qed.
Print Assumptions C29_any_bytes_consistent.

(** C29 is false for a grid whose extent underflows to no cells at all ... *)
Theorem C29_empty_grid_refuted :
  exists s g bytes, degenerate_sizes = Ok s /\ made_sizes s /\
  new_grid (fun o : list N => o) [] 0%N tt (repeat 0%N 128) s 7%N 8%N = Ok g /\
  bytes = snd (SerializeGrid true (double_rep true) (fun o => o) (byte_ser true) g []) /\
  DeserializeGrid true (double_rep true) (fun o => o) (fun o => o) 1000 (byte_des true) bytes 0 = Throw RuntimeError.
Proof. exact degenerate_fails. Qed.
Print Assumptions C29_empty_grid_refuted.

(** ... and bytes that name too many cells run into signed overflow. *)
Theorem C29_hostile_overflow_refuted :
  is_bytes hostile_grid /\ fits_vector hostile_grid /\
  DeserializeGrid true (double_rep true) (fun o : list N => o) (fun o => o) 1000 (byte_des true) hostile_grid 0 = UB.
Proof. exact hostile_overflow. Qed.
Print Assumptions C29_hostile_overflow_refuted.

Example C29_nonvacuous :
  reachable_grid (fun o => o) (fun _ l => l) allow_access allow_raw byte_grid /\
  g_sizes byte_grid = sample_sizes /\ g_data byte_grid = repeat 7%N 24 /\ g_default byte_grid = 7%N /\ g_oob byte_grid = 8%N /\
  g_origin byte_grid = repeat 0%N 128 /\
  round_trips (byte_ser true) (byte_des true) (fun v => (v < 256 ^ N.of_nat 1)%N).
Proof.
  destruct byte_reachable as (A & B & C & D & E & F). repeat (split; [assumption|]).
  apply SerializationProof2.rt_memcpyable, SerializationProof.uint_lawful. lia.
Qed.

(** C30: for cell sizes between 2^-1020 and 2^970 and up to 2^49 cells per axis
    the centre of a cell maps back to the cell, with binary64 rounding. *)
Theorem C30_cell_centre :
  forall s i, made_sizes s -> in_grid (dims_of s) i ->
  ordinary_cell (cell_x_size s) -> ordinary_cell (cell_y_size s) -> ordinary_cell (cell_z_size s) ->
  num_x_cells s <= 2 ^ 49 -> num_y_cells s <= 2 ^ 49 -> num_z_cells s <= 2 ^ 49 ->
  LocationInGridFrameToGridIndex4d s (IndexToLocationInGridFrame s i) = Ok i.
Proof. exact centre_round_trip. Qed.
Print Assumptions C30_cell_centre.
Example C30_nonvacuous : made_sizes sample_sizes /\ dims_of sample_sizes = (2, 3, 4) /\
  in_grid (dims_of sample_sizes) (1, 2, 3) /\ ordinary_cell (cell_x_size sample_sizes) /\
  ordinary_cell (cell_y_size sample_sizes) /\ ordinary_cell (cell_z_size sample_sizes).
Proof.
  split; [exact sample_made|]. split; [exact (proj2 sample_sizes_ok)|].
  rewrite (proj2 sample_sizes_ok). split; [unfold in_grid; lia|].
  destruct sample_cell_sizes as (-> & -> & ->). pose proof sample_cells_ordinary. auto.
Qed.

(** C75 is false: the conversion of a far location to an index is undefined. *)
Theorem C75_far_location_refuted :
  reachable_grid (fun o => o) same_point recorder record_raw sample_grid /\
  far_location = (dpow2 100, d0, d0, d1) /\ is_finite (dpow2 100) = true /\
  GetLocationImmutable4d same_point sample_grid far_location = UB.
Proof.
  split; [exact sample_reachable|]. split; [reflexivity|]. split; [vm_compute; reflexivity|exact far_undefined].
Qed.
Print Assumptions C75_far_location_refuted.

(** C75 for locations within 2^62 cells of the origin. *)
Theorem C75_near_locations_partial :
  forall (T User Iso : Type) (iso_inverse : Iso -> Iso) (iso_apply : Iso -> vec4 -> vec4)
    (on_access : User -> Z -> Z -> Z -> User * bool) (on_raw : User -> User * bool)
    (g : @grid T User Iso) l x y z,
  reachable_grid iso_inverse iso_apply on_access on_raw g ->
  iso_apply (iso_inverse (g_origin g)) l = (x, y, z, d1) ->
  near (inv_cell_x_size (g_sizes g)) x -> near (inv_cell_y_size (g_sizes g)) y -> near (inv_cell_z_size (g_sizes g)) z ->
  exists r, GetLocationImmutable4d iso_apply g l = Ok r.
Proof. exact (@location_read_defined). Qed.
Print Assumptions C75_near_locations_partial.
Example C75_nonvacuous :
  reachable_grid (fun o => o) same_point recorder record_raw sample_grid /\ g_sizes sample_grid = sample_sizes /\
  near (inv_cell_x_size sample_sizes) d1 /\ near (inv_cell_y_size sample_sizes) d1 /\ near (inv_cell_z_size sample_sizes) d1.
Proof.
  split; [exact sample_reachable|]. split; [exact (proj1 (proj2 sample_new_ok))|exact sample_near].
Qed.

(** C76 is false: resetting a grid whose callbacks always refuse changes every cell. *)
Theorem C76_reset_bypasses_gate_refuted :
  (forall x y z, snd (never (g_user sample_grid) x y z) = false) /\ snd (never_raw (g_user sample_grid)) = false /\
  g_data sample_grid = repeat 7 24 /\
  g_data (fst (perform (fun o => o) same_point never never_raw sample_grid (CallResetWithNewValue 1))) = repeat 1 24.
Proof.
  split; [reflexivity|]. split; [reflexivity|]. split; [exact (proj2 (proj2 (proj2 sample_new_ok)))|exact reset_bypass].
Qed.
Print Assumptions C76_reset_bypasses_gate_refuted.

(** C76 for the calls other than the three resets and Initialize: contents change
    only if one of the callbacks allowed it. *)
Theorem C76_other_calls_gated_partial :
  forall (T User Iso : Type) (iso_inverse : Iso -> Iso) (iso_apply : Iso -> vec4 -> vec4)
    (on_access : User -> Z -> Z -> Z -> User * bool) (on_raw : User -> User * bool)
    (g : @grid T User Iso) c, gated_call c = true ->
  g_data (fst (perform iso_inverse iso_apply on_access on_raw g c)) <> g_data g ->
  (exists x y z, snd (on_access (g_user g) x y z) = true) \/ snd (on_raw (g_user g)) = true.
Proof. exact (@gated_change). Qed.
Print Assumptions C76_other_calls_gated_partial.
Example C76_nonvacuous :
  g_data (fst (perform (fun o => o) same_point recorder record_raw sample_grid (CallSetDataIndex 0 1))) <> g_data sample_grid.
Proof. rewrite (proj2 (proj2 (proj2 sample_new_ok))). vm_compute. discriminate. Qed.
