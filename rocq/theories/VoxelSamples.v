(** Concrete voxel grids used by the examples and refutations. *)
From Coq Require Import Reals Lra.
From Flocq Require Import Core BinarySingleNaN.
From Verif Require Import Base ParallelismModel Double DoubleFacts DoubleBits SerializationModel SerializationSpec
  VoxelModel VoxelSpec VoxelProof VoxelFloat VoxelSerial.
Local Open Scope Z_scope.

Definition sample_sizes : GridSizes :=
  match GridSizesByCells d1 d1 d1 2 3 4 with Ok s => s | _ => default_sizes end.

Lemma sample_sizes_ok : GridSizesByCells d1 d1 d1 2 3 4 = Ok sample_sizes /\
  dims_of sample_sizes = (2, 3, 4).
Proof.
  unfold sample_sizes.
  assert (E : match GridSizesByCells d1 d1 d1 2 3 4 with Ok s => dims_of s = (2, 3, 4) | _ => False end)
    by (vm_compute; reflexivity).
  destruct (GridSizesByCells d1 d1 d1 2 3 4); [|contradiction..]. auto.
Qed.

Lemma sample_nums : num_x_cells sample_sizes = 2 /\ num_y_cells sample_sizes = 3 /\ num_z_cells sample_sizes = 4.
Proof. split; [|split]; vm_compute; reflexivity. Qed.

Lemma sample_made : made_sizes sample_sizes.
Proof.
  destruct sample_sizes_ok as [E _]. split; [right; exists d1, d1, d1, 2, 3, 4; exact E|].
  destruct sample_nums as (-> & -> & ->). unfold int64_max. lia.
Qed.

(** A derived class that records the cells it is asked about and allows access
    while the record is short. *)
Definition recorder (u : list (Z * Z * Z)) (x y z : Z) : list (Z * Z * Z) * bool :=
  ((x, y, z) :: u, (length u <? 3)%nat).
Definition record_raw (u : list (Z * Z * Z)) : list (Z * Z * Z) * bool := (u, (length u <? 3)%nat).
Definition same_point (o : unit) (l : vec4) : vec4 := l.

Definition sample_new : outcome (@grid Z (list (Z * Z * Z)) unit) :=
  new_grid (fun o => o) tt 0 [] tt sample_sizes 7 8.
Definition sample_grid : @grid Z (list (Z * Z * Z)) unit :=
  match sample_new with Ok g => g | _ => default_grid tt 0 [] end.

Lemma sample_new_ok : sample_new = Ok sample_grid /\ g_sizes sample_grid = sample_sizes /\ g_user sample_grid = [] /\
  g_data sample_grid = repeat 7 24.
Proof.
  unfold sample_grid, sample_new, new_grid.
  rewrite initialize_total by (apply made_good, sample_made). repeat split.
Qed.

Definition sample_calls : list (@call Z unit) :=
  [CallSetIndex ByCoordinates (1, 2, 3) 50; CallSetIndex ByCoordinates (5, 0, 0) 60; CallSetDataIndex 1 70;
   CallAssignIndex ByGridIndex (0, 0, 1) 80; CallSetRawData [1; 2]; CallSetIndex ByCoordinates (1, 1, 1) 90;
   CallSetIndex ByCoordinates (0, 0, 0) 99].

Lemma sample_history :
  map snd (snd (perform_all (fun o => o) same_point recorder record_raw sample_grid sample_calls)) =
    [Status SUCCESS; Status OUT_OF_BOUNDS; Returned; Status SUCCESS; Raised RuntimeError; Status SUCCESS;
     Status MUTABLE_ACCESS_PROHIBITED] /\
  g_data (fst (perform_all (fun o => o) same_point recorder record_raw sample_grid sample_calls)) =
    [7; 80; 7; 7; 7; 7; 7; 7; 7; 7; 7; 7; 7; 7; 7; 7; 7; 90; 7; 7; 7; 7; 7; 50].
Proof. split; vm_compute; reflexivity. Qed.

Lemma sample_calls_made : calls_made sample_calls.
Proof. intros o s def oob H. repeat (destruct H as [H|H]; [discriminate|]). destruct H. Qed.

Lemma sample_reachable : reachable_grid (fun o => o) same_point recorder record_raw sample_grid.
Proof.
  exists tt, 0, [], tt, sample_sizes, 7, 8, [], sample_grid, []. split; [apply sample_made|].
  split; [intros ? ? ? ? []|]. split; [apply sample_new_ok|reflexivity].
Qed.

Lemma sample_in x y z : 0 <= x < 2 -> 0 <= y < 3 -> 0 <= z < 4 -> in_grid (dims_of (g_sizes sample_grid)) (x, y, z).
Proof. destruct sample_new_ok as (_ & -> & _). destruct sample_sizes_ok as [_ ->]. unfold in_grid. auto. Qed.

(** The GridIndex form asks about another cell. *)
Lemma wrong_cell :
  g_user (fst (perform (fun o => o) same_point recorder record_raw sample_grid (CallSetIndex ByGridIndex (1, 0, 3) 5)))
  = [(1, 0, 0)].
Proof. vm_compute. reflexivity. Qed.

Definition never {A} (u : A) (_ _ _ : Z) : A * bool := (u, false).
Definition never_raw {A} (u : A) : A * bool := (u, false).
Lemma reset_bypass :
  g_data (fst (perform (fun o => o) same_point never never_raw sample_grid (CallResetWithNewValue 1))) = repeat 1 24.
Proof. vm_compute. reflexivity. Qed.

(** A far but finite location. *)
Definition far_location : vec4 := (dpow2 100, d0, d0, d1).
Lemma far_undefined : GetLocationImmutable4d same_point sample_grid far_location = UB.
Proof. vm_compute. reflexivity. Qed.

Lemma sample_cells_ordinary : ordinary_cell d1.
Proof.
  split; [reflexivity|]. destruct d1_val as [-> _]. split.
  - change 1%R with (bpow radix2 0). apply bpow_le. lia.
  - change 1%R with (bpow radix2 0). apply bpow_le. lia.
Qed.

Lemma sample_cell_sizes : cell_x_size sample_sizes = d1 /\ cell_y_size sample_sizes = d1 /\ cell_z_size sample_sizes = d1.
Proof.
  destruct sample_sizes_ok as [E _]. unfold GridSizesByCells in E. apply bind_ok in E. destruct E as (r & E & H).
  unfold InitializeByCells in E. destruct (_ && _); [|injection E as <-; discriminate].
  apply bind_ok in E. destruct E as (s & E & H'). injection H' as <-. injection H as ->.
  apply set_sizes_inv in E. tauto.
Qed.

(** A plain voxel grid of bytes for the serialization example. *)
Definition byte_grid : @grid N unit (list N) :=
  match new_grid (fun o : list N => o) [] 0%N tt (repeat 0%N 128) sample_sizes 7%N 8%N with
  | Ok g => g | _ => default_grid [] 0%N tt end.
Lemma byte_reachable : reachable_grid (fun o => o) (fun _ l => l) allow_access allow_raw byte_grid /\
  g_sizes byte_grid = sample_sizes /\ g_data byte_grid = repeat 7%N 24 /\ g_default byte_grid = 7%N /\ g_oob byte_grid = 8%N /\
  g_origin byte_grid = repeat 0%N 128.
Proof.
  assert (E : new_grid (fun o : list N => o) [] 0%N tt (repeat 0%N 128) sample_sizes 7%N 8%N = Ok byte_grid /\
    g_sizes byte_grid = sample_sizes /\ g_data byte_grid = repeat 7%N 24 /\ g_default byte_grid = 7%N /\ g_oob byte_grid = 8%N /\
    g_origin byte_grid = repeat 0%N 128).
  { unfold byte_grid, new_grid. rewrite initialize_total by (apply made_good, sample_made). repeat split. }
  destruct E as [E1 E2]. split; [|exact E2].
  exists [], 0%N, tt, (repeat 0%N 128), sample_sizes, 7%N, 8%N, [], byte_grid, [].
  split; [apply sample_made|]. split; [intros ? ? ? ? []|]. split; [exact E1|reflexivity].
Qed.

Lemma voxel_round_trip (T Iso : Type) (le : bool) iso_inverse iso_apply iso_to iso_of (max_size : N)
    (ser : Serializer T) des dom (g : @grid T unit Iso) before after :
  round_trips ser des dom ->
  reachable_grid iso_inverse iso_apply allow_access allow_raw g ->
  0 < num_x_cells (g_sizes g) -> 0 < num_y_cells (g_sizes g) -> 0 < num_z_cells (g_sizes g) ->
  dom (g_default g) -> dom (g_oob g) -> Forall dom (g_data g) -> (len64 (g_data g) <= max_size)%N ->
  length (iso_to (g_origin g)) = 128%nat -> is_bytes (iso_to (g_origin g)) -> iso_of (iso_to (g_origin g)) = g_origin g ->
  fits_vector (snd (SerializeGrid le (double_rep le) iso_to ser g before) ++ after) ->
  DeserializeGrid le (double_rep le) iso_of iso_inverse max_size des
     (snd (SerializeGrid le (double_rep le) iso_to ser g before) ++ after) (len64 before)
  = Ok (g, fst (SerializeGrid le (double_rep le) iso_to ser g before)).
Proof.
  intros RT R Px Py Pz D1 D2 D3 L X1 X2 X3 F.
  pose proof (rt_grid le (double_rep le) (double_lawful le) iso_to iso_of iso_inverse max_size ser des dom RT) as RG.
  apply (SerializationProof2.rt_at _ _ _ g before after RG); [|exact F].
  apply (reachable_grid_ok iso_inverse iso_apply); assumption.
Qed.

Lemma voxel_any_bytes (T Iso : Type) (le : bool) iso_inverse iso_of (max_size : N) (des : Deserializer T) buf off
    (g : @grid T unit Iso) n :
  stays_inside des -> is_bytes buf -> fits_vector buf -> (off < 2 ^ 64)%N ->
  DeserializeGrid le (double_rep le) iso_of iso_inverse max_size des buf off = Ok (g, n) ->
  Z.of_nat (length (g_data g)) = num_x_cells (g_sizes g) * num_y_cells (g_sizes g) * num_z_cells (g_sizes g) /\
  g_initialized g = sizes_valid (g_sizes g) /\ g_inverse g = iso_inverse (g_origin g) /\
  (0 < n)%N /\ (off + n <= len64 buf)%N.
Proof. apply grid_from_bytes; [apply double_lawful | exact (fun _ => @nil N) | reflexivity]. Qed.

Lemma index_bijection s : made_sizes s ->
  (forall i, in_grid (dims_of s) i <-> IndexInBounds s i = true) /\
  (forall i, in_grid (dims_of s) i -> exists k, GetDataIndex s i = Ok k /\
     0 <= k < num_x_cells s * num_y_cells s * num_z_cells s /\ GetGridIndexFromDataIndex s k = Ok i) /\
  (forall k, 0 <= k < num_x_cells s * num_y_cells s * num_z_cells s ->
     exists i, GetGridIndexFromDataIndex s k = Ok i /\ in_grid (dims_of s) i /\ GetDataIndex s i = Ok k) /\
  (forall i j k, in_grid (dims_of s) i -> in_grid (dims_of s) j ->
     GetDataIndex s i = Ok k -> GetDataIndex s j = Ok k -> i = j).
Proof.
  intros M. apply made_good in M. split; [intros i; symmetry; apply in_bounds_iff|]. split; [|split].
  - intros i I. exists (position (dims_of s) i). split; [apply data_index_position; assumption|].
    pose proof (good_position s i M I) as P. split; [exact P|].
    destruct (grid_index_of s _ M P) as (j & E & J & Ep). rewrite E. f_equal. eapply position_inj; eauto.
  - intros k K. destruct (grid_index_of s k M K) as (i & E & I & P). exists i. split; [exact E|]. split; [exact I|].
    rewrite data_index_position by assumption. congruence.
  - intros i j k I J. rewrite !data_index_position by assumption. intros E1 E2. eapply position_inj; eauto. congruence.
Qed.

Lemma location_read_defined {T User Iso} iso_inverse iso_apply on_access on_raw (g : @grid T User Iso) l x y z :
  reachable_grid iso_inverse iso_apply on_access on_raw g ->
  iso_apply (iso_inverse (g_origin g)) l = (x, y, z, d1) ->
  near (inv_cell_x_size (g_sizes g)) x -> near (inv_cell_y_size (g_sizes g)) y -> near (inv_cell_z_size (g_sizes g)) z ->
  exists r, GetLocationImmutable4d iso_apply g l = Ok r.
Proof.
  intros R E Nx Ny Nz. apply reachable_sound in R. unfold GetLocationImmutable4d, LocationToGridIndex4d.
  rewrite (so_inv _ _ R), E. destruct (location_defined (g_sizes g) x y z Nx Ny Nz) as [i ->]. cbn [bind].
  destruct (immutable_cases iso_inverse g i R) as [(_ & v & -> & _)|(_ & ->)]; eauto.
Qed.

Lemma sample_near : near (inv_cell_x_size sample_sizes) d1 /\ near (inv_cell_y_size sample_sizes) d1 /\ near (inv_cell_z_size sample_sizes) d1.
Proof.
  assert (E : inv_cell_x_size sample_sizes = ddiv d1 d1 /\ inv_cell_y_size sample_sizes = ddiv d1 d1 /\ inv_cell_z_size sample_sizes = ddiv d1 d1)
    by (repeat split).
  destruct E as (-> & -> & ->).
  assert (N : near (ddiv d1 d1) d1).
  { split; [reflexivity|]. split; [vm_compute; reflexivity|].
    destruct d1_val as [E1 F1]. destruct (ddiv_val d1 d1 F1) as [E _].
    - rewrite E1. lra.
    - rewrite E1. replace (1 / 1)%R with (bpow radix2 0) by (simpl; lra). rewrite Rabs_pos_eq by apply bpow_ge_0. apply bpow_le. lia.
    - rewrite E, E1. replace (1 / 1)%R with 1%R by lra. rewrite (rnd64_IZR 1) by lia.
      replace (1 * 1)%R with (bpow radix2 0) by (simpl; lra). rewrite Rabs_pos_eq by apply bpow_ge_0. apply bpow_le. lia. }
  auto.
Qed.
