(** C174, C175: grids made from sizes, and the cell of a location. *)
From Coq Require Import ZArith Reals Lra Lia Bool.
From Flocq Require Import Core BinarySingleNaN.
From Verif Require Import Base ParallelismModel Double DoubleFacts VoxelModel VoxelSpec VoxelProof VoxelFloat VoxelSamples
  CoverSpec CoverProof.
Local Open Scope R_scope.

(** C174, full statement: whenever sizes are made from lengths, every axis has the least number of
    cells that covers its length.  The quotient is rounded: 3 cells of 1 + 2^-52 do not cover
    3 + 2^-50, yet 3 cells are what the constructor makes. *)
Definition c_awkward : double := @B754_finite 53 1024 false 4503599627370497 (-52) eq_refl.
Definition x_awkward : double := @B754_finite 53 1024 false 6755399441055746 (-51) eq_refl.
Theorem C174_rounding_refuted : exists s,
  positive_length c_awkward /\ positive_length x_awkward /\ sensible c_awkward x_awkward /\
  GridSizesBySize c_awkward c_awkward c_awkward x_awkward x_awkward x_awkward = Ok s /\
  num_x_cells s = 3%Z /\ ~ covers (num_x_cells s) c_awkward x_awkward.
Proof.
  assert (Hc : B2R c_awkward = 4503599627370497 / 4503599627370496) by (unfold c_awkward, B2R, F2R; simpl; lra).
  assert (Hx : B2R x_awkward = 6755399441055746 / 2251799813685248) by (unfold x_awkward, B2R, F2R; simpl; lra).
  assert (A : match GridSizesBySize c_awkward c_awkward c_awkward x_awkward x_awkward x_awkward with
      Ok s => num_x_cells s = 3%Z | _ => False end) by (vm_compute; reflexivity).
  destruct (GridSizesBySize c_awkward c_awkward c_awkward x_awkward x_awkward x_awkward) as [s| | |] eqn:E;
    [|contradiction..]. rename A into N.
  exists s. rewrite N. split; [split; [reflexivity|lra]|]. split; [split; [reflexivity|lra]|].
  split; [|split; [reflexivity|split; [reflexivity|unfold covers; lra]]].
  unfold sensible. rewrite Hc, Hx. split; [|simpl; lra].
  apply Rle_trans with (bpow radix2 0); [apply bpow_le; lia|simpl; lra].
Qed.
Print Assumptions C174_rounding_refuted.

(** ... and a length far below the size of a cell gets no cell at all. *)
Theorem C174_tiny_refuted : exists (c x : double) s,
  positive_length c /\ positive_length x /\ GridSizesBySize c d1 d1 x d1 d1 = Ok s /\
  sizes_valid s = true /\ num_x_cells s = 0%Z /\ ~ covers (num_x_cells s) c x.
Proof.
  set (c := @B754_finite 53 1024 false 4503599627370496 900 eq_refl).
  set (x := @B754_finite 53 1024 false 1 (-1074) eq_refl).
  assert (A : match GridSizesBySize c d1 d1 x d1 d1 with
      Ok s => num_x_cells s = 0%Z /\ sizes_valid s = true | _ => False end) by (vm_compute; auto).
  destruct (GridSizesBySize c d1 d1 x d1 d1) as [s| | |] eqn:E; [|contradiction..].
  destruct A as [N V]. exists c, x, s. rewrite N.
  assert (Px : 0 < B2R x) by (unfold x, B2R; apply F2R_gt_0; reflexivity).
  split; [split; [reflexivity|unfold c, B2R; apply F2R_gt_0; reflexivity]|].
  split; [split; [reflexivity|exact Px]|]. do 3 (split; [auto|]).
  unfold covers. rewrite Rmult_0_l. lra.
Qed.
Print Assumptions C174_tiny_refuted.

(** C174 with the covering up to half a unit in the last place, for lengths of 2^-1022 to 2^53
    cells. *)
Theorem C174_covers_partial : forall cx cy cz xs ys zs s,
  GridSizesBySize cx cy cz xs ys zs = Ok s ->
  sensible cx xs -> sensible cy ys -> sensible cz zs ->
  cell_x_size s = cx /\ cell_y_size s = cy /\ cell_z_size s = cz /\ sizes_valid s = true /\
  ((0 < num_x_cells s)%Z /\ nearly_covers (num_x_cells s) cx xs /\ none_spare (num_x_cells s) cx xs) /\
  ((0 < num_y_cells s)%Z /\ nearly_covers (num_y_cells s) cy ys /\ none_spare (num_y_cells s) cy ys) /\
  ((0 < num_z_cells s)%Z /\ nearly_covers (num_z_cells s) cz zs /\ none_spare (num_z_cells s) cz zs).
Proof.
  intros * H Sx Sy Sz. apply by_size_inv in H.
  destruct H as ((A1 & A2 & A3 & A4 & A5 & A6) & nx & ny & nz & Nx & Ny & Nz & F).
  destruct F as (-> & -> & -> & -> & -> & -> & _ & _ & _ & _ & _ & _ & ->).
  destruct (axis _ _ _ A4 A1 Sx Nx) as (? & ? & ?). destruct (axis _ _ _ A5 A2 Sy Ny) as (? & ? & ?).
  destruct (axis _ _ _ A6 A3 Sz Nz) as (? & ? & ?). auto 20.
Qed.
Print Assumptions C174_covers_partial.

(** Sizes are refused exactly when one of the six numbers is not a positive length, and
    accepted when there are at most 2^31 cells along every axis. *)
Theorem C174_refuses : forall cx cy cz xs ys zs,
  GridSizesBySize cx cy cz xs ys zs = Throw InvalidArgument <-> ~ all_positive cx cy cz xs ys zs.
Proof. exact refused_iff. Qed.
Print Assumptions C174_refuses.
Theorem C174_accepts : forall cx cy cz xs ys zs, all_positive cx cy cz xs ys zs ->
  B2R xs / B2R cx <= bpow radix2 31 -> B2R ys / B2R cy <= bpow radix2 31 -> B2R zs / B2R cz <= bpow radix2 31 ->
  exists s, GridSizesBySize cx cy cz xs ys zs = Ok s.
Proof. exact accepted. Qed.
Print Assumptions C174_accepts.

(** Sizes made from numbers of cells have these numbers of cells, and the reported lengths are
    the doubles nearest to their multiples of the cell size. *)
Theorem C174_by_cells : forall cx cy cz nx ny nz s,
  GridSizesByCells cx cy cz nx ny nz = Ok s ->
  positive_length cx /\ positive_length cy /\ positive_length cz /\ (0 < nx)%Z /\ (0 < ny)%Z /\ (0 < nz)%Z /\
  dims_of s = (nx, ny, nz) /\ cell_x_size s = cx /\ cell_y_size s = cy /\ cell_z_size s = cz /\
  ((nx <= 2 ^ 53)%Z -> IZR nx * B2R cx <= bpow radix2 1023 -> B2R (x_size s) = rnd64 (IZR nx * B2R cx)) /\
  ((ny <= 2 ^ 53)%Z -> IZR ny * B2R cy <= bpow radix2 1023 -> B2R (y_size s) = rnd64 (IZR ny * B2R cy)) /\
  ((nz <= 2 ^ 53)%Z -> IZR nz * B2R cz <= bpow radix2 1023 -> B2R (z_size s) = rnd64 (IZR nz * B2R cz)).
Proof.
  intros * H. apply by_cells_inv in H. destruct H as (A1 & A2 & A3 & P1 & P2 & P3 & F).
  destruct F as (-> & -> & -> & Ex & Ey & Ez & -> & -> & -> & _). unfold dims_of. rewrite Ex, Ey, Ez.
  assert (L : forall n c, positive_length c -> (0 < n)%Z -> (n <= 2 ^ 53)%Z -> IZR n * B2R c <= bpow radix2 1023 ->
    B2R (dmul (d_of_Z n) c) = rnd64 (IZR n * B2R c)).
  { intros n c [Fc Pc] P U B. destruct (d_of_Z_exact n) as [E F]; [lia|].
    destruct (dmul_val (d_of_Z n) c F Fc) as [V _]; rewrite E in *; auto.
    rewrite Rabs_pos_eq; auto. apply Rmult_le_pos; [apply IZR_le; lia|lra]. }
  repeat (split; [solve [auto]|]). auto.
Qed.
Print Assumptions C174_by_cells.

Example C174_nonvacuous : exists s,
  GridSizesBySize d1 d1 d1 (d_of_Z 2) (d_of_Z 3) (ddiv (d_of_Z 7) (d_of_Z 2)) = Ok s /\ dims_of s = (2, 3, 4)%Z /\
  sensible d1 (d_of_Z 2) /\ ~ all_positive d1 d1 d1 (d_of_Z 2) (d_of_Z 3) d0.
Proof.
  assert (A : match GridSizesBySize d1 d1 d1 (d_of_Z 2) (d_of_Z 3) (ddiv (d_of_Z 7) (d_of_Z 2)) with
      Ok s => dims_of s = (2, 3, 4)%Z | _ => False end) by (vm_compute; auto).
  destruct (GridSizesBySize d1 d1 d1 (d_of_Z 2) (d_of_Z 3) (ddiv (d_of_Z 7) (d_of_Z 2))) as [s| | |] eqn:E;
    [|contradiction..].
  exists s. split; [reflexivity|]. split; [exact A|]. split.
  - unfold sensible. destruct d1_val as [-> _]. destruct (d_of_Z_exact 2) as [-> _]; [lia|]. split.
    + apply Rle_trans with (bpow radix2 0); [apply bpow_le; lia|simpl; lra].
    + simpl; lra.
  - intros (_ & _ & _ & _ & _ & _ & P). simpl in P. lra.
Qed.

(** C175, full statement: a location in a cell is mapped to that cell.  In binary64 the inverse of
    the cell size and the product are rounded: with three cells of 0.1, the location 0.3 is inside
    the third cell (and the grid) but is reported to be outside. *)
Definition tenth : double := ddiv d1 (d_of_Z 10).
Definition three_tenths : double := ddiv (d_of_Z 3) (d_of_Z 10).
Theorem C175_boundary_refuted : exists s,
  made_sizes s /\ GridSizesByCells tenth tenth tenth 3 3 3 = Ok s /\
  inside tenth three_tenths 2 /\ in_grid (dims_of s) (2, 2, 2)%Z /\
  LocationInGridFrameToGridIndex4d s (three_tenths, three_tenths, three_tenths, d1) = Ok (3, 3, 3)%Z /\
  IndexInBounds s (3, 3, 3)%Z = false.
Proof.
  assert (A : match GridSizesByCells tenth tenth tenth 3 3 3 with
      Ok s => dims_of s = (3, 3, 3)%Z /\ IndexInBounds s (3, 3, 3)%Z = false /\
        LocationInGridFrameToGridIndex4d s (three_tenths, three_tenths, three_tenths, d1) = Ok (3, 3, 3)%Z
    | _ => False end) by (vm_compute; auto).
  destruct (GridSizesByCells tenth tenth tenth 3 3 3) as [s| | |] eqn:E; [|contradiction..].
  destruct A as (D & I & L). exists s. rewrite D.
  split; [split; [right; do 6 eexists; exact E|]|].
  { unfold dims_of in D. injection D as -> -> ->. unfold int64_max. lia. }
  split; [reflexivity|]. split; [|split; [unfold in_grid; lia|split; [exact L|exact I]]].
  assert (Ht : tenth = @B754_finite 53 1024 false 7205759403792794 (-56) eq_refl)
    by (apply B2SF_inj; vm_compute; reflexivity).
  assert (H3 : three_tenths = @B754_finite 53 1024 false 5404319552844595 (-54) eq_refl)
    by (apply B2SF_inj; vm_compute; reflexivity).
  unfold inside. rewrite Ht, H3. split; [reflexivity|]. unfold B2R, F2R. simpl. lra.
Qed.
Print Assumptions C175_boundary_refuted.

(** C175 for locations a little away from the faces of their cell. *)
Theorem C175_inside_partial : forall s x y z ix iy iz,
  made_sizes s -> ordinary_cell (cell_x_size s) -> ordinary_cell (cell_y_size s) -> ordinary_cell (cell_z_size s) ->
  (Z.abs ix <= 2 ^ 49)%Z -> (Z.abs iy <= 2 ^ 49)%Z -> (Z.abs iz <= 2 ^ 49)%Z ->
  well_inside (cell_x_size s) x ix -> well_inside (cell_y_size s) y iy -> well_inside (cell_z_size s) z iz ->
  LocationInGridFrameToGridIndex4d s (x, y, z, d1) = Ok (ix, iy, iz).
Proof.
  intros * M Ox Oy Oz Bx By Bz Ix Iy Iz. apply made_filled in M. destruct M as (Ex & Ey & Ez & _).
  apply locate_ok. exists ix, iy, iz. rewrite Ex, Ey, Ez. split; [reflexivity|].
  split; [|split]; apply axis_inside; assumption.
Qed.
Print Assumptions C175_inside_partial.

(** Everywhere the cell is at most one off along each axis, *)
Theorem C175_off_by_one : forall s x y z ix iy iz jx jy jz,
  made_sizes s -> ordinary_cell (cell_x_size s) -> ordinary_cell (cell_y_size s) -> ordinary_cell (cell_z_size s) ->
  (Z.abs ix <= 2 ^ 50)%Z -> (Z.abs iy <= 2 ^ 50)%Z -> (Z.abs iz <= 2 ^ 50)%Z ->
  inside (cell_x_size s) x ix -> inside (cell_y_size s) y iy -> inside (cell_z_size s) z iz ->
  LocationInGridFrameToGridIndex4d s (x, y, z, d1) = Ok (jx, jy, jz) ->
  (ix - 1 <= jx <= ix + 1)%Z /\ (iy - 1 <= jy <= iy + 1)%Z /\ (iz - 1 <= jz <= iz + 1)%Z.
Proof.
  intros * M Ox Oy Oz Bx By Bz Ix Iy Iz H. apply made_filled in M. destruct M as (Ex & Ey & Ez & _).
  apply locate_ok in H. destruct H as (a & b & c & E & Hx & Hy & Hz). injection E as <- <- <-.
  rewrite Ex in Hx. rewrite Ey in Hy. rewrite Ez in Hz.
  split; [exact (axis_off_by_one _ _ _ _ Ox Bx Ix Hx)|].
  split; [exact (axis_off_by_one _ _ _ _ Oy By Iy Hy)|exact (axis_off_by_one _ _ _ _ Oz Bz Iz Hz)].
Qed.
Print Assumptions C175_off_by_one.

(** and locations further along an axis never get a lower index. *)
Theorem C175_monotone : forall s x y z x' y' z' jx jy jz jx' jy' jz',
  made_sizes s -> B2R x <= B2R x' -> B2R y <= B2R y' -> B2R z <= B2R z' ->
  LocationInGridFrameToGridIndex4d s (x, y, z, d1) = Ok (jx, jy, jz) ->
  LocationInGridFrameToGridIndex4d s (x', y', z', d1) = Ok (jx', jy', jz') ->
  (jx <= jx' /\ jy <= jy' /\ jz <= jz')%Z.
Proof.
  intros * M Lx Ly Lz H H'. apply made_filled in M. destruct M as (Ex & Ey & Ez & Px & Py & Pz).
  apply locate_ok in H. destruct H as (a & b & c & E & Hx & Hy & Hz). injection E as <- <- <-.
  apply locate_ok in H'. destruct H' as (a & b & c & E & Hx' & Hy' & Hz'). injection E as <- <- <-.
  rewrite Ex in Hx, Hx'. rewrite Ey in Hy, Hy'. rewrite Ez in Hz, Hz'.
  split; [exact (axis_monotone _ _ _ _ _ (inv_nonneg _ Px) Lx Hx Hx')|].
  split; [exact (axis_monotone _ _ _ _ _ (inv_nonneg _ Py) Ly Hy Hy')|exact (axis_monotone _ _ _ _ _ (inv_nonneg _ Pz) Lz Hz Hz')].
Qed.
Print Assumptions C175_monotone.

Example C175_nonvacuous : made_sizes sample_sizes /\ ordinary_cell (cell_x_size sample_sizes) /\
  well_inside (cell_x_size sample_sizes) (ddiv (d_of_Z 7) (d_of_Z 4)) 1 /\
  inside (cell_x_size sample_sizes) (d_of_Z 1) 1.
Proof.
  split; [exact sample_made|]. destruct sample_cell_sizes as (-> & _ & _).
  split; [exact sample_cells_ordinary|]. destruct d1_val as [E _].
  split; split; try reflexivity.
  - rewrite E. assert (Q : ddiv (d_of_Z 7) (d_of_Z 4) = @B754_finite 53 1024 false 7881299347898368 (-52) eq_refl)
      by (apply B2SF_inj; vm_compute; reflexivity).
    rewrite Q. unfold margin. rewrite Rabs_pos_eq by lra. unfold B2R, F2R. simpl. lra.
  - rewrite E. change (d_of_Z 1) with d1. rewrite E. lra.
Qed.
