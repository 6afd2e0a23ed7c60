(** C181: hashed grids placed anywhere in the world. *)
From Coq Require Import ZArith Reals Lra Psatz Lia.
From Flocq Require Import Core BinarySingleNaN.
From Verif Require Import Base Double DoubleFacts MathModel MathReal MathLinModel MathLinSpec RotationModel ParallelismModel VoxelModel VoxelSpec VoxelProof
  VoxelFloat VoxelSamples HashedModel HashedSpec HashedProof HashedFloat HashedSamples CoverSpec CoverProof PlacedModel PlacedSpec PlacedProof PlacedProof2
  Prop_Placed PlacedHashSpec PlacedHashProof.
Local Open Scope R_scope.

(** Two locations of the world in one cell read alike, after any history. *)
Theorem C181_one_value_per_cell : forall (T User : Type) on_access M s (g : @hgrid T User iso3) l l' i,
  hscale M -> made_sizes s -> chunk_fits M s -> steady on_access ->
  reachable_hgrid eigen_inverse eigen_apply s on_access g -> placement M (h_origin g) ->
  in_cell M s (h_origin g) l i -> in_cell M s (h_origin g) l' i ->
  HGetLocationImmutable4d eigen_apply g l = HGetLocationImmutable4d eigen_apply g l'.
Proof. intros * HM Ms Fit St R P. exact (reads_alike on_access s Ms M HM Fit St g l l' i R P). Qed.
Print Assumptions C181_one_value_per_cell.

(** Setting a cell at a location of the world: the value is read anywhere in that cell; other cells of the chunk keep what
    they had, or come into existence with the default value; other chunks are as they were. *)
Theorem C181_set_cell : forall (T User : Type) on_access M s (g : @hgrid T User iso3) l v i,
  hscale M -> made_sizes s -> chunk_fits M s -> steady on_access ->
  reachable_hgrid eigen_inverse eigen_apply s on_access g -> placement M (h_origin g) ->
  in_cell M s (h_origin g) l i -> snd (on_access (h_user g) (eigen_apply (h_inverse g) l)) = true ->
  exists g', hperform eigen_inverse eigen_apply on_access g (HSet l SET_CELL v) = (g', HStatus DID_SET_CELL) /\
  forall l' i', in_cell M s (h_origin g) l' i' ->
    (i' = i -> HGetLocationImmutable4d eigen_apply g' l' = Ok (FOUND_IN_CELL, Some v)) /\
    (i' <> i -> chunk_of_cell s i' = chunk_of_cell s i -> HGetLocationImmutable4d eigen_apply g' l' =
       Ok (FOUND_IN_CELL, Some (value_there (h_default g) (HGetLocationImmutable4d eigen_apply g l')))) /\
    (chunk_of_cell s i' <> chunk_of_cell s i -> HGetLocationImmutable4d eigen_apply g' l' = HGetLocationImmutable4d eigen_apply g l').
Proof. intros * HM Ms Fit St R P. exact (write_cell on_access s Ms M HM Fit St g l v i R P). Qed.
Print Assumptions C181_set_cell.

(** Setting a chunk. *)
Theorem C181_set_chunk : forall (T User : Type) on_access M s (g : @hgrid T User iso3) l v i,
  hscale M -> made_sizes s -> chunk_fits M s -> steady on_access ->
  reachable_hgrid eigen_inverse eigen_apply s on_access g -> placement M (h_origin g) ->
  in_cell M s (h_origin g) l i -> snd (on_access (h_user g) (eigen_apply (h_inverse g) l)) = true ->
  exists g', hperform eigen_inverse eigen_apply on_access g (HSet l SET_CHUNK v) = (g', HStatus DID_SET_CHUNK) /\
  forall l' i', in_cell M s (h_origin g) l' i' ->
    (chunk_of_cell s i' = chunk_of_cell s i -> HGetLocationImmutable4d eigen_apply g' l' = Ok (FOUND_IN_CHUNK, Some v)) /\
    (chunk_of_cell s i' <> chunk_of_cell s i -> HGetLocationImmutable4d eigen_apply g' l' = HGetLocationImmutable4d eigen_apply g l').
Proof. intros * HM Ms Fit St R P. exact (write_chunk on_access s Ms M HM Fit St g l v i R P). Qed.
Print Assumptions C181_set_chunk.

(** The grid of C180_nonvacuous as a hashed grid, and the location (-1/4, 7/2, 5/2) in cell (1, 1, -1), chunk (0, 0, -1). *)
Definition placed_hash : @hgrid Z unit iso3 := mkHGrid quarter_turn (eigen_inverse quarter_turn) 7%Z sample_sizes [] true tt.
Definition placed_x : double := @B754_finite 53 1024 true 4503599627370496 (-54) eq_refl.
Definition placed_y : double := @B754_finite 53 1024 false 7881299347898368 (-51) eq_refl.
Definition placed_z : double := @B754_finite 53 1024 false 5629499534213120 (-51) eq_refl.
Definition placed_location : vec4 :=
  (placed_x, placed_y, placed_z, d1).
Example C181_nonvacuous :
  hscale (bpow radix2 4) /\ made_sizes sample_sizes /\ chunk_fits (bpow radix2 4) sample_sizes /\ steady always /\
  reachable_hgrid eigen_inverse eigen_apply sample_sizes always placed_hash /\ placement (bpow radix2 4) (h_origin placed_hash) /\
  in_cell (bpow radix2 4) sample_sizes (h_origin placed_hash) placed_location (1, 1, -1)%Z /\
  chunk_of_cell sample_sizes (1, 1, -1)%Z = (0, 0, -1)%Z.
Proof.
  split; [exists 4%Z; split; [lia|reflexivity]|]. split; [exact sample_made|].
  destruct sample_nums as (E1 & E2 & E3). destruct sample_cell_sizes as (C1 & C2 & C3). destruct d1_val as [V1 F1]. destruct two_val as [V2 V3].
  split.
  { unfold chunk_fits, chunk_axis_fits. rewrite E1, E2, E3, C1, C2, C3, V1, <- bpow_plus. change (bpow radix2 (4 + -14)) with (/ 1024).
    change (bpow radix2 4) with 16. repeat split; auto; try lia; lra. }
  split; [exact always_steady|].
  split; [exists tt, quarter_turn, 7%Z, [], placed_hash, []; split; [|reflexivity]; unfold new_hgrid; rewrite (g_valid _ (made_good _ sample_made)); reflexivity|].
  split; [exact sample_placement|]. split; [|unfold chunk_of_cell; rewrite E1, E2, E3; reflexivity].
  unfold in_cell, placed_location. split; [reflexivity|]. split; [repeat split|].
  assert (Vx : real3 (placed_x, placed_y, placed_z) = (- / 4, 7 / 2, 5 / 2)).
  { unfold real3, placed_x, placed_y, placed_z, B2R, F2R. simpl. f_equal; [f_equal|]; lra. }
  match goal with |- within3 _ ?a /\ deep_inside _ (in_grid_frame _ ?b) _ => change b with a end.
  rewrite Vx. split; [change (bpow radix2 4) with 16; repeat split; apply Rabs_le; lra|].
  assert (Vm : B2R (Bopp d1) = -1) by (rewrite B2R_Bopp, V1; lra).
  unfold deep_inside, in_grid_frame, placed_hash, quarter_turn. cbn [h_origin iso_rotation iso_translation real33 real3 transpose3 minus3 apply3 dot3].
  rewrite V1, V2, V3, Vm. change (B2R d0) with 0. unfold axis_deep. rewrite C1, C2, C3, V1. lra.
Qed.
