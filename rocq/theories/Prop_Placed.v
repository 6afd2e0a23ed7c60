(** C180: grids placed anywhere in the world. *)
From Coq Require Import ZArith Reals Lra Psatz Lia.
From Flocq Require Import Core BinarySingleNaN.
From Verif Require Import Base Double DoubleFacts MathModel MathReal MathLinModel MathLinSpec RotationModel ParallelismModel VoxelModel VoxelSpec VoxelProof
  VoxelFloat VoxelSamples CoverSpec CoverProof PlacedModel PlacedSpec PlacedProof PlacedProof2.
Local Open Scope R_scope.

(** The location of a cell is the centre of that cell, moved to where the grid is. *)
Theorem C180_centres : forall (T User : Type) on_access on_raw M (g : @grid T User iso3) i,
  reachable_grid eigen_inverse eigen_apply on_access on_raw g ->
  scale M -> placement M (g_origin g) -> fits M (g_sizes g) -> in_grid (dims_of (g_sizes g)) i ->
  exists x y z, GridIndexToLocation g i = (x, y, z, d1) /\ is_finite x = true /\ is_finite y = true /\ is_finite z = true /\
  within3 (bpow radix2 (-46) * M) (minus3 (B2R x, B2R y, B2R z) (in_world (g_origin g) (centre_of (g_sizes g) i))).
Proof.
  intros * R HM P F I. destruct (centre_in_world M HM _ _ i P F I) as (x & y & z & E & _). exists x, y, z. split; [exact E|].
  destruct (centre_deep M HM _ _ i x y z P F I E) as (F1 & F2 & F3 & _ & W & _). auto.
Qed.
Print Assumptions C180_centres.

(** Looking up the location of a cell gives that cell, whatever was done to the grid before. *)
Theorem C180_round_trip : forall (T User : Type) on_access on_raw M (g : @grid T User iso3) i,
  reachable_grid eigen_inverse eigen_apply on_access on_raw g ->
  scale M -> placement M (g_origin g) -> fits M (g_sizes g) -> in_grid (dims_of (g_sizes g)) i ->
  LocationToGridIndex4d eigen_apply g (GridIndexToLocation g i) = Ok i.
Proof.
  intros * R HM P F I. apply reachable_made in R. destruct R as [Ms E]. unfold LocationToGridIndex4d, GridIndexToLocation. rewrite E.
  exact (world_round_trip M HM _ _ i Ms P F I).
Qed.
Print Assumptions C180_round_trip.

(** Reading, writing and referring at that location is reading, writing and referring to that cell. *)
Theorem C180_access : forall (T User : Type) on_access on_raw M (g : @grid T User iso3) i (v : T),
  reachable_grid eigen_inverse eigen_apply on_access on_raw g ->
  scale M -> placement M (g_origin g) -> fits M (g_sizes g) -> in_grid (dims_of (g_sizes g)) i ->
  let l := GridIndexToLocation g i in
  GetLocationImmutable4d eigen_apply g l = GetIndexImmutable g i /\
  GetLocationMutable4d eigen_apply on_access g l = GetIndexMutable on_access ByGridIndex g i /\
  SetLocation4d eigen_apply on_access g l v = SetIndex on_access ByGridIndex g i v.
Proof.
  intros * R HM P F I l. pose proof (C180_round_trip _ _ _ _ M g i R HM P F I) as E. fold l in E.
  unfold GetLocationImmutable4d, GetLocationMutable4d, SetLocation4d. rewrite E. auto.
Qed.
Print Assumptions C180_access.

(** Any location of the world that lies well inside a cell, in exact arithmetic, is found in that cell, also beyond the grid;
    the three ways of asking agree. *)
Theorem C180_lookup : forall (T User : Type) on_access on_raw M (g : @grid T User iso3) x y z i,
  reachable_grid eigen_inverse eigen_apply on_access on_raw g ->
  scale M -> placement M (g_origin g) -> fits M (g_sizes g) -> (exists j, in_grid (dims_of (g_sizes g)) j) ->
  finite3 (x, y, z) -> within3 (8 * M) (real3 (x, y, z)) ->
  deep_inside (g_sizes g) (in_grid_frame (g_origin g) (real3 (x, y, z))) i ->
  LocationToGridIndex4d eigen_apply g (x, y, z, d1) = Ok i /\ LocationToGridIndex g x y z = Ok i /\
  LocationToGridIndex3d g (x, y, z) = Ok i.
Proof.
  intros * R HM P F [j J] (F1 & F2 & F3) W D. apply reachable_made in R. destruct R as [Ms E]. pose proof (positive_axes _ _ J) as N.
  assert (L : LocationToGridIndex4d eigen_apply g (x, y, z, d1) = Ok i).
  { unfold LocationToGridIndex4d. rewrite E. apply (lookup M HM); auto. }
  split; [exact L|]. split; [exact L|]. unfold LocationToGridIndex3d. rewrite E. apply (lookup3 M HM); auto.
Qed.
Print Assumptions C180_lookup.

(** A location whose fourth coordinate is not one is refused. *)
Theorem C180_refused : forall (T User : Type) (g : @grid T User iso3) x y z w,
  w <> d1 -> LocationToGridIndex4d eigen_apply g (x, y, z, w) = Throw InvalidArgument.
Proof.
  intros * N. unfold LocationToGridIndex4d, eigen_apply. destruct (iso_rotation (g_inverse g)) as [[r1 r2] r3].
  destruct (iso_translation (g_inverse g)) as [[tx ty] tz]. cbn [snd]. unfold LocationInGridFrameToGridIndex4d.
  assert (F : Beqb w d1 = false).
  { destruct d1_val as [V1 F1]. destruct (is_finite w) eqn:Fw.
    - rewrite Beqb_correct by assumption. destruct (Req_bool_spec (B2R w) (B2R d1)) as [E|E]; [|reflexivity]. exfalso. apply N.
      destruct w as [sw| | |sw mw ew Hw]; try discriminate Fw; [rewrite V1 in E; simpl in E; lra|].
      apply B2R_inj; [reflexivity|reflexivity|exact E].
    - destruct w as [|[|]| |]; try discriminate Fw; reflexivity. }
  rewrite F. reflexivity.
Qed.
Print Assumptions C180_refused.

(** A grid made without an origin transform is centred on the origin of the world. *)
Theorem C180_centred : forall (T User : Type) M (g0 g : @grid T User iso3) s def oob i,
  made_sizes s -> scale M -> fits M s -> in_grid (dims_of s) i ->
  InitializeCentred g0 s def oob = Ok g ->
  g_sizes g = s /\ placement M (g_origin g) /\
  exists x y z x' y' z', GridIndexToLocation g i = (x, y, z, d1) /\ GridIndexToLocation g (opposite s i) = (x', y', z', d1) /\
  within3 (bpow radix2 (-44) * M) (plus3 (B2R x, B2R y, B2R z) (B2R x', B2R y', B2R z')).
Proof.
  intros * Ms HM F I H. unfold InitializeCentred in H. pose proof (made_good s Ms) as G.
  apply (initialize_ok eigen_inverse g0 _ s def oob g G) in H. subst g. cbn [g_sizes g_origin]. split; [reflexivity|].
  pose proof (centred_placement M HM s Ms F (positive_axes s i I)) as P. split; [exact P|].
  assert (I' : in_grid (dims_of s) (opposite s i)) by (destruct i as [[a b] c]; unfold in_grid, dims_of, opposite in *; lia).
  destruct (centre_in_world M HM _ s i P F I) as (x & y & z & E & _). destruct (centre_in_world M HM _ s _ P F I') as (x' & y' & z' & E' & _).
  exists x, y, z, x', y', z'. unfold GridIndexToLocation. cbn [g_sizes g_origin]. split; [exact E|]. split; [exact E'|].
  exact (centred_symmetric M HM s i x y z x' y' z' Ms F I E E').
Qed.
Print Assumptions C180_centred.

(** A grid of 2 x 3 x 4 cells of side one, turned a quarter about the third axis and moved to (1, 2, 3) after a cell was set;
    the location (-1/2, 3/2, ...) given below is not the centre of a cell. *)
Definition quarter_turn : iso3 := mkIso ((d0, (Bopp d1), d0), (d1, d0, d0), (d0, d0, d1)) (d1, dadd d1 d1, dadd d1 (dadd d1 d1)).
Definition placed_new : outcome (@grid Z unit iso3) := InitializeCentred (default_grid eigen_identity 0%Z tt) sample_sizes 7%Z 8%Z.
Definition placed_calls : list (@call Z iso3) := [CallSetIndex ByCoordinates (1, 2, 3)%Z 50%Z; CallUpdateOriginTransform quarter_turn].
Definition placed_grid : @grid Z unit iso3 :=
  match placed_new with
  | Ok g => fst (perform_all eigen_inverse eigen_apply allow_access allow_raw g placed_calls)
  | _ => default_grid eigen_identity 0%Z tt
  end.
Lemma two_val : B2R (dadd d1 d1) = 2 /\ B2R (dadd d1 (dadd d1 d1)) = 3.
Proof.
  assert (E : dadd d1 d1 = @B754_finite 53 1024 false 4503599627370496 (-51) eq_refl) by (apply B2SF_inj; vm_compute; reflexivity).
  assert (E3 : dadd d1 (dadd d1 d1) = @B754_finite 53 1024 false 6755399441055744 (-51) eq_refl) by (apply B2SF_inj; vm_compute; reflexivity).
  rewrite E3, E. unfold B2R, F2R. simpl. split; lra.
Qed.
Lemma sample_placement : placement (bpow radix2 4) quarter_turn.
Proof.
  destruct d1_val as [V1 F1]. destruct two_val as [V2 V3].
  assert (Vm : B2R (Bopp d1) = -1) by (rewrite B2R_Bopp, V1; lra).
  unfold placement, quarter_turn. cbn [iso_rotation iso_translation finite3 real33 real3]. split; [repeat split; reflexivity|].
  split; [repeat split; vm_compute; reflexivity|]. rewrite V1, V2, V3, Vm. change (B2R d0) with 0. split.
  - unfold nearly_orthogonal. cbn [mul3 transpose3 dot3 minus3 within3]. pose proof (bpow_gt_0 radix2 (-48)).
    repeat split; match goal with |- Rabs ?x <= _ => replace x with 0 by ring end; rewrite Rabs_R0; lra.
  - cbn [within3]. change (bpow radix2 4) with 16. repeat split; apply Rabs_le; lra.
Qed.
Lemma sample_fits : fits (bpow radix2 4) sample_sizes.
Proof.
  destruct sample_nums as (E1 & E2 & E3). destruct sample_cell_sizes as (C1 & C2 & C3). destruct d1_val as [V1 F1].
  unfold fits, axis_fits. rewrite E1, E2, E3, C1, C2, C3, V1, <- bpow_plus. change (4 + -40)%Z with (-36)%Z.
  assert (bpow radix2 (-36) <= 1) by (change 1 with (bpow radix2 0); apply bpow_le; lia). change (bpow radix2 4) with 16.
  repeat split; auto; lra.
Qed.
Lemma placed_ok : reachable_grid eigen_inverse eigen_apply allow_access allow_raw placed_grid /\
  g_origin placed_grid = quarter_turn /\ g_sizes placed_grid = sample_sizes /\ GetIndexImmutable placed_grid (1, 2, 3)%Z = Ok (SUCCESS, Some 50%Z).
Proof.
  assert (E : exists g, placed_new = Ok g).
  { unfold placed_new, InitializeCentred. rewrite initialize_total by (apply made_good, sample_made). eauto. }
  destruct E as [g E]. split.
  - unfold placed_grid. rewrite E.
    destruct (perform_all eigen_inverse eigen_apply allow_access allow_raw g placed_calls) as [g' h] eqn:P.
    exists eigen_identity, 0%Z, tt, (centred_origin sample_sizes), sample_sizes, 7%Z, 8%Z, placed_calls, g, h.
    split; [exact sample_made|]. split; [intros ? ? ? ? [|[|[]]]; discriminate|]. split; [exact E|exact P].
  - clear g E. unfold placed_grid, placed_new, InitializeCentred. rewrite initialize_total by (apply made_good, sample_made).
    destruct sample_sizes_ok as [_ D]. repeat split.
Qed.
Example C180_nonvacuous :
  reachable_grid eigen_inverse eigen_apply allow_access allow_raw placed_grid /\ scale (bpow radix2 4) /\
  placement (bpow radix2 4) (g_origin placed_grid) /\ fits (bpow radix2 4) (g_sizes placed_grid) /\
  in_grid (dims_of (g_sizes placed_grid)) (1, 2, 3)%Z /\
  deep_inside (g_sizes placed_grid) (in_grid_frame (g_origin placed_grid) (1 - 5 / 4, 2 + 3 / 2, 3 - 1 / 2)) (1, 1, -1)%Z.
Proof.
  destruct placed_ok as (R & Eo & Es & _). rewrite Eo, Es. split; [exact R|]. split; [exists 4%Z; split; [lia|reflexivity]|].
  split; [exact sample_placement|]. split; [exact sample_fits|].
  split; [destruct sample_sizes_ok as [_ ->]; unfold in_grid; lia|].
  destruct sample_cell_sizes as (C1 & C2 & C3). destruct d1_val as [V1 F1]. destruct two_val as [V2 V3].
  assert (Vm : B2R (Bopp d1) = -1) by (rewrite B2R_Bopp, V1; lra).
  unfold deep_inside, in_grid_frame, quarter_turn. cbn [iso_rotation iso_translation real33 real3 transpose3 minus3 apply3 dot3].
  rewrite V1, V2, V3, Vm. change (B2R d0) with 0. unfold axis_deep. rewrite C1, C2, C3, V1. lra.
Qed.
