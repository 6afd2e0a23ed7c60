(** C54-C56: path processing. *)
From Coq Require Import ZArith Reals Lra.
From Flocq Require Import Core BinarySingleNaN.
From Verif Require Import Base Double DoubleFacts Effect UtilityModel UtilitySpec VoxelModel VoxelFloat PathModel PathSpec PathProof PathProof2.
Local Open Scope Z_scope.

(** C54.  Any path, random source (it may even leave [0, 1)), settings and
    functions: if smoothing returns, the first and last states are the same. *)
Theorem C54_endpoints :
  forall (V W : Type) edge_valid distance interpolate (random : eff W double) (path : list V)
    max_iterations max_failed back fraction interval check fuel w p w',
  ShortcutSmoothPath edge_valid distance interpolate random path max_iterations max_failed back fraction interval check fuel w = (Ok p, w') ->
  same_ends path p.
Proof.
  intros V W ev d i random path mi mf back fraction interval check fuel w p w' E.
  exact (proj1 (smooth_loop_ok ev d i interval check random mi mf back fraction fuel 0 0 path w p w' E)).
Qed.

(** No more than max_iterations iterations: the loop ends within that number of
    rounds and draws at most two numbers in each ([drawn] counts draws). *)
Theorem C54_iterations :
  forall (V W : Type) edge_valid distance interpolate (random : eff W double) (path : list V)
    max_iterations max_failed back fraction interval check (drawn : W -> Z),
  (forall w r w', random w = (r, w') -> drawn w' <= drawn w + 1 /\ r <> Diverge) -> 0 <= max_iterations ->
  forall w r w',
  ShortcutSmoothPath edge_valid distance interpolate random path max_iterations max_failed back fraction interval check
    (Z.to_nat max_iterations) w = (r, w') ->
  r <> Diverge /\ drawn w' <= drawn w + 2 * max_iterations.
Proof.
  intros V W ev d i random path mi mf back fraction interval check drawn DR M w r w' E.
  destruct (smooth_loop_bound ev d i interval check random mi mf back fraction drawn DR (Z.to_nat mi) 0 0 path w r w') as [A B]; [lia|lia|exact E|].
  split; [exact A|lia].
Qed.

(** Edge validity is not kept when shortcuts are resampled and not checked again:
    the interpolated state 99 cannot be reached. *)
Definition two_draws : eff Z double :=
  fun w => (Ok (if Z.even w then d0 else ddiv (d_of_Z 7) (d_of_Z 8)), w + 1).
Definition avoids_99 (a b : Z) : bool := negb (a =? 99) && negb (b =? 99).
Definition line_distance (a b : Z) : double := d_of_Z (Z.abs (a - b)).
Theorem C54_validity_refuted :
  edges_valid avoids_99 [0; 1; 2] /\ (forall w, exists u w', two_draws w = (Ok u, w') /\ unit_interval u) /\
  exists p w', ShortcutSmoothPath avoids_99 line_distance (fun _ _ _ => 99) two_draws [0; 1; 2] 1 1 0 d1 d1 false 1 0 = (Ok p, w') /\
    p = [0; 99; 2] /\ ~ edges_valid avoids_99 p.
Proof.
  split; [|split].
  - intros l1 a b l2 E. destruct l1 as [|x [|y [|z l1]]]; cbn in E; try (injection E; intros; subst; reflexivity); try discriminate; try (destruct l1; discriminate).
  - intros w. unfold two_draws. destruct (Z.even w); eexists _, _; (split; [reflexivity|]).
    + split; [reflexivity|]. cbn. lra.
    + destruct (ratio_val 7 8) as [E F]; [lia|lia|]. split; [exact F|]. rewrite E.
      replace (7 / 8)%R with (IZR 7 * bpow radix2 (-3))%R by (cbn; lra). rewrite rnd64_exact by lia. cbn. lra.
  - eexists _, _. split; [vm_compute; reflexivity|]. split; [reflexivity|]. intros H. specialize (H [] 0 99 [2] eq_refl). discriminate.
Qed.

(** It is kept when shortcuts are not resampled, or are checked again. *)
Theorem C54_validity_partial :
  forall (V W : Type) edge_valid distance interpolate (random : eff W double) (path : list V)
    max_iterations max_failed back fraction interval check fuel w p w',
  dlt d0 interval = false \/ check = true -> edges_valid edge_valid path ->
  ShortcutSmoothPath edge_valid distance interpolate random path max_iterations max_failed back fraction interval check fuel w = (Ok p, w') ->
  edges_valid edge_valid p.
Proof.
  intros V W ev d i random path mi mf back fraction interval check fuel w p w' CH PV E.
  exact (proj2 (smooth_loop_ok ev d i interval check random mi mf back fraction fuel 0 0 path w p w' E) CH PV).
Qed.

(** Without resampling, smoothing returns whenever the random source keeps to
    [0, 1) and the fraction is at most one; the path never gets longer. *)
Theorem C54_defined :
  forall (V W : Type) edge_valid distance interpolate (random : eff W double) (path : list V)
    max_iterations max_failed back fraction interval check w,
  (forall w, exists u w', random w = (Ok u, w') /\ unit_interval u) ->
  is_finite fraction = true /\ (0 <= B2R fraction <= 1)%R -> dlt d0 interval = false ->
  0 <= max_iterations -> Z.of_nat (length path) <= 2 ^ 53 ->
  exists p w', ShortcutSmoothPath edge_valid distance interpolate random path max_iterations max_failed back fraction interval check
    (Z.to_nat max_iterations) w = (Ok p, w') /\ (length p <= length path)%nat.
Proof.
  intros V W ev d i random path mi mf back fraction interval check w U FR NR M L.
  apply (smooth_defined ev d i random U fraction FR interval NR check back mi mf (Z.to_nat mi) 0 0 path w); lia.
Qed.

(** A run that takes a shortcut over an obstacle by halving. *)
Definition no_jump_3 (a b : Z) : bool := Z.abs (a - b) <? 3.
Example C54_nonvacuous :
  edges_valid no_jump_3 [0; 1; 2; 3; 4] /\ is_finite d1 = true /\ (0 <= B2R d1 <= 1)%R /\
  ShortcutSmoothPath no_jump_3 line_distance (fun a _ _ => a) two_draws [0; 1; 2; 3; 4] 1 1 1 d1 d0 false 1 0 = (Ok [0; 1; 3; 4], 2).
Proof.
  split; [|split; [apply d1_val|split; [rewrite (proj1 d1_val); lra|vm_compute; reflexivity]]].
  intros l1 a b l2 E. destruct l1 as [|x1 [|x2 [|x3 [|x4 [|x5 l1]]]]]; cbn in E; try (injection E; intros; subst; reflexivity); try discriminate; try (destruct l1; discriminate).
Qed.

(** C55. *)
Theorem C55_percent_one : forall (V : Type) (edge_valid : V -> V -> bool) path, Z.of_nat (length path) <= 2 ^ 53 + 1 ->
  deq (ComputePercentCollisionFree edge_valid path) d1 = true <-> path_valid edge_valid path.
Proof. intros V. exact percent_one. Qed.
Theorem C55_percent_range : forall (V : Type) (edge_valid : V -> V -> bool) path, Z.of_nat (length path) <= 2 ^ 53 + 1 ->
  dle d0 (ComputePercentCollisionFree edge_valid path) = true /\ dle (ComputePercentCollisionFree edge_valid path) d1 = true.
Proof. intros V. exact percent_range. Qed.
(** Otherwise: the rounded fraction of the edges before the first invalid one. *)
Theorem C55_percent_fraction : forall (V : Type) (edge_valid : V -> V -> bool) path l1 a b l2, Z.of_nat (length path) <= 2 ^ 53 + 1 ->
  path = l1 ++ a :: b :: l2 -> edges_valid edge_valid (l1 ++ [a]) -> edge_valid a b = false ->
  B2R (ComputePercentCollisionFree edge_valid path) = rnd64 (IZR (Z.of_nat (length l1)) / IZR (Z.of_nat (length path) - 1)) /\
  is_finite (ComputePercentCollisionFree edge_valid path) = true.
Proof. intros V. exact percent_fraction. Qed.
Print Assumptions C55_percent_fraction.
Example C55_nonvacuous : path_valid no_jump_3 [0; 1; 2] /\ ~ path_valid no_jump_3 [0; 1; 5] /\
  deq (ComputePercentCollisionFree no_jump_3 [0; 1; 2]) d1 = true /\ deq (ComputePercentCollisionFree no_jump_3 [0; 1; 5]) d1 = false.
Proof.
  assert (A : deq (ComputePercentCollisionFree no_jump_3 [0; 1; 2]) d1 = true) by (vm_compute; reflexivity).
  assert (B : deq (ComputePercentCollisionFree no_jump_3 [0; 1; 5]) d1 = false) by (vm_compute; reflexivity).
  split; [apply C55_percent_one; [cbn; lia|exact A]|]. split; [|auto].
  intros H. apply C55_percent_one in H; [|cbn; lia]. congruence.
Qed.

(** C56.  One block of states for each edge, holding ceil(distance/spacing)
    states; it ends with the waypoint whenever it is not empty. *)
Theorem C56_resample :
  forall (V : Type) distance interpolate spacing (a b : V) rest out,
  (forall a b, interpolate a b d1 = b) ->
  ResamplePath distance interpolate (a :: b :: rest) spacing = Ok out ->
  dle spacing d0 = false /\ exists l, out = a :: l /\
  blocks (fun a b block => resampled_edge distance interpolate spacing a b block /\
            (0 < segments distance spacing a b -> exists m, block = m ++ [b])) a (b :: rest) l.
Proof. intros V. exact resample_ok. Qed.
Theorem C56_short_paths : forall (V : Type) distance interpolate spacing (path : list V), (length path <= 1)%nat ->
  ResamplePath distance interpolate path spacing = Ok path.
Proof. intros V d i s [|a [|b r]] L; [reflexivity|reflexivity|cbn in L; lia]. Qed.
Theorem C56_bad_spacing : forall (V : Type) distance interpolate spacing (a b : V) rest, dle spacing d0 = true ->
  ResamplePath distance interpolate (a :: b :: rest) spacing = Throw InvalidArgument.
Proof. intros V d i s a b rest H. cbn. rewrite H. reflexivity. Qed.

(** The condition on the quotient is needed: it may underflow to zero although the
    distance is positive, and the last waypoint disappears. *)
Definition tiny : double := ddiv d1 (dmul (d_of_Z (2 ^ 1000)) (d_of_Z (2 ^ 23))).
Theorem C56_underflow : dlt d0 (ddiv tiny (d_of_Z (2 ^ 50))) = true /\
  ResamplePath (fun _ _ => ddiv tiny (d_of_Z (2 ^ 50))) (fun _ b _ => b) [0; 1] (d_of_Z 4) = Ok [0].
Proof. split; vm_compute; reflexivity. Qed.

Example C56_nonvacuous :
  ResamplePath line_distance (fun a b r => if dlt r d1 then a + 100 else b) [0; 3; 3; 4] d1 = Ok [0; 100; 100; 3; 4].
Proof. vm_compute. reflexivity. Qed.

Print Assumptions C54_endpoints.
Print Assumptions C54_iterations.
Print Assumptions C54_validity_refuted.
Print Assumptions C54_validity_partial.
Print Assumptions C54_defined.
Print Assumptions C55_percent_one.
Print Assumptions C55_percent_range.
Print Assumptions C56_resample.
Print Assumptions C56_short_paths.
Print Assumptions C56_bad_spacing.
Print Assumptions C56_underflow.
