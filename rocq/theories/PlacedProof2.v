(** Proofs for C180: grids. *)
From Coq Require Import ZArith Reals Lra Psatz Lia.
From Flocq Require Import Core BinarySingleNaN.
From Verif Require Import Base Double DoubleFacts MathModel MathReal MathLinModel MathLinSpec RotationModel ParallelismModel VoxelModel VoxelSpec VoxelProof VoxelFloat CoverSpec CoverProof PlacedModel PlacedSpec PlacedProof.
Local Open Scope R_scope.

(** * The sizes of a grid a user has were made by the constructors *)
Section Made.
Context {T User Iso : Type}.
Variable iso_inverse : Iso -> Iso.
Variable iso_apply : Iso -> vec4 -> vec4.
Variable on_access : User -> Z -> Z -> Z -> User * bool.
Variable on_raw : User -> User * bool.
Lemma steps_made cs : forall s w (g : @grid T User Iso) g' h, sound iso_inverse g -> agrees iso_inverse iso_apply s w g -> made_sizes s -> calls_made cs ->
  perform_all iso_inverse iso_apply on_access on_raw g cs = (g', h) -> made_sizes (g_sizes g').
Proof.
  induction cs as [|c r IH]; simpl; intros s w g g' h S A Ms C H.
  - injection H as <- <-. rewrite (ag_sizes _ _ _ _ _ A). exact Ms.
  - destruct (perform iso_inverse iso_apply on_access on_raw g c) as [g1 rep] eqn:E.
    destruct (perform_all iso_inverse iso_apply on_access on_raw g1 r) as [g2 h2] eqn:E2. injection H as <- <-.
    apply step with (s := s) (w := w) in E; auto; [|apply (made_fine (c :: r) C); left; reflexivity]. destruct E as [S1 A1].
    eapply IH; [exact S1|exact A1| |intros o s' d b I; apply (C o s' d b); right; exact I|exact E2].
    destruct c; cbn [learn_sizes]; auto. destruct rep; auto. eapply C. left. reflexivity.
Qed.
Lemma reachable_made (g : @grid T User Iso) : reachable_grid iso_inverse iso_apply on_access on_raw g ->
  made_sizes (g_sizes g) /\ g_inverse g = iso_inverse (g_origin g).
Proof.
  intros R. split; [|apply (reachable_sound iso_inverse iso_apply on_access on_raw g R)].
  destruct R as (id & t0 & w & o & s & def & oob & cs & g0 & h & M & C & N & P).
  pose proof (made_good s M) as G. unfold new_grid in N. apply (initialize_ok iso_inverse (default_grid id t0 w) o s def oob g0 G) in N. subst g0.
  eapply steps_made; [apply new_sound; exact G|apply new_agrees; exact G|exact M|exact C|exact P].
Qed.
End Made.

Lemma made_positive s : made_sizes s -> (0 <= num_x_cells s /\ 0 <= num_y_cells s /\ 0 <= num_z_cells s)%Z.
Proof. intros H. apply made_good in H. destruct H. auto. Qed.

Section Grids.
Variable M : R.
Hypothesis HM : scale M.
Lemma positive_axes s i : in_grid (dims_of s) i -> (0 < num_x_cells s /\ 0 < num_y_cells s /\ 0 < num_z_cells s)%Z.
Proof. destruct i as [[x y] z]. unfold in_grid, dims_of. lia. Qed.
(** Looking up a location of the world. *)
Lemma lookup o s x y z i : made_sizes s -> placement M o -> fits M s -> (0 < num_x_cells s /\ 0 < num_y_cells s /\ 0 < num_z_cells s)%Z ->
  is_finite x = true -> is_finite y = true -> is_finite z = true -> within3 (8 * M) (B2R x, B2R y, B2R z) ->
  deep_inside s (in_grid_frame o (B2R x, B2R y, B2R z)) i ->
  LocationInGridFrameToGridIndex4d s (eigen_apply (eigen_inverse o) (x, y, z, d1)) = Ok i.
Proof.
  intros Ms P (Sx & Sy & Sz) (Nx & Ny & Nz) Fx Fy Fz W D. destruct (in_frame M HM o x y z P Fx Fy Fz W) as (a & b & c & -> & A).
  destruct (in_grid_frame o (B2R x, B2R y, B2R z)) as [[p q] r]. destruct i as [[ix iy] iz]. destruct A as (A1 & A2 & A3), D as (D1 & D2 & D3).
  destruct (inside_ok M HM _ _ _ _ _ Sx Nx A1 D1) as [I1 B1], (inside_ok M HM _ _ _ _ _ Sy Ny A2 D2) as [I2 B2], (inside_ok M HM _ _ _ _ _ Sz Nz A3 D3) as [I3 B3].
  destruct (fits_ordinary M HM _ _ Sx Nx) as [O1 _], (fits_ordinary M HM _ _ Sy Ny) as [O2 _], (fits_ordinary M HM _ _ Sz Nz) as [O3 _].
  apply made_filled in Ms. destruct Ms as (Ex & Ey & Ez & _). apply locate_ok. exists ix, iy, iz. rewrite Ex, Ey, Ez. split; [reflexivity|].
  split; [|split]; apply axis_inside; assumption.
Qed.
(** The world location of a cell's centre lies deep inside the cell. *)
Lemma within_minus k e a b c p q r : within3 k (p, q, r) -> Rabs (a - p) <= e -> Rabs (b - q) <= e -> Rabs (c - r) <= e -> within3 (k + e) (a, b, c).
Proof.
  unfold within3. intros (P & Q & S) A B C. apply Rabs_le_inv in P, Q, S, A, B, C. repeat split; apply Rabs_le; lra.
Qed.
Lemma centre_size n c i : axis_fits M n c -> (0 <= i < n)%Z -> Rabs (B2R c * (IZR i + / 2)) <= M.
Proof. intros F I. destruct (centre_ap M HM n c i F I) as (_ & B & _). lra. Qed.
Lemma shift_frame o l p : within3 2 (fst (fst (transpose3 (real33 (iso_rotation o))))) -> within3 2 (snd (fst (transpose3 (real33 (iso_rotation o))))) ->
  within3 2 (snd (transpose3 (real33 (iso_rotation o)))) -> forall e, within3 e (minus3 l (in_world o p)) ->
  within3 (6 * e) (minus3 (in_grid_frame o l) (apply3 (transpose3 (real33 (iso_rotation o))) (apply3 (real33 (iso_rotation o)) p))).
Proof.
  intros R1 R2 R3 e W. unfold in_grid_frame, in_world in *. set (m := real33 (iso_rotation o)) in *. set (t := real3 (iso_translation o)) in *.
  set (w := apply3 m p) in *. destruct (transpose3 m) as [[c1 c2] c3]. cbn [fst snd] in *.
  assert (E : minus3 l (plus3 w t) = minus3 (minus3 l t) w).
  { destruct l as [[? ?] ?], w as [[? ?] ?], t as [[? ?] ?]. unfold minus3, plus3. f_equal; [f_equal|]; ring. }
  rewrite E in W. set (d := minus3 l t) in *. clearbody d w.
  assert (Dist : forall r : r3, dot3 r d - dot3 r w = dot3 r (minus3 d w)) by (intros [[? ?] ?]; destruct d as [[? ?] ?], w as [[? ?] ?]; unfold dot3, minus3; ring).
  unfold apply3, minus3 at 1. unfold within3. rewrite !Dist. repeat split; apply dot_bound; assumption.
Qed.
Lemma columns_small o : placement M o -> within3 2 (fst (fst (transpose3 (real33 (iso_rotation o))))) /\
  within3 2 (snd (fst (transpose3 (real33 (iso_rotation o))))) /\ within3 2 (snd (transpose3 (real33 (iso_rotation o)))).
Proof.
  intros (_ & _ & Fo & _). destruct o as [[[r1 r2] r3] t]. cbn [iso_rotation] in *. destruct r1 as [[a b] c], r2 as [[d e] f], r3 as [[g h] k].
  cbn [real33 real3] in *. pose proof (orthogonal_small _ _ _ _ _ _ _ _ _ Fo). cbn [transpose3 fst snd within3]. tauto.
Qed.
Lemma centre_deep o s i x y z : placement M o -> fits M s -> in_grid (dims_of s) i ->
  eigen_apply o (IndexToLocationInGridFrame s i) = (x, y, z, d1) ->
  is_finite x = true /\ is_finite y = true /\ is_finite z = true /\ within3 (8 * M) (B2R x, B2R y, B2R z) /\
  within3 (bpow radix2 (-46) * M) (minus3 (B2R x, B2R y, B2R z) (in_world o (centre_of s i))) /\
  deep_inside s (in_grid_frame o (B2R x, B2R y, B2R z)) i.
Proof.
  intros P F I E. destruct (centre_in_world M HM o s i P F I) as (x' & y' & z' & E' & A). rewrite E in E'. injection E' as <- <- <-.
  pose proof (M_positive M HM) as PM.
  assert (W : is_finite x = true /\ is_finite y = true /\ is_finite z = true /\ within3 (8 * M) (B2R x, B2R y, B2R z) /\
    within3 (100 * u * M) (minus3 (B2R x, B2R y, B2R z) (in_world o (centre_of s i)))).
  { destruct (in_world o (centre_of s i)) as [[a b] c]. destruct A as ((F1 & B1 & E1) & (F2 & B2 & E2) & (F3 & B3 & E3)).
    split; [exact F1|]. split; [exact F2|]. split; [exact F3|]. split; [|repeat split; assumption].
    assert (L : 7 * M + 100 * u * M <= 8 * M) by (unfold u; lra).
    destruct (within_minus (7 * M) (100 * u * M) (B2R x) (B2R y) (B2R z) a b c) as (X1 & X2 & X3); [repeat split; assumption|assumption..|].
    repeat split; lra. }
  destruct W as (F1 & F2 & F3 & W8 & W). split; [exact F1|]. split; [exact F2|]. split; [exact F3|]. split; [exact W8|].
  split.
  { destruct (minus3 _ _) as [[? ?] ?]. destruct W as (W1 & W2 & W3). change (bpow radix2 (-46)) with (/ 70368744177664).
    assert (100 * u * M <= / 70368744177664 * M) by (unfold u; lra). repeat split; lra. }
  destruct (columns_small o P) as (C1 & C2 & C3).
  pose proof (shift_frame o _ _ C1 C2 C3 _ W) as Sh. clear C1 C2 C3 W A.
  assert (Bc : within3 M (centre_of s i)).
  { destruct i as [[ix iy] iz]. unfold in_grid, dims_of in I. destruct F as (Sx & Sy & Sz). unfold centre_of. repeat split; eapply centre_size; eauto; lia. }
  destruct P as (_ & _ & Fo & _). pose proof (back_and_forth _ _ _ Fo Bc) as Bf.
  set (back := apply3 _ (apply3 _ (centre_of s i))) in *. clearbody back.
  destruct (in_grid_frame o (B2R x, B2R y, B2R z)) as [[p q] r]. destruct back as [[b1 b2] b3]. destruct i as [[ix iy] iz]. unfold centre_of in *. cbn [minus3 within3] in Sh, Bf.
  destruct Sh as (S1 & S2 & S3), Bf as (T1 & T2 & T3).
  assert (Lim : 6 * (100 * u * M) + 3 * bpow radix2 (-48) * M <= 700 * u * M) by (rewrite p48; unfold u; lra).
  assert (Deep : forall n c i p b, axis_fits M n c -> (0 < n)%Z -> Rabs (p - b) <= 6 * (100 * u * M) -> Rabs (b - B2R c * (IZR i + / 2)) <= 3 * bpow radix2 (-48) * M -> axis_deep c p i).
  { intros n c j p0 b Fit Hn H1 H2. destruct (fits_ordinary M HM n c Fit Hn) as (_ & Pc & _). destruct Fit as (_ & Lc & _).
    assert (C40 : M <= B2R c * 1099511627776).
    { apply Rmult_le_reg_r with (bpow radix2 (-40)); [apply bpow_gt_0|]. rewrite Rmult_assoc. change (bpow radix2 (-40)) with (/ 1099511627776) in *. lra. }
    apply Rabs_le_inv in H1. apply Rabs_le_inv in H2. assert (700 * u * M <= / 8 * B2R c) by (unfold u; lra). unfold axis_deep. split; lra. }
  destruct (positive_axes s (ix, iy, iz) I) as (N1 & N2 & N3). destruct F as (Sx & Sy & Sz). unfold deep_inside. split; [|split]; eapply Deep; eauto.
Qed.
Lemma world_round_trip o s i : made_sizes s -> placement M o -> fits M s -> in_grid (dims_of s) i ->
  LocationInGridFrameToGridIndex4d s (eigen_apply (eigen_inverse o) (eigen_apply o (IndexToLocationInGridFrame s i))) = Ok i.
Proof.
  intros Ms P F I. destruct (centre_in_world M HM o s i P F I) as (x & y & z & E & _). rewrite E.
  destruct (centre_deep o s i x y z P F I E) as (F1 & F2 & F3 & W & _ & D). apply lookup; auto. apply (positive_axes s i I).
Qed.
End Grids.

(** * Vectors of three coordinates *)
Section Three.
Variable M : R.
Hypothesis HM : scale M.
Lemma in_frame3 o x y z : placement M o -> is_finite x = true -> is_finite y = true -> is_finite z = true ->
  within3 (8 * M) (B2R x, B2R y, B2R z) ->
  exists a b c, eigen_apply3 (eigen_inverse o) (x, y, z) = (a, b, c) /\
  let '(p, q, r) := in_grid_frame o (B2R x, B2R y, B2R z) in ap M a p 54 (900 * u) /\ ap M b q 54 (900 * u) /\ ap M c r 54 (900 * u).
Proof.
  intros (Ff & Ft & Fo & Fm) Fx Fy Fz (Bx & By & Bz). destruct o as [[[r1 r2] r3] [[tx ty] tz]].
  cbn [iso_rotation iso_translation real3 real33 finite3 within3] in *.
  destruct Ft as (Gx & Gy & Gz), Fm as (Tx & Ty & Tz). pose proof (ML M HM) as L. pose proof (MH M HM) as H.
  pose proof (transl_ap M _ Gx Tx) as Ax. pose proof (transl_ap M _ Gy Ty) as Ay. pose proof (transl_ap M _ Gz Tz) as Az.
  destruct r1 as [[a b] c], r2 as [[d e] f], r3 as [[g h] k].
  pose proof (orthogonal_small _ _ _ _ _ _ _ _ _ Fo) as (S1 & S2 & S3 & S4 & S5 & S6 & S7 & S8 & S9).
  destruct Ff as ((F1 & F2 & F3) & (F4 & F5 & F6) & (F7 & F8 & F9)).
  assert (R1 : small3 (a, d, g)) by (repeat split; assumption).
  assert (R2 : small3 (b, e, h)) by (repeat split; assumption).
  assert (R3 : small3 (c, f, k)) by (repeat split; assumption).
  assert (Lx : ap M x (B2R x) 8 0) by (apply ap_exact; assumption). assert (Ly : ap M y (B2R y) 8 0) by (apply ap_exact; assumption). assert (Lz : ap M z (B2R z) 8 0) by (apply ap_exact; assumption).
  unfold eigen_apply3, eigen_inverse. cbn [iso_rotation iso_translation m3_transpose m3_apply v3_add].
  eexists. eexists. eexists. split; [reflexivity|].
  assert (UD : 6 * 0 + 64 * (1 + 0) * u + 10 * (u * u) <= 70 * u) by (unfold u; lra).
  assert (UE : 6 * 0 + 64 * (8 + 0) * u + 10 * (u * u) <= 520 * u) by (unfold u; lra).
  pose proof (ap_opp M _ _ _ _ (dot_ap M L H _ _ _ _ _ _ _ _ _ _ R1 Ax Ay Az ltac:(lra) ltac:(lra) UD)) as D1.
  pose proof (ap_opp M _ _ _ _ (dot_ap M L H _ _ _ _ _ _ _ _ _ _ R2 Ax Ay Az ltac:(lra) ltac:(lra) UD)) as D2.
  pose proof (ap_opp M _ _ _ _ (dot_ap M L H _ _ _ _ _ _ _ _ _ _ R3 Ax Ay Az ltac:(lra) ltac:(lra) UD)) as D3.
  pose proof (dot_ap M L H _ _ _ _ _ _ _ _ _ _ R1 Lx Ly Lz ltac:(lra) ltac:(lra) UE) as E1.
  pose proof (dot_ap M L H _ _ _ _ _ _ _ _ _ _ R2 Lx Ly Lz ltac:(lra) ltac:(lra) UE) as E2.
  pose proof (dot_ap M L H _ _ _ _ _ _ _ _ _ _ R3 Lx Ly Lz ltac:(lra) ltac:(lra) UE) as E3.
  unfold in_grid_frame. cbn [iso_rotation iso_translation real3 real33 transpose3 apply3 minus3].
  assert (Dist : forall (r : r3) x y z p q s, dot3 r (x - p, y - q, z - s) = - dot3 r (p, q, s) + dot3 r (x, y, z)) by (intros [[? ?] ?] *; unfold dot3; ring).
  rewrite !Dist.
  assert (Sum : forall x y r s, ap M x r (6 * 1) (70 * u) -> ap M y s (6 * 8) (520 * u) -> ap M (dadd x y) (r + s) 54 (900 * u)).
  { intros x0 y0 r s X Y. pose proof (add_ap M L H _ _ _ _ _ _ _ _ X Y ltac:(unfold u; lra)) as Q. refine (ap_weak M L _ _ _ _ _ _ Q _ _); [lra|unfold u; lra]. }
  split; [exact (Sum _ _ _ _ D1 E1)|]. split; [exact (Sum _ _ _ _ D2 E2)|exact (Sum _ _ _ _ D3 E3)].
Qed.
Lemma lookup3 o s x y z i : made_sizes s -> placement M o -> fits M s -> (0 < num_x_cells s /\ 0 < num_y_cells s /\ 0 < num_z_cells s)%Z ->
  is_finite x = true -> is_finite y = true -> is_finite z = true -> within3 (8 * M) (B2R x, B2R y, B2R z) ->
  deep_inside s (in_grid_frame o (B2R x, B2R y, B2R z)) i ->
  LocationInGridFrameToGridIndex3d s (eigen_apply3 (eigen_inverse o) (x, y, z)) = Ok i.
Proof.
  intros Ms P (Sx & Sy & Sz) (Nx & Ny & Nz) Fx Fy Fz W D. destruct (in_frame3 o x y z P Fx Fy Fz W) as (a & b & c & -> & A).
  destruct (in_grid_frame o (B2R x, B2R y, B2R z)) as [[p q] r]. destruct i as [[ix iy] iz]. destruct A as (A1 & A2 & A3), D as (D1 & D2 & D3).
  destruct (inside_ok M HM _ _ _ _ _ Sx Nx A1 D1) as [I1 B1], (inside_ok M HM _ _ _ _ _ Sy Ny A2 D2) as [I2 B2], (inside_ok M HM _ _ _ _ _ Sz Nz A3 D3) as [I3 B3].
  destruct (fits_ordinary M HM _ _ Sx Nx) as [O1 _], (fits_ordinary M HM _ _ Sy Ny) as [O2 _], (fits_ordinary M HM _ _ Sz Nz) as [O3 _].
  apply made_filled in Ms. destruct Ms as (Ex & Ey & Ez & _). unfold LocationInGridFrameToGridIndex3d. rewrite Ex, Ey, Ez.
  rewrite (axis_inside _ _ _ O1 B1 I1), (axis_inside _ _ _ O2 B2 I2), (axis_inside _ _ _ O3 B3 I3). reflexivity.
Qed.

(** * Centred grids *)
Lemma identity_matrix : toRotationMatrix double_arith (mkQuat d1 d0 d0 d0) = ((d1, d0, d0), (d0, d1, d0), (d0, d0, d1)).
Proof.
  unfold toRotationMatrix. cbn [qw qx qy qz]. cbn [double_arith amul aadd asub a_of].
  repeat match goal with |- (?a, ?b) = (?c, ?d) => apply f_equal2 end; apply B2SF_inj; vm_compute; reflexivity.
Qed.
Lemma made_lengths s : made_sizes s -> x_size s = dmul (d_of_Z (num_x_cells s)) (cell_x_size s) /\
  y_size s = dmul (d_of_Z (num_y_cells s)) (cell_y_size s) /\ z_size s = dmul (d_of_Z (num_z_cells s)) (cell_z_size s).
Proof.
  intros [[(cx & cy & cz & xs & ys & zs & H)|(cx & cy & cz & nx & ny & nz & H)] _].
  - apply by_size_inv in H. destruct H as (_ & nx & ny & nz & _ & _ & _ & F).
    destruct F as (-> & -> & -> & -> & -> & -> & -> & -> & -> & _). auto.
  - apply by_cells_inv in H. destruct H as (_ & _ & _ & _ & _ & _ & F).
    destruct F as (-> & -> & -> & -> & -> & -> & -> & -> & -> & _). auto.
Qed.
Lemma half_length n c xs : axis_fits M n c -> (0 < n)%Z -> xs = dmul (d_of_Z n) c ->
  is_finite (dmul (Bopp xs) dhalf) = true /\ Rabs (B2R (dmul (Bopp xs) dhalf)) <= M /\
  Rabs (IZR n * B2R c + 2 * B2R (dmul (Bopp xs) dhalf)) <= 6 * u * M.
Proof.
  intros Fit Hn ->. destruct (fits_ordinary M HM n c Fit Hn) as (_ & P & N). destruct Fit as (F & L & U).
  assert (N2 : (n <= 2 ^ 40)%Z) by (apply le_IZR; rewrite IZR_pow2 by lia; exact N).
  destruct (d_of_Z_exact n) as [Vn Fn]; [lia|]. pose proof (M_positive M HM) as PM. pose proof (ML M HM) as L1. pose proof (MH M HM) as H1.
  assert (N1 : 1 <= IZR n) by (apply (IZR_le 1); lia).
  assert (B : Rabs (B2R (d_of_Z n) * B2R c) <= 1 * M) by (rewrite Vn, Rabs_pos_eq by nra; lra).
  destruct (dmul_val (d_of_Z n) c Fn F) as [Vx Fx]; [apply (big M L1 H1 _ 1); [lra|exact B]|].
  pose proof (rnd_err M L1 _ 1 B) as E1. rewrite Vn in *. rewrite <- Vx in E1. set (x := dmul (d_of_Z n) c) in *.
  destruct dhalf_val as [Vh Fh]. assert (Fo : is_finite (Bopp x) = true) by (rewrite is_finite_Bopp; exact Fx).
  apply Rabs_le_inv in B. apply Rabs_le_inv in E1.
  assert (Small : (1 * u + u * u) * M <= 2 * u * M) by (unfold u; lra). assert (Small2 : 2 * u * M <= / 100 * M) by (unfold u; lra).
  assert (B2 : Rabs (B2R (Bopp x) * B2R dhalf) <= 1 * M) by (rewrite B2R_Bopp, Vh; apply Rabs_le; lra).
  destruct (dmul_val (Bopp x) dhalf Fo Fh) as [Vt Gt]; [apply (big M L1 H1 _ 1); [lra|exact B2]|].
  pose proof (rnd_err M L1 _ 1 B2) as E2. rewrite <- Vt, B2R_Bopp, Vh in E2. apply Rabs_le_inv in E2.
  split; [exact Gt|]. split; apply Rabs_le; lra.
Qed.
Lemma centred_placement s : made_sizes s -> fits M s -> (0 < num_x_cells s /\ 0 < num_y_cells s /\ 0 < num_z_cells s)%Z -> placement M (centred_origin s).
Proof.
  intros Ms (Sx & Sy & Sz) (Nx & Ny & Nz). destruct (made_lengths s Ms) as (Lx & Ly & Lz).
  destruct (half_length _ _ _ Sx Nx Lx) as (F1 & B1 & _), (half_length _ _ _ Sy Ny Ly) as (F2 & B2 & _), (half_length _ _ _ Sz Nz Lz) as (F3 & B3 & _).
  unfold placement, centred_origin, iso_of. rewrite identity_matrix. cbn [iso_rotation iso_translation real33 real3].
  destruct d1_val as [V1 Fd1]. split; [repeat split; try reflexivity; exact Fd1|]. split; [repeat split; assumption|]. split; [|repeat split; assumption].
  rewrite V1. change (B2R d0) with 0. unfold nearly_orthogonal. cbn [mul3 transpose3 dot3 minus3 within3]. pose proof (bpow_gt_0 radix2 (-48)).
  repeat split; match goal with |- Rabs ?x <= _ => replace x with 0 by ring end; rewrite Rabs_R0; lra.
Qed.
Lemma centred_symmetric s i x y z x' y' z' : made_sizes s -> fits M s -> in_grid (dims_of s) i ->
  eigen_apply (centred_origin s) (IndexToLocationInGridFrame s i) = (x, y, z, d1) ->
  eigen_apply (centred_origin s) (IndexToLocationInGridFrame s (opposite s i)) = (x', y', z', d1) ->
  within3 (bpow radix2 (-44) * M) (plus3 (B2R x, B2R y, B2R z) (B2R x', B2R y', B2R z')).
Proof.
  intros Ms F I E E'. pose proof (positive_axes s i I) as Pos. pose proof (centred_placement s Ms F Pos) as P.
  assert (I' : in_grid (dims_of s) (opposite s i)) by (destruct i as [[a b] c]; unfold in_grid, dims_of, opposite in *; lia).
  destruct (centre_deep M HM _ s i x y z P F I E) as (_ & _ & _ & _ & W & _).
  destruct (centre_deep M HM _ s _ x' y' z' P F I' E') as (_ & _ & _ & _ & W' & _). clear E E' P.
  destruct F as (Sx & Sy & Sz). destruct (made_lengths s Ms) as (Lx & Ly & Lz). destruct Pos as (Nx & Ny & Nz).
  destruct (half_length _ _ _ Sx Nx Lx) as (_ & _ & B1), (half_length _ _ _ Sy Ny Ly) as (_ & _ & B2), (half_length _ _ _ Sz Nz Lz) as (_ & _ & B3).
  destruct i as [[a b] c]. unfold centred_origin, iso_of, in_world, centre_of, opposite in W, W'. rewrite identity_matrix in W, W'.
  cbn [iso_rotation iso_translation real33 real3 apply3 dot3 plus3 minus3 within3] in W, W'. destruct d1_val as [V1 _]. rewrite V1 in W, W'. change (B2R d0) with 0 in W, W'.
  rewrite !minus_IZR in W'. pose proof (M_positive M HM) as PM.
  change (bpow radix2 (-46)) with (/ 70368744177664) in *. change (bpow radix2 (-44)) with (/ 17592186044416).
  assert (Lim : 2 * (/ 70368744177664 * M) + 6 * u * M <= / 17592186044416 * M) by (unfold u; lra).
  destruct W as (W1 & W2 & W3), W' as (W1' & W2' & W3'). cbn [plus3 within3].
  assert (G : forall w w' cc n k t, Rabs w <= / 70368744177664 * M -> Rabs w' <= / 70368744177664 * M -> Rabs (n * cc + 2 * t) <= 6 * u * M ->
    forall p p', w = p - (cc * (k + / 2) + t) -> w' = p' - (cc * (n - 1 - k + / 2) + t) -> Rabs (p + p') <= / 17592186044416 * M).
  { intros w w' cc n k t H1 H2 H3 p p' -> ->. apply Rabs_le_inv in H1, H2, H3. apply Rabs_le. lra. }
  split; [|split].
  - eapply (G _ _ (B2R (cell_x_size s)) (IZR (num_x_cells s)) (IZR a) _ W1 W1' B1); ring.
  - eapply (G _ _ (B2R (cell_y_size s)) (IZR (num_y_cells s)) (IZR b) _ W2 W2' B2); ring.
  - eapply (G _ _ (B2R (cell_z_size s)) (IZR (num_z_cells s)) (IZR c) _ W3 W3' B3); ring.
Qed.
End Three.
