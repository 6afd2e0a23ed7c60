(** Proofs for C181. *)
From Coq Require Import ZArith Reals Lra Psatz Lia.
From Flocq Require Import Core BinarySingleNaN.
From Verif Require Import Base Double DoubleFacts MathModel MathReal MathLinModel MathLinSpec RotationModel ParallelismModel VoxelModel VoxelSpec VoxelProof VoxelFloat
  CoverSpec CoverProof HashedModel HashedSpec HashedProof HashedFloat PlacedModel PlacedSpec PlacedProof PlacedProof2 PlacedHashSpec.
Local Open Scope R_scope.

Section Scale.
Variable M : R.
Hypothesis HM : hscale M.
Lemma hscale_scale : scale M.
Proof. destruct HM as (m & Hm & E). exists m. split; [lia|exact E]. Qed.
Lemma M_bounds : bpow radix2 (-400) <= M <= bpow radix2 400.
Proof. destruct HM as (m & Hm & ->). split; apply bpow_le; lia. Qed.

Lemma axis_inside n c size a q i : chunk_axis_fits M n c -> size = dmul (d_of_Z n) c -> ap M a q 54 (900 * u) -> axis_deep c q i ->
  inside_cell a c size n (i / n) (i mod n).
Proof.
  intros (Fc & Hn & Lc & Uc) -> (Fa & Ba & Ea) (L & U). pose proof M_bounds as [M1 M2].
  assert (PM : 0 < M) by (pose proof (bpow_gt_0 radix2 (-400)); lra).
  assert (N1 : 1 <= IZR n) by (apply (IZR_le 1); lia).
  assert (N2 : IZR n <= 1048576) by (apply (IZR_le _ 1048576); lia).
  change (bpow radix2 (-14)) with (/ 16384) in Lc.
  assert (Pc : 0 < B2R c).
  { apply Rmult_lt_reg_l with (IZR n); [lra|]. rewrite Rmult_0_r. nra. }
  assert (C1 : M <= B2R c * 17179869184) by nra. assert (C2 : B2R c <= M) by nra.
  apply Rabs_le_inv in Ba. apply Rabs_le_inv in Ea.
  destruct (d_of_Z_exact n) as [Vn Fn]; [lia|].
  assert (B : Rabs (B2R (d_of_Z n) * B2R c) <= 1 * M) by (rewrite Vn, Rabs_pos_eq by nra; lra).
  pose proof (ML M hscale_scale) as L1. pose proof (MH M hscale_scale) as H1.
  destruct (dmul_val (d_of_Z n) c Fn Fc) as [Vx Fx]; [apply (big M L1 H1 _ 1); [lra|exact B]|].
  rewrite Vn in *. assert (B0 : Rabs (IZR n * B2R c) <= (IZR n * B2R c / M) * M) by (rewrite Rabs_pos_eq by nra; apply Req_le; field; lra).
  pose proof (rnd_err M L1 _ _ B0) as E1. rewrite <- Vx in E1.
  replace ((IZR n * B2R c / M * u + u * u) * M) with (IZR n * B2R c * u + u * (u * M)) in E1 by (field; lra).
  set (size := dmul (d_of_Z n) c) in *.
  pose proof (Z.div_mod i n ltac:(lia)) as D. pose proof (Z.mod_pos_bound i n ltac:(lia)) as J.
  set (k := (i / n)%Z) in *. set (j := (i mod n)%Z) in *.
  assert (DR : IZR i = IZR n * IZR k + IZR j) by (rewrite D, plus_IZR, mult_IZR; reflexivity).
  assert (J0 : 0 <= IZR j) by (apply (IZR_le 0); lia).
  assert (J1 : IZR j <= IZR n - 1) by (rewrite <- minus_IZR; apply IZR_le; lia).
  assert (Mn : M <= IZR n * B2R c * 16384) by lra.
  assert (K1 : IZR k <= 1048576 - 1).
  { rewrite <- (minus_IZR 1048576 1). apply IZR_le. cut (k < 1048576)%Z; [lia|]. apply lt_IZR.
    apply Rmult_lt_reg_l with (IZR n * B2R c); [nra|]. nra. }
  assert (K2 : - 1048576 <= IZR k).
  { apply Rmult_le_reg_l with (IZR n * B2R c); [nra|]. nra. }
  assert (Eu : u * M <= IZR n * B2R c) by (unfold u; lra). pose proof u_pos as Pu.
  assert (KS : Rabs (IZR k * (B2R size - IZR n * B2R c)) <= / 128 * B2R c).
  { rewrite Rabs_mult. apply Rle_trans with (1048576 * (u * 2 * (IZR n * B2R c))).
    - apply Rmult_le_compat; auto using Rabs_pos; [apply Rabs_le; lra|]. nra.
    - unfold u. nra. }
  apply Rabs_le_inv in KS.
  assert (Er : 900 * u * M <= / 128 * B2R c) by (unfold u; lra).
  unfold inside_cell. split; [exact Fa|]. split; [exact Fc|]. split; [reflexivity|].
  split.
  { split.
    - apply Rle_trans with (bpow radix2 (-400) * bpow radix2 (-34)); [rewrite <- bpow_plus; apply bpow_le; lia|].
      change (bpow radix2 (-34)) with (/ 17179869184). lra.
    - apply Rle_trans with (bpow radix2 400); [lra|apply bpow_le; lia]. }
  split; [lia|]. split; [split; apply le_IZR; [change (- 2 ^ 20)%Z with (-1048576)%Z|change (2 ^ 20)%Z with 1048576%Z]; lra|].
  split; [lia|]. split; nra.
Qed.
Definition cell_in_chunk (s : GridSizes) (i : GridIndex) : Z * Z * Z := let '(x, y, z) := i in
  (x mod num_x_cells s, y mod num_y_cells s, z mod num_z_cells s)%Z.
Lemma placed_inside s o l i : made_sizes s -> placement M o -> chunk_fits M s -> in_cell M s o l i ->
  inside_location s (eigen_apply (eigen_inverse o) l) (chunk_of_cell s i) (cell_in_chunk s i).
Proof.
  destruct l as [[[x y] z] w], i as [[ix iy] iz]. intros Ms P (Cx & Cy & Cz) (-> & (F1 & F2 & F3) & W & D).
  destruct (in_frame M hscale_scale o x y z P F1 F2 F3 W) as (a & b & c & E & A).
  refine (eq_ind_r (fun t => inside_location s t _ _) _ E).
  cbn [real3] in D. destruct (in_grid_frame o (B2R x, B2R y, B2R z)) as [[p q] r]. destruct A as (A1 & A2 & A3), D as (D1 & D2 & D3).
  destruct (made_lengths s Ms) as (Lx & Ly & Lz). unfold inside_location, chunk_of_cell, cell_in_chunk.
  split; [eapply axis_inside; eassumption|]. split; eapply axis_inside; eassumption.
Qed.
Lemma same_cell s i i' : chunk_fits M s -> chunk_of_cell s i = chunk_of_cell s i' -> cell_in_chunk s i = cell_in_chunk s i' -> i = i'.
Proof.
  destruct i as [[x y] z], i' as [[x' y'] z']. intros ((_ & Nx & _) & (_ & Ny & _) & (_ & Nz & _)) H H'.
  injection H as H1 H2 H3. injection H' as G1 G2 G3.
  rewrite (Z.div_mod x (num_x_cells s)), (Z.div_mod y (num_y_cells s)), (Z.div_mod z (num_z_cells s)) by lia.
  rewrite H1, H2, H3, G1, G2, G3. rewrite <- !Z.div_mod by lia. reflexivity.
Qed.
End Scale.

Section Grid.
Context {T User : Type}.
Variable on_access : User -> vec4 -> User * bool.
Variable s : GridSizes.
Hypothesis Ms : made_sizes s.
Notation hgrid := (@hgrid T User iso3).
Notation shows := (shows eigen_inverse eigen_apply s).
Notation frame g l := (eigen_apply (h_inverse g) l).
Lemma good_s : good s. Proof. apply made_good, Ms. Qed.

(** What is read, from what is known, at a location inside a cell. *)
Lemma read_inside w (g : hgrid) l k j : shows w g -> inside_location s (w_frame w l) k j ->
  HGetLocationImmutable4d eigen_apply g l =
  let r := chunk_of s (w_frame w l) in
  match w_presence w r with
  | Absent => Ok (NOT_FOUND, None)
  | Whole => Ok (FOUND_IN_CHUNK, Some (w_value w r 0%Z))
  | PerCell => Ok (FOUND_IN_CELL, Some (w_value w r (position (dims_of s) j)))
  end.
Proof.
  intros S I. rewrite (read_agrees eigen_inverse eigen_apply s good_s w g l S). cbv zeta.
  destruct (cell_index s _ k j good_s I) as [E IN]. pose proof (good_position s j good_s IN) as P.
  destruct (w_presence w _); try reflexivity. rewrite E. cbn [bind]. destruct (Z.leb_spec 0 (position (dims_of s) j)); [reflexivity|lia].
Qed.
Lemma whole_values w (g : hgrid) r i : shows w g -> w_presence w r = Whole -> w_value w r i = w_value w r 0%Z.
Proof.
  intros S P. pose proof (sh_chunks _ _ _ _ _ S r) as C. destruct (find_chunk (h_chunks g) r) as [c|]; [|congruence].
  rewrite P in C. destruct (chunk_get_whole s _ _ _ C) as [_ X]. apply X.
Qed.
Lemma set_inside w (g : hgrid) l t v k j : shows w g -> steady on_access -> inside_location s (w_frame w l) k j ->
  snd (on_access (h_user g) (w_frame w l)) = true ->
  exists g', hperform eigen_inverse eigen_apply on_access g (HSet l t v) = (g', HStatus (match t with SET_CELL => DID_SET_CELL | SET_CHUNK => DID_SET_CHUNK end)) /\
  shows (match t with SET_CELL => knows_cell s w l v | SET_CHUNK => knows_chunk s w l v end) g'.
Proof.
  intros S St I Al. destruct (cell_index s _ k j good_s I) as [E IN]. pose proof (good_position s j good_s IN) as P.
  unfold hperform. change depth with (Datatypes.S (Datatypes.S 998)).
  destruct (set_outcome eigen_inverse eigen_apply on_access s good_s 998 w g l t v S St) as (g1 & res & EQ & H).
  rewrite Al in H. rewrite EQ. unfold settle. cbn [fst snd].
  assert (RF : region_eqb (chunk_of s (w_frame w l)) (chunk_of s (w_frame w l)) = true).
  { destruct (ordinary_locations s _ _ _ _ _ _ Ms I I) as [X _]. apply X. reflexivity. }
  destruct H as [H|[H _]]; [|congruence]. destruct t; simpl in H.
  - destruct H as [-> H]. exists g1. auto.
  - rewrite E in H. destruct (Z.leb_spec 0 (position (dims_of s) j)); [|lia]. destruct H as [-> H]. exists g1. auto.
Qed.

Variable M : R.
Hypothesis HM : hscale M.
Hypothesis Fit : chunk_fits M s.
Hypothesis St : steady on_access.
Lemma reach_frame (g : hgrid) : reachable_hgrid eigen_inverse eigen_apply s on_access g ->
  exists w, shows w g /\ forall l, w_frame (T := T) w l = eigen_apply (eigen_inverse (h_origin g)) l.
Proof.
  intros R. destruct (reach_shows eigen_inverse eigen_apply on_access s g Ms St R) as (w & S). exists w. split; [exact S|].
  intros l. rewrite <- (sh_frame _ _ _ _ _ S), (sh_inv _ _ _ _ _ S). reflexivity.
Qed.
Lemma frame_inside (g : hgrid) (w : @hview T) l i : placement M (h_origin g) -> (forall l, w_frame (T := T) w l = eigen_apply (eigen_inverse (h_origin g)) l) ->
  in_cell M s (h_origin g) l i -> inside_location s (w_frame w l) (chunk_of_cell s i) (cell_in_chunk s i).
Proof. intros P F I. rewrite F. apply (placed_inside M HM s _ l i Ms P Fit I). Qed.
Lemma region_same (w : @hview T) l l' k k' j j' : inside_location s (w_frame w l) k j -> inside_location s (w_frame w l') k' j' ->
  region_eqb (chunk_of s (w_frame w l)) (chunk_of s (w_frame w l')) = true <-> k = k'.
Proof. intros I I'. destruct (ordinary_locations s _ _ _ _ _ _ Ms I I') as [X _]. exact X. Qed.

Lemma same_region w (g : hgrid) r q : shows w g -> region_eqb r q = true ->
  w_presence w r = w_presence w q /\ (w_presence w r <> Absent -> forall i, (0 <= i < volume s)%Z -> w_value w r i = w_value w q i).
Proof.
  intros S Q. pose proof (sh_chunks _ _ _ _ _ S r) as C. pose proof (sh_chunks _ _ _ _ _ S q) as C'.
  rewrite <- (find_eqb _ _ _ Q) in C'. destruct (find_chunk (h_chunks g) r) as [c|].
  - destruct C as (_ & _ & C), C' as (_ & _ & C').
    destruct C as [(F & P & d & D & V)|(F & P & L & V)], C' as [(F' & P' & d' & D' & V')|(F' & P' & L' & V')]; try congruence.
    + split; [congruence|]. intros _ i _. rewrite V, V'. congruence.
    + split; [congruence|]. intros _ i Hi. specialize (V i Hi). specialize (V' i Hi). congruence.
  - split; [congruence|]. intros N. contradiction.
Qed.
(** Two locations in one cell read alike. *)
Lemma reads_alike (g : hgrid) l l' i : reachable_hgrid eigen_inverse eigen_apply s on_access g -> placement M (h_origin g) ->
  in_cell M s (h_origin g) l i -> in_cell M s (h_origin g) l' i ->
  HGetLocationImmutable4d eigen_apply g l = HGetLocationImmutable4d eigen_apply g l'.
Proof.
  intros R P I I'. destruct (reach_frame g R) as (w & S & F). pose proof (frame_inside g w l i P F I) as J. pose proof (frame_inside g w l' i P F I') as J'.
  rewrite (read_inside w g l _ _ S J), (read_inside w g l' _ _ S J'). cbv zeta.
  pose proof (proj2 (region_same w l l' _ _ _ _ J J') eq_refl) as Q.
  destruct (cell_index s _ _ _ good_s J) as [_ IN]. pose proof (good_position s _ good_s IN) as PO.
  destruct (same_region w g _ _ S Q) as [<- V]. destruct (w_presence w (chunk_of s (w_frame w l))) eqn:Pr; [reflexivity| |].
  - rewrite V; [reflexivity|discriminate|unfold volume; lia].
  - rewrite V; [reflexivity|discriminate|exact PO].
Qed.
(** What a write of a cell does. *)
Lemma write_cell (g : hgrid) l v i : reachable_hgrid eigen_inverse eigen_apply s on_access g -> placement M (h_origin g) ->
  in_cell M s (h_origin g) l i -> snd (on_access (h_user g) (frame g l)) = true ->
  exists g', hperform eigen_inverse eigen_apply on_access g (HSet l SET_CELL v) = (g', HStatus DID_SET_CELL) /\
  forall l' i', in_cell M s (h_origin g) l' i' ->
    (i' = i -> HGetLocationImmutable4d eigen_apply g' l' = Ok (FOUND_IN_CELL, Some v)) /\
    (i' <> i -> chunk_of_cell s i' = chunk_of_cell s i -> HGetLocationImmutable4d eigen_apply g' l' =
       Ok (FOUND_IN_CELL, Some (value_there (h_default g) (HGetLocationImmutable4d eigen_apply g l')))) /\
    (chunk_of_cell s i' <> chunk_of_cell s i -> HGetLocationImmutable4d eigen_apply g' l' = HGetLocationImmutable4d eigen_apply g l').
Proof.
  intros R P I Al. destruct (reach_frame g R) as (w & S & F). pose proof (frame_inside g w l i P F I) as J.
  rewrite (sh_frame _ _ _ _ _ S) in Al. destruct (set_inside w g l SET_CELL v _ _ S St J Al) as (g' & E & S').
  exists g'. split; [exact E|]. intros l' i' I'. pose proof (frame_inside g w l' i' P F I') as J'.
  rewrite (read_inside w g l' _ _ S J'). rewrite (read_inside (knows_cell s w l v) g' l' _ _ S' J').
  cbv zeta. unfold knows_cell. cbv zeta. unfold set_presence. cbn [w_presence w_value w_frame].
  destruct (ordinary_locations s _ _ _ _ _ _ Ms J J') as [Q [CE _]]. rewrite CE.
  destruct (cell_index s _ _ _ good_s J) as [_ IN]. destruct (cell_index s _ _ _ good_s J') as [_ IN'].
  destruct (region_eqb (chunk_of s (w_frame w l)) (chunk_of s (w_frame w l'))) eqn:B.
  - pose proof (proj1 Q eq_refl) as K. split; [|split; [|intros N; congruence]].
    + intros ->. rewrite Z.eqb_refl. reflexivity.
    + intros N _. destruct (Z.eqb_spec (position (dims_of s) (cell_in_chunk s i')) (position (dims_of s) (cell_in_chunk s i))) as [X|X].
      { exfalso. apply N. apply (same_cell M s); [exact Fit|congruence|]. eapply (position_inj s); eauto using good_s. }
      f_equal. f_equal. f_equal. unfold current. destruct (same_region w g _ _ S B) as [Pr V].
      pose proof (good_position s _ good_s IN') as PO. rewrite <- Pr. destruct (w_presence w (chunk_of s (w_frame w l))) eqn:Pw; cbn [value_there].
      * symmetry. apply (sh_default _ _ _ _ _ S).
      * rewrite V by (try discriminate; exact PO). apply (whole_values w g); [exact S|congruence].
      * apply V; [discriminate|exact PO].
  - split; [intros ->; exfalso|split; [intros _ K|intros _]]; [|exfalso|reflexivity];
      assert (X : false = true) by (apply Q; congruence); discriminate.
Qed.
Lemma write_chunk (g : hgrid) l v i : reachable_hgrid eigen_inverse eigen_apply s on_access g -> placement M (h_origin g) ->
  in_cell M s (h_origin g) l i -> snd (on_access (h_user g) (frame g l)) = true ->
  exists g', hperform eigen_inverse eigen_apply on_access g (HSet l SET_CHUNK v) = (g', HStatus DID_SET_CHUNK) /\
  forall l' i', in_cell M s (h_origin g) l' i' ->
    (chunk_of_cell s i' = chunk_of_cell s i -> HGetLocationImmutable4d eigen_apply g' l' = Ok (FOUND_IN_CHUNK, Some v)) /\
    (chunk_of_cell s i' <> chunk_of_cell s i -> HGetLocationImmutable4d eigen_apply g' l' = HGetLocationImmutable4d eigen_apply g l').
Proof.
  intros R P I Al. destruct (reach_frame g R) as (w & S & F). pose proof (frame_inside g w l i P F I) as J.
  rewrite (sh_frame _ _ _ _ _ S) in Al. destruct (set_inside w g l SET_CHUNK v _ _ S St J Al) as (g' & E & S').
  exists g'. split; [exact E|]. intros l' i' I'. pose proof (frame_inside g w l' i' P F I') as J'.
  rewrite (read_inside w g l' _ _ S J'). rewrite (read_inside (knows_chunk s w l v) g' l' _ _ S' J').
  cbv zeta. unfold knows_chunk, set_presence. cbn [w_presence w_value w_frame].
  destruct (ordinary_locations s _ _ _ _ _ _ Ms J J') as [Q _].
  destruct (region_eqb (chunk_of s (w_frame w l)) (chunk_of s (w_frame w l'))) eqn:B.
  - pose proof (proj1 Q eq_refl) as K. split; [reflexivity|intros N; congruence].
  - split; [intros K; exfalso|reflexivity]. assert (X : false = true) by (apply Q; congruence). discriminate.
Qed.
End Grid.
