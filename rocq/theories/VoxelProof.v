(** Proofs for C25-C28, C76. *)
From Coq Require Import Reals.
From Verif Require Import Base ParallelismModel ParallelismProof Double SerializationModel VoxelModel VoxelSpec.
From Flocq Require Import BinarySingleNaN.
Local Open Scope Z_scope.

Record good (s : GridSizes) : Prop := mkGood {
  g_x : 0 <= num_x_cells s; g_y : 0 <= num_y_cells s; g_z : 0 <= num_z_cells s;
  g_s1 : stride1 s = num_y_cells s * num_z_cells s; g_s2 : stride2 s = num_z_cells s;
  g_valid : sizes_valid s = true;
  g_layer : num_x_cells s * num_y_cells s <= int64_max;
  g_max : num_x_cells s * num_y_cells s * num_z_cells s <= int64_max }.

Lemma i64_inv z r : i64 z = Ok r -> r = z /\ int64_min <= z <= int64_max.
Proof.
  unfold i64. destruct (Z.leb_spec int64_min z), (Z.leb_spec z int64_max); simpl; intros E; try discriminate.
  injection E as <-. auto.
Qed.

Lemma set_sizes_inv cx cy cz nx ny nz s : set_sizes cx cy cz nx ny nz = Ok s ->
  num_x_cells s = nx /\ num_y_cells s = ny /\ num_z_cells s = nz /\ stride1 s = ny * nz /\
  stride2 s = nz /\ sizes_valid s = true /\ cell_x_size s = cx /\ cell_y_size s = cy /\ cell_z_size s = cz.
Proof.
  unfold set_sizes. intros H. apply bind_ok in H. destruct H as (a & E & H).
  apply i64_inv in E. destruct E as [-> _]. injection H as <-. simpl. repeat split.
Qed.

(** Without a minus sign the ceiling is not negative. *)
Lemma dceil_nonneg (x : double) : Bsign x = false -> 0 <= - dfloor_Z (Bopp x).
Proof.
  destruct x as [s|s| |s m e B]; cbn [Bsign Bopp dfloor_Z]; intros Hs; try lia.
  destruct s; [discriminate|]. simpl negb. cbv iota zeta.
  destruct (Z.leb_spec 0 e).
  - assert (0 < 2 ^ e) by (apply Z.pow_pos_nonneg; lia). nia.
  - assert (Z.neg m / 2 ^ (- e) <= 0); [|lia].
    apply Z.lt_succ_r, Z.div_lt_upper_bound; [apply Z.pow_pos_nonneg; lia|].
    assert (0 < 2 ^ (- e)) by (apply Z.pow_pos_nonneg; lia). lia.
Qed.

Lemma ceil_inv x n : ceil_to_int64 x = Ok n -> is_finite x = true /\ n = - dfloor_Z (Bopp x).
Proof.
  unfold ceil_to_int64. destruct (is_finite x); [|discriminate]. intros H.
  apply i64_inv in H. tauto.
Qed.

Lemma positive_inv x : CheckPositiveValidD x = true ->
  is_finite x = true /\ Bsign x = false /\ B2R x <> 0%R.
Proof.
  unfold CheckPositiveValidD, dlt, Bltb, d0.
  destruct x as [sx|sx| |sx mx ex Bx]; simpl; try discriminate.
  destruct sx; simpl; [discriminate|]. intros _. repeat split.
  apply Rgt_not_eq. apply Flocq.Core.Float_prop.F2R_gt_0. reflexivity.
Qed.

(** A quotient of positive doubles is not negative. *)
Lemma ddiv_not_neg x y : CheckPositiveValidD x = true -> CheckPositiveValidD y = true ->
  Bsign (ddiv x y) = false.
Proof.
  intros Hx Hy. apply positive_inv in Hx. apply positive_inv in Hy.
  destruct Hx as (Fx & Sx & _), Hy as (Fy & Sy & N0).
  unfold ddiv.
  generalize (Bdiv_correct 53 1024 eq_refl eq_refl mode_NE x y N0). rewrite Sx, Sy, Fx.
  change (Bdiv (prec_gt_0_ := prec53) (prec_lt_emax_ := emax1024)) with
    (Bdiv (prec := 53) (emax := 1024) (prec_gt_0_ := eq_refl) (prec_lt_emax_ := eq_refl)).
  generalize (Bdiv (prec := 53) (emax := 1024) (prec_gt_0_ := eq_refl) (prec_lt_emax_ := eq_refl) mode_NE x y).
  intros q. destruct (Raux.Rlt_bool _ _).
  - intros (_ & FF & H). destruct q; try reflexivity; try discriminate FF; apply H; reflexivity.
  - unfold binary_overflow. destruct q; simpl; intros H; try discriminate; congruence.
Qed.

Lemma made_good s : made_sizes s -> good s.
Proof.
  intros [[H|H] [L M]].
  - destruct H as (cx & cy & cz & xs & ys & zs & H). unfold GridSizesBySize in H.
    apply bind_ok in H. destruct H as (r & H & E). unfold InitializeBySize in H.
    destruct (_ && _) eqn:C; [|injection H as <-; discriminate].
    rewrite !andb_true_iff in C. destruct C as (((((C1 & C2) & C3) & C4) & C5) & C6).
    apply bind_ok in H. destruct H as (nx & Hx & H).
    apply bind_ok in H. destruct H as (ny & Hy & H).
    apply bind_ok in H. destruct H as (nz & Hz & H).
    apply bind_ok in H. destruct H as (s' & Hs & H). injection H as <-. injection E as ->.
    apply set_sizes_inv in Hs. destruct Hs as (E1 & E2 & E3 & E4 & E5 & E6 & _).
    apply ceil_inv in Hx. apply ceil_inv in Hy. apply ceil_inv in Hz.
    destruct Hx as [_ ->], Hy as [_ ->], Hz as [_ ->].
    constructor; [rewrite E1|rewrite E2|rewrite E3|rewrite E4, E2, E3; reflexivity|congruence| | | ]; auto;
      apply dceil_nonneg, ddiv_not_neg; assumption.
  - destruct H as (cx & cy & cz & nx & ny & nz & H). unfold GridSizesByCells in H.
    apply bind_ok in H. destruct H as (r & H & E). unfold InitializeByCells in H.
    destruct (_ && _) eqn:C; [|injection H as <-; discriminate].
    rewrite !andb_true_iff in C. destruct C as (((((C1 & C2) & C3) & C4) & C5) & C6).
    apply bind_ok in H. destruct H as (s' & Hs & H). injection H as <-. injection E as ->.
    apply set_sizes_inv in Hs. destruct Hs as (E1 & E2 & E3 & E4 & E5 & E6 & _).
    unfold CheckPositiveValidI in *. constructor; try lia; auto.
Qed.

(** ** C25 *)
Lemma bound_prod a b x y : 0 <= x < a -> 0 <= y < b -> 0 <= x * b + y < a * b.
Proof. intros. nia. Qed.

Lemma good_position s i : good s -> in_grid (dims_of s) i ->
  0 <= position (dims_of s) i < num_x_cells s * num_y_cells s * num_z_cells s.
Proof.
  intros G. destruct i as [[x y] z]. unfold dims_of, in_grid, position. intros (Hx & Hy & Hz).
  apply bound_prod; [|exact Hz]. apply bound_prod; assumption.
Qed.

Lemma data_index_position s i : good s -> in_grid (dims_of s) i ->
  GetDataIndex s i = Ok (position (dims_of s) i).
Proof.
  intros G I. pose proof (good_position s i G I) as P. destruct G as [Gx Gy Gz E1 E2 _ L M].
  destruct i as [[x y] z]. unfold GetDataIndex, dims_of, in_grid, position in *. cbn [fst snd] in *.
  rewrite E1, E2. destruct I as (Ix & Iy & Iz).
  set (nx := num_x_cells s) in *. set (ny := num_y_cells s) in *. set (nz := num_z_cells s) in *.
  assert (K : int64_min <= 0 /\ 0 <= int64_max) by (unfold int64_min, int64_max; lia).
  assert (A : 0 <= x * (ny * nz)) by nia. assert (B : 0 <= y * nz) by nia.
  assert (S : (x * ny + y) * nz + z = x * (ny * nz) + y * nz + z) by ring.
  rewrite i64_ok by lia. cbn [bind]. rewrite i64_ok by lia. cbn [bind].
  rewrite i64_ok by lia. cbn [bind]. rewrite i64_ok by lia. f_equal. lia.
Qed.

Lemma in_bounds_iff s i : IndexInBounds s i = true <-> in_grid (dims_of s) i.
Proof.
  destruct i as [[x y] z]. unfold IndexInBounds, in_grid, dims_of.
  rewrite !andb_true_iff, !Z.leb_le, !Z.ltb_lt. lia.
Qed.

Lemma grid_index_of s k : good s -> 0 <= k < num_x_cells s * num_y_cells s * num_z_cells s ->
  exists i, GetGridIndexFromDataIndex s k = Ok i /\ in_grid (dims_of s) i /\ position (dims_of s) i = k.
Proof.
  intros [Gx Gy Gz E1 E2 _ L M] K. unfold GetGridIndexFromDataIndex, quot64, rem64. rewrite E1, E2.
  set (nx := num_x_cells s) in *. set (ny := num_y_cells s) in *. set (nz := num_z_cells s) in *.
  assert (0 < nz) by nia. assert (0 < ny) by nia. assert (0 < ny * nz) by nia.
  assert (int64_min <= 0 /\ 0 <= int64_max) by (unfold int64_min, int64_max; lia).
  destruct (Z.eqb_spec (ny * nz) 0); [lia|]. destruct (Z.eqb_spec nz 0); [lia|].
  rewrite Z.quot_div_nonneg by lia.
  pose proof (Z.div_mod k (ny * nz) ltac:(lia)) as D. pose proof (Z.mod_pos_bound k (ny * nz) ltac:(lia)) as Bd.
  assert (0 <= k / (ny * nz)) by (apply Z.div_pos; lia).
  assert (k / (ny * nz) < nx) by (apply Z.div_lt_upper_bound; nia).
  assert (k / (ny * nz) <= k) by nia.
  rewrite i64_ok by lia. cbn [bind]. rewrite Z.rem_mod_nonneg by lia.
  set (q := k / (ny * nz)) in *. set (r := k mod (ny * nz)) in *.
  rewrite Z.quot_div_nonneg by lia.
  pose proof (Z.div_mod r nz ltac:(lia)) as D2. pose proof (Z.mod_pos_bound r nz ltac:(lia)) as Bd2.
  assert (0 <= r / nz) by (apply Z.div_pos; lia).
  assert (r / nz < ny) by (apply Z.div_lt_upper_bound; nia).
  assert (r / nz <= r) by nia.
  rewrite i64_ok by nia. cbn [bind]. rewrite Z.rem_mod_nonneg by lia.
  eexists. split; [reflexivity|]. unfold in_grid, dims_of, position. fold nx ny nz. split; [lia|]. nia.
Qed.

Lemma position_inj s i j : good s -> in_grid (dims_of s) i -> in_grid (dims_of s) j ->
  position (dims_of s) i = position (dims_of s) j -> i = j.
Proof.
  intros [Gx Gy Gz _ _ _ _ _]. destruct i as [[x y] z], j as [[x' y'] z']. unfold in_grid, dims_of, position.
  set (nx := num_x_cells s) in *. set (ny := num_y_cells s) in *. set (nz := num_z_cells s) in *.
  intros I J E.
  assert (z = z' /\ x * ny + y = x' * ny + y').
  { assert (x * ny + y = x' * ny + y'); [|nia].
    transitivity (((x * ny + y) * nz + z) / nz); [apply (Z.div_unique_pos _ _ _ z); lia|].
    rewrite E. symmetry. apply (Z.div_unique_pos _ _ _ z'); lia. }
  assert (x = x').
  { transitivity ((x * ny + y) / ny); [apply (Z.div_unique_pos _ _ _ y); lia|].
    rewrite (proj2 H). symmetry. apply (Z.div_unique_pos _ _ _ y'); lia. }
  subst. assert (y = y') by lia. destruct H as [-> _]. subst. reflexivity.
Qed.

Lemma total_cells s : good s -> TotalCells s = Ok (num_x_cells s * num_y_cells s * num_z_cells s).
Proof.
  intros [Gx Gy Gz E1 E2 V L M]. unfold TotalCells.
  assert (int64_min <= 0) by (unfold int64_min; lia).
  set (nx := num_x_cells s) in *. set (ny := num_y_cells s) in *. set (nz := num_z_cells s) in *.
  assert (0 <= nx * ny) by nia. assert (0 <= nx * ny * nz) by nia.
  rewrite i64_ok by lia. cbn [bind]. apply i64_ok. lia.
Qed.

(** ** Histories *)
Section History.
Context {T User Iso : Type}.
Variable iso_inverse : Iso -> Iso.
Variable iso_apply : Iso -> vec4 -> vec4.
Variable on_access : User -> Z -> Z -> Z -> User * bool.
Variable on_raw : User -> User * bool.
Notation grid := (@grid T User Iso).
Notation call := (@call T Iso).
Notation perform := (@perform T User Iso iso_inverse iso_apply on_access on_raw).
Notation perform_all := (@perform_all T User Iso iso_inverse iso_apply on_access on_raw).
Notation view := (@view T).

Definition volume (s : GridSizes) : Z := num_x_cells s * num_y_cells s * num_z_cells s.

(** A grid as the public interface leaves it. *)
Record sound (g : grid) : Prop := mkSound {
  so_sizes : good (g_sizes g);
  so_len : Z.of_nat (length (g_data g)) = volume (g_sizes g);
  so_inv : g_inverse g = iso_inverse (g_origin g) }.

Record agrees (s : GridSizes) (w : view) (g : grid) : Prop := mkAgrees {
  ag_sizes : g_sizes g = s;
  ag_dims : v_dims w = dims_of s;
  ag_default : g_default g = v_default w;
  ag_where : forall l, v_where w l = locate iso_inverse iso_apply s (g_origin g) l;
  ag_cell : forall i, in_grid (dims_of s) i ->
    nth_error (g_data g) (Z.to_nat (position (dims_of s) i)) = Some (v_cell w i) }.

Lemma volume_max s : good s -> volume s <= int64_max. Proof. intros G. apply G. Qed.
Lemma volume_nonneg s : good s -> 0 <= volume s.
Proof. intros [Gx Gy Gz _ _ _ _ _]. unfold volume. apply Z.mul_nonneg_nonneg; [apply Z.mul_nonneg_nonneg|]; assumption. Qed.

Lemma access_in (g : grid) k : 0 <= k < Z.of_nat (length (g_data g)) ->
  exists v, AccessIndex g k = Ok v /\ nth_error (g_data g) (Z.to_nat k) = Some v.
Proof.
  intros K. unfold AccessIndex, raw_get.
  replace ((0 <=? k) && (k <? Z.of_nat (length (g_data g)))) with true by (symmetry; apply andb_true_iff; lia).
  destruct (nth_error (g_data g) (Z.to_nat k)) eqn:E; [eauto|].
  apply nth_error_None in E. lia.
Qed.

Lemma access_out (g : grid) k : ~ (0 <= k < Z.of_nat (length (g_data g))) -> AccessIndex g k = Throw OutOfRange.
Proof.
  intros K. unfold AccessIndex.
  replace ((0 <=? k) && (k <? Z.of_nat (length (g_data g)))) with false; [reflexivity|].
  symmetry. apply andb_false_iff. lia.
Qed.

Lemma assign_in (g : grid) k v : 0 <= k < Z.of_nat (length (g_data g)) ->
  AssignIndex g k v = Ok (with_data g (upd (g_data g) (Z.to_nat k) v)).
Proof.
  intros K. unfold AssignIndex, raw_set.
  replace ((0 <=? k) && (k <? Z.of_nat (length (g_data g)))) with true by (symmetry; apply andb_true_iff; lia).
  rewrite set_nth_upd by lia. reflexivity.
Qed.

Lemma assign_out (g : grid) k v : ~ (0 <= k < Z.of_nat (length (g_data g))) ->
  AssignIndex g k v = Throw OutOfRange.
Proof.
  intros K. unfold AssignIndex.
  replace ((0 <=? k) && (k <? Z.of_nat (length (g_data g)))) with false; [reflexivity|].
  symmetry. apply andb_false_iff. lia.
Qed.

(** What the indexed accessors do on a sound grid. *)
Lemma immutable_cases g i : sound g ->
  (in_grid (dims_of (g_sizes g)) i /\
   exists v, GetIndexImmutable g i = Ok (SUCCESS, Some v) /\
     nth_error (g_data g) (Z.to_nat (position (dims_of (g_sizes g)) i)) = Some v) \/
  (~ in_grid (dims_of (g_sizes g)) i /\ GetIndexImmutable g i = Ok (OUT_OF_BOUNDS, None)).
Proof.
  intros [G L _]. unfold GetIndexImmutable. destruct (IndexInBounds (g_sizes g) i) eqn:B.
  - apply in_bounds_iff in B. left. split; [exact B|].
    rewrite data_index_position by assumption. cbn [bind].
    pose proof (good_position _ _ G B). unfold volume in L.
    destruct (access_in g (position (dims_of (g_sizes g)) i)) as (v & E & N); [lia|].
    rewrite E. simpl. eauto.
  - right. split; [|reflexivity]. intros C. apply in_bounds_iff in C. congruence.
Qed.

Definition flavoured (f : flavour) (u : User) (i : GridIndex) : User * bool := consult on_access f u i.

Lemma set_cases f g i v : sound g ->
  (in_grid (dims_of (g_sizes g)) i /\
   snd (flavoured f (g_user g) i) = true /\
   SetIndex on_access f g i v = Ok
     (with_data (with_user g (fst (flavoured f (g_user g) i)))
        (upd (g_data g) (Z.to_nat (position (dims_of (g_sizes g)) i)) v), SUCCESS)) \/
  (in_grid (dims_of (g_sizes g)) i /\
   snd (flavoured f (g_user g) i) = false /\
   SetIndex on_access f g i v =
     Ok (with_user g (fst (flavoured f (g_user g) i)), MUTABLE_ACCESS_PROHIBITED)) \/
  (~ in_grid (dims_of (g_sizes g)) i /\ SetIndex on_access f g i v = Ok (g, OUT_OF_BOUNDS)).
Proof.
  intros [G L _]. unfold SetIndex, flavoured. destruct (IndexInBounds (g_sizes g) i) eqn:B.
  - apply in_bounds_iff in B. destruct (consult on_access f (g_user g) i) as [u a] eqn:C.
    destruct a; [left|right; left]; (split; [exact B|]); (split; [reflexivity|]); [|reflexivity].
    rewrite data_index_position by assumption. cbn [bind].
    pose proof (good_position _ _ G B). unfold volume in L.
    rewrite assign_in by (cbn [with_user g_data]; lia). reflexivity.
  - right. right. split; [|reflexivity]. intros C. apply in_bounds_iff in C. congruence.
Qed.

Lemma mutable_cases f g i : sound g ->
  (in_grid (dims_of (g_sizes g)) i /\
   snd (flavoured f (g_user g) i) = true /\
   GetIndexMutable on_access f g i = Ok
     (with_user g (fst (flavoured f (g_user g) i)), (SUCCESS, Some (position (dims_of (g_sizes g)) i)))) \/
  (in_grid (dims_of (g_sizes g)) i /\
   snd (flavoured f (g_user g) i) = false /\
   GetIndexMutable on_access f g i =
     Ok (with_user g (fst (flavoured f (g_user g) i)), (MUTABLE_ACCESS_PROHIBITED, None))) \/
  (~ in_grid (dims_of (g_sizes g)) i /\ GetIndexMutable on_access f g i = Ok (g, (OUT_OF_BOUNDS, None))).
Proof.
  intros [G L _]. unfold GetIndexMutable, flavoured. destruct (IndexInBounds (g_sizes g) i) eqn:B.
  - apply in_bounds_iff in B. destruct (consult on_access f (g_user g) i) as [u a] eqn:C.
    destruct a; [left|right; left]; (split; [exact B|]); (split; [reflexivity|]); [|reflexivity].
    rewrite data_index_position by assumption. cbn [bind].
    pose proof (good_position _ _ G B). unfold volume in L.
    destruct (access_in (with_user g u) (position (dims_of (g_sizes g)) i)) as (v & E & N); [cbn [with_user g_data]; lia|].
    rewrite E. reflexivity.
  - right. right. split; [|reflexivity]. intros C. apply in_bounds_iff in C. congruence.
Qed.

(** The effect of a call that got a reference to cell [i], or wrote it. *)
Lemma written_ok g u k v : sound g ->
  sound (with_data (with_user g u) (upd (g_data g) (Z.to_nat k) v)).
Proof. intros [G L I]. constructor; simpl; auto. now rewrite upd_length. Qed.

Lemma user_ok g u : sound g -> sound (with_user g u).
Proof. intros [G L I]. constructor; simpl; auto. Qed.
Lemma user_agrees s w g u : agrees s w g -> agrees s w (with_user g u).
Proof. intros []; constructor; auto. Qed.

Lemma index_eqb_eq i j : index_eqb i j = true <-> i = j.
Proof.
  destruct i as [[a b] c], j as [[x y] z]. unfold index_eqb. rewrite !andb_true_iff, !Z.eqb_eq.
  split; [intros ((-> & ->) & ->); reflexivity|intros H; injection H; auto].
Qed.

Lemma write_agrees s w g u k v (p : GridIndex -> bool) : sound g -> agrees s w g ->
  0 <= k < volume s ->
  (forall j, in_grid (dims_of s) j -> p j = true <-> position (dims_of s) j = k) ->
  agrees s (put w p (fun _ => v)) (with_data (with_user g u) (upd (g_data g) (Z.to_nat k) v)).
Proof.
  intros [G L I] [A1 A2 A3 A4 A5] K P. constructor; auto. intros j J.
  cbn [put v_cell g_data with_data]. subst s. pose proof (good_position _ _ G J). rewrite nth_error_upd.
  destruct (p j) eqn:Pj.
  - apply P in Pj; [|exact J]. rewrite Pj. destruct (Nat.eq_dec _ _); [|congruence].
    unfold volume in *. destruct (lt_dec _ _); [reflexivity|lia].
  - destruct (Nat.eq_dec _ _) as [e|_]; [|auto].
    assert (position (dims_of (g_sizes g)) j = k) by lia. apply P in H0; congruence.
Qed.

Lemma set_contents_sound g v g' : sound g -> SetContents g v = Ok g' ->
  g' = with_data g (repeat v (Z.to_nat (volume (g_sizes g)))) /\ sound g'.
Proof.
  intros [G L I]. unfold SetContents. rewrite total_cells by assumption. cbn [bind]. intros H.
  injection H as <-. split; [reflexivity|]. constructor; simpl; auto.
  rewrite repeat_length. pose proof (volume_nonneg _ G). fold (volume (g_sizes g)). lia.
Qed.

Lemma nth_repeat_pos s (v : T) i : good s -> in_grid (dims_of s) i ->
  nth_error (repeat v (Z.to_nat (volume s))) (Z.to_nat (position (dims_of s) i)) = Some v.
Proof.
  intros G I. pose proof (good_position _ _ G I). apply nth_error_repeat. unfold volume. lia.
Qed.

Lemma initialize_ok (g : grid) o s def oob g' : good s -> Initialize iso_inverse g o s def oob = Ok g' ->
  g' = mkGrid o (iso_inverse o) def oob (repeat def (Z.to_nat (volume s))) s true (g_user g).
Proof.
  intros G. unfold Initialize. rewrite (g_valid s G). unfold SetContents. simpl.
  rewrite total_cells by assumption. simpl. intros H. injection H as <-. reflexivity.
Qed.

Lemma initialize_total (g : grid) o s def oob : good s ->
  Initialize iso_inverse g o s def oob =
  Ok (mkGrid o (iso_inverse o) def oob (repeat def (Z.to_nat (volume s))) s true (g_user g)).
Proof.
  intros G. unfold Initialize. rewrite (g_valid s G). unfold SetContents. simpl.
  rewrite total_cells by assumption. reflexivity.
Qed.

Lemma new_sound o s def oob u : good s ->
  sound (mkGrid o (iso_inverse o) def oob (repeat def (Z.to_nat (volume s))) s true u).
Proof.
  intros G. constructor; simpl; auto. rewrite repeat_length. pose proof (volume_nonneg _ G). lia.
Qed.

Lemma new_agrees o s def oob u : good s ->
  agrees s (first_view iso_inverse iso_apply s o def)
    (mkGrid o (iso_inverse o) def oob (repeat def (Z.to_nat (volume s))) s true u).
Proof.
  intros G. constructor; auto. intros i I. apply nth_repeat_pos; assumption.
Qed.

Definition fine_call (c : call) : Prop :=
  match c with CallInitialize _ s _ _ => good s | _ => True end.

Lemma locate_in g l s w : sound g -> agrees s w g ->
  v_where w l = LocationToGridIndex4d iso_apply g l.
Proof.
  intros [G L I] A. rewrite (ag_where _ _ _ A). unfold locate, LocationToGridIndex4d.
  rewrite I, (ag_sizes _ _ _ A). reflexivity.
Qed.

Lemma step s w g c g' r : sound g -> agrees s w g -> fine_call c -> perform g c = (g', r) ->
  sound g' /\ agrees (learn_sizes s (c, r)) (learn iso_inverse iso_apply s w (c, r)) g'.
Proof.
  intros S A F. pose proof (ag_sizes _ _ _ A) as Es. subst s. pose proof (so_sizes _ S) as G.
  assert (Here : forall f i v g' r, finish_status g (SetIndex on_access f g i v) = (g', r) ->
    sound g' /\ agrees (g_sizes g) (match r with Status SUCCESS => put w (index_eqb i) (fun _ => v) | _ => w end) g').
  { intros f i v g1 r1. destruct (set_cases f g i v S) as [(B & _ & ->)|[(B & _ & ->)|(B & ->)]];
      simpl; intros H; injection H as <- <-.
    - split; [apply written_ok; assumption|]. apply write_agrees; auto.
      + apply good_position; assumption.
      + intros j J. rewrite index_eqb_eq. split; [intros ->; reflexivity|].
        intros E. symmetry. eapply position_inj; eauto.
    - split; [apply user_ok|apply user_agrees]; assumption.
    - auto. }
  assert (There : forall f i v g' r, assign_through g v (GetIndexMutable on_access f g i) = (g', r) ->
    sound g' /\ agrees (g_sizes g) (match r with Status SUCCESS => put w (index_eqb i) (fun _ => v) | _ => w end) g').
  { intros f i v g1 r1. destruct (mutable_cases f g i S) as [(B & _ & ->)|[(B & _ & ->)|(B & ->)]];
      cbn [assign_through]; [|intros H; injection H as <- <-..].
    - pose proof (good_position _ _ G B) as P. pose proof (so_len _ S) as L. unfold volume in L.
      rewrite assign_in by (cbn [with_user g_data]; lia). intros H. injection H as <- <-.
      split; [apply written_ok; assumption|]. apply write_agrees; auto.
      intros j J. rewrite index_eqb_eq. split; [intros ->; reflexivity|].
      intros E. symmetry. eapply position_inj; eauto.
    - split; [apply user_ok|apply user_agrees]; assumption.
    - auto. }
  assert (Raw : forall k v u, 0 <= k < Z.of_nat (length (g_data g)) ->
    sound (with_data (with_user g u) (upd (g_data g) (Z.to_nat k) v)) /\
    agrees (g_sizes g) (put w (fun j => position (v_dims w) j =? k) (fun _ => v))
      (with_data (with_user g u) (upd (g_data g) (Z.to_nat k) v))).
  { intros k v u K. split; [apply written_ok; assumption|]. apply write_agrees; auto.
    - rewrite <- (so_len _ S). exact K.
    - intros j J. rewrite (ag_dims _ _ _ A). apply Z.eqb_eq. }
  destruct c as [f i v|f i v|l v|l v|k v|k v|d| |v|v|v|v|o|o s def oob]; cbn [perform].
  - intros H. specialize (Here f i v g' r H). destruct r as [[]| | |]; simpl in *; auto.
  - intros H. specialize (There f i v g' r H). destruct r as [[]| | |]; simpl in *; auto.
  - unfold SetLocation4d. pose proof (locate_in g l _ _ S A) as W.
    destruct (LocationToGridIndex4d iso_apply g l) as [i|e| |] eqn:E; cbn [bind].
    + intros H. specialize (Here ByGridIndex i v g' r H).
      destruct r as [[]| | |]; cbn [learn learn_sizes] in *; auto. rewrite W. exact Here.
    + intros H; injection H as <- <-. simpl. auto.
    + intros H; injection H as <- <-. simpl. auto.
    + intros H; injection H as <- <-. simpl. auto.
  - unfold GetLocationMutable4d. pose proof (locate_in g l _ _ S A) as W.
    destruct (LocationToGridIndex4d iso_apply g l) as [i|e| |] eqn:E; cbn [bind].
    + intros H. specialize (There ByGridIndex i v g' r H).
      destruct r as [[]| | |]; cbn [learn learn_sizes] in *; auto. rewrite W. exact There.
    + intros H; injection H as <- <-. simpl. auto.
    + intros H; injection H as <- <-. simpl. auto.
    + intros H; injection H as <- <-. simpl. auto.
  - unfold SetDataIndex. destruct (on_raw (g_user g)) as [u a]. destruct a.
    + destruct (Z_le_dec 0 k), (Z_lt_dec k (Z.of_nat (length (g_data g))));
        [rewrite assign_in by (cbn [with_user g_data]; lia)|rewrite assign_out by (cbn [with_user g_data]; lia)..];
        intros H; injection H as <- <-; cbn [as_reply learn learn_sizes];
        try (split; [apply user_ok|apply user_agrees]; assumption).
      apply Raw. lia.
    + intros H; injection H as <- <-. simpl. split; [apply user_ok|apply user_agrees]; assumption.
  - unfold GetDataIndexMutable. destruct (on_raw (g_user g)) as [u a]. destruct a.
    + destruct (Z_le_dec 0 k), (Z_lt_dec k (Z.of_nat (length (g_data g)))).
      * destruct (access_in (with_user g u) k) as (v0 & E & _); [cbn [with_user g_data]; lia|]. rewrite E. cbn [bind].
        rewrite assign_in by (cbn [with_user g_data]; lia). intros H; injection H as <- <-. cbn [learn learn_sizes].
        apply Raw. lia.
      * rewrite access_out by (cbn [with_user g_data]; lia). cbn [bind]. intros H; injection H as <- <-. simpl.
        split; [apply user_ok|apply user_agrees]; assumption.
      * rewrite access_out by (cbn [with_user g_data]; lia). cbn [bind]. intros H; injection H as <- <-. simpl.
        split; [apply user_ok|apply user_agrees]; assumption.
      * rewrite access_out by (cbn [with_user g_data]; lia). cbn [bind]. intros H; injection H as <- <-. simpl.
        split; [apply user_ok|apply user_agrees]; assumption.
    + intros H; injection H as <- <-. simpl. split; [apply user_ok|apply user_agrees]; assumption.
  - unfold SetRawData. destruct (on_raw (g_user g)) as [u a]. destruct a.
    + rewrite total_cells by assumption.
      destruct (Z.eqb_spec (Z.of_nat (length d)) (num_x_cells (g_sizes g) * num_y_cells (g_sizes g) * num_z_cells (g_sizes g))) as [E|E].
      * intros H; injection H as <- <-. cbn [as_reply learn learn_sizes].
        split; [destruct S; constructor; auto|].
        destruct A as [A1 A2 A3 A4 A5]. constructor; auto. intros i I. cbn [put v_cell g_data with_data with_default].
        rewrite A2. unfold everywhere. pose proof (good_position _ _ G I).
        rewrite <- A3. apply nth_error_nth'. lia.
      * intros H; injection H as <- <-. simpl. split; [apply user_ok|apply user_agrees]; assumption.
    + intros H; injection H as <- <-. simpl. split; [apply user_ok|apply user_agrees]; assumption.
  - destruct (SetContents g (g_default g)) as [g1| | |] eqn:E; simpl; intros H; injection H as <- <-; auto.
    apply set_contents_sound in E; [|assumption]. destruct E as [-> S']. split; [exact S'|].
    destruct A as [A1 A2 A3 A4 A5]. constructor; auto. intros i I. cbn [put v_cell g_data with_data with_default].
    rewrite <- A3. apply nth_repeat_pos; assumption.
  - destruct (SetContents g v) as [g1| | |] eqn:E; simpl; intros H; injection H as <- <-; auto.
    apply set_contents_sound in E; [|assumption]. destruct E as [-> S']. split; [exact S'|].
    destruct A as [A1 A2 A3 A4 A5]. constructor; auto. intros i I. cbn [put v_cell g_data with_data with_default].
    apply nth_repeat_pos; assumption.
  - assert (Sv : sound (with_default g v)) by (destruct S; constructor; auto).
    destruct (SetContents (with_default g v) v) as [g1| | |] eqn:E; simpl; intros H; injection H as <- <-; auto.
    apply set_contents_sound in E; [|assumption]. destruct E as [-> S']. split; [exact S'|].
    destruct A as [A1 A2 A3 A4 A5]. constructor; auto. intros i I. cbn [put v_cell g_data with_data with_default].
    apply nth_repeat_pos; assumption.
  - intros H; injection H as <- <-. simpl. destruct S, A; split; constructor; auto.
  - intros H; injection H as <- <-. simpl. destruct S, A; split; constructor; auto.
  - intros H; injection H as <- <-. simpl. destruct S, A; split; constructor; auto.
  - simpl in F. rewrite initialize_total by assumption. simpl. intros H; injection H as <- <-.
    split; [apply new_sound; assumption|]. cbn [learn learn_sizes]. apply new_agrees. assumption.
Qed.

Lemma steps cs : forall s w g g' h, sound g -> agrees s w g ->
  (forall c, In c cs -> fine_call c) -> perform_all g cs = (g', h) ->
  sound g' /\ exists s', agrees s' (learn_all iso_inverse iso_apply s w h) g'.
Proof.
  induction cs as [|c r IH]; simpl; intros s w g g' h S A F H.
  - injection H as <- <-. simpl. eauto.
  - destruct (perform g c) as [g1 rep] eqn:E. destruct (perform_all g1 r) as [g2 h2] eqn:E2.
    injection H as <- <-. simpl. apply step with (s := s) (w := w) in E; auto.
    destruct E as [S1 A1]. eapply IH; eauto.
Qed.

Lemma made_fine cs : calls_made cs -> forall c : call, In c cs -> fine_call c.
Proof.
  intros M c I. destruct c; simpl; auto. apply made_good. eapply M; eauto.
Qed.
End History.

(** ** C26-C28, C76 *)
Section Gates.
Context {T User Iso : Type}.
Variable iso_inverse : Iso -> Iso.
Variable iso_apply : Iso -> vec4 -> vec4.
Variable on_access : User -> Z -> Z -> Z -> User * bool.
Variable on_raw : User -> User * bool.
Notation grid := (@grid T User Iso).
Notation call := (@call T Iso).
Notation perform := (@perform T User Iso iso_inverse iso_apply on_access on_raw).
Notation perform_all := (@perform_all T User Iso iso_inverse iso_apply on_access on_raw).
Notation reachable_grid := (@reachable_grid T User Iso iso_inverse iso_apply on_access on_raw).

Lemma history_agrees identity t0 u o s def oob cs g0 g h :
  made_sizes s -> calls_made cs ->
  new_grid iso_inverse identity t0 u o s def oob = Ok g0 -> perform_all g0 cs = (g, h) ->
  sound iso_inverse g /\
  exists s', agrees iso_inverse iso_apply s' (learn_all iso_inverse iso_apply s
               (first_view iso_inverse iso_apply s o def) h) g.
Proof.
  intros M C N P. apply made_good in M. unfold new_grid in N.
  apply (initialize_ok iso_inverse (default_grid identity t0 u) o s def oob g0 M) in N. subst g0.
  eapply steps; [apply new_sound; exact M|apply new_agrees; exact M|apply made_fine; exact C|exact P].
Qed.

Lemma reachable_sound g : reachable_grid g -> sound iso_inverse g.
Proof.
  intros (id & t0 & u & o & s & def & oob & cs & g0 & h & M & C & N & P).
  eapply history_agrees in P; eauto. tauto.
Qed.

Lemma latest_write identity t0 u o s def oob cs g0 g h :
  made_sizes s -> calls_made cs ->
  new_grid iso_inverse identity t0 u o s def oob = Ok g0 -> perform_all g0 cs = (g, h) ->
  let w := learn_all iso_inverse iso_apply s (first_view iso_inverse iso_apply s o def) h in
  dims_of (g_sizes g) = v_dims w /\
  (forall i, in_grid (v_dims w) i -> GetIndexImmutable g i = Ok (SUCCESS, Some (v_cell w i))) /\
  (forall i, ~ in_grid (v_dims w) i -> GetIndexImmutable g i = Ok (OUT_OF_BOUNDS, None)) /\
  (forall l, GetLocationImmutable4d iso_apply g l =
             (do i <- v_where w l; GetIndexImmutable g i)).
Proof.
  intros M C N P w. destruct (history_agrees _ _ _ _ _ _ _ _ _ _ _ M C N P) as (S & s' & A).
  fold w in A. pose proof (ag_sizes _ _ _ _ _ A) as Es. subst s'. pose proof (ag_dims _ _ _ _ _ A) as D.
  repeat split; intros; rewrite ?D in *; auto.
  - destruct (immutable_cases iso_inverse g i S) as [(_ & v & E & N')|(B & _)]; [|contradiction].
    rewrite E. rewrite (ag_cell _ _ _ _ _ A i H) in N'. congruence.
  - destruct (immutable_cases iso_inverse g i S) as [(B & _)|(_ & E)]; [contradiction|exact E].
  - unfold GetLocationImmutable4d. rewrite (locate_in iso_inverse iso_apply g l _ _ S A). reflexivity.
Qed.

Lemma one_slot_per_cell g : reachable_grid g ->
  Z.of_nat (length (g_data g)) = num_x_cells (g_sizes g) * num_y_cells (g_sizes g) * num_z_cells (g_sizes g).
Proof. intros R. apply reachable_sound in R. apply R. Qed.

Lemma oob_rejected g f i v : reachable_grid g -> ~ in_grid (dims_of (g_sizes g)) i ->
  perform g (CallSetIndex f i v) = (g, Status OUT_OF_BOUNDS) /\
  perform g (CallAssignIndex f i v) = (g, Status OUT_OF_BOUNDS).
Proof.
  intros R B. apply reachable_sound in R. cbn [perform]. split.
  - destruct (set_cases iso_inverse on_access f g i v R) as [(C & _)|[(C & _)|(_ & ->)]]; try contradiction. reflexivity.
  - destruct (mutable_cases iso_inverse on_access f g i R) as [(C & _)|[(C & _)|(_ & ->)]]; try contradiction. reflexivity.
Qed.

Lemma always_defined g c : reachable_grid g -> (forall o s def oob, c = CallInitialize o s def oob -> made_sizes s) -> takes_location c = false ->
  snd (perform g c) <> Undefined.
Proof.
  intros R F0 L. assert (F : fine_call c) by (destruct c; simpl; auto; apply made_good; eapply F0; reflexivity).
  clear F0. apply reachable_sound in R. pose proof (so_sizes _ _ R) as G. pose proof (so_len _ _ R) as Ln.
  destruct c as [f i v|f i v|l v|l v|k v|k v|d| |v|v|v|v|o|o s def oob]; cbn [perform]; try discriminate.
  - destruct (set_cases iso_inverse on_access f g i v R) as [(C & _ & ->)|[(C & _ & ->)|(_ & ->)]]; simpl; discriminate.
  - destruct (mutable_cases iso_inverse on_access f g i R) as [(C & _ & ->)|[(C & _ & ->)|(_ & ->)]];
      cbn [assign_through]; [|simpl; discriminate..].
    pose proof (good_position _ _ G C). unfold volume in *.
    rewrite assign_in by (cbn [with_user g_data]; lia). simpl. discriminate.
  - unfold SetDataIndex. destruct (on_raw (g_user g)) as [u a]. destruct a; [|simpl; discriminate].
    destruct (Z_le_dec 0 k), (Z_lt_dec k (Z.of_nat (length (g_data g))));
        [rewrite assign_in by (cbn [with_user g_data]; lia)|rewrite assign_out by (cbn [with_user g_data]; lia)..]; simpl; discriminate.
  - unfold GetDataIndexMutable. destruct (on_raw (g_user g)) as [u a]. destruct a; [|simpl; discriminate].
    destruct (Z_le_dec 0 k), (Z_lt_dec k (Z.of_nat (length (g_data g)))).
    + destruct (access_in (with_user g u) k) as (v0 & E & _); [cbn [with_user g_data]; lia|]. rewrite E. cbn [bind].
      rewrite assign_in by (cbn [with_user g_data]; lia). simpl. discriminate.
    + rewrite access_out by (cbn [with_user g_data]; lia). simpl. discriminate.
    + rewrite access_out by (cbn [with_user g_data]; lia). simpl. discriminate.
    + rewrite access_out by (cbn [with_user g_data]; lia). simpl. discriminate.
  - unfold SetRawData. destruct (on_raw (g_user g)) as [u a]. destruct a; [|simpl; discriminate].
    rewrite total_cells by assumption. destruct (_ =? _); simpl; discriminate.
  - unfold SetContents. rewrite total_cells by assumption. simpl. discriminate.
  - unfold SetContents. rewrite total_cells by assumption. simpl. discriminate.
  - unfold SetContents. simpl. rewrite total_cells by assumption. simpl. discriminate.
  - simpl in F. rewrite initialize_total by assumption. simpl. discriminate.
Qed.

(** A write that the callback allows takes place. *)
Lemma allowed_write g x y z v : reachable_grid g -> in_grid (dims_of (g_sizes g)) (x, y, z) ->
  snd (on_access (g_user g) x y z) = true ->
  snd (perform g (CallSetIndex ByCoordinates (x, y, z) v)) = Status SUCCESS /\
  snd (perform g (CallAssignIndex ByCoordinates (x, y, z) v)) = Status SUCCESS.
Proof.
  intros R B A. apply reachable_sound in R. pose proof (so_sizes _ _ R) as G. pose proof (so_len _ _ R) as Ln.
  cbn [perform]. split.
  - destruct (set_cases iso_inverse on_access ByCoordinates g (x, y, z) v R) as [(C & _ & ->)|[(C & E & _)|(C & _)]];
      [reflexivity|unfold flavoured in E; simpl in E; congruence|contradiction].
  - destruct (mutable_cases iso_inverse on_access ByCoordinates g (x, y, z) R) as [(C & _ & ->)|[(C & E & _)|(C & _)]];
      [|unfold flavoured in E; simpl in E; congruence|contradiction].
    pose proof (good_position _ _ G C). unfold volume in *.
    cbn [assign_through]. rewrite assign_in by (cbn [with_user g_data]; lia). reflexivity.
Qed.

Lemma same_user (g : grid) u : same_contents g (with_user g u).
Proof. repeat split. Qed.

Lemma refused_index (g : grid) f x y z v :
  in_grid (dims_of (g_sizes g)) (x, y, z) ->
  (forall z', f = ByCoordinates -> z' = z -> snd (on_access (g_user g) x y z') = false) ->
  (forall z', f = ByGridIndex -> snd (on_access (g_user g) x y z') = false) ->
  forall c, c = CallSetIndex f (x, y, z) v \/ c = CallAssignIndex f (x, y, z) v ->
  snd (perform g c) = Status MUTABLE_ACCESS_PROHIBITED /\ same_contents g (fst (perform g c)).
Proof.
  intros B H1 H2 c [-> | ->]; cbn [perform]; unfold SetIndex, GetIndexMutable;
    apply in_bounds_iff in B; rewrite B; unfold consult; destruct f.
  - specialize (H1 z eq_refl eq_refl). destruct (on_access (g_user g) x y z) as [u a]. simpl in H1. subst a.
    simpl. split; [reflexivity|apply same_user].
  - specialize (H2 y eq_refl). destruct (on_access (g_user g) x y y) as [u a]. simpl in H2. subst a.
    simpl. split; [reflexivity|apply same_user].
  - specialize (H1 z eq_refl eq_refl). destruct (on_access (g_user g) x y z) as [u a]. simpl in H1. subst a.
    simpl. split; [reflexivity|apply same_user].
  - specialize (H2 y eq_refl). destruct (on_access (g_user g) x y y) as [u a]. simpl in H2. subst a.
    simpl. split; [reflexivity|apply same_user].
Qed.

Lemma refused_raw (g : grid) c : snd (on_raw (g_user g)) = false ->
  (exists k v, c = CallSetDataIndex k v \/ c = CallAssignDataIndex k v) \/ (exists d, c = CallSetRawData d) ->
  snd (perform g c) = Raised RuntimeError /\ same_contents g (fst (perform g c)).
Proof.
  intros H C. destruct C as [(k & v & [-> | ->])|(d & ->)]; cbn [perform];
    unfold SetDataIndex, GetDataIndexMutable, SetRawData;
    destruct (on_raw (g_user g)) as [u a]; simpl in H; subst a; simpl; (split; [reflexivity|apply same_user]).
Qed.

Lemma refused_pointer (g : grid) : snd (on_raw (g_user g)) = false ->
  snd (GetMutableRawData on_raw g) = Throw RuntimeError /\ same_contents g (fst (GetMutableRawData on_raw g)).
Proof.
  intros H. unfold GetMutableRawData. destruct (on_raw (g_user g)) as [u a]; simpl in H; subst a. simpl.
  split; [reflexivity|apply same_user].
Qed.

Lemma callback_sees (g : grid) x y z v c :
  in_grid (dims_of (g_sizes g)) (x, y, z) -> reachable_grid g ->
  c = CallSetIndex ByCoordinates (x, y, z) v \/ c = CallAssignIndex ByCoordinates (x, y, z) v \/
  (y = z /\ (c = CallSetIndex ByGridIndex (x, y, z) v \/ c = CallAssignIndex ByGridIndex (x, y, z) v)) ->
  g_user (fst (perform g c)) = fst (on_access (g_user g) x y z).
Proof.
  intros B R C. apply reachable_sound in R. pose proof (so_sizes _ _ R) as G. pose proof (so_len _ _ R) as Ln.
  pose proof (good_position _ _ G B) as P. unfold volume in Ln.
  assert (HS : forall f, (f = ByCoordinates \/ y = z) ->
    g_user (fst (perform g (CallSetIndex f (x, y, z) v))) = fst (on_access (g_user g) x y z)).
  { intros f Hf. cbn [perform].
    destruct (set_cases iso_inverse on_access f g (x, y, z) v R) as [(_ & _ & ->)|[(_ & _ & ->)|(N & _)]];
      [| |contradiction]; unfold flavoured, consult; destruct f; simpl; auto;
      (destruct Hf as [|<-]; [discriminate|reflexivity]). }
  assert (HA : forall f, (f = ByCoordinates \/ y = z) ->
    g_user (fst (perform g (CallAssignIndex f (x, y, z) v))) = fst (on_access (g_user g) x y z)).
  { intros f Hf. cbn [perform].
    destruct (mutable_cases iso_inverse on_access f g (x, y, z) R) as [(_ & _ & ->)|[(_ & _ & ->)|(N & _)]];
      [| |contradiction]; cbn [assign_through];
      [rewrite assign_in by (cbn [with_user g_data]; lia)|]; unfold flavoured, consult; destruct f; simpl; auto;
      (destruct Hf as [|<-]; [discriminate|reflexivity]). }
  destruct C as [->|[->|[E [->| ->]]]]; auto.
Qed.

Lemma gated_change (g : grid) c : gated_call c = true ->
  g_data (fst (perform g c)) <> g_data g ->
  (exists x y z, snd (on_access (g_user g) x y z) = true) \/ snd (on_raw (g_user g)) = true.
Proof.
  assert (HS : forall f i v, g_data (fst (finish_status g (SetIndex on_access f g i v))) <> g_data g ->
    exists x y z, snd (on_access (g_user g) x y z) = true).
  { intros f [[x y] z] v. unfold SetIndex. destruct (IndexInBounds _ _); [|simpl; congruence].
    unfold consult. destruct f.
    - destruct (on_access (g_user g) x y z) as [u []] eqn:E; [|simpl; congruence].
      intros _. exists x, y, z. now rewrite E.
    - destruct (on_access (g_user g) x y y) as [u []] eqn:E; [|simpl; congruence].
      intros _. exists x, y, y. now rewrite E. }
  assert (HA : forall f i v, g_data (fst (assign_through g v (GetIndexMutable on_access f g i))) <> g_data g ->
    exists x y z, snd (on_access (g_user g) x y z) = true).
  { intros f [[x y] z] v. unfold GetIndexMutable. destruct (IndexInBounds _ _); [|simpl; congruence].
    unfold consult. destruct f.
    - destruct (on_access (g_user g) x y z) as [u []] eqn:E; [|simpl; congruence].
      intros _. exists x, y, z. now rewrite E.
    - destruct (on_access (g_user g) x y y) as [u []] eqn:E; [|simpl; congruence].
      intros _. exists x, y, y. now rewrite E. }
  intros Gc. destruct c as [f i v|f i v|l v|l v|k v|k v|d| |v|v|v|v|o|o s def oob]; cbn [perform];
    try discriminate Gc; try (simpl; congruence).
  - intros H. left. eapply HS; eauto.
  - intros H. left. eapply HA; eauto.
  - unfold SetLocation4d. destruct (LocationToGridIndex4d _ _ _); simpl; try congruence.
    intros H. left. eapply HS; eauto.
  - unfold GetLocationMutable4d. destruct (LocationToGridIndex4d _ _ _); cbn [bind]; try (simpl; congruence).
    intros H. left. eapply HA; eauto.
  - unfold SetDataIndex. destruct (on_raw (g_user g)) as [u []]; [auto|simpl; congruence].
  - unfold GetDataIndexMutable. destruct (on_raw (g_user g)) as [u []]; [auto|simpl; congruence].
  - unfold SetRawData. destruct (on_raw (g_user g)) as [u []]; [auto|simpl; congruence].
Qed.
End Gates.
