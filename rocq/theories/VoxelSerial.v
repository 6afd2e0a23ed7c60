(** Proofs for C29: serialization of voxel grids. *)
From Verif Require Import Base ParallelismModel ParallelismProof Double DoubleBits SerializationModel SerializationSpec
  SerializationProof SerializationProof2 GraphModel GraphSpec GraphProof2 VoxelModel VoxelSpec VoxelProof.
From Flocq Require Import BinarySingleNaN.
Local Open Scope N_scope.

Ltac asc := rewrite <- ?app_assoc; reflexivity.

(** What InitializeByCells rebuilds from the serialized fields. *)
Definition rebuilds (s : GridSizes) : Prop :=
  (exists r, InitializeByCells (cell_x_size s) (cell_y_size s) (cell_z_size s)
            (num_x_cells s) (num_y_cells s) (num_z_cells s) = Ok r /\
     s = match r with Some s' => s' | None => default_sizes end) /\
  int64_ok (num_x_cells s) /\ int64_ok (num_y_cells s) /\ int64_ok (num_z_cells s).

Section S.
Variable le : bool.
Variable dbl : memcpyable double.
Hypothesis dbl_ok : lawful dbl (fun _ => True).

Definition enc_sizes (s : GridSizes) : list N :=
  to_obj dbl (cell_x_size s) ++ to_obj dbl (cell_y_size s) ++ to_obj dbl (cell_z_size s) ++
  to_obj (int64_rep le) (num_x_cells s) ++ to_obj (int64_rep le) (num_y_cells s) ++
  to_obj (int64_rep le) (num_z_cells s).

Lemma dbl_len d : (0 < length (to_obj dbl d))%nat.
Proof. destruct dbl_ok as [H1 H2]. destruct (H2 d I) as [-> _]. exact H1. Qed.

Lemma rt_sizes : round_trips (SerializeGridSizes le dbl) (DeserializeGridSizes le dbl) rebuilds.
Proof.
  eapply (rt_intro _ _ enc_sizes _ rebuilds rebuilds).
  - apply written_appends. intros s buf _. unfold SerializeGridSizes, SerializeMemcpyable. cbv zeta.
    rewrite !written_snd. unfold enc_sizes. f_equal. asc.
  - intros s pre post ((r & HI & ER) & H1 & H2 & H3) Hf. unfold DeserializeGridSizes.
    pose proof (memcpyable_reads_back (int64_rep le) _ (int64_lawful le)) as RI.
    pose proof (memcpyable_reads_back dbl _ dbl_ok) as RW.
    set (buf := pre ++ enc_sizes s ++ post) in *. pose proof (dbl_len (cell_x_size s)) as La.
    set (a := to_obj dbl (cell_x_size s)) in *. set (b := to_obj dbl (cell_y_size s)) in *.
    set (c := to_obj dbl (cell_z_size s)) in *. set (d := to_obj (int64_rep le) (num_x_cells s)) in *.
    set (e := to_obj (int64_rep le) (num_y_cells s)) in *. set (f := to_obj (int64_rep le) (num_z_cells s)) in *.
    assert (buf = pre ++ a ++ b ++ c ++ d ++ e ++ f ++ post) as EB by (unfold buf, enc_sizes; fold a b c d e f; asc).
    assert (len64 (enc_sizes s) = len64 a + len64 b + len64 c + len64 d + len64 e + len64 f) as EL.
    { unfold enc_sizes. fold a b c d e f. rewrite !len64_app. lia. }
    assert (len64 pre + len64 (enc_sizes s) < 2 ^ 63) as LB.
    { unfold fits_vector, buf in Hf. rewrite !len64_app in Hf. lia. }
    assert (0 < len64 a) as La' by (unfold len64; lia).
    pows.
    rewrite (reads_at _ _ _ (cell_x_size s) buf (len64 pre) pre (b ++ c ++ d ++ e ++ f ++ post) RW); auto.
    cbn [bind fst snd]. fold a. rewrite wrap_eq by (pows; lia).
    rewrite (reads_at _ _ _ (cell_y_size s) buf _ (pre ++ a) (c ++ d ++ e ++ f ++ post) RW); auto;
      [|rewrite EB; asc|rewrite len64_app; reflexivity].
    cbn [bind fst snd]. fold b. rewrite wrap_eq by (pows; lia).
    rewrite (reads_at _ _ _ (cell_z_size s) buf _ (pre ++ a ++ b) (d ++ e ++ f ++ post) RW); auto;
      [|rewrite EB; asc|rewrite !len64_app; lia].
    cbn [bind fst snd]. fold c. rewrite wrap_eq by (pows; lia).
    rewrite (reads_at _ _ _ (num_x_cells s) buf _ (pre ++ a ++ b ++ c) (e ++ f ++ post) RI); auto;
      [|rewrite EB; asc|rewrite !len64_app; lia].
    cbn [bind fst snd]. fold d. rewrite wrap_eq by (pows; lia).
    rewrite (reads_at _ _ _ (num_y_cells s) buf _ (pre ++ a ++ b ++ c ++ d) (f ++ post) RI); auto;
      [|rewrite EB; asc|rewrite !len64_app; lia].
    cbn [bind fst snd]. fold e. rewrite wrap_eq by (pows; lia).
    rewrite (reads_at _ _ _ (num_z_cells s) buf _ (pre ++ a ++ b ++ c ++ d ++ e) post RI); auto;
      [|rewrite EB; asc|rewrite !len64_app; lia].
    cbn [bind fst snd]. fold f. rewrite wrap_eq by (pows; lia). rewrite HI. cbn [bind].
    rewrite sub64_eq by (pows; lia). rewrite make_ok by (pows; lia). rewrite <- ER. do 2 f_equal. lia.
  - intros s H. split; [exact H|]. split; [exact H|]. destruct H as (_ & H1 & H2 & H3).
    destruct (int64_lawful le) as [_ HI]. destruct dbl_ok as [Hp HW].
    destruct (HI _ H1) as (A1 & A2 & _). destruct (HI _ H2) as (B1 & B2 & _). destruct (HI _ H3) as (C1 & C2 & _).
    destruct (HW (cell_x_size s) I) as (D1 & D2 & _). destruct (HW (cell_y_size s) I) as (E1 & E2 & _).
    destruct (HW (cell_z_size s) I) as (F1 & F2 & _). split.
    + unfold enc_sizes. intros E. apply app_eq_nil in E as [E _]. rewrite E in D1. simpl in D1. lia.
    + unfold enc_sizes. rewrite !is_bytes_app. auto 10.
Qed.

Section G.
Context {T Iso : Type}.
Variable iso_to : Iso -> list N.
Variable iso_of : list N -> Iso.
Variable iso_inverse : Iso -> Iso.
Variable max_size : N.

(** Grids for which a round trip makes sense: the values can be serialized, the
    origin is recovered from its doubles, the storage has one slot per cell. *)
Record grid_ok (dom : T -> Prop) (g : @grid T unit Iso) : Prop := mkGridOk {
  go_sizes : rebuilds (g_sizes g);
  go_total : TotalCells (g_sizes g) = Ok (Z.of_nat (length (g_data g)));
  go_init : g_initialized g = sizes_valid (g_sizes g);
  go_inv : g_inverse g = iso_inverse (g_origin g);
  go_def : dom (g_default g); go_oob : dom (g_oob g);
  go_data : Forall dom (g_data g) /\ len64 (g_data g) < 2 ^ 64 /\ len64 (g_data g) <= max_size;
  go_iso : length (iso_to (g_origin g)) = 128%nat /\ is_bytes (iso_to (g_origin g)) /\
           iso_of (iso_to (g_origin g)) = g_origin g }.

Definition flag (b : bool) : N := if b then 1 else 0.

Lemma rt_grid ser des dom : round_trips ser des dom ->
  round_trips (SerializeGrid le dbl iso_to ser) (DeserializeGrid le dbl iso_of iso_inverse max_size des) (grid_ok dom).
Proof.
  intros RT. pose proof RT as (encv & Hav & Hrv & Hnv).
  destruct (rt_vector false le max_size _ _ _ RT) as (ence & Hae & Hre & Hne).
  destruct rt_sizes as (encs & Has & Hrs & Hns).
  destruct (rt_memcpyable (uint_rep le 1) _ (uint_lawful le 1 ltac:(lia))) as (encf & Haf & Hrf & Hnf).
  pose proof (fixed_reads_back 16 ltac:(lia)) as Hrx.
  assert (forall b, flag b < 256 ^ N.of_nat 1) as Hflag by (intros []; reflexivity).
  eapply (rt_intro _ _ (fun g => iso_to (g_origin g) ++ encv (g_default g) ++ encv (g_oob g) ++ ence (g_data g) ++
      encs (g_sizes g) ++ encf (flag (g_initialized g))) _ (grid_ok dom) (grid_ok dom)).
  - apply written_appends. intros g buf []. unfold SerializeGrid. cbv zeta.
    rewrite (app_snd _ _ _ _ _ (fixed_appends 16)) by tauto.
    rewrite (app_snd _ _ _ _ _ Hav) by assumption. rewrite (app_snd _ _ _ _ _ Hav) by assumption.
    rewrite (app_snd _ _ _ _ _ Hae) by assumption. rewrite (app_snd _ _ _ _ _ Has) by assumption.
    fold (flag (g_initialized g)). rewrite (app_snd _ _ _ _ _ Haf) by apply Hflag. f_equal. asc.
  - intros g pre post [G1 G2 G3 G4 G5 G6 G7 G8] Hf. unfold DeserializeGrid. destruct G8 as (X1 & X2 & X3).
    set (x := iso_to (g_origin g)) in *. set (a := encv (g_default g)) in *. set (b := encv (g_oob g)) in *.
    set (c := ence (g_data g)) in *. set (d := encs (g_sizes g)) in *. set (e := encf (flag (g_initialized g))) in *.
    set (buf := pre ++ (x ++ a ++ b ++ c ++ d ++ e) ++ post) in *.
    assert (len64 pre + (len64 x + len64 a + len64 b + len64 c + len64 d + len64 e) < 2 ^ 63) as LB.
    { unfold fits_vector, buf in Hf. rewrite !len64_app in Hf. lia. }
    assert (0 < len64 x) as La by (unfold len64; rewrite X1; simpl; lia).
    pows.
    rewrite (reads_at _ _ _ x buf (len64 pre) pre (a ++ b ++ c ++ d ++ e ++ post) Hrx); auto; [|unfold buf; asc].
    cbn [bind fst snd]. rewrite wrap_eq by (pows; lia).
    rewrite (reads_at _ _ _ (g_default g) buf _ (pre ++ x) (b ++ c ++ d ++ e ++ post) Hrv); auto;
      [|unfold buf; fold a; asc|rewrite len64_app; reflexivity].
    cbn [bind fst snd]. fold a. rewrite wrap_eq by (pows; lia).
    rewrite (reads_at _ _ _ (g_oob g) buf _ (pre ++ x ++ a) (c ++ d ++ e ++ post) Hrv); auto;
      [|unfold buf; fold b; asc|rewrite !len64_app; lia].
    cbn [bind fst snd]. fold b. rewrite wrap_eq by (pows; lia).
    rewrite (reads_at _ _ _ (g_data g) buf _ (pre ++ x ++ a ++ b) (d ++ e ++ post) Hre); auto;
      [|unfold buf; fold c; asc|rewrite !len64_app; lia].
    cbn [bind fst snd]. fold c. rewrite wrap_eq by (pows; lia).
    rewrite (reads_at _ _ _ (g_sizes g) buf _ (pre ++ x ++ a ++ b ++ c) (e ++ post) Hrs); auto;
      [|unfold buf; fold d; asc|rewrite !len64_app; lia].
    cbn [bind fst snd]. fold d. rewrite wrap_eq by (pows; lia).
    rewrite G2. cbn [bind]. rewrite Z.eqb_refl. cbn [negb].
    rewrite (reads_at _ _ _ (flag (g_initialized g)) buf _ (pre ++ x ++ a ++ b ++ c ++ d) post Hrf); auto;
      [|unfold buf; fold e; asc|rewrite !len64_app; lia].
    cbn [bind fst snd]. fold e. rewrite wrap_eq by (pows; lia).
    replace (negb (flag (g_initialized g) =? 0)) with (g_initialized g) by (destruct (g_initialized g); reflexivity).
    rewrite <- G3, eqb_reflx. cbn [negb].
    rewrite sub64_eq by (pows; lia). rewrite make_ok by (pows; lia).
    rewrite X3, <- G4. do 2 f_equal; [destruct g as [? ? ? ? ? ? ? []]; reflexivity|].
    rewrite !len64_app. lia.
  - intros g H. split; [exact H|]. split; [exact H|]. destruct H as [G1 G2 G3 G4 G5 G6 G7 G8].
    destruct G8 as (X1 & X2 & _).
    destruct (Hnv _ G5) as (A1 & A2). destruct (Hnv _ G6) as (B1 & B2). destruct (Hne _ G7) as (C1 & C2).
    destruct (Hns _ G1) as (D1 & D2). destruct (Hnf _ (Hflag (g_initialized g))) as (E1 & E2).
    split.
    + intros E. apply app_eq_nil in E as [E _]. rewrite E in X1. discriminate.
    + rewrite !is_bytes_app. auto 10.
Qed.

(** Arbitrary bytes. *)
Lemma sizes_ok_inside buf off s n : (N.of_nat (msize dbl) < 2 ^ 63) ->
  is_bytes buf -> fits_vector buf -> off < 2 ^ 64 ->
  DeserializeGridSizes le dbl buf off = Ok (s, n) -> 0 < n /\ off + n <= len64 buf.
Proof.
  intros M2 Hb Hf Ho. destruct dbl_ok as [M1 _]. pose proof (memcpyable_inside dbl M1 M2) as SW.
  assert (stays_inside (DeserializeMemcpyable (int64_rep le))) as SI by (apply memcpyable_inside; cbn; [lia|pows; lia]).
  unfold DeserializeGridSizes. assert (Hf' := Hf). unfold fits_vector in Hf'. pows.
  destruct (SW buf off Hb Hf Ho) as [(e & ->)|(f1 & n1 & -> & P1 & Q1)]; [discriminate|]. cbn [bind fst snd].
  rewrite wrap_eq by (pows; lia).
  destruct (SW buf (off + n1) Hb Hf ltac:(pows; lia)) as [(e & ->)|(f2 & n2 & -> & P2 & Q2)]; [discriminate|]. cbn [bind fst snd].
  rewrite wrap_eq by (pows; lia).
  destruct (SW buf (off + n1 + n2) Hb Hf ltac:(pows; lia)) as [(e & ->)|(f3 & n3 & -> & P3 & Q3)]; [discriminate|]. cbn [bind fst snd].
  rewrite wrap_eq by (pows; lia).
  destruct (SI buf (off + n1 + n2 + n3) Hb Hf ltac:(pows; lia)) as [(e & ->)|(f4 & n4 & -> & P4 & Q4)]; [discriminate|]. cbn [bind fst snd].
  rewrite wrap_eq by (pows; lia).
  destruct (SI buf (off + n1 + n2 + n3 + n4) Hb Hf ltac:(pows; lia)) as [(e & ->)|(f5 & n5 & -> & P5 & Q5)]; [discriminate|]. cbn [bind fst snd].
  rewrite wrap_eq by (pows; lia).
  destruct (SI buf (off + n1 + n2 + n3 + n4 + n5) Hb Hf ltac:(pows; lia)) as [(e & ->)|(f6 & n6 & -> & P6 & Q6)]; [discriminate|]. cbn [bind fst snd].
  rewrite wrap_eq by (pows; lia). rewrite sub64_eq by (pows; lia).
  destruct (InitializeByCells _ _ _ _ _ _); cbn [bind]; try discriminate. rewrite make_ok by lia.
  intros H. injection H as _ <-. lia.
Qed.

Lemma grid_from_bytes (des : Deserializer T) buf off g n : (N.of_nat (msize dbl) < 2 ^ 63) ->
  stays_inside des -> is_bytes buf -> fits_vector buf -> off < 2 ^ 64 ->
  DeserializeGrid le dbl iso_of iso_inverse max_size des buf off = Ok (g, n) ->
  (Z.of_nat (length (g_data g)) = num_x_cells (g_sizes g) * num_y_cells (g_sizes g) * num_z_cells (g_sizes g))%Z /\
  g_initialized g = sizes_valid (g_sizes g) /\ g_inverse g = iso_inverse (g_origin g) /\
  0 < n /\ off + n <= len64 buf.
Proof.
  intros M2 SV Hb Hf Ho. pose proof (vector_inside false le max_size _ SV) as SE.
  pose proof (fixed_inside 16 ltac:(lia) ltac:(reflexivity)) as SX.
  assert (stays_inside (DeserializeMemcpyable (uint_rep le 1))) as SU by (apply memcpyable_inside; cbn; [lia|pows; lia]).
  unfold DeserializeGrid. assert (Hf' := Hf). unfold fits_vector in Hf'. pows.
  destruct (SX buf off Hb Hf Ho) as [(e & ->)|(f1 & n1 & -> & P1 & Q1)]; [discriminate|]. cbn [bind fst snd].
  rewrite wrap_eq by (pows; lia).
  destruct (SV buf (off + n1) Hb Hf ltac:(pows; lia)) as [(e & ->)|(f2 & n2 & -> & P2 & Q2)]; [discriminate|]. cbn [bind fst snd].
  rewrite wrap_eq by (pows; lia).
  destruct (SV buf (off + n1 + n2) Hb Hf ltac:(pows; lia)) as [(e & ->)|(f3 & n3 & -> & P3 & Q3)]; [discriminate|]. cbn [bind fst snd].
  rewrite wrap_eq by (pows; lia).
  destruct (SE buf (off + n1 + n2 + n3) Hb Hf ltac:(pows; lia)) as [(e & ->)|(f4 & n4 & -> & P4 & Q4)]; [discriminate|]. cbn [bind fst snd].
  rewrite wrap_eq by (pows; lia).
  destruct (DeserializeGridSizes le dbl buf (off + n1 + n2 + n3 + n4)) as [[s n5]| | |] eqn:ES; cbn [bind]; try discriminate.
  destruct (sizes_ok_inside buf (off + n1 + n2 + n3 + n4) s n5 M2 Hb Hf ltac:(pows; lia) ES) as [P5 Q5]. cbn [fst snd].
  rewrite wrap_eq by (pows; lia).
  destruct (TotalCells s) as [t| | |] eqn:ET; cbn [bind]; try discriminate.
  destruct (Z.eqb_spec t (Z.of_nat (length f4))) as [Et|Et]; cbn [negb]; [|discriminate].
  destruct (SU buf (off + n1 + n2 + n3 + n4 + n5) Hb Hf ltac:(pows; lia)) as [(e & ->)|(f6 & n6 & -> & P6 & Q6)]; [discriminate|]. cbn [bind fst snd].
  rewrite wrap_eq by (pows; lia).
  destruct (Bool.eqb (sizes_valid s) (negb (f6 =? 0))) eqn:EV; cbn [negb]; [|discriminate].
  rewrite sub64_eq by (pows; lia). rewrite make_ok by lia. intros H. injection H as <- <-. cbn [g_data g_sizes g_initialized g_inverse g_origin].
  apply eqb_prop in EV. split; [|split; [congruence|split; [reflexivity|lia]]].
  rewrite <- Et. unfold TotalCells in ET. apply bind_ok in ET. destruct ET as (p & E1 & E2).
  apply i64_inv in E1. apply i64_inv in E2. destruct E1 as [-> _], E2 as [-> _]. reflexivity.
Qed.
End G.
End S.

(** ** Grids reachable through the interface *)
Local Open Scope Z_scope.

Lemma made_rebuilds s : made_sizes s -> 0 < num_x_cells s -> 0 < num_y_cells s -> 0 < num_z_cells s ->
  rebuilds s.
Proof.
  intros M Px Py Pz. pose proof (made_good s M) as G. destruct M as [M [L Mx]].
  set (nx := num_x_cells s) in *. set (ny := num_y_cells s) in *. set (nz := num_z_cells s) in *.
  assert (B : 0 < nx <= int64_max /\ 0 < ny <= int64_max /\ 0 < nz <= int64_max).
  { assert (nx <= nx * ny) by nia. assert (ny <= nx * ny) by nia.
    assert (nz <= nx * ny * nz) by nia. lia. }
  split; [|unfold int64_ok, int64_max in *; lia].
  assert (H : exists cx cy cz, CheckPositiveValidD cx = true /\ CheckPositiveValidD cy = true /\
    CheckPositiveValidD cz = true /\ exists a b c, set_sizes cx cy cz a b c = Ok s).
  { destruct M as [(cx & cy & cz & xs & ys & zs & H)|(cx & cy & cz & a & b & c & H)].
    - unfold GridSizesBySize, InitializeBySize in H. destruct (_ && _) eqn:C; [|discriminate].
      rewrite !andb_true_iff in C. destruct C as (((((C1 & C2) & C3) & C4) & C5) & C6).
      apply bind_ok in H. destruct H as (r & H & E).
      apply bind_ok in H. destruct H as (x & _ & H). apply bind_ok in H. destruct H as (y & _ & H).
      apply bind_ok in H. destruct H as (z & _ & H). apply bind_ok in H. destruct H as (s' & Hs & H).
      injection H as <-. injection E as ->. exists cx, cy, cz. repeat split; auto. eauto.
    - unfold GridSizesByCells, InitializeByCells in H. destruct (_ && _) eqn:C; [|discriminate].
      rewrite !andb_true_iff in C. destruct C as (((((C1 & C2) & C3) & C4) & C5) & C6).
      apply bind_ok in H. destruct H as (r & H & E). apply bind_ok in H. destruct H as (s' & Hs & H).
      injection H as <-. injection E as ->. exists cx, cy, cz. repeat split; auto. eauto. }
  destruct H as (cx & cy & cz & C1 & C2 & C3 & a & b & c & Hs).
  pose proof (set_sizes_inv _ _ _ _ _ _ _ Hs) as (E1 & E2 & E3 & _ & _ & _ & E4 & E5 & E6).
  exists (Some s). split; [|reflexivity]. unfold InitializeByCells. rewrite E4, E5, E6, C1, C2, C3.
  unfold CheckPositiveValidI. fold nx ny nz in E1, E2, E3. unfold nx, ny, nz in *. 
  replace (0 <? num_x_cells s) with true by (symmetry; apply Z.ltb_lt; lia).
  replace (0 <? num_y_cells s) with true by (symmetry; apply Z.ltb_lt; lia).
  replace (0 <? num_z_cells s) with true by (symmetry; apply Z.ltb_lt; lia). cbn [andb].
  rewrite E1, E2, E3, Hs. reflexivity.
Qed.

Section R.
Context {T User Iso : Type}.
Variable iso_inverse : Iso -> Iso.
Variable iso_apply : Iso -> vec4 -> vec4.
Variable on_access : User -> Z -> Z -> Z -> User * bool.
Variable on_raw : User -> User * bool.
Notation grid := (@grid T User Iso).
Notation perform := (@perform T User Iso iso_inverse iso_apply on_access on_raw).
Notation perform_all := (@perform_all T User Iso iso_inverse iso_apply on_access on_raw).

Definition well_made (g : grid) : Prop := made_sizes (g_sizes g) /\ g_initialized g = true.

Lemma step_made g c g' r : sound iso_inverse g -> well_made g ->
  (forall o s def oob, c = CallInitialize o s def oob -> made_sizes s) -> perform g c = (g', r) -> well_made g'.
Proof.
  intros S [W1 W2] F. unfold well_made.
  assert (HS : forall f i v, g_sizes (fst (finish_status g (SetIndex on_access f g i v))) = g_sizes g /\
    g_initialized (fst (finish_status g (SetIndex on_access f g i v))) = g_initialized g).
  { intros f i v. destruct (set_cases iso_inverse on_access f g i v S) as [(_ & _ & ->)|[(_ & _ & ->)|(_ & ->)]]; split; reflexivity. }
  assert (HA : forall f i v, g_sizes (fst (assign_through g v (GetIndexMutable on_access f g i))) = g_sizes g /\
    g_initialized (fst (assign_through g v (GetIndexMutable on_access f g i))) = g_initialized g).
  { intros f i v. destruct (mutable_cases iso_inverse on_access f g i S) as [(_ & _ & ->)|[(_ & _ & ->)|(_ & ->)]];
      cbn [assign_through]; try (split; reflexivity).
    unfold AssignIndex. destruct (_ && _); [|split; reflexivity]. destruct (raw_set _ _ _); split; reflexivity. }
  intros P. assert (g' = fst (perform g c)) as -> by (rewrite P; reflexivity). clear P.
  destruct c as [f i v|f i v|l v|l v|k v|k v|d| |v|v|v|v|o|o s def oob]; cbn [perform].
  - destruct (HS f i v) as [-> ->]. auto.
  - destruct (HA f i v) as [-> ->]. auto.
  - unfold SetLocation4d. destruct (LocationToGridIndex4d _ _ _) as [i| | |]; cbn [bind]; [|simpl; auto..].
    destruct (HS ByGridIndex i v) as [-> ->]. auto.
  - unfold GetLocationMutable4d. destruct (LocationToGridIndex4d _ _ _) as [i| | |]; cbn [bind]; [|simpl; auto..].
    destruct (HA ByGridIndex i v) as [-> ->]. auto.
  - unfold SetDataIndex. destruct (on_raw (g_user g)) as [u []]; [|simpl; auto].
    unfold AssignIndex. destruct (_ && _); [|simpl; auto]. destruct (raw_set _ _ _); simpl; auto.
  - unfold GetDataIndexMutable. destruct (on_raw (g_user g)) as [u []]; [|simpl; auto].
    destruct (AccessIndex _ _); cbn [bind]; [|simpl; auto..].
    unfold AssignIndex. destruct (_ && _); [|simpl; auto]. destruct (raw_set _ _ _); simpl; auto.
  - unfold SetRawData. destruct (on_raw (g_user g)) as [u []]; [|simpl; auto].
    destruct (TotalCells _); [|simpl; auto..]. destruct (_ =? _); simpl; auto.
  - unfold SetContents. destruct (TotalCells _); simpl; auto.
  - unfold SetContents. destruct (TotalCells _); simpl; auto.
  - unfold SetContents. destruct (TotalCells _); simpl; auto.
  - simpl; auto.
  - simpl; auto.
  - simpl; auto.
  - specialize (F o s def oob eq_refl). rewrite initialize_total by (apply made_good; exact F). simpl. auto.
Qed.

Lemma steps_made cs : forall g g' h, sound iso_inverse g -> well_made g -> calls_made cs ->
  perform_all g cs = (g', h) -> well_made g'.
Proof.
  induction cs as [|c r IH]; simpl; intros g g' h S W C H.
  - injection H as <- <-. exact W.
  - destruct (perform g c) as [g1 rep] eqn:E. destruct (perform_all g1 r) as [g2 h2] eqn:E2.
    injection H as <- <-. eapply IH; [| |intros o s d b Hi; eapply C; right; exact Hi|exact E2].
    + destruct (perform_all g [c]) as [gx hx] eqn:EX. simpl in EX. rewrite E in EX. injection EX as <- _.
      eapply (step iso_inverse iso_apply on_access on_raw (g_sizes g)
        (mkView (dims_of (g_sizes g)) (g_default g)
          (fun i => nth (Z.to_nat (position (dims_of (g_sizes g)) i)) (g_data g) (g_default g))
          (locate iso_inverse iso_apply (g_sizes g) (g_origin g)))) in E; [exact (proj1 E)|exact S| |].
      * constructor; auto. intros i I. cbn [v_cell]. apply nth_error_nth'.
        pose proof (good_position _ _ (so_sizes _ _ S) I). pose proof (so_len _ _ S). unfold volume in *. lia.
      * destruct c; simpl; auto. apply made_good. eapply C. left. reflexivity.
    + eapply step_made; eauto. intros o s d b ->. eapply C. left. reflexivity.
Qed.

Lemma reachable_well_made g : reachable_grid iso_inverse iso_apply on_access on_raw g -> well_made g.
Proof.
  intros (id & t0 & u & o & s & def & oob & cs & g0 & h & M & C & N & P).
  unfold new_grid in N. pose proof (made_good _ M) as G.
  apply (initialize_ok iso_inverse (default_grid id t0 u) o s def oob g0 G) in N. subst g0.
  eapply steps_made; [| |exact C|exact P].
  - apply new_sound. exact G.
  - split; [exact M|reflexivity].
Qed.
End R.

Section U.
Context {T Iso : Type}.
Variable iso_inverse : Iso -> Iso.
Variable iso_apply : Iso -> vec4 -> vec4.

Lemma reachable_grid_ok iso_to iso_of max_size (dom : T -> Prop) (g : @grid T unit Iso) :
  reachable_grid iso_inverse iso_apply allow_access allow_raw g ->
  0 < num_x_cells (g_sizes g) -> 0 < num_y_cells (g_sizes g) -> 0 < num_z_cells (g_sizes g) ->
  dom (g_default g) -> dom (g_oob g) -> Forall dom (g_data g) ->
  (len64 (g_data g) <= max_size)%N ->
  length (iso_to (g_origin g)) = 128%nat -> is_bytes (iso_to (g_origin g)) -> iso_of (iso_to (g_origin g)) = g_origin g ->
  grid_ok iso_to iso_of iso_inverse max_size dom g.
Proof.
  intros R Px Py Pz D1 D2 D3 Ln X1 X2 X3.
  pose proof (reachable_sound _ _ _ _ _ R) as S. pose proof (reachable_well_made _ _ _ _ _ R) as [M I0].
  pose proof (so_sizes _ _ S) as G. constructor; auto.
  - apply made_rebuilds; assumption.
  - rewrite total_cells by assumption. f_equal. symmetry. apply (so_len _ _ S).
  - rewrite I0. symmetry. apply (g_valid _ G).
  - apply (so_inv _ _ S).
  - split; [exact D3|]. split; [|exact Ln]. pose proof (so_len _ _ S) as L. pose proof (volume_max _ G).
    unfold len64. unfold int64_max in *. rewrite p64. lia.
Qed.
End U.

(** ** Concrete cases *)
Definition dpow2 (e : Z) : double := binary_normalize 53 1024 eq_refl eq_refl mode_NE 1 e false.

(** An x extent that is not even a part of a cell: no cells. *)
Definition degenerate_sizes : outcome GridSizes :=
  GridSizesBySize (dpow2 1000) d1 d1 (dpow2 (-1074)) d1 d1.

Definition byte_ser (le : bool) : Serializer N := SerializeMemcpyable (uint_rep le 1).
Definition byte_des (le : bool) : Deserializer N := DeserializeMemcpyable (uint_rep le 1).

Lemma degenerate_fails :
  exists s g bytes, degenerate_sizes = Ok s /\ made_sizes s /\
  new_grid (fun o : list N => o) [] 0%N tt (repeat 0%N 128) s 7%N 8%N = Ok g /\
  bytes = snd (SerializeGrid true (double_rep true) (fun o => o) (byte_ser true) g []) /\
  DeserializeGrid true (double_rep true) (fun o => o) (fun o => o) 1000 (byte_des true) bytes 0 = Throw RuntimeError.
Proof.
  assert (E : match degenerate_sizes with
    | Ok s =>
        (num_x_cells s * num_y_cells s <=? int64_max) && (num_x_cells s * num_y_cells s * num_z_cells s <=? int64_max) &&
        match new_grid (fun o : list N => o) [] 0%N tt (repeat 0%N 128) s 7%N 8%N with
        | Ok g => match DeserializeGrid true (double_rep true) (fun o => o) (fun o => o) 1000 (byte_des true)
                    (snd (SerializeGrid true (double_rep true) (fun o => o) (byte_ser true) g [])) 0 with
                  | Throw RuntimeError => true | _ => false end
        | _ => false
        end
    | _ => false end = true) by (vm_compute; reflexivity).
  destruct degenerate_sizes as [s| | |] eqn:Es; [|discriminate E..]. exists s.
  apply andb_true_iff in E. destruct E as [E1 E]. apply andb_true_iff in E1. destruct E1 as [E1 E2].
  destruct (new_grid _ _ _ _ _ _ _ _) as [g| | |] eqn:Eg; [|discriminate E..]. exists g.
  eexists. split; [reflexivity|]. split.
  { split; [left; exists (dpow2 1000), d1, d1, (dpow2 (-1074)), d1, d1; exact Es|]. lia. }
  split; [reflexivity|]. split; [reflexivity|].
  destruct (DeserializeGrid _ _ _ _ _ _ _ _) as [x|e| |]; [discriminate E| |discriminate E..].
  destruct e; [discriminate E..| |discriminate E|discriminate E|discriminate E|discriminate E]. reflexivity.
Qed.

Definition hostile_grid : list N :=
  repeat 0%N 128 ++ [0%N; 0%N] ++ repeat 0%N 8 ++
  to_obj (double_rep true) d1 ++ to_obj (double_rep true) d1 ++ to_obj (double_rep true) d1 ++
  to_obj (int64_rep true) (2 ^ 62) ++ to_obj (int64_rep true) (2 ^ 62) ++ to_obj (int64_rep true) (2 ^ 62) ++ [1%N].

Lemma hostile_overflow : is_bytes hostile_grid /\ fits_vector hostile_grid /\
  DeserializeGrid true (double_rep true) (fun o : list N => o) (fun o => o) 1000 (byte_des true) hostile_grid 0 = UB.
Proof.
  split; [|split; [reflexivity|vm_compute; reflexivity]].
  assert (E : forallb (fun b => (b <? 256)%N) hostile_grid = true) by (vm_compute; reflexivity).
  unfold is_bytes. rewrite Forall_forall. intros b Hb. rewrite forallb_forall in E. specialize (E b Hb).
  apply N.ltb_lt. exact E.
Qed.
