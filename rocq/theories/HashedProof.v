(** Proofs for the hashed voxel grid: C31, C77. *)
From Coq Require Import Reals.
From Flocq Require Import Core BinarySingleNaN.
From Verif Require Import Base ParallelismModel ParallelismProof Double SerializationModel SerializationSpec
  VoxelModel VoxelSpec VoxelProof HashedModel HashedSpec.
Local Open Scope Z_scope.

(** ** Equality of regions *)
Lemma Beqb_cases (x y : double) : Beqb x y = true ->
  (is_nan x = false /\ x = y) \/ (exists a b, x = B754_zero a /\ y = B754_zero b).
Proof.
  intros H. destruct (is_finite x && is_finite y) eqn:F.
  - apply andb_prop in F. destruct F as [Fx Fy]. rewrite (Beqb_correct 53 1024) in H by assumption.
    revert H. case Req_bool_spec; [intros E _|discriminate].
    destruct x as [sx|sx| |sx mx ex Bx]; try discriminate.
    + right. destruct y as [sy|sy| |sy my ey By]; try discriminate; [eauto|].
      exfalso. simpl in E. symmetry in E. apply Float_prop.eq_0_F2R in E. destruct sy; discriminate.
    + left. split; [reflexivity|]. apply B2R_inj; [reflexivity| |exact E].
      destruct y as [sy|sy| |sy my ey By]; try discriminate; [|reflexivity].
      exfalso. simpl in E. apply Float_prop.eq_0_F2R in E. destruct sx; discriminate.
  - left. destruct x as [sx|sx| |sx mx ex Bx], y as [sy|sy| |sy my ey By]; try discriminate F;
      unfold Beqb in H; simpl in H; try (destruct sx); try (destruct sy); simpl in H; try discriminate H; auto.
Qed.

Lemma Beqb_sym (x y : double) : Beqb x y = Beqb y x.
Proof.
  assert (forall a b : double, Beqb a b = true -> Beqb b a = true) as S.
  { intros a b H. destruct (Beqb_cases a b H) as [[N ->]|(p & q & -> & ->)]; [exact H|reflexivity]. }
  destruct (Beqb x y) eqn:E, (Beqb y x) eqn:E'; auto; [apply S in E|apply S in E']; congruence.
Qed.
Lemma Beqb_trans (x y z : double) : Beqb x y = true -> Beqb y z = true -> Beqb x z = true.
Proof.
  intros H1 H2. destruct (Beqb_cases x y H1) as [[N ->]|(p & q & -> & ->)]; [exact H2|].
  destruct (Beqb_cases _ _ H2) as [[_ <-]|(p' & q' & _ & ->)]; reflexivity.
Qed.

Lemma region_sym a b : region_eqb a b = region_eqb b a.
Proof.
  destruct a as [[a1 a2] a3], b as [[b1 b2] b3]. unfold region_eqb.
  now rewrite (Beqb_sym a1), (Beqb_sym a2), (Beqb_sym a3).
Qed.
Lemma region_trans a b c : region_eqb a b = true -> region_eqb b c = true -> region_eqb a c = true.
Proof.
  destruct a as [[a1 a2] a3], b as [[b1 b2] b3], c as [[c1 c2] c3]. unfold region_eqb.
  rewrite !andb_true_iff. intros [[A B] C] [[D E] F]. repeat split; eapply Beqb_trans; eauto.
Qed.
Lemma region_eqb_l a b c : region_eqb a b = true -> region_eqb a c = region_eqb b c.
Proof.
  intros H. destruct (region_eqb a c) eqn:E1, (region_eqb b c) eqn:E2; auto.
  - rewrite region_sym in H. rewrite (region_trans _ _ _ H E1) in E2. discriminate.
  - rewrite (region_trans _ _ _ H E2) in E1. discriminate.
Qed.
Lemma region_eqb_r a b c : region_eqb a b = true -> region_eqb c a = region_eqb c b.
Proof. intros H. rewrite !(region_sym c). now apply region_eqb_l. Qed.

(** The sign of a zero base does not matter. *)
Definition same_offset (x y : double) : Prop :=
  x = y \/ (exists a b, x = B754_zero a /\ y = B754_zero b).
Lemma dsub_same x b b' : Beqb b b' = true -> same_offset (dsub x b) (dsub x b').
Proof.
  intros H. destruct (Beqb_cases b b' H) as [[_ ->]|(p & q & -> & ->)]; [now left|].
  destruct x as [s|s| |s m e Bd]; [|left; reflexivity|left; reflexivity|left; reflexivity].
  right. unfold dsub, Bminus, Bplus. destruct s, p, q; simpl; eauto.
Qed.
Lemma same_lt x y : same_offset x y -> dlt x d0 = dlt y d0.
Proof. intros [->|(a & b & -> & ->)]; reflexivity. Qed.
Lemma same_le x y z : same_offset x y -> dle z x = dle z y.
Proof. intros [->|(a & b & -> & ->)]; [reflexivity|]. destruct z as [s|s| |s m e Bd]; reflexivity. Qed.
Lemma same_floor x y c : same_offset x y -> floor_to_int64 (ddiv x c) = floor_to_int64 (ddiv y c).
Proof. intros [->|(a & b & -> & ->)]; [reflexivity|]. destruct c as [s|s| |s m e Bd]; reflexivity. Qed.

Lemma data_index_region r r' s l : region_eqb r r' = true ->
  GetLocationDataIndex r s l = GetLocationDataIndex r' s l.
Proof.
  destruct r as [[a1 a2] a3], r' as [[b1 b2] b3], l as [[[x y] z] w]. unfold region_eqb.
  rewrite !andb_true_iff. intros [[A B] C]. unfold GetLocationDataIndex.
  pose proof (dsub_same x _ _ A) as HA. pose proof (dsub_same y _ _ B) as HB. pose proof (dsub_same z _ _ C) as HC.
  now rewrite (same_lt _ _ HA), (same_lt _ _ HB), (same_lt _ _ HC), (same_le _ _ (x_size s) HA),
    (same_le _ _ (y_size s) HB), (same_le _ _ (z_size s) HC), (same_floor _ _ (cell_x_size s) HA),
    (same_floor _ _ (cell_y_size s) HB), (same_floor _ _ (cell_z_size s) HC).
Qed.

Lemma data_index_range r s l i : good s -> GetLocationDataIndex r s l = Ok i -> i = -1 \/ 0 <= i < volume s.
Proof.
  intros G. destruct r as [[a1 a2] a3], l as [[[x y] z] w]. unfold GetLocationDataIndex.
  destruct (_ || _); [intros H; injection H as <-; auto|]. intros H.
  apply bind_ok in H. destruct H as (xc & _ & H). apply bind_ok in H. destruct H as (yc & _ & H).
  apply bind_ok in H. destruct H as (zc & _ & H).
  destruct (_ || _) eqn:E; [injection H as <-; auto|]. right.
  rewrite !orb_false_iff, !Z.ltb_ge, !Z.leb_gt in E.
  assert (in_grid (dims_of s) (xc, yc, zc)) as I by (unfold in_grid, dims_of; lia).
  rewrite data_index_position in H by assumption. injection H as <-. exact (good_position s _ G I).
Qed.

Section H.
Context {T User Iso : Type}.
Variable iso_inverse : Iso -> Iso.
Variable iso_apply : Iso -> vec4 -> vec4.
Variable on_access : User -> vec4 -> User * bool.
Notation hgrid := (@hgrid T User Iso).
Notation chunk := (@chunk T).

(** ** Finding chunks *)
Lemma find_eqb (m : list (region * chunk)) r q : region_eqb r q = true -> find_chunk m r = find_chunk m q.
Proof.
  intros H. unfold find_chunk. induction m as [|e m IH]; [reflexivity|]. simpl.
  rewrite (region_eqb_r r q (fst e) H). destruct (region_eqb (fst e) q); [reflexivity|exact IH].
Qed.
Lemma find_put (m : list (region * chunk)) r c q : find_chunk (put_chunk m r c) q =
  if region_eqb r q then match find_chunk m q with Some _ => Some c | None => None end else find_chunk m q.
Proof.
  unfold find_chunk. induction m as [|e m IH]; simpl.
  - now destruct (region_eqb r q).
  - destruct (region_eqb (fst e) r) eqn:E1.
    + simpl. rewrite (region_eqb_l _ _ q E1). destruct (region_eqb r q); reflexivity.
    + simpl. destruct (region_eqb (fst e) q) eqn:E2.
      * destruct (region_eqb r q) eqn:E3; [|reflexivity].
        rewrite region_sym in E3. rewrite (region_trans _ _ _ E2 E3) in E1. discriminate.
      * exact IH.
Qed.
Lemma find_snoc (m : list (region * chunk)) r c q : find_chunk (m ++ [(r, c)]) q =
  match find_chunk m q with Some c' => Some c' | None => if region_eqb r q then Some c else None end.
Proof.
  unfold find_chunk. induction m as [|e m IH]; simpl.
  - now destruct (region_eqb r q).
  - destruct (region_eqb (fst e) q); [reflexivity|exact IH].
Qed.

Variable s : GridSizes.
Hypothesis G : good s.

(** What a chunk tells. *)
Definition chunk_shows (r : region) (c : chunk) (p : presence) (k : Z -> T) : Prop :=
  region_eqb (c_region c) r = true /\ c_sizes c = s /\
  ((c_fill c = CHUNK_FILLED /\ p = Whole /\ exists v, c_data c = [v] /\ forall i, k i = v) \/
   (c_fill c = CELL_FILLED /\ p = PerCell /\ Z.of_nat (length (c_data c)) = volume s /\
    forall i, 0 <= i < volume s -> nth_error (c_data c) (Z.to_nat i) = Some (k i))).

Record shows (w : hview) (g : hgrid) : Prop := mkShows {
  sh_sizes : h_sizes g = s;
  sh_default : h_default g = w_default w;
  sh_frame : forall l, iso_apply (h_inverse g) l = w_frame w l;
  sh_inv : h_inverse g = iso_inverse (h_origin g);
  sh_chunks : forall r, match find_chunk (h_chunks g) r with
                        | None => w_presence w r = Absent
                        | Some c => chunk_shows r c (w_presence w r) (w_value w r)
                        end }.

Lemma shows_user w g u : shows w g -> shows w (h_with_user g u).
Proof. intros [A B C D E]. constructor; assumption. Qed.

Lemma region_ok w g l : shows w g ->
  GetContainingChunkRegion (h_sizes g) (iso_apply (h_inverse g) l) = Ok (chunk_of s (w_frame w l)).
Proof.
  intros S. rewrite (sh_sizes _ _ S), (sh_frame _ _ S). unfold GetContainingChunkRegion, chunk_of.
  destruct (w_frame w l) as [[[x y] z] q]. now rewrite (g_valid _ G).
Qed.

(** Replacing the chunk of a region. *)
Lemma shows_put w g r c p k : shows w g -> find_chunk (h_chunks g) r <> None ->
  chunk_shows r c p k ->
  shows (set_presence w r p k) (h_with_chunks g (put_chunk (h_chunks g) r c)).
Proof.
  intros [A B C D E] F H. constructor; simpl; try assumption. intros q. rewrite find_put.
  destruct (region_eqb r q) eqn:Q; [|apply E].
  rewrite <- (find_eqb _ _ _ Q). destruct (find_chunk (h_chunks g) r); [|congruence].
  destruct H as (H1 & H2 & H3). split; [|split; assumption].
  rewrite <- (region_eqb_r _ _ _ Q). exact H1.
Qed.

Lemma repeat_nth (v : T) n i : (i < n)%nat -> nth_error (repeat v n) i = Some v.
Proof. revert i; induction n as [|n IH]; intros [|i] H; simpl; try lia; auto. apply IH. lia. Qed.

Lemma cell_filled_shows r c v : region_eqb (c_region c) r = true -> c_sizes c = s ->
  exists c', SetCellFilledContents c v = Ok c' /\ chunk_shows r c' PerCell (fun _ => v).
Proof.
  intros R S. unfold SetCellFilledContents. rewrite S, total_cells by exact G. cbn [bind]. eexists. split; [reflexivity|].
  pose proof (volume_nonneg s G) as V. unfold chunk_shows. simpl. split; [exact R|]. split; [first [exact S|reflexivity]|]. right.
  rewrite repeat_length. fold (volume s). split; [reflexivity|]. split; [reflexivity|]. split; [lia|].
  intros i Hi. apply repeat_nth. lia.
Qed.

Lemma chunk_filled_shows r c v : region_eqb (c_region c) r = true -> c_sizes c = s ->
  chunk_shows r (SetChunkFilledContents c v) Whole (fun _ => v).
Proof. intros R S. unfold chunk_shows. simpl. split; [exact R|]. split; [exact S|]. left. eauto. Qed.

Lemma shows_ext r c p k k' : (forall i, k i = k' i) -> chunk_shows r c p k -> chunk_shows r c p k'.
Proof.
  intros E (A & B & [(C & D & v & X & Y)|(C & D & X & Y)]); (split; [exact A|split; [exact B|]]).
  - left. split; [exact C|]. split; [exact D|]. exists v. split; [exact X|]. intros i. now rewrite <- E.
  - right. split; [exact C|]. split; [exact D|]. split; [exact X|]. intros i Hi. rewrite <- E. auto.
Qed.

Lemma chunk_get_cell r c k i : chunk_shows r c PerCell k -> 0 <= i < volume s -> chunk_get c i = Ok (k i).
Proof.
  intros (_ & _ & [(_ & D & _)|(_ & _ & L & N)]) Hi; [discriminate|].
  unfold chunk_get. destruct (Z.leb_spec 0 i), (Z.ltb_spec i (Z.of_nat (length (c_data c)))); try lia. simpl.
  unfold raw_get. now rewrite (N i Hi).
Qed.
Lemma chunk_get_whole r c k : chunk_shows r c Whole k -> chunk_get c 0 = Ok (k 0) /\ forall i, k i = k 0.
Proof.
  intros (_ & _ & [(_ & _ & v & E & N)|(_ & D & _)]); [|discriminate].
  unfold chunk_get. rewrite E. simpl. rewrite N. split; [reflexivity|]. intros i. now rewrite !N.
Qed.
Lemma chunk_assign_cell r c k i v : chunk_shows r c PerCell k -> 0 <= i < volume s ->
  exists c', chunk_assign c i v = Ok c' /\ chunk_shows r c' PerCell (fun j => if j =? i then v else k j).
Proof.
  intros (A & B & [(_ & D & _)|(C & _ & L & N)]) Hi; [discriminate|].
  unfold chunk_assign. destruct (Z.leb_spec 0 i), (Z.ltb_spec i (Z.of_nat (length (c_data c)))); try lia. simpl.
  unfold raw_set. rewrite set_nth_upd by lia. cbn [bind]. eexists. split; [reflexivity|].
  unfold chunk_shows. simpl. split; [exact A|]. split; [exact B|]. right. rewrite upd_length.
  repeat (split; [assumption || reflexivity|]). intros j Hj. rewrite nth_error_upd.
  destruct (Nat.eq_dec (Z.to_nat i) (Z.to_nat j)) as [E|E].
  - assert (j = i) as -> by lia. rewrite Z.eqb_refl. destruct (lt_dec _ _); [reflexivity|lia].
  - destruct (Z.eqb_spec j i); [subst; lia|]. auto.
Qed.
Lemma chunk_assign_whole r c k v : chunk_shows r c Whole k ->
  exists c', chunk_assign c 0 v = Ok c' /\ chunk_shows r c' Whole (fun _ => v).
Proof.
  intros (A & B & [(C & _ & x & E & N)|(_ & D & _)]); [|discriminate].
  unfold chunk_assign. rewrite E. simpl. eexists. split; [reflexivity|].
  unfold chunk_shows. simpl. split; [exact A|]. split; [exact B|]. left. eauto.
Qed.

(** Reading. *)
Lemma read_agrees w g l : shows w g ->
  HGetLocationImmutable4d iso_apply g l =
  let r := chunk_of s (w_frame w l) in
  match w_presence w r with
  | Absent => Ok (NOT_FOUND, None)
  | Whole => Ok (FOUND_IN_CHUNK, Some (w_value w r 0))
  | PerCell => do i <- GetLocationDataIndex r s (w_frame w l);
               if 0 <=? i then Ok (FOUND_IN_CELL, Some (w_value w r i)) else Throw RuntimeError
  end.
Proof.
  intros S. unfold HGetLocationImmutable4d. cbv zeta. rewrite (region_ok w g l S). cbn [bind].
  set (r := chunk_of s (w_frame w l)). pose proof (sh_chunks _ _ S r) as C. rewrite (sh_frame _ _ S).
  destruct (find_chunk (h_chunks g) r) as [c|]; [|now rewrite C].
  assert (C' := C). destruct C' as (A & B & [(F & P & _)|(F & P & _)]); unfold chunk_get_location; rewrite F, P in *.
  - destruct (chunk_get_whole _ _ _ C) as [-> _]. reflexivity.
  - rewrite B. rewrite (data_index_region (c_region c) r) by exact A.
    destruct (GetLocationDataIndex r s (w_frame w l)) as [i|e| |] eqn:E; try reflexivity. cbn [bind].
    destruct (data_index_range _ _ _ _ G E) as [->|Hi]; [reflexivity|].
    destruct (Z.leb_spec 0 i); [|reflexivity]. now rewrite (chunk_get_cell _ _ _ _ C Hi).
Qed.

(** One cell write on an existing chunk. *)
Lemma set_cell_shows r c p k l v : chunk_shows r c p k -> (p = Whole \/ p = PerCell) ->
  exists c' res, chunk_set_cell c l v = (c', res) /\
  match GetLocationDataIndex r s l with
  | Ok i => if 0 <=? i then res = Ok DID_SET_CELL /\ chunk_shows r c' PerCell (fun j => if j =? i then v else k j)
            else (exists e, res = Throw e) /\ chunk_shows r c' PerCell k
  | Throw e => False
  | _ => (res = UB \/ res = Diverge)
  end.
Proof.
  intros C P.
  assert (X : exists c1, match c_fill c with
      | CHUNK_FILLED => do init <- chunk_get c 0; SetCellFilledContents c init
      | _ => Ok c end = Ok c1 /\ chunk_shows r c1 PerCell k).
  { assert (C' := C). destruct C' as (A & B & [(F & Q & x & D & N)|(F & Q & _)]); rewrite F.
    - rewrite Q in C. destruct (chunk_get_whole _ _ _ C) as [-> K]. cbn [bind].
      destruct (cell_filled_shows r c (k 0) A B) as (c' & -> & H). eexists. split; [reflexivity|].
      eapply shows_ext; [|exact H]. intros i. symmetry. apply K.
    - rewrite Q in C. eauto. }
  destruct X as (c1 & E & H). unfold chunk_set_cell. rewrite E.
  assert (H' := H). destruct H' as (A & B & [(_ & Q & _)|(F & _)]); [discriminate|]. rewrite F, B.
  rewrite (data_index_region (c_region c1) r) by exact A.
  destruct (GetLocationDataIndex r s l) as [i|e| |] eqn:EI.
  - destruct (data_index_range _ _ _ _ G EI) as [->|Hi].
    + simpl. eexists _, _. split; [reflexivity|]. split; eauto.
    + destruct (Z.leb_spec 0 i); [|lia]. destruct (chunk_assign_cell r c1 k i v H Hi) as (c2 & -> & H2). eauto.
  - exfalso. clear - EI. destruct r as [[? ?] ?], l as [[[? ?] ?] ?]. unfold GetLocationDataIndex, floor_to_int64, i64, GetDataIndex in EI.
    repeat match type of EI with (if ?b then _ else _) = _ => destruct b; try discriminate EI
      | bind (if ?b then _ else _) _ = _ => destruct b; cbn [bind] in EI; try discriminate EI end.
    all: unfold i64 in EI; repeat match type of EI with (if ?b then _ else _) = _ => destruct b; cbn [bind] in EI; try discriminate EI
      | bind (if ?b then _ else _) _ = _ => destruct b; cbn [bind] in EI; try discriminate EI end.
  - eexists _, _. split; [reflexivity|]. auto.
  - eexists _, _. split; [reflexivity|]. auto.
Qed.

Lemma shows_views w w' g :
  (forall r, w_presence w r = w_presence w' r) -> (forall r i, w_value w r i = w_value w' r i) ->
  w_default w = w_default w' -> (forall l, w_frame w l = w_frame w' l) ->
  shows w g -> shows w' g.
Proof.
  intros P V D F [A B C X E]. constructor; [exact A|congruence|intros l; rewrite C; apply F|exact X|].
  - intros r. specialize (E r). destruct (find_chunk (h_chunks g) r); [|congruence].
    rewrite <- P. eapply shows_ext; [apply V|exact E].
Qed.

Definition set_result (w : hview) (l : vec4) (t : SetType_) (v : T) (g' : hgrid) (res : outcome SetStatus) : Prop :=
  match t with
  | SET_CHUNK => res = Ok DID_SET_CHUNK /\ shows (knows_chunk s w l v) g'
  | SET_CELL => match GetLocationDataIndex (chunk_of s (w_frame w l)) s (w_frame w l) with
                | Ok i => if 0 <=? i then res = Ok DID_SET_CELL /\ shows (knows_cell s w l v) g'
                          else (exists e, res = Throw e) /\ shows (knows_touched s w l) g'
                | _ => res = UB \/ res = Diverge
                end
  end.

Lemma set_on_found fuel w g l t v : shows w g ->
  find_chunk (h_chunks g) (chunk_of s (w_frame w l)) <> None ->
  snd (on_access (h_user g) (w_frame w l)) = true ->
  exists g' res, HSetLocation4d iso_apply on_access (S fuel) g l t v = (g', res) /\ set_result w l t v g' res.
Proof.
  intros S F Al. cbn [HSetLocation4d]. rewrite (sh_frame _ _ S).
  destruct (on_access (h_user g) (w_frame w l)) as [u a] eqn:EA. simpl in Al. subst a.
  pose proof (shows_user w g u S) as S1. rewrite <- (sh_frame _ _ S1). rewrite (region_ok w (h_with_user g u) l S1).
  rewrite (sh_frame _ _ S1).
  set (r := chunk_of s (w_frame w l)) in *. pose proof (sh_chunks _ _ S1 r) as C.
  change (h_chunks (h_with_user g u)) with (h_chunks g) in *.
  destruct (find_chunk (h_chunks g) r) as [c|] eqn:FC; [|congruence].
  assert (find_chunk (h_chunks (h_with_user g u)) r <> None) as FN by (simpl; congruence).
  assert (w_presence w r = Whole \/ w_presence w r = PerCell) as P.
  { destruct C as (_ & _ & [(_ & -> & _)|(_ & -> & _)]); auto. }
  assert (K : forall i, w_value w r i = current w r i).
  { intros i. unfold current. now destruct P as [-> | ->]. }
  destruct t; simpl set_result.
  - unfold chunk_set_value. destruct C as (A & B & D).
    assert (c_fill c <> NOT_FILLED) as N by (destruct D as [(-> & _)|(-> & _)]; discriminate).
    destruct (c_fill c); [congruence| |]; (eexists _, _; split; [reflexivity|]; split; [reflexivity|];
      apply (shows_put _ _ r _ _ _ S1 FN); apply chunk_filled_shows; assumption).
  - destruct (set_cell_shows r c _ _ (w_frame w l) v C P) as (c' & res & -> & H).
    eexists _, _. split; [reflexivity|]. unfold knows_cell, knows_touched, cell_of. fold r.
    destruct (GetLocationDataIndex r s (w_frame w l)) as [i|e| |]; [|destruct H|tauto|tauto].
    destruct (0 <=? i) eqn:Ei.
    + destruct H as [-> H]. split; [reflexivity|]. apply (shows_put _ _ r _ _ _ S1 FN).
      eapply shows_ext; [|exact H]. intros j. simpl. now rewrite K.
    + destruct H as [Hr H]. split; [exact Hr|]. apply (shows_put _ _ r _ _ _ S1 FN).
      eapply shows_ext; [|exact H]. exact K.
Qed.

Lemma alloc_shows w g r t : shows w g -> find_chunk (h_chunks g) r = None -> region_eqb r r = true ->
  exists g2, AllocateChunkAt g r t = Ok g2 /\ h_user g2 = h_user g /\ find_chunk (h_chunks g2) r <> None /\
    shows (set_presence w r (match t with SET_CELL => PerCell | SET_CHUNK => Whole end) (fun _ => w_default w)) g2.
Proof.
  intros S F R. unfold AllocateChunkAt, new_chunk. rewrite (sh_sizes _ _ S), (g_valid _ G), (sh_default _ _ S).
  assert (X : exists c, match t with
      | SET_CHUNK => Ok (SetChunkFilledContents (mkChunk r [] s NOT_FILLED) (w_default w))
      | SET_CELL => SetCellFilledContents (mkChunk r [] s NOT_FILLED) (w_default w) end = Ok c /\
      chunk_shows r c (match t with SET_CELL => PerCell | SET_CHUNK => Whole end) (fun _ => w_default w)).
  { destruct t.
    - eexists. split; [reflexivity|]. apply chunk_filled_shows; [exact R|reflexivity].
    - apply cell_filled_shows; [exact R|reflexivity]. }
  destruct X as (c & -> & C). cbn [bind]. rewrite F. eexists. split; [reflexivity|]. split; [reflexivity|]. split.
  - simpl. rewrite find_snoc, F, R. discriminate.
  - destruct S as [A B D X E]. constructor; simpl; try assumption. intros q. rewrite find_snoc.
    specialize (E q). destruct (region_eqb r q) eqn:Q.
    + rewrite <- (find_eqb _ _ _ Q), F. destruct C as (C1 & C2 & C3). split; [|split; assumption].
      rewrite <- (region_eqb_r _ _ _ Q). exact C1.
    + destruct (find_chunk (h_chunks g) q); exact E.
Qed.

Lemma learn_after_alloc w r t l v g' res : r = chunk_of s (w_frame w l) ->
  w_presence w r = Absent -> region_eqb r r = true ->
  set_result (set_presence w r (match t with SET_CELL => PerCell | SET_CHUNK => Whole end) (fun _ => w_default w)) l t v g' res ->
  set_result w l t v g' res.
Proof.
  intros -> P R. set (r := chunk_of s (w_frame w l)) in *. destruct t; simpl.
  - intros [H1 H2]. split; [exact H1|]. eapply shows_views; [..|exact H2]; intros; simpl; auto;
      fold r; (match goal with |- context [region_eqb r ?q] => destruct (region_eqb r q) end; reflexivity).
  - unfold knows_cell, knows_touched, current. change (w_frame (set_presence w r PerCell _)) with (w_frame w). fold r.
    simpl. rewrite P, R. destruct (GetLocationDataIndex r s (w_frame w l)) as [i|e| |]; auto.
    destruct (0 <=? i); intros [H1 H2];
      (split; [exact H1|]; eapply shows_views; [..|exact H2]; intros; simpl; auto; (match goal with |- context [region_eqb r ?q] => destruct (region_eqb r q) end; reflexivity)).
Qed.

Lemma set_nan fuel w g l t v : shows w g -> steady on_access ->
  region_eqb (chunk_of s (w_frame w l)) (chunk_of s (w_frame w l)) = false ->
  snd (on_access (h_user g) (w_frame w l)) = true ->
  snd (HSetLocation4d iso_apply on_access fuel g l t v) = Diverge.
Proof.
  intros S St R. set (r := chunk_of s (w_frame w l)) in *.
  assert (GEN : forall fuel (g1 : hgrid), h_sizes g1 = s -> h_inverse g1 = h_inverse g -> h_default g1 = h_default g ->
     find_chunk (h_chunks g1) r = None -> snd (on_access (h_user g1) (w_frame w l)) = true ->
     snd (HSetLocation4d iso_apply on_access fuel g1 l t v) = Diverge).
  { clear fuel. induction fuel as [|fuel IH]; intros g1 E1 E2 E3 F Al; [reflexivity|].
    cbn [HSetLocation4d]. rewrite E2, (sh_frame _ _ S). destruct (on_access (h_user g1) (w_frame w l)) as [u a] eqn:EA.
    simpl in Al. subst a. change (h_sizes (h_with_user g1 u)) with (h_sizes g1). rewrite E1.
    rewrite <- (sh_frame _ _ S). rewrite <- (sh_sizes _ _ S) at 1. rewrite (region_ok w g l S). fold r.
    change (h_chunks (h_with_user g1 u)) with (h_chunks g1). rewrite F.
    unfold AllocateChunkAt, new_chunk. change (h_sizes (h_with_user g1 u)) with (h_sizes g1). rewrite E1, (g_valid _ G).
    assert (X : exists c, match t with
      | SET_CHUNK => Ok (SetChunkFilledContents (mkChunk r [] s NOT_FILLED) (h_default (h_with_user g1 u)))
      | SET_CELL => SetCellFilledContents (mkChunk r [] s NOT_FILLED) (h_default (h_with_user g1 u)) end = Ok c).
    { destruct t; [eauto|]. unfold SetCellFilledContents. simpl c_sizes. rewrite total_cells by exact G. cbn [bind]. eauto. }
    destruct X as (c & ->). cbn [bind]. change (h_chunks (h_with_user g1 u)) with (h_chunks g1). rewrite F.
    apply IH; simpl; try assumption.
    - rewrite find_snoc, F, R. reflexivity.
    - specialize (St (h_user g1) (w_frame w l)). rewrite EA in St. simpl in St. exact St. }
  intros Al. apply GEN; auto; [apply S|].
  clear - R. assert (forall q, region_eqb q r = false) as N.
  { intros q. destruct (region_eqb q r) eqn:E; [|reflexivity].
    assert (region_eqb r q = true) as E' by (rewrite region_sym; exact E).
    rewrite (region_trans _ _ _ E' E) in R. discriminate. }
  unfold find_chunk. induction (h_chunks g) as [|e m IH]; simpl; [reflexivity|]. now rewrite N.
Qed.

(** All outcomes of a write. *)
Lemma set_outcome fuel w g l t v : shows w g -> steady on_access ->
  exists g' res, HSetLocation4d iso_apply on_access (S (S fuel)) g l t v = (g', res) /\
  if snd (on_access (h_user g) (w_frame w l)) then set_result w l t v g' res \/
    (region_eqb (chunk_of s (w_frame w l)) (chunk_of s (w_frame w l)) = false /\ res = Diverge)
  else res = Ok SET_PROHIBITED /\ g' = h_with_user g (fst (on_access (h_user g) (w_frame w l))).
Proof.
  intros S St. destruct (snd (on_access (h_user g) (w_frame w l))) eqn:Al.
  - set (r := chunk_of s (w_frame w l)). destruct (find_chunk (h_chunks g) r) as [c|] eqn:F.
    + destruct (set_on_found (Datatypes.S fuel) w g l t v S) as (g' & res & E & H); [fold r; congruence|exact Al|].
      rewrite E. eauto.
    + destruct (region_eqb r r) eqn:R.
      * assert (PA : w_presence w r = Absent) by (pose proof (sh_chunks _ _ S r) as C; rewrite F in C; exact C).
        remember (Datatypes.S fuel) as f1 eqn:Ef. cbn [HSetLocation4d]. rewrite (sh_frame _ _ S).
        destruct (on_access (h_user g) (w_frame w l)) as [u a] eqn:EA. simpl in Al. subst a.
        pose proof (shows_user w g u S) as S1. rewrite <- (sh_frame _ _ S1). rewrite (region_ok w (h_with_user g u) l S1). fold r.
        change (h_chunks (h_with_user g u)) with (h_chunks g). rewrite F.
        destruct (alloc_shows w (h_with_user g u) r t S1 F R) as (g2 & -> & U & N & S2).
        subst f1.
        destruct (set_on_found fuel _ g2 l t v S2) as (g' & res & E & H).
        -- exact N.
        -- rewrite U. simpl. specialize (St (h_user g) (w_frame w l)). rewrite EA in St. exact St.
        -- rewrite E. eexists _, _. split; [reflexivity|]. left. eapply learn_after_alloc; eauto.
      * pose proof (set_nan (Datatypes.S (Datatypes.S fuel)) w g l t v S St R Al) as H.
        destruct (HSetLocation4d _ _ _ _ _ _ _) as [g' res]. simpl in H. subst. eauto 6.
  - cbn [HSetLocation4d]. rewrite (sh_frame _ _ S). destruct (on_access (h_user g) (w_frame w l)) as [u a]. simpl in *. subst a. eauto.
Qed.

Lemma assign_outcome w g l v g' rep : shows w g ->
  settle g (HAssignLocation4d iso_apply on_access g l v) HFound = (g', rep) ->
  shows (hlearn iso_inverse iso_apply s w (HAssign l v, rep)) g'.
Proof.
  intros S. unfold HAssignLocation4d. rewrite (region_ok w g l S).
  set (r := chunk_of s (w_frame w l)). pose proof (sh_chunks _ _ S r) as C.
  destruct (find_chunk (h_chunks g) r) as [c|] eqn:F.
  2:{ intros H. injection H as <- <-. exact S. }
  rewrite (sh_frame _ _ S). destruct (on_access (h_user g) (w_frame w l)) as [u a] eqn:EA.
  pose proof (shows_user w g u S) as S1. destruct a.
  2:{ intros H. injection H as <- <-. exact S1. }
  assert (find_chunk (h_chunks (h_with_user g u)) r <> None) as FN by (simpl; congruence).
  change (h_chunks (h_with_user g u)) with (h_chunks g) in *.
  assert (C' := C). unfold chunk_find_location.
  destruct C' as (A & B & [(FL & P & _)|(FL & P & _)]); rewrite FL; rewrite P in C.
  - destruct (chunk_get_whole _ _ _ C) as [-> _]. cbn [bind].
    destruct (chunk_assign_whole _ _ _ v C) as (c' & -> & C2). intros H. injection H as <- <-.
    exact (shows_put _ _ r _ _ _ S1 FN C2).
  - rewrite B. rewrite (data_index_region (c_region c) r) by exact A.
    destruct (GetLocationDataIndex r s (w_frame w l)) as [i|e| |] eqn:E; cbn [bind];
      try (intros H; injection H as <- <-; first [exact S1|exact S]).
    destruct (data_index_range _ _ _ _ G E) as [->|Hi].
    + intros H. injection H as <- <-. exact S1.
    + destruct (Z.leb_spec 0 i); [|lia]. rewrite (chunk_get_cell _ _ _ _ C Hi). cbn [bind].
      destruct (chunk_assign_cell _ _ _ _ v C Hi) as (c' & -> & C2). intros H'. injection H' as <- <-.
      simpl. unfold knows_cell, cell_of. fold r. rewrite E. destruct (Z.leb_spec 0 i); [|lia].
      apply (shows_put _ _ r _ _ _ S1 FN). eapply shows_ext; [|exact C2]. intros j. simpl. unfold current. now rewrite P.
Qed.

Lemma step_shows w g c g' rep : shows w g -> steady on_access ->
  hperform iso_inverse iso_apply on_access g c = (g', rep) ->
  shows (hlearn iso_inverse iso_apply s w (c, rep)) g'.
Proof.
  intros S St. destruct c as [l t v|l v|v|o].
  - unfold hperform. change depth with (Datatypes.S (Datatypes.S 998)).
    destruct (set_outcome 998 w g l t v S St) as (g1 & res & -> & H). unfold settle. cbn [fst snd].
    destruct (snd (on_access (h_user g) (w_frame w l))).
    + destruct H as [H|[_ ->]]; [|intros E; injection E as <- <-; destruct t; exact S].
      destruct t; cbn [set_result] in H.
      * destruct H as [-> H]. intros E. injection E as <- <-. exact H.
      * destruct (GetLocationDataIndex _ s (w_frame w l)) as [i|e| |].
        -- destruct (0 <=? i); [destruct H as [-> H]|destruct H as [[e ->] H]]; intros E; injection E as <- <-; exact H.
        -- destruct H as [-> | ->]; intros E; injection E as <- <-; assumption.
        -- destruct H as [-> | ->]; intros E; injection E as <- <-; assumption.
        -- destruct H as [-> | ->]; intros E; injection E as <- <-; assumption.
    + destruct H as [-> ->]. intros E. injection E as <- <-. apply shows_user. destruct t; exact S.
  - intros E. eapply assign_outcome; eauto.
  - intros E. injection E as <- <-. destruct S as [A B C D X]. constructor; simpl; auto.
  - intros E. injection E as <- <-. destruct S as [A B C D X]. constructor; simpl; auto.
Qed.

Lemma all_shows cs : forall w g g' h, shows w g -> steady on_access ->
  hperform_all iso_inverse iso_apply on_access g cs = (g', h) ->
  shows (hlearn_all iso_inverse iso_apply s w h) g'.
Proof.
  induction cs as [|c cs IH]; intros w g g' h S St E; cbn [hperform_all] in E.
  - injection E as <- <-. exact S.
  - destruct (hperform iso_inverse iso_apply on_access g c) as [g1 rep] eqn:E1.
    destruct (hperform_all iso_inverse iso_apply on_access g1 cs) as [g2 h2] eqn:E2. injection E as <- <-.
    unfold hlearn_all. simpl. apply (IH _ _ _ _ (step_shows _ _ _ _ _ S St E1) St E2).
Qed.

Lemma new_shows u o def g : new_hgrid iso_inverse u o s def = Ok g -> shows (first_hview iso_inverse iso_apply o def) g.
Proof.
  unfold new_hgrid. rewrite (g_valid _ G). intros E. injection E as <-. constructor; simpl; auto.
Qed.
End H.
