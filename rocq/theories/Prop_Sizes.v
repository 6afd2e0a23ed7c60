(** C183: comparing grid sizes. *)
From Coq Require Import ZArith Reals Lra Lia Bool.
From Flocq Require Import Core BinarySingleNaN.
From Verif Require Import Base ParallelismModel Double DoubleFacts SerializationModel VoxelModel VoxelSpec VoxelProof VoxelFloat VoxelSamples
  CoverSpec CoverProof Prop_Cover SizesModel.
Local Open Scope R_scope.

(** The sizes a program can have: from any constructor, or read from any bytes. *)
Inductive obtainable : GridSizes -> Prop :=
| from_nothing : obtainable default_sizes
| from_lengths cx cy cz xs ys zs s : GridSizesBySize cx cy cz xs ys zs = Ok s -> obtainable s
| from_numbers cx cy cz nx ny nz s : GridSizesByCells cx cy cz nx ny nz = Ok s -> obtainable s
| from_lengths_cubic c xs ys zs s : CubicSizesBySize c xs ys zs = Ok s -> obtainable s
| from_numbers_cubic c nx ny nz s : CubicSizesByCells c nx ny nz = Ok s -> obtainable s
| from_bytes le dbl buf off s n : DeserializeGridSizes le dbl buf off = Ok (s, n) -> obtainable s.

Lemma obtained s : obtainable s -> s = default_sizes \/
  exists cx cy cz nx ny nz, positive_length cx /\ positive_length cy /\ positive_length cz /\ set_sizes cx cy cz nx ny nz = Ok s.
Proof.
  assert (BS : forall cx cy cz xs ys zs s, GridSizesBySize cx cy cz xs ys zs = Ok s -> exists nx ny nz,
    positive_length cx /\ positive_length cy /\ positive_length cz /\ set_sizes cx cy cz nx ny nz = Ok s).
  { intros * H. pose proof H as H0. apply by_size_inv in H0. destruct H0 as ((A1 & A2 & A3 & _) & _).
    unfold GridSizesBySize, InitializeBySize in H. destruct (_ && _)%bool; [|discriminate].
    apply bind_ok in H. destruct H as (o & H & E). apply bind_ok in H. destruct H as (nx & _ & H). apply bind_ok in H. destruct H as (ny & _ & H).
    apply bind_ok in H. destruct H as (nz & _ & H). apply bind_ok in H. destruct H as (s' & H & E'). injection E' as <-. injection E as <-.
    exists nx, ny, nz. auto. }
  assert (IC : forall cx cy cz nx ny nz s, InitializeByCells cx cy cz nx ny nz = Ok (Some s) ->
    positive_length cx /\ positive_length cy /\ positive_length cz /\ set_sizes cx cy cz nx ny nz = Ok s).
  { intros cx cy cz nx ny nz s1 H. assert (H0 : GridSizesByCells cx cy cz nx ny nz = Ok s1) by (unfold GridSizesByCells; rewrite H; reflexivity).
    apply by_cells_inv in H0. destruct H0 as (A1 & A2 & A3 & _). unfold InitializeByCells in H. destruct (_ && _)%bool; [|discriminate].
    apply bind_ok in H. destruct H as (s' & H & E'). injection E' as <-. auto. }
  assert (BC : forall cx cy cz nx ny nz s, GridSizesByCells cx cy cz nx ny nz = Ok s ->
    positive_length cx /\ positive_length cy /\ positive_length cz /\ set_sizes cx cy cz nx ny nz = Ok s).
  { intros * H. unfold GridSizesByCells in H. apply bind_ok in H. destruct H as ([s'|] & H & E); [|discriminate]. injection E as <-. apply IC, H. }
  intros [|cx cy cz xs ys zs s' H|cx cy cz nx ny nz s' H|c xs ys zs s' H|c nx ny nz s' H|le dbl buf off s' n H].
  - left. reflexivity.
  - right. apply BS in H. destruct H as (nx & ny & nz & H). exists cx, cy, cz, nx, ny, nz. exact H.
  - right. exists cx, cy, cz, nx, ny, nz. apply BC, H.
  - right. apply BS in H. destruct H as (nx & ny & nz & H). exists c, c, c, nx, ny, nz. exact H.
  - right. exists c, c, c, nx, ny, nz. apply BC, H.
  - unfold DeserializeGridSizes in H.
    do 6 (apply bind_ok in H; destruct H as (? & _ & H)). apply bind_ok in H. destruct H as (r & I & H).
    unfold MakeDeserialized in H. destruct (_ =? 0)%N; [discriminate|]. injection H as E _. destruct r as [s''|]; [right|left; congruence]. subst s''.
    eexists _, _, _, _, _, _. apply IC, I.
Qed.
Lemma positive_equal x y : positive_length x -> positive_length y -> Beqb x y = true -> x = y.
Proof.
  intros [Fx Px] [Fy Py] E. rewrite Beqb_correct in E by assumption.
  destruct (Req_bool_spec (B2R x) (B2R y)) as [V|]; [|discriminate].
  destruct x as [sx|sx| |sx mx ex Hx]; try discriminate Fx; [exfalso; change (0 < 0) in Px; lra|].
  destruct y as [sy|sy| |sy my ey Hy]; try discriminate Fy; [exfalso; change (0 < 0) in Py; lra|].
  apply B2R_inj; [reflexivity|reflexivity|exact V].
Qed.
Lemma positive_not_zero x : positive_length x -> Beqb d0 x = false /\ Beqb x d0 = false.
Proof.
  intros [F P]. rewrite !Beqb_correct by (assumption || reflexivity). change (B2R d0) with 0.
  destruct (Req_bool_spec 0 (B2R x)), (Req_bool_spec (B2R x) 0); try lra; auto.
Qed.
Lemma Beqb_same x : positive_length x -> Beqb x x = true.
Proof. intros [F P]. rewrite Beqb_correct by assumption. apply Req_bool_true. reflexivity. Qed.

(** Sizes that compare equal are the same in every respect: everything a user can ask of them agrees. *)
Theorem C183_equal : forall s s', obtainable s -> obtainable s' -> (SizesEqual s s' = true <-> s = s').
Proof.
  intros s s' O O'. apply obtained in O, O'. unfold SizesEqual.
  destruct O as [->|(cx & cy & cz & nx & ny & nz & X & Y & Z & H)], O' as [->|(cx' & cy' & cz' & nx' & ny' & nz' & X' & Y' & Z' & H')].
  - split; reflexivity.
  - pose proof H' as F. apply set_filled in F. destruct F as (E1 & _). split; [|intros <-; rewrite <- E1 in X'; destruct X' as [_ X']; simpl in X'; lra].
    rewrite E1. cbn [cell_x_size default_sizes]. destruct (positive_not_zero cx' X') as [-> _]. rewrite !andb_false_r. simpl. discriminate.
  - pose proof H as F. apply set_filled in F. destruct F as (E1 & _). split; [|intros ->; rewrite <- E1 in X; destruct X as [_ X]; simpl in X; lra].
    rewrite E1. cbn [cell_x_size default_sizes]. destruct (positive_not_zero cx X) as [_ ->]. rewrite !andb_false_r. simpl. discriminate.
  - pose proof (set_filled _ _ _ _ _ _ _ H) as (E1 & E2 & E3 & E4 & E5 & E6 & _).
    pose proof (set_filled _ _ _ _ _ _ _ H') as (D1 & D2 & D3 & D4 & D5 & D6 & _).
    rewrite E1, E2, E3, E4, E5, E6, D1, D2, D3, D4, D5, D6. rewrite !andb_true_iff, !Z.eqb_eq. split.
    + intros (((((Q1 & Q2) & Q3) & Q4) & Q5) & Q6). apply positive_equal in Q4, Q5, Q6; auto. congruence.
    + intros E. subst s'. assert (cx' = cx /\ cy' = cy /\ cz' = cz /\ nx' = nx /\ ny' = ny /\ nz' = nz) as (-> & -> & -> & -> & -> & ->) by (repeat split; congruence).
      auto 10 using Beqb_same.
Qed.
Print Assumptions C183_equal.

(** [!=] is the opposite. *)
Theorem C183_differ : forall s s', obtainable s -> obtainable s' -> (SizesDiffer s s' = true <-> s <> s').
Proof.
  intros s s' O O'. unfold SizesDiffer. rewrite negb_true_iff. pose proof (C183_equal s s' O O') as [A B]. split.
  - intros F E. rewrite (B E) in F. discriminate.
  - intros N. destruct (SizesEqual s s'); [exfalso; apply N, A; reflexivity|reflexivity].
Qed.
Print Assumptions C183_differ.

(** Cells are uniform exactly when the three lengths are one and the same, as always with one length given. *)
Theorem C183_uniform : forall s, obtainable s ->
  (UniformCellSize s = true <-> cell_x_size s = cell_y_size s /\ cell_x_size s = cell_z_size s).
Proof.
  intros s O. apply obtained in O. unfold UniformCellSize. rewrite andb_true_iff. destruct O as [->|(cx & cy & cz & nx & ny & nz & X & Y & Z & H)].
  - split; intros _; split; reflexivity.
  - apply set_filled in H. destruct H as (-> & -> & -> & _). split.
    + intros [A B]. apply positive_equal in A, B; auto.
    + intros [<- <-]. auto using Beqb_same.
Qed.
Print Assumptions C183_uniform.
Theorem C183_cubic : forall s c, (exists xs ys zs, CubicSizesBySize c xs ys zs = Ok s) \/ (exists nx ny nz, CubicSizesByCells c nx ny nz = Ok s) ->
  UniformCellSize s = true /\ cell_x_size s = c.
Proof.
  intros s c H. assert (F : exists nx ny nz, positive_length c /\ filled s c c c nx ny nz).
  { destruct H as [(xs & ys & zs & H)|(nx & ny & nz & H)].
    - apply by_size_inv in H. destruct H as ((A & _) & nx & ny & nz & _ & _ & _ & F). exists nx, ny, nz. auto.
    - apply by_cells_inv in H. destruct H as (A & _ & _ & _ & _ & _ & F). exists nx, ny, nz. auto. }
  destruct F as (nx & ny & nz & P & (E1 & E2 & E3 & _)). unfold UniformCellSize. rewrite E1, E2, E3, (Beqb_same c P). auto.
Qed.
Print Assumptions C183_cubic.

(** The constructors that take one cell length give every axis its own length or number of
    cells. *)
Theorem C183_cubic_axes : forall c s,
  (forall xs ys zs, CubicSizesBySize c xs ys zs = Ok s -> sensible c xs -> sensible c ys -> sensible c zs ->
    (nearly_covers (num_x_cells s) c xs /\ none_spare (num_x_cells s) c xs) /\
    (nearly_covers (num_y_cells s) c ys /\ none_spare (num_y_cells s) c ys) /\
    (nearly_covers (num_z_cells s) c zs /\ none_spare (num_z_cells s) c zs)) /\
  (forall nx ny nz, CubicSizesByCells c nx ny nz = Ok s -> num_x_cells s = nx /\ num_y_cells s = ny /\ num_z_cells s = nz).
Proof.
  intros c s. split.
  - intros xs ys zs H Sx Sy Sz. apply C174_covers_partial in H; auto. tauto.
  - intros nx ny nz H. apply C174_by_cells in H. destruct H as (_ & _ & _ & _ & _ & _ & D & _). unfold dims_of in D. injection D as <- <- <-. auto.
Qed.
Print Assumptions C183_cubic_axes.

(** Sizes with other cells of the same total length differ; the comparison is not of the total lengths. *)
Example C183_nonvacuous : obtainable sample_sizes /\ obtainable default_sizes /\ SizesEqual sample_sizes sample_sizes = true /\
  UniformCellSize sample_sizes = true /\ SizesDiffer sample_sizes default_sizes = true /\
  exists s, CubicSizesByCells dhalf 4 6 8 = Ok s /\ obtainable s /\ SizesEqual sample_sizes s = false.
Proof.
  destruct sample_sizes_ok as [E _]. assert (O : obtainable sample_sizes) by (eapply from_numbers; exact E).
  split; [exact O|]. split; [constructor|]. split; [vm_compute; reflexivity|]. split; [vm_compute; reflexivity|]. split; [vm_compute; reflexivity|].
  assert (Q : match CubicSizesByCells dhalf 4 6 8 with Ok s => SizesEqual sample_sizes s = false | _ => False end) by (vm_compute; reflexivity).
  destruct (CubicSizesByCells dhalf 4 6 8) as [s| | |] eqn:H; try contradiction. exists s. split; [reflexivity|]. split; [eapply from_numbers_cubic; exact H|exact Q].
Qed.
