(** Concrete hashed grids used by the examples and refutations. *)
From Coq Require Import Reals Lra.
From Flocq Require Import Core BinarySingleNaN.
From Verif Require Import Base ParallelismModel Double DoubleFacts
  VoxelModel VoxelSpec VoxelProof VoxelFloat VoxelSerial VoxelSamples HashedModel HashedSpec HashedProof HashedFloat.
Local Open Scope Z_scope.

(** DynamicSpatialHashedVoxelGrid's callback. *)
Definition always (u : unit) (_ : vec4) : unit * bool := (u, true).
(** A derived class that allows one access and then refuses. *)
Definition once (u : bool) (_ : vec4) : bool * bool := (false, u).
Definition no_one (u : unit) (_ : vec4) : unit * bool := (u, false).

Definition hnew {User} (u : User) : outcome (@hgrid Z User unit) := new_hgrid (fun o => o) u tt sample_sizes 7.
Definition hsample {User} (u : User) : @hgrid Z User unit := mkHGrid tt tt 7 sample_sizes [] true u.
Lemma hnew_ok {User} (u : User) : hnew u = Ok (hsample u).
Proof. unfold hnew, new_hgrid. now rewrite (g_valid _ (made_good _ sample_made)). Qed.
Lemma hreachable {User} on (u : User) : reachable_hgrid (fun o => o) same_point sample_sizes on (hsample u).
Proof. exists u, tt, 7, [], (hsample u), []. split; [apply hnew_ok|reflexivity]. Qed.

(** Just below zero: -2^-100. *)
Definition tiny_negative : double := Bopp (ddiv d1 (dpow2 100)).
Definition tiny_location : vec4 := (tiny_negative, d0, d0, d1).

Lemma tiny_rejected :
  match hperform (fun o => o) same_point always (hsample tt) (HSet tiny_location SET_CELL 5) with
  | (_, HRaised RuntimeError) => True | _ => False end.
Proof. vm_compute. exact I. Qed.

Lemma once_allocates :
  match hperform (fun o => o) same_point once (hsample true) (HSet (d0, d0, d0, d1) SET_CELL 5) with
  | (g, HStatus SET_PROHIBITED) =>
      length (h_chunks g) = 1%nat /\
      HGetLocationImmutable4d same_point g (d0, d0, d0, d1) = Ok (FOUND_IN_CELL, Some 7)
  | _ => False end.
Proof. vm_compute. split; reflexivity. Qed.
Lemma once_before : HGetLocationImmutable4d same_point (hsample true) (d0, d0, d0, d1) = Ok (NOT_FOUND, None).
Proof. vm_compute. reflexivity. Qed.

Lemma set_sizes_extent cx cy cz nx ny nz s : set_sizes cx cy cz nx ny nz = Ok s ->
  x_size s = dmul (d_of_Z nx) cx /\ y_size s = dmul (d_of_Z ny) cy /\ z_size s = dmul (d_of_Z nz) cz.
Proof. unfold set_sizes. intros E. apply bind_ok in E. destruct E as (s1 & _ & E). injection E as <-. auto. Qed.

Definition sample_location : vec4 := (Bopp dhalf, dhalf, dhalf, d1).
Lemma sample_inside : inside_location sample_sizes sample_location (-1, 0, 0) (1, 0, 0).
Proof.
  unfold inside_location, sample_location. destruct sample_cell_sizes as (-> & -> & ->).
  destruct sample_nums as (-> & -> & ->).
  assert (Es : x_size sample_sizes = dmul (d_of_Z 2) d1 /\ y_size sample_sizes = dmul (d_of_Z 3) d1 /\
               z_size sample_sizes = dmul (d_of_Z 4) d1).
  { destruct sample_sizes_ok as [E _]. unfold GridSizesByCells in E. apply bind_ok in E. destruct E as (r & E & H).
    unfold InitializeByCells in E. destruct (_ && _); [|injection E as <-; discriminate].
    apply bind_ok in E. destruct E as (s & E & H'). injection H' as <-. injection H as ->.
    exact (set_sizes_extent _ _ _ _ _ _ _ E). }
  destruct Es as (-> & -> & ->). destruct d1_val as [E1 F1]. destruct dhalf_val as [Eh Fh].
  assert (E2 : B2R (dmul (d_of_Z 2) d1) = 2%R) by (vm_compute; lra).
  unfold inside_cell. rewrite E1. assert (EO : B2R (Bopp dhalf) = (- / 2)%R) by (rewrite B2R_Bopp, Eh; reflexivity).
  assert (P : (bpow radix2 (-500) <= 1 <= bpow radix2 500)%R).
  { change 1%R with (bpow radix2 0). split; apply bpow_le; discriminate. }
  rewrite E2, EO, Eh, F1, Fh. rewrite is_finite_Bopp, Fh.
  repeat match goal with |- _ /\ _ => split end; try reflexivity; try lia; try (apply P); simpl; lra.
Qed.

Definition hsample_calls : list (@hcall Z unit) :=
  [HSet (d0, d0, d0, d1) SET_CHUNK 1; HSet (d1, d1, d1, d1) SET_CELL 2; HAssign (d1, d0, d0, d1) 3;
   HSet sample_location SET_CELL 4; HSetDefault 9; HSet (dpow2 10, d0, d0, d1) SET_CELL 5;
   HSet tiny_location SET_CELL 6].
Lemma hsample_history :
  map snd (snd (hperform_all (fun o => o) same_point always (hsample tt) hsample_calls)) =
    [HStatus DID_SET_CHUNK; HStatus DID_SET_CELL; HFound FOUND_IN_CELL; HStatus DID_SET_CELL; HReturned;
     HStatus DID_SET_CELL; HRaised RuntimeError].
Proof. vm_compute. reflexivity. Qed.
Lemma hsample_reads :
  let g := fst (hperform_all (fun o => o) same_point always (hsample tt) hsample_calls) in
  map (HGetLocationImmutable4d same_point g)
    [(d0, d0, d0, d1); (d1, d1, d1, d1); (d1, d0, d0, d1); (dpow2 10, d1, d0, d1); sample_location; (dpow2 11, d0, d0, d1)] =
    [Ok (FOUND_IN_CELL, Some 1); Ok (FOUND_IN_CELL, Some 2); Ok (FOUND_IN_CELL, Some 3); Ok (FOUND_IN_CELL, Some 9);
     Ok (FOUND_IN_CELL, Some 4); Ok (NOT_FOUND, None)].
Proof. vm_compute. reflexivity. Qed.

Lemma always_steady : steady always. Proof. intros u l. reflexivity. Qed.
Lemma no_one_steady : steady no_one. Proof. intros u l. reflexivity. Qed.

(** Refused writes. *)
Lemma refused_set {T User Iso} iso_inverse iso_apply (on_access : User -> vec4 -> User * bool) (g : @hgrid T User Iso) l t v :
  snd (on_access (h_user g) (iso_apply (h_inverse g) l)) = false ->
  snd (hperform iso_inverse iso_apply on_access g (HSet l t v)) = HStatus SET_PROHIBITED /\
  same_hcontents g (fst (hperform iso_inverse iso_apply on_access g (HSet l t v))).
Proof.
  intros H. unfold hperform. change depth with (S 999). cbn [HSetLocation4d].
  destruct (on_access (h_user g) (iso_apply (h_inverse g) l)) as [u a]. simpl in H. subst a.
  split; [reflexivity|]. repeat split.
Qed.
Lemma refused_assign {T User Iso} iso_inverse iso_apply (on_access : User -> vec4 -> User * bool) (g : @hgrid T User Iso) l v :
  snd (on_access (h_user g) (iso_apply (h_inverse g) l)) = false ->
  same_hcontents g (fst (hperform iso_inverse iso_apply on_access g (HAssign l v))) /\
  (snd (hperform iso_inverse iso_apply on_access g (HAssign l v)) = HFound FIND_PROHIBITED \/
   snd (hperform iso_inverse iso_apply on_access g (HAssign l v)) = HFound NOT_FOUND \/
   exists e, snd (hperform iso_inverse iso_apply on_access g (HAssign l v)) = HRaised e).
Proof.
  intros H. unfold hperform, HAssignLocation4d, GetContainingChunkRegion.
  destruct (iso_apply (h_inverse g) l) as [[[x y] z] w]. destruct (sizes_valid (h_sizes g)).
  - destruct (find_chunk _ _); [|simpl; repeat split; auto].
    destruct (on_access (h_user g) (x, y, z, w)) as [u a]. simpl in H. subst a. simpl. repeat split; auto.
  - simpl. repeat split; eauto.
Qed.
(** A write that reports refusal changed nothing, if the callback is steady. *)
Lemma prohibited_unchanged {T User Iso} iso_inverse iso_apply (on_access : User -> vec4 -> User * bool) s (g : @hgrid T User Iso) l t v :
  made_sizes s -> steady on_access -> reachable_hgrid iso_inverse iso_apply s on_access g ->
  snd (hperform iso_inverse iso_apply on_access g (HSet l t v)) = HStatus SET_PROHIBITED ->
  same_hcontents g (fst (hperform iso_inverse iso_apply on_access g (HSet l t v))).
Proof.
  intros M St R. destruct (reach_shows iso_inverse iso_apply on_access s g M St R) as (w & S). apply made_good in M.
  unfold hperform. change depth with (Datatypes.S (Datatypes.S 998)).
  destruct (set_outcome iso_inverse iso_apply on_access s M 998 w g l t v S St) as (g1 & res & -> & H).
  unfold settle. cbn [fst snd]. destruct (snd (on_access (h_user g) (w_frame w l))).
  - destruct H as [H|[_ ->]]; [|discriminate]. destruct t; cbn [set_result] in H.
    + destruct H as [-> _]. discriminate.
    + destruct (GetLocationDataIndex _ s _) as [i|e| |].
      * destruct (0 <=? i); [destruct H as [-> _]|destruct H as [[e ->] _]]; discriminate.
      * destruct H as [-> | ->]; discriminate.
      * destruct H as [-> | ->]; discriminate.
      * destruct H as [-> | ->]; discriminate.
  - destruct H as [-> ->]. intros _. repeat split.
Qed.
