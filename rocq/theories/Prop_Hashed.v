(** Properties C31, C32, C77 (dynamic_spatial_hashed_voxel_grid.hpp). *)
From Coq Require Import Reals.
From Flocq Require Import Core BinarySingleNaN.
From Verif Require Import Base ParallelismModel Double VoxelModel VoxelSpec VoxelSamples
  HashedModel HashedSpec HashedProof HashedFloat HashedSamples.
Local Open Scope Z_scope.

(** C31: after any history of writes, assignments through references, changes of
    the default value and of the origin, reads give what hlearn_all (HashedSpec.v)
    says: nothing for absent chunks, the chunk's value, or the cell's value. *)
Theorem C31_history :
  forall (T User Iso : Type) (iso_inverse : Iso -> Iso) (iso_apply : Iso -> vec4 -> vec4)
    (on_access : User -> vec4 -> User * bool) (s : GridSizes) u o (def : T) cs g0 g h,
  made_sizes s -> steady on_access ->
  new_hgrid iso_inverse u o s def = Ok g0 -> hperform_all iso_inverse iso_apply on_access g0 cs = (g, h) ->
  let w := hlearn_all iso_inverse iso_apply s (first_hview iso_inverse iso_apply o def) h in
  forall l, let r := chunk_of s (w_frame w l) in
  HGetLocationImmutable4d iso_apply g l =
  match w_presence w r with
  | Absent => Ok (NOT_FOUND, None)
  | Whole => Ok (FOUND_IN_CHUNK, Some (w_value w r 0))
  | PerCell => do i <- GetLocationDataIndex r s (w_frame w l);
               if 0 <=? i then Ok (FOUND_IN_CELL, Some (w_value w r i)) else Throw RuntimeError
  end.
Proof. exact (@history_reads). Qed.
Print Assumptions C31_history.

(** C31: in binary64 arithmetic, for locations at least 1/1024 of a cell away from
    cell boundaries and at most 2^20 chunks away from the origin, "same chunk" and
    "same cell" are what geometry says. *)
Theorem C31_ordinary_locations :
  forall s l l' k k' j j', made_sizes s -> inside_location s l k j -> inside_location s l' k' j' ->
  (region_eqb (chunk_of s l) (chunk_of s l') = true <-> k = k') /\
  cell_of s l = Some (position (dims_of s) j) /\
  (cell_of s l = cell_of s l' <-> j = j').
Proof. exact ordinary_locations. Qed.
Print Assumptions C31_ordinary_locations.

(** A history with whole-chunk writes, cell writes, an assignment, a change of
    default, and what can then be read. *)
Example C31_nonvacuous :
  hnew tt = Ok (hsample tt) /\ made_sizes sample_sizes /\ steady always /\
  map snd (snd (hperform_all (fun o => o) same_point always (hsample tt) hsample_calls)) =
    [HStatus DID_SET_CHUNK; HStatus DID_SET_CELL; HFound FOUND_IN_CELL; HStatus DID_SET_CELL; HReturned;
     HStatus DID_SET_CELL; HRaised RuntimeError] /\
  inside_location sample_sizes sample_location (-1, 0, 0) (1, 0, 0).
Proof.
  split; [apply hnew_ok|]. split; [exact sample_made|]. split; [exact always_steady|].
  split; [exact hsample_history|exact sample_inside].
Qed.

(** C32 is false: setting a cell just below zero raises. *)
Theorem C32_every_finite_location_refuted :
  ~ (forall s (g : @hgrid Z unit unit) x y z v,
     made_sizes s -> reachable_hgrid (fun o => o) same_point s always g ->
     is_finite x = true -> is_finite y = true -> is_finite z = true ->
     snd (hperform (fun o => o) same_point always g (HSet (x, y, z, d1) SET_CELL v)) = HStatus DID_SET_CELL).
Proof.
  intros H. specialize (H sample_sizes (hsample tt) tiny_negative d0 d0 5 sample_made (hreachable always tt)
    ltac:(vm_compute; reflexivity) eq_refl eq_refl).
  pose proof tiny_rejected as R. unfold tiny_location in R.
  destruct (hperform _ _ _ _ _) as [g rep]. simpl in H. rewrite H in R. exact R.
Qed.
Print Assumptions C32_every_finite_location_refuted.

(** C32 for locations well inside a cell: the write succeeds and is read back. *)
Theorem C32_ordinary_location_partial :
  forall (T User Iso : Type) (iso_inverse : Iso -> Iso) (iso_apply : Iso -> vec4 -> vec4)
    (on_access : User -> vec4 -> User * bool) s (g : @hgrid T User Iso) l v k j,
  made_sizes s -> steady on_access -> reachable_hgrid iso_inverse iso_apply s on_access g ->
  inside_location s (iso_apply (iso_inverse (h_origin g)) l) k j ->
  snd (on_access (h_user g) (iso_apply (iso_inverse (h_origin g)) l)) = true ->
  snd (hperform iso_inverse iso_apply on_access g (HSet l SET_CELL v)) = HStatus DID_SET_CELL /\
  HGetLocationImmutable4d iso_apply (fst (hperform iso_inverse iso_apply on_access g (HSet l SET_CELL v))) l
    = Ok (FOUND_IN_CELL, Some v).
Proof. exact (@ordinary_set). Qed.
Print Assumptions C32_ordinary_location_partial.
Example C32_nonvacuous :
  reachable_hgrid (fun o => o) same_point sample_sizes always (hsample tt) /\ steady always /\ made_sizes sample_sizes /\
  inside_location sample_sizes (same_point tt sample_location) (-1, 0, 0) (1, 0, 0).
Proof. split; [apply hreachable|]. split; [exact always_steady|]. split; [exact sample_made|exact sample_inside]. Qed.

(** C77 is false for a callback that allows the first access and refuses the
    second: a chunk has been allocated and reads change. *)
Theorem C77_refused_write_refuted :
  exists (g : @hgrid Z bool unit) l v,
  reachable_hgrid (fun o => o) same_point sample_sizes once g /\
  snd (hperform (fun o => o) same_point once g (HSet l SET_CELL v)) = HStatus SET_PROHIBITED /\
  HGetLocationImmutable4d same_point g l = Ok (NOT_FOUND, None) /\
  HGetLocationImmutable4d same_point (fst (hperform (fun o => o) same_point once g (HSet l SET_CELL v))) l
    = Ok (FOUND_IN_CELL, Some 7).
Proof.
  exists (hsample true), (d0, d0, d0, d1), 5. split; [apply hreachable|].
  pose proof once_allocates as H. pose proof once_before as B.
  destruct (hperform _ _ _ _ _) as [g rep]. destruct rep as [[| |] | | | |]; try contradiction. destruct H as [_ H].
  split; [reflexivity|]. split; [exact B|exact H].
Qed.
Print Assumptions C77_refused_write_refuted.

(** C77 when the callback refuses the first time it is asked ... *)
Theorem C77_refused_at_once_partial :
  forall (T User Iso : Type) (iso_inverse : Iso -> Iso) (iso_apply : Iso -> vec4 -> vec4)
    (on_access : User -> vec4 -> User * bool) (g : @hgrid T User Iso) l t v,
  snd (on_access (h_user g) (iso_apply (h_inverse g) l)) = false ->
  snd (hperform iso_inverse iso_apply on_access g (HSet l t v)) = HStatus SET_PROHIBITED /\
  same_hcontents g (fst (hperform iso_inverse iso_apply on_access g (HSet l t v))).
Proof. exact (@refused_set). Qed.
Print Assumptions C77_refused_at_once_partial.

(** ... for access by reference ... *)
Theorem C77_refused_reference_partial :
  forall (T User Iso : Type) (iso_inverse : Iso -> Iso) (iso_apply : Iso -> vec4 -> vec4)
    (on_access : User -> vec4 -> User * bool) (g : @hgrid T User Iso) l v,
  snd (on_access (h_user g) (iso_apply (h_inverse g) l)) = false ->
  same_hcontents g (fst (hperform iso_inverse iso_apply on_access g (HAssign l v))) /\
  (snd (hperform iso_inverse iso_apply on_access g (HAssign l v)) = HFound FIND_PROHIBITED \/
   snd (hperform iso_inverse iso_apply on_access g (HAssign l v)) = HFound NOT_FOUND \/
   exists e, snd (hperform iso_inverse iso_apply on_access g (HAssign l v)) = HRaised e).
Proof. exact (@refused_assign). Qed.
Print Assumptions C77_refused_reference_partial.

(** ... and whenever asking twice about one location gives one answer. *)
Theorem C77_steady_callback_partial :
  forall (T User Iso : Type) (iso_inverse : Iso -> Iso) (iso_apply : Iso -> vec4 -> vec4)
    (on_access : User -> vec4 -> User * bool) s (g : @hgrid T User Iso) l t v,
  made_sizes s -> steady on_access -> reachable_hgrid iso_inverse iso_apply s on_access g ->
  snd (hperform iso_inverse iso_apply on_access g (HSet l t v)) = HStatus SET_PROHIBITED ->
  same_hcontents g (fst (hperform iso_inverse iso_apply on_access g (HSet l t v))).
Proof. exact (@prohibited_unchanged). Qed.
Print Assumptions C77_steady_callback_partial.
Example C77_nonvacuous :
  steady no_one /\ reachable_hgrid (fun o => o) same_point sample_sizes no_one (hsample tt) /\
  snd (hperform (fun o => o) same_point no_one (hsample tt) (HSet sample_location SET_CELL 5)) = HStatus SET_PROHIBITED.
Proof. split; [exact no_one_steady|]. split; [apply hreachable|vm_compute; reflexivity]. Qed.
