(** Properties C141-C143 (zlib helpers), for every zlib that keeps the promises of its manual
    (is_zlib, ZlibSpec.v).  Model in ZlibModel.v. *)
From Coq Require Import Init.Byte.
From Verif Require Import Base ZlibModel ZlibSpec ZlibProof ZlibExample.

(** C141: what CompressBytes makes of any bytes (fewer than 2^32 of them), DecompressBytes
    turns back into them, whatever was on the stack, provided the compressed form also has
    fewer than 2^32 bytes. *)
Theorem C141_round_trip_partial : forall z stream fuel fuel' garbage garbage' u, is_zlib z stream -> deflateInit z <> None -> inflateInit z <> None ->
  length garbage = BUFSIZE -> length garbage' = BUFSIZE -> fits_uint32 u = true -> enough fuel (length u) ->
  exists s, CompressBytes z fuel garbage u = Ok s /\ stream s u /\
    (fits_uint32 s = true -> enough fuel' (length s) -> DecompressBytes z fuel' garbage' s = Ok u).
Proof.
  intros z stream fuel fuel' g g' u (D & F & I & C) HD HI LG LG' FU EN.
  destruct (compress_run z stream D F I C fuel g u HD LG FU EN) as (s & R & S). exists s. split; [exact R|]. split; [exact S|]. intros FS EN'.
  rewrite <- (app_nil_r s) in FS, EN' |- *. exact (decompress_ok z stream D F I C fuel' g' s u [] HI LG' FS EN' S).
Qed.
Print Assumptions C141_round_trip_partial.

(** Without that condition it fails, for every zlib: some bytes that CompressBytes accepts
    come out too long for DecompressBytes.  (No coding makes all inputs shorter.) *)
Theorem C141_round_trip_refuted : forall z stream fuel' garbage, is_zlib z stream -> deflateInit z <> None -> length garbage = BUFSIZE ->
  exists u s fuel, fits_uint32 u = true /\ CompressBytes z fuel garbage u = Ok s /\ DecompressBytes z fuel' garbage s = Throw InvalidArgument.
Proof.
  intros z stream fuel' g (D & F & I & C) HD LG.
  set (fuel := fun u : list byte => (1033 * length u + 71)%nat).
  assert (EN : forall u, enough (fuel u) (length u)) by (intros u; unfold enough, fuel; lia).
  set (f := fun u => match CompressBytes z (fuel u) g u with Ok s => s | _ => [] end).
  assert (FI : forall u, (length u <= N.to_nat 4294967295)%nat -> fits_uint32 u = true) by (intros u H; apply N.leb_le; lia).
  assert (FS : forall u, (length u <= N.to_nat 4294967295)%nat -> CompressBytes z (fuel u) g u = Ok (f u) /\ stream (f u) u).
  { intros u H. destruct (compress_run z stream D F I C (fuel u) g u HD LG (FI u H) (EN u)) as (s & R & S). unfold f. rewrite R. auto. }
  destruct (exists_long f (N.to_nat 4294967295)) as (u & LU & LF); [lia| |].
  { intros a b r r' LA LB E. destruct (FS a LA) as [_ SA], (FS b LB) as [_ SB]. apply (zc_stream _ _ _ _ _ C _ _ _ _ _ _ SA SB E). }
  exists u, (f u), (fuel u). split; [apply FI; exact LU|]. split; [apply FS; exact LU|].
  unfold DecompressBytes. replace (fits_uint32 (f u)) with false; [reflexivity|]. symmetry. apply N.leb_gt. lia.
Qed.
Print Assumptions C141_round_trip_refuted.

(** C142: DecompressBytes ends on all input.  It returns bytes exactly when the input begins
    with a complete stream, and then that stream's data; in all other cases it throws. *)
Theorem C142_exact : forall z stream fuel garbage s d, is_zlib z stream -> inflateInit z <> None -> length garbage = BUFSIZE ->
  fits_uint32 s = true -> enough fuel (length s) ->
  DecompressBytes z fuel garbage s = Ok d <-> exists s' rest, s = s' ++ rest /\ stream s' d.
Proof.
  intros z stream fuel g s d (D & F & I & C) HI LG FS EN. split.
  - intros R. destruct (decompress_run z stream D F I C fuel g s HI LG FS EN) as [(s' & d' & r & -> & S & R')|(R' & _)].
    + rewrite R in R'. injection R' as <-. eauto.
    + rewrite R in R'. discriminate.
  - intros (s' & r & -> & S). exact (decompress_ok z stream D F I C fuel g s' d r HI LG FS EN S).
Qed.
Print Assumptions C142_exact.

Theorem C142_error : forall z stream fuel garbage s, is_zlib z stream -> inflateInit z <> None -> length garbage = BUFSIZE ->
  fits_uint32 s = true -> enough fuel (length s) -> (forall s' rest d, s = s' ++ rest -> ~ stream s' d) ->
  DecompressBytes z fuel garbage s = Throw RuntimeError.
Proof.
  intros z stream fuel g s (D & F & I & C) HI LG FS EN N. apply (decompress_err z stream D F I C fuel g s HI LG FS EN). intros s' d r. apply N.
Qed.
Print Assumptions C142_error.

(** A stream cut short anywhere is refused. *)
Theorem C142_truncated : forall z stream fuel garbage s d k, is_zlib z stream -> inflateInit z <> None -> length garbage = BUFSIZE ->
  stream s d -> k < length s -> fits_uint32 s = true -> enough fuel (length s) ->
  DecompressBytes z fuel garbage (firstn k s) = Throw RuntimeError.
Proof.
  intros z stream fuel g s d k (D & F & I & C) HI LG S K FS EN.
  assert (L : length (firstn k s) = k) by (rewrite firstn_length; lia).
  apply (decompress_err z stream D F I C fuel g _ HI LG).
  - unfold fits_uint32 in *. rewrite L. apply N.leb_le in FS. apply N.leb_le. lia.
  - unfold enough in *. rewrite L. lia.
  - exact (truncated z stream D F I C s d k S K).
Qed.
Print Assumptions C142_truncated.

(** Sizes of 2^32 and more, and failures to start zlib, throw. *)
Theorem C142_refusals : forall z fuel garbage s,
  (fits_uint32 s = false -> DecompressBytes z fuel garbage s = Throw InvalidArgument /\ CompressBytes z fuel garbage s = Throw InvalidArgument) /\
  (fits_uint32 s = true -> (inflateInit z = None -> DecompressBytes z fuel garbage s = Throw RuntimeError) /\
                            (deflateInit z = None -> CompressBytes z fuel garbage s = Throw RuntimeError)).
Proof.
  intros z fuel g s. unfold DecompressBytes, CompressBytes. split; intros ->; [auto|]. split; intros ->; reflexivity.
Qed.
Print Assumptions C142_refusals.

(** C143: a file written without trouble loads back as what was written, other files stay as
    they were. *)
Theorem C143_file_round_trip_partial : forall z stream (name : Type) (eqb : name -> name -> bool) fuel fuel' garbage garbage' (fs : file_system) u f k,
  (forall a b, eqb a b = true <-> a = b) -> is_zlib z stream -> deflateInit z <> None -> inflateInit z <> None ->
  length garbage = BUFSIZE -> length garbage' = BUFSIZE -> fits_uint32 u = true -> enough fuel (length u) ->
  exists s, CompressBytes z fuel garbage u = Ok s /\
    (fits_uint32 s = true -> enough fuel' (length s) -> length s <= k ->
     exists fs', CompressAndWriteToFile z eqb fuel garbage (Writes k) fs u f = Ok fs' /\
       LoadFromFileAndDecompress z fuel' garbage' true fs' f = Ok u /\ forall g, g <> f -> fs' g = fs g).
Proof.
  intros z stream name eqb fuel fuel' g g' fs u f k EQ Z HD HI LG LG' FU EN.
  destruct (C141_round_trip_partial z stream fuel fuel' g g' u Z HD HI LG LG' FU EN) as (s & R & _ & RT). exists s. split; [exact R|]. intros FS EN' LK.
  eexists. split; [unfold CompressAndWriteToFile; rewrite R; reflexivity|]. unfold LoadFromFileAndDecompress, set_file. rewrite (proj2 (EQ f f) eq_refl), firstn_all2 by exact LK.
  split; [apply RT; assumption|]. intros h NE. destruct (eqb f h) eqn:E; [|reflexivity]. apply EQ in E. congruence.
Qed.
Print Assumptions C143_file_round_trip_partial.

(** A file that was only written in part is noticed when it is loaded: it never gives wrong
    data. *)
Theorem C143_partial_file_detected : forall z stream (name : Type) (eqb : name -> name -> bool) fuel fuel' garbage garbage' (fs : file_system) u f k s,
  (forall a b, eqb a b = true <-> a = b) -> is_zlib z stream -> deflateInit z <> None -> inflateInit z <> None ->
  length garbage = BUFSIZE -> length garbage' = BUFSIZE -> fits_uint32 u = true -> enough fuel (length u) ->
  CompressBytes z fuel garbage u = Ok s -> fits_uint32 s = true -> enough fuel' (length s) -> k < length s ->
  exists fs', CompressAndWriteToFile z eqb fuel garbage (Writes k) fs u f = Ok fs' /\
    LoadFromFileAndDecompress z fuel' garbage' true fs' f = Throw RuntimeError.
Proof.
  intros z stream name eqb fuel fuel' g g' fs u f k s EQ Z HD HI LG LG' FU EN R FS EN' LK.
  destruct (C141_round_trip_partial z stream fuel fuel' g g' u Z HD HI LG LG' FU EN) as (s' & R' & S & _). rewrite R in R'. injection R' as <-.
  eexists. split; [unfold CompressAndWriteToFile; rewrite R; reflexivity|]. unfold LoadFromFileAndDecompress, set_file. rewrite (proj2 (EQ f f) eq_refl).
  exact (C142_truncated z stream fuel' g' s u k Z HI LG' S LK FS EN').
Qed.
Print Assumptions C143_partial_file_detected.

(** But the writer does not say so: it returns normally when the file could not be opened or
    the disk is full, so that what is there afterwards does not load as what was written. *)
Theorem C143_write_reports_refuted : ~ forall z stream (name : Type) (eqb : name -> name -> bool) fuel fuel' garbage (fs fs' : file_system) u f ev,
  (forall a b, eqb a b = true <-> a = b) -> is_zlib z stream -> deflateInit z <> None -> inflateInit z <> None -> length garbage = BUFSIZE ->
  CompressAndWriteToFile z eqb fuel garbage ev fs u f = Ok fs' -> enough fuel' (2 * length u + 64) -> LoadFromFileAndDecompress z fuel' garbage true fs' f = Ok u.
Proof.
  intros H. set (g := repeat x00 BUFSIZE). assert (LG : length g = BUFSIZE) by apply repeat_length.
  assert (EN : enough 71 (@length byte [])) by (unfold enough; cbn [length]; lia).
  destruct (compress_run toy toy_stream toyD toyF toyI toy_contract 71 g [] ltac:(discriminate) LG eq_refl EN) as (s & R & _).
  specialize (H toy toy_stream nat Nat.eqb 71 (S (1033 * 64 + 70)) g (fun _ => None) (fun _ => None) [] 0 OpenFails Nat.eqb_eq toy_is_zlib ltac:(discriminate) ltac:(discriminate) LG).
  unfold CompressAndWriteToFile in H. rewrite R in H. specialize (H eq_refl). cbn [bind LoadFromFileAndDecompress] in H.
  enough (X : Throw RuntimeError = Ok (@nil byte)) by discriminate. apply H. unfold enough. cbn [length]. lia.
Qed.
Print Assumptions C143_write_reports_refuted.

(** A file that is missing or cannot be read is reported. *)
Theorem C143_load_reports : forall z (name : Type) fuel garbage (fs : @file_system name) f read_ok, fs f = None \/ read_ok = false ->
  LoadFromFileAndDecompress z fuel garbage read_ok fs f = Throw RuntimeError.
Proof. intros z name fuel g fs f read_ok [H| ->]; unfold LoadFromFileAndDecompress; [rewrite H; reflexivity|destruct (fs f); reflexivity]. Qed.
Print Assumptions C143_load_reports.

(** A zlib as the theorems ask for, and a run of it through small buffers' worth of calls. *)
Example C141_nonvacuous : is_zlib toy toy_stream /\ deflateInit toy <> None /\ inflateInit toy <> None /\ length (repeat x00 BUFSIZE) = BUFSIZE /\
  fits_uint32 [x41; x42] = true /\ enough (1033 * 2 + 71) 2 /\ toy_stream [x01; x41; x01; x42; x00] [x41; x42].
Proof.
  split; [exact toy_is_zlib|]. split; [discriminate|]. split; [discriminate|]. split; [apply repeat_length|]. split; [reflexivity|]. split; [unfold enough; lia|]. reflexivity.
Qed.
Example C142_nonvacuous : DecompressBytes toy (1033 * 6 + 71) (repeat x00 BUFSIZE) [x01; x41; x01; x42; x00; x07] = Ok [x41; x42] /\
  DecompressBytes toy (1033 * 6 + 71) (repeat x00 BUFSIZE) [x01; x41; x01] = Throw RuntimeError.
Proof.
  split.
  - apply (C142_exact toy toy_stream); [exact toy_is_zlib|discriminate|apply repeat_length|reflexivity|unfold enough; cbn [length]; lia|]. exists [x01; x41; x01; x42; x00], [x07]. split; reflexivity.
  - apply (C142_truncated toy toy_stream (1033 * 6 + 71) (repeat x00 BUFSIZE) [x01; x41; x01; x42; x00] [x41; x42] 3); [exact toy_is_zlib|discriminate|apply repeat_length|reflexivity|cbn; lia|reflexivity|unfold enough; cbn [length]; lia].
Qed.
