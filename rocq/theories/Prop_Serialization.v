(** Properties C04-C07, C71, C72 (serialization). *)
From Verif Require Import Base SerializationModel SerializationSpec SerializationShapes
  SerializationProof SerializationProof2.
Local Open Scope N_scope.

(** C04: any nesting of integers, strings, memcpy-able vectors, vectors, pairs,
    maps and sets round-trips at the offset where it was written, with any bytes
    before and after, in host and network form, on either byte order, and the
    byte count read equals the byte count written. *)
Theorem C04_composite_round_trip :
  forall (net le : bool) (max_size : shape -> N) (s : shape) (v : val s) (before after : list N),
  shape_ok net s -> val_ok max_size s v ->
  fits_vector (snd (shape_ser net le s v before) ++ after) ->
  shape_des net le max_size s (snd (shape_ser net le s v before) ++ after) (len64 before)
    = Ok (v, fst (shape_ser net le s v before)).
Proof. exact shape_round_trip_at. Qed.
Print Assumptions C04_composite_round_trip.

(** C04 for user-supplied item functions: the combinators preserve the
    round-trip contract of arbitrary item serializers. *)
Theorem C04_vector_of_any_item :
  forall (T : Type) (net le : bool) (max_size : N) (ser : T -> list N -> N * list N)
    (des : list N -> N -> outcome (T * N)) (dom : T -> Prop),
  round_trips ser des dom ->
  round_trips (SerializeVectorLike net le ser) (DeserializeVectorLike net le max_size des)
    (fun l => Forall dom l /\ len64 l < 2 ^ 64 /\ len64 l <= max_size).
Proof. exact (@rt_vector). Qed.
Print Assumptions C04_vector_of_any_item.

Theorem C04_pair_of_any_items :
  forall (A B : Type) sa da doma sb db domb,
  round_trips (T := A) sa da doma -> round_trips (T := B) sb db domb ->
  round_trips (SerializePair sa sb) (DeserializePair da db) (fun v => doma (fst v) /\ domb (snd v)).
Proof. exact (@rt_pair). Qed.
Print Assumptions C04_pair_of_any_items.

Theorem C04_map_of_any_items :
  forall (K V : Type) (net le : bool) (keqb : K -> K -> bool) sk dk domk sv dv domv,
  (forall a b, keqb a b = true <-> a = b) ->
  round_trips (T := K) sk dk domk -> round_trips (T := V) sv dv domv ->
  round_trips (SerializeMapLike net le sk sv) (DeserializeMapLike net le keqb dk dv)
    (fun l => Forall (fun e => domk (fst e) /\ domv (snd e)) l /\ len64 l < 2 ^ 64 /\ NoDup (map fst l)).
Proof. exact (@rt_map). Qed.
Print Assumptions C04_map_of_any_items.

Theorem C04_set_of_any_items :
  forall (K : Type) (net le : bool) (keqb : K -> K -> bool) sk dk domk,
  (forall a b, keqb a b = true <-> a = b) -> round_trips (T := K) sk dk domk ->
  round_trips (SerializeSetLike net le sk) (DeserializeSetLike net le keqb dk)
    (fun l => Forall domk l /\ len64 l < 2 ^ 64 /\ NoDup l).
Proof. exact (@rt_set). Qed.
Print Assumptions C04_set_of_any_items.

Example C04_nonvacuous : shape_ok false sample_shape /\ val_ok (fun _ => 2 ^ 40) sample_shape sample_val.
Proof. exact sample_ok. Qed.

(** C05: the serialized bytes do not depend on the buffer, are appended, and
    their number is returned. *)
Theorem C05_append_only :
  forall (net le : bool) (max_size : shape -> N) (s : shape) (v : val s),
  shape_ok net s -> val_ok max_size s v ->
  exists bytes, bytes <> [] /\ is_bytes bytes /\ forall buf,
    snd (shape_ser net le s v buf) = buf ++ bytes /\
    (fits_vector (buf ++ bytes) -> fst (shape_ser net le s v buf) = len64 bytes).
Proof. exact shape_appends_only. Qed.
Print Assumptions C05_append_only.

(** C06 (full claim: every deserializer, every buffer).  False for the Eigen
    dynamic-size containers: a size header of 2^63 makes the byte count wrap to
    zero and Eigen is asked for a negative size. *)
Theorem C06_untrusted_bytes_matrix_refuted :
  exists buf, is_bytes buf /\ fits_vector buf /\ DeserializeMatrixXd true buf 0 = UB.
Proof. exact matrix_hostile_ub. Qed.
Print Assumptions C06_untrusted_bytes_matrix_refuted.

Theorem C06_untrusted_bytes_vectorxd_refuted :
  exists buf, is_bytes buf /\ fits_vector buf /\ DeserializeVectorXd true (uint_rep true 8) buf 0 = UB.
Proof. exact vectorxd_hostile_ub. Qed.
Print Assumptions C06_untrusted_bytes_vectorxd_refuted.

(** C06, proved part: every nesting of the STL deserializers, host and network. *)
Theorem C06_untrusted_bytes_partial :
  forall (net le : bool) (max_size : shape -> N) (s : shape) (buf : list N) (off : N),
  shape_ok net s -> max_size_ok max_size ->
  is_bytes buf -> fits_vector buf -> off < 2 ^ 64 ->
  (exists e, shape_des net le max_size s buf off = Throw e) \/
  (exists v n, shape_des net le max_size s buf off = Ok (v, n) /\ 0 < n /\ off + n <= len64 buf).
Proof. intros net le ms s buf off H1 H2. exact (shape_inside net le ms s H1 H2 buf off). Qed.
Print Assumptions C06_untrusted_bytes_partial.

(** ... also with arbitrary well-behaved item deserializers, ... *)
Theorem C06_vector_of_any_item_partial :
  forall (T : Type) (net le : bool) (max_size : N) (des : list N -> N -> outcome (T * N)),
  stays_inside des -> stays_inside (DeserializeVectorLike net le max_size des).
Proof. exact (@vector_inside). Qed.
Print Assumptions C06_vector_of_any_item_partial.

(** ... and the fixed-size Eigen types (n doubles). *)
Theorem C06_fixed_size_eigen_partial :
  forall n, (0 < n)%nat -> 8 * N.of_nat n < 2 ^ 63 -> stays_inside (DeserializeFixed n).
Proof. exact fixed_inside. Qed.
Print Assumptions C06_fixed_size_eigen_partial.

Example C06_nonvacuous : shape_ok true (ShVector (ShString 1)) /\
  max_size_ok (fun s => match s with ShMemVector w => (2 ^ 63 - 1) / N.of_nat w | _ => 2 ^ 40 end).
Proof. exact max_size_sample. Qed.

(** C07: most significant byte first on either host, and back, at any offset. *)
Theorem C07_network_integers_big_endian :
  forall (le : bool) (w : nat) (v : N) (buf : list N),
  (w = 1 \/ w = 2 \/ w = 4 \/ w = 8)%nat -> v < 256 ^ N.of_nat w -> fits_vector (buf ++ big_endian w v) ->
  SerializeNetworkMemcpyable le (uint_rep le w) v buf = (N.of_nat w, buf ++ big_endian w v) /\
  forall after, fits_vector (buf ++ big_endian w v ++ after) ->
    DeserializeNetworkMemcpyable le (uint_rep le w) (buf ++ big_endian w v ++ after) (len64 buf) = Ok (v, N.of_nat w).
Proof. exact uint_network_big_endian. Qed.
Print Assumptions C07_network_integers_big_endian.

Theorem C07_network_memcpyable_vector :
  forall (le : bool) (w : nat) (max_size : N) (v before after : list N),
  (w = 1 \/ w = 2 \/ w = 4 \/ w = 8)%nat -> Forall (fun x => x < 256 ^ N.of_nat w) v ->
  len64 v < 2 ^ 64 -> len64 v <= max_size ->
  let bytes := big_endian 8 (len64 v) ++ concat (map (big_endian w) v) in
  fits_vector (before ++ bytes ++ after) ->
  SerializeNetworkMemcpyableVectorLike le (uint_rep le w) v before = Ok (len64 bytes, before ++ bytes) /\
  DeserializeNetworkMemcpyableVectorLike le max_size (uint_rep le w) (before ++ bytes ++ after) (len64 before)
    = Ok (v, len64 bytes).
Proof. exact net_memvec_round_trip. Qed.
Print Assumptions C07_network_memcpyable_vector.

(** C07, composite network forms: [C04_composite_round_trip] with net = true. *)
Theorem C07_network_composites_round_trip :
  forall (le : bool) (max_size : shape -> N) (s : shape) (v : val s) (before after : list N),
  shape_ok true s -> val_ok max_size s v ->
  fits_vector (snd (shape_ser true le s v before) ++ after) ->
  shape_des true le max_size s (snd (shape_ser true le s v before) ++ after) (len64 before)
    = Ok (v, fst (shape_ser true le s v before)).
Proof. exact (shape_round_trip_at true). Qed.
Print Assumptions C07_network_composites_round_trip.

Example C07_nonvacuous : big_endian 4 258 = [0; 0; 1; 2] /\ 258 < 256 ^ N.of_nat 4.
Proof. exact big_endian_sample. Qed.

(** C71 (full claim: every matrix).  Refuted by the empty matrix: memcpy is
    called with the reference buffer[buffer.size()] and a null source, which the
    vector serializer of the same file guards against. *)
Theorem C71_matrix_serialization_defined_refuted :
  exists le buf, SerializeMatrixXd le {| m_rows := 0; m_cols := 0; m_data := [] |} buf = UB.
Proof. exact matrix_empty_refuted. Qed.
Print Assumptions C71_matrix_serialization_defined_refuted.

Theorem C71_matrix_round_trip_partial :
  forall (le : bool) (v : matrix) (before after : list N),
  m_rows v * m_cols v <> 0 -> is_bytes (m_data v) -> len64 (m_data v) = 8 * m_rows v * m_cols v ->
  fits_vector (before ++ repeat 0 16 ++ m_data v ++ after) ->
  exists bytes, length bytes = (16 + length (m_data v))%nat /\
    SerializeMatrixXd le v before = Ok (len64 bytes, before ++ bytes) /\
    DeserializeMatrixXd le (before ++ bytes ++ after) (len64 before) = Ok (v, len64 bytes).
Proof. exact matrix_round_trip. Qed.
Print Assumptions C71_matrix_round_trip_partial.

(** Vectors of any length, empty ones included. *)
Theorem C71_vector_round_trip :
  forall (le : bool) (v before after : list N), Forall (fun x => x < 2 ^ 64) v ->
  fits_vector (before ++ repeat 0 (8 + 8 * length v) ++ after) ->
  exists bytes, length bytes = (8 + 8 * length v)%nat /\
    SerializeVectorXd le (uint_rep le 8) v before = (len64 bytes, before ++ bytes) /\
    DeserializeVectorXd le (uint_rep le 8) (before ++ bytes ++ after) (len64 before) = Ok (v, len64 bytes).
Proof. exact vectorxd_round_trip. Qed.
Print Assumptions C71_vector_round_trip.

Example C71_nonvacuous :
  let v := {| m_rows := 1; m_cols := 2; m_data := repeat 64 16 |} in
  m_rows v * m_cols v <> 0 /\ is_bytes (m_data v) /\ len64 (m_data v) = 8 * m_rows v * m_cols v.
Proof. exact matrix_sample. Qed.

(** C72 (full claim: in-place network write never writes outside the buffer, any
    64-bit position).  Refuted: the bound check wraps modulo 2^64. *)
Theorem C72_in_place_write_bounded_refuted :
  exists buf pos, is_bytes buf /\ fits_vector buf /\ pos < 2 ^ 64 /\
  SerializeNetworkMemcpyableInPlace true (uint_rep true 8) 7 buf pos = UB.
Proof. exact inplace_wrap_ub. Qed.
Print Assumptions C72_in_place_write_bounded_refuted.

(** C72, proved part: positions whose end does not wrap. *)
Theorem C72_in_place_write_partial :
  forall (le : bool) (w : nat) (v : N) (buf : list N) (pos : N),
  (w = 1 \/ w = 2 \/ w = 4 \/ w = 8)%nat -> v < 256 ^ N.of_nat w -> fits_vector buf ->
  pos + N.of_nat w < 2 ^ 64 ->
  (pos + N.of_nat w <= len64 buf ->
    SerializeNetworkMemcpyableInPlace le (uint_rep le w) v buf pos =
      Ok (N.of_nat w, firstn (N.to_nat pos) buf ++ big_endian w v ++ skipn (N.to_nat pos + w) buf)) /\
  (len64 buf < pos + N.of_nat w ->
    SerializeNetworkMemcpyableInPlace le (uint_rep le w) v buf pos = Throw RuntimeError).
Proof. exact inplace_ok. Qed.
Print Assumptions C72_in_place_write_partial.
