(** Model of include/common_robotics_utilities/serialization.hpp (whole file)
    and src/common_robotics_utilities/serialization.cpp.

    A buffer is a list of bytes (N below 256).  Offsets and sizes are uint64_t:
    numbers below 2^64 with arithmetic modulo 2^64 ([wrap]).  Growing a buffer
    past max_size (std::length_error / std::bad_alloc) is not modelled for the
    serializers; container size limits are modelled in the deserializers. *)
From Verif Require Import Base.
Local Open Scope N_scope.

Notation buffer := (list N) (only parsing).
(** uint64_t arithmetic. *)
Definition wrap (n : N) : N := n mod 2 ^ 64.
(** buffer.size() *)
Definition size64 {A} (l : list A) : N := N.of_nat (length l).
(** uint64_t subtraction. *)
Definition sub64 (a b : N) : N := (a + 2 ^ 64 - b) mod 2 ^ 64.

(** memcpy(dst, &buffer[pos], n): reading outside the buffer, or forming the
    reference buffer[pos] outside it, is UB. *)
Definition memcpy_from (buf : buffer) (pos : N) (n : N) : outcome (list N) :=
  if (pos <? size64 buf) && (pos + n <=? size64 buf)
  then Ok (firstn (N.to_nat n) (skipn (N.to_nat pos) buf)) else UB.

(** memcpy(&buffer[pos], src, length src): same rule for writing. *)
Definition memcpy_to (buf : buffer) (pos : N) (src : list N) : outcome buffer :=
  if (pos <? size64 buf) && (pos + size64 src <=? size64 buf)
  then Ok (firstn (N.to_nat pos) buf ++ src ++ skipn (N.to_nat pos + length src) buf) else UB.

(** serialization.hpp:76-83 Serializer<T>, Deserializer<T>.  A Deserialized<T>
    with a value (20-68) is the pair of the value and its BytesRead. *)
Definition Serializer (T : Type) := T -> buffer -> N * buffer.
Definition Deserializer (T : Type) := buffer -> N -> outcome (T * N).

(** serialization.hpp:31-39,73-77 Deserialized constructor / MakeDeserialized. *)
Definition MakeDeserialized {T} (v : T) (bytes_read : N) : outcome (T * N) :=
  if bytes_read =? 0 then Throw InvalidArgument else Ok (v, bytes_read).

(** A memcpy-able C++ type: its sizeof and its object representation. *)
Record memcpyable (T : Type) := {
  msize : nat;
  to_obj : T -> list N;
  of_obj : list N -> T }.
Arguments msize {T} _. Arguments to_obj {T} _ _. Arguments of_obj {T} _ _.

(** Little-endian bytes of a w-byte unsigned integer, and back. *)
Fixpoint le_bytes (w : nat) (v : N) : list N :=
  match w with O => [] | S k => v mod 256 :: le_bytes k (v / 256) end.
Fixpoint of_le (l : list N) : N :=
  match l with [] => 0 | x :: r => x + 256 * of_le r end.

(** Unsigned integer of w bytes in host memory ([le]: little-endian host). *)
Definition host_bytes (le : bool) (w : nat) (v : N) : list N :=
  if le then le_bytes w v else rev (le_bytes w v).
Definition of_host (le : bool) (l : list N) : N :=
  if le then of_le l else of_le (rev l).
Definition uint_rep (le : bool) (w : nat) : memcpyable N :=
  {| msize := w; to_obj := host_bytes le w; of_obj := of_host le |}.

(** "end_buffer_size - start_buffer_size" idiom of every serializer. *)
Definition written (start final : buffer) : N * buffer :=
  (sub64 (size64 final) (size64 start), final).

(** serialization.hpp:310-324 SerializeMemcpyable. *)
Definition SerializeMemcpyable {T} (m : memcpyable T) : Serializer T :=
  fun v buf => written buf (buf ++ to_obj m v).

(** serialization.hpp:326-342 DeserializeMemcpyable. *)
Definition DeserializeMemcpyable {T} (m : memcpyable T) : Deserializer T :=
  fun buf off =>
    if size64 buf <=? off then Throw InvalidArgument
    else if size64 buf <? wrap (off + N.of_nat (msize m)) then Throw InvalidArgument
    else do o <- memcpy_from buf off (N.of_nat (msize m));
         MakeDeserialized (of_obj m o) (N.of_nat (msize m)).

(** serialization.hpp:627-707: htobeNN / beNNtoh; a byte swap on little-endian
    hosts, the identity on big-endian ones. *)
Definition bswap (w : nat) (v : N) : N := of_le (rev (le_bytes w v)).
Definition HostToNetwork (le : bool) (w : nat) (v : N) : N := if le then bswap w v else v.
Definition NetworkToHost (le : bool) (w : nat) (v : N) : N := if le then bswap w v else v.

(** serialization.hpp:724-755 = 780-806: the temporary buffer holding the
    swapped object bytes.  The four width cases are one definition; other widths
    are excluded by the static_assert and leave the buffer zero. *)
Definition network_obj {T} (le : bool) (m : memcpyable T) (v : T) : list N :=
  match msize m with
  | 1%nat => to_obj m v
  | 2%nat | 4%nat | 8%nat =>
      host_bytes le (msize m) (HostToNetwork le (msize m) (of_host le (to_obj m v)))
  | _ => repeat 0 (msize m)
  end.

(** serialization.hpp:709-769 SerializeNetworkMemcpyableInPlace: returns the
    bytes written and the modified buffer. *)
Definition SerializeNetworkMemcpyableInPlace {T} (le : bool) (m : memcpyable T)
    (v : T) (buf : buffer) (pos : N) : outcome (N * buffer) :=
  if wrap (pos + N.of_nat (msize m)) <=? size64 buf then
    do b <- memcpy_to buf pos (network_obj le m v); Ok (N.of_nat (msize m), b)
  else Throw RuntimeError.

(** serialization.hpp:771-813 SerializeNetworkMemcpyable. *)
Definition SerializeNetworkMemcpyable {T} (le : bool) (m : memcpyable T) : Serializer T :=
  fun v buf => written buf (buf ++ network_obj le m v).

(** serialization.hpp:815-866 DeserializeNetworkMemcpyable. *)
Definition DeserializeNetworkMemcpyable {T} (le : bool) (m : memcpyable T) : Deserializer T :=
  fun buf off =>
    if size64 buf <=? off then Throw InvalidArgument
    else if size64 buf <? wrap (off + N.of_nat (msize m)) then Throw InvalidArgument
    else do o <- memcpy_from buf off (N.of_nat (msize m));
         let obj := match msize m with
                    | 1%nat => o
                    | _ => host_bytes le (msize m) (NetworkToHost le (msize m) (of_host le o))
                    end in
         MakeDeserialized (of_obj m obj) (N.of_nat (msize m)).

(** The uint64_t size header: host form (e.g. 352-353, 372-376) or network form
    (e.g. 875-876, 898-902). *)
Definition ser_header (net le : bool) : Serializer N :=
  if net then SerializeNetworkMemcpyable le (uint_rep le 8)
  else SerializeMemcpyable (uint_rep le 8).
Definition des_header (net le : bool) : Deserializer N :=
  if net then DeserializeNetworkMemcpyable le (uint_rep le 8)
  else DeserializeMemcpyable (uint_rep le 8).

(** "for (uint64_t idx = 0; idx < size; idx++)" with exit on exception. *)
Fixpoint loopP {S} (p : positive) (f : S -> outcome S) (s : S) : outcome S :=
  match p with
  | xH => f s
  | xO q => do s1 <- loopP q f s; loopP q f s1
  | xI q => do s0 <- f s; do s1 <- loopP q f s0; loopP q f s1
  end.
Definition loopN {S} (n : N) (f : S -> outcome S) (s : S) : outcome S :=
  match n with N0 => Ok s | Npos p => loopP p f s end.

(** Serialize all items in order (loops at 355-359, 399-403, 507-510, 561-564). *)
Definition ser_items {T} (item : Serializer T) (l : list T) (buf : buffer) : buffer :=
  fold_left (fun b x => snd (item x b)) l buf.

(** serialization.hpp:389-408 SerializeVectorLike (net = false) and 919-939
    SerializeNetworkVectorLike (net = true). *)
Definition SerializeVectorLike {T} (net le : bool) (item : Serializer T) : Serializer (list T) :=
  fun v buf => written buf (ser_items item v (snd (ser_header net le (size64 v) buf))).

(** One iteration of the read loop: deserialize at the current position, store
    with [put], advance. *)
Definition des_step {T A} (item : Deserializer T) (put : A -> T -> A) (buf : buffer)
    (st : A * N) : outcome (A * N) :=
  do r <- item buf (snd st);
  Ok (put (fst st) (fst r), wrap (snd st + snd r)).

(** serialization.hpp:410-434 DeserializeVectorLike (net = false) and 941-967
    (net = true).  [max_size]: the container's max_size(), beyond which
    reserve() throws std::length_error. *)
Definition DeserializeVectorLike {T} (net le : bool) (max_size : N) (item : Deserializer T)
  : Deserializer (list T) :=
  fun buf off =>
    do h <- des_header net le buf off;
    let pos := wrap (off + snd h) in
    if max_size <? fst h then Throw LengthError
    else
      do r <- loopN (fst h) (des_step item (fun acc x => acc ++ [x]) buf) ([], pos);
      MakeDeserialized (fst r) (sub64 (snd r) off).

(** serialization.hpp:344-364 SerializeString and 868-888 SerializeNetworkString. *)
Definition SerializeString {C} (net le : bool) (m : memcpyable C) : Serializer (list C) :=
  SerializeVectorLike net le
    (if net then SerializeNetworkMemcpyable le m else SerializeMemcpyable m).

(** serialization.hpp:366-387 DeserializeString and 890-917 (network). *)
Definition DeserializeString {C} (net le : bool) (max_size : N) (m : memcpyable C)
  : Deserializer (list C) :=
  DeserializeVectorLike net le max_size
    (if net then DeserializeNetworkMemcpyable le m else DeserializeMemcpyable m).

(** serialization.hpp:436-461 SerializeMemcpyableVectorLike: resize then one
    memcpy of the contiguous objects, guarded by size > 0. *)
Definition SerializeMemcpyableVectorLike {T} (le : bool) (m : memcpyable T) : Serializer (list T) :=
  fun v buf => written buf (snd (ser_header false le (size64 v) buf) ++ concat (map (to_obj m) v)).

(** Split n objects of w bytes out of a byte block. *)
Fixpoint objects {T} (m : memcpyable T) (n : nat) (b : list N) : list T :=
  match n with
  | O => []
  | S k => of_obj m (firstn (msize m) b) :: objects m k (skipn (msize m) b)
  end.

(** serialization.hpp:463-491 DeserializeMemcpyableVectorLike for std::vector
    (the constructor vector(size) throws std::length_error past max_size). *)
Definition DeserializeMemcpyableVectorLike {T} (le : bool) (max_size : N) (m : memcpyable T)
  : Deserializer (list T) :=
  fun buf off =>
    do h <- des_header false le buf off;
    let pos := wrap (off + snd h) in
    let size := fst h in
    let slen := wrap (N.of_nat (msize m) * size) in
    if size64 buf <? wrap (pos + slen) then Throw InvalidArgument
    else if max_size <? size then Throw LengthError
    else
      do b <- (if 0 <? size then memcpy_from buf pos slen else Ok []);
      MakeDeserialized (objects m (N.to_nat size) b) (sub64 (wrap (pos + slen)) off).

(** serialization.hpp:969-995 SerializeNetworkMemcpyableVectorLike: the header,
    a resize, then one in-place write per element. *)
Definition SerializeNetworkMemcpyableVectorLike {T} (le : bool) (m : memcpyable T)
    (v : list T) (buf : buffer) : outcome (N * buffer) :=
  let b1 := snd (ser_header true le (size64 v) buf) in
  let b2 := b1 ++ repeat 0 (msize m * length v) in
  do r <- mfold (fun (st : buffer * N) x =>
             do w <- SerializeNetworkMemcpyableInPlace le m x (fst st) (snd st);
             Ok (snd w, wrap (snd st + fst w))) (b2, size64 b1) v;
  Ok (written buf (fst r)).

(** serialization.hpp:997-1022 DeserializeNetworkMemcpyableVectorLike: vector of
    [size] default elements, then overwritten in index order.  The result list is
    built in the same order. *)
Definition DeserializeNetworkMemcpyableVectorLike {T} (le : bool) (max_size : N) (m : memcpyable T)
  : Deserializer (list T) :=
  DeserializeVectorLike true le max_size (DeserializeNetworkMemcpyable le m).

(** serialization.hpp:583-600 SerializePair. *)
Definition SerializePair {A B} (sa : Serializer A) (sb : Serializer B) : Serializer (A * B) :=
  fun v buf => written buf (snd (sb (snd v) (snd (sa (fst v) buf)))).

(** serialization.hpp:602-624 DeserializePair. *)
Definition DeserializePair {A B} (da : Deserializer A) (db : Deserializer B) : Deserializer (A * B) :=
  fun buf off =>
    do a <- da buf off;
    let p1 := wrap (off + snd a) in
    do b <- db buf p1;
    let p2 := wrap (p1 + snd b) in
    MakeDeserialized (fst a, fst b) (sub64 p2 off).

(** A map or set container is its list of entries in iteration order; insert()
    does nothing when the key is present.  (Where a container places a new entry
    is abstracted: the model appends.) *)
Definition map_insert {K V} (keqb : K -> K -> bool) (m : list (K * V)) (e : K * V) : list (K * V) :=
  if existsb (fun x => keqb (fst x) (fst e)) m then m else m ++ [e].
Definition set_insert {K} (keqb : K -> K -> bool) (m : list K) (e : K) : list K :=
  if existsb (fun x => keqb x e) m then m else m ++ [e].

(** serialization.hpp:493-516 SerializeMapLike, 1024-1047 (network). *)
Definition SerializeMapLike {K V} (net le : bool) (sk : Serializer K) (sv : Serializer V)
  : Serializer (list (K * V)) := SerializeVectorLike net le (SerializePair sk sv).

(** serialization.hpp:518-545 DeserializeMapLike, 1049-1076 (network). *)
Definition DeserializeMapLike {K V} (net le : bool) (keqb : K -> K -> bool)
    (dk : Deserializer K) (dv : Deserializer V) : Deserializer (list (K * V)) :=
  fun buf off =>
    do h <- des_header net le buf off;
    do r <- loopN (fst h) (des_step (DeserializePair dk dv) (map_insert keqb) buf)
              ([], wrap (off + snd h));
    MakeDeserialized (fst r) (sub64 (snd r) off).

(** serialization.hpp:547-567 SerializeSetLike, 1078-1098 (network). *)
Definition SerializeSetLike {K} (net le : bool) (sk : Serializer K) : Serializer (list K) :=
  SerializeVectorLike net le sk.

(** serialization.hpp:569-593 DeserializeSetLike, 1100-1120 (network). *)
Definition DeserializeSetLike {K} (net le : bool) (keqb : K -> K -> bool) (dk : Deserializer K)
  : Deserializer (list K) :=
  fun buf off =>
    do h <- des_header net le buf off;
    do r <- loopN (fst h) (des_step dk (set_insert keqb) buf) ([], wrap (off + snd h));
    MakeDeserialized (fst r) (sub64 (snd r) off).

(** serialization.cpp:72-137 Serialize{Vector2d,Vector3d,Vector4d,Quaterniond,
    Isometry3d}: [n] doubles, each given by its 8 object bytes. *)
Definition SerializeFixed (n : nat) : Serializer (list N) :=
  fun v buf => (8 * N.of_nat n, buf ++ firstn (8 * n) v).

(** serialization.cpp:168-258 the matching deserializers. *)
Definition DeserializeFixed (n : nat) : Deserializer (list N) :=
  fun buf off =>
    if size64 buf <=? off then Throw InvalidArgument
    else if size64 buf <? wrap (off + 8 * N.of_nat n) then Throw InvalidArgument
    else do o <- memcpy_from buf off (8 * N.of_nat n); MakeDeserialized o (8 * N.of_nat n).

(** An Eigen::MatrixXd: rows, cols and the object bytes of its data block. *)
Record matrix := { m_rows : N; m_cols : N; m_data : list N }.

(** memcpy where the destination &dst[pos] is the end of the vector: dereferencing
    vector[size()] is UB even for zero bytes (the guard of lines 452-456 of the
    header exists for this reason). *)
Definition SerializeMatrixXd (le : bool) (v : matrix) (buf : buffer) : outcome (N * buffer) :=
  (* serialization.cpp:39-59 *)
  let b1 := snd (ser_header false le (m_cols v) (snd (ser_header false le (m_rows v) buf))) in
  let slen := wrap (8 * m_rows v * m_cols v) in
  let b2 := b1 ++ repeat 0 (N.to_nat slen) in
  do b3 <- memcpy_to b2 (size64 b1) (firstn (N.to_nat slen) (m_data v));
  Ok (written buf b3).

(** serialization.cpp:139-166 DeserializeMatrixXd.  MatrixXd::Zero requires
    non-negative ssize_t dimensions (Eigen asserts it, undefined with NDEBUG) and
    throws std::bad_alloc when rows*cols*8 exceeds PTRDIFF_MAX. *)
Definition DeserializeMatrixXd (le : bool) : Deserializer matrix :=
  fun buf off =>
    do hr <- des_header false le buf off;
    let p1 := wrap (off + snd hr) in
    do hc <- des_header false le buf p1;
    let p2 := wrap (p1 + snd hc) in
    let slen := wrap (wrap (8 * fst hr) * fst hc) in
    if size64 buf <? wrap (p2 + slen) then Throw InvalidArgument
    else if (2 ^ 63 <=? fst hr) || (2 ^ 63 <=? fst hc) then UB
    else if (2 ^ 63 <=? 8 * fst hr * fst hc) then Throw BadAlloc
    else
      do b <- memcpy_from buf p2 slen;
      MakeDeserialized {| m_rows := fst hr; m_cols := fst hc; m_data := b |}
                       (sub64 (wrap (p2 + slen)) off).

(** serialization.cpp:61-65,168-173 SerializeVectorXd / DeserializeVectorXd: the
    same templates with VectorLike = Eigen::VectorXd, whose size constructor has
    the Eigen preconditions of [DeserializeMatrixXd] instead of max_size(). *)
Definition SerializeVectorXd (le : bool) (dbl : memcpyable N) : Serializer (list N) :=
  SerializeMemcpyableVectorLike le dbl.
Definition DeserializeVectorXd (le : bool) (dbl : memcpyable N) : Deserializer (list N) :=
  fun buf off =>
    do h <- des_header false le buf off;
    let pos := wrap (off + snd h) in
    let size := fst h in
    let slen := wrap (8 * size) in
    if size64 buf <? wrap (pos + slen) then Throw InvalidArgument
    else if 2 ^ 63 <=? size then UB
    else if 2 ^ 63 <=? 8 * size then Throw BadAlloc
    else
      do b <- (if 0 <? size then memcpy_from buf pos slen else Ok []);
      MakeDeserialized (objects dbl (N.to_nat size) b) (sub64 (wrap (pos + slen)) off).
