(** Specification vocabulary for serialization: what it means for a pair of
    functions to append, to round trip, to stay inside the buffer. *)
From Verif Require Import Base SerializationModel.
Local Open Scope N_scope.

Definition len64 {A} (l : list A) : N := N.of_nat (length l).
(** Size of any real std::vector<uint8_t>. *)
Definition fits_vector {A} (l : list A) : Prop := len64 l < 2 ^ 63.
Definition is_bytes (l : list N) : Prop := Forall (fun b => b < 256) l.

(** Serialization of [v] adds the bytes [enc v] at the end, whatever the buffer
    holds, and reports their number. *)
Definition appends {T} (ser : T -> list N -> N * list N) (enc : T -> list N) (dom : T -> Prop) : Prop :=
  forall v buf, dom v ->
    snd (ser v buf) = buf ++ enc v /\
    (fits_vector (buf ++ enc v) -> fst (ser v buf) = len64 (enc v)).

(** Deserializing at the place where [v] was serialized gives [v] back and the
    number of bytes that were written, whatever precedes and follows. *)
Definition reads_back {T} (des : list N -> N -> outcome (T * N)) (enc : T -> list N)
    (dom : T -> Prop) : Prop :=
  forall v pre post, dom v -> fits_vector (pre ++ enc v ++ post) ->
    des (pre ++ enc v ++ post) (len64 pre) = Ok (v, len64 (enc v)).

(** A serializer/deserializer pair round-trips on [dom]. *)
Definition round_trips {T} (ser : T -> list N -> N * list N)
    (des : list N -> N -> outcome (T * N)) (dom : T -> Prop) : Prop :=
  exists enc, appends ser enc dom /\ reads_back des enc dom /\
    (forall v, dom v -> enc v <> [] /\ is_bytes (enc v)).

(** A deserializer never touches memory outside the buffer, always terminates,
    and a returned value accounts for a non-empty range inside the buffer. *)
Definition stays_inside {T} (des : list N -> N -> outcome (T * N)) : Prop :=
  forall buf off, is_bytes buf -> fits_vector buf -> off < 2 ^ 64 ->
    (exists e, des buf off = Throw e) \/
    (exists v n, des buf off = Ok (v, n) /\ 0 < n /\ off + n <= len64 buf).

(** Most-significant byte first: byte [i] of the [w]-byte form of [v]. *)
Definition big_endian (w : nat) (v : N) : list N :=
  map (fun i => v / 256 ^ N.of_nat (w - 1 - i) mod 256) (seq 0 w).

(** A memcpy-able type: every value of [dom] has an object representation of
    msize bytes from which it is recovered. *)
Definition lawful {T} (m : memcpyable T) (dom : T -> Prop) : Prop :=
  (0 < msize m)%nat /\
  forall v, dom v -> length (to_obj m v) = msize m /\ is_bytes (to_obj m v) /\ of_obj m (to_obj m v) = v.
