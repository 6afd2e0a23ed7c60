(** What zlib's manual promises of deflate and inflate, as far as zlib_helpers.cpp needs it. *)
From Coq Require Import Init.Byte.
From Verif Require Import Base ZlibModel.

(** [stream s d]: the bytes [s] are exactly one complete zlib stream, of the data [d].
    A zlib stream marks its own end: no stream is the beginning of another one.
    [D st c p]: a deflate stream in state [st] has read the bytes [c] and written [p];
    [F st c p]: the same, once Z_FINISH was given.
    [I st c p]: an inflate stream in state [st] has read [c] and written [p]. *)
Record zlib_contract (z : zlib) (stream : list byte -> list byte -> Prop)
    (D F : dstate z -> list byte -> list byte -> Prop) (I : istate z -> list byte -> list byte -> Prop) : Prop := mkContract {
  (** self-delimiting and unambiguous *)
  zc_stream : forall s d s' d' r r', stream s d -> stream s' d' -> s ++ r = s' ++ r' -> s = s' /\ d = d';
  (** deflate: with input and room, a call works and makes progress, in bounds *)
  zc_dinit : forall st, deflateInit z = Some st -> D st [] [];
  zc_deflate : forall st c p input avail ret st' n out, D st c p -> input <> [] -> (0 < avail)%nat ->
    deflate z st Z_NO_FLUSH input avail = (ret, st', n, out) ->
    ret = Z_OK /\ (n <= length input)%nat /\ (length out <= avail)%nat /\ ((0 < n)%nat \/ out <> []) /\ D st' (c ++ firstn n input) (p ++ out);
  (** deflate at the end: it fills the room and returns Z_OK, or ends the stream *)
  zc_begin_finish : forall st c p, D st c p -> F st c p;
  zc_finish : forall st c p avail ret st' n out, F st c p -> (0 < avail)%nat -> deflate z st Z_FINISH [] avail = (ret, st', n, out) ->
    (ret = Z_OK /\ length out = avail /\ F st' c (p ++ out)) \/ (ret = Z_STREAM_END /\ (length out <= avail)%nat /\ stream (p ++ out) c);
  (** deflate does not write much more than it reads *)
  zc_dbound : forall st c p, F st c p -> (length p <= 2 * length c + 64)%nat;
  (** inflate: a call stays in bounds; Z_OK means progress; Z_STREAM_END means that a stream
      was read to its end and all its data written; no other code while the input read and
      offered begins with a stream *)
  zc_iinit : forall st, inflateInit z = Some st -> I st [] [];
  zc_inflate : forall st c p input avail ret st' n out, I st c p -> (0 < avail)%nat -> inflate z st input avail = (ret, st', n, out) ->
    (length out <= avail)%nat /\ (n <= length input)%nat /\
    (ret = Z_OK -> ((0 < n)%nat \/ out <> []) /\ I st' (c ++ firstn n input) (p ++ out)) /\
    (ret = Z_STREAM_END -> stream (c ++ firstn n input) (p ++ out)) /\
    ((exists s d r, stream s d /\ c ++ input = s ++ r) -> ret = Z_OK \/ ret = Z_STREAM_END);
  (** the largest ratio of the format is 1032 to 1 *)
  zc_ibound : forall st c p, I st c p -> (length p <= 1032 * length c)%nat }.
(** [z] is a zlib whose streams are those of [stream]. *)
Definition is_zlib (z : zlib) (stream : list byte -> list byte -> Prop) : Prop := exists D F I, zlib_contract z stream D F I.

(** Calls of zlib that are certainly enough for [n] bytes of input. *)
Definition enough (fuel n : nat) : Prop := (1033 * n + 70 < fuel)%nat.
