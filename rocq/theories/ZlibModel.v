(** Model of src/common_robotics_utilities/zlib_helpers.cpp.  zlib itself is a record of its
    functions; what they are assumed to do is in ZlibSpec.v. *)
From Coq Require Import Init.Byte.
From Verif Require Import Base.

(** Return codes of deflate and inflate that the code tells apart. *)
Inductive zret : Type := Z_OK | Z_STREAM_END | Z_OTHER (code : Z).
Inductive zflush : Type := Z_NO_FLUSH | Z_FINISH.
(** zlib: a stream's hidden state, and calls that get the unread input and the room left in
    the output buffer, and give the code, the new state, how many bytes were read, and the
    bytes written.  Initialisation gives nothing when it does not return Z_OK. *)
Record zlib : Type := mkZlib {
  dstate : Type;
  istate : Type;
  deflateInit : option dstate;
  inflateInit : option istate;
  deflate : dstate -> zflush -> list byte -> nat -> zret * dstate * nat * list byte;
  inflate : istate -> list byte -> nat -> zret * istate * nat * list byte }.

(** zlib_helpers.cpp:23 and 73; the array temp_buffer (24, 74) starts with whatever was on the stack. *)
Definition BUFSIZE : nat := N.to_nat (1024 * 1024).
(** std::numeric_limits<uint32_t>::max() compared with size(). *)
Definition fits_uint32 (l : list byte) : bool := (N.of_nat (length l) <=? 4294967295)%N.
(** zlib writes [out] at temp_buffer + pos; past the end it is undefined behaviour. *)
Definition write_out (temp : list byte) (pos : nat) (out : list byte) : outcome (list byte) :=
  if (pos + length out <=? length temp)%nat then Ok (firstn pos temp ++ out ++ skipn (pos + length out) temp) else UB.

Section Z.
Variable z : zlib.

(** The loop of DecompressBytes, zlib_helpers.cpp:38-49; total_out is an unsigned long of
    64 bits. *)
Fixpoint inflate_loop (fuel : nat) (strm : istate z) (next_in : list byte) (temp_buffer : list byte) (total_out : N)
    (buffer : list byte) : outcome (list byte) :=
  match fuel with
  | O => Diverge
  | S fuel =>
      let '(ret, strm, n, out) := inflate z strm next_in BUFSIZE in
      do temp_buffer <- write_out temp_buffer 0 out;
      let avail_out := (BUFSIZE - length out)%nat in
      let total_out := ((total_out + N.of_nat (length out)) mod 2 ^ 64)%N in
      let buffer := if (N.of_nat (length buffer) <? total_out)%N then buffer ++ firstn (BUFSIZE - avail_out) temp_buffer else buffer in
      match ret with
      | Z_OK => inflate_loop fuel strm (skipn n next_in) temp_buffer total_out buffer
      | Z_STREAM_END => Ok buffer
      | Z_OTHER _ => Throw RuntimeError
      end
  end.
(** DecompressBytes, zlib_helpers.cpp:17-64. *)
Definition DecompressBytes (fuel : nat) (stack_garbage : list byte) (compressed : list byte) : outcome (list byte) :=
  if fits_uint32 compressed then
    match inflateInit z with
    | None => Throw RuntimeError
    | Some strm => inflate_loop fuel strm compressed stack_garbage 0 []
    end
  else Throw InvalidArgument.

(** The first loop of CompressBytes, zlib_helpers.cpp:89-104.  next_out is always
    temp_buffer + BUFSIZE - avail_out. *)
Fixpoint deflate_loop (fuel : nat) (strm : dstate z) (next_in : list byte) (temp_buffer : list byte) (avail_out : nat) (buffer : list byte)
    : outcome (dstate z * list byte * nat * list byte) :=
  match next_in with
  | [] => Ok (strm, temp_buffer, avail_out, buffer)
  | _ :: _ =>
      match fuel with
      | O => Diverge
      | S fuel =>
          let '(ret, strm, n, out) := deflate z strm Z_NO_FLUSH next_in avail_out in
          do temp_buffer <- write_out temp_buffer (BUFSIZE - avail_out) out;
          let avail_out := (avail_out - length out)%nat in
          match ret with
          | Z_OK =>
              let '(buffer, avail_out) := if (avail_out =? 0)%nat then (buffer ++ firstn BUFSIZE temp_buffer, BUFSIZE) else (buffer, avail_out) in
              deflate_loop fuel strm (skipn n next_in) temp_buffer avail_out buffer
          | _ => Throw RuntimeError
          end
      end
  end.
(** The second loop, 105-115, and the code after it, 116-127. *)
Fixpoint finish_loop (fuel : nat) (strm : dstate z) (temp_buffer : list byte) (avail_out : nat) (buffer : list byte) : outcome (list byte) :=
  match fuel with
  | O => Diverge
  | S fuel =>
      let '(buffer, avail_out) := if (avail_out =? 0)%nat then (buffer ++ firstn BUFSIZE temp_buffer, BUFSIZE) else (buffer, avail_out) in
      let '(ret, strm, _, out) := deflate z strm Z_FINISH [] avail_out in
      do temp_buffer <- write_out temp_buffer (BUFSIZE - avail_out) out;
      let avail_out := (avail_out - length out)%nat in
      match ret with
      | Z_OK => finish_loop fuel strm temp_buffer avail_out buffer
      | Z_STREAM_END => Ok (buffer ++ firstn (BUFSIZE - avail_out) temp_buffer)
      | Z_OTHER _ => Throw RuntimeError
      end
  end.
(** CompressBytes, zlib_helpers.cpp:66-133. *)
Definition CompressBytes (fuel : nat) (stack_garbage : list byte) (uncompressed : list byte) : outcome (list byte) :=
  if fits_uint32 uncompressed then
    match deflateInit z with
    | None => Throw RuntimeError
    | Some strm =>
        do (strm, temp_buffer, avail_out, buffer) <- deflate_loop fuel strm uncompressed stack_garbage BUFSIZE [];
        finish_loop fuel strm temp_buffer avail_out buffer
    end
  else Throw InvalidArgument.

(** Files.  A file system maps names to contents. *)
Context {name : Type} (eqb : name -> name -> bool).
Definition file_system : Type := name -> option (list byte).
Definition set_file (fs : file_system) (f : name) (c : list byte) : file_system := fun g => if eqb f g then Some c else fs g.
(** What the system does with an attempt to write a file: it cannot be opened; or it is
    emptied and only so many bytes reach it (all, if there is room). *)
Inductive write_event : Type := OpenFails | Writes (bytes : nat).
(** CompressAndWriteToFile, zlib_helpers.cpp:154-162: no result of the stream is looked at. *)
Definition CompressAndWriteToFile (fuel : nat) (garbage : list byte) (ev : write_event) (fs : file_system) (uncompressed : list byte) (filename : name) : outcome file_system :=
  do compressed <- CompressBytes fuel garbage uncompressed;
  match ev with
  | OpenFails => Ok fs
  | Writes k => Ok (set_file fs filename (firstn k compressed))
  end.
(** LoadFromFileAndDecompress, zlib_helpers.cpp:135-152: a file that is not there cannot be
    opened; [read_ok] is whether the system delivers all of it. *)
Definition LoadFromFileAndDecompress (fuel : nat) (garbage : list byte) (read_ok : bool) (fs : file_system) (filename : name) : outcome (list byte) :=
  match fs filename with
  | None => Throw RuntimeError
  | Some file_buffer => if read_ok then DecompressBytes fuel garbage file_buffer else Throw RuntimeError
  end.
End Z.
