(** Object representation of double: the IEEE 754 binary64 interchange format
    (Flocq, Bits.v) stored as a 64-bit unsigned integer in host byte order.  The
    payload of a NaN is not represented. *)
From Coq Require Import ZArith NArith List Lia Bool.
From Flocq Require Import Core BinarySingleNaN.
From Flocq Require Binary Bits.
From Verif Require Import Base Double SerializationModel SerializationSpec SerializationProof.

(** The bit pattern of a double and back. *)
Definition double_bits (x : double) : Z := Bits.bits_of_b64 (Binary.BSN2B 53 1024 Bits.default_nan_pl64 x).
Definition double_of_bits (z : Z) : double := Binary.B2BSN 53 1024 (Bits.b64_of_bits z).
Definition double_rep (le : bool) : memcpyable double :=
  {| msize := 8; to_obj := fun x => host_bytes le 8 (Z.to_N (double_bits x));
     of_obj := fun b => double_of_bits (Z.of_N (of_host le b)) |}.

Lemma double_bits_back x : double_of_bits (double_bits x) = x.
Proof.
  unfold double_of_bits, double_bits, Bits.b64_of_bits, Bits.bits_of_b64.
  rewrite Bits.binary_float_of_bits_of_binary_float. apply Binary.B2BSN_BSN2B.
Qed.

Lemma double_bits_range x : (0 <= double_bits x < 2 ^ 64)%Z.
Proof.
  unfold double_bits, Bits.bits_of_b64.
  exact (Bits.bits_of_binary_float_range 52 11 eq_refl eq_refl _).
Qed.

Lemma double_lawful le : lawful (double_rep le) (fun _ => True).
Proof.
  split; [simpl; lia|]. intros x _. pose proof (double_bits_range x) as R. cbn [double_rep msize to_obj of_obj].
  split; [apply host_bytes_length|]. split; [apply host_bytes_bytes|].
  rewrite of_host_host_bytes.
  - rewrite Z2N.id by lia. apply double_bits_back.
  - change (256 ^ N.of_nat 8)%N with 18446744073709551616%N. change (2 ^ 64)%Z with 18446744073709551616%Z in R. lia.
Qed.
