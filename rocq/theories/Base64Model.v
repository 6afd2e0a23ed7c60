(** Model of src/common_robotics_utilities/base64_helpers.cpp. *)
From Verif Require Import Base.
Local Open Scope N_scope.

(** base64_helpers.cpp:14-20 [B64IndexTable]: 123 listed entries, the rest of
    the std::array<int32_t,256> is zero-initialised. *)
Definition B64IndexTable : list N :=
  [0; 0; 0; 0; 0; 0; 0; 0; 0; 0; 0; 0; 0; 0; 0; 0; 0; 0; 0; 0; 0; 0; 0; 0; 0;
   0; 0; 0; 0; 0; 0; 0; 0; 0; 0; 0; 0; 0; 0; 0; 0; 0; 0; 62; 63; 62; 62; 63;
   52; 53; 54; 55; 56; 57; 58; 59; 60; 61; 0; 0; 0; 0; 0; 0; 0; 0; 1; 2; 3; 4;
   5; 6; 7; 8; 9; 10; 11; 12; 13; 14; 15; 16; 17; 18; 19; 20; 21; 22; 23; 24;
   25; 0; 0; 0; 0; 63; 0; 26; 27; 28; 29; 30; 31; 32; 33; 34; 35; 36; 37; 38;
   39; 40; 41; 42; 43; 44; 45; 46; 47; 48; 49; 50; 51] ++ repeat 0 133.

(** base64_helpers.cpp:22-27 [B64ValueTable], as ASCII codes. *)
Definition B64ValueTable : list N :=
  [65; 66; 67; 68; 69; 70; 71; 72; 73; 74; 75; 76; 77; 78; 79;
   80; 81; 82; 83; 84; 85; 86; 87; 88; 89; 90; 97; 98; 99; 100;
   101; 102; 103; 104; 105; 106; 107; 108; 109; 110; 111; 112; 113; 114; 115;
   116; 117; 118; 119; 120; 121; 122; 48; 49; 50; 51; 52; 53; 54; 55;
   56; 57; 43; 47].

(** The character '=' (base64_helpers.cpp:33,53,99,110). *)
Definition eqc : N := 61.

(** [static_cast<uint8_t>] of a non-negative int. *)
Definition u8 (n : N) : N := N.land n 255.

(** [B64IndexTable[static_cast<size_t>(c)]] (base64_helpers.cpp:39-42,50,51,55).
    A char is its code unit 0..255.  Where plain char is signed (x86), code
    units >= 128 are negative, the cast sign-extends to a value near 2^64 and
    std::array::operator[] is out of range: UB.  Where char is unsigned the index
    is the code unit. *)
Definition idx_lookup (char_signed : bool) (c : N) : outcome N :=
  if char_signed && (128 <=? c) then UB else raw_get B64IndexTable (N.to_nat c).

(** [encoded[i]] on a const std::string: index size() yields the terminating
    NUL, anything larger is UB. *)
Definition str_at (s : list N) (i : nat) : outcome N :=
  if Nat.eqb i (length s) then Ok 0 else raw_get s i.

(** base64_helpers.cpp:32-33, [pad] (0 or 1). *)
Definition dec_pad (s : list N) : nat :=
  if negb (Nat.eqb (length s) 0)
     && (negb (Nat.eqb (Nat.modulo (length s) 4) 0)
         || N.eqb (nth (length s - 1) s 0) eqc)
  then 1%nat else 0%nat.

(** base64_helpers.cpp:36-46: body of the block loop for the block at [i],
    writing at [j], [j]+1, [j]+2. *)
Definition dec_block (sg : bool) (s : list N) (buf : list N) (k : nat) : outcome (list N) :=
  let i := (4 * k)%nat in
  let j := (3 * k)%nat in
  do c0 <- str_at s i; do t0 <- idx_lookup sg c0;
  do c1 <- str_at s (i + 1); do t1 <- idx_lookup sg c1;
  do c2 <- str_at s (i + 2); do t2 <- idx_lookup sg c2;
  do c3 <- str_at s (i + 3); do t3 <- idx_lookup sg c3;
  let n := N.lor (N.lor (N.lor (N.shiftl t0 18) (N.shiftl t1 12)) (N.shiftl t2 6)) t3 in
  do b1 <- raw_set buf j (u8 (N.shiftr n 16));
  do b2 <- raw_set b1 (j + 1) (u8 (N.land (N.shiftr n 8) 255));
  raw_set b2 (j + 2) (u8 (N.land n 255)).

(** base64_helpers.cpp:29-60 [Decode].  The loop variable i runs over 0,4,...,
    i.e. 4*k for k < L/4 (L is a multiple of 4), j = 3*k. *)
Definition Decode (sg : bool) (s : list N) : outcome (list N) :=
  let pad := dec_pad s in
  let L := (((length s + 3) / 4 - pad) * 4)%nat in
  do buf <- mfold (dec_block sg s) (repeat 0 (L / 4 * 3 + pad)) (seq 0 (L / 4));
  if Nat.ltb 0 pad then
    do c0 <- str_at s L; do t0 <- idx_lookup sg c0;
    do c1 <- str_at s (L + 1); do t1 <- idx_lookup sg c1;
    let n := N.lor (N.shiftl t0 18) (N.shiftl t1 12) in
    do buf1 <- raw_set buf (length buf - 1) (u8 (N.shiftr n 16));
    if Nat.ltb (L + 2) (length s) then
      do c2 <- str_at s (L + 2);
      if N.eqb c2 eqc then Ok buf1
      else
        do t2 <- idx_lookup sg c2;
        let n2 := N.lor n (N.shiftl t2 6) in
        Ok (buf1 ++ [u8 (N.land (N.shiftr n2 8) 255)])
    else Ok buf1
  else Ok buf.

(** [encoded[output_position++] = B64ValueTable[v]]: the write position is a
    std::string index < size() (else UB). *)
Definition put_val (enc : list N) (o : nat) (v : N) : outcome (list N) :=
  do c <- raw_get B64ValueTable (N.to_nat v); raw_set enc o c.

(** base64_helpers.cpp:75-90: one iteration of the 3-byte loop. *)
Definition enc_block (b : list N) (enc : list N) (k : nat) : outcome (list N) :=
  let p := (3 * k)%nat in
  let o := (4 * k)%nat in
  do b0 <- raw_get b p;
  do e1 <- put_val enc o (N.shiftr b0 2);
  do b1 <- raw_get b (p + 1);
  do e2 <- put_val e1 (o + 1) (N.lor (N.shiftl (N.land b0 3) 4) (N.shiftr b1 4));
  do b2 <- raw_get b (p + 2);
  do e3 <- put_val e2 (o + 2) (N.lor (N.shiftl (N.land b1 15) 2) (N.shiftr b2 6));
  put_val e3 (o + 3) (N.land b2 63).

(** base64_helpers.cpp:62-113 [Encode].  The while loop runs floor(n/3) times.
    [encoded_length] is computed in size_t (mod 2^64); when it wraps below n the
    code returns the empty string (line 67-70). *)
Definition Encode (b : list N) : outcome (list N) :=
  let n := length b in
  if (((4 * ((N.of_nat n + 2) / 3)) mod 2 ^ 64) <? N.of_nat n) then Ok []
  else
    let L := (4 * ((n + 2) / 3))%nat in
    do e <- mfold (enc_block b) (repeat 0 L) (seq 0 (n / 3));
    let p := (3 * (n / 3))%nat in
    let o := (4 * (n / 3))%nat in
    if Nat.ltb p n then
      do b0 <- raw_get b p;
      do e1 <- put_val e o (N.shiftr b0 2);
      if Nat.eqb (n - p) 1 then
        do e2 <- put_val e1 (o + 1) (N.shiftl (N.land b0 3) 4);
        do e3 <- raw_set e2 (o + 2) eqc;
        raw_set e3 (o + 3) eqc
      else
        do b1 <- raw_get b (p + 1);
        do e2 <- put_val e1 (o + 1) (N.lor (N.shiftl (N.land b0 3) 4) (N.shiftr b1 4));
        do e3 <- put_val e2 (o + 2) (N.shiftl (N.land b1 15) 2);
        raw_set e3 (o + 3) eqc
    else Ok e.
