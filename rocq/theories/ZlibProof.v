(** Proofs about ZlibModel.v. *)
From Coq Require Import Init.Byte.
From Verif Require Import Base ZlibModel ZlibSpec.

Lemma bufsize_N : N.of_nat BUFSIZE = 1048576%N. Proof. unfold BUFSIZE. rewrite N2Nat.id. reflexivity. Qed.
Lemma bufsize_pos : (0 < BUFSIZE)%nat. Proof. pose proof bufsize_N. lia. Qed.
#[global] Opaque BUFSIZE.

Lemma write_spec temp pos out : (pos + length out <= length temp)%nat -> exists t, write_out temp pos out = Ok t /\ length t = length temp /\
  firstn (pos + length out) t = firstn pos temp ++ out.
Proof.
  intros H. unfold write_out. rewrite (proj2 (Nat.leb_le _ _) H). eexists. split; [reflexivity|]. split.
  - rewrite !app_length, firstn_length, skipn_length. lia.
  - rewrite app_assoc, firstn_app, !app_length, firstn_length, Nat.min_l by lia. rewrite Nat.sub_diag. cbn [firstn]. rewrite app_nil_r.
    apply firstn_all2. rewrite app_length, firstn_length. lia.
Qed.

Section P.
Variable z : zlib.
Variable stream : list byte -> list byte -> Prop.
Variables (D F : dstate z -> list byte -> list byte -> Prop) (I : istate z -> list byte -> list byte -> Prop).
Hypothesis C : zlib_contract z stream D F I.

(** ** Inflate *)
Lemma inflate_run fuel : forall st input temp p c,
  I st c p -> length temp = BUFSIZE -> (N.of_nat (length (c ++ input)) <= 4294967295)%N -> (length input + (1032 * length (c ++ input) - length p) < fuel)%nat ->
  let r := inflate_loop z fuel st input temp (N.of_nat (length p)) p in
  (exists s d, stream s d /\ r = Ok d /\ exists rest, c ++ input = s ++ rest) \/
  (r = Throw RuntimeError /\ ~ exists s d rest, stream s d /\ c ++ input = s ++ rest).
Proof.
  induction fuel as [|fuel IH]; intros st input temp p c HI HT HB HF; [lia|]. cbn zeta. cbn [inflate_loop].
  destruct (inflate z st input BUFSIZE) as [[[ret st'] n] out] eqn:E.
  destruct (zc_inflate _ _ _ _ _ C st c p input BUFSIZE ret st' n out HI bufsize_pos E) as (LO & LN & OKC & ENDC & NOERR).
  destruct (write_spec temp 0 out) as (temp' & W & LT & FT); [lia|]. rewrite W. cbn [bind]. cbn [Nat.add firstn app] in FT.
  pose proof bufsize_N as BN. pose proof (zc_ibound _ _ _ _ _ C _ _ _ HI) as IB. rewrite app_length in HB, HF.
  set (tot := ((N.of_nat (length p) + N.of_nat (length out)) mod 2 ^ 64)%N).
  assert (ET : tot = N.of_nat (length (p ++ out))).
  { unfold tot. rewrite app_length, Nat2N.inj_add. apply N.mod_small. lia. }
  assert (EB : (if (N.of_nat (length p) <? tot)%N then p ++ firstn (BUFSIZE - (BUFSIZE - length out)) temp' else p) = p ++ out).
  { replace (BUFSIZE - (BUFSIZE - length out))%nat with (length out) by lia. rewrite FT. destruct (N.ltb_spec (N.of_nat (length p)) tot) as [|G]; [reflexivity|].
    rewrite ET, app_length in G. destruct out as [|o out]; [symmetry; apply app_nil_r|]. cbn [length] in G. lia. }
  rewrite EB. clear EB. rewrite ET. clear tot ET.
  assert (SPLIT : (c ++ firstn n input) ++ skipn n input = c ++ input) by (rewrite <- app_assoc, firstn_skipn; reflexivity).
  destruct ret as [| |code].
  - destruct (OKC eq_refl) as [PR HI']. pose proof (zc_ibound _ _ _ _ _ C _ _ _ HI') as IB'.
    assert (SPL : length (firstn n input) = n) by (rewrite firstn_length; lia). rewrite !app_length in IB'. rewrite SPL in IB'.
    destruct (IH st' (skipn n input) temp' (p ++ out) (c ++ firstn n input) HI') as [(s & d & S & R & rest & X)|(R & X)].
    + congruence.
    + rewrite SPLIT, app_length. lia.
    + rewrite SPLIT, !app_length, skipn_length. destruct PR as [PR|PR]; [lia|]. destruct out; [congruence|]. cbn [length] in *. lia.
    + left. exists s, d. split; [exact S|]. split; [exact R|]. exists rest. rewrite <- SPLIT. exact X.
    + right. split; [exact R|]. rewrite <- SPLIT. exact X.
  - left. exists (c ++ firstn n input), (p ++ out). split; [apply ENDC; reflexivity|]. split; [reflexivity|]. exists (skipn n input). symmetry. exact SPLIT.
  - right. split; [reflexivity|]. intros (s & d & r & S & X). destruct NOERR as [N|N]; [exists s, d, r; auto| |]; discriminate.
Qed.

Lemma decompress_run fuel garbage s : inflateInit z <> None -> length garbage = BUFSIZE -> fits_uint32 s = true -> enough fuel (length s) ->
  (exists s' d rest, s = s' ++ rest /\ stream s' d /\ DecompressBytes z fuel garbage s = Ok d) \/
  (DecompressBytes z fuel garbage s = Throw RuntimeError /\ ~ exists s' d rest, stream s' d /\ s = s' ++ rest).
Proof.
  intros HI LG FI EN. unfold DecompressBytes. rewrite FI. destruct (inflateInit z) as [st|] eqn:E; [|congruence].
  unfold fits_uint32 in FI. apply N.leb_le in FI. unfold enough in EN.
  destruct (inflate_run fuel st s garbage [] [] (zc_iinit _ _ _ _ _ C _ E) LG) as [(s' & d & S & R & rest & X)|(R & X)].
  - exact FI.
  - cbn [app length]. lia.
  - left. exists s', d, rest. auto.
  - right. auto.
Qed.

(** ** Deflate *)
Lemma deflate_run fuel : forall st input temp avail buffer c p,
  D st c p -> length temp = BUFSIZE -> (0 < avail <= BUFSIZE)%nat -> p = buffer ++ firstn (BUFSIZE - avail) temp ->
  (length input + (2 * length (c ++ input) + 64 - length p) < fuel)%nat ->
  exists st' temp' avail' buffer' p', deflate_loop z fuel st input temp avail buffer = Ok (st', temp', avail', buffer') /\
    D st' (c ++ input) p' /\ length temp' = BUFSIZE /\ (0 < avail' <= BUFSIZE)%nat /\ p' = buffer' ++ firstn (BUFSIZE - avail') temp'.
Proof.
  induction fuel as [|fuel IH]; intros st input temp avail buffer c p HD LT HA EP HF; [lia|].
  destruct input as [|i0 input0]; [exists st, temp, avail, buffer, p; rewrite app_nil_r; cbn [deflate_loop]; auto|].
  set (input := i0 :: input0) in *. change (deflate_loop z (S fuel) st input temp avail buffer) with
    (let '(ret, st, n, out) := deflate z st Z_NO_FLUSH input avail in do temp <- write_out temp (BUFSIZE - avail) out; let avail := (avail - length out)%nat in
       match ret with Z_OK => let '(buffer, avail) := if (avail =? 0)%nat then (buffer ++ firstn BUFSIZE temp, BUFSIZE) else (buffer, avail) in deflate_loop z fuel st (skipn n input) temp avail buffer | _ => Throw RuntimeError end).
  destruct (deflate z st Z_NO_FLUSH input avail) as [[[ret st'] n] out] eqn:E.
  assert (NE : input <> []) by discriminate.
  destruct (zc_deflate _ _ _ _ _ C st c p input avail ret st' n out HD NE ltac:(lia) E) as (-> & LN & LO & PR & HD').
  destruct (write_spec temp (BUFSIZE - avail) out) as (temp' & W & LT' & FT); [lia|]. rewrite W. cbn [bind].
  assert (SPLIT : (c ++ firstn n input) ++ skipn n input = c ++ input) by (rewrite <- app_assoc, firstn_skipn; reflexivity).
  pose proof (zc_dbound _ _ _ _ _ C _ _ _ (zc_begin_finish _ _ _ _ _ C _ _ _ HD')) as DB.
  assert (SPL : length (firstn n input) = n) by (rewrite firstn_length; lia). rewrite !app_length, SPL in DB. rewrite app_length in HF.
  assert (EP' : p ++ out = buffer ++ firstn (BUFSIZE - avail + length out) temp') by (rewrite FT, EP, app_assoc; reflexivity).
  assert (HF' : (length (skipn n input) + (2 * length ((c ++ firstn n input) ++ skipn n input) + 64 - length (p ++ out)) < fuel)%nat).
  { rewrite SPLIT, !app_length, skipn_length. destruct PR as [PR|PR]; [lia|]. destruct out; [congruence|]. cbn [length] in *. lia. }
  destruct (Nat.eqb_spec (avail - length out) 0) as [Z0|Z0].
  - rewrite <- SPLIT. apply (IH st' (skipn n input) temp' BUFSIZE (buffer ++ firstn BUFSIZE temp') (c ++ firstn n input) (p ++ out) HD').
    + congruence.
    + pose proof bufsize_pos. lia.
    + rewrite Nat.sub_diag. cbn [firstn]. rewrite app_nil_r, EP'. replace (BUFSIZE - avail + length out)%nat with BUFSIZE by lia. reflexivity.
    + exact HF'.
  - rewrite <- SPLIT. apply (IH st' (skipn n input) temp' (avail - length out)%nat buffer (c ++ firstn n input) (p ++ out) HD').
    + congruence.
    + lia.
    + rewrite EP'. replace (BUFSIZE - avail + length out)%nat with (BUFSIZE - (avail - length out))%nat by lia. reflexivity.
    + exact HF'.
Qed.

Lemma finish_run fuel : forall st temp avail buffer c p,
  F st c p -> length temp = BUFSIZE -> (avail <= BUFSIZE)%nat -> p = buffer ++ firstn (BUFSIZE - avail) temp ->
  (2 * length c + 64 - length p < fuel)%nat ->
  exists s, finish_loop z fuel st temp avail buffer = Ok s /\ stream s c.
Proof.
  induction fuel as [|fuel IH]; intros st temp avail buffer c p HF LT HA EP HFu; [lia|]. cbn [finish_loop].
  set (ba := if (avail =? 0)%nat then (buffer ++ firstn BUFSIZE temp, BUFSIZE) else (buffer, avail)).
  assert (X : exists buffer' avail', ba = (buffer', avail') /\ (0 < avail' <= BUFSIZE)%nat /\ p = buffer' ++ firstn (BUFSIZE - avail') temp).
  { unfold ba. pose proof bufsize_pos. destruct (Nat.eqb_spec avail 0) as [->|N]; eexists _, _; (split; [reflexivity|]); (split; [lia|]); [|exact EP].
    rewrite Nat.sub_diag. cbn [firstn]. rewrite app_nil_r, EP, Nat.sub_0_r. reflexivity. }
  destruct X as (buffer' & avail' & -> & HA' & EP').
  destruct (deflate z st Z_FINISH [] avail') as [[[ret st'] n] out] eqn:E.
  destruct (zc_finish _ _ _ _ _ C st c p avail' ret st' n out HF ltac:(lia) E) as [(-> & LO & HF')|(-> & LO & S)];
    (destruct (write_spec temp (BUFSIZE - avail') out) as (temp' & W & LT' & FT); [lia|]); rewrite W; cbn [bind].
  - pose proof (zc_dbound _ _ _ _ _ C _ _ _ HF') as DB. rewrite app_length in DB.
    apply (IH st' temp' (avail' - length out)%nat buffer' c (p ++ out) HF'); [congruence|lia| |rewrite app_length; lia].
    rewrite EP', <- app_assoc, <- FT. replace (BUFSIZE - (avail' - length out))%nat with (BUFSIZE - avail' + length out)%nat by lia. reflexivity.
  - eexists. split; [reflexivity|]. replace (BUFSIZE - (avail' - length out))%nat with (BUFSIZE - avail' + length out)%nat by lia.
    rewrite FT, app_assoc, <- EP'. exact S.
Qed.

Lemma compress_run fuel garbage u : deflateInit z <> None -> length garbage = BUFSIZE -> fits_uint32 u = true -> enough fuel (length u) ->
  exists s, CompressBytes z fuel garbage u = Ok s /\ stream s u.
Proof.
  intros HD LG FI EN. unfold CompressBytes. rewrite FI. destruct (deflateInit z) as [st|] eqn:E; [|congruence]. unfold enough in EN. pose proof bufsize_pos.
  destruct (deflate_run fuel st u garbage BUFSIZE [] [] [] (zc_dinit _ _ _ _ _ C _ E) LG) as (st' & temp' & avail' & buffer' & p' & R & HD' & LT & HA & EP); [lia|rewrite Nat.sub_diag; reflexivity|cbn [app length]; lia|].
  rewrite R. cbn [bind]. cbn [app] in HD'. apply (finish_run fuel st' temp' avail' buffer' u p'); [apply (zc_begin_finish _ _ _ _ _ C); exact HD'|exact LT|lia|exact EP|lia].
Qed.

(** The decompressor reads the first stream, if there is one. *)
Lemma decompress_ok fuel garbage s d rest : inflateInit z <> None -> length garbage = BUFSIZE -> fits_uint32 (s ++ rest) = true -> enough fuel (length (s ++ rest)) ->
  stream s d -> DecompressBytes z fuel garbage (s ++ rest) = Ok d.
Proof.
  intros HI LG FI EN S. destruct (decompress_run fuel garbage (s ++ rest) HI LG FI EN) as [(s' & d' & r & E & S' & R)|(_ & N)].
  - destruct (zc_stream _ _ _ _ _ C _ _ _ _ _ _ S S' E) as [_ ->]. exact R.
  - exfalso. apply N. exists s, d, rest. auto.
Qed.
Lemma decompress_err fuel garbage s : inflateInit z <> None -> length garbage = BUFSIZE -> fits_uint32 s = true -> enough fuel (length s) ->
  (forall s' d r, s = s' ++ r -> ~ stream s' d) -> DecompressBytes z fuel garbage s = Throw RuntimeError.
Proof.
  intros HI LG FI EN N. destruct (decompress_run fuel garbage s HI LG FI EN) as [(s' & d & r & E & S & _)|(R & _)]; [exfalso; eapply N; eauto|exact R].
Qed.
Lemma truncated s d k : stream s d -> (k < length s)%nat -> forall s' d' r, firstn k s = s' ++ r -> ~ stream s' d'.
Proof.
  intros S K s' d' r E S'. assert (X : s ++ [] = s' ++ (r ++ skipn k s)) by (rewrite app_nil_r, app_assoc, <- E, firstn_skipn; reflexivity).
  destruct (zc_stream _ _ _ _ _ C _ _ _ _ _ _ S S' X) as [-> _]. apply (f_equal (@length _)) in E. rewrite firstn_length, app_length in E. lia.
Qed.

(** ** Counting: some input is not made shorter than the limit *)
Fixpoint all_lists (n : nat) : list (list byte) :=
  match n with O => [[]] | S n => flat_map (fun i => match Byte.of_N (N.of_nat i) with Some b => map (cons b) (all_lists n) | None => [] end) (seq 0 256) end.
Lemma all_lists_complete n l : length l = n -> In l (all_lists n).
Proof.
  revert l. induction n as [|n IH]; intros [|b l] H; try discriminate; [left; reflexivity|]. injection H as H. cbn [all_lists]. apply in_flat_map.
  pose proof (Byte.of_to_N b) as B. assert (Byte.to_N b < 256)%N by (pose proof (Byte.to_N_bounded b); lia).
  exists (N.to_nat (Byte.to_N b)). split; [apply in_seq; lia|]. rewrite N2Nat.id, B. apply in_map. apply IH. exact H.
Qed.
Lemma all_lists_length n l : In l (all_lists n) -> length l = n.
Proof.
  revert l. induction n as [|n IH]; intros l H; [destruct H as [<-|[]]; reflexivity|]. cbn [all_lists] in H. apply in_flat_map in H as (i & _ & H).
  destruct (Byte.of_N (N.of_nat i)); [|destruct H]. apply in_map_iff in H as (l' & <- & H). cbn. f_equal. apply IH. exact H.
Qed.
Lemma exists_long (f : list byte -> list byte) n : (0 < n)%nat -> (forall a b r r', (length a <= n)%nat -> (length b <= n)%nat -> f a ++ r = f b ++ r' -> a = b) ->
  exists u, (length u <= n)%nat /\ (n < length (f u))%nat.
Proof.
  intros Pn INJ. set (dec := nodup (list_eq_dec Byte.byte_eq_dec) (all_lists n)).
  assert (ND : NoDup ([] :: dec)).
  { constructor; [|apply NoDup_nodup]. unfold dec. rewrite nodup_In. intros H. apply all_lists_length in H. cbn in H. lia. }
  assert (IN : forall u, In u ([] :: dec) -> (length u <= n)%nat).
  { intros u [<-|H]; [cbn; lia|]. unfold dec in H. rewrite nodup_In in H. apply all_lists_length in H. lia. }
  destruct (Forall_Exists_dec (fun u => (length (f u) <= n)%nat) (fun u => le_dec (length (f u)) n) ([] :: dec)) as [A|X].
  - exfalso. set (pad := fun s : list byte => s ++ repeat x00 (n - length s)).
    assert (NDM : NoDup (map (fun u => pad (f u)) ([] :: dec))).
    { assert (G : forall L, NoDup L -> (forall u, In u L -> (length u <= n)%nat) -> NoDup (map (fun u => pad (f u)) L)); [|apply G; assumption].
      intros L. induction L as [|u L IHL]; intros NL BL; cbn [map]; constructor.
      - intros H. apply in_map_iff in H as (v & E & IV). unfold pad in E. apply INJ in E; [|apply BL; right; exact IV|apply BL; left; reflexivity].
        subst v. inversion NL. contradiction.
      - inversion NL. apply IHL; [assumption|]. intros; apply BL; right; assumption. }
    assert (INC : incl (map (fun u => pad (f u)) ([] :: dec)) dec).
    { intros l H. apply in_map_iff in H as (u & <- & IU). unfold dec. apply nodup_In, all_lists_complete. unfold pad. rewrite app_length, repeat_length.
      rewrite Forall_forall in A. specialize (A u IU). cbn beta in A. lia. }
    pose proof (NoDup_incl_length NDM INC) as L. rewrite map_length in L. cbn [length] in L. lia.
  - apply Exists_exists in X as (u & IU & X). exists u. split; [apply IN; exact IU|lia].
Qed.
End P.
