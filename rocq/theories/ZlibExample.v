(** A small coding that meets zlib's contract (each byte is sent as 1 and the byte, the end as
    0): the hypotheses of the theorems of Prop_Zlib.v can be met. *)
From Coq Require Import Init.Byte.
From Verif Require Import Base ZlibModel ZlibSpec.

Fixpoint enc (d : list byte) : list byte := match d with [] => [] | b :: d => x01 :: b :: enc d end.
Definition toy_stream (s d : list byte) : Prop := s = enc d ++ [x00].
Definition toy_deflate (st : list byte * bool) (f : zflush) (input : list byte) (avail : nat) : zret * (list byte * bool) * nat * list byte :=
  let '(pending, fin) := st in
  match f with
  | Z_NO_FLUSH => let all := pending ++ enc input in (Z_OK, (skipn avail all, fin), length input, firstn avail all)
  | Z_FINISH =>
      let all := pending ++ (if fin then [] else [x00]) in
      if (length all <=? avail)%nat then (Z_STREAM_END, ([], true), 0%nat, all) else (Z_OK, (skipn avail all, true), 0%nat, firstn avail all)
  end.
Fixpoint toy_go (e : bool) (input : list byte) (avail : nat) : zret * bool * nat * list byte :=
  match input with
  | [] => (Z_OK, e, 0%nat, [])
  | b :: r =>
      if e then
        match avail with
        | O => (Z_OK, e, 0%nat, [])
        | S avail => let '(ret, e, n, out) := toy_go false r avail in (ret, e, S n, b :: out)
        end
      else if Byte.eqb b x00 then (Z_STREAM_END, e, 1%nat, [])
      else if Byte.eqb b x01 then let '(ret, e, n, out) := toy_go true r avail in (ret, e, S n, out)
      else (Z_OTHER (-3), e, 0%nat, [])
  end.
Definition toy_inflate (e : bool) (input : list byte) (avail : nat) : zret * bool * nat * list byte :=
  let '(ret, e, n, out) := toy_go e input avail in
  match ret with Z_OK => if (n =? 0)%nat then (Z_OTHER (-5), e, n, out) else (Z_OK, e, n, out) | _ => (ret, e, n, out) end.
Definition toy : zlib := mkZlib (list byte * bool) bool (Some ([], false)) (Some false) toy_deflate toy_inflate.

Lemma enc_app a b : enc (a ++ b) = enc a ++ enc b. Proof. induction a; cbn; congruence. Qed.
Lemma enc_length d : length (enc d) = (2 * length d)%nat. Proof. induction d; cbn [enc length]; lia. Qed.
Lemma enc_align p x d r : enc p ++ x = enc d ++ x00 :: r -> exists d', d = p ++ d' /\ x = enc d' ++ x00 :: r.
Proof.
  revert d. induction p as [|a p IH]; intros d H; [exists d; auto|]. destruct d as [|b d]; cbn in H; [discriminate|]. injection H as -> H.
  destruct (IH d H) as (d' & -> & ->). exists d'. auto.
Qed.
Definition mark (e : bool) : list byte := if e then [x01] else [].
Lemma go_spec input : forall e avail ret e' n out, toy_go e input avail = (ret, e', n, out) ->
  (n <= length input)%nat /\ (length out <= avail)%nat /\
  (ret = Z_OK -> mark e ++ firstn n input = enc out ++ mark e') /\
  (ret = Z_STREAM_END -> mark e ++ firstn n input = enc out ++ [x00]) /\
  (ret = Z_OK -> n = 0%nat -> input = [] \/ (e = true /\ avail = 0%nat)) /\
  (forall d r, mark e ++ input = enc d ++ x00 :: r -> ret = Z_OK \/ ret = Z_STREAM_END).
Proof.
  induction input as [|b input IH]; intros e avail ret e' n out H; cbn [toy_go] in H.
  - injection H as <- <- <- <-. cbn. repeat split; auto; try lia; discriminate || (intros; rewrite app_nil_r; reflexivity) || auto.
  - destruct e.
    + destruct avail as [|avail].
      * injection H as <- <- <- <-. cbn. repeat split; auto; try lia; discriminate.
      * destruct (toy_go false input avail) as [[[ret1 e1] n1] out1] eqn:E. injection H as <- <- <- <-.
        destruct (IH _ _ _ _ _ _ E) as (A & B & C & D & P & N). cbn [length firstn mark app enc] in *. repeat split; try lia.
        -- intros R. rewrite (C R). reflexivity.
        -- intros R. rewrite (D R). reflexivity.
        -- intros d r X. destruct d as [|d0 d]; cbn in X; [discriminate|]. injection X as -> X. eapply N. exact X.
    + destruct (Byte.eqb b x00) eqn:B0; [|destruct (Byte.eqb b x01) eqn:B1].
      * apply Byte.byte_dec_bl in B0. subst b. injection H as <- <- <- <-. cbn. repeat split; auto; try lia; discriminate.
      * apply Byte.byte_dec_bl in B1. subst b. destruct (toy_go true input avail) as [[[ret1 e1] n1] out1] eqn:E. injection H as <- <- <- <-.
        destruct (IH _ _ _ _ _ _ E) as (A & B & C & D & P & N). cbn [length firstn mark app enc] in *. repeat split; try lia; try assumption.
      * injection H as <- <- <- <-. cbn. repeat split; auto; try lia; try discriminate. intros d r X. exfalso.
        destruct d as [|d0 d]; cbn in X; injection X as -> X; discriminate.
Qed.

Definition toyD (st : list byte * bool) (c p : list byte) : Prop := snd st = false /\ p ++ fst st = enc c.
Definition toyF (st : list byte * bool) (c p : list byte) : Prop := if snd st then p ++ fst st = enc c ++ [x00] else p ++ fst st = enc c.
Definition toyI (e : bool) (c p : list byte) : Prop := c = enc p ++ mark e.
Lemma toy_contract : zlib_contract toy toy_stream toyD toyF toyI.
Proof.
  constructor; unfold toy_stream, toyD, toyF, toyI; cbn [toy deflateInit inflateInit deflate inflate].
  - intros s d s' d' r r' -> -> H. rewrite <- !app_assoc in H. cbn [app] in H. destruct (enc_align _ _ _ _ H) as (e & -> & X). destruct e as [|e0 e]; cbn in X; [|discriminate].
    rewrite app_nil_r. auto.
  - intros st H. injection H as <-. auto.
  - intros [pending fin] c p input avail ret st' n out [FN E] NE PA H. cbn [snd fst] in *. subst fin. cbn [toy_deflate] in H. injection H as <- <- <- <-.
    repeat split; auto.
    + rewrite firstn_length. lia.
    + left. destruct input; [congruence|cbn; lia].
    + rewrite firstn_all, enc_app, <- app_assoc, firstn_skipn, app_assoc, E. reflexivity.
  - intros [pending fin] c p [FN E]. cbn [snd fst] in *. subst fin. exact E.
  - intros [pending fin] c p avail ret st' n out E PA H. cbn [snd fst] in *. cbn [toy_deflate] in H.
    assert (X : p ++ pending ++ (if fin then [] else [x00]) = enc c ++ [x00]) by (destruct fin; [rewrite app_nil_r; exact E|rewrite app_assoc, E; reflexivity]).
    destruct (length (pending ++ (if fin then [] else [x00])) <=? avail)%nat eqn:L.
    + injection H as <- <- <- <-. apply Nat.leb_le in L. right. auto.
    + injection H as <- <- <- <-. apply Nat.leb_gt in L. left. cbn [snd fst]. repeat split; [rewrite firstn_length; lia|]. rewrite <- app_assoc, firstn_skipn. exact X.
  - intros [pending fin] c p E. cbn [snd fst] in E. destruct fin; apply (f_equal (@length _)) in E; rewrite !app_length, enc_length in E; cbn [length] in E; lia.
  - intros st H. injection H as <-. reflexivity.
  - intros e c p input avail ret e' n out -> PA H. unfold toy_inflate in H. destruct (toy_go e input avail) as [[[ret1 e1] n1] out1] eqn:E.
    destruct (go_spec _ _ _ _ _ _ _ E) as (A & B & C & D & P & N).
    assert (NN : (exists s d r, s = enc d ++ [x00] /\ (enc p ++ mark e) ++ input = s ++ r) -> (ret1 = Z_OK \/ ret1 = Z_STREAM_END) /\ input <> []).
    { intros (s & d & r & -> & X). rewrite <- !app_assoc in X. cbn [app] in X. destruct (enc_align _ _ _ _ X) as (d' & _ & Y). split; [eapply N; exact Y|].
      intros ->. rewrite app_nil_r in Y. destruct e, d'; cbn in Y; try discriminate. }
    destruct ret1 as [| |code].
    + destruct (Nat.eqb_spec n1 0) as [Z0|Z0]; injection H as <- <- <- <-.
      * repeat split; try assumption; try discriminate. intros X. destruct (NN X) as [_ NE]. destruct (P eq_refl Z0) as [->|[_ ->]]; [congruence|lia].
      * repeat split; try assumption; try discriminate.
        -- left. lia.
        -- rewrite <- app_assoc, (C eq_refl), enc_app, app_assoc. reflexivity.
        -- auto.
    + injection H as <- <- <- <-. repeat split; try assumption; try discriminate; auto. intros _. rewrite <- app_assoc, (D eq_refl), enc_app, app_assoc. reflexivity.
    + injection H as <- <- <- <-. repeat split; try assumption; try discriminate. intros X. apply NN in X as [[X|X] _]; discriminate.
  - intros e c p ->. rewrite app_length, enc_length. lia.
Qed.
Lemma toy_is_zlib : is_zlib toy toy_stream.
Proof. exists toyD, toyF, toyI. exact toy_contract. Qed.
