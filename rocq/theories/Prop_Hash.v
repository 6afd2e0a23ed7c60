(** C166: hashes agree with equality, and C167: logging variants.  *)
From Flocq Require Import BinarySingleNaN.
From Verif Require Import Base Double VoxelModel HashedModel HashModel.
Local Open Scope Z_scope.

(** What the standard asks of std::hash<K>: a size_t, the same for keys that compare equal. *)
Definition is_hash {K} (equal : K -> K -> bool) (hash : K -> Z) : Prop :=
  (forall k, 0 <= hash k < 2 ^ 64) /\ (forall a b, equal a b = true -> hash a = hash b).

Lemma word_range z : 0 <= size_word z < 2 ^ 64.
Proof. apply Z.mod_pos_bound. reflexivity. Qed.
Lemma lxor_range a b : 0 <= a < 2 ^ 64 -> 0 <= b < 2 ^ 64 -> 0 <= Z.lxor a b < 2 ^ 64.
Proof.
  intros A B. split; [apply Z.lxor_nonneg; tauto|].
  assert (H : Z.lxor a b = Z.lxor a b mod 2 ^ 64); [|rewrite H; apply Z.mod_pos_bound; reflexivity].
  apply Z.bits_inj'. intros n Hn. destruct (Z.ltb_spec n 64).
  - rewrite Z.mod_pow2_bits_low by lia. reflexivity.
  - rewrite Z.mod_pow2_bits_high by lia. rewrite Z.lxor_spec.
    rewrite <- (Z.mod_small a (2 ^ 64)), <- (Z.mod_small b (2 ^ 64)) by lia. rewrite !Z.mod_pow2_bits_high by lia. reflexivity.
Qed.
Lemma step_range s h : 0 <= s < 2 ^ 64 -> 0 <= hash_step s h < 2 ^ 64.
Proof. intros S. apply lxor_range; [exact S|apply word_range]. Qed.
Lemma combine_range hs : forall s, 0 <= s < 2 ^ 64 -> 0 <= hash_combine s hs < 2 ^ 64.
Proof. induction hs as [|h hs IH]; intros s S; [exact S|]. apply IH, step_range, S. Qed.
Lemma lxor_cancel a b c : Z.lxor a b = Z.lxor a c -> b = c.
Proof. intros H. apply (f_equal (Z.lxor a)) in H. rewrite <- !Z.lxor_assoc, Z.lxor_nilpotent, !Z.lxor_0_l in H. exact H. Qed.
Lemma step_inj s h h' : 0 <= h < 2 ^ 64 -> 0 <= h' < 2 ^ 64 -> hash_step s h = hash_step s h' -> h = h'.
Proof.
  intros A B H. apply lxor_cancel in H. unfold size_word in H at 1. unfold size_word in H at 2.
  set (c := 0x9e3779b9 + size_word (Z.shiftl s 6) + Z.shiftr s 2) in *.
  replace (h + 0x9e3779b9 + size_word (Z.shiftl s 6) + Z.shiftr s 2) with (h + c) in H by (unfold c; lia).
  replace (h' + 0x9e3779b9 + size_word (Z.shiftl s 6) + Z.shiftr s 2) with (h' + c) in H by (unfold c; lia).
  rewrite <- (Z.mod_small h (2 ^ 64)), <- (Z.mod_small h' (2 ^ 64)) by lia.
  replace h with (h + c - c) by lia. replace h' with (h' + c - c) by lia.
  rewrite <- Zminus_mod_idemp_l. rewrite <- (Zminus_mod_idemp_l (h' + c)). f_equal. f_equal. exact H.
Qed.

(** C166: the hash of a type made hashable by the macro is a hash for any equality under which
    the members of equal values have equal hashes; *)
Theorem C166_macro : forall (T : Type) (equal : T -> T -> bool) members,
  (forall a b, equal a b = true -> members a = members b) -> is_hash equal (make_hashable members).
Proof. intros T eq ms H. split; [intros k; apply combine_range; lia|]. intros a b E. unfold make_hashable. now rewrite (H a b E). Qed.
(** so are those of grid indices and of chunk regions, for every std::hash of int64_t and
    double (of which the standard asks that 0.0 and -0.0 have the same); *)
Theorem C166_index : forall hash_int, is_hash Z.eqb hash_int -> is_hash GridIndexEqual (GridIndexHash hash_int).
Proof.
  intros h [R E]. split; [intros [[x y] z]; apply combine_range; lia|]. intros [[x y] z] [[x' y'] z'] H. cbn in *.
  apply Bool.andb_true_iff in H as [H H3]. apply Bool.andb_true_iff in H as [H1 H2]. now rewrite (E _ _ H1), (E _ _ H2), (E _ _ H3).
Qed.
Theorem C166_region : forall hash_double, is_hash Beqb hash_double -> is_hash region_eqb (ChunkRegionHash hash_double).
Proof.
  intros h [R E]. split; [intros [[x y] z]; apply combine_range; lia|]. intros [[x y] z] [[x' y'] z'] H. cbn in *.
  apply Bool.andb_true_iff in H as [H H3]. apply Bool.andb_true_iff in H as [H1 H2]. now rewrite (E _ _ H1), (E _ _ H2), (E _ _ H3).
Qed.
(** hence the table of chunks, which looks only into the bucket of the hash, finds a chunk
    exactly when there is one with an equal key, whatever the number of buckets; *)
Theorem C166_lookup : forall hash_double, is_hash Beqb hash_double -> forall (C : Type) buckets (m : list (region * C)) r,
  bucket_find (ChunkRegionHash hash_double) buckets m r = match find (fun e => region_eqb (fst e) r) m with Some e => Some (snd e) | None => None end.
Proof.
  intros h H C n m r. unfold bucket_find. destruct (C166_region h H) as [_ E].
  induction m as [|e m IH]; [reflexivity|]. cbn [find]. destruct (region_eqb (fst e) r) eqn:X.
  - rewrite (E _ _ X), Z.eqb_refl. reflexivity.
  - rewrite Bool.andb_false_r. exact IH.
Qed.
(** and values that differ only in their last member differ in their hashes when the hashes of
    that member do: distinct cells of one column of a grid have distinct hashes where std::hash
    of int64_t is injective (libstdc++: the identity). *)
Theorem C166_last_member : forall seed members h h', 0 <= h < 2 ^ 64 -> 0 <= h' < 2 ^ 64 -> h <> h' ->
  hash_combine seed (members ++ [h]) <> hash_combine seed (members ++ [h']).
Proof.
  intros seed ms h h' A B N H. unfold hash_combine in H. rewrite !fold_left_app in H. cbn [fold_left] in H. now apply step_inj in H.
Qed.
Theorem C166_column : forall hash_int, is_hash Z.eqb hash_int -> (forall a b, - 2 ^ 63 <= a < 2 ^ 63 -> - 2 ^ 63 <= b < 2 ^ 63 -> hash_int a = hash_int b -> a = b) ->
  forall x y z z', - 2 ^ 63 <= z < 2 ^ 63 -> - 2 ^ 63 <= z' < 2 ^ 63 -> z <> z' -> GridIndexHash hash_int (x, y, z) <> GridIndexHash hash_int (x, y, z').
Proof.
  intros h [R _] I x y z z' Z1 Z2 N. cbn [GridIndexHash]. apply (C166_last_member 0 [h x; h y]); [apply R..|]. intros E. now apply N, I.
Qed.
Print Assumptions C166_macro.
Print Assumptions C166_index.
Print Assumptions C166_region.
Print Assumptions C166_lookup.
Print Assumptions C166_last_member.
Print Assumptions C166_column.

(** std::hash of libstdc++ for integers, and a hash of doubles that ignores the sign of zero. *)
Definition identity_hash (z : Z) : Z := z mod 2 ^ 64.
Definition sample_hash (x : double) : Z :=
  match x with B754_finite s m e _ => (if s then 1 else 2 * Z.pos m + 4096 * e) mod 2 ^ 64 | B754_infinity s => if s then 3 else 5 | _ => 0 end.
Example C166_nonvacuous : is_hash Z.eqb identity_hash /\
  (forall a b, - 2 ^ 63 <= a < 2 ^ 63 -> - 2 ^ 63 <= b < 2 ^ 63 -> identity_hash a = identity_hash b -> a = b) /\
  is_hash Beqb sample_hash /\
  GridIndexHash identity_hash (1, -2, 3) <> GridIndexHash identity_hash (1, -2, 4) /\
  ChunkRegionHash sample_hash (d_of_Z 0, d_of_Z 1, d_of_Z 2) = ChunkRegionHash sample_hash (Bopp (d_of_Z 0), d_of_Z 1, d_of_Z 2) /\
  ChunkRegionHash sample_hash (d_of_Z 0, d_of_Z 1, d_of_Z 2) <> ChunkRegionHash sample_hash (d_of_Z 0, d_of_Z 1, d_of_Z 3).
Proof.
  split; [split; [intros k; apply Z.mod_pos_bound; reflexivity|intros a b E; apply Z.eqb_eq in E; now rewrite E]|].
  split.
  { intros a b A B E. unfold identity_hash in E.
    assert (M : forall z, - 2 ^ 63 <= z < 2 ^ 63 -> z mod 2 ^ 64 = if z <? 0 then z + 2 ^ 64 else z).
    { intros z Hz. destruct (Z.ltb_spec z 0); [|apply Z.mod_small; lia]. symmetry. apply Z.mod_unique with (q := -1); lia. }
    rewrite !M in E by assumption. destruct (Z.ltb_spec a 0), (Z.ltb_spec b 0); lia. }
  split.
  { split.
    - intros [s|s| |s m e H]; cbn; try (destruct s; lia); try lia. apply Z.mod_pos_bound. reflexivity.
    - intros x y E. destruct x as [s|s| |s m e H], y as [s'|s'| |s' m' e' H']; try reflexivity; try discriminate; cbn in E |- *.
      all: try (destruct s; discriminate). all: try (destruct s'; discriminate).
      + destruct s, s'; try discriminate; reflexivity.
      + unfold Beqb in E. cbn in E. unfold SpecFloat.SFeqb, SpecFloat.SFcompare in E. destruct s, s'; try discriminate.
        all: destruct (Z.compare_spec e e'); try discriminate. all: destruct (Pos.compare_cont Eq m m') eqn:C; try discriminate.
        all: change (Pos.compare_cont Eq m m') with (Pos.compare m m') in C; apply Pos.compare_eq in C; subst; reflexivity. }
  split; [vm_compute; discriminate|]. split; [reflexivity|]. vm_compute. discriminate.
Qed.
