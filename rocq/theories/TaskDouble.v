(** Adding zero to a double cost does not increase it. *)
From Coq Require Import Reals Lra.
From Flocq Require Import Core.Core IEEE754.BinarySingleNaN.
From Verif Require Import Base Double DoubleFacts SearchModel SearchSpec SearchDouble.
Local Open Scope Z_scope.

Lemma double_zero : forall a, cle double_cost (cadd double_cost a (czero double_cost)) a.
Proof.
  intros [a Ha]. unfold cle. cbn -[dlt dadd d0]. apply dlt_false; [now apply dadd_nonneg|exact Ha|].
  destruct (nonneg_cases a Ha) as [->|[F P]]; [left; reflexivity|]. right.
  destruct (dadd_cases a d0 Ha eq_refl) as [[E [->|[H0|(_ & _ & B')]]]|(_ & _ & F' & E' & _)]; try discriminate.
  - exfalso. change (B2R d0) with 0%R in B'. rewrite Rplus_0_r, rnd64_fix in B'. pose proof (abs_B2R_lt_emax 53 1024 a) as LT. 
    rewrite Rabs_pos_eq in LT by exact P. apply (Rlt_irrefl (bpow radix2 1024)). eapply Rle_lt_trans; [exact B'|exact LT].
  - repeat split; auto. rewrite E'. change (B2R d0) with 0%R. rewrite Rplus_0_r, rnd64_fix. lra.
Qed.
