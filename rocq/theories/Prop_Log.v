(** C167: functions that log, and C168: alignment checks. *)
From Flocq Require Import BinarySingleNaN.
From Verif Require Import Base UtilityModel UtilityModel2 UtilitySpec2 UtilityProof2 Double LogModel.
Local Open Scope Z_scope.

(** C167: whether a logging function is given and what it does with the message never changes
    the value: with a logger that returns, or without one, the result is that of the
    function without logging; *)
Theorem C167_same_value : forall (T : Type) (ltb leb : T -> T -> bool) (logging_fn : logger T),
  (forall f, logging_fn = Some f -> forall m, f m = Ok tt) ->
  (forall val min max, snd (ClampValueAndLog ltb leb val min max logging_fn) = ClampValue ltb (fun a b => leb b a) val min max) /\
  (forall val low mid high, snd (SpreadValueAndLog ltb leb val low mid high logging_fn) = SpreadValue ltb leb val low mid high).
Proof.
  intros T ltb leb [f|] L; [specialize (L f eq_refl)|clear L]; split; intros; unfold ClampValueAndLog, SpreadValueAndLog, ClampValue, SpreadValue, logging.
  - destruct (leb min max); [|reflexivity]. destruct (ltb val min); [cbn; now rewrite L|]. destruct (ltb max val); [cbn; now rewrite L|reflexivity].
  - destruct (leb low mid && leb mid high); [|reflexivity]. destruct (leb mid val && ltb val high); [cbn; now rewrite L|]. destruct (ltb val mid && ltb low val); [cbn; now rewrite L|reflexivity].
  - destruct (leb min max); [|reflexivity]. destruct (ltb val min); [reflexivity|]. destruct (ltb max val); reflexivity.
  - destruct (leb low mid && leb mid high); [|reflexivity]. destruct (leb mid val && ltb val high); [reflexivity|]. destruct (ltb val mid && ltb low val); reflexivity.
Qed.
(** the logger is called exactly when the value returned is another one than the value given,
    once, with both; *)
Theorem C167_exactly_changes : forall (T : Type) (ltb leb : T -> T -> bool), total_order ltb leb -> forall f : message T -> outcome unit,
  (forall val min max r, ClampValue ltb (fun a b => leb b a) val min max = Ok r ->
     (r = val /\ fst (ClampValueAndLog ltb leb val min max (Some f)) = []) \/
     (r <> val /\ r = min /\ fst (ClampValueAndLog ltb leb val min max (Some f)) = [ClampingToMin val r]) \/
     (r <> val /\ r = max /\ fst (ClampValueAndLog ltb leb val min max (Some f)) = [ClampingToMax val r])) /\
  (forall val low mid high r, SpreadValue ltb leb val low mid high = Ok r ->
     (r = val /\ fst (SpreadValueAndLog ltb leb val low mid high (Some f)) = []) \/
     (r <> val /\ r = low /\ fst (SpreadValueAndLog ltb leb val low mid high (Some f)) = [ThresholdingToLow val r]) \/
     (r <> val /\ r = high /\ fst (SpreadValueAndLog ltb leb val low mid high (Some f)) = [ThresholdingToHigh val r])).
Proof.
  intros T ltb leb TO f. assert (IR : forall a b, ltb a b = true -> a <> b).
  { intros a b H ->. rewrite (ltf ltb leb TO b b (le_refl ltb leb TO b)) in H. discriminate. }
  split; unfold ClampValueAndLog, SpreadValueAndLog, ClampValue, SpreadValue, logging.
  - intros val min max r. destruct (leb min max); [|discriminate]. destruct (ltb val min) eqn:A; [|destruct (ltb max val) eqn:B]; intros E; injection E as <-; cbn.
    + right. left. split; [apply not_eq_sym, IR, A|auto].
    + right. right. split; [apply IR, B|auto].
    + left. auto.
  - intros val low mid high r. destruct (leb low mid && leb mid high); [|discriminate].
    destruct (leb mid val && ltb val high) eqn:A; [|destruct (ltb val mid && ltb low val) eqn:B]; intros E; injection E as <-; cbn.
    + apply Bool.andb_true_iff in A as [_ A]. right. right. split; [apply not_eq_sym, IR, A|auto].
    + apply Bool.andb_true_iff in B as [_ B]. right. left. split; [apply IR, B|auto].
    + left. auto.
Qed.
(** an exception of the logger reaches the caller, and only when there was something to log. *)
Theorem C167_logger_throws : forall (T : Type) (ltb leb : T -> T -> bool) (f : message T -> outcome unit) e, (forall m, f m = Throw e) ->
  (forall val min max, let '(log, r) := ClampValueAndLog ltb leb val min max (Some f) in
     (log <> [] -> r = Throw e) /\ (log = [] -> r = ClampValue ltb (fun a b => leb b a) val min max)) /\
  (forall val low mid high, let '(log, r) := SpreadValueAndLog ltb leb val low mid high (Some f) in
     (log <> [] -> r = Throw e) /\ (log = [] -> r = SpreadValue ltb leb val low mid high)) /\
  (forall address alignment, alignment <> 0 -> forall g : message unit -> outcome unit, (forall m, g m = Throw e) -> snd (CheckAlignment address alignment (Some g)) = Throw e).
Proof.
  intros T ltb leb f e F. split; [|split].
  - intros. unfold ClampValueAndLog, ClampValue, logging. destruct (leb min max); [|split; congruence]. destruct (ltb val min); [rewrite F; split; [reflexivity|discriminate]|].
    destruct (ltb max val); [rewrite F; split; [reflexivity|discriminate]|]. split; congruence.
  - intros. unfold SpreadValueAndLog, SpreadValue, logging. destruct (leb low mid && leb mid high); [|split; congruence].
    destruct (leb mid val && ltb val high); [rewrite F; split; [reflexivity|discriminate]|]. destruct (ltb val mid && ltb low val); [rewrite F; split; [reflexivity|discriminate]|]. split; congruence.
  - intros a d N g G. unfold CheckAlignment, logging. destruct (Z.eqb_spec d 0); [contradiction|]. destruct (a mod d =? 0); cbn; now rewrite G.
Qed.
Print Assumptions C167_same_value.
Print Assumptions C167_exactly_changes.
Print Assumptions C167_logger_throws.
Example C167_nonvacuous :
  ClampValueAndLog Z.ltb Z.leb 7 1 5 (Some (fun _ => Ok tt)) = ([ClampingToMax 7 5], Ok 5) /\
  ClampValueAndLog Z.ltb Z.leb 3 1 5 (Some (fun _ => Throw RuntimeError)) = ([], Ok 3) /\
  SpreadValueAndLog Z.ltb Z.leb 3 1 4 5 (Some (fun _ => Throw RuntimeError)) = ([ThresholdingToLow 3 1], Throw RuntimeError).
Proof. repeat split. Qed.

(** C168: CheckAlignment says whether the address is a multiple of the alignment, logger or
    not; RequireAlignment and RequireEigenAlignment throw exactly when it is not. *)
Theorem C168_check_partial : forall address alignment (logging_fn : logger unit), 0 < alignment ->
  (forall f, logging_fn = Some f -> forall m, f m = Ok tt) ->
  (snd (CheckAlignment address alignment logging_fn) = Ok true <-> exists k, address = k * alignment) /\
  (snd (CheckAlignment address alignment logging_fn) = Ok false <-> ~ exists k, address = k * alignment) /\
  (logging_fn <> None -> exists m, fst (CheckAlignment address alignment logging_fn) = [m]).
Proof.
  intros a d lg D L. assert (M : a mod d = 0 <-> exists k, a = k * d) by (rewrite Z.mod_divide by lia; reflexivity).
  unfold CheckAlignment. destruct (Z.eqb_spec d 0); [lia|].
  assert (S : forall m (b : bool), snd (logging lg m (Ok b)) = Ok b) by (intros m b; destruct lg as [f|]; cbn; [rewrite (L f eq_refl)|]; reflexivity).
  destruct (Z.eqb_spec (a mod d) 0) as [E|E]; rewrite !S; rewrite <- M; repeat split; intros; try congruence; try contradiction.
  all: destruct lg; [eexists; reflexivity|congruence].
Qed.
Theorem C168_require_partial : forall address alignment, 0 < alignment ->
  (RequireAlignment address alignment = Ok tt <-> exists k, address = k * alignment) /\
  (RequireAlignment address alignment = Throw RuntimeError <-> ~ exists k, address = k * alignment) /\
  RequireEigenAlignment alignment address = RequireAlignment address alignment.
Proof.
  intros a d D. assert (M : a mod d = 0 <-> exists k, a = k * d) by (rewrite Z.mod_divide by lia; reflexivity).
  unfold RequireEigenAlignment, RequireAlignment. destruct (Z.eqb_spec d 0); [lia|]. rewrite <- M. destruct (Z.eqb_spec (a mod d) 0) as [E|E]; cbn; repeat split; intros; congruence.
Qed.
(** Not for every alignment: with 0, which is EIGEN_DEFAULT_ALIGN_BYTES when Eigen is told not
    to align, the calls divide by zero. *)
Theorem C168_zero_refuted : ~ forall address alignment, 0 <= alignment ->
  RequireEigenAlignment alignment address <> UB /\ snd (CheckAlignment address alignment None) <> UB.
Proof. intros H. destruct (H 64 0 ltac:(lia)) as [A _]. apply A. reflexivity. Qed.
Print Assumptions C168_check_partial.
Print Assumptions C168_require_partial.
Print Assumptions C168_zero_refuted.
Example C168_nonvacuous : CheckAlignment 4112 16 (Some (fun _ => Ok tt)) = ([AlignedTo 4112 16], Ok true) /\ CheckAlignment 4113 16 None = ([], Ok false) /\
  RequireEigenAlignment 32 4112 = Throw RuntimeError.
Proof. repeat split. Qed.
