(** Properties C61 and C62 (dynamic time warping).  Model in DtwModel.v,
    vocabulary in DtwSpec.v. *)
From Coq Require Import Reals.
From Flocq Require Import Core BinarySingleNaN.
From Verif Require Import Base Effect Double DtwModel DtwSpec DtwProof DtwCost.
Local Open Scope Z_scope.

(** C61 (full claim: the result is the least cost of a warping of the two
    sequences).  False: when the cells above and to the left tie, the diagonal
    cell is used although it may be larger. *)
Theorem C61_minimum_refuted : exists (z : nat -> nat -> Z) (first second : list nat) c c',
  (forall a b, 0 <= z a b <= 5) /\
  FreshWarpingCost dlt dadd d0 dinf (fun a b => Ok (d_of_Z (z a b))) first second = Ok c /\
  warping_cost dadd d0 (fun a b => d_of_Z (z a b)) first second c' /\ dlt c' c = true.
Proof. exact dtw_not_minimal. Qed.
Print Assumptions C61_minimum_refuted.

(** C61, proved part: the result is the cost of some warping (so not below the
    least one), if the costs of warpings do not overflow; *)
Theorem C61_cost_of_a_warping_partial : forall (A B : Type) (d : A -> B -> double) first second,
  first <> [] -> second <> [] ->
  (forall i j c, warping dadd d0 d first second i j c -> dlt c dinf = true) ->
  exists c, FreshWarpingCost dlt dadd d0 dinf (fun a b => Ok (d a b)) first second = Ok c /\
    warping_cost dadd d0 d first second c.
Proof. exact @dtw_warping. Qed.
Print Assumptions C61_cost_of_a_warping_partial.
(** in any arithmetic with an order in which infinity is not below anything; *)
Theorem C61_cost_of_a_warping_general_partial :
  forall (D A B : Type) (ltb : D -> D -> bool) (add : D -> D -> D) (zero inf : D) (d : A -> B -> D) first second,
  (forall x, ltb inf x = false) ->
  (forall i j c, warping add zero d first second i j c -> ltb c inf = true) ->
  first <> [] -> second <> [] ->
  exists c, FreshWarpingCost ltb add zero inf (fun a b => Ok (d a b)) first second = Ok c /\
    warping_cost add zero d first second c.
Proof.
  intros D A B ltb add zero inf d first second HI HF NF NS.
  exact (warp_evaluate ltb add zero inf d first second HI HF _ NF NS (make_usable zero inf 0 0 (Z.le_refl 0) (Z.le_refl 0))).
Qed.
Print Assumptions C61_cost_of_a_warping_general_partial.
(** and it is the least cost, 0, when the sequences match item by item. *)
Theorem C61_equal_sequences_partial : forall (A B : Type) (d : A -> B -> double) first second, first <> [] ->
  (forall a b, dlt (d a b) d0 = false) -> length first = length second ->
  (forall t a b, nth_error first t = Some a -> nth_error second t = Some b -> d a b = d0) ->
  FreshWarpingCost dlt dadd d0 dinf (fun a b => Ok (d a b)) first second = Ok d0.
Proof. exact @dtw_zero. Qed.
Print Assumptions C61_equal_sequences_partial.
Theorem C61_empty_sequences_rejected : forall (D A B : Type) (ltb : D -> D -> bool) (add : D -> D -> D) (zero inf : D)
    (dist : A -> B -> outcome D) first second m, first = [] \/ second = [] ->
  EvaluateWarpingCost ltb add zero inf dist first second m = (Throw InvalidArgument, m).
Proof.
  intros D A B ltb add zero inf dist first second m [->| ->]; [reflexivity|]. unfold EvaluateWarpingCost.
  destruct (length first =? 0)%nat; reflexivity.
Qed.
Print Assumptions C61_empty_sequences_rejected.

(** Costs without overflow: any with bounded integer distances. *)
Example C61_nonvacuous : forall (A B : Type) (z : A -> B -> Z) first second K, 0 <= K ->
  (forall a b, 0 <= z a b <= K) -> (Z.of_nat (length first) + Z.of_nat (length second)) * K <= 2 ^ 53 ->
  forall i j c, warping dadd d0 (fun a b => d_of_Z (z a b)) first second i j c -> dlt c dinf = true.
Proof. exact @warping_small_fits. Qed.
Example C61_nonvacuous_run : FreshWarpingCost Z.ltb Z.add 0 1000 (fun a b => Ok (Z.abs (a - b))) [1; 5; 7; 7] [1; 2; 6; 7] = Ok 2.
Proof. vm_compute. reflexivity. Qed.

(** C62: for every history of evaluations, with any distance functions, whether
    or not they threw. *)
Theorem C62_reuse : forall (D A B : Type) (ltb : D -> D -> bool) (add : D -> D -> D) (zero inf : D)
    n k (h : list ((A -> B -> outcome D) * list A * list B)) (dist : A -> B -> outcome D) first second, 0 <= n -> 0 <= k ->
  fst (EvaluateWarpingCost ltb add zero inf dist first second (after_history ltb add zero inf h (MakeDTW zero inf n k))) =
  FreshWarpingCost ltb add zero inf dist first second.
Proof. exact @reuse. Qed.
Print Assumptions C62_reuse.
Example C62_nonvacuous :
  let h := [(fun a b : Z => Ok (Z.abs (a - b)), [1; 2; 3], [4]); (fun a b => if b =? 2 then Throw (UserException 0) else Ok a, [1; 1], [1; 2; 3])] in
  fst (EvaluateWarpingCost Z.ltb Z.add 0 1000 (fun a b => Ok (Z.abs (a - b))) [1; 5] [1; 2; 6]
         (after_history Z.ltb Z.add 0 1000 h (MakeDTW 0 1000 2 0))) = Ok 2.
Proof. vm_compute. reflexivity. Qed.
