(** Specification vocabulary for C59 and C60. *)
From Coq Require Import Reals.
From Verif Require Import Base.
Local Open Scope Z_scope.

Section S.
Context {Data D W : Type}.
(** Is one distance smaller than another? *)
Variable ltb : D -> D -> bool.
Variable distance_fn : Data -> Data -> D.
Variable weighted_average_fn : list Data -> list W -> Data.

(** The data labelled [k], with their weights, in the order of the data. *)
Definition members (data : list Data) (weights : list W) (labels : list Z) (k : Z) : list (Data * W) :=
  map snd (filter (fun p => fst p =? k) (combine labels (combine data weights))).

(** The centre of the data labelled [k]. *)
Definition centre (data : list Data) (weights : list W) (labels : list Z) (k : Z) : Data :=
  weighted_average_fn (map fst (members data weights labels k)) (map snd (members data weights labels k)).

(** One label in [0, K) per datum, and no centre computed from those labels is
    nearer to a datum than the one its label names. *)
Record stable_assignment (data : list Data) (weights : list W) (K : Z) (labels : list Z) : Prop := mkStable {
  sa_one_each : length labels = length data;
  sa_range : forall l, In l labels -> 0 <= l < K;
  sa_nearest : forall i x l, nth_error data i = Some x -> nth_error labels i = Some l ->
    forall j, 0 <= j < K -> j <> l ->
    ltb (distance_fn (centre data weights labels j) x) (distance_fn (centre data weights labels l) x) = false }.

(** The averaging function computes exact means: some cost of a point at a centre
    (the squared distance, say) orders centres as the distance does, and the
    average is the only point that minimises the weighted total cost. *)
Record exact_means (weight : W -> R) (cost : Data -> Data -> R) : Prop := mkMeans {
  em_order : forall a b x, ltb (distance_fn a x) (distance_fn b x) = true <-> (cost a x < cost b x)%R;
  em_minimal : forall xs : list (Data * W), xs <> [] -> (forall p, In p xs -> (0 < weight (snd p))%R) ->
    let total c := fold_right Rplus 0%R (map (fun p => (weight (snd p) * cost c (fst p))%R) xs) in
    let mean := weighted_average_fn (map fst xs) (map snd xs) in
    forall c, (total mean <= total c)%R /\ (total c = total mean -> c = mean) }.
End S.

(** Random indices below the size they are drawn for, none of which is never
    drawn. *)
Definition draws_in_range (draw : Z -> nat -> Z) : Prop := forall n k, 0 < n -> 0 <= draw n k < n.
Definition draws_everything (draw : Z -> nat -> Z) : Prop := forall n i, 0 <= i < n -> exists k, draw n k = i.
