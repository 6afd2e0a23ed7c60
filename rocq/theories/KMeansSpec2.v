(** Specification vocabulary for C169. *)
From Coq Require Import Reals.
From Verif Require Import Base.

(** Two averaging functions that agree wherever there is something to average. *)
Definition same_averages {Data W} (f f' : list Data -> list W -> Data) : Prop :=
  forall xs ws, xs <> [] -> f xs ws = f' xs ws.

(** Exact Euclidean means: [cost] is a squared distance, and how much nearer the
    mean is to [b] than to [a] is the weighted average of how much nearer the
    averaged points are. *)
Record euclidean_means {Data D W} (ltb : D -> D -> bool) (distance_fn : Data -> Data -> D)
    (weighted_average_fn : list Data -> list W -> Data) (weight : W -> R) (cost : Data -> Data -> R) : Prop := mkEuclid {
  eu_order : forall a b x, ltb (distance_fn a x) (distance_fn b x) = true <-> (cost a x < cost b x)%R;
  eu_positive : forall a x, (0 <= cost a x)%R;
  eu_zero : forall a x, cost a x = 0%R <-> a = x;
  eu_mean : forall xs : list (Data * W), xs <> [] -> (forall p, In p xs -> (0 < weight (snd p))%R) ->
    let mean := weighted_average_fn (map fst xs) (map snd xs) in
    forall a b, (fold_right Rplus 0 (map (fun p => weight (snd p)) xs) * (cost a mean - cost b mean) =
                 fold_right Rplus 0 (map (fun p => weight (snd p) * (cost a (fst p) - cost b (fst p))) xs))%R }.
