(** Every nesting of the serialization combinators, as a small language of
    "shapes", each with its C++ value type, serializer and deserializer. *)
From Verif Require Import Base SerializationModel SerializationSpec.
Local Open Scope N_scope.

Inductive shape : Type :=
| ShUint (w : nat)                 (* unsigned integer of w bytes *)
| ShString (w : nat)               (* basic_string of w-byte characters *)
| ShMemVector (w : nat)            (* memcpy-able vector of w-byte integers *)
| ShVector (s : shape)
| ShPair (a b : shape)
| ShMap (k v : shape)
| ShSet (k : shape).

(** C++ value of a shape; maps and sets are their entries in iteration order. *)
Fixpoint val (s : shape) : Type :=
  match s with
  | ShUint _ => N
  | ShString _ => list N
  | ShMemVector _ => list N
  | ShVector a => list (val a)
  | ShPair a b => (val a * val b)%type
  | ShMap k v => list (val k * val v)
  | ShSet k => list (val k)
  end.

Fixpoint list_eqb {A} (eqb : A -> A -> bool) (l1 l2 : list A) : bool :=
  match l1, l2 with
  | [], [] => true
  | x :: r, y :: s => eqb x y && list_eqb eqb r s
  | _, _ => false
  end.

(** Key equality. *)
Fixpoint val_eqb (s : shape) : val s -> val s -> bool :=
  match s with
  | ShUint _ => N.eqb
  | ShString _ => list_eqb N.eqb
  | ShMemVector _ => list_eqb N.eqb
  | ShVector a => list_eqb (val_eqb a)
  | ShPair a b => fun x y => val_eqb a (fst x) (fst y) && val_eqb b (snd x) (snd y)
  | ShMap k v => list_eqb (fun x y => val_eqb k (fst x) (fst y) && val_eqb v (snd x) (snd y))
  | ShSet k => list_eqb (val_eqb k)
  end.

(** Shapes the templates accept: positive widths; for the network variants only
    the widths of the static_assert. *)
Fixpoint shape_ok (net : bool) (s : shape) : Prop :=
  match s with
  | ShUint w | ShString w =>
      if net then w = 1%nat \/ w = 2%nat \/ w = 4%nat \/ w = 8%nat
      else (0 < w)%nat /\ N.of_nat w < 2 ^ 63
  | ShMemVector w => net = false /\ (0 < w)%nat
  | ShVector a | ShSet a => shape_ok net a
  | ShPair a b | ShMap a b => shape_ok net a /\ shape_ok net b
  end.

(** Values that exist in C++: integers in range, containers within max_size,
    distinct keys. *)
Fixpoint val_ok (max_size : shape -> N) (s : shape) : val s -> Prop :=
  match s with
  | ShUint w => fun v => v < 256 ^ N.of_nat w
  | ShString w => fun v => Forall (fun c => c < 256 ^ N.of_nat w) v /\ len64 v < 2 ^ 64 /\ len64 v <= max_size (ShString w)
  | ShMemVector w => fun v => Forall (fun c => c < 256 ^ N.of_nat w) v /\ len64 v < 2 ^ 64 /\ len64 v <= max_size (ShMemVector w)
  | ShVector a => fun v => Forall (val_ok max_size a) v /\ len64 v < 2 ^ 64 /\ len64 v <= max_size (ShVector a)
  | ShPair a b => fun v => val_ok max_size a (fst v) /\ val_ok max_size b (snd v)
  | ShMap a b => fun v => Forall (fun e => val_ok max_size a (fst e) /\ val_ok max_size b (snd e)) v
                          /\ len64 v < 2 ^ 64 /\ NoDup (map fst v)
  | ShSet a => fun v => Forall (val_ok max_size a) v /\ len64 v < 2 ^ 64 /\ NoDup v
  end.

(** The library's serializer for a shape ([net]: Network variants; [le]: host
    byte order). *)
Fixpoint shape_ser (net le : bool) (s : shape) : Serializer (val s) :=
  match s with
  | ShUint w => if net then SerializeNetworkMemcpyable le (uint_rep le w) else SerializeMemcpyable (uint_rep le w)
  | ShString w => SerializeString net le (uint_rep le w)
  | ShMemVector w => SerializeMemcpyableVectorLike le (uint_rep le w)
  | ShVector a => SerializeVectorLike net le (shape_ser net le a)
  | ShPair a b => SerializePair (shape_ser net le a) (shape_ser net le b)
  | ShMap k v => SerializeMapLike net le (shape_ser net le k) (shape_ser net le v)
  | ShSet k => SerializeSetLike net le (shape_ser net le k)
  end.

(** The library's deserializer for a shape. *)
Fixpoint shape_des (net le : bool) (max_size : shape -> N) (s : shape) : Deserializer (val s) :=
  match s with
  | ShUint w => if net then DeserializeNetworkMemcpyable le (uint_rep le w) else DeserializeMemcpyable (uint_rep le w)
  | ShString w => DeserializeString net le (max_size (ShString w)) (uint_rep le w)
  | ShMemVector w => DeserializeMemcpyableVectorLike le (max_size (ShMemVector w)) (uint_rep le w)
  | ShVector a => DeserializeVectorLike net le (max_size (ShVector a)) (shape_des net le max_size a)
  | ShPair a b => DeserializePair (shape_des net le max_size a) (shape_des net le max_size b)
  | ShMap k v => DeserializeMapLike net le (val_eqb k) (shape_des net le max_size k) (shape_des net le max_size v)
  | ShSet k => DeserializeSetLike net le (val_eqb k) (shape_des net le max_size k)
  end.

(** std::vector guarantees max_size() * sizeof(T) <= PTRDIFF_MAX. *)
Definition max_size_ok (max_size : shape -> N) : Prop :=
  forall w, N.of_nat w * max_size (ShMemVector w) < 2 ^ 63.
