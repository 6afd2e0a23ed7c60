(** Vocabulary for the properties of UtilityModel2.v. *)
From Verif Require Import Base UtilityModel UtilityModel2.

(** The value of the last pair whose key equals [k]. *)
Fixpoint last_value {K V} (ltb : K -> K -> bool) (k : K) (pairs : list (K * V)) : option V :=
  match pairs with
  | [] => None
  | (k', v) :: r =>
      match last_value ltb k r with
      | Some v' => Some v'
      | None => if negb (ltb k k') && negb (ltb k' k) then Some v else None
      end
  end.
(** Strictly increasing keys: what a std::map iterates over. *)
Fixpoint increasing {K} (ltb : K -> K -> bool) (keys : list K) : Prop :=
  match keys with
  | [] => True
  | k :: r => (forall k', In k' r -> ltb k k' = true) /\ increasing ltb r
  end.
Definition same_key {K} (ltb : K -> K -> bool) (a b : K) : Prop := ltb a b = false /\ ltb b a = false.

(** A total order given by <= and <. *)
Record total_order {T} (ltb leb : T -> T -> bool) : Prop := mkTO {
  to_total : forall a b, leb a b = true \/ leb b a = true;
  to_trans : forall a b c, leb a b = true -> leb b c = true -> leb a c = true;
  to_lt : forall a b, ltb a b = true <-> leb b a = false }.

(** Every step of the body runs without an exception, from state [w] to [w']. *)
Inductive completes {W} : list (step W) -> W -> W -> Prop :=
| completes_nil : forall w, completes [] w w
| completes_disable : forall r w w', completes r w w' -> completes (Disable :: r) w w'
| completes_run : forall (f : callback W) r w w1 w', f w = (w1, false) -> completes r w1 w' -> completes (Run f :: r) w w'.

(** What operations add to object [x]. *)
Fixpoint added (x : nat) (ops : list atomic_op) : Z :=
  match ops with
  | [] => 0
  | FetchAdd y v :: r => (if (y =? x)%nat then v else 0) + added x r
  | FetchSub y v :: r => (if (y =? x)%nat then - v else 0) + added x r
  | _ :: r => added x r
  end%Z.
Fixpoint added_all (x : nat) (threads : list (list atomic_op * Z)) : Z :=
  match threads with [] => 0 | t :: r => added x (fst t) + added_all x r end%Z.
Definition only_adds (x : nat) (op : atomic_op) : Prop :=
  match op with Store y _ => y <> x | CopyStore y => y <> x | _ => True end.
