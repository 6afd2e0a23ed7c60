(** Model of the rest of include/common_robotics_utilities/utility.hpp: maps, strings,
    spreading, scope guards and the copyable atomic. *)
From Verif Require Import Base UtilityModel.

Section Maps.
Context {K V : Type}.
(** operator< of the keys; std::map takes two keys for the same when neither is less. *)
Variable ltb : K -> K -> bool.
Notation map_like := (list (K * V)).
(** std::map as the list of its pairs in iteration order.  map[key] = value: an equal key
    keeps its place and its key object, a new pair goes before the first larger key. *)
Fixpoint map_assign (m : map_like) (key : K) (value : V) : map_like :=
  match m with
  | [] => [(key, value)]
  | (k, v) :: r =>
      if ltb k key then (k, v) :: map_assign r key value
      else if ltb key k then (key, value) :: (k, v) :: r
      else (k, value) :: r
  end.
(** std::map::find. *)
Definition map_find (m : map_like) (key : K) : option V :=
  match find (fun e => equivalent ltb (fst e) key) m with Some e => Some (snd e) | None => None end.
(** RetrieveOrDefault, utility.hpp:552-565. *)
Definition RetrieveOrDefault (m : map_like) (key : K) (default_val : V) : V :=
  match map_find m key with Some v => v | None => default_val end.
(** GetKeysFromMapLike, utility.hpp:567-579: the keys in iteration order. *)
Definition GetKeysFromMapLike (m : map_like) : list K := fold_left (fun keys kv => keys ++ [fst kv]) m [].
(** GetKeysAndValues, utility.hpp:596-608. *)
Definition GetKeysAndValues (m : map_like) : list (K * V) := fold_left (fun kvs kv => kvs ++ [kv]) m [].
(** MakeFromKeysAndValues of pairs, utility.hpp:610-621. *)
Definition MakeFromPairs (keys_and_values : list (K * V)) : map_like :=
  fold_left (fun m cur_pair => map_assign m (fst cur_pair) (snd cur_pair)) keys_and_values [].
(** MakeFromKeysAndValues of two containers, utility.hpp:623-645: the loop. *)
Fixpoint make_loop (keys : list K) (values : list V) (m : map_like) (idxs : list nat) : outcome map_like :=
  match idxs with
  | [] => Ok m
  | idx :: rest =>
      do cur_key <- raw_get keys idx;
      do cur_value <- raw_get values idx;
      make_loop keys values (map_assign m cur_key cur_value) rest
  end.
Definition MakeFromKeysAndValues (keys : list K) (values : list V) : outcome map_like :=
  if (length keys =? length values)%nat then make_loop keys values [] (seq 0 (length keys)) else Throw InvalidArgument.
End Maps.
(** GetKeysFromSetLike, utility.hpp:582-593, on the elements of a set in iteration order. *)
Definition GetKeysFromSetLike {K} (s : list K) : list K := fold_left (fun keys cur_key => keys ++ [cur_key]) s [].

(** SpreadValue, utility.hpp:310-356 (without the logging callback). *)
Section Spread.
Context {T : Type} (ltb leb : T -> T -> bool).
Definition SpreadValue (val low_threshold midpoint high_threshold : T) : outcome T :=
  if leb low_threshold midpoint && leb midpoint high_threshold then
    if leb midpoint val && ltb val high_threshold then Ok high_threshold
    else if ltb val midpoint && ltb low_threshold val then Ok low_threshold
    else Ok val
  else Throw InvalidArgument.
End Spread.

(** std::string::find from position 0: the first position where the characters of the
    pattern match; None is npos. *)
Section Strings.
Context {C : Type} (eqc : C -> C -> bool).
Fixpoint starts_with (s pattern : list C) : bool :=
  match pattern, s with
  | [], _ => true
  | p :: ps, c :: cs => eqc p c && starts_with cs ps
  | _ :: _, [] => false
  end.
Fixpoint string_find (s pattern : list C) : option nat :=
  if starts_with s pattern then Some 0%nat
  else match s with [] => None | _ :: r => match string_find r pattern with Some i => Some (S i) | None => None end end.
(** CheckAllStringsForSubstring, utility.hpp:450-463. *)
Fixpoint CheckAllStringsForSubstring (strings : list (list C)) (substring : list C) : bool :=
  match strings with
  | [] => true
  | s :: r => match string_find s substring with None => false | Some _ => CheckAllStringsForSubstring r substring end
  end.
End Strings.

(** OnScopeExit, utility.hpp:185-222.  The function is a state change that may throw; an
    empty std::function is None.  [W] is what the program can observe. *)
Section ScopeExit.
Context {W : Type}.
Definition callback : Type := W -> W * bool.  (** new state, and whether it threw *)
Inductive scope_result : Type := Normal | Threw | Terminated.
(** What the body of the scope does with the guard: Disable, or a step of its own that may
    throw and leave the scope. *)
Inductive step : Type := Disable | Run (f : callback).
Fixpoint run_body (guard : option callback) (body : list step) (w : W) : W * option callback * bool :=
  match body with
  | [] => (w, guard, false)
  | Disable :: r => run_body None r w
  | Run f :: r => let '(w, threw) := f w in if threw then (w, guard, true) else run_body guard r w
  end.
(** The scope: constructor (198-205), body, destructor (207-213).  A destructor is
    noexcept: a callback that throws terminates the program. *)
Definition in_scope (on_scope_exit : option callback) (body : list step) (w : W) : outcome (W * scope_result) :=
  match on_scope_exit with
  | None => Throw InvalidArgument
  | Some _ =>
      let '(w, guard, threw) := run_body on_scope_exit body w in
      match guard with
      | None => Ok (w, if threw then Threw else Normal)
      | Some f => let '(w, failed) := f w in Ok (w, if failed then Terminated else if threw then Threw else Normal)
      end
  end.
End ScopeExit.
Arguments step : clear implicits.
Arguments callback : clear implicits.

(** CopyableMoveableAtomic, utility.hpp:88-183, over the integers modulo 2^64.  Every
    operation on an atomic is one step; copying and assigning is a load of the other
    object followed by a store (103-159), with other threads' steps between.  A thread is a
    list of operations on numbered objects, with its private loaded values. *)
Inductive atomic_op : Type :=
| Load (x : nat)
| Store (x : nat) (v : Z)
| FetchAdd (x : nat) (v : Z)
| FetchSub (x : nat) (v : Z)
| CopyLoad (src : nat)           (** first half of dst(src), dst = src *)
| CopyStore (dst : nat).         (** second half: store what was loaded *)
Definition wrap64 (z : Z) : Z := (z mod 2 ^ 64)%Z.
(** Copy construction, 103-123, and assignment, 125-159: nothing for self-assignment. *)
Definition copy_ops (dst src : nat) : list atomic_op := [CopyLoad src; CopyStore dst].
Definition assign_ops (dst src : nat) : list atomic_op := if (dst =? src)%nat then [] else copy_ops dst src.
(** One step of one thread: memory, the thread's register, and the value returned. *)
Definition atomic_step (mem : list Z) (reg : Z) (op : atomic_op) : outcome (list Z * Z * Z) :=
  match op with
  | Load x => do v <- raw_get mem x; Ok (mem, reg, v)
  | Store x v => do mem <- raw_set mem x (wrap64 v); Ok (mem, reg, v)
  | FetchAdd x v => do old <- raw_get mem x; do mem <- raw_set mem x (wrap64 (old + v)); Ok (mem, reg, old)
  | FetchSub x v => do old <- raw_get mem x; do mem <- raw_set mem x (wrap64 (old - v)); Ok (mem, reg, old)
  | CopyLoad x => do v <- raw_get mem x; Ok (mem, v, v)
  | CopyStore x => do mem <- raw_set mem x reg; Ok (mem, reg, reg)
  end.
(** Threads: the operations left, and the register. *)
Definition atomic_state : Type := (list Z * list (list atomic_op * Z))%type.
(** A schedule step: thread [t] performs its next operation. *)
Inductive astep : atomic_state -> nat -> atomic_state -> Prop :=
| AStep : forall mem threads t op rest reg mem' reg' v threads',
    nth_error threads t = Some (op :: rest, reg) ->
    atomic_step mem reg op = Ok (mem', reg', v) ->
    set_nth threads t (rest, reg') = Some threads' ->
    astep (mem, threads) t (mem', threads').
Inductive asteps : atomic_state -> list (nat * atomic_state) -> atomic_state -> Prop :=
| ANil : forall s, asteps s [] s
| ACons : forall s t s' tr s'', astep s t s' -> asteps s' tr s'' -> asteps s ((t, s') :: tr) s''.
(** The memory orders a template argument can name, and those std::atomic accepts for a load
    and for a store: any other is undefined behaviour (load and store pass default_order,
    utility.hpp:161-169). *)
Inductive memory_order : Type := relaxed | consume | acquire | release | acq_rel | seq_cst.
Definition do_load (o : memory_order) : outcome unit :=
  match o with release | acq_rel => UB | _ => Ok tt end.
Definition do_store (o : memory_order) : outcome unit :=
  match o with consume | acquire | acq_rel => UB | _ => Ok tt end.
(** store(other.load()), utility.hpp:103-159: the load uses the source's order, the store the
    destination's; nothing at all for self-assignment. *)
Definition copy_construct (dst_order src_order : memory_order) : outcome unit :=
  do _ <- do_load src_order; do_store dst_order.
