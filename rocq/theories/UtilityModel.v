(** Model of include/common_robotics_utilities/utility.hpp: collections, bits,
    clamping, random indices.  Sizes and counts are below 2^64. *)
From Verif Require Import Base ParallelismModel Double VoxelModel.
From Flocq Require Import BinarySingleNaN.
Local Open Scope Z_scope.

Section Collections.
Context {T : Type}.
(** operator< of T; std::map takes two keys for the same when neither is less. *)
Variable ltb : T -> T -> bool.
Definition equivalent (a b : T) : bool := negb (ltb a b) && negb (ltb b a).

(** std::map<T, size_t> as an association list: operator[] followed by += 1, and
    find. *)
Fixpoint increment (m : list (T * nat)) (k : T) : list (T * nat) :=
  match m with
  | [] => [(k, 1%nat)]
  | (k', n) :: r => if equivalent k' k then (k', S n) :: r else (k', n) :: increment r k
  end.
Definition count_members (l : list T) : list (T * nat) := fold_left increment l [].
Definition find_count (m : list (T * nat)) (k : T) : option nat :=
  match find (fun e => equivalent (fst e) k) m with Some e => Some (snd e) | None => None end.

(** IsSubset, utility.hpp:465-503: the loop over the candidate's counts. *)
Fixpoint subset_loop (cand : list (T * nat)) (set_members : list (T * nat)) : bool :=
  match cand with
  | [] => true
  | (k, n) :: r =>
      match find_count set_members k with
      | Some set_count => if (set_count <? n)%nat then false else subset_loop r set_members
      | None => false
      end
  end.
Definition IsSubset (set candidate_subset : list T) : bool :=
  let set_members := count_members set in
  let candidate_members := count_members candidate_subset in
  if (length set_members <? length candidate_members)%nat then false
  else subset_loop candidate_members set_members.

(** CollectionsEqual, utility.hpp:506-549. *)
Fixpoint equal_loop (m1 m2 : list (T * nat)) : bool :=
  match m1 with
  | [] => true
  | (k, n) :: r =>
      match find_count m2 k with
      | Some n2 => if negb (n =? n2)%nat then false else equal_loop r m2
      | None => false
      end
  end.
Definition CollectionsEqual (set1 set2 : list T) : bool :=
  if negb (length set1 =? length set2)%nat then false
  else
    let m1 := count_members set1 in
    let m2 := count_members set2 in
    if negb (length m1 =? length m2)%nat then false else equal_loop m1 m2.

(** ClampValue, utility.hpp:271-308 (without the logging callback). *)
Variable geb : T -> T -> bool.
Definition ClampValue (val min max : T) : outcome T :=
  if geb max min then
    if ltb val min then Ok min
    else if ltb max val then Ok max
    else Ok val
  else Throw InvalidArgument.
End Collections.

(** SetBit and GetBit, utility.hpp:411-448, for the unsigned type of [width] bits:
    types narrower than int are shifted as 32-bit int; a shift by at least the
    width of the promoted type is undefined. *)
Definition promoted (width : N) : N := if (width <? 32)%N then 32 else width.
Definition SetBit (width : N) (current : N) (bit_position : N) (bit_value : bool) : outcome N :=
  if (bit_position <? promoted width)%N then
    let update_mask := (N.shiftl 1 bit_position mod 2 ^ width)%N in
    if bit_value then Ok (N.lor current update_mask)
    else
      let update_mask := N.lnot update_mask width in
      Ok (N.land current update_mask)
  else UB.
Definition GetBit (width : N) (current : N) (bit_position : N) : outcome bool :=
  do mask <- SetBit width 0 bit_position true;
  Ok (0 <? N.land mask current)%N.

(** static_cast to an integral type with values lo..hi: undefined when the value
    does not fit. *)
Definition cast_integral (lo hi : Z) (x : double) : outcome Z :=
  if is_finite x then (if (lo <=? dfloor_Z x) && (dfloor_Z x <=? hi) then Ok (dfloor_Z x) else UB) else UB.

(** GetUniformRandomIndex, utility.hpp:239-253, for a SizeType with values lo..hi;
    [u] is what the random source returns. *)
Definition GetUniformRandomIndex (lo hi : Z) (u : double) (container_size : Z) : outcome Z :=
  if container_size <? 1 then Throw InvalidArgument
  else cast_integral lo hi (dmul u (d_of_Z container_size)).

(** Arithmetic of SizeType: wraps when unsigned (lo = 0), overflow of a signed
    type is undefined (types narrower than int are promoted and truncated, which
    is not distinguished here). *)
Definition size_arith (lo hi : Z) (z : Z) : outcome Z :=
  if lo =? 0 then Ok (z mod (hi + 1))
  else if (lo <=? z) && (z <=? hi) then Ok z else UB.

(** GetUniformRandomInRange, utility.hpp:255-268. *)
Definition GetUniformRandomInRange (lo hi : Z) (u : double) (start end_ : Z) : outcome Z :=
  if end_ <? start then Throw InvalidArgument
  else
    do range <- size_arith lo hi (end_ - start);
    do n <- size_arith lo hi (range + 1);
    do offset <- GetUniformRandomIndex lo hi u n;
    size_arith lo hi (start + offset).
