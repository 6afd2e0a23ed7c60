(** Proofs for C176. *)
From Coq Require Import ZArith Reals Permutation Relations.
From Flocq Require Import Core BinarySingleNaN.
From Verif Require Import Base Double DoubleFacts ParallelismModel ParallelismSpec ParallelismProof ParallelismProof2 ParallelismCalls KnnModel KnnSpec DistModel DistSpec DistProof SearchDouble DistProof2
  ClusterModel ClusterSpec ClusterProof ClusterProof2 ClusterProof3 ClusterProof4 ClusterSameSpec.
Local Open Scope Z_scope.
Notation size l := (Z.of_nat (length l)).

(** * Threads of the async backend *)
Definition todo_of (t : Z) (ws : list worker) : list (Z * Z) := flat_map (fun w => if w_thread w =? t then w_todo w else []) ws.
Definition ranges_of (t : Z) (cs : list (Z * (Z * Z))) : list (Z * Z) := flat_map (fun c => if fst c =? t then [snd c] else []) cs.

Lemma todo_app t a b : todo_of t (a ++ b) = todo_of t a ++ todo_of t b.
Proof. apply flat_map_app. Qed.
Lemma ranges_app t a b : ranges_of t (a ++ b) = ranges_of t a ++ ranges_of t b.
Proof. apply flat_map_app. Qed.
Lemma todo_none t ws : ~ In t (map w_thread ws) -> todo_of t ws = [].
Proof.
  induction ws as [|w ws IH]; intros H; [reflexivity|]. cbn. destruct (Z.eqb_spec (w_thread w) t) as [E|E]; [elim H; now left|].
  cbn. apply IH. intros I. apply H. now right.
Qed.

Section Order.
Variable body : Z -> Z -> list (Z * Z).

(** What a state has of the work of each thread. *)
Definition oinv (C0 : Z -> list (Z * Z)) (s : state) (tr : list event) : Prop :=
  match s with
  | SSerial w => forall t, ranges_of t (calls tr) ++ todo_of t [w] = C0 t
  | SAsync mk next real got rest =>
      0 <= next <= real /\ map w_thread (got ++ rest) = seqZ 0 next /\ todo_of 0 got = [] /\ flat_map w_todo got = [] /\ (next < real -> got = []) /\
      (forall k, 0 <= k -> w_thread (mk k) = k) /\
      (forall t, ranges_of t (calls tr) ++ todo_of t (got ++ rest) ++ flat_map (fun k => if k =? t then w_todo (mk k) else []) (seqZ next real) = C0 t)
  | SAsyncUnwind _ _ => True
  | SFinal (Ok _) => forall t, ranges_of t (calls tr) = C0 t
  | SFinal _ => True
  | _ => False
  end.

Lemma step_ranges t w ev w' tr : wstep w ev w' ->
  ranges_of t (calls (tr ++ [ev])) ++ todo_of t [w'] = ranges_of t (calls tr) ++ todo_of t [w].
Proof.
  intros W. rewrite calls_app, ranges_app. destruct W; cbn; rewrite ?app_nil_r; try reflexivity.
  destruct (t0 =? t); cbn; rewrite <- ?app_assoc; reflexivity.
Qed.
Lemma step_same t w ev w' tr : wstep w ev w' -> w_thread w <> t -> ranges_of t (calls (tr ++ [ev])) = ranges_of t (calls tr).
Proof.
  intros W N. rewrite calls_app, ranges_app. destruct W; cbn in *; rewrite ?app_nil_r; try reflexivity.
  destruct (Z.eqb_spec t0 t); [contradiction|]. cbn. now rewrite app_nil_r.
Qed.

Lemma todo_all_nil t ws : flat_map w_todo ws = [] -> todo_of t ws = [].
Proof.
  induction ws as [|w ws IH]; intros H; [reflexivity|]. cbn in H. apply app_eq_nil in H. destruct H as [A B].
  change (todo_of t (w :: ws)) with ((if w_thread w =? t then w_todo w else []) ++ todo_of t ws). rewrite (IH B), A. now destruct (_ =? _).
Qed.

Lemma ostep C0 sp s tr ev s' : oinv C0 s tr -> step body sp s ev s' -> oinv C0 s' (tr ++ ev).
Proof.
  intros I S. destruct S as
   [ w ev w' W | t | t todo e
   | mk i1 i i2 a t b ex | mk items a t w ev w' b ex W | mk items a t w b ex F | mk threads ex F
   | mk next real rest L | mk next real got a w ev w' b W | mk next real got t rest L
   | mk next real got t todo e rest L | mk next real got L | e a w ev w' b W | e ws F
   | real total pc n live keep a w ev w' b W | real total pc n live keep a w b F
   | real total pc n live keep a w b | real total pc n live keep a w b
   | real total n live keep act H | real total n live keep H
   | real total k n live keep a t b K | real total k n live keep a t todo e b K
   | real total k n live keep a w sg b K G | real total k n live keep act K
   | real total n live t keep act L1 L2 | real total n live act L1 L2
   | real total n live keep act H | real total n live keep act H | real total n live keep act H
   | real total n live keep act H | real total e n live keep act F ];
   cbn [oinv] in *; rewrite ?app_nil_r; trivial; try contradiction.
  - intros t. now rewrite (step_ranges t _ _ _ tr W).
  - intros u. rewrite <- (I u). cbn. destruct (t =? u); cbn; now rewrite app_nil_r.
  - destruct I as (B & T & _ & G & G0 & MK & P). split; [lia|]. split; [|split; [reflexivity|split; [reflexivity|split; [reflexivity|split; [exact MK|]]]]].
    + cbn [app] in *. rewrite map_app, T. cbn [map]. rewrite (MK next) by lia. rewrite (seqZ_split 0 next (next + 1)) by lia. f_equal.
      rewrite (seqZ_cons next (next + 1)) by lia. now rewrite seqZ_nil by lia.
    + intros t. rewrite <- (P t). f_equal. cbn [app]. rewrite todo_app, <- app_assoc. f_equal.
      rewrite (seqZ_cons next real) by lia. cbn [flat_map todo_of]. rewrite (MK next) by lia. now rewrite app_nil_r.
  - destruct I as (B & T & GG & G & G0 & MK & P).
    assert (Th : w_thread w' = w_thread w) by (destruct W; reflexivity).
    split; [exact B|]. split; [|split; [exact GG|split; [exact G|split; [exact G0|split; [exact MK|]]]]].
    + rewrite <- T. rewrite !map_app. cbn [map]. now rewrite Th.
    + intros t. rewrite <- (P t). rewrite !todo_app. change (w' :: b) with ([w'] ++ b). change (w :: b) with ([w] ++ b). rewrite !todo_app.
      destruct (Z.eq_dec (w_thread w) t) as [E|E].
      * assert (ND : NoDup (map w_thread (got ++ a ++ w :: b))) by (rewrite T; apply seqZ_nodup).
        rewrite app_assoc, map_app in ND. cbn [map] in ND. pose proof (NoDup_remove_2 _ _ _ ND) as N2.
        assert (Na : todo_of t (got ++ a) = []) by (apply todo_none; intros X; apply N2; apply in_or_app; left; now rewrite E).
        rewrite todo_app in Na. apply app_eq_nil in Na. destruct Na as [-> ->].
        cbn [app]. rewrite !app_assoc. f_equal. f_equal. apply (step_ranges t _ _ _ tr W).
      * rewrite (step_same t _ _ _ tr W E). assert (X : todo_of t [w'] = [] /\ todo_of t [w] = []).
        { cbn. rewrite Th. destruct (Z.eqb_spec (w_thread w) t); [contradiction|]. auto. }
        destruct X as [-> ->]. reflexivity.
  - destruct I as (B & T & GG & G & G0 & MK & P). split; [exact B|]. split; [|split; [|split; [|split; [lia|split; [exact MK|]]]]].
    + rewrite <- T. f_equal. now rewrite <- app_assoc.
    + rewrite todo_app, GG. cbn. now destruct (t =? 0).
    + rewrite flat_map_app, G. reflexivity.
    + intros u. rewrite <- (P u). now rewrite <- (app_assoc got).
  - destruct I as (B & T & GG & G & G0 & MK & P). intros t. rewrite <- (P t). rewrite app_nil_r, (todo_all_nil t got G), seqZ_nil by lia.
    cbn. now rewrite app_nil_r.
Qed.

Lemma orun C0 sp s tr s' : oinv C0 s [] -> run body sp s tr s' -> oinv C0 s' tr.
Proof. intros I R. induction R as [|tr s1 ev s2 R IH S]; [exact I|]. exact (ostep C0 sp s1 tr ev s2 IH S). Qed.
End Order.

Lemma flat_map_single {A} (f : Z -> list A) t : forall lo hi, lo <= hi ->
  flat_map (fun k => if k =? t then f k else []) (seqZ lo hi) = if (lo <=? t) && (t <? hi) then f t else [].
Proof.
  intros lo hi H. destruct ((lo <=? t) && (t <? hi)) eqn:E.
  - apply andb_true_iff in E. destruct E as [E1 E2]. apply Z.leb_le in E1. apply Z.ltb_lt in E2.
    rewrite (seqZ_split lo t hi) by lia. rewrite (seqZ_cons t hi) by lia. rewrite flat_map_app. cbn [flat_map]. rewrite Z.eqb_refl.
    assert (N : forall a b, (forall k, In k (seqZ a b) -> k <> t) -> flat_map (fun k => if k =? t then f k else []) (seqZ a b) = []).
    { intros a b. generalize (seqZ a b). induction l as [|x l IH]; intros Hl; [reflexivity|]. cbn. destruct (Z.eqb_spec x t); [elim (Hl x); [now left|assumption]|].
      cbn. apply IH. intros; apply Hl; now right. }
    rewrite !N by (intros k Hk; rewrite seqZ_in in Hk; lia). now rewrite app_nil_r.
  - assert (N : forall l, (forall k, In k l -> k <> t) -> flat_map (fun k => if k =? t then f k else []) l = []).
    { induction l as [|x l IH]; intros Hl; [reflexivity|]. cbn. destruct (Z.eqb_spec x t); [elim (Hl x); [now left|assumption]|].
      cbn. apply IH. intros; apply Hl; now right. }
    apply N. intros k Hk ->. rewrite seqZ_in in Hk. apply andb_false_iff in E. destruct E as [E|E]; [apply Z.leb_gt in E|apply Z.ltb_ge in E]; lia.
Qed.

Lemma indices_ranges t cs : indices_of t cs = map fst (ranges_of t cs).
Proof. unfold indices_of, ranges_of. induction cs as [|c cs IH]; [reflexivity|]. cbn. rewrite map_app, IH. now destruct (fst c =? t). Qed.

Lemma map_fst_index lo hi : map fst (index_body lo hi) = seqZ lo hi.
Proof. unfold index_body. rewrite map_map. cbn. apply map_id. Qed.

(** On the async backend the indices are taken in turn. *)
Lemma async_in_turn sp team nt k tr r : valid_call nt 0 k team -> index_loop_execution sp false team nt k tr r -> in_turn nt k tr.
Proof.
  intros V X. destruct (index_execution_calls _ _ _ _ _ _ _ V X) as (-> & _ & _). destruct X as [R _].
  destruct V as (Hn & H1 & H2 & H3 & H4 & Ht). apply degree_ok in Hn. unfold in_turn. rewrite loop_calls_calls.
  revert R. unfold StaticParallelForLoop. destruct (Z.ltb_spec k 0); [lia|]. rewrite i64_ok by (unfold int64_min; lia). rewrite Z.sub_0_r.
  assert (Ser : forall m, 1 <= m -> forall C0 : Z -> list (Z * Z), (forall t, C0 t = if t =? 0 then index_body 0 k else []) ->
     (forall t, ranges_of t (calls tr) = C0 t) -> flat_map (fun t => indices_of t (calls tr)) (seqZ 0 m) = seqZ 0 k).
  { intros m Hm C0 HC HR. erewrite flat_map_ext_in; [|intros t _; rewrite indices_ranges, HR, HC; reflexivity].
    rewrite (flat_map_ext_in _ (fun t => if t =? 0 then seqZ 0 k else [])).
    2:{ intros t _. destruct (t =? 0); [apply map_fst_index|reflexivity]. }
    rewrite (flat_map_single (fun _ => seqZ 0 k)) by lia. destruct (Z.ltb_spec 0 m); [reflexivity|lia]. }
  destruct (Z.eqb_spec k 0) as [->|Nk].
  { intros R. assert (O : forall t, ranges_of t (calls tr) = []) by (refine (orun index_body (fun _ => []) sp _ tr _ _ R); intros t; reflexivity).
    apply (Ser nt Hn (fun _ => [])); [|exact O]. intros t. now destruct (t =? 0). }
  destruct (negb (IsParallel nt) || (k =? 1)) eqn:EP.
  { intros R. rewrite start_range_spec in R by lia.
    apply (Ser nt Hn (fun t => if t =? 0 then index_body 0 k else [])); [reflexivity|].
    refine (orun index_body (fun t => if t =? 0 then index_body 0 k else []) sp _ tr _ _ R).
    intros t. cbn [calls flat_map ranges_of todo_of w_thread w_todo app]. rewrite (Z.eqb_sym 0 t). rewrite app_nil_r. reflexivity. }
  apply orb_false_iff in EP. destruct EP as [EP EK]. apply negb_false_iff in EP. unfold IsParallel in EP. apply Z.ltb_lt in EP. apply Z.eqb_neq in EK.
  cbn [use_omp]. set (real := Z.min nt k). assert (HR : 1 < real <= nt /\ real <= k) by (unfold real; lia). intros R.
  set (C0 := fun t => if (0 <=? t) && (t <? real) then index_body (share_start 0 k real t) (share_start 0 k real (t + 1)) else []).
  assert (O : forall t, ranges_of t (calls tr) = C0 t).
  { refine (orun index_body C0 sp _ tr _ _ R). cbn [oinv]. split; [lia|]. split; [reflexivity|]. split; [reflexivity|]. split; [reflexivity|].
    split; [reflexivity|]. split.
    - intros j Hj. unfold start_share, start_range. destruct (do (lo, hi) <- _; _) as [[[? ?] ?]| | |]; reflexivity.
    - intros t. cbn [app calls flat_map ranges_of todo_of]. rewrite (flat_map_single (fun j => w_todo (start_share index_body 0 k real j j))) by lia.
      unfold C0. destruct ((0 <=? t) && (t <? real)) eqn:E; [|reflexivity]. apply andb_true_iff in E. destruct E as [E1 E2]. apply Z.leb_le in E1. apply Z.ltb_lt in E2.
      rewrite start_share_spec by lia. reflexivity. }
  rewrite (flat_map_ext_in _ (fun t => if (0 <=? t) && (t <? real) then seqZ (share_start 0 k real t) (share_start 0 k real (t + 1)) else [])).
  2:{ intros t _. rewrite indices_ranges, O. unfold C0. destruct ((0 <=? t) && (t <? real)); [apply map_fst_index|reflexivity]. }
  rewrite (seqZ_split 0 real nt) by lia. rewrite flat_map_app.
  rewrite (flat_map_ext_in _ (fun t => seqZ (share_start 0 k real t) (share_start 0 k real (t + 1))) (seqZ 0 real)).
  2:{ intros t Ht0. rewrite seqZ_in in Ht0. destruct (Z.leb_spec 0 t); [|lia]. destruct (Z.ltb_spec t real); [reflexivity|lia]. }
  rewrite (flat_map_ext_in _ (fun _ => []) (seqZ real nt)).
  2:{ intros t Ht0. rewrite seqZ_in in Ht0. destruct (Z.ltb_spec t real); [lia|]. now rewrite andb_false_r. }
  replace (flat_map (fun _ : Z => []) (seqZ real nt)) with (@nil Z) by (generalize (seqZ real nt); induction l; auto).
  rewrite app_nil_r, flat_map_chain, share_start_0, share_start_n; try lia; [reflexivity|]. intros j Hj. apply share_mono; lia.
Qed.

(** * Searching in turn is searching serially *)
Definition nn (p : ClosestPair) : Prop := nonneg (cp_distance p) = true.

Lemma better_nn a b : nn a -> nn b -> nn (better a b).
Proof. intros A B. unfold better. now destruct (dlt _ _). Qed.
Lemma better_default a : nn a -> better a default_pair = a.
Proof.
  intros A. unfold better. cbn [default_pair cp_distance]. destruct (dlt dinf (cp_distance a)) eqn:E; [|reflexivity]. exfalso.
  destruct (nonneg_cases _ A) as [H|[F _]]; [rewrite H in E; discriminate|]. destruct (cp_distance a) as [s|s| |s m e B]; try discriminate; destruct s; discriminate.
Qed.
Lemma better_assoc a b c : nn a -> nn b -> nn c -> better a (better b c) = better (better a b) c.
Proof.
  unfold nn, better. intros A B C. set (x := cp_distance a) in *. set (y := cp_distance b) in *. set (z := cp_distance c) in *.
  destruct (dlt z y) eqn:ZY; destruct (dlt y x) eqn:YX; fold x y z; rewrite ?ZY, ?YX; try reflexivity.
  - (* z < y < x *) destruct (dlt z x) eqn:ZX; [reflexivity|]. exfalso.
    assert (W : leD dlt x y); [|unfold leD in W; congruence].
    apply (oo_weak _ _ double_order_on) with (b := z); auto. now apply (lt_le_on dlt _ double_order_on).
  - (* y <= z, x <= y *) assert (W : leD dlt x z); [|unfold leD in W; now rewrite W].
    apply (oo_weak _ _ double_order_on) with (b := y); auto.
Qed.

Lemma fold_better_nn l : forall a, nn a -> Forall nn l -> nn (fold_left better l a).
Proof. induction l as [|x l IH]; intros a A F; [exact A|]. inversion F; subst. cbn. apply IH; [now apply better_nn|assumption]. Qed.
Lemma better_fold l : forall a b, nn a -> nn b -> Forall nn l -> better a (fold_left better l b) = fold_left better l (better a b).
Proof.
  induction l as [|x l IH]; intros a b A B F; [reflexivity|]. inversion F; subst. cbn. rewrite IH by auto using better_nn.
  now rewrite better_assoc.
Qed.

Lemma fold_slots {A} (g : A -> list ClosestPair) ts : forall a, nn a -> (forall t, In t ts -> Forall nn (g t)) ->
  fold_left better (map (fun t => fold_left better (g t) default_pair) ts) a = fold_left better (flat_map g ts) a.
Proof.
  induction ts as [|t ts IH]; intros a Ha F; [reflexivity|]. cbn [map flat_map fold_left]. rewrite fold_left_app.
  rewrite better_fold; [|exact Ha|reflexivity|apply F; now left]. rewrite better_default by exact Ha.
  apply IH; [apply fold_better_nn; auto; apply F; now left|]. intros; apply F; now right.
Qed.

Lemma flat_map_flat {A B C} (f : B -> list C) (g : A -> list B) l : flat_map f (flat_map g l) = flat_map (fun a => flat_map f (g a)) l.
Proof. induction l as [|a l IH]; [reflexivity|]. cbn. now rewrite flat_map_app, IH. Qed.

Lemma search_in_turn (scan : ClosestPair -> Z -> outcome ClosestPair) (g : Z -> list ClosestPair) nt k tr :
  (forall b i, 0 <= i < k -> scan b i = Ok (fold_left better (g i) b)) -> 0 <= nt -> Forall nn (flat_map g (seqZ 0 k)) ->
  Forall (fun c => 0 <= fst c < nt) (loop_calls tr) -> (forall c, In c (loop_calls tr) -> 0 <= fst (snd c) < k) -> in_turn nt k tr ->
  search scan k nt (tr, Ok tt) = Ok (fold_left better (flat_map g (seqZ 0 k)) default_pair).
Proof.
  intros S Hnt NNg TN Hidx O. unfold search. destruct (IsParallel nt).
  2:{ apply mfold_flat. intros b a Ha. apply S. rewrite seqZ_in in Ha. lia. }
  cbn [fst snd]. unfold after_loop. cbn [bind].
  set (step := fun storage (c : Z * (Z * Z)) => do best <- at_index storage (fst c); do best <- scan best (fst (snd c)); set_index storage (fst c) best).
  assert (G : forall cs st, Forall (fun c : Z * (Z * Z) => 0 <= fst c < nt) cs -> (forall c, In c cs -> 0 <= fst (snd c) < k) -> length st = Z.to_nat nt ->
    exists st', mfold step st cs = Ok st' /\ length st' = Z.to_nat nt /\
     forall t, 0 <= t < nt -> nth (Z.to_nat t) st' default_pair = fold_left better (flat_map g (indices_of t cs)) (nth (Z.to_nat t) st default_pair)).
  { induction cs as [|c cs IH]; intros st FT Hin Len; cbn [mfold].
    - exists st. auto.
    - inversion FT as [|? ? Tc FT']; subst. pose proof (Hin c ltac:(now left)) as Ii.
      assert (Est : step st c = Ok (upd st (Z.to_nat (fst c)) (fold_left better (g (fst (snd c))) (nth (Z.to_nat (fst c)) st default_pair)))).
      { unfold step. rewrite (at_index_ok _ _ (nth (Z.to_nat (fst c)) st default_pair)) by (try apply nth_error_nth'; lia). cbn [bind]. rewrite S by exact Ii. cbn [bind].
        apply set_index_ok. lia. }
      rewrite Est. cbn [bind].
      destruct (IH (upd st (Z.to_nat (fst c)) (fold_left better (g (fst (snd c))) (nth (Z.to_nat (fst c)) st default_pair))) FT' ltac:(intros; apply Hin; now right)) as (st' & E' & L' & P').
      { now rewrite upd_length. }
      exists st'. split; [exact E'|]. split; [exact L'|]. intros t Ht. rewrite (P' t Ht). rewrite nth_upd by lia.
      change (indices_of t (c :: cs)) with ((if fst c =? t then [fst (snd c)] else []) ++ indices_of t cs). rewrite flat_map_app, fold_left_app. f_equal.
      destruct (Z.eqb_spec (fst c) t) as [<-|N].
      + destruct (Nat.eq_dec _ _); [|congruence]. cbn [flat_map]. now rewrite app_nil_r.
      + destruct (Nat.eq_dec _ _); [lia|reflexivity]. }
  destruct (G (loop_calls tr) (repeat default_pair (Z.to_nat nt)) TN Hidx (repeat_length _ _)) as (st & E & L & P).
  rewrite E. cbn [bind]. f_equal. change (fold_left _ st default_pair) with (fold_left better st default_pair).
  assert (Est : st = map (fun t => fold_left better (flat_map g (indices_of t (loop_calls tr))) default_pair) (seqZ 0 nt)).
  { apply (nth_ext _ _ default_pair default_pair).
    - rewrite map_length. unfold seqZ. rewrite Z.sub_0_r, L. clear. generalize 0. induction (Z.to_nat nt) as [|m IH]; intros lo; cbn; [reflexivity|]. f_equal. apply IH.
    - intros j Hj. assert (Hj' : 0 <= Z.of_nat j < nt) by lia. rewrite <- (Nat2Z.id j). rewrite (P (Z.of_nat j) Hj').
      rewrite nth_repeat. symmetry.
      assert (X : nth_error (seqZ 0 nt) j = Some (Z.of_nat j)).
      { clear - Hj'. unfold seqZ. rewrite Z.sub_0_r. assert (GG : forall m lo j, (j < m)%nat -> nth_error (seq_from lo m) j = Some (lo + Z.of_nat j)).
        { induction m as [|m IH]; intros lo i H; [lia|]. destruct i as [|i]; cbn; [f_equal; lia|]. rewrite IH by lia. f_equal. lia. }
        rewrite GG by lia. reflexivity. }
      rewrite Nat2Z.id. apply nth_error_nth. rewrite nth_error_map, X. reflexivity. }
  rewrite Est. rewrite (fold_slots (fun t => flat_map g (indices_of t (loop_calls tr)))).
  - rewrite <- flat_map_flat. unfold in_turn in O. now rewrite O.
  - reflexivity.
  - intros t Ht. unfold in_turn in O. rewrite <- O in NNg. apply Forall_forall. intros q Hq. rewrite Forall_forall in NNg. apply NNg.
    rewrite flat_map_flat. apply in_flat_map. exists t. split; assumption.
Qed.

(** * Runs whose iterations agree *)
Section Same.
Variable strategy : ClusterStrategy.
Variable n : Z.
Variable d : Z -> Z -> double.
Hypothesis NN : between n (fun i j => dlt (d i j) d0 = false).
Hypothesis NNN : between n (fun i j => nonneg (d i j) = true).
Hypothesis SYM : between n (fun i j => d i j = d j i).
Hypothesis Hn : 0 < n.
Variable bound : double.

Variables (m1 m2 : mat (option double)).
Hypothesis M1 : distances m1 n d.
Hypothesis M2 : distances m2 n d.
Variables (sp1 ob1 sp2 ob2 : bool) (team1 team2 : nat) (nt1 nt2 : Z).
Hypothesis V1 : valid_call nt1 0 n team1.
Hypothesis V2 : valid_call nt2 0 n team2.
Hypothesis SAME : forall st x1 x2 y1 y2, inv n st ->
  search_executions sp1 ob1 team1 nt1 st x1 x2 -> search_executions sp2 ob2 team2 nt2 st y1 y2 ->
  iteration m1 strategy bound nt1 st x1 x2 = iteration m2 strategy bound nt2 st y1 y2.

Lemma initial_same : initial_state m1 = initial_state m2.
Proof. destruct (rows_n _ _ _ M1) as [A _], (rows_n _ _ _ M2) as [B _]. unfold initial_state. now rewrite A, B. Qed.

Lemma iterates_same k : forall a b, iterates m1 strategy sp1 ob1 team1 nt1 bound k (initial_state m1) a ->
  iterates m2 strategy sp2 ob2 team2 nt2 bound k (initial_state m1) b -> a = b.
Proof.
  induction k as [|k IH]; intros a b A B; inversion A as [|? ? s1 s2 x1 x2 A1 XA EA]; subst; inversion B as [|? ? t1 t2 y1 y2 B1 XB EB]; subst; [reflexivity|].
  pose proof (IH _ _ A1 B1) as <-.
  destruct (iterates_ok m1 strategy n d M1 NN Hn sp1 ob1 team1 nt1 V1 bound k s1 A1) as (I & _).
  rewrite (SAME s1 x1 x2 y1 y2 I XA XB) in EA. congruence.
Qed.

Lemma iterates_prefix m sp ob team nt : forall k2 k1 s0 b, iterates m strategy sp ob team nt bound k2 s0 b -> (k1 < k2)%nat ->
  exists b1 b2 y1 y2, iterates m strategy sp ob team nt bound k1 s0 b1 /\ search_executions sp ob team nt b1 y1 y2 /\
    iteration m strategy bound nt b1 y1 y2 = Ok (Some b2).
Proof.
  induction k2 as [|k2 IH]; intros k1 s0 b B L; [lia|]. inversion B as [|? ? t1 t2 y1 y2 B1 XB EB]; subst.
  destruct (Nat.eq_dec k1 k2) as [->|N]; [exists t1, b, y1, y2; auto|]. apply (IH k1 s0 t1 B1). lia.
Qed.

Lemma runs_same r1 r2 : IndexClusterWithDistanceMatrix m1 strategy sp1 ob1 team1 nt1 bound r1 ->
  IndexClusterWithDistanceMatrix m2 strategy sp2 ob2 team2 nt2 bound r2 -> r1 = r2.
Proof.
  intros R1 R2.
  destruct (run_inversion m1 strategy n d M1 NN Hn sp1 ob1 team1 nt1 V1 bound r1 R1) as (k1 & a & x1 & x2 & A & XA & EA & IA & ->).
  destruct (run_inversion m2 strategy n d M2 NN Hn sp2 ob2 team2 nt2 V2 bound r2 R2) as (k2 & b & y1 & y2 & B & XB & EB & IB & ->).
  rewrite <- initial_same in B.
  destruct (lt_eq_lt_dec k1 k2) as [[L|<-]|L].
  - destruct (iterates_prefix m2 sp2 ob2 team2 nt2 k2 k1 _ b B L) as (b1 & b2 & z1 & z2 & B1 & XZ & EZ).
    pose proof (iterates_same k1 a b1 A B1) as <-. rewrite (SAME a x1 x2 z1 z2 IA XA XZ) in EA. congruence.
  - now rewrite (iterates_same k1 a b A B).
  - destruct (iterates_prefix m1 sp1 ob1 team1 nt1 k1 k2 _ a A L) as (a1 & a2 & z1 & z2 & A1 & XZ & EZ).
    pose proof (iterates_same k2 a1 b A1 B) as ->. rewrite (SAME b z1 z2 y1 y2 IB XZ XB) in EZ. congruence.
Qed.
End Same.

(** * Different distances: the closest pair is unique *)
Section Distinct.
Variable strategy : ClusterStrategy.
Variable n : Z.
Variable d : Z -> Z -> double.
Hypothesis NN : between n (fun i j => dlt (d i j) d0 = false).
Hypothesis NNN : between n (fun i j => nonneg (d i j) = true).
Hypothesis FIN : between n (fun i j => is_finite (d i j) = true).
Hypothesis SYM : between n (fun i j => d i j = d j i).
Hypothesis DIF : all_different n d.
Hypothesis Hn : 0 < n.
Notation linkage := (linkage strategy d).

Definition members (clusters : list (list Z)) (it : Item) : list Z :=
  if item_is_cluster it then nth (Z.to_nat (item_index it)) clusters [] else [item_index it].
Definition alive (st : cstate) (it : Item) : Prop :=
  if item_is_cluster it then 0 <= item_index it < size (st_clusters st) else free n (st_mask st) (item_index it).
Definition before (a b : Item) : Prop :=
  match item_is_cluster a, item_is_cluster b with
  | false, true => True
  | true, false => False
  | _, _ => item_index a < item_index b
  end.
Definition pair_distance (clusters : list (list Z)) (a b : Item) : double :=
  if item_is_cluster b then linkage (members clusters a) (members clusters b) else d (item_index a) (item_index b).

Lemma equivalent_value rows cols : rows <> [] -> cols <> [] -> (forall i j, In i rows -> In j cols -> 0 <= i < n /\ 0 <= j < n /\ i <> j) ->
  exists i j, In i rows /\ In j cols /\ leD dlt (linkage rows cols) (d i j) /\ leD dlt (d i j) (linkage rows cols).
Proof.
  intros Nr Nc R. assert (H : forall i j, In i rows -> In j cols -> nonneg (d i j) = true) by (intros i j Hi Hj; destruct (R i j Hi Hj) as (A & B & C); now apply NNN).
  destruct (minmax_spec d rows cols H) as ((P1 & P2) & P & Q1 & Q2). destruct rows as [|i0 rows]; [congruence|]. destruct cols as [|j0 cols]; [congruence|].
  assert (I0 : In i0 (i0 :: rows)) by now left. assert (J0 : In j0 (j0 :: cols)) by now left. unfold ClusterProof.linkage. destruct strategy.
  - destruct Q1 as [E|(i & j & Hi & Hj & E)].
    + destruct (P i0 j0 I0 J0) as [L _]. rewrite E in L. apply inf_le in L; [|now apply H]. destruct (R i0 j0 I0 J0) as (A & B & C).
      assert (F : is_finite (d i0 j0) = true) by (now apply FIN). rewrite L in F. discriminate.
    + exists i, j. split; [exact Hi|]. split; [exact Hj|]. rewrite E. split; apply (oo_irrefl _ _ double_order_on); now apply H.
  - destruct Q2 as [E|(i & j & Hi & Hj & E)].
    + exists i0, j0. split; [exact I0|]. split; [exact J0|]. split.
      * rewrite E. destruct (R i0 j0 I0 J0) as (A & B & C). now apply NN.
      * apply P; assumption.
    + exists i, j. split; [exact Hi|]. split; [exact Hj|]. rewrite E. split; apply (oo_irrefl _ _ double_order_on); now apply H.
Qed.

(** A candidate: its items, its distance, and a pair of members at that distance. *)
Lemma cand_spec st p : inv n st -> In p (all_cands strategy n d (st_mask st) (st_clusters st)) ->
  alive st (cp_first p) /\ alive st (cp_second p) /\ before (cp_first p) (cp_second p) /\
  cp_distance p = pair_distance (st_clusters st) (cp_first p) (cp_second p) /\
  exists i j, In i (members (st_clusters st) (cp_first p)) /\ In j (members (st_clusters st) (cp_second p)) /\ 0 <= i < n /\ 0 <= j < n /\ i <> j /\
    leD dlt (cp_distance p) (d i j) /\ leD dlt (d i j) (cp_distance p).
Proof.
  intros I H. pose proof I as ((Ln & ND & UC) & _). apply in_cands in H; [|exact Ln].
  assert (RG : forall k x, In x (nth (Z.to_nat k) (st_clusters st) []) -> 0 <= x < n).
  { intros k x Hx. apply UC. exact (nth_concat _ _ _ Hx). }
  destruct H as [(i & j & F1 & F2 & L & ->)|[(i & k & c & F & K & ->)|(k1 & k2 & c1 & c2 & K1 & K2 & L & ->)]];
    unfold alive, before, pair_distance, members; cbn [cp_first cp_second cp_distance item_is_cluster item_index].
  - split; [exact F1|]. split; [exact F2|]. split; [exact L|]. split; [reflexivity|]. exists i, j. destruct F1 as [R1 _], F2 as [R2 _].
    split; [now left|]. split; [now left|]. split; [exact R1|]. split; [exact R2|]. split; [lia|].
    split; apply (oo_irrefl _ _ double_order_on); apply NNN; lia.
  - destruct K as (RK & EK & NK). split; [exact F|]. split; [exact RK|]. split; [exact Logic.I|]. rewrite EK. split; [reflexivity|].
    assert (FI : ~ In i (concat (st_clusters st))) by exact (free_not_in n st i I F).
    assert (RR : forall a b, In a [i] -> In b c -> 0 <= a < n /\ 0 <= b < n /\ a <> b).
    { intros a b [<-|[]] Hb. rewrite <- EK in Hb. split; [apply F|]. split; [exact (RG k b Hb)|]. intros <-. apply FI. exact (nth_concat _ _ _ Hb). }
    destruct (equivalent_value [i] c ltac:(discriminate) NK RR) as (a & b & Ha & Hb & L1 & L2). exists a, b. destruct (RR a b Ha Hb) as (A & B & C). auto 10.
  - destruct K1 as (R1 & E1 & N1), K2 as (R2 & E2 & N2). split; [exact R1|]. split; [exact R2|]. split; [exact L|]. rewrite E1, E2. split; [reflexivity|].
    assert (RR : forall a b, In a c1 -> In b c2 -> 0 <= a < n /\ 0 <= b < n /\ a <> b).
    { intros a b Ha Hb. rewrite <- E1 in Ha. rewrite <- E2 in Hb. split; [exact (RG k1 a Ha)|]. split; [exact (RG k2 b Hb)|]. intros <-.
      apply (nodup_two _ ND (Z.to_nat k1) (Z.to_nat k2) a); [lia|exact Ha|exact Hb]. }
    destruct (equivalent_value c1 c2 N1 N2 RR) as (a & b & Ha & Hb & L1 & L2). exists a, b. destruct (RR a b Ha Hb) as (A & B & C). auto 10.
Qed.

Lemma one_item st a b x : inv n st -> alive st a -> alive st b -> In x (members (st_clusters st) a) -> In x (members (st_clusters st) b) -> a = b.
Proof.
  intros I A B XA XB. pose proof I as ((Ln & ND & UC) & _). destruct a as [ia ca], b as [ib cb]. unfold alive, members in *. cbn [item_is_cluster item_index] in *.
  destruct ca, cb.
  - f_equal. destruct (Z.eq_dec ia ib) as [E|N]; [exact E|]. exfalso. apply (nodup_two _ ND (Z.to_nat ia) (Z.to_nat ib) x); [lia|exact XA|exact XB].
  - destruct XB as [->|[]]. exfalso. apply (free_not_in n st x I B). exact (nth_concat _ _ _ XA).
  - destruct XA as [->|[]]. exfalso. apply (free_not_in n st x I A). exact (nth_concat _ _ _ XB).
  - destruct XA as [->|[]]. destruct XB as [->|[]]. reflexivity.
Qed.

Lemma before_asym a b : before a b -> before b a -> False.
Proof. unfold before. destruct (item_is_cluster a), (item_is_cluster b); auto; lia. Qed.

Lemma same_pair i j k l : 0 <= i < n -> 0 <= j < n -> i <> j -> 0 <= k < n -> 0 <= l < n -> k <> l ->
  dlt (d i j) (d k l) = false -> dlt (d k l) (d i j) = false -> (i = k /\ j = l) \/ (i = l /\ j = k).
Proof.
  intros Hi Hj Nij Hk Hl Nkl A B.
  assert (G : forall i j k l, 0 <= i < n -> 0 <= j < n -> 0 <= k < n -> 0 <= l < n -> i < j -> k < l ->
     dlt (d i j) (d k l) = false -> dlt (d k l) (d i j) = false -> i = k /\ j = l).
  { clear - DIF. intros i j k l Hi Hj Hk Hl L1 L2 A B. destruct (Z.eq_dec i k) as [->|N1]; [destruct (Z.eq_dec j l) as [->|N2]; [auto|]|];
      (destruct (DIF _ j _ l ltac:(split; [apply Hi|exact L1]) ltac:(lia) ltac:(split; [apply Hk|exact L2]) ltac:(lia)) as [X|X]; congruence). }
  destruct (Z.lt_total i j) as [Lij|[E|Lij]]; [| contradiction|]; (destruct (Z.lt_total k l) as [Lkl|[E|Lkl]]; [| contradiction|]).
  - left. now apply G.
  - right. rewrite (SYM k l) in A, B by auto. destruct (G i j l k); auto.
  - right. rewrite (SYM i j) in A, B by auto. destruct (G j i k l); auto.
  - left. rewrite (SYM i j), (SYM k l) in A, B by auto. destruct (G j i l k); auto.
Qed.

Lemma unique_closest st p q : inv n st -> let cs := all_cands strategy n d (st_mask st) (st_clusters st) in
  chosen cs p -> minimal cs p -> chosen cs q -> minimal cs q -> p = q.
Proof.
  intros I cs Cp Mp Cq Mq. pose proof (cands_nonneg strategy n d d0 NNN st I) as CN.
  destruct (Mp CN) as (P1 & P2 & P3), (Mq CN) as (Q1 & Q2 & Q3). rewrite Forall_forall in P3, Q3, CN.
  assert (ND : forall r, In r cs -> leD dlt dinf (cp_distance r) -> False).
  { intros r Hr L. apply inf_le in L; [|now apply CN]. destruct (cand_spec st r I Hr) as (_ & _ & _ & _ & i & j & _ & _ & Ri & Rj & N & L1 & L2).
    rewrite L in L1. apply inf_le in L1; [|now apply NNN]. assert (F : is_finite (d i j) = true) by (now apply FIN). rewrite L1 in F. discriminate. }
  destruct Cp as [->|Ip], Cq as [->|Iq]; [reflexivity| | |].
  - elim (ND q Iq). now apply P3.
  - elim (ND p Ip). now apply Q3.
  - destruct (cand_spec st p I Ip) as (Ap1 & Ap2 & Bp & Dp & i & j & Ii & Ij & Ri & Rj & Nij & Lp1 & Lp2).
    destruct (cand_spec st q I Iq) as (Aq1 & Aq2 & Bq & Dq & k & l & Ik & Il & Rk & Rl & Nkl & Lq1 & Lq2).
    pose proof (P3 q Iq) as PQ. pose proof (Q3 p Ip) as QP.
    assert (W : forall i j k l x y, 0 <= i < n -> 0 <= j < n -> i <> j -> 0 <= k < n -> 0 <= l < n -> k <> l -> nonneg x = true -> nonneg y = true ->
       leD dlt (d i j) x -> leD dlt x y -> leD dlt y (d k l) -> dlt (d k l) (d i j) = false).
    { clear - NNN. intros i j k l x y Hi Hj N Hk Hl N' X Y A B C. apply (oo_weak _ _ double_order_on) with (b := x); auto; try (now apply NNN).
      apply (oo_weak _ _ double_order_on) with (b := y); auto; now apply NNN. }
    assert (E : cp_first p = cp_first q /\ cp_second p = cp_second q).
    { destruct (same_pair i j k l) as [[<- <-]|[<- <-]]; auto; [apply (W k l i j (cp_distance q) (cp_distance p)); auto|apply (W i j k l (cp_distance p) (cp_distance q)); auto| |].
      - split; [exact (one_item st _ _ i I Ap1 Aq1 Ii Ik)|exact (one_item st _ _ j I Ap2 Aq2 Ij Il)].
      - exfalso. pose proof (one_item st _ _ i I Ap1 Aq2 Ii Il) as E1. pose proof (one_item st _ _ j I Ap2 Aq1 Ij Ik) as E2.
        rewrite E1, E2 in Bp. exact (before_asym _ _ Bp Bq). }
    destruct E as [E1 E2]. destruct p as [f1 s1 x1], q as [f2 s2 x2]. cbn [cp_first cp_second cp_distance] in *. subst f2 s2. congruence.
Qed.

Variable bound : double.
Variables (m1 m2 : mat (option double)).
Hypothesis M1 : distances m1 n d.
Hypothesis M2 : distances m2 n d.
Variables (sp1 ob1 sp2 ob2 : bool) (team1 team2 : nat) (nt1 nt2 : Z).
Hypothesis V1 : valid_call nt1 0 n team1.
Hypothesis V2 : valid_call nt2 0 n team2.

Lemma distinct_iterations st x1 x2 y1 y2 : inv n st ->
  search_executions sp1 ob1 team1 nt1 st x1 x2 -> search_executions sp2 ob2 team2 nt2 st y1 y2 ->
  iteration m1 strategy bound nt1 st x1 x2 = iteration m2 strategy bound nt2 st y1 y2.
Proof.
  intros I X Y. pose proof I as (U & _).
  destruct (get_closest_pair_ok m1 strategy n d M1 NN sp1 ob1 team1 nt1 (st_mask st) (st_clusters st) (st_distance st) x1 x2 U ltac:(lia)) as (p & E & C & Mi).
  { intros _. split; [exact V1|]. apply (valid_small n team1 nt1 V1). pose proof (inv_len n Hn st I). lia. } { destruct st; exact X. }
  destruct (get_closest_pair_ok m2 strategy n d M2 NN sp2 ob2 team2 nt2 (st_mask st) (st_clusters st) (st_distance st) y1 y2 U ltac:(lia)) as (q & E' & C' & Mi').
  { intros _. split; [exact V2|]. apply (valid_small n team2 nt2 V2). pose proof (inv_len n Hn st I). lia. } { destruct st; exact Y. }
  pose proof (unique_closest st p q I C Mi C' Mi') as <-. unfold iteration. now rewrite E, E'.
Qed.

Lemma distinct_runs r1 r2 : IndexClusterWithDistanceMatrix m1 strategy sp1 ob1 team1 nt1 bound r1 ->
  IndexClusterWithDistanceMatrix m2 strategy sp2 ob2 team2 nt2 bound r2 -> r1 = r2.
Proof. exact (runs_same strategy n d NN Hn bound m1 m2 M1 M2 sp1 ob1 sp2 ob2 team1 team2 nt1 nt2 V1 V2 distinct_iterations r1 r2). Qed.
End Distinct.

(** * Loops that take their indices in turn *)
Section Turn.
Variable strategy : ClusterStrategy.
Variable n : Z.
Variable d : Z -> Z -> double.
Hypothesis NN : between n (fun i j => dlt (d i j) d0 = false).
Hypothesis NNN : between n (fun i j => nonneg (d i j) = true).
Hypothesis Hn : 0 < n.
Variable m : mat (option double).
Hypothesis M : distances m n d.
Variables (sp ob : bool) (team : nat) (nt : Z).
Hypothesis V : valid_call nt 0 n team.

Definition serial_pair (st : cstate) : ClosestPair :=
  let v := fold_left better (flat_map (cand_values strategy d (st_mask st) (st_clusters st)) (seqZ 0 n)) default_pair in
  let c := fold_left better (flat_map (cand_clusters strategy d (st_clusters st)) (seqZ 0 (size (st_clusters st)))) default_pair in
  if cp_is_valid v && cp_is_valid c then (if dlt (cp_distance v) (cp_distance c) then v else c)
  else if cp_is_valid v then v else if cp_is_valid c then c else default_pair.

Lemma turn_pair st x1 x2 : inv n st -> search_executions sp ob team nt st x1 x2 ->
  (IsParallel nt = true -> in_turn nt n (fst x1) /\ in_turn nt (size (st_clusters st)) (fst x2)) ->
  GetClosestPair m strategy (st_mask st) (st_clusters st) nt x1 x2 = Ok (serial_pair st).
Proof.
  intros I X T. pose proof I as (U & _). pose proof U as (Ln & _). pose proof (cands_nonneg strategy n d d0 NNN st I) as CN.
  unfold all_cands in CN. apply Forall_app in CN. destruct CN as [C1 C2].
  assert (S : forall scan g k x, (forall b i, 0 <= i < k -> scan b i = Ok (fold_left better (g i) b)) -> 0 <= k <= n -> Forall nn (flat_map g (seqZ 0 k)) ->
     (IsParallel nt = true -> index_loop_execution sp ob team nt k (fst x) (snd x) /\ in_turn nt k (fst x)) ->
     search scan k nt x = Ok (fold_left better (flat_map g (seqZ 0 k)) default_pair)).
  { intros scan g k [tr r] HS Hk HN HX. destruct (IsParallel nt) eqn:P.
    - destruct (HX eq_refl) as [E O]. cbn [fst snd] in *. destruct (index_execution_calls _ _ _ _ _ _ _ (valid_small n team nt V k Hk) E) as (-> & Perm & TN).
      apply search_in_turn; auto; [pose proof (degree_ok nt (proj1 V)); lia|]. intros c Hc. apply (seqZ_in 0 k). apply (Permutation_in _ Perm). apply in_map_iff. now exists c.
    - unfold search. rewrite P. apply mfold_flat. intros b a Ha. apply HS. rewrite seqZ_in in Ha. lia. }
  unfold GetClosestPair, GetClosestValueToOther, GetClosestClusters.
  rewrite (S (scan_value m strategy (st_mask st) (st_clusters st)) (cand_values strategy d (st_mask st) (st_clusters st)) (size (st_mask st)) x1); cycle 1.
  { intros b i Hi. apply (scan_value_ok m strategy n d M NN); [exact U|lia]. } { lia. } { rewrite Ln. exact C1. }
  { intros P. destruct (X P) as [X1 _]. destruct (T P) as [T1 _]. rewrite Ln in *. auto. }
  cbn [bind].
  rewrite (S (scan_cluster m strategy (st_clusters st)) (cand_clusters strategy d (st_clusters st)) (size (st_clusters st)) x2); cycle 1.
  { intros b i Hi. apply (scan_cluster_ok m strategy n d M NN (st_mask st)); assumption. } { pose proof (inv_len n Hn st I). lia. } { exact C2. }
  { intros P. destruct (X P) as [_ X2]. destruct (T P) as [_ T2]. auto. }
  cbn [bind]. unfold serial_pair. now rewrite Ln.
Qed.
End Turn.

Lemma turn_iteration strategy n d bound m m' sp ob team nt sp' ob' team' nt' st x1 x2 y1 y2 :
  between n (fun i j => dlt (d i j) d0 = false) -> between n (fun i j => nonneg (d i j) = true) -> 0 < n ->
  distances m n d -> distances m' n d -> valid_call nt 0 n team -> valid_call nt' 0 n team' -> inv n st ->
  search_executions sp ob team nt st x1 x2 -> search_executions sp' ob' team' nt' st y1 y2 ->
  (IsParallel nt = true -> in_turn nt n (fst x1) /\ in_turn nt (size (st_clusters st)) (fst x2)) ->
  (IsParallel nt' = true -> in_turn nt' n (fst y1) /\ in_turn nt' (size (st_clusters st)) (fst y2)) ->
  iteration m strategy bound nt st x1 x2 = iteration m' strategy bound nt' st y1 y2.
Proof.
  intros NN NNN Hn M M' V V' I X Y T T'. unfold iteration.
  rewrite (turn_pair strategy n d NN NNN Hn m M sp ob team nt V st x1 x2 I X T).
  now rewrite (turn_pair strategy n d NN NNN Hn m' M' sp' ob' team' nt' V' st y1 y2 I Y T').
Qed.

Lemma async_turns sp team nt n st x1 x2 : 0 < n -> valid_call nt 0 n team -> inv n st -> search_executions sp false team nt st x1 x2 ->
  IsParallel nt = true -> in_turn nt n (fst x1) /\ in_turn nt (size (st_clusters st)) (fst x2).
Proof.
  intros Hn V I X P. destruct (X P) as [X1 X2]. pose proof I as ((Ln & _) & _). rewrite Ln in X1. split.
  - exact (async_in_turn _ _ _ _ _ _ V X1).
  - refine (async_in_turn _ _ _ _ _ _ _ X2). apply (valid_small n team nt V). pose proof (inv_len n Hn st I). lia.
Qed.

Lemma async_runs strategy n d bound m m' sp team nt sp' team' nt' r1 r2 :
  between n (fun i j => dlt (d i j) d0 = false) -> between n (fun i j => nonneg (d i j) = true) -> 0 < n ->
  distances m n d -> distances m' n d -> valid_call nt 0 n team -> valid_call nt' 0 n team' ->
  IndexClusterWithDistanceMatrix m strategy sp false team nt bound r1 ->
  IndexClusterWithDistanceMatrix m' strategy sp' false team' nt' bound r2 -> r1 = r2.
Proof.
  intros NN NNN Hn M M' V V'. apply (runs_same strategy n d NN Hn bound m m' M M' sp false sp' false team team' nt nt' V V').
  intros st x1 x2 y1 y2 I X Y. apply (turn_iteration strategy n d bound m m' sp false team nt sp' false team' nt' st x1 x2 y1 y2 NN NNN Hn M M' V V' I X Y).
  - now apply (async_turns sp team nt n st x1 x2).
  - now apply (async_turns sp' team' nt' n st y1 y2).
Qed.
