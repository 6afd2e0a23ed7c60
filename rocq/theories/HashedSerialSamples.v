(** Concrete hashed grids of bytes used by the examples and refutations of C78. *)
From Coq Require Import Reals Lra Permutation.
From Flocq Require Import Core BinarySingleNaN.
From Verif Require Import Base ParallelismModel Double DoubleBits DoubleFacts SerializationModel SerializationSpec SerializationProof GraphModel
  VoxelModel VoxelSpec VoxelProof VoxelFloat VoxelSerial VoxelSamples HashedModel HashedSpec HashedProof HashedFloat HashedSamples
  HashedSerialModel HashedSerialSpec HashedSerial.
Local Open Scope Z_scope.

Definition zeros : list N := repeat 0%N 128.
Definition bytes_point (o : list N) (l : vec4) : vec4 := l.
(** The empty grid over the sample chunk sizes. *)
Definition byte_hgrid : @hgrid N unit (list N) := mkHGrid zeros zeros 7%N sample_sizes [] true tt.
(** Two writes: a cell of one chunk, and the whole of the next chunk. *)
Definition two_writes : list (@hcall N (list N)) :=
  [HSet (dhalf, dhalf, dhalf, d1) SET_CELL 5%N; HSet sample_location SET_CHUNK 9%N].
Definition written_hgrid : @hgrid N unit (list N) :=
  fst (hperform_all (fun o => o) bytes_point always byte_hgrid two_writes).
Lemma written_reachable : reachable_hgrid (fun o => o) bytes_point sample_sizes always written_hgrid.
Proof.
  exists tt, zeros, 7%N, two_writes, byte_hgrid, (snd (hperform_all (fun o => o) bytes_point always byte_hgrid two_writes)).
  split; [unfold new_hgrid; rewrite (g_valid _ (made_good _ sample_made)); reflexivity|].
  unfold written_hgrid. destruct (hperform_all _ _ _ _ _); reflexivity.
Qed.
(** The fill states and data of the chunks. *)
Lemma written_contents :
  map (fun e => (c_fill (snd e), c_data (snd e))) (h_chunks written_hgrid)
    = [(CELL_FILLED, 5%N :: repeat 7%N 23); (CHUNK_FILLED, [9%N])] /\
  h_default written_hgrid = 7%N /\ h_origin written_hgrid = zeros.
Proof. split; [vm_compute; reflexivity|split; vm_compute; reflexivity]. Qed.
Lemma chunk_data (m : list (region * @chunk N)) r c (F : list (FillStatus * list N)) :
  map (fun e => (c_fill (snd e), c_data (snd e))) m = F -> In (r, c) m -> In (c_fill c, c_data c) F.
Proof. intros <- I. apply in_map_iff. exists (r, c). split; [reflexivity|exact I]. Qed.
Lemma written_values : every_value (fun v => (v < 256 ^ N.of_nat 1)%N) written_hgrid.
Proof.
  destruct written_contents as (C & D & _). generalize dependent written_hgrid. intros g C D. split; [rewrite D; reflexivity|]. intros r c v I Iv.
  pose proof (chunk_data _ _ _ _ C I) as X. assert (Y : v = 5%N \/ v = 7%N \/ v = 9%N); [|destruct Y as [-> |[-> | ->]]; reflexivity].
  destruct X as [X|[X|[]]]; injection X as _ X; rewrite <- X in Iv.
  - destruct Iv as [<-|Iv]; [auto|]. change (In v (repeat 7%N 23)) in Iv. apply repeat_spec in Iv. auto.
  - destruct Iv as [<-|[]]. auto.
Qed.
Lemma written_small r c : In (r, c) (h_chunks written_hgrid) -> (len64 (c_data c) <= 1000)%N.
Proof.
  destruct written_contents as (C & _). generalize dependent written_hgrid. intros g C I. pose proof (chunk_data _ _ _ _ C I) as X.
  destruct X as [X|[X|[]]]; injection X as _ X; rewrite <- X; unfold len64; cbn [length repeat]; lia.
Qed.
Lemma written_chunks : length (h_chunks written_hgrid) = 2%nat.
Proof. destruct written_contents as (C & _). generalize dependent written_hgrid. intros g C. apply (f_equal (@length _)) in C. rewrite map_length in C. exact C. Qed.

Lemma empty_chunk_fails :
  exists s g bytes, degenerate_sizes = Ok s /\ made_sizes s /\
  new_hgrid (fun o : list N => o) tt zeros s 7%N = Ok g /\
  bytes = snd (SerializeHGrid true (fun o => o) (byte_ser true) (h_chunks g) g []) /\
  DeserializeHGrid true (fun o => o) (fun o => o) 1000 (byte_des true) bytes 0 = Throw RuntimeError.
Proof.
  assert (E : match degenerate_sizes with
    | Ok s =>
        (num_x_cells s * num_y_cells s <=? int64_max) && (num_x_cells s * num_y_cells s * num_z_cells s <=? int64_max) &&
        match new_hgrid (fun o : list N => o) tt zeros s 7%N with
        | Ok g => match DeserializeHGrid true (fun o => o) (fun o => o) 1000 (byte_des true)
                    (snd (SerializeHGrid true (fun o => o) (byte_ser true) (h_chunks g) g [])) 0 with
                  | Throw RuntimeError => true | _ => false end
        | _ => false
        end
    | _ => false end = true) by (vm_compute; reflexivity).
  destruct degenerate_sizes as [s| | |] eqn:Es; [|discriminate E..]. exists s.
  apply andb_true_iff in E. destruct E as [E1 E]. apply andb_true_iff in E1. destruct E1 as [E1 E2].
  destruct (new_hgrid _ _ _ _ _) as [g| | |] eqn:Eg; [|discriminate E..]. exists g.
  eexists. split; [reflexivity|]. split.
  { split; [left; exists (dpow2 1000), d1, d1, (dpow2 (-1074)), d1, d1; exact Es|]. lia. }
  split; [reflexivity|]. split; [reflexivity|].
  destruct (DeserializeHGrid _ _ _ _ _ _ _) as [x|e| |]; [discriminate E| |discriminate E..].
  destruct e; [discriminate E..| |discriminate E|discriminate E|discriminate E|discriminate E]. reflexivity.
Qed.

Definition hostile_hgrid : list N :=
  repeat 0%N 128 ++ [0%N] ++
  to_obj (double_rep true) d1 ++ to_obj (double_rep true) d1 ++ to_obj (double_rep true) d1 ++
  to_obj (int64_rep true) (2 ^ 62) ++ to_obj (int64_rep true) (2 ^ 62) ++ to_obj (int64_rep true) (2 ^ 62) ++ repeat 0%N 8 ++ [1%N].
Lemma hostile_hgrid_overflow : is_bytes hostile_hgrid /\ fits_vector hostile_hgrid /\
  DeserializeHGrid true (fun o : list N => o) (fun o => o) 1000 (byte_des true) hostile_hgrid 0 = UB.
Proof.
  split; [|split; [reflexivity|vm_compute; reflexivity]].
  assert (E : forallb (fun b => (b <? 256)%N) hostile_hgrid = true) by (vm_compute; reflexivity).
  unfold is_bytes. rewrite Forall_forall. intros b Hb. rewrite forallb_forall in E. specialize (E b Hb).
  apply N.ltb_lt. exact E.
Qed.
