(** Properties C21-C24: vector segments (include/GMDP/vectors/DenseSegment.h). *)
From Coq Require Import Sorting.Sorted.
From Verif Require Import BaseLemmas Bits BitsProofs Segment SegmentProofs UnionProofs SegHistory SegHistoryProofs Reduce ReduceProofs Conc ParSeg SegFinal.

(** C21.  Any in-range history of set / unset / setAll / Clear / bulk-deactivate on a fresh
    segment runs without error and leaves exactly the partial map of the same history:
    [shows] = exact recount, exact member list, stored values.  [getNNZ] is exact too, unless a
    bulk deactivate left a stale count. *)
Theorem C21_segment_history {T} n t junk fresh (ops : list (sop T)) : 1 <= t -> 0 <= n -> Forall (sop_in_range n) ops ->
  exists s : seg T unit, run_sops t ops (new_seg n junk fresh) = Ok s /\
    ((exists ops' o, ops = ops' ++ [o] /\ o <> OClear) -> shows n s (spec_sops n ops)) /\
    seg_compute_nnz s = Ok (zlen (members n (spec_sops n ops))) /\
    (forall ops' o, ops = ops' ++ [o] -> o <> OClear -> 0 < n -> Forall no_inactive ops -> seg_getNNZ s = Ok (zlen (members n (spec_sops n ops)))) /\
    (forall ops' a, ops = ops' ++ [OSetInactive a] -> 0 < n -> seg_getNNZ s = Ok n /\ seg_compute_nnz s = Ok 0).
Proof. exact (history_shows n t junk fresh ops). Qed.
Print Assumptions C21_segment_history.

Example C21_example : Forall (sop_in_range 40) [OSetAll 5; OUnset 7; OClear; OSet 33 8; OSet 2 9; OSet 33 1; @OUnset Z 4] /\
  members 40 (spec_sops 40 [OSetAll 5; OUnset 7; OClear; OSet 33 8; OSet 2 9; OSet 33 1; OUnset 4]) = [2; 33] /\
  spec_sops 40 [OSetAll 5; OUnset 7; OClear; OSet 33 8; OSet 2 9; OSet 33 1; OUnset 4] 33 = Some 1.
Proof. split; [repeat constructor; lia|]. split; reflexivity. Qed.

(** C22.  A receiver in any state, hearing from any number of senders in turn, ends up with
    exactly the content of the last one; thread counts are arbitrary for plain types and equal
    for Serializable ones ([enc]/[dec]: the archive). *)
Theorem C22_transfer {T byte} ser (enc : list (Z * T) -> list byte) dec n t2 ops2 (r : seg T byte)
    (senders : list (Z * list (sop T) * seg T byte)) t ops s :
  0 <= n -> (forall l, dec (enc l) (zlen l) = Ok l) -> built n t2 ops2 r ->
  Forall (fun x => built n (fst (fst x)) (snd (fst x)) (snd x) /\ (ser = true -> fst (fst x) = t2)) (senders ++ [(t, ops, s)]) ->
  exists r', transfers ser enc dec t2 (map (fun x => (fst (fst x), snd x)) (senders ++ [(t, ops, s)])) r = Ok r' /\ shows n r' (spec_sops n ops).
Proof. exact (transfers_hist ser enc dec n t2 ops2 r senders t ops s). Qed.
Print Assumptions C22_transfer.

(** For Serializable types a sender with more threads overruns the receiver's scan arrays. *)
Theorem C22_serializable_any_threads_refuted :
  exists (s r : seg Z (Z * Z)), built 4 2 [OSet 3 7] s /\ built 4 1 [] r /\
    transfer true (fun l => l) (fun bs _ => Ok bs) 2 1 s r = Err OOB.
Proof. exact transfer_ser_threads_bad. Qed.
Print Assumptions C22_serializable_any_threads_refuted.

(** sparse (1 of 40) and dense (all of 40) senders, different thread counts *)
Example C22_example : exists (s d r : seg Z (Z * Z)), built 40 3 [OSet 33 8] s /\ built 40 2 [OSetAll 6] d /\ built 40 1 [] r /\
  (forall l : list (Z * Z), (fun (bs : list (Z * Z)) (_ : Z) => Ok bs) l (zlen l) = Ok l).
Proof.
  exists (match run_sops 3 [OSet 33 8] (new_seg 40 0 None) with Ok s => s | Err _ => new_seg 40 0 None end),
         (match run_sops 2 [OSetAll 6] (new_seg 40 0 None) with Ok s => s | Err _ => new_seg 40 0 None end), (new_seg 40 0 None).
  split; [|split; [|split] ].
  - split; [lia|]. split; [repeat constructor; lia|]. exists 0, None. vm_compute. reflexivity.
  - split; [lia|]. split; [repeat constructor|]. exists 0, None. vm_compute. reflexivity.
  - split; [lia|]. split; [constructor|]. exists 0, None. reflexivity.
  - reflexivity.
Qed.

(** C23.  After queueing and merging, the owner shows, for every id, the reduction of the values
    of all segments (its own and each contributor's) that have it; absent elsewhere. *)
Theorem C23_merge {T byte} ser (enc : list (Z * T) -> list byte) dec op n t ops (owner : seg T byte) (cs : list (Z * list (sop T) * seg T byte)) :
  0 <= n -> (forall l, dec (enc l) (zlen l) = Ok l) -> built n t ops owner ->
  Forall (fun x => built n (fst (fst x)) (snd (fst x)) (snd x) /\ (ser = true -> fst (fst x) = t)) cs ->
  exists o', gather ser enc dec op t (map (fun x => (fst (fst x), snd x)) cs) owner = Ok o' /\
    shows n o' (fun id => red op (contribs (spec_sops n ops :: map (fun x => spec_sops n (snd (fst x))) cs) id)).
Proof. exact (gather_hist ser enc dec op n t ops owner cs). Qed.
Print Assumptions C23_merge.

(** For a commutative associative operation the order of the contributions is irrelevant. *)
Theorem C23_any_order {U} (op : U -> U -> U) l l' : commutative op -> associative op -> Permutation l l' -> red op l = red op l'.
Proof. exact (fun C A => red_perm op C A l l'). Qed.
Print Assumptions C23_any_order.

Example C23_example : commutative Z.add /\ associative Z.add /\
  contribs [spec_sops 40 [OSet 3 1]; spec_sops 40 [OSetAll 2]; spec_sops 40 [OSet 3 4; OSet 5 6]] 3 = [1; 2; 4] /\
  red Z.add [1; 2; 4] = Some 7.
Proof. split; [intros a b; lia|]. split; [intros a b c; lia|]. split; reflexivity. Qed.

(** C24.  Decoding: the thread ranges split the entries exactly and never share a membership
    word, and every interleaving of the threads' single reads and writes is free of errors and,
    when all threads are done, leaves the memory the sequential code leaves. *)
Theorem C24_decode_interleavings {T} threads cap ks (ds rest : list (option T)) irest v :
  1 <= threads -> 0 <= cap -> StronglySorted Z.lt ks -> (forall k, In k ks -> 0 <= k < cap) -> length ds = length ks -> zlen v = cap ->
  let cidx := map Some ks ++ irest in let cdata := ds ++ rest in
  let b := @mkbuf T unit false (zlen ks) cap (num_ints_of cap) v None cdata cidx [] 0 0 [] [] in
  let w0 := repeat 0 (Z.to_nat (num_ints_of cap)) in
  exists ends ts w' v', decomp_bounds threads cidx (zlen ks) = Ok ends /\
    word_disjoint_ranges ks threads (fun p => match (if p =? 0 then Ok 0 else rd ends (p - 1)) with Ok a => a | Err _ => 0 end)
                                    (fun p => match rd ends p with Ok a => a | Err _ => 0 end) /\
    decomp_pool threads cdata cidx (zlen ks) = Ok ts /\
    buf_decompress_plain threads b = Ok (set_value v' (set_bits w' b)) /\
    forall ts' m', psteps sloc_eqb (ts, smem (w0, v)) (ts', m') -> ~ bad (ts', m') /\ (finished ts' -> forall l, m' l = smem (w', v') l).
Proof. exact (decode_interleavings threads cap ks ds rest irest v). Qed.
Print Assumptions C24_decode_interleavings.

(** The same for merging a sparse contribution into words [w] and values [v] that represent a
    partial map [M]. *)
Theorem C24_merge_interleavings {T} (op : T -> T -> T) threads cap ks (ds : list T) rest irest w v M :
  1 <= threads -> 0 <= cap -> StronglySorted Z.lt ks -> (forall k, In k ks -> 0 <= k < cap) -> length ds = length ks ->
  wwf cap w -> zlen v = cap -> dmap w v M ->
  let cidx := map Some ks ++ irest in let cdata := map Some ds ++ rest in
  exists lo hi wv, 
    word_disjoint_ranges ks (threads * 16) lo hi /\
    union_pool op threads cdata cidx (zlen ks) = map (fun p => tfor (lo p) (hi p) (union_entry_t op cdata cidx)) (zrange 0 (threads * 16)) /\
    union_compressed op threads cdata cidx (zlen ks) (w, v) = Ok wv /\
    forall ts' m', psteps sloc_eqb (union_pool op threads cdata cidx (zlen ks), smem (w, v)) (ts', m') ->
      ~ bad (ts', m') /\ (finished ts' -> forall l, m' l = smem wv l).
Proof. exact (merge_interleavings op threads cap ks ds rest irest w v M). Qed.
Print Assumptions C24_merge_interleavings.

Example C24_example : StronglySorted Z.lt [3; 31; 32; 70] /\ (forall k, In k [3; 31; 32; 70] -> 0 <= k < 80) /\
  decomp_bounds 2 (map Some [3; 31; 32; 70]) 4 = Ok [4; 4] /\
  wwf 80 [2; 0; 1] /\ dmap [2; 0; 1] (repeat (Some 5) 80) (fun k => if (k =? 1) || (k =? 64) then Some 5 else None).
Proof.
  split; [repeat constructor; lia|]. split; [intros k Hk; simpl in Hk; lia|]. split; [reflexivity|].
  assert (forall k, tb [2; 0; 1] k = (k =? 1) || (k =? 64)) as TB.
  { intros k. destruct (Z_le_dec 0 k); [destruct (Z_lt_dec k 96)|].
    - assert (forallb (fun k => Bool.eqb (tb [2;0;1] k) ((k =? 1) || (k =? 64))) (zrange 0 96) = true) as H by (vm_compute; reflexivity).
      rewrite forallb_forall in H. apply Bool.eqb_prop. apply H. apply in_zrange. lia.
    - rewrite tb_out by (unfold zlen; simpl; lia). lia.
    - rewrite tb_out by (unfold zlen; simpl; lia). lia. }
  split.
  - split; [reflexivity|]. intros k Hk. rewrite TB. lia.
  - intros k. unfold wabs. rewrite TB. destruct ((k =? 1) || (k =? 64)) eqn:E; auto.
    assert (0 <= k < 80) by lia. destruct (rd_ok (repeat (Some 5) 80) k) as [c Hc]; [unfold zlen; rewrite repeat_length; lia|]. rewrite Hc.
    apply rd_In in Hc. apply repeat_spec in Hc. subst. reflexivity.
Qed.
