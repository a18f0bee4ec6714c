(** C71: archives of vectors and segments (include/GMDP/vectors/SpVec.h, DenseSegment.h). *)
From Verif Require Import Base BaseLemmas Layout Bits Segment SegmentProofs SegHistory SegHistoryProofs SegFinal Vec GraphVert GraphVertProofs VecArchive VecArchiveProofs.
Open Scope Z_scope.

(** C71.  Every rank [r] constructs the vector, runs its own history [ops r] and archives its part; every
    rank then loads its archive, on any number of threads, and goes on with [ops2 r].  [jz], [jt], [junk],
    [fresh] are what memory holds that was never set.  Archiving and loading succeed; the loaded
    object has the members of the saved one; later operations succeed; [getNNZ] is the number of ids
    present after both histories, and every id is present with its value at its owner. *)
Theorem C71_vector_archive {T byte} n ns nr (jz : Z -> Z -> Z) (jt : Z -> Z -> T) junk fresh (junk2 : Z -> Z) (fresh2 : option T) threads (ops : Z -> list (sop T)) :
  0 <= n -> 1 <= ns -> 1 <= nr -> 1 <= threads -> (forall r, 0 <= r < nr -> Forall (sop_in_range n) (ops r)) ->
  exists saved : list (vobj T byte * list (vitem T byte)), mapR (fun r => archive_after (jz r) (jt r) n ns nr junk fresh threads r (ops r)) (zrange 0 nr) = Ok saved /\
  exists loaded, mapR (fun r => do s <- rd saved r ;; do x <- vec_restore (junk2 r) fresh2 (snd s) ;; Ok (fst x)) (zrange 0 nr) = Ok loaded /\
    (forall r s v, rd saved r = Ok s -> rd loaded r = Ok v -> same_shape (fst s) v) /\
  exists own, (forall id r, 1 <= id <= n -> vec_node_owner n ns nr r id = Ok (own id =? r)) /\
  forall t2 (ops2 : Z -> list (sop T)), 1 <= t2 -> (forall r, 0 <= r < nr -> Forall (sop_in_range n) (ops2 r)) ->
    let M := fun id => spec_sops n (ops (own id) ++ ops2 (own id)) id in
    exists v2, mapR (fun r => do v <- rd loaded r ;; run_on t2 (ops2 r) v) (zrange 0 nr) = Ok v2 /\
      vec_getNNZ ns nr v2 = Ok (zlen (members n M)) /\
      forall r segs id a d, rd v2 r = Ok segs -> 1 <= id <= n -> M id = Some a -> vec_get n ns nr r id d segs = Ok (if own id =? r then Some a else d).
Proof. exact (fun Hn Hs Hr => vector_archive n ns nr Hn Hs Hr jz jt junk fresh junk2 fresh2 threads ops). Qed.
Print Assumptions C71_vector_archive.

(** One segment: after loading, [getNNZ] is what it was, and any further history leaves exactly the
    map of both histories, with the member list unless the last operation cleared the segment. *)
Theorem C71_segment_continues {T byte} jz jt junk2 fresh2 c t (ops : list (sop T)) (s : seg T byte) : 0 <= c -> built c t ops s ->
  exists ar s', seg_archive jz jt s [] = Ok ar /\ (forall rest, seg_restore junk2 fresh2 (ar ++ rest) = Ok (s', rest)) /\ seg_getNNZ s' = seg_getNNZ s /\
  forall t2 ops2, 1 <= t2 -> Forall (sop_in_range c) ops2 -> exists s2, run_sops t2 ops2 s' = Ok s2 /\
    seg_compute_nnz s2 = Ok (zlen (members c (spec_sops c (ops ++ ops2)))) /\
    ((exists l o, ops ++ ops2 = l ++ [o] /\ o <> OClear) -> shows c s2 (spec_sops c (ops ++ ops2))).
Proof. exact (segment_archive_continues jz jt junk2 fresh2 c t ops s). Qed.
Print Assumptions C71_segment_continues.

(** A loaded segment can be sent: the receiver shows the map of the archived one. *)
Theorem C71_segment_sends {T byte} ser (enc : list (Z * T) -> list byte) dec jz jt junk2 fresh2 c t ops (s : seg T byte) t2 ops2 (r : seg T byte) :
  0 <= c -> (forall l, dec (enc l) (zlen l) = Ok l) -> built c t ops s -> built c t2 ops2 r -> (ser = true -> t = t2) ->
  exists ar s', seg_archive jz jt s [] = Ok ar /\ (forall rest, seg_restore junk2 fresh2 (ar ++ rest) = Ok (s', rest)) /\
  forall t1, 1 <= t1 -> (ser = true -> t1 = t2) -> exists s2 r2, transfer ser enc dec t1 t2 s' r = Ok (s2, r2) /\ shows c r2 (spec_sops c ops).
Proof. exact (segment_archive_sends ser enc dec jz jt junk2 fresh2 c t ops s t2 ops2 r). Qed.
Print Assumptions C71_segment_sends.

(** Not every segment can be archived: one of a plain type that heard from a sender with more threads
    shows the right content, and archiving it reads past the end of its scan arrays. *)
Theorem C71_after_receive_refuted : exists (s r s' r' : seg Z (Z * Z)), built 4 2 [OSet 3 7] s /\ built 4 1 [] r /\
  transfer false (fun l => l) (fun bs _ => Ok bs) 2 1 s r = Ok (s', r') /\ shows 4 r' (spec_sops 4 [OSet 3 7]) /\ forall jz jt, seg_archive jz jt r' [] = Err OOB.
Proof. exact archive_after_transfer_bad. Qed.
Print Assumptions C71_after_receive_refuted.

(** two ranks, three segments of a vector of 600, histories before and after the archive *)
Example C71_example : let ops r := if r =? 0 then [OSetAll 5; OUnset 7] else [OSet 300 8; OSet 560 6; OSet 2 9] in let ops2 r := if r =? 0 then [OSet 40 1; OSet 7 3; OUnset 8] else [@OUnset Z 300; OSet 310 2; OSet 400 4] in
  (forall r, 0 <= r < 2 -> Forall (sop_in_range 600) (ops r)) /\ (forall r, 0 <= r < 2 -> Forall (sop_in_range 600) (ops2 r)) /\
  exists saved, mapR (fun r => archive_after (byte:=unit) (fun p => p) (fun _ => 77) 600 3 2 (fun _ => 13) None 2 r (ops r)) (zrange 0 2) = Ok saved /\
  exists loaded, mapR (fun r => do s <- rd saved r ;; do x <- vec_restore 0 None (snd s) ;; Ok (fst x)) (zrange 0 2) = Ok loaded /\
  exists v2, mapR (fun r => do v <- rd loaded r ;; run_on 1 (ops2 r) v) (zrange 0 2) = Ok v2 /\
    vec_getNNZ 3 2 v2 = Ok 345.
Proof.
  split; [|split].
  - intros r Hr. destruct (r =? 0); repeat constructor; simpl; lia.
  - intros r Hr. destruct (r =? 0); repeat constructor; simpl; lia.
  - eexists. split; [vm_compute; reflexivity|]. eexists. split; [vm_compute; reflexivity|]. eexists. split; [vm_compute; reflexivity|]. vm_compute. reflexivity.
Qed.
(** a segment with a set, a cleared and a refilled history is [built] *)
Example C71_example_built : exists s : seg Z (Z * Z), built 40 3 [OSetAll 5; OClear; OSet 33 8; OUnset 4] s.
Proof. eexists. split; [lia|]. split; [repeat constructor; simpl; lia|]. exists 0, None. vm_compute. reflexivity. Qed.
