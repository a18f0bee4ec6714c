(** include/GMDP/vectors/SpVec.h: a vector of n elements cut into [ns] segments, spread over
    [nr] ranks.  Every rank constructs all segments; only the segments it owns carry content
    between calls.  A rank-level function works on the segment list of rank [r]; a vector is the
    list of these lists over all ranks. *)
From Verif Require Import Base Layout Bits Segment SegHistory Bucket.

(** element [(r, j)] of a table: segment [j] as seen by rank [r] *)
Definition rd2 {A} (t : list (list A)) (r j : Z) : R A := do row <- rd t r ;; rd row j.
Definition tab2 {A} (nr ns : Z) (f : Z -> Z -> R A) : R (list (list A)) :=
  mapR (fun r => mapR (fun j => f r j) (zrange 0 ns)) (zrange 0 nr).

Section Vec.
  Context {T byte : Type}.
  Notation sg := (seg T byte).
  Variables n ns nr : Z.

  (** SpVec.h:84-86, the owner of segment [j] *)
  Definition vown (j : Z) : R Z := vector_partition_fn j ns nr.

  (** SpVec.h:71-99 on one rank; [junk j] is what an unwritten counter of segment [j] holds *)
  Definition vec_new (junk : Z -> Z) (fresh : option T) : R (list sg) :=
    do _ <- assertb (0 <? ns) ;;
    mapR (fun j => do a <- rd (starts n ns) j ;; do b <- rd (starts n ns) (j + 1) ;;
                   Ok (new_seg (b - a) (junk j) fresh)) (zrange 0 ns).

  (** the recurring loop: for every segment owned by rank [r] *)
  Definition each_owned (r : Z) (f : Z -> sg -> R sg) (segs : list sg) : R (list sg) :=
    mapR (fun j => do s <- rd segs j ;; do o <- vown j ;; if o =? r then f j s else Ok s) (zrange 0 ns).

  (** locate id [idx] and run [f] on its segment if rank [r] owns it *)
  Definition at_owner (r idx : Z) (f : Z -> sg -> R sg) (segs : list sg) : R (list sg) :=
    do p <- vec_getPartition n ns idx ;;
    do _ <- assertb (0 <=? p) ;;
    do o <- vown p ;;
    if o =? r then
      do s <- rd segs p ;;
      do _ <- assertb (0 <? s_cap s) ;;
      do st <- rd (starts n ns) p ;;
      do s' <- f (idx - st) s ;;
      wr segs p s'
    else Ok segs.

  (** SpVec.h:309-318 *)
  Definition vec_set (threads r idx : Z) (val : option T) (segs : list sg) : R (list sg) :=
    at_owner r idx (fun i s => seg_set threads i val s) segs.
  (** SpVec.h:320-327 *)
  Definition vec_unset (threads r idx : Z) (segs : list sg) : R (list sg) :=
    at_owner r idx (fun i s => seg_unset threads i s) segs.
  (** SpVec.h:329-338 *)
  Definition vec_setAll (threads r : Z) (val : option T) (segs : list sg) : R (list sg) :=
    each_owned r (fun _ s => seg_setAll threads val s) segs.
  (** include/GMDP/multinode/clear.h:40-49 [Clear] *)
  Definition vec_clear (r : Z) (segs : list sg) : R (list sg) :=
    each_owned r (fun _ s => Ok (seg_set_uninitialized s)) segs.
  (** include/Graph.h:268-280 [setAllInactive] on the active vector: [setAll(false)], then the
      words of the owned segments are zeroed *)
  Definition vec_set_inactive (threads r : Z) (val : option T) (segs : list sg) : R (list sg) :=
    do segs <- vec_setAll threads r val segs ;;
    each_owned r (fun _ s => seg_zero s) segs.

  (** SpVec.h:340-348: [*myres] on rank [r], initially [dflt] *)
  Definition vec_get (r idx : Z) (dflt : option T) (segs : list sg) : R (option T) :=
    do p <- vec_getPartition n ns idx ;;
    do _ <- assertb (0 <=? p) ;;
    do o <- vown p ;;
    if o =? r then
      do s <- rd segs p ;;
      do st <- rd (starts n ns) p ;;
      seg_get (idx - st) s
    else Ok dflt.

  (** SpVec.h:366-376 *)
  Definition vec_node_owner (r idx : Z) : R bool :=
    do p <- vec_getPartition n ns idx ;;
    do _ <- assertb (0 <=? p) ;;
    do o <- vown p ;;
    Ok (o =? r).

  (** SpVec.h:350-360: one rank's contribution *)
  Definition vec_local_nnz (r : Z) (segs : list sg) : R Z :=
    forZ 0 ns (fun j acc => do o <- vown j ;;
      if o =? r then do s <- rd segs j ;; do k <- seg_compute_nnz s ;; Ok (acc + k) else Ok acc) 0.
  (** SpVec.h:350-364, including the sum over ranks (every rank gets it); the result is
      unbounded here, a 32-bit [int] in the code *)
  Definition vec_getNNZ (v : list (list sg)) : R Z :=
    forZ 0 nr (fun r acc => do segs <- rd v r ;; do k <- vec_local_nnz r segs ;; Ok (acc + k)) 0.

  (** SpVec.h:119-146: the (id, value) pairs rank [r] exports; the array has exactly
      [vec_local_nnz] slots, shared by its segments *)
  Definition vec_get_edges (r : Z) (segs : list sg) : R (list (Z * option T)) :=
    do nnz <- vec_local_nnz r segs ;;
    if 0 <? nnz then
      do res <- forZ 0 ns (fun j (st : list (Z * option T) * Z) =>
          do o <- vown j ;;
          if o =? r then
            do s <- rd segs j ;;
            do a <- rd (starts n ns) j ;;
            do es <- seg_get_edges (nnz - snd st) a s ;;
            do k <- seg_compute_nnz s ;;
            (* the next segment starts writing at nnzs + compute_nnz() *)
            if zlen es =? k then Ok (fst st ++ es, snd st + k) else Err Uninit
          else Ok st) ([], 0) ;;
      if snd res =? nnz then Ok (fst res) else Err Uninit
    else Ok [].

  (** SpVec.h:148-222 on one rank: messages for every rank *)
  Definition vec_ingest_send (edges : list (Z * T)) : R (list (list (option (Z * T)))) :=
    do asg <- mapR (fun e : Z * T => do p <- vec_getPartition n ns (fst e) ;;
                do _ <- assertb (negb (p =? -1)) ;; do o <- vown p ;; Ok (o, e)) edges ;;
    pack_msgs nr asg.
  (** SpVec.h:228-303 on rank [r], given the messages addressed to it in rank order *)
  Definition vec_ingest_recv (threads r : Z) (msgs : list (list (option (Z * T)))) (segs : list sg) : R (list sg) :=
    do final <- receive_all msgs ;;
    do parted <- mapR (fun e : Z * T => do p <- vec_getPartition n ns (fst e) ;;
                do _ <- assertb (negb (p =? -1)) ;; do o <- vown p ;; do _ <- assertb (o =? r) ;; Ok (p, e)) final ;;
    do es <- counting_sort ns parted ;;
    let '(edges, start_nzs, counts) := es in
    each_owned r (fun j s =>
      do nnz <- rd counts j ;;
      do st <- rd start_nzs j ;;
      do _ <- assertb (st <=? zlen final) ;;
      do _ <- assertb (nnz <=? zlen final) ;;
      if 0 <? nnz then
        do sl <- slice edges st nnz ;;
        do sl <- mapR need sl ;;
        do a <- rd (starts n ns) j ;;
        seg_ingest threads sl a s
      else Ok s) segs.
  (** SpVec.h:148-307 over all ranks: [blobs] are the edge lists passed by the ranks *)
  Definition vec_ingest (threads : Z) (blobs : list (list (Z * T))) (v : list (list sg)) : R (list (list sg)) :=
    do out <- mapR vec_ingest_send blobs ;;
    mapR (fun r => do segs <- rd v r ;;
                   do msgs <- mapR (fun q => rd2 out q r) (zrange 0 nr) ;;
                   vec_ingest_recv threads r msgs segs) (zrange 0 nr).

  (** SpVec.h:378-386 on rank [r]: the lines of each file written, with the segment number that
      is appended to the file name (the optional header line is left out) *)
  Definition vec_save (r : Z) (segs : list sg) : R (list (Z * list (Z * option T))) :=
    forZ 0 ns (fun j acc => do o <- vown j ;;
      if o =? r then
        do s <- rd segs j ;; do a <- rd (starts n ns) j ;; do ls <- seg_save a s ;; Ok (acc ++ [(j, ls)])
      else Ok acc) [].
End Vec.

(** Operations a rank performs on its part of a vector (ids are global, 1..n). *)
Section VH.
  Context {T byte : Type}.
  Variables n ns nr : Z.
  Definition run_vop (threads r : Z) (segs : list (seg T byte)) (o : sop T) : R (list (seg T byte)) :=
    match o with
    | OSet id a => vec_set n ns nr threads r id (Some a) segs
    | OUnset id => vec_unset n ns nr threads r id segs
    | OSetAll a => vec_setAll ns nr threads r (Some a) segs
    | OClear => vec_clear ns nr r segs
    | OSetInactive a => vec_set_inactive ns nr threads r (Some a) segs
    end.
  Definition run_vops (threads r : Z) (ops : list (sop T)) (segs : list (seg T byte)) : R (list (seg T byte)) :=
    foldR (run_vop threads r) ops segs.
  (** construct the vector on rank [r], then run the operations *)
  Definition vec_history (junk : Z -> Z) (fresh : option T) (threads r : Z) (ops : list (sop T)) : R (list (seg T byte)) :=
    do segs <- vec_new n ns junk fresh ;; run_vops threads r ops segs.
End VH.

(** specification: the value supplied last for [id] in a list of (id, value) pairs *)
Definition lastv {T} (edges : list (Z * T)) (id : Z) : option T :=
  fold_left (fun acc e => if fst e =? id then Some (snd e) else acc) edges None.
