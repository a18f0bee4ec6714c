(** include/Graph.h: the remaining operations on a loaded graph, called on every rank. *)
From Verif Require Import Base Layout Bits Segment SegHistory Vec DCSC Kernel SpMat SpMSpV GraphVert Graph Runtime.

Section ApplyVertices.
  Context {V byte : Type}.
  Variable threads : Z.
  (** the callback [f(const V& in, V* out)]; [out] refers to the property itself *)
  Variable f : V -> V -> V.

  (** include/GMDP/singlenode/apply.h:40-44; here both bit vectors are the same
      array, every word of which is read before it is written *)
  Definition or_words (w1 w2 : list Z) (nints : Z) : R (list Z) :=
    forZ 0 nints (fun i w => do b <- rd w i ;; do a <- rd w1 i ;; wr w i (Z.lor b a)) w2.

  (** apply.h:46-63 with [v1 = v2] ([Graph.h:371-373] passes the same vector twice); the parallel
      loop over words in order *)
  Definition apply_values (w : list Z) (nints : Z) (v : list (option V)) : R (list (option V) * Z) :=
    forZ 0 nints (fun ii st =>
      do wd <- rd w ii ;;
      if popcnt32 wd =? 0 then Ok st else
      forZ (ii * 32) ((ii + 1) * 32) (fun i st =>
        do g <- bv_get w i ;;
        if g then
          do tmp <- rdi (fst st) i ;;
          do out <- rdi (fst st) i ;;
          do v <- wr (fst st) i (Some (f tmp out)) ;; Ok (v, snd st)
        else Ok st) (fst st, snd st + popcnt32 wd)) (v, 0).

  (** apply.h:65-71 with [s_in = s_out] *)
  Definition apply_to_segment (s : seg V byte) : R (seg V byte) :=
    do s <- seg_initialize (seg_alloc threads s) ;;
    do b <- prop s ;; do w <- words b ;;
    do w' <- or_words w w (s_nints s) ;;
    do r <- apply_values w' (s_nints s) (b_value b) ;;
    Ok (set_prop (Some (set_nnz (snd r) (set_value (fst r) (set_bits w' b)))) s).
End ApplyVertices.

Section MapReduce.
  Context {V W byte : Type}.
  Variable threads : Z.
  (** [mp v]: the property and the result that [op_map] leaves; [op a b]: what [op_fp] writes *)
  Variable mp : V -> V * W.
  Variable op : W -> W -> W.

  (** include/GMDP/singlenode/reduce.h:58-85: thread [p]'s part of the positions [0 .. cap) *)
  Definition mapreduce_part (w : list Z) (cap p : Z) (v : list (option V)) : R (list (option V) * option W) :=
    let per := Z.quot (cap + threads - 1) threads in
    let start := if per * p >? cap then cap else per * p in
    let end_ := if per * (p + 1) >? cap then cap else per * (p + 1) in
    forZ start end_ (fun i st =>
      do g <- bv_get w i ;;
      if g then
        do a <- rdi (fst st) i ;;
        do v <- wr (fst st) i (Some (fst (mp a))) ;;
        Ok (v, Some (match snd st with Some acc => op acc (snd (mp a)) | None => snd (mp a) end))
      else Ok st) (v, None).

  (** reduce.h:51-99: the parallel loop over threads in order, then the threads' results into
      [res] in thread order.  [mapreduce_segment] (lines 107-113) allocates and initializes the
      segment and passes its capacity. *)
  Definition mapreduce_segment (s : seg V byte) (res : W) : R (seg V byte * W) :=
    do s <- seg_initialize (seg_alloc threads s) ;;
    do b <- prop s ;; do w <- words b ;;
    do r <- forZ 0 threads (fun p st =>
        do q <- mapreduce_part w (s_cap s) p (fst st) ;; Ok (fst q, snd st ++ [snd q])) (b_value b, []) ;;
    Ok (set_prop (Some (set_value (fst r) b)) s,
        fold_left (fun acc l => match l with Some x => op acc x | None => acc end) (snd r) res).

  (** include/GMDP/multinode/reduce.h:45-51 on rank [r] *)
  Definition mapreduce_rank (ns nr r : Z) (segs : list (seg V byte)) (init : W) : R (list (seg V byte) * W) :=
    forZ 0 ns (fun i st =>
      do o <- vown ns nr i ;;
      if o =? r then
        do s <- rd (fst st) i ;;
        do q <- mapreduce_segment s (snd st) ;;
        do segs <- wr (fst st) i (fst q) ;; Ok (segs, snd q)
      else Ok st) (segs, init).

  (** reduce.h:39-74: [init r] is what [*res] holds on rank [r]; rank 0 reduces the results of the
      other ranks into its own and broadcasts it.  The second result lists [*res] of every rank. *)
  Definition map_reduce (ns nr : Z) (v : list (list (seg V byte))) (init : Z -> W) : R (list (list (seg V byte)) * list W) :=
    do t <- mapR (fun r => do segs <- rd v r ;; mapreduce_rank ns nr r segs (init r)) (zrange 0 nr) ;;
    do res0 <- rd (map snd t) 0 ;;
    do res <- forZ 1 nr (fun i res => do x <- rd (map snd t) i ;; Ok (op res x)) res0 ;;
    Ok (map fst t, map (fun _ => res) (zrange 0 nr)).
End MapReduce.

Section ApplyEdgesAll.
  Context {V E byte : Type}.
  Variable serv : bool.
  Variables (encv : list (Z * V) -> list byte) (decv : list byte -> Z -> R (list (Z * V))).
  Variables (nr threads : Z).
  Notation vec := (list (list (seg V byte))).

  (** include/GMDP/multinode/applyedges.h:58-71 *)
  Definition rowcol_ranks (a : spmat E) (j : Z) : R (list Z) :=
    do rr <- row_ranks a j ;; do cr <- col_ranks a j ;; Ok (set_of (rr ++ cr)).

  (** applyedges.h:45-161.  [op e c r] is what the callback leaves in an edge value [e], given the
      properties of the column and of the row vertex.  The kernel tests the row segment's bit
      vector (include/GMDP/singlenode/applyedges.h:57-62, see Kernel.v). *)
  Definition apply_all_tiles (op : E -> V -> V -> E) (a : spmat E) (vp : vec) : R (spmat E * vec) :=
    do vp <- bcast serv encv decv nr (mt_ntx a) threads (rowcol_ranks a) vp ;;
    do tiles <- mapR (fun r => tab2 (mt_nty a) (mt_ntx a) (fun i j =>
        do o <- rd (mt_ids a) (i + j * mt_nty a) ;;
        if o =? r then
          do t <- mat_tile_ptr a r i j ;;
          do s1 <- rd2 vp r j ;; do s2 <- rd2 vp r i ;;
          do t' <- apply_edges false op t s1 s2 ;; Ok (Some t')
        else mat_tile a r i j)) (zrange 0 nr) ;;
    do vp <- drop_copies nr (mt_ntx a) vp ;;
    Ok (mkM (mt_m a) (mt_n a) (mt_ntx a) (mt_nty a) (mt_ids a) tiles, vp).
End ApplyEdgesAll.

Section GraphOps.
  Context {V E byte : Type}.
  Variable serv : bool.
  Variables (encv : list (Z * V) -> list byte) (decv : list byte -> Z -> R (list (Z * V))).
  Variables (nr threads : Z).
  Notation gr := (graph V E byte).

  (** Graph.h:371-373, include/GMDP/multinode/apply.h:39-49 *)
  Definition g_applyToAllVertices (f : V -> V -> V) (g : gr) : R gr :=
    do vp <- on_ranks nr (fun r segs => each_owned nr nr r (fun _ s => apply_to_segment threads f s) segs) (g_vp g) ;;
    Ok (set_vp vp g).

  (** Graph.h:377-379 *)
  Definition g_applyReduceAllVertices {W} (mp : V -> V * W) (op : W -> W -> W) (init : Z -> W) (g : gr) : R (gr * list W) :=
    do r <- map_reduce threads mp op nr nr (g_vp g) init ;;
    Ok (set_vp (fst r) g, snd r).

  (** Graph.h:388-402: the transposed matrix has the source as column vertex and the destination
      as row vertex; for the matrix itself the lambda (lines 396-399) swaps the arguments back *)
  Definition g_applyToAllEdges (f : E -> V -> V -> E) (g : gr) : R gr :=
    do r <- apply_all_tiles serv encv decv nr threads f (g_AT g) (g_vp g) ;;
    do q <- apply_all_tiles serv encv decv nr threads (fun e src dst => f e dst src) (g_A g) (snd r) ;;
    Ok (mkG (g_n g) (g_nt g) (fst q) (fst r) (g_nnz g) (snd q) (g_act g)).

  (** Graph.h:262-316 on all ranks *)
  Definition g_act_all (o : aop) (g : gr) : R gr :=
    do act <- on_ranks nr (fun r segs => run_aop (g_n g) nr (g_nt g) threads r segs o) (g_act g) ;; Ok (set_act act g).
  Definition g_vp_all (o : gop) (g : gr) : R gr :=
    do vp <- on_ranks nr (fun r segs => run_gop (g_n g) nr (g_nt g) threads r segs o) (g_vp g) ;; Ok (set_vp vp g).
  (** Graph.h:292-296; [dv]: what the local [V v] holds *)
  Definition g_reset (dv : V) (g : gr) : R gr :=
    do g <- g_act_all AAllInactive g ;; g_vp_all (GSetAll dv) g.
End GraphOps.
