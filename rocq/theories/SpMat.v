(** include/GMDP/matrices/SpMat.h: an m x n matrix cut into nty x ntx tiles, spread over [nr]
    ranks.  The dimensions and the tile owners are the same on every rank; each rank has its own
    table of tile pointers, NULL ([None]) where it is not the owner. *)
From Verif Require Import Base Layout Search Bits Segment Vec DCSC.

(** SpMat.h:52-60 *)
Record spmat (E : Type) := mkM {
  mt_m : Z; mt_n : Z; mt_ntx : Z; mt_nty : Z; mt_ids : list Z;
  mt_tiles : list (list (list (option (dcsc E)))) (* rank, tile_i, tile_j *) }.
Arguments mkM {E}. Arguments mt_m {E}. Arguments mt_n {E}. Arguments mt_ntx {E}. Arguments mt_nty {E}.
Arguments mt_ids {E}. Arguments mt_tiles {E}.

Section SpMat.
  Context {E : Type}.
  (** [srt]: outcome of the unstable sort inside the tile constructor; [tsrt]: outcome of the
      unstable sort by [compare_tile_id] (include/GMDP/utils/edgelist.h:80-86 and
      SpMat.h:41-46), on (key, edge) pairs *)
  Variables srt tsrt : list (tedge E) -> list (tedge E).
  Variables (nr threads : Z).

  Section Ingest.
    Variables (m n ntx nty : Z) (ids : list Z).

    (** SpMat.h:118-130: every edge with the rank that owns its tile *)
    Definition tag_owner (e : edge E) : R (tedge E) :=
      do p <- mat_getPartition m n ntx nty (e_src e) (e_dst e) ;;
      let '(ival, jval, tile_id) := p in
      do _ <- assertb (negb (tile_id =? -1)) ;;
      do o <- rd ids (ival + jval * nty) ;; Ok (o, e).
    (** SpMat.h:223-233: every received edge with its tile id *)
    Definition tag_tile (e : edge E) : R (tedge E) :=
      do p <- mat_getPartition m n ntx nty (e_src e) (e_dst e) ;;
      let '(_, _, tile_id) := p in
      do _ <- assertb (negb (tile_id =? -1)) ;; Ok (tile_id, e).

    (** SpMat.h:148-168: (position, count) of each rank's stretch in the sorted array *)
    Definition stretches (assignment : list Z) : R (list (Z * Z)) :=
      do st <- forZ 0 nr (fun i (st : list (Z * Z) * Z) =>
          do point <- right_border_all assignment i ;;
          if point =? -1 then Ok (fst st ++ [(snd st, 0)], snd st)
          else Ok (fst st ++ [(snd st, (point + 1) - snd st)], point + 1)) ([], 0) ;;
      Ok (fst st).

    (** SpMat.h:115-168 and 199-202 on a sending rank: the caller's array as rewritten, and the
        message for every rank *)
    Definition ingest_send (edges : list (edge E)) : R (list (edge E) * list (list (edge E))) :=
      do tedges <- mapR tag_owner edges ;;
      let sorted := tsrt tedges in
      do ps <- stretches (map fst sorted) ;;
      do msgs <- mapR (fun pc => slice (map snd sorted) (fst pc) (snd pc)) ps ;;
      Ok (map snd sorted, msgs).

    (** SpMat.h:221-276 on rank [r]; [received] are all edges addressed to it, in rank order *)
    Definition ingest_recv (junk : Z -> Z -> Z) (r : Z) (received : list (edge E)) : R (list (list (option (dcsc E)))) :=
      do tedges2 <- mapR tag_tile received ;;
      let sorted := tsrt tedges2 in
      let assignment2 := map fst sorted in
      mapR (fun i => mapR (fun j =>
        do o <- rd ids (i + j * nty) ;;
        if o =? r then
          do a <- rd (mat_starts m nty) i ;; do b <- rd (mat_starts m nty) (i + 1) ;;
          do c <- rd (mat_starts n ntx) j ;; do d <- rd (mat_starts n ntx) (j + 1) ;;
          let tile_m := b - a in
          let tile_n := d - c in
          do start_nz <- left_border_all assignment2 (i + j * nty) ;;
          do end_nz <- right_border_all assignment2 (i + j * nty) ;;
          let nnz := if negb (start_nz =? -1) && negb (end_nz =? -1) then (end_nz + 1) - start_nz else 0 in
          if nnz <=? 0 then Ok (Some (dcsc_empty tile_m tile_n (junk i j)))
          else
            do es <- slice (map snd sorted) start_nz nnz ;;
            do t <- dcsc_new srt threads es tile_m tile_n a c (junk i j) ;; Ok (Some t)
        else Ok None) (zrange 0 ntx)) (zrange 0 nty).
  End Ingest.

  (** SpMat.h:280-331: construction from the edge lists of all ranks.  With one rank the edges are
      copied (SpMat.h:108-113), otherwise sorted by owner and exchanged (SpMat.h:114-219).  The
      second result is the edge array of each caller afterwards.  [junk r i j]: unset [num_cols]
      of the tiles. *)
  Definition mat_new (junk : Z -> Z -> Z -> Z) (m n ntx nty : Z) (blobs : list (list (edge E))) : R (spmat E * list (list (edge E))) :=
    do _ <- assertb (0 <? ntx) ;;
    do _ <- assertb (0 <? nty) ;;
    do ids <- mat_nodeIds ntx nty nr ;;
    if nr =? 1 then
      do tiles <- mapR (fun r => do received <- rd blobs r ;; ingest_recv m n ntx nty ids (junk r) r received) (zrange 0 nr) ;;
      Ok (mkM m n ntx nty ids tiles, blobs)
    else
      do sent <- mapR (ingest_send m n ntx nty ids) blobs ;;
      do tiles <- mapR (fun r =>
          do msgs <- mapR (fun q => do s <- rd sent q ;; rd (snd s) r) (zrange 0 nr) ;;
          ingest_recv m n ntx nty ids (junk r) r (concat msgs)) (zrange 0 nr) ;;
      Ok (mkM m n ntx nty ids tiles, map fst sent).

  (** tile pointer (i,j) of rank [r] *)
  Definition mat_tile (a : spmat E) (r i j : Z) : R (option (dcsc E)) :=
    do tab <- rd (mt_tiles a) r ;; rd2 tab i j.
  (** the same, dereferenced *)
  Definition mat_tile_ptr (a : spmat E) (r i j : Z) : R (dcsc E) :=
    do t <- mat_tile a r i j ;; match t with Some t => Ok t | None => Err NullDeref end.

  (** SpMat.h:348-356 and 381-391: the loop over all tiles owned by rank [r], rows outermost *)
  Definition each_tile {S} (a : spmat E) (r : Z) (body : Z -> Z -> dcsc E -> S -> R S) (s : S) : R S :=
    forZ 0 (mt_nty a) (fun i s => forZ 0 (mt_ntx a) (fun j s =>
      do o <- rd (mt_ids a) (i + j * mt_nty a) ;;
      if o =? r then do t <- mat_tile_ptr a r i j ;; body i j t s else Ok s) s) s.
  Definition mat_local_nnz (a : spmat E) (r : Z) : R Z :=
    each_tile a r (fun _ _ t acc => Ok (acc + t_nnz t)) 0.

  (** SpMat.h:343-376 on rank [r]; the array has exactly as many slots as the tiles have entries *)
  Definition mat_get_edges (a : spmat E) (r : Z) : R (list (edge E)) :=
    do nnz <- mat_local_nnz a r ;;
    if 0 <? nnz then
      do res <- each_tile a r (fun i j t (st : list (edge E) * Z) =>
          do si <- rd (mat_starts (mt_m a) (mt_nty a)) i ;;
          do sj <- rd (mat_starts (mt_n a) (mt_ntx a)) j ;;
          do es <- dcsc_get_edges t (nnz - snd st) si sj ;;
          if zlen es =? t_nnz t then Ok (fst st ++ es, snd st + t_nnz t) else Err Uninit) ([], 0) ;;
      if snd res =? nnz then Ok (fst res) else Err Uninit
    else Ok [].

  (** SpMat.h:393: [MPI_Allreduce(MPI_IN_PLACE, &total_nnz, 1, MPI_INT, MPI_SUM)] on a
      [uint64_t]: on a little-endian machine the low 32 bits of every rank's counter are summed
      modulo 2^32 and replace the low 32 bits of the local counter *)
  Definition allreduce_int_in_u64 (locals : list Z) (own : Z) : Z :=
    own / 2 ^ 32 * 2 ^ 32 + fold_right (fun x acc => (x mod 2 ^ 32 + acc) mod 2 ^ 32) 0 locals.
  (** SpMat.h:378-395: what each rank gets *)
  Definition mat_getNNZ (a : spmat E) : R (list Z) :=
    do locals <- mapR (mat_local_nnz a) (zrange 0 nr) ;;
    Ok (map (allreduce_int_in_u64 locals) locals).

  (** SpMat.h:422-443 *)
  Definition swap_ends (e : edge E) : edge E := mkE (e_dst e) (e_src e) (e_val e).
  Definition mat_transpose (junk : Z -> Z -> Z -> Z) (a : spmat E) (ntx nty : Z) : R (spmat E) :=
    do blobs <- mapR (mat_get_edges a) (zrange 0 nr) ;;
    do r <- mat_new junk (mt_n a) (mt_m a) ntx nty (map (map swap_ends) blobs) ;;
    Ok (fst r).
End SpMat.
