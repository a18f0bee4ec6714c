(** Edge lists and the utilities of include/GMDP/utils/edgelist.h and
    include/GMDP/utils/edgelist_transformation.h. *)
From Coq Require Import QArith Qround.
From Verif Require Import Base Segment DCSC.
Open Scope Z_scope.

(** include/GMDP/utils/edgelist.h:52-57 [edgelist_t]: the allocation behind [edges] (cells nobody
    wrote are [None]) and the three integers.  When the array is requested and given back
    is the matter of Mem.v. *)
Record elist (E : Type) := mkEL { el_arr : list (option (edge E)); el_m : Z; el_n : Z; el_nnz : Z }.
Arguments mkEL {E}. Arguments el_arr {E}. Arguments el_m {E}. Arguments el_n {E}. Arguments el_nnz {E}.

Section EL.
  Context {E : Type}.
  Notation elist := (elist E).
  Notation edge := (edge E).

  (** edgelist.h:59-67: the sized constructor; nothing is allocated if [nnz <= 0] *)
  Definition new_elist (m n nnz : Z) : elist := mkEL (repeat None (Z.to_nat nnz)) m n nnz.

  (** [edgelist->edges[i]] used as a value *)
  Definition rde (el : elist) (i : Z) : R edge := rdi (el_arr el) i.
  Definition swap (e : edge) : edge := mkE (e_dst e) (e_src e) (e_val e).

  (** the loop shared by [remove_selfedges] (edgelist_transformation.h:39-46) and [filter_edges]
      (edgelist_transformation.h:433-440): copy the edges for which [keep] holds to a new array *)
  Definition copy_if (keep : edge -> bool) (el : elist) : R (list (option edge) * Z) :=
    forZ 0 (el_nnz el) (fun i st =>
      do e <- rde el i ;;
      if keep e then do a <- wr (fst st) (snd st) (Some e) ;; Ok (a, snd st + 1) else Ok st)
      (el_arr (new_elist (el_m el) (el_n el) (el_nnz el)), 0).

  (** edgelist_transformation.h:37-53 *)
  Definition remove_selfedges (el : elist) : R elist :=
    do r <- copy_if (fun e => negb (e_src e =? e_dst e)) el ;;
    Ok (mkEL (fst r) (el_m el) (el_n el) (snd r)).

  (** edgelist_transformation.h:431-443; the first component is the caller's list, which the
      function only reads *)
  Definition filter_edges (f : edge -> bool) (el : elist) : R (elist * elist) :=
    do r <- copy_if f el ;;
    Ok (el, mkEL (fst r) (el_m el) (el_n el) (snd r)).

  (** edgelist_transformation.h:55-61 *)
  Definition compare_for_duplicates (e1 e2 : edge) : bool :=
    if e_src e1 <? e_src e2 then true
    else if e_src e2 <? e_src e1 then false
    else e_dst e1 <? e_dst e2.

  (** edgelist_transformation.h:63-67: [__gnu_parallel::sort] over the first [nnz] edges is some
      function [srt] on their sequence (theorems ask that it returns a sorted rearrangement) *)
  Definition sort_types (srt : list edge -> list edge) (el : elist) : R elist :=
    do es <- mapR (fun i => rde el i) (zrange 0 (el_nnz el)) ;;
    Ok (mkEL (map Some (srt es) ++ skipn (Z.to_nat (el_nnz el)) (el_arr el)) (el_m el) (el_n el) (el_nnz el)).

  (** edgelist_transformation.h:69-93 *)
  Definition remove_duplicate_edges_local (srt : list edge -> list edge) (el : elist) : R elist :=
    if 0 <? el_nnz el then
      do el <- sort_types srt el ;;
      do e0 <- rde el 0 ;;
      do a0 <- wr (el_arr (new_elist (el_m el) (el_n el) (el_nnz el))) 0 (Some e0) ;;
      do r <- forZ 1 (el_nnz el) (fun i st =>
          do e <- rde el i ;;
          do p <- rde el (i - 1) ;;
          if (e_src e =? e_src p) && (e_dst e =? e_dst p) then Ok st
          else do a <- wr (fst st) (snd st) (Some e) ;; Ok (a, snd st + 1)) (a0, 1) ;;
      Ok (mkEL (fst r) (el_m el) (el_n el) (snd r))
    else Ok el.

  (** ** shuffle_edges, edgelist_transformation.h:95-235.  [nt] is the number of OpenMP threads
      ([omp_get_max_threads()], and the size of both teams), [nr] the number of ranks. *)
  (** lines 117-124 (= 144-151): the edges handled by thread [tid] *)
  Definition thread_edges (nt nnz tid : Z) : Z * Z :=
    let per := Z.quot nnz nt in
    let start := tid * per in
    let end_ := start + per in
    let start := if nnz <? start then nnz else start in
    let end_ := if nnz <? end_ then nnz else end_ in
    (start, if tid =? nt - 1 then nnz else end_).
  (** line 126 (= 153) with the assert of line 127 (= 154) *)
  Definition edge_bin (nr : Z) (e : edge) : R Z :=
    let bin := Z.rem (e_src e - 1) nr in
    do _ <- assertb ((0 <=? bin) && (bin <=? nr - 1)) ;; Ok bin.
  (** lines 115-130: thread [tid] counts into row [tid] *)
  Definition shuffle_hist (nt nr : Z) (el : elist) : R (list Z) :=
    forZ 0 nt (fun tid h =>
      let '(start, end_) := thread_edges nt (el_nnz el) tid in
      forZ start end_ (fun i h =>
        do e <- rde el i ;;
        do bin <- edge_bin nr e ;;
        do c <- rd h (tid * nr + bin) ;;
        wr h (tid * nr + bin) (c + 1)) h) (repeat 0 (Z.to_nat (nt * nr))).
  (** lines 131-141 *)
  Definition shuffle_offset (nt nr : Z) (h : list Z) : R (list Z) :=
    do o <- wr (repeat 0 (Z.to_nat (nt * nr))) 0 0 ;;
    forZ 0 nr (fun bin o => forZ 0 nt (fun tid o =>
      do o <- (if 0 <? tid then
                 do a <- rd o ((tid - 1) * nr + bin) ;; do b <- rd h ((tid - 1) * nr + bin) ;;
                 wr o (tid * nr + bin) (a + b)
               else Ok o) ;;
      if (tid =? 0) && (0 <? bin) then
        do a <- rd o ((nt - 1) * nr + bin - 1) ;; do b <- rd h ((nt - 1) * nr + bin - 1) ;;
        wr o (tid * nr + bin) (a + b)
      else Ok o) o) o.
  (** lines 142-158.  The last component is a ghost: the slots of [tedges] in the order in which
      they are written here *)
  Definition shuffle_scatter (nt nr : Z) (el : elist) (o : list Z) : R (list (option edge) * list Z * list Z) :=
    forZ 0 nt (fun tid st =>
      let '(start, end_) := thread_edges nt (el_nnz el) tid in
      forZ start end_ (fun i st =>
        let '(te, wo, slots) := st in
        do e <- rde el i ;;
        do bin <- edge_bin nr e ;;
        do a <- rd o (tid * nr + bin) ;;
        do b <- rd wo (tid * nr + bin) ;;
        do te <- wr te (a + b) (Some e) ;;
        do wo <- wr wo (tid * nr + bin) (b + 1) ;;
        Ok (te, wo, slots ++ [a + b])) st)
      (repeat None (Z.to_nat (el_nnz el)), repeat 0 (Z.to_nat (nt * nr)), []).
  (** lines 164-170 and 201-204: what this rank sends to rank [bin] *)
  Definition shuffle_message (nt nr : Z) (h o : list Z) (te : list (option edge)) (bin : Z) : R (list (option edge)) :=
    do position <- rd o bin ;;
    do count <- forZ 0 nt (fun tid c => do x <- rd h (tid * nr + bin) ;; Ok (c + x)) 0 ;;
    slice te position count.
  (** lines 104-171: everything before the exchange; also returns the ghost *)
  Definition shuffle_local (nt nr : Z) (el : elist) : R (list (list (option edge)) * list Z) :=
    if nt =? 0 then Err DivZero else
    do h <- shuffle_hist nt nr el ;;
    do o <- shuffle_offset nt nr h ;;
    do st <- shuffle_scatter nt nr el o ;;
    let '(te, wo, slots) := st in
    do ms <- mapR (shuffle_message nt nr h o te) (zrange 0 nr) ;;
    Ok (ms, slots).
  (** lines 173-235: rank [i]'s message for rank [r] lands behind those of the ranks before [i] *)
  Definition shuffle_edges (nt : Z) (els : list elist) : R (list elist) :=
    let nr := zlen els in
    do sent <- mapR (fun el => do r <- shuffle_local nt nr el ;; Ok (fst r)) els ;;
    mapR (fun rel : Z * elist =>
      do parts <- mapR (fun ms => rd ms (fst rel)) sent ;;
      let arr := concat parts in
      Ok (mkEL arr (el_m (snd rel)) (el_n (snd rel)) (zlen arr))) (combine (zrange 0 nr) els).

  (** edgelist_transformation.h:237-251 on all ranks; [srt r] is what the sort does on rank [r] *)
  Definition remove_duplicate_edges (nt : Z) (srt : Z -> list edge -> list edge) (els : list elist) : R (list elist) :=
    do els <- (if zlen els =? 1 then Ok els else shuffle_edges nt els) ;;
    mapR (fun rel : Z * elist => remove_duplicate_edges_local (srt (fst rel)) (snd rel)) (combine (zrange 0 (zlen els)) els).

  (** a loop that rewrites every edge in place *)
  Definition rewrite_edges (f : Z -> edge -> R edge) (el : elist) : R elist :=
    do a <- forZ 0 (el_nnz el) (fun i a => do e <- rdi a i ;; do e' <- f i e ;; wr a i (Some e')) (el_arr el) ;;
    Ok (mkEL a (el_m el) (el_n el) (el_nnz el)).

  (** edgelist_transformation.h:387-394; [rnd i] is the value of the [i]-th [rand()] and
      [RAND_MAX] is odd, so the quotient is below one half exactly when [2 * rnd i < RAND_MAX] *)
  Definition randomize_edge_direction (rand_max : Z) (rnd : Z -> Z) (el : elist) : R elist :=
    rewrite_edges (fun i e => Ok (if 2 * rnd i <? rand_max then swap e else e)) el.

  (** edgelist_transformation.h:396-410 *)
  Definition create_bidirectional_edges (el : elist) : R elist :=
    let ne := new_elist (el_m el) (el_n el) (el_nnz el * 2) in
    do a <- forZ 0 (el_nnz el) (fun i a =>
        do e <- rde el i ;;
        do a <- wr a (2 * i) (Some e) ;;
        do a <- wr a (2 * i + 1) (Some e) ;;
        do x <- rdi a (2 * i + 1) ;;
        wr a (2 * i + 1) (Some (swap x))) (el_arr ne) ;;
    Ok (mkEL a (el_m ne) (el_n ne) (el_nnz ne)).

  (** edgelist_transformation.h:412-419 *)
  Definition convert_to_dag (el : elist) : R elist :=
    rewrite_edges (fun _ e => Ok (if e_dst e <? e_src e then swap e else e)) el.

  (** edgelist_transformation.h:421-429.  [fl] rounds an exact rational to a [double], [cast] is
      the conversion [(T)t]; [rnd i] is the value of the [i]-th [rand()] *)
  Definition random_weight (fl : Q -> Q) (rand_max range : Z) (r : Z) : Q :=
    let t := fl (fl (inject_Z r / inject_Z rand_max) * inject_Z range)%Q in
    let t := if Qlt_le_dec (inject_Z range) t then inject_Z range else t in
    if Qlt_le_dec t 1 then 1%Q else t.
  Definition random_edge_weights (fl : Q -> Q) (cast : Q -> E) (rand_max : Z) (rnd : Z -> Z) (range : Z) (el : elist) : R elist :=
    rewrite_edges (fun i e => Ok (mkE (e_src e) (e_dst e) (cast (random_weight fl rand_max range (rnd i))))) el.

  (** edgelist.h:336-356 on rank 0: [rval[i] = rand() % m], then the swaps *)
  Definition random_mapping (rnd : Z -> Z) (m : Z) : R (list Z) :=
    do rval <- mapR (fun i => if m =? 0 then Err DivZero else Ok (Z.rem (rnd i) m)) (zrange 0 m) ;;
    forZ 0 m (fun i mp =>
      do r <- rd rval i ;;
      do tmp <- rd mp i ;;
      do x <- rd mp r ;;
      do mp <- wr mp i x ;;
      wr mp r tmp) (zrange 0 m).
  (** edgelist.h:336-366 on all ranks: rank 0's mapping is broadcast with count [edgelist->m],
      which MPI requires to be the same on all ranks (a mismatch aborts the job) *)
  Definition randomize_edgelist_square (rnd : Z -> Z) (els : list elist) : R (list elist) :=
    match els with
    | [] => Ok []
    | el0 :: _ =>
        do mp <- random_mapping rnd (el_m el0) ;;
        mapR (fun el =>
          if negb (el_m el =? el_m el0) then Err ExitCall else
          rewrite_edges (fun _ e =>
            do s <- rd mp (e_src e - 1) ;; do d <- rd mp (e_dst e - 1) ;;
            Ok (mkE (s + 1) (d + 1) (e_val e))) el) els
    end.

  (** edgelist.h:368-409; returns the rewritten list and [remaining_indices] *)
  Definition remove_empty_columns (el : elist) : R (elist * list (option Z)) :=
    do r <- forZ 0 (el_nnz el) (fun i st =>
        do e <- rde el i ;;
        do c <- rd (fst st) (e_dst e - 1) ;;
        let k := if negb c then snd st + 1 else snd st in
        do ce <- wr (fst st) (e_dst e - 1) true ;; Ok (ce, k)) (repeat false (Z.to_nat (el_n el)), 0) ;;
    let '(colexists, new_ncols) := r in
    do r <- forZ 0 (el_n el) (fun i st =>
        let '(ids, rem, cnt) := st in
        do c <- rd colexists i ;;
        do x <- rd ids i ;;
        do ids <- wr ids (i + 1) ((if c then 1 else 0) + x) ;;
        if c : bool then
          do _ <- assertb (cnt <? new_ncols) ;;
          do rem <- wr rem cnt (Some (i + 1)) ;;
          Ok (ids, rem, cnt + 1)
        else Ok (ids, rem, cnt)) (repeat 0 (Z.to_nat (el_n el + 1)), repeat None (Z.to_nat new_ncols), 0) ;;
    let '(new_colids, rem, new_colcnt) := r in
    do _ <- assertb (new_colcnt =? new_ncols) ;;
    do el' <- rewrite_edges (fun _ e =>
        do x <- rd new_colids (e_dst e - 1) ;;
        let d := x + 1 in
        do _ <- assertb (0 <=? d - 1) ;;
        do _ <- assertb (d - 1 <? new_ncols) ;;
        Ok (mkE (e_src e) d (e_val e))) el ;;
    Ok (mkEL (el_arr el') (el_m el) new_ncols (el_nnz el), rem).

  (** edgelist.h:411-428: in place, [valid_edgecnt <= i] *)
  Definition filter_edges_by_row (start_row end_row : Z) (el : elist) : R elist :=
    do r <- forZ 0 (el_nnz el) (fun i st =>
        do e <- rdi (fst st) i ;;
        if (e_src e - 1 <? end_row) && (start_row <=? e_src e - 1) then
          do a <- wr (fst st) (snd st) (Some e) ;;
          do x <- rdi a (snd st) ;;
          do a <- wr a (snd st) (Some (mkE (e_src x - start_row) (e_dst x) (e_val x))) ;;
          Ok (a, snd st + 1)
        else Ok st) (el_arr el, 0) ;;
    Ok (mkEL (fst r) (end_row - start_row) (el_n el) (snd r)).

  (** edgelist.h:430-443 on all ranks.  The edges of a rank are dealt out to threads; a thread's
      private maxima start from the smallest [int] and are combined with the shared ones, which
      start from 0, as they were dealt (lines 435-440); then the maximum over the ranks. *)
  Definition thread_dimensions (int_min : Z) (es : list edge) : Z * Z :=
    fold_left (fun st e => (Z.max (fst st) (e_src e), Z.max (snd st) (e_dst e))) es (int_min, int_min).
  Definition larger (st d : Z * Z) : Z * Z := (Z.max (fst st) (fst d), Z.max (snd st) (snd d)).
  Definition local_dimensions (int_min : Z) (dealt : list (list edge)) : Z * Z :=
    fold_left larger (map (thread_dimensions int_min) dealt) (0, 0).
  (** [MPI_Allreduce] gives this to every rank; there is at least one *)
  Definition get_dimensions (int_min : Z) (ranks : list (list (list edge))) : R (Z * Z) :=
    match map (local_dimensions int_min) ranks with [] => Err Uninit | d :: ds => Ok (fold_left larger ds d) end.
End EL.
