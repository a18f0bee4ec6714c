(** The parallel loops of the library as pools of threads over shared arrays, one thread per
    iteration (an OpenMP thread that runs several iterations one after the other is one way of
    interleaving them).  A thread accesses one element of a shared array at a time.  Arrays that no
    iteration of the loop writes are constants.  The sequential versions of the loops are in the
    model files named below.

    A loop with an OpenMP [reduction] clause leaves what an iteration contributes in an element of its
    own; [reduction_gives] says what the clause may make of the contributions. *)
From Verif Require Import Base Bits Segment Conc DCSC Kernel Runtime EdgeList.

Section Arrays.
  Context {A B C D : Type}.
  Record arrs := mkArrs { ar1 : list A; ar2 : list B; ar3 : list C; ar4 : list D }.
  Inductive loc4 := L1 (i : Z) | L2 (i : Z) | L3 (i : Z) | L4 (i : Z).
  Inductive cell4 := C1 (a : A) | C2 (b : B) | C3 (c : C) | C4 (d : D).
  Definition loc4_eqb (a b : loc4) : bool :=
    match a, b with L1 i, L1 j => i =? j | L2 i, L2 j => i =? j | L3 i, L3 j => i =? j | L4 i, L4 j => i =? j | _, _ => false end.
  (** the memory that holds the four arrays *)
  Definition view (s : arrs) (l : loc4) : option cell4 :=
    match l with
    | L1 i => match rd (ar1 s) i with Ok a => Some (C1 a) | Err _ => None end
    | L2 i => match rd (ar2 s) i with Ok a => Some (C2 a) | Err _ => None end
    | L3 i => match rd (ar3 s) i with Ok a => Some (C3 a) | Err _ => None end
    | L4 i => match rd (ar4 s) i with Ok a => Some (C4 a) | Err _ => None end
    end.

  (** programs of threads: [prog X] goes on with a value of type [X] *)
  Definition prog (X : Type) : Type := (X -> thread loc4 cell4) -> thread loc4 cell4.
  Definition pret {X} (x : X) : prog X := fun k => k x.
  Definition pbind {X Y} (t : prog X) (f : X -> prog Y) : prog Y := fun k => t (fun x => f x k).
  (** a computation on constants and private data *)
  Definition plift {X} (r : R X) : prog X := fun k => tlift r k.
  Definition get1 (i : Z) : prog A := fun k => Rd (L1 i) (fun c => match c with C1 a => k a | _ => Fail OOB end).
  Definition get2 (i : Z) : prog B := fun k => Rd (L2 i) (fun c => match c with C2 a => k a | _ => Fail OOB end).
  Definition get3 (i : Z) : prog C := fun k => Rd (L3 i) (fun c => match c with C3 a => k a | _ => Fail OOB end).
  Definition get4 (i : Z) : prog D := fun k => Rd (L4 i) (fun c => match c with C4 a => k a | _ => Fail OOB end).
  Definition put1 (i : Z) (a : A) : prog unit := fun k => Wr (L1 i) (C1 a) (k tt).
  Definition put2 (i : Z) (a : B) : prog unit := fun k => Wr (L2 i) (C2 a) (k tt).
  Definition put3 (i : Z) (a : C) : prog unit := fun k => Wr (L3 i) (C3 a) (k tt).
  Definition put4 (i : Z) (a : D) : prog unit := fun k => Wr (L4 i) (C4 a) (k tt).
  (** [for (i = lo; i < hi; i++)] with private data of type [S] *)
  Fixpoint ploopN {S} (n : nat) (i : Z) (body : Z -> S -> prog S) (s : S) : prog S :=
    match n with O => pret s | Datatypes.S n => pbind (body i s) (ploopN n (i + 1) body) end.
  Definition ploop {S} (lo hi : Z) (body : Z -> S -> prog S) (s : S) : prog S := ploopN (Z.to_nat (hi - lo)) lo body s.
  (** a loop over a list *)
  Fixpoint peach {X S} (body : S -> X -> prog S) (l : list X) (s : S) : prog S :=
    match l with [] => pret s | x :: l => pbind (body s x) (peach body l) end.

  (** the threads of [#pragma omp parallel for] over [p] from 0 to [np - 1] *)
  Definition parfor (np : Z) (body : Z -> prog unit) : list (thread loc4 cell4) :=
    map (fun p => body p (fun _ => Fin)) (zrange 0 np).

  (** Whatever the interleaving of the threads, starting with the arrays [s]: no thread fails or
      touches something outside the arrays, and when all are done the arrays are [s']. *)
  Definition any_schedule (pool : list (thread loc4 cell4)) (s s' : arrs) : Prop :=
    forall ts m, psteps loc4_eqb (pool, view s) (ts, m) -> ~ bad (ts, m) /\ (finished ts -> forall l, m l = view s' l).
End Arrays.
Arguments arrs : clear implicits. Arguments cell4 : clear implicits.
Notation "'par' x <- e ;; k" := (pbind e (fun x => k))
  (at level 200, x pattern, e at level 100, k at level 200, right associativity).

(** OpenMP [reduction(op:x)] with neutral value [e] on the contributions [l]: the iterations are
    dealt out to threads ([parts]), every thread combines its own, starting with [e], in the order
    it runs them, and the results of the threads are combined with the old value [x] in any order. *)
Definition reduction_gives {A} (op : A -> A -> A) (e x : A) (l : list A) (r : A) : Prop :=
  exists parts sums, Permutation (concat parts) l /\ Permutation sums (map (fun p => fold_left op p e) parts) /\ r = fold_left op sums x.

(** ** loops over words and values *)
Section Words.
  Context {A B C D : Type}.

  (** include/GMDP/singlenode/intersectreduce.h:43-47, [and_words] in Runtime.v *)
  Definition and_words_t (w1 w2 : list Z) (nints : Z) : list (thread loc4 (cell4 Z unit unit unit)) :=
    parfor nints (fun i => par a <- plift (rd w1 i) ;; par b <- plift (rd w2 i) ;; put1 i (Z.land a b)).

  (** include/GMDP/singlenode/apply.h:40-44, [or_words] in GraphOps.v.  Both bit vectors are the same
      array. *)
  Definition or_words_t (nints : Z) : list (thread loc4 (cell4 Z unit unit unit)) :=
    parfor nints (fun i => par b <- get1 i ;; par a <- get1 i ;; put1 i (Z.lor b a)).

  (** intersectreduce.h:49-65, [intersect_values] in Runtime.v; array 2: what iteration [ii] adds to
      tmp_nnz, and its calls *)
  Definition intersect_values_t (op : Z -> A -> B -> C -> C * list event) (v1 : list (option A)) (v2 : list (option B)) (w3 : list Z) (nints : Z)
      : list (thread loc4 (cell4 (option C) (Z * list event) unit unit)) :=
    parfor nints (fun ii =>
      par wd <- plift (rd w3 ii) ;;
      if popcnt32 wd =? 0 then put2 ii (0, []) else
      par ev <- ploop (ii * 32) ((ii + 1) * 32) (fun i ev =>
        par g <- plift (bv_get w3 i) ;;
        if g : bool then
          par a <- plift (rdi v1 i) ;; par b <- plift (rdi v2 i) ;;
          par c0 <- get1 i ;; par c <- plift (need c0) ;;
          par _ <- put1 i (Some (fst (op i a b c))) ;;
          pret (ev ++ snd (op i a b c))
        else pret ev) [] ;;
      put2 ii (popcnt32 wd, ev)).

  (** apply.h:46-63, [apply_values] in GraphOps.v; array 2: what iteration [ii] adds to tmp_nnz *)
  Definition apply_values_t (f : A -> A -> A) (w : list Z) (nints : Z) : list (thread loc4 (cell4 (option A) Z unit unit)) :=
    parfor nints (fun ii =>
      par wd <- plift (rd w ii) ;;
      if popcnt32 wd =? 0 then put2 ii 0 else
      par _ <- ploop (ii * 32) ((ii + 1) * 32) (fun i (_ : unit) =>
        par g <- plift (bv_get w i) ;;
        if g : bool then
          par t0 <- get1 i ;; par tmp <- plift (need t0) ;;
          par o0 <- get1 i ;; par out <- plift (need o0) ;;
          put1 i (Some (f tmp out))
        else pret tt) tt ;;
      put2 ii (popcnt32 wd)).

  (** include/GraphMatRuntime.h:199-223, the loop of [apply_segment] in Runtime.v.  Arrays: property
      values, active values, active words, and what iteration [i] contributes to local_converged and
      its calls. *)
  Definition apply_one_t (ap : A -> B -> B) (neq : B -> B -> bool) (st : Z) (u : list (option A)) (idx : Z) (ce : bool * list event)
      : prog (A := option B) (B := option bool) (C := Z) (D := bool * list event) (bool * list event) :=
    par o0 <- get1 idx ;; par old <- plift (need o0) ;;
    par m <- plift (rdi u idx) ;;
    let new := ap m old in
    par _ <- put1 idx (Some new) ;;
    let ev := snd ce ++ [Applied (st + idx + 1)] in
    if neq old new then
      par _ <- put2 idx (Some true) ;;
      par w <- get3 (Z.shiftr idx 5) ;;
      let b := Z.land idx 31 in
      if Z.land w (Z.shiftl 1 b) =? 0 then
        par _ <- put3 (Z.shiftr idx 5) (Z.lor w (Z.shiftl 1 b)) ;; pret (false, ev)
      else pret (false, ev)
    else pret (fst ce, ev).
  Definition apply_loop_t (ap : A -> B -> B) (neq : B -> B -> bool) (st : Z) (wy : list Z) (u : list (option A)) (nints : Z)
      : list (thread loc4 (cell4 (option B) (option bool) Z (bool * list event))) :=
    parfor nints (fun i =>
      par wd <- plift (rd wy i) ;;
      par bits <- plift (scan_bits 32 (wd mod 2 ^ 32)) ;;
      par ce <- peach (fun ce b => apply_one_t ap neq st u (i * 32 + b) ce) bits (true, []) ;;
      put4 i ce).

  (** include/GMDP/vectors/DenseSegment.h:623-627 and 635-639, the two loops of [seg_setAll] in Segment.v *)
  Definition fill_t (n : Z) (a : A) : list (thread loc4 (cell4 A unit unit unit)) := parfor n (fun i => put1 i a).

  (** include/GMDP/singlenode/reduce.h:58-85, the loop of [mapreduce_segment] in GraphOps.v.  Arrays:
      values, local_reduced, firstSet; thread [p] uses element [16 * p] of the latter two. *)
  Definition mapreduce_t (threads : Z) (mp : A -> A * B) (op : B -> B -> B) (w : list Z) (cap : Z)
      : list (thread loc4 (cell4 (option A) (option B) (option bool) unit)) :=
    parfor threads (fun p =>
      par _ <- put3 (p * 16) (Some false) ;;
      let per := Z.quot (cap + threads - 1) threads in
      let start := if per * p >? cap then cap else per * p in
      let end_ := if per * (p + 1) >? cap then cap else per * (p + 1) in
      ploop start end_ (fun i (_ : unit) =>
        par g <- plift (bv_get w i) ;;
        if g : bool then
          par a0 <- get1 i ;; par a <- plift (need a0) ;;
          par _ <- put1 i (Some (fst (mp a))) ;;
          par s0 <- get3 (p * 16) ;; par s <- plift (need s0) ;;
          if s : bool then
            par t0 <- get2 (p * 16) ;; par t <- plift (need t0) ;;
            put2 (p * 16) (Some (op t (snd (mp a))))
          else
            par _ <- put2 (p * 16) (Some (snd (mp a))) ;;
            put3 (p * 16) (Some true)
        else pret tt) tt).

  (** reduce.h:88-96 *)
  Definition mapreduce_combine (threads : Z) (op : B -> B -> B) (lr : list (option B)) (fs : list (option bool)) (res : B) : R B :=
    forZ 0 threads (fun p res =>
      do s <- rdi fs (p * 16) ;;
      if s : bool then do x <- rdi lr (p * 16) ;; Ok (op res x) else Ok res) res.

  (** DenseSegment.h:366-374, the first loop of [buf_compress_plain] in Segment.v *)
  Definition count_parts_t (w : list Z) (n np : Z) : list (thread loc4 (cell4 (option Z) unit unit unit)) :=
    parfor np (fun p => par c <- plift (bv_count w (part_start n np p) (part_end n np p)) ;; put1 p (Some c)).
  (** DenseSegment.h:384-408, its second loop; arrays: compressed_data, compressed_indices *)
  Definition emit_parts_t (w : list Z) (value : list (option A)) (scan : list Z) (n np : Z)
      : list (thread loc4 (cell4 (option A) (option Z) unit unit)) :=
    parfor np (fun p =>
      par c <- plift (rd scan p) ;;
      par _ <- ploop (part_start n np p) (part_end n np p) (fun ii c =>
        par wd <- plift (rd w ii) ;;
        if popcnt32 wd =? 0 then pret c else
        ploop (ii * 32) ((ii + 1) * 32) (fun i c =>
          par g <- plift (bv_get w i) ;;
          if g : bool then
            par val <- plift (rd value i) ;;
            par _ <- put1 c val ;; par _ <- put2 c (Some i) ;; pret (c + 1)
          else pret c) c) c ;;
      pret tt).
  (** DenseSegment.h:236-253, the loop of [buf_decompress_ser] in Segment.v; arrays: words, values *)
  Definition decode_parts_t {byte} (dec : list byte -> Z -> R (list (Z * A))) (sdata : list byte) (nbscan nzscan : list (option Z)) (np : Z)
      : list (thread loc4 (cell4 Z (option A) unit unit)) :=
    parfor np (fun p =>
      par b0 <- plift (rdi nbscan p) ;; par b1 <- plift (rdi nbscan (p + 1)) ;;
      par bytes <- plift (slice sdata b0 (b1 - b0)) ;;
      par z0 <- plift (rdi nzscan p) ;; par z1 <- plift (rdi nzscan (p + 1)) ;;
      par pairs <- plift (dec bytes (z1 - z0)) ;;
      peach (fun (_ : unit) (e : Z * A) =>
        par _ <- put2 (fst e) (Some (snd e)) ;;
        par wd <- get1 (Z.shiftr (fst e) 5) ;;
        let b := Z.land (fst e) 31 in
        if Z.land wd (Z.shiftl 1 b) =? 0 then put1 (Z.shiftr (fst e) 5) (Z.lor wd (Z.shiftl 1 b)) else pret tt) pairs tt).
  (** DenseSegment.h:307-334, the first loop of [buf_compress_ser]: what thread [p] leaves in [sss[p]],
      [serialized_partition_nnz[p]] and [serialized_partition_nbytes[p]] *)
  Definition archive_parts_t {byte} (enc : list (Z * A) -> list byte) (w : list Z) (value : list (option A)) (n np : Z)
      : list (thread loc4 (cell4 (option (list byte)) (option Z) (option Z) unit)) :=
    parfor np (fun p =>
      par _ <- put2 p (Some 0) ;;
      par pairs <- ploop (part_start n np p) (part_end n np p) (fun ii acc =>
        par wd <- plift (rd w ii) ;;
        if popcnt32 wd =? 0 then pret acc else
        ploop (ii * 32) ((ii + 1) * 32) (fun i acc =>
          par g <- plift (bv_get w i) ;;
          if g : bool then
            par val <- plift (rdi value i) ;;
            par c0 <- get2 p ;; par c <- plift (need c0) ;; par _ <- put2 p (Some (c + 1)) ;;
            pret (acc ++ [(i, val)])
          else pret acc) acc) [] ;;
      par _ <- put1 p (Some (enc pairs)) ;;
      put3 p (Some (zlen (enc pairs)))).
  (** DenseSegment.h:348-352, its second loop: [parts] are the contents of the streams, [scan] the
      prefix sums of their lengths; array: serialized_data *)
  Definition copy_parts_t (parts : list (list A)) (scan : list Z) (np : Z) : list (thread loc4 (cell4 (option A) unit unit unit)) :=
    parfor np (fun p =>
      par o <- plift (rd scan p) ;; par bytes <- plift (rd parts p) ;;
      par _ <- peach (fun k x => par _ <- put1 k (Some x) ;; pret (k + 1)) bytes o ;;
      pret tt).

  (** include/GMDP/singlenode/unionreduce.h:43-59 and 61-65, the loops of [union_dense] in Segment.v; v3
      and bv3 are v1 and bv1 *)
  Definition union_values_t (op : A -> A -> A) (cap : Z) (w1 : list Z) (v2 : list (option A)) (w2 : list Z)
      : list (thread loc4 (cell4 (option A) unit unit unit)) :=
    parfor cap (fun ii =>
      par s1 <- plift (bv_get w1 ii) ;; par s2 <- plift (bv_get w2 ii) ;;
      if s1 && negb s2 then par a <- get1 ii ;; put1 ii a
      else if negb s1 && s2 then par c <- plift (rd v2 ii) ;; put1 ii c
      else if s1 && s2 then
        par a0 <- get1 ii ;; par a <- plift (need a0) ;; par c <- plift (rdi v2 ii) ;; put1 ii (Some (op a c))
      else pret tt).
  Definition union_words_t (w2 : list Z) (nints : Z) : list (thread loc4 (cell4 Z unit unit unit)) :=
    parfor nints (fun i => par a <- get1 i ;; par c <- plift (rd w2 i) ;; put1 i (Z.lor a c)).
End Words.

(** ** loops over edges *)
Section Edges.
  Context {A B E V : Type}.
  Variable strict : bool.
  (** Loops that replace every element of an array (an edge is one element here, its three fields
      are accessed by the same iteration): include/Graph.h:219-224 ([edge_to_native]),
      include/GMDP/matrices/SpMat.h:428-433 ([swap_ends]), include/GMDP/utils/edgelist.h:360-364 and
      399-404 (in [randomize_edgelist_square], [remove_empty_columns]) *)
  Definition replace_t (f : Z -> A -> R A) (n : Z) : list (thread loc4 (cell4 A unit unit unit)) :=
    parfor n (fun i => par a <- get1 i ;; par b <- plift (f i a) ;; put1 i b).
  (** Loops that compute the elements of one array from those of another that is only read:
      SpMat.h:120-130 and 223-233 ([tag_owner], [tag_tile]), include/GMDP/matrices/DCSCTile.h:257-291
      (the first [mapR] of [dcsc_new]), include/GMDP/vectors/SpVec.h:162-167 *)
  Definition compute_t (f : A -> R B) (src : list A) : list (thread loc4 (cell4 (option B) unit unit unit)) :=
    parfor (zlen src) (fun i => par a <- plift (rd src i) ;; par b <- plift (f a) ;; put1 i (Some b)).
  (** SpMat.h:135-141 and 237-243: the sorted edges back into [edge_list], their tags into [assignment] *)
  Definition untag_t (tedges : list (tedge E)) : list (thread loc4 (cell4 (option (edge E)) (option Z) unit unit)) :=
    parfor (zlen tedges) (fun i =>
      par e <- plift (rd tedges i) ;; par _ <- put1 i (Some (snd e)) ;; put2 i (Some (fst e))).
  (** DCSCTile.h:297-303: asserts only *)
  Definition check_t (ok : A -> bool) (src : list A) : list (thread loc4 (cell4 unit unit unit unit)) :=
    parfor (zlen src) (fun i => par a <- plift (rd src i) ;; plift (assertb (ok a))).

  (** DCSCTile.h:316-328: [count_columns]; array: ncols *)
  Definition count_columns_t (edges : list (tedge E)) (ep : list Z) (np : Z) : list (thread loc4 (cell4 (option Z) unit unit unit)) :=
    parfor np (fun p => par k <- plift (count_columns edges ep p) ;; put1 p (Some k)).
  (** DCSCTile.h:349-373: [build_partition]; arrays: vals, row_inds, col_indices, col_ptrs *)
  Definition build_t (edges : list (tedge E)) (ep cs : list Z) (n np : Z) : list (thread loc4 (cell4 (option E) (option Z) (option Z) (option Z))) :=
    parfor np (fun p =>
      par a <- plift (rd ep p) ;; par b <- plift (rd ep (p + 1)) ;;
      par c <- plift (rd cs p) ;; par c' <- plift (rd cs (p + 1)) ;;
      par _ <- ploop a b (fun edge_id (st : Z * Z) =>
        par e <- plift (rd edges edge_id) ;;
        par _ <- put1 (a + (edge_id - a)) (Some (e_val (snd e))) ;;
        par _ <- put2 (a + (edge_id - a)) (Some (e_src (snd e))) ;;
        if fst st <? e_dst (snd e) then
          par _ <- put3 (c + (snd st + 1)) (Some (e_dst (snd e))) ;;
          par _ <- put4 (c + (snd st + 1)) (Some (edge_id - a)) ;;
          pret (e_dst (snd e), snd st + 1)
        else pret st) (-1, -1) ;;
      let num_columns := c' - c - 1 in
      par _ <- put4 (c + num_columns) (Some (b - a)) ;;
      put3 (c + num_columns) (Some (n + 1))).

  (** include/GMDP/singlenode/applyedges.h:46-77: [applyedges_part] in Kernel.v; array: vals *)
  Definition applyedges_t (op : E -> V -> V -> E) (t : dcsc E) (v1 : list (option V)) (w2 : list Z) (v2 : list (option V))
      : list (thread loc4 (cell4 E unit unit unit)) :=
    parfor (t_np t) (fun p =>
      par c <- plift (rd (t_col_starts t) p) ;; par c' <- plift (rd (t_col_starts t) (p + 1)) ;; par a <- plift (rd (t_edge_ptrs t) p) ;;
      ploop 0 (c' - c - 1) (fun j (_ : unit) =>
        par ci <- plift (rd (t_col_idx t) (c + j)) ;;
        par _ <- plift (look_ahead strict t (c + j + 4)) ;;
        par lo <- plift (rd (t_col_ptrs t) (c + j)) ;; par hi <- plift (rd (t_col_ptrs t) (c + (j + 1))) ;;
        ploop lo hi (fun nz (_ : unit) =>
          par row <- plift (rd (t_row_inds t) (a + nz)) ;;
          par g <- plift (bv_get w2 row) ;;
          par _ <- plift (assertb g) ;;
          par val <- get1 (a + nz) ;;
          par x <- plift (rdi v1 ci) ;; par y <- plift (rdi v2 row) ;;
          put1 (a + nz) (op val x y)) tt) tt).

  (** include/GMDP/utils/edgelist_transformation.h:115-129, the loop of [shuffle_hist] in EdgeList.v;
      array: histogram *)
  Definition hist_t (nt nr : Z) (el : @elist E) : list (thread loc4 (cell4 Z unit unit unit)) :=
    parfor nt (fun tid =>
      let '(a, b) := thread_edges nt (el_nnz el) tid in
      ploop a b (fun i (_ : unit) =>
        par e <- plift (rde el i) ;; par bin <- plift (edge_bin nr e) ;;
        par x <- get1 (tid * nr + bin) ;; put1 (tid * nr + bin) (x + 1)) tt).
  (** edgelist_transformation.h:142-158, the loop of [shuffle_scatter]; arrays: tedges, woffset *)
  Definition scatter_t (nt nr : Z) (el : @elist E) (o : list Z) : list (thread loc4 (cell4 (option (edge E)) Z unit unit)) :=
    parfor nt (fun tid =>
      let '(a, b) := thread_edges nt (el_nnz el) tid in
      ploop a b (fun i (_ : unit) =>
        par e <- plift (rde el i) ;; par bin <- plift (edge_bin nr e) ;;
        par ov <- plift (rd o (tid * nr + bin)) ;;
        par wv <- get2 (tid * nr + bin) ;;
        par _ <- put1 (ov + wv) (Some e) ;;
        put2 (tid * nr + bin) (wv + 1)) tt).
End Edges.
