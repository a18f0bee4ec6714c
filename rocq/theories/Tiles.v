(** include/GMDP/matrices/COOTile.h, CSRTile.h, DCSRTile.h, COOSIMD32Tile.h, HybridTile.h: the
    tile formats that graphs do not use.  [int] is unbounded, parallel loops run in index order
    (their iterations write to different elements) and the [name] is left out, as in DCSC.v. *)
From Verif Require Import Base Segment Search DCSC EdgeList.

(** [(m + np - 1) / np] rounded up to a multiple of 32: COOTile.h:168-169, COOSIMD32Tile.h:194-195 *)
Definition rows_per (m np : Z) : R Z :=
  if np =? 0 then Err DivZero else Ok (Z.quot (Z.quot (m + np - 1) np + 31) 32 * 32).

Section Tiles.
  Context {E : Type}.
  (** the library sort by row, then column (COOTile.h:42-55, CSRTile.h:42-55, DCSRTile.h:133-138,
      HybridTile.h:82-87); the sort of COOSIMD32Tile.h:43-56 by (block, column, row), which orders
      as DCSCTile.h:41-58 does *)
  Variable srt : list (edge E) -> list (edge E).
  Variable bsrt : list (tedge E) -> list (tedge E).

  (** ** COOTile.h *)
  Record coo := mkCoo { o_nnz : Z; o_m : Z; o_n : Z; o_np : Z; o_a : list E; o_ja : list Z; o_ia : list Z; o_ps : list Z }.
  (** COOTile.h:137 *)
  Definition coo_empty (m n : Z) : coo := mkCoo 0 m n 0 [] [] [] [].
  (** COOTile.h:139-190.  The binary search reads the word after the last element of [ia]:
      [past] is what it finds there, [None] makes that read an error. *)
  Definition coo_new (threads : Z) (past : option Z) (edges : list (edge E)) (m n row_start col_start : Z) : R coo :=
    let nnz := zlen edges in
    if 0 <? nnz then
      let edges := srt edges in
      let a := map e_val edges in
      let ja := map (fun e => e_dst e - col_start) edges in
      let ia := map (fun e => e_src e - row_start) edges in
      let mem := match past with Some g => ia ++ [g] | None => ia end in
      let np := threads * 4 in
      do rpp <- rows_per m np ;;
      do ps <- mapR (fun p =>
          let start_row := Z.min (p * rpp) m in
          let end_row := Z.min ((p + 1) * rpp) m in
          do s <- l_binary_search 0 nnz mem (start_row + 1) ;;
          do _ <- l_binary_search 0 nnz mem (end_row + 1) ;;
          Ok s) (zrange 0 np) ;;
      Ok (mkCoo nnz m n np a ja ia (ps ++ [nnz]))
    else Ok (coo_empty m n).
  (** COOTile.h:194-202 and COOSIMD32Tile.h:371-379 *)
  Definition coo_export (nnz : Z) (a : list E) (ja ia : list Z) (row_start col_start : Z) : R (list (edge E)) :=
    mapR (fun i => do v <- rd a i ;; do d <- rd ja i ;; do s <- rd ia i ;; Ok (mkE (s + row_start) (d + col_start) v)) (zrange 0 nnz).
  Definition coo_get_edges (t : coo) (row_start col_start : Z) : R (list (edge E)) :=
    coo_export (o_nnz t) (o_a t) (o_ja t) (o_ia t) row_start col_start.

  (** ** CSRTile.h *)
  Record csr := mkCsr { s_nnz : Z; s_m : Z; s_n : Z; s_a : list E; s_ja : list Z; s_ia : list Z }.
  (** CSRTile.h:124.  [s_ia] of an empty tile is not allocated. *)
  Definition csr_empty (m n : Z) : csr := mkCsr 0 m n [] [] [].
  (** CSRTile.h:158-180: the first entry of the first row that has one, from row [row] on; [k] rows
      are left *)
  Fixpoint csr_first (k : nat) (jia : list Z) (nnz row : Z) : R Z :=
    match k with
    | O => Ok nnz
    | S k =>
      do j0 <- rd jia 0 ;;
      if row + 1 <? j0 then Ok 0 else
      do jl <- rd jia (nnz - 1) ;;
      if jl <? row + 1 then Ok nnz else
      do b <- left_border (S (S (length jia))) jia (row + 1) 0 nnz nnz ;;
      if b =? -1 then csr_first k jia nnz (row + 1) else Ok b
    end.
  (** CSRTile.h:186-189 *)
  Fixpoint csr_rows (k : nat) (j i end_row : Z) (st : list (option Z) * Z) : R (list (option Z) * Z) :=
    let '(ia, cur) := st in
    if (cur <? j) && (cur <? end_row) then
      match k with
      | O => Err NoFuel
      | S k => do ia <- wr ia cur (Some (i + 1)) ;; csr_rows k j i end_row (ia, cur + 1)
      end
    else Ok st.
  (** CSRTile.h:153-194: partition [p].  After the [break] the loop has no effect: neither has its
      body then. *)
  Definition csr_part (jia : list Z) (nnz m rpp p : Z) (ia : list (option Z)) : R (list (option Z)) :=
    let start_row := Z.min (rpp * p) m in
    let end_row := Z.min (rpp * (p + 1)) m in
    do nz_start <- csr_first (Z.to_nat (m - start_row)) jia nnz start_row ;;
    do ia <- wr ia start_row (Some nz_start) ;;
    do st <- forZ nz_start nnz (fun i st =>
        if end_row <=? snd st then Ok st else
        do j <- rd jia i ;;
        csr_rows (Z.to_nat (end_row - snd st)) j i end_row st) (ia, start_row) ;;
    forZ (snd st) end_row (fun cur ia => wr ia cur (Some (nnz + 1))) (fst st).
  (** CSRTile.h:126-199 *)
  Definition csr_new (threads : Z) (edges : list (edge E)) (m n row_start col_start : Z) : R csr :=
    let nnz := zlen edges in
    if 0 <? nnz then
      let edges := srt edges in
      let a := map e_val edges in
      let ja := map (fun e => e_dst e - col_start) edges in
      let jia := map (fun e => e_src e - row_start) edges in
      let np := threads * 4 in
      do rpp <- (if np =? 0 then Err DivZero else Ok (Z.quot (m + np - 1) np)) ;;
      do ia <- forZ 0 np (csr_part jia nnz m rpp) (repeat None (Z.to_nat (m + 1))) ;;
      do ia <- wr ia m (Some (nnz + 1)) ;;
      do ia <- mapR need ia ;;
      Ok (mkCsr nnz m n a ja ia)
    else Ok (csr_empty m n).
  (** CSRTile.h:203-217 *)
  Definition csr_get_edges (t : csr) (row_start col_start : Z) : R (list (edge E)) :=
    if 0 <? s_nnz t then
      do out <- forZ 0 (s_m t) (fun i out =>
          do lo <- rd (s_ia t) i ;; do hi <- rd (s_ia t) (i + 1) ;;
          forZ lo hi (fun nz out =>
            do d <- rd (s_ja t) (nz - 1) ;; do v <- rd (s_a t) (nz - 1) ;;
            wr out (nz - 1) (Some (mkE (i + row_start + 1) (d + col_start) v))) out) (repeat None (Z.to_nat (s_nnz t))) ;;
      mapR need out
    else Ok [].

  (** ** DCSRTile.h *)
  Record dcsr := mkDcsr { d_nnz : Z; d_m : Z; d_n : Z; d_num_rows : Z; d_np : Z; d_pp : list Z; d_a : list E; d_ja : list Z; d_ia : list Z; d_rows : list Z }.
  (** DCSRTile.h:126 ([num_rows] stays unset) *)
  Definition dcsr_empty (m n : Z) : dcsr := mkDcsr 0 m n 0 0 [] [] [] [] [].
  (** DCSRTile.h:185-188 *)
  Fixpoint next_block (k : nat) (rows : list Z) (num_rows row32 new_row : Z) : R Z :=
    if new_row <? num_rows then
      do r <- rd rows new_row ;;
      if Z.quot r 32 =? row32 then
        match k with O => Err NoFuel | S k => next_block k rows num_rows row32 (new_row + 1) end
      else Ok new_row
    else Ok new_row.
  (** DCSRTile.h:128-224 without the [__DEBUG] part.  [row_ids[new_row]] at line 184 is also read with [new_row = num_rows],
      one past the end: [past] is what is found there, [None] makes that read an error. *)
  Definition dcsr_new (threads : Z) (past : option Z) (edges : list (edge E)) (m n row_start col_start : Z) : R dcsr :=
    let nnz := zlen edges in
    if 0 <? nnz then
      let edges := srt edges in
      do tmp <- wr (repeat None (Z.to_nat nnz)) 0 (Some 0) ;;
      do tmp <- forZ 0 (nnz - 1) (fun i tmp =>
          do e' <- rd edges (i + 1) ;; do e <- rd edges i ;; do x <- rdi tmp i ;;
          wr tmp (i + 1) (Some (if e_src e <? e_src e' then x + 1 else x))) tmp ;;
      do last <- rdi tmp (nnz - 1) ;;
      let num_rows := last + 1 in
      do e0 <- rd edges 0 ;;
      do rows <- wr (repeat None (Z.to_nat num_rows)) 0 (Some (e_src e0 - row_start - 1)) ;;
      do ia <- wr (repeat None (Z.to_nat (num_rows + 1))) 0 (Some 0) ;;
      do st <- forZ 0 (nnz - 1) (fun i st =>
          do e' <- rd edges (i + 1) ;; do e <- rd edges i ;;
          if e_src e <? e_src e' then
            do x <- rdi tmp (i + 1) ;;
            do rows <- wr (fst st) x (Some (e_src e' - row_start - 1)) ;;
            do ia <- wr (snd st) x (Some (i + 1)) ;;
            Ok (rows, ia)
          else Ok st) (rows, ia) ;;
      do ia <- wr (snd st) num_rows (Some nnz) ;;
      do rows <- mapR need (fst st) ;;
      do ia <- mapR need ia ;;
      let np := threads * 4 in
      do rpp <- (if np =? 0 then Err DivZero else Ok (Z.quot (num_rows + np - 1) np)) ;;
      let mem := match past with Some g => rows ++ [g] | None => rows end in
      do pp <- wr (repeat None (Z.to_nat (np + 1))) 0 (Some 0) ;;
      do pp <- forZ 1 np (fun p pp =>
          do prev <- rdi pp (p - 1) ;;
          let new_row := Z.min (prev + rpp) num_rows in
          do r <- rd mem new_row ;;
          do q <- next_block (Z.to_nat (num_rows - new_row)) rows num_rows (Z.quot r 32) new_row ;;
          wr pp p (Some q)) pp ;;
      do pp <- wr pp np (Some num_rows) ;;
      do pp <- mapR need pp ;;
      do st <- forZ 0 num_rows (fun i st =>
          do lo <- rd ia i ;; do hi <- rd ia (i + 1) ;;
          forZ lo hi (fun j (st : list (option Z) * list (option E)) =>
            do e <- rd edges j ;;
            do ja <- wr (fst st) j (Some (e_dst e - col_start - 1)) ;;
            do a <- wr (snd st) j (Some (e_val e)) ;;
            Ok (ja, a)) st) (repeat None (Z.to_nat nnz), repeat None (Z.to_nat nnz)) ;;
      do ja <- mapR need (fst st) ;;
      do a <- mapR need (snd st) ;;
      Ok (mkDcsr nnz m n num_rows np pp a ja ia rows)
    else Ok (dcsr_empty m n).
  (** DCSRTile.h:228-243 *)
  Definition dcsr_get_edges (t : dcsr) (row_start col_start : Z) : R (list (edge E)) :=
    if 0 <? d_nnz t then
      do st <- forZ 0 (d_num_rows t) (fun i st =>
          do lo <- rd (d_ia t) i ;; do hi <- rd (d_ia t) (i + 1) ;;
          forZ lo hi (fun nz (st : list (option (edge E)) * Z) =>
            do r <- rd (d_rows t) i ;; do d <- rd (d_ja t) nz ;; do v <- rd (d_a t) nz ;;
            do out <- wr (fst st) nz (Some (mkE (r + row_start + 1) (d + col_start + 1) v)) ;;
            Ok (out, snd st + 1)) st) (repeat None (Z.to_nat (d_nnz t)), 0) ;;
      do _ <- assertb (snd st =? d_nnz t) ;;
      mapR need (fst st)
    else Ok [].

  (** ** COOSIMD32Tile.h *)
  (** COOSIMD32Tile.h:58-63: bins of 32 rows *)
  Record bin := mkBin { p32 : Z; num_total : Z; num_left : Z; num_taken : Z }.
  (** the [std::sort] of the bins by [num_total], descending (lines 265-266) *)
  Variable binsrt : list bin -> list bin.
  Record simd := mkSimd { i_nnz : Z; i_m : Z; i_n : Z; i_np : Z; i_a : list E; i_ja : list Z; i_ia : list Z; i_ps : list Z; i_simd : list Z }.
  (** COOSIMD32Tile.h:157 *)
  Definition simd_empty (m n : Z) : simd := mkSimd 0 m n 0 [] [] [] [] [].
  (** the arrays being filled, and how many entries of the partition have been *)
  Record filling := mkFill { f_a : list (option E); f_ja : list (option Z); f_ia : list Z; f_cnt : Z }.
  (** lines 282-287, 302-306: copy entry [eid] to the next place *)
  Definition copy_edge (tmp : list (tedge E)) (start eid : Z) (f : filling) : R filling :=
    do e <- rd tmp eid ;;
    do ja <- wr (f_ja f) (f_cnt f + start) (Some (e_dst (snd e))) ;;
    do ia <- wr (f_ia f) (f_cnt f + start) (e_src (snd e)) ;;
    do a <- wr (f_a f) (f_cnt f + start) (Some (e_val (snd e))) ;;
    Ok (mkFill a ja ia (f_cnt f + 1)).
  (** lines 272-291: one rotation over the bins; [rot] is rotation_count, [full] n_full32 *)
  Fixpoint rotate (tmp : list (tedge E)) (borders : list Z) (start : Z) (bins : list bin) (rot full : Z) (f : filling) : R (list bin * Z * filling) :=
    match bins with
    | [] => Ok ([], full, f)
    | b :: rest =>
      do r <- (if 0 <? num_left b then
                 do lo <- rd borders (p32 b) ;;
                 let eid := lo + num_taken b in
                 let b := mkBin (p32 b) (num_total b) (num_left b - 1) (num_taken b + 1) in
                 do f <- copy_edge tmp start eid f ;;
                 Ok (b, rot + 1, if num_left b =? 0 then full - 1 else full, f)
               else Ok (b, rot, full, f)) ;;
      let '(b, rot, full, f) := r in
      if rot =? 32 then Ok (b :: rest, full, f) else
      do q <- rotate tmp borders start rest rot full f ;;
      let '(rest, full, f) := q in
      Ok (b :: rest, full, f)
    end.
  (** lines 268-292 *)
  Fixpoint rotations (k : nat) (tmp : list (tedge E)) (borders : list Z) (start : Z) (bins : list bin) (full : Z) (f : filling) : R (list bin * filling) :=
    if 32 <=? full then
      match k with
      | O => Err NoFuel
      | S k =>
        do r <- rotate tmp borders start bins 0 full f ;;
        let '(bins, full, f) := r in
        rotations k tmp borders start bins full f
      end
    else Ok (bins, f).
  (** lines 242-246, 248-252 *)
  Fixpoint set_borders (k : nat) (borders : list (option Z)) (cur upto eid : Z) : R (list (option Z) * Z) :=
    if cur <=? upto then
      match k with
      | O => Err NoFuel
      | S k => do borders <- wr borders cur (Some eid) ;; set_borders k borders (cur + 1) upto eid
      end
    else Ok (borders, cur).
  (** lines 235-252 *)
  Definition simd_borders (ia : list Z) (lo hi start_row nparts : Z) : R (list Z) :=
    let room := Z.to_nat (nparts + 1) in
    do st <- forZ lo hi (fun eid (st : list (option Z) * Z) =>
        do r <- rd ia eid ;;
        set_borders room (fst st) (snd st) (Z.quot (r - start_row - 1) 32) eid) (repeat None room, 0) ;;
    do st <- set_borders room (fst st) (snd st) nparts hi ;;
    mapR need (fst st).
  (** lines 223-318: partition [p], after the arrays of entries; the result also has simd_nnz[p] *)
  Definition simd_part (tmp : list (tedge E)) (ps : list Z) (m rpp p : Z) (f : filling) : R (filling * Z) :=
    let start_row := Z.min (p * rpp) m in
    let end_row := Z.min ((p + 1) * rpp) m in
    do lo <- rd ps p ;; do hi <- rd ps (p + 1) ;;
    let nparts := Z.quot (end_row - start_row + 31) 32 in
    do borders <- simd_borders (f_ia f) lo hi start_row nparts ;;
    do bins <- mapR (fun b => do x <- rd borders b ;; do y <- rd borders (b + 1) ;; Ok (mkBin b (y - x) (y - x) 0)) (zrange 0 nparts) ;;
    let full := zlen (filter (fun b => 0 <? num_total b) bins) in
    let bins := binsrt bins in
    do r <- rotations (S (Z.to_nat (hi - lo))) tmp borders lo bins full (mkFill (f_a f) (f_ja f) (f_ia f) 0) ;;
    let '(bins, f) := r in
    let nnzsimd := f_cnt f in
    do f <- foldR (fun f b =>
        forZ (num_taken b) (num_total b) (fun taken f =>
          do x <- rd borders (p32 b) ;; copy_edge tmp lo (x + taken) f) f) bins f ;;
    if negb (f_cnt f =? hi - lo) then Err ExitCall else Ok (f, nnzsimd).
  (** COOSIMD32Tile.h:159-367 without the [__DEBUG] parts.  [simd_nnz[num_partitions]] is never written; [i_simd] has the
      entries before it. *)
  Definition simd_new (threads : Z) (edges : list (edge E)) (m n row_start col_start : Z) : R simd :=
    let nnz := zlen edges in
    if 0 <? nnz then
      let np := threads * 4 in
      let tmp := bsrt (map (fun e => let src := e_src e - row_start in (Z.quot (src - 1) 32, mkE src (e_dst e - col_start) (e_val e))) edges) in
      let ia := map (fun e => e_src (snd e)) tmp in
      do rpp <- rows_per m np ;;
      do ps <- mapR (fun p =>
          let start_row := Z.min (p * rpp) m in
          let end_row := Z.min ((p + 1) * rpp) m in
          do s <- l_linear_search 0 nnz ia (start_row + 1) ;;
          do _ <- l_linear_search 0 nnz ia (end_row + 1) ;;
          Ok s) (zrange 0 np) ;;
      let ps := ps ++ [nnz] in
      do st <- forZ 0 np (fun p (st : filling * list Z) =>
          do r <- simd_part tmp ps m rpp p (fst st) ;;
          Ok (fst r, snd st ++ [snd r])) (mkFill (repeat None (Z.to_nat nnz)) (repeat None (Z.to_nat nnz)) ia 0, []) ;;
      do a <- mapR need (f_a (fst st)) ;;
      do ja <- mapR need (f_ja (fst st)) ;;
      Ok (mkSimd nnz m n np a ja (f_ia (fst st)) ps (snd st))
    else Ok (simd_empty m n).
  Definition simd_get_edges (t : simd) (row_start col_start : Z) : R (list (edge E)) :=
    coo_export (i_nnz t) (i_a t) (i_ja t) (i_ia t) row_start col_start.

  (** ** HybridTile.h *)
  (** HybridTile.h:48-55 *)
  Record hybrid := mkHyb { h_nnz : Z; h_m : Z; h_n : Z; h_nnz1 : Z; h_nnz2 : Z; h_t1 : dcsr; h_t2 : simd }.
  (** [memcpy] of [k] entries from place [from] to place [to] *)
  Definition copy_row (edges : list (edge E)) (from to k : Z) (out : list (option (edge E))) : R (list (option (edge E))) :=
    forZ 0 k (fun i out => do e <- rd edges (from + i) ;; wr out (to + i) (Some e)) out.
  (** HybridTile.h:78-139.  A CSR tile without entries has no [ia]: the constructor then reads an
      unset pointer unless [m] is 0.  Both sorts of [edges] (line 82 and CSRTile.h:131) happen in place. *)
  Definition hybrid_new (threads : Z) (past : option Z) (edges : list (edge E)) (m n row_start col_start : Z) : R hybrid :=
    let nnz := zlen edges in
    let edges := srt edges in
    do tmptile <- csr_new threads edges m n row_start col_start ;;
    let edges := if 0 <? nnz then srt edges else edges in
    do st <- forZ 0 m (fun i (st : list Z * list Z) =>
        if negb (0 <? nnz) then Err Uninit else
        do x <- rd (s_ia tmptile) i ;; do y <- rd (s_ia tmptile) (i + 1) ;;
        do gte <- rd (fst st) i ;; do lt <- rd (snd st) i ;;
        if y - x <? 16 then Ok (fst st ++ [gte], snd st ++ [lt + (y - x)])
        else Ok (fst st ++ [gte + (y - x)], snd st ++ [lt])) ([0], [0]) ;;
    do nnz1 <- rd (fst st) m ;; do nnz2 <- rd (snd st) m ;;
    do _ <- assertb (nnz1 + nnz2 =? nnz) ;;
    do parts <- forZ 0 m (fun i (parts : list (option (edge E)) * list (option (edge E))) =>
        do x <- rd (s_ia tmptile) i ;; do y <- rd (s_ia tmptile) (i + 1) ;;
        if y - x <? 16 then
          do lt <- rd (snd st) i ;;
          do _ <- assertb (lt + (y - x) <=? nnz2) ;;
          do out <- copy_row edges (x - 1) lt (y - x) (snd parts) ;;
          Ok (fst parts, out)
        else
          do gte <- rd (fst st) i ;;
          do _ <- assertb (gte + (y - x) <=? nnz1) ;;
          do out <- copy_row edges (x - 1) gte (y - x) (fst parts) ;;
          Ok (out, snd parts)) (repeat None (Z.to_nat nnz1), repeat None (Z.to_nat nnz2)) ;;
    do e1 <- mapR need (fst parts) ;;
    do e2 <- mapR need (snd parts) ;;
    do t1 <- dcsr_new threads past e1 m n row_start col_start ;;
    do t2 <- simd_new threads e2 m n row_start col_start ;;
    Ok (mkHyb nnz m n nnz1 nnz2 t1 t2).
  (** HybridTile.h:143-149: the second part is written behind the first *)
  Definition hybrid_get_edges (t : hybrid) (row_start col_start : Z) : R (list (edge E)) :=
    if 0 <? h_nnz t then
      do out1 <- dcsr_get_edges (h_t1 t) row_start col_start ;;
      do out2 <- simd_get_edges (h_t2 t) row_start col_start ;;
      Ok (out1 ++ out2)
    else Ok [].
End Tiles.
