(** include/GMDP/matrices/COOTile.h, CSRTile.h, DCSRTile.h, COOSIMD32Tile.h, HybridTile.h: saving and
    loading the tile formats that graphs do not use.  The archive is a list of items as in DCSC.v; the
    [name] is left out.  [junk] is what integers that were never set contain, [None] makes reading one
    an error. *)
From Verif Require Import Base Segment DCSC Tiles.

Section TileArchive.
  Context {E : Type}.
  Variable junk : option Z.

  (** COOTile.h:71-97.  [num_partitions] of a tile without entries was never set (line 137). *)
  Definition coo_save (t : coo (E := E)) : R (list (item E)) :=
    if 0 <? o_nnz t then
      do a <- mapR (rd (o_a t)) (zrange 0 (o_nnz t)) ;;
      do ja <- mapR (rd (o_ja t)) (zrange 0 (o_nnz t)) ;;
      do ia <- mapR (rd (o_ia t)) (zrange 0 (o_nnz t)) ;;
      do ps <- mapR (rd (o_ps t)) (zrange 0 (o_np t + 1)) ;;
      Ok ([IInt (o_m t); IInt (o_n t); IInt (o_nnz t); IInt (o_np t)] ++ map IVal a ++ map IInt ja ++ map IInt ia ++ map IInt ps)
    else
      do np <- need junk ;;
      Ok [IInt (o_m t); IInt (o_n t); IInt (o_nnz t); IInt np].
  (** COOTile.h:99-131 *)
  Definition coo_load (ar : list (item E)) : R (coo (E := E) * list (item E)) :=
    do r <- get_int ar ;; let '(m, ar) := r in
    do r <- get_int ar ;; let '(n, ar) := r in
    do r <- get_int ar ;; let '(nnz, ar) := r in
    do r <- get_int ar ;; let '(np, ar) := r in
    if 0 <? nnz then
      do r <- get_many get_val (Z.to_nat nnz) ar ;; let '(a, ar) := r in
      do r <- get_many get_int (Z.to_nat nnz) ar ;; let '(ja, ar) := r in
      do r <- get_many get_int (Z.to_nat nnz) ar ;; let '(ia, ar) := r in
      do r <- get_many get_int (Z.to_nat (np + 1)) ar ;; let '(ps, ar) := r in
      Ok (mkCoo nnz m n np a ja ia ps, ar)
    else Ok (mkCoo nnz m n np [] [] [] [], ar).

  (** CSRTile.h:69-90 *)
  Definition csr_save (t : csr (E := E)) : R (list (item E)) :=
    let header := [IInt (s_m t); IInt (s_n t); IInt (s_nnz t)] in
    if 0 <? s_nnz t then
      do a <- mapR (rd (s_a t)) (zrange 0 (s_nnz t)) ;;
      do ja <- mapR (rd (s_ja t)) (zrange 0 (s_nnz t)) ;;
      do ia <- mapR (rd (s_ia t)) (zrange 0 (s_m t + 1)) ;;
      Ok (header ++ map IVal a ++ map IInt ja ++ map IInt ia)
    else Ok header.
  (** CSRTile.h:92-118 *)
  Definition csr_load (ar : list (item E)) : R (csr (E := E) * list (item E)) :=
    do r <- get_int ar ;; let '(m, ar) := r in
    do r <- get_int ar ;; let '(n, ar) := r in
    do r <- get_int ar ;; let '(nnz, ar) := r in
    if 0 <? nnz then
      do r <- get_many get_val (Z.to_nat nnz) ar ;; let '(a, ar) := r in
      do r <- get_many get_int (Z.to_nat nnz) ar ;; let '(ja, ar) := r in
      do r <- get_many get_int (Z.to_nat (m + 1)) ar ;; let '(ia, ar) := r in
      Ok (mkCsr nnz m n a ja ia, ar)
    else Ok (mkCsr nnz m n [] [] [], ar).

  (** DCSRTile.h:59-86.  [ia] has [num_rows + 1] elements but [m + 1] are saved; [num_rows] and
      [num_partitions] of a tile without entries were never set (line 126). *)
  Definition dcsr_save (t : dcsr (E := E)) : R (list (item E)) :=
    if 0 <? d_nnz t then
      do a <- mapR (rd (d_a t)) (zrange 0 (d_nnz t)) ;;
      do ja <- mapR (rd (d_ja t)) (zrange 0 (d_nnz t)) ;;
      do ia <- mapR (rd (d_ia t)) (zrange 0 (d_m t + 1)) ;;
      do rows <- mapR (rd (d_rows t)) (zrange 0 (d_num_rows t)) ;;
      Ok ([IInt (d_m t); IInt (d_n t); IInt (d_num_rows t); IInt (d_nnz t); IInt (d_np t)] ++ map IVal a ++ map IInt ja ++ map IInt ia ++ map IInt rows)
    else
      do num_rows <- need junk ;;
      do np <- need junk ;;
      Ok [IInt (d_m t); IInt (d_n t); IInt num_rows; IInt (d_nnz t); IInt np].
  (** DCSRTile.h:88-121.  [partition_ptrs] is not set: the array has no elements here. *)
  Definition dcsr_load (ar : list (item E)) : R (dcsr (E := E) * list (item E)) :=
    do r <- get_int ar ;; let '(m, ar) := r in
    do r <- get_int ar ;; let '(n, ar) := r in
    do r <- get_int ar ;; let '(num_rows, ar) := r in
    do r <- get_int ar ;; let '(nnz, ar) := r in
    do r <- get_int ar ;; let '(np, ar) := r in
    if 0 <? nnz then
      do r <- get_many get_val (Z.to_nat nnz) ar ;; let '(a, ar) := r in
      do r <- get_many get_int (Z.to_nat nnz) ar ;; let '(ja, ar) := r in
      do r <- get_many get_int (Z.to_nat (m + 1)) ar ;; let '(ia, ar) := r in
      do r <- get_many get_int (Z.to_nat num_rows) ar ;; let '(rows, ar) := r in
      Ok (mkDcsr nnz m n num_rows np [] a ja ia rows, ar)
    else Ok (mkDcsr nnz m n num_rows np [] [] [] [] [], ar).

  (** COOSIMD32Tile.h:82-112.  [simd_nnz[num_partitions]] was never set, nor was [num_partitions] of a
      tile without entries (line 157). *)
  Definition simd_save (t : simd (E := E)) : R (list (item E)) :=
    if 0 <? i_nnz t then
      do a <- mapR (rd (i_a t)) (zrange 0 (i_nnz t)) ;;
      do ja <- mapR (rd (i_ja t)) (zrange 0 (i_nnz t)) ;;
      do ia <- mapR (rd (i_ia t)) (zrange 0 (i_nnz t)) ;;
      do ps <- mapR (rd (i_ps t)) (zrange 0 (i_np t + 1)) ;;
      do sn <- mapR (rd (map Some (i_simd t) ++ [junk])) (zrange 0 (i_np t + 1)) ;;
      do sn <- mapR need sn ;;
      Ok ([IInt (i_m t); IInt (i_n t); IInt (i_nnz t); IInt (i_np t)] ++ map IVal a ++ map IInt ja ++ map IInt ia ++ map IInt ps ++ map IInt sn)
    else
      do np <- need junk ;;
      Ok [IInt (i_m t); IInt (i_n t); IInt (i_nnz t); IInt np].
  (** COOSIMD32Tile.h:114-150 *)
  Definition simd_load (ar : list (item E)) : R (simd (E := E) * list (item E)) :=
    do r <- get_int ar ;; let '(m, ar) := r in
    do r <- get_int ar ;; let '(n, ar) := r in
    do r <- get_int ar ;; let '(nnz, ar) := r in
    do r <- get_int ar ;; let '(np, ar) := r in
    if 0 <? nnz then
      do r <- get_many get_val (Z.to_nat nnz) ar ;; let '(a, ar) := r in
      do r <- get_many get_int (Z.to_nat nnz) ar ;; let '(ja, ar) := r in
      do r <- get_many get_int (Z.to_nat nnz) ar ;; let '(ia, ar) := r in
      do r <- get_many get_int (Z.to_nat (np + 1)) ar ;; let '(ps, ar) := r in
      do r <- get_many get_int (Z.to_nat (np + 1)) ar ;; let '(sn, ar) := r in
      Ok (mkSimd nnz m n np a ja ia ps sn, ar)
    else Ok (mkSimd nnz m n np [] [] [] [] [], ar).

  (** HybridTile.h:59-72, saving.  The two parts are saved through pointers; boost's bookkeeping for
      pointers (class and object numbers) is left out. *)
  Definition hybrid_save (t : hybrid (E := E)) : R (list (item E)) :=
    let header := [IInt (h_m t); IInt (h_n t); IInt (h_nnz t); IInt (h_nnz1 t); IInt (h_nnz2 t)] in
    if 0 <? h_nnz t then
      do a1 <- dcsr_save (h_t1 t) ;;
      do a2 <- simd_save (h_t2 t) ;;
      Ok (header ++ a1 ++ a2)
    else Ok header.
  (** HybridTile.h:59-72, loading.  Without entries there are no parts. *)
  Definition hybrid_load (ar : list (item E)) : R (hybrid (E := E) * list (item E)) :=
    do r <- get_int ar ;; let '(m, ar) := r in
    do r <- get_int ar ;; let '(n, ar) := r in
    do r <- get_int ar ;; let '(nnz, ar) := r in
    do r <- get_int ar ;; let '(nnz1, ar) := r in
    do r <- get_int ar ;; let '(nnz2, ar) := r in
    if 0 <? nnz then
      do r <- dcsr_load ar ;; let '(t1, ar) := r in
      do r <- simd_load ar ;; let '(t2, ar) := r in
      Ok (mkHyb nnz m n nnz1 nnz2 t1 t2, ar)
    else Ok (mkHyb nnz m n nnz1 nnz2 (dcsr_empty m n) (simd_empty m n), ar).
End TileArchive.
