(** The sparse kernels on one tile: include/GMDP/singlenode/spmspv.h, spmspv3.h, applyedges.h. *)
From Verif Require Import Base Bits Segment DCSC Conc ParSeg.

Section Kernel.
  Context {E U : Type}.
  (** [op_add(a, b, &c)]: the value written to [c] *)
  Variable add : U -> U -> U.

  (** spmspv.h:64-77 / spmspv3.h:63-82: one nonzero in row [row] whose product is [mul].  The
      words and values of the result are [fst wv] and [snd wv]. *)
  Definition kernel_entry (mul : R U) (row : Z) (wv : list Z * list (option U)) : R (list Z * list (option U)) :=
    do x <- mul ;;
    do g <- bv_get (fst wv) row ;;
    if g then
      do old <- rdi (snd wv) row ;;
      do v <- wr (snd wv) row (Some (add old x)) ;;
      Ok (fst wv, v)
    else
      do v <- wr (snd wv) row (Some x) ;;
      do w <- bv_set (fst wv) row ;;
      Ok (w, v).

  (** The prefetch operand [column_offset[j + 4]] (spmspv.h:61, spmspv3.h:61, applyedges.h:61):
      with [strict] the read is checked like any other, otherwise it is taken to be harmless. *)
  Definition look_ahead (strict : bool) (t : dcsc E) (i : Z) : R unit :=
    if strict then do _ <- rd (t_col_idx t) i ;; Ok tt else Ok tt.

  Variable strict : bool.
  Variable t : dcsc E.
  (** membership words of the message segment *)
  Variable xw : list Z.
  (** product for column, entry value, row *)
  Variable f : Z -> E -> Z -> R U.

  (** spmspv.h:51-81, spmspv3.h:48-87: the iteration for partition [p] *)
  Definition kernel_part (p : Z) (wv : list Z * list (option U)) : R (list Z * list (option U)) :=
    do c <- rd (t_col_starts t) p ;; do c' <- rd (t_col_starts t) (p + 1) ;; do a <- rd (t_edge_ptrs t) p ;;
    forZ 0 (c' - c - 1) (fun j wv =>
      do ci <- rd (t_col_idx t) (c + j) ;;
      do g <- bv_get xw ci ;;
      if g then
        do _ <- look_ahead strict t (c + j + 4) ;;
        do lo <- rd (t_col_ptrs t) (c + j) ;; do hi <- rd (t_col_ptrs t) (c + (j + 1)) ;;
        forZ lo hi (fun nz wv =>
          do row <- rd (t_row_inds t) (a + nz) ;;
          do val <- rd (t_vals t) (a + nz) ;;
          kernel_entry (f ci val row) row wv) wv
      else Ok wv) wv.
  (** spmspv.h:48-82: the parallel loop run in order of [p].  [*nnz = m * n] (line 85) is
      overwritten by the caller and left out. *)
  Definition kernel (wv : list Z * list (option U)) : R (list Z * list (option U)) :=
    forZ 0 (t_np t) kernel_part wv.

  (** The same iteration as a thread: only the result arrays are shared and written. *)
  Definition kernel_entry_t (mul : R U) (row : Z) : thread sloc (@scell U) :=
    tlift mul (fun x =>
    t_bv_get row (fun g =>
      if g then rdX row (fun old => tlift (need old) (fun old => wrX row (Some (add old x)) Fin))
      else wrX row (Some x) (t_bv_set row Fin))).
  Definition kernel_part_t (p : Z) : thread sloc (@scell U) :=
    tlift (rd (t_col_starts t) p) (fun c => tlift (rd (t_col_starts t) (p + 1)) (fun c' => tlift (rd (t_edge_ptrs t) p) (fun a =>
    tfor 0 (c' - c - 1) (fun j =>
      tlift (rd (t_col_idx t) (c + j)) (fun ci =>
      tlift (bv_get xw ci) (fun g : bool =>
      if g then
        tlift (look_ahead strict t (c + j + 4)) (fun _ =>
        tlift (rd (t_col_ptrs t) (c + j)) (fun lo => tlift (rd (t_col_ptrs t) (c + (j + 1))) (fun hi =>
        tfor lo hi (fun nz =>
          tlift (rd (t_row_inds t) (a + nz)) (fun row =>
          tlift (rd (t_vals t) (a + nz)) (fun val =>
          kernel_entry_t (f ci val row) row))))))
      else Fin)))))).
  Definition kernel_pool : list (thread sloc (@scell U)) := map kernel_part_t (zrange 0 (t_np t)).
End Kernel.

Section Mult.
  Context {E T V U byte : Type}.
  Variable add : U -> U -> U.
  (** spmspv.h:60,67-68: the product reads the entry and the message value *)
  Definition mul2 (mul : E -> T -> U) (xv : list (option T)) (col : Z) (a : E) (row : Z) : R U :=
    do x <- rdi xv col ;; Ok (mul a x).
  (** spmspv3.h:66-80: it also reads the vertex property of the row, which must be a member *)
  Definition mul3 (mul : E -> T -> V -> U) (xv : list (option T)) (vw : list Z) (vv : list (option V)) (col : Z) (a : E) (row : Z) : R U :=
    do g <- bv_get vw row ;;
    do _ <- assertb g ;;
    do x <- rdi xv col ;; do p <- rdi vv row ;; Ok (mul a x p).

  (** spmspv.h:226-239 [mult_segment] on a DCSC tile *)
  Definition mult_segment (threads : Z) (mul : E -> T -> U) (t : dcsc E) (x : seg T byte) (y : seg U byte) : R (seg U byte) :=
    do y <- seg_initialize (seg_alloc threads y) ;;
    do bx <- prop x ;; do xw <- words bx ;;
    do b <- prop y ;; do w <- words b ;;
    do wv <- kernel add false t xw (mul2 mul (b_value bx)) (w, b_value b) ;;
    let y := set_prop (Some (set_value (snd wv) (set_bits (fst wv) b))) y in
    do k <- seg_compute_nnz y ;;
    do b <- prop y ;;
    Ok (set_prop (Some (set_nnz k b)) y).
  (** spmspv3.h:143-158 [mult_segment3] on a DCSC tile *)
  Definition mult_segment3 {vbyte} (threads : Z) (mul : E -> T -> V -> U) (t : dcsc E) (x : seg T byte) (vp : seg V vbyte) (y : seg U byte) : R (seg U byte) :=
    do y <- seg_initialize (seg_alloc threads y) ;;
    do bx <- prop x ;; do xw <- words bx ;;
    do bv <- prop vp ;; do vw <- words bv ;;
    do b <- prop y ;; do w <- words b ;;
    do wv <- kernel add false t xw (mul3 mul (b_value bx) vw (b_value bv)) (w, b_value b) ;;
    let y := set_prop (Some (set_value (snd wv) (set_bits (fst wv) b))) y in
    do k <- seg_compute_nnz y ;;
    do b <- prop y ;;
    Ok (set_prop (Some (set_nnz k b)) y).
End Mult.

(** ** applyedges.h *)
Section ApplyEdges.
  Context {E V byte : Type}.
  Variable strict : bool.
  (** [op(&a, v1, v2)]: the new entry value *)
  Variable op : E -> V -> V -> E.

  (** applyedges.h:46-77, partition [p], on the value array.  Only the row's membership is asserted. *)
  Definition applyedges_part (t : dcsc E) (v1 : list (option V)) (w2 : list Z) (v2 : list (option V)) (p : Z) (vals : list E) : R (list E) :=
    do c <- rd (t_col_starts t) p ;; do c' <- rd (t_col_starts t) (p + 1) ;; do a <- rd (t_edge_ptrs t) p ;;
    forZ 0 (c' - c - 1) (fun j vals =>
      do ci <- rd (t_col_idx t) (c + j) ;;
      do _ <- look_ahead strict t (c + j + 4) ;;
      do lo <- rd (t_col_ptrs t) (c + j) ;; do hi <- rd (t_col_ptrs t) (c + (j + 1)) ;;
      forZ lo hi (fun nz vals =>
        do row <- rd (t_row_inds t) (a + nz) ;;
        do g <- bv_get w2 row ;;
        do _ <- assertb g ;;
        do val <- rd vals (a + nz) ;;
        do x <- rdi v1 ci ;; do y <- rdi v2 row ;;
        wr vals (a + nz) (op val x y)) vals) vals.

  Definition set_vals (vals : list E) (t : dcsc E) : dcsc E :=
    mkT (t_nnz t) (t_m t) (t_n t) (t_num_cols t) (t_np t) vals (t_row_inds t) (t_row_ptrs t) (t_edge_ptrs t) (t_col_starts t) (t_col_ptrs t) (t_col_idx t).

  (** applyedges.h:80-95 *)
  Definition apply_edges (t : dcsc E) (s1 s2 : seg V byte) : R (dcsc E) :=
    if t_nnz t <=? 0 then Ok t else
    do b1 <- prop s1 ;; do b2 <- prop s2 ;; do w2 <- words b2 ;;
    do vals <- forZ 0 (t_np t) (applyedges_part t (b_value b1) w2 (b_value b2)) (t_vals t) ;;
    Ok (set_vals vals t).
End ApplyEdges.
