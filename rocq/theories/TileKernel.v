(** Multiplication with the tile formats that graphs do not use: include/GMDP/singlenode/spmspv.h:88-314,
    spmspv3.h:93-174.  [int] is unbounded; [*nnz] is a local of the callers that nobody reads. *)
From Verif Require Import Base Bits Segment DCSC Conc ParSeg EdgeList Tiles Kernel.

(** [for (i = lo; i < hi; i++)] with a private variable that changes from one iteration to the next *)
Section Private.
  Context {L V P : Type}.
  Fixpoint tprivN (n : nat) (i : Z) (body : Z -> P -> (P -> thread L V) -> thread L V) (y : P) (k : P -> thread L V) : thread L V :=
    match n with O => k y | S n' => body i y (fun y => tprivN n' (i + 1) body y k) end.
  Definition tpriv (lo hi : Z) body y k : thread L V := tprivN (Z.to_nat (hi - lo)) lo body y k.
End Private.

Section TileKernel.
  Context {E U : Type}.
  (** [op_add(a, b, &c)]: the value written to [c] *)
  Variable add : U -> U -> U.
  (** membership words of the message segment *)
  Variable xw : list Z.
  (** product for column, entry value, row *)
  Variable f : Z -> E -> Z -> R U.
  Notation st := (list Z * list (option U))%type.
  Notation thread := (thread sloc (@scell U)).

  (** ** coordinate entries *)
  (** spmspv.h:206-220, spmspv3.h:121-138: like [kernel_entry], but the bit is set in both cases *)
  Definition coo_entry (mul : R U) (row : Z) (wv : st) : R st :=
    do x <- mul ;;
    do g <- bv_get (fst wv) row ;;
    if g then
      do old <- rdi (snd wv) row ;;
      do v <- wr (snd wv) row (Some (add old x)) ;;
      do w <- bv_set (fst wv) row ;; Ok (w, v)
    else
      do v <- wr (snd wv) row (Some x) ;;
      do w <- bv_set (fst wv) row ;; Ok (w, v).
  (** spmspv.h:194-222, spmspv3.h:105-139: partition [p] *)
  Definition coo_part (a : list E) (ja ia ps : list Z) (p : Z) (wv : st) : R st :=
    do lo <- rd ps p ;; do hi <- rd ps (p + 1) ;;
    forZ lo hi (fun nz wv =>
      do r <- rd ia nz ;; do c <- rd ja nz ;;
      do g <- bv_get xw (c - 1) ;;
      if g then do val <- rd a nz ;; coo_entry (f (c - 1) val (r - 1)) (r - 1) wv
      else Ok wv) wv.
  (** the parallel loop of spmspv.h:191-223, spmspv3.h:102-140, in index order *)
  Definition coo_loop (np : Z) (a : list E) (ja ia ps : list Z) (wv : st) : R st :=
    forZ 0 np (coo_part a ja ia ps) wv.

  (** the same iteration as a thread *)
  Definition coo_entry_t (mul : R U) (row : Z) : thread :=
    tlift mul (fun x =>
    t_bv_get row (fun g =>
      if g then rdX row (fun old => tlift (need old) (fun old => wrX row (Some (add old x)) (t_bv_set row Fin)))
      else wrX row (Some x) (t_bv_set row Fin))).
  Definition coo_part_t (a : list E) (ja ia ps : list Z) (p : Z) : thread :=
    tlift (rd ps p) (fun lo => tlift (rd ps (p + 1)) (fun hi =>
    tfor lo hi (fun nz =>
      tlift (rd ia nz) (fun r => tlift (rd ja nz) (fun c =>
      tlift (bv_get xw (c - 1)) (fun g : bool =>
      if g then tlift (rd a nz) (fun val => coo_entry_t (f (c - 1) val (r - 1)) (r - 1))
      else Fin)))))).
  Definition coo_pool (np : Z) (a : list E) (ja ia ps : list Z) : list thread := map (coo_part_t a ja ia ps) (zrange 0 np).

  (** ** row by row *)
  (** spmspv.h:112-128 ([early]), 159-173 (not [early]): one entry of row [row]; [snd s] is [yval]
      if [row_exists].  Only the compressed-row kernel sets the bit here. *)
  Definition row_entry (early : bool) (row col : Z) (val : E) (s : list Z * option U) : R (list Z * option U) :=
    do g <- bv_get xw col ;;
    if g then
      do x <- f col val row ;;
      match snd s with
      | Some y => Ok (fst s, Some (add y x))
      | None => do w <- (if early then bv_set (fst s) row else Ok (fst s)) ;; Ok (w, Some x)
      end
    else Ok s.
  (** spmspv.h:105-133, 153-178: one row, its entries numbered [lo .. hi-1]; the other kernel sets
      the bit at the end *)
  Definition row_mult (early : bool) (row lo hi : Z) (entry : Z -> R (Z * E)) (wv : st) : R st :=
    do g <- bv_get (fst wv) row ;;
    do y <- (if g then do y <- rdi (snd wv) row ;; Ok (Some y) else Ok None) ;;
    do s <- forZ lo hi (fun nz s => do ce <- entry nz ;; row_entry early row (fst ce) (snd ce) s) (fst wv, y) ;;
    match snd s with
    | Some y =>
      do w <- (if early then Ok (fst s) else bv_set (fst s) row) ;;
      do v <- wr (snd wv) row (Some y) ;; Ok (w, v)
    | None => Ok (fst s, snd wv)
    end.
  (** the same as a thread *)
  Definition row_entry_t (early : bool) (row col : Z) (val : E) (y : option U) (k : option U -> thread) : thread :=
    tlift (bv_get xw col) (fun g : bool =>
      if g then tlift (f col val row) (fun x =>
        match y with
        | Some y => k (Some (add y x))
        | None => if early then t_bv_set row (k (Some x)) else k (Some x)
        end)
      else k y).
  Definition row_mult_t (early : bool) (row lo hi : Z) (entry : Z -> R (Z * E)) : thread :=
    let go := fun y : option U =>
      tpriv lo hi (fun nz y k => tlift (entry nz) (fun ce => row_entry_t early row (fst ce) (snd ce) y k)) y
        (fun y => match y with
          | Some y => if early then wrX row (Some y) Fin else t_bv_set row (wrX row (Some y) Fin)
          | None => Fin
          end) in
    t_bv_get row (fun g => if g then rdX row (fun c => tlift (need c) (fun y => go (Some y))) else go None).

  (** *** compressed rows *)
  (** spmspv.h:114,117: entry [nz], numbered from one *)
  Definition csr_at (t : csr (E := E)) (nz : Z) : R (Z * E) := do c <- rd (s_ja t) (nz - 1) ;; do v <- rd (s_a t) (nz - 1) ;; Ok (c - 1, v).
  (** spmspv.h:100-134: partition [p] *)
  Definition csr_mpart (t : csr) (rpp p : Z) (wv : st) : R st :=
    forZ (p * rpp) (Z.min ((p + 1) * rpp) (s_m t)) (fun row wv =>
      do lo <- rd (s_ia t) row ;; do hi <- rd (s_ia t) (row + 1) ;; row_mult true row lo hi (csr_at t) wv) wv.
  Definition csr_mpart_t (t : csr) (rpp p : Z) : thread :=
    tfor (p * rpp) (Z.min ((p + 1) * rpp) (s_m t)) (fun row =>
      tlift (rd (s_ia t) row) (fun lo => tlift (rd (s_ia t) (row + 1)) (fun hi => row_mult_t true row lo hi (csr_at t)))).

  (** *** doubly compressed rows *)
  (** spmspv.h:161,164: entry [nz], numbered from zero *)
  Definition dcsr_at (t : dcsr (E := E)) (nz : Z) : R (Z * E) := do c <- rd (d_ja t) nz ;; do v <- rd (d_a t) nz ;; Ok (c, v).
  (** spmspv.h:149-180: partition [p] *)
  Definition dcsr_mpart (t : dcsr) (p : Z) (wv : st) : R st :=
    do a <- rd (d_pp t) p ;; do b <- rd (d_pp t) (p + 1) ;;
    forZ a b (fun k wv =>
      do row <- rd (d_rows t) k ;;
      do lo <- rd (d_ia t) k ;; do hi <- rd (d_ia t) (k + 1) ;; row_mult false row lo hi (dcsr_at t) wv) wv.
  Definition dcsr_mpart_t (t : dcsr) (p : Z) : thread :=
    tlift (rd (d_pp t) p) (fun a => tlift (rd (d_pp t) (p + 1)) (fun b =>
    tfor a b (fun k =>
      tlift (rd (d_rows t) k) (fun row =>
      tlift (rd (d_ia t) k) (fun lo => tlift (rd (d_ia t) (k + 1)) (fun hi => row_mult_t false row lo hi (dcsr_at t))))))).

  (** ** the kernel calls of the [mult_segment] overloads *)
  (** spmspv.h:289-296 *)
  Definition coo_multiply (t : coo (E := E)) (wv : st) : R st :=
    if 0 <? o_nnz t then coo_loop (o_np t) (o_a t) (o_ja t) (o_ia t) (o_ps t) wv else Ok wv.
  Definition coo_mpool (t : coo (E := E)) : list thread :=
    if 0 <? o_nnz t then coo_pool (o_np t) (o_a t) (o_ja t) (o_ia t) (o_ps t) else [].
  (** spmspv.h:306-313 *)
  Definition simd_multiply (t : simd (E := E)) (wv : st) : R st :=
    if 0 <? i_nnz t then coo_loop (i_np t) (i_a t) (i_ja t) (i_ia t) (i_ps t) wv else Ok wv.
  Definition simd_mpool (t : simd (E := E)) : list thread :=
    if 0 <? i_nnz t then coo_pool (i_np t) (i_a t) (i_ja t) (i_ia t) (i_ps t) else [].
  (** spmspv.h:272-278 with 93-99: [threads] is the number of threads now, which need not be that of
      the construction *)
  Definition csr_multiply (threads : Z) (t : csr (E := E)) (wv : st) : R st :=
    if 0 <? s_nnz t then do rpp <- rows_per (s_m t) (threads * 4) ;; forZ 0 (threads * 4) (csr_mpart t rpp) wv else Ok wv.
  Definition csr_mpool (threads : Z) (t : csr (E := E)) : R (list thread) :=
    if 0 <? s_nnz t then do rpp <- rows_per (s_m t) (threads * 4) ;; Ok (map (csr_mpart_t t rpp) (zrange 0 (threads * 4))) else Ok [].
  (** spmspv.h:249-254 with 146-182 *)
  Definition dcsr_multiply (t : dcsr (E := E)) (wv : st) : R st :=
    if 0 <? d_nnz t then forZ 0 (d_np t) (dcsr_mpart t) wv else Ok wv.
  Definition dcsr_mpool (t : dcsr (E := E)) : list thread :=
    if 0 <? d_nnz t then map (dcsr_mpart_t t) (zrange 0 (d_np t)) else [].
  (** spmspv.h:249-261: the second loop starts when the first has ended *)
  Definition hybrid_multiply (t : hybrid (E := E)) (wv : st) : R st :=
    do wv <- dcsr_multiply (h_t1 t) wv ;; simd_multiply (h_t2 t) wv.

  (** spmspv3.h:161-174: [mult_segment3] calls the coordinate kernel without looking at [nnz].  The
      number of partitions of a tile without entries was never set (COOTile.h:137). *)
  Definition coo_multiply3 (t : coo (E := E)) (wv : st) : R st :=
    if 0 <? o_nnz t then coo_loop (o_np t) (o_a t) (o_ja t) (o_ia t) (o_ps t) wv else Err Uninit.
End TileKernel.
