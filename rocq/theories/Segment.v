(** include/GMDP/vectors/DenseSegment.h: one block of a distributed sparse vector. *)
From Verif Require Import Base Bits.

(** Checked read of an array whose elements may be indeterminate. *)
Definition rdi {A} (l : list (option A)) (i : Z) : R A :=
  do c <- rd l i ;; match c with Some a => Ok a | None => Err Uninit end.
Definition need {A} (c : option A) : R A := match c with Some a => Ok a | None => Err Uninit end.

(** [MPI_Irecv(dst, count)] of a message [src]: longer than posted is an error, otherwise the
    prefix of the destination is overwritten; [count] must fit the destination. *)
Definition recv_into {A} (dst : list A) (count : Z) (src : list A) : R (list A) :=
  if (count <? zlen src) || (zlen dst <? count) then Err OOB
  else Ok (src ++ skipn (length src) dst).
(** [MPI_Isend(src, count)] *)
Definition send_from {A} (src : list A) (count : Z) : R (list A) :=
  if (count <? 0) || (zlen src <? count) then Err OOB else Ok (firstn (Z.to_nat count) src).

(** [l[off .. off+len)] *)
Definition slice {A} (l : list A) (off len : Z) : R (list A) :=
  if (off <? 0) || (len <? 0) || (zlen l <? off + len) then Err OOB
  else Ok (firstn (Z.to_nat len) (skipn (Z.to_nat off) l)).

(** exclusive prefix sums of [l] starting at [a], one element longer than [l] *)
Fixpoint prefix_sums (a : Z) (l : list Z) : list Z :=
  match l with [] => [a] | x :: t => a :: prefix_sums (a + x) t end.

(** DenseSegment.h:47-52 *)
Inductive decision := NONE | COMPRESSED | SERIALIZED.

(** DenseSegment.h:54-68 *)
Record send_md := mkmd { md_nnz : Z; md_snb : Z; md_snp : Z }.

(** DenseSegment.h:70-88, the members of [buffer<T>].  [value] and [compressed_*] elements are
    [None] while indeterminate; the word array is [None] until it is first written (every
    write that starts from that state fills the whole array; an array of zero words is [Some []]).  An indeterminate [nnz] is an
    arbitrary integer chosen at construction.  [byte] is the element type of the archive. *)
Record buffer (T byte : Type) := mkbuf {
  b_uninit : bool; b_nnz : Z; b_cap : Z; b_nints : Z;
  b_value : list (option T);
  b_bits : option (list Z);
  b_cdata : list (option T);
  b_cidx : list (option Z);
  b_sdata : list byte; b_snb : Z; b_snp : Z;
  b_nbscan : list (option Z);
  b_nzscan : list (option Z)
}.
Arguments mkbuf {T byte}. Arguments b_uninit {T byte}. Arguments b_nnz {T byte}. Arguments b_cap {T byte}.
Arguments b_nints {T byte}. Arguments b_value {T byte}. Arguments b_bits {T byte}. Arguments b_cdata {T byte}.
Arguments b_cidx {T byte}. Arguments b_sdata {T byte}. Arguments b_snb {T byte}. Arguments b_snp {T byte}.
Arguments b_nbscan {T byte}. Arguments b_nzscan {T byte}.

(** DenseSegment.h:424-434, members of [DenseSegment<T>] ([name] dropped).  [s_junk] is the
    indeterminate integer found in [nnz] of a freshly allocated buffer, [s_fresh] the content of
    a fresh element (default-constructed, or indeterminate for trivial types). *)
Record seg (T byte : Type) := mkseg {
  s_cap : Z; s_nints : Z;
  s_prop : option (buffer T byte);
  s_rmd : send_md;
  s_qmd : list send_md;
  s_recv : list (buffer T byte);
  s_pool : list (buffer T byte);
  s_junk : Z; s_fresh : option T
}.
Arguments mkseg {T byte}. Arguments s_cap {T byte}. Arguments s_nints {T byte}. Arguments s_prop {T byte}.
Arguments s_rmd {T byte}. Arguments s_qmd {T byte}. Arguments s_recv {T byte}. Arguments s_pool {T byte}.
Arguments s_junk {T byte}. Arguments s_fresh {T byte}.

Section Seg.
  Context {T byte : Type}.
  (** [ser]: T derives from Serializable.  [enc]/[dec]: boost binary archive of a sequence of
      (index, value) pairs; [dec bs k] extracts [k] pairs. *)
  Variable ser : bool.
  Variable enc : list (Z * T) -> list byte.
  Variable dec : list byte -> Z -> R (list (Z * T)).
  Notation buf := (buffer T byte).
  Notation sg := (seg T byte).

  Definition set_uninit (u : bool) (b : buf) : buf :=
    mkbuf u (b_nnz b) (b_cap b) (b_nints b) (b_value b) (b_bits b) (b_cdata b) (b_cidx b) (b_sdata b) (b_snb b) (b_snp b) (b_nbscan b) (b_nzscan b).
  Definition set_nnz (n : Z) (b : buf) : buf :=
    mkbuf (b_uninit b) n (b_cap b) (b_nints b) (b_value b) (b_bits b) (b_cdata b) (b_cidx b) (b_sdata b) (b_snb b) (b_snp b) (b_nbscan b) (b_nzscan b).
  Definition set_value (v : list (option T)) (b : buf) : buf :=
    mkbuf (b_uninit b) (b_nnz b) (b_cap b) (b_nints b) v (b_bits b) (b_cdata b) (b_cidx b) (b_sdata b) (b_snb b) (b_snp b) (b_nbscan b) (b_nzscan b).
  Definition set_bits (w : list Z) (b : buf) : buf :=
    mkbuf (b_uninit b) (b_nnz b) (b_cap b) (b_nints b) (b_value b) (Some w) (b_cdata b) (b_cidx b) (b_sdata b) (b_snb b) (b_snp b) (b_nbscan b) (b_nzscan b).
  Definition set_comp (d : list (option T)) (x : list (option Z)) (b : buf) : buf :=
    mkbuf (b_uninit b) (b_nnz b) (b_cap b) (b_nints b) (b_value b) (b_bits b) d x (b_sdata b) (b_snb b) (b_snp b) (b_nbscan b) (b_nzscan b).
  Definition set_ser (d : list byte) (nb np : Z) (nbs nzs : list (option Z)) (b : buf) : buf :=
    mkbuf (b_uninit b) (b_nnz b) (b_cap b) (b_nints b) (b_value b) (b_bits b) (b_cdata b) (b_cidx b) d nb np nbs nzs.
  Definition set_prop (p : option buf) (s : sg) : sg :=
    mkseg (s_cap s) (s_nints s) p (s_rmd s) (s_qmd s) (s_recv s) (s_pool s) (s_junk s) (s_fresh s).
  Definition set_rmd (m : send_md) (s : sg) : sg :=
    mkseg (s_cap s) (s_nints s) (s_prop s) m (s_qmd s) (s_recv s) (s_pool s) (s_junk s) (s_fresh s).
  Definition set_qmd (q : list send_md) (s : sg) : sg :=
    mkseg (s_cap s) (s_nints s) (s_prop s) (s_rmd s) q (s_recv s) (s_pool s) (s_junk s) (s_fresh s).
  Definition set_lists (rc pl : list buf) (s : sg) : sg :=
    mkseg (s_cap s) (s_nints s) (s_prop s) (s_rmd s) (s_qmd s) rc pl (s_junk s) (s_fresh s).

  (** the word array; indeterminate until first written *)
  Definition words (b : buf) : R (list Z) := match b_bits b with Some w => Ok w | None => Err Uninit end.
  (** [properties->...] *)
  Definition prop (s : sg) : R buf := match s_prop s with Some b => Ok b | None => Err NullDeref end.

  (** DenseSegment.h:181-197 [buffer(capacity, num_ints)].  [threads] = omp_get_max_threads(). *)
  Definition new_buffer (threads cap nints junk : Z) (fresh : option T) : buf :=
    mkbuf true junk cap nints (repeat fresh (Z.to_nat cap))
      (if nints <=? 0 then Some [] else None)
      (repeat fresh (Z.to_nat cap)) (repeat None (Z.to_nat cap))
      [] 0 (threads * 16)
      (repeat None (Z.to_nat (threads * 16 + 1))) (repeat None (Z.to_nat (threads * 16 + 1))).

  (** DenseSegment.h:476-480 *)
  Definition new_seg (n junk : Z) (fresh : option T) : sg :=
    mkseg n (num_ints_of n) None (mkmd 0 0 0) [] [] [] junk fresh.

  (** DenseSegment.h:208-217 [buffer::compute_nnz()] *)
  Definition buf_compute_nnz (b : buf) : R Z := do w <- words b ;; bv_count w 0 (b_nints b).

  (** DenseSegment.h:518-523 *)
  Definition seg_compute_nnz (s : sg) : R Z :=
    match s_prop s with
    | None => Ok 0
    | Some b => if b_uninit b then Ok 0 else buf_compute_nnz b
    end.

  (** DenseSegment.h:532-538; the threshold is 0.5 (gmdp.h:76-78) *)
  Definition should_compress (cap test_nnz : Z) : decision :=
    if ser then SERIALIZED else if cap <? 2 * test_nnz then NONE else COMPRESSED.

  (** DenseSegment.h:578-583 *)
  Definition seg_alloc (threads : Z) (s : sg) : sg :=
    match s_prop s with
    | Some _ => s
    | None => set_prop (Some (new_buffer threads (s_cap s) (s_nints s) (s_junk s) (s_fresh s))) s
    end.

  (** DenseSegment.h:585-593, on the buffer *)
  Definition buf_initialize (nints : Z) (b : buf) : buf :=
    if b_uninit b then set_uninit false (set_nnz 0 (set_bits (repeat 0 (Z.to_nat nints)) b))
    else set_uninit false b.
  Definition seg_initialize (s : sg) : R sg :=
    do b <- prop s ;; Ok (set_prop (Some (buf_initialize (s_nints s) b)) s).

  (** DenseSegment.h:559-567 *)
  Definition seg_set_uninitialized_received (s : sg) : sg :=
    set_lists [] (s_pool s ++ map (set_uninit true) (s_recv s)) s.
  (** DenseSegment.h:569-576 *)
  Definition seg_set_uninitialized (s : sg) : sg :=
    let s := seg_set_uninitialized_received s in
    match s_prop s with
    | None => s
    | Some b => set_prop (Some (set_nnz 0 (set_uninit true b))) s
    end.

  (** DenseSegment.h:595-598 *)
  Definition seg_getNNZ (s : sg) : R Z := do b <- prop s ;; Ok (b_nnz b).

  (** DenseSegment.h:600-607 *)
  Definition seg_set (threads : Z) (idx : Z) (val : option T) (s : sg) : R sg :=
    do s <- seg_initialize (seg_alloc threads s) ;;
    do b <- prop s ;;
    do w <- words b ;;
    do g <- bv_get w (idx - 1) ;;
    let b := if g then b else set_nnz (b_nnz b + 1) b in
    do v <- wr (b_value b) (idx - 1) val ;;
    do w' <- bv_set w (idx - 1) ;;
    Ok (set_prop (Some (set_uninit false (set_bits w' (set_value v b)))) s).

  (** DenseSegment.h:609-615 *)
  Definition seg_unset (threads : Z) (idx : Z) (s : sg) : R sg :=
    do s <- seg_initialize (seg_alloc threads s) ;;
    do b <- prop s ;;
    do w <- words b ;;
    do g <- bv_get w (idx - 1) ;;
    let b := if g then set_nnz (b_nnz b - 1) b else b in
    do w' <- bv_clear w (idx - 1) ;;
    Ok (set_prop (Some (set_uninit false (set_bits w' b))) s).

  (** DenseSegment.h:617-640.  The word array is filled completely before it is read. *)
  Definition seg_setAll (threads : Z) (val : option T) (s : sg) : R sg :=
    let s := seg_alloc threads s in
    do b <- prop s ;;
    let b := set_uninit false b in
    if s_nints s =? 0 then Ok (set_prop (Some b) s) else
    let w0 := repeat (2 ^ 32 - 1) (Z.to_nat (s_nints s - 1)) ++ [0] in
    do w <- forZ (Z.max 0 (s_cap s - 32)) (s_cap s) (fun idx w => bv_set w idx) w0 ;;
    let b := set_nnz (s_cap s) (set_bits w b) in
    do v <- forZ 0 (s_cap s) (fun i v => wr v i val) (b_value b) ;;
    Ok (set_prop (Some (set_value v b)) s).

  (** include/GMDP/singlenode/clear.h:36-38 [clear_dense_segment]: zero all words, leave the
      count and the flag alone *)
  Definition seg_zero (s : sg) : R sg :=
    do b <- prop s ;; Ok (set_prop (Some (set_bits (repeat 0 (Z.to_nat (s_nints s))) b)) s).

  (** DenseSegment.h:642-646 *)
  Definition seg_get (idx : Z) (s : sg) : R (option T) :=
    match s_prop s with
    | None => Err AssertFail
    | Some b => do _ <- assertb (negb (b_uninit b)) ;; rd (b_value b) (idx - 1)
    end.

  (** DenseSegment.h:484-496 [ingestEdges]; an edge is (src, value) here *)
  Definition seg_ingest (threads : Z) (edges : list (Z * T)) (row_start : Z) (s : sg) : R sg :=
    do s <- seg_initialize (seg_alloc threads s) ;;
    do b <- prop s ;;
    do w <- words b ;;
    do wv <- foldR (fun wv (e : Z * T) =>
               let src := fst e - row_start - 1 in
               do w <- bv_set (fst wv) src ;;
               do v <- wr (snd wv) src (Some (snd e)) ;;
               Ok (w, v)) edges (w, b_value b) ;;
    Ok (set_prop (Some (set_uninit false (set_nnz (zlen edges) (set_value (snd wv) (set_bits (fst wv) b))))) s).

  (** partition [p] of [np] over the words: lines 309-312, 369-372, 388-391 *)
  Definition part_per (nints np : Z) : Z := Z.quot (nints + np - 1) np.
  Definition part_start (nints np p : Z) : Z := part_per nints np * p.
  Definition part_end (nints np p : Z) : Z :=
    let e := part_per nints np * (p + 1) in if nints <? e then nints else e.

  (** the inner loops of lines 394-406: append the set bits of words [start, fin) *)
  Definition emit_words (w : list Z) (value : list (option T)) (start fin : Z)
      (st : list (option T) * list (option Z) * Z) : R (list (option T) * list (option Z) * Z) :=
    forZ start fin (fun ii st =>
      do wd <- rd w ii ;;
      if popcnt32 wd =? 0 then Ok st else
      forZ (ii * 32) ((ii + 1) * 32) (fun i st =>
        do g <- bv_get w i ;;
        if g then
          let '(d, x, c) := st in
          do val <- rd value i ;;
          do d' <- wr d c val ;;
          do x' <- wr x c (Some i) ;;
          Ok (d', x', c + 1)
        else Ok st) st) st.

  (** DenseSegment.h:360-409 [compress], plain types; the parallel loops over [p] are run in
      order of [p]. *)
  Definition buf_compress_plain (threads : Z) (b : buf) : R buf :=
    do w <- words b ;;
    let np := threads * 16 in
    let n := b_nints b in
    do counts <- mapR (fun p => bv_count w (part_start n np p) (part_end n np p)) (zrange 0 np) ;;
    let scan := prefix_sums 0 counts in
    let nnz := fold_left Z.add counts 0 in
    do dx <- forZ 0 np (fun p dx =>
        do c <- rd scan p ;;
        do r <- emit_words w (b_value b) (part_start n np p) (part_end n np p) (fst dx, snd dx, c) ;;
        Ok (fst (fst r), snd (fst r))) (b_cdata b, b_cidx b) ;;
    Ok (set_nnz nnz (set_comp (fst dx) (snd dx) b)).

  (** lines 316-327: the pairs archived for words [start, fin) *)
  Definition collect_words (w : list Z) (value : list (option T)) (start fin : Z) : R (list (Z * T)) :=
    forZ start fin (fun ii acc =>
      do wd <- rd w ii ;;
      if popcnt32 wd =? 0 then Ok acc else
      forZ (ii * 32) ((ii + 1) * 32) (fun i acc =>
        do g <- bv_get w i ;;
        if g then do val <- rdi value i ;; Ok (acc ++ [(i, val)]) else Ok acc) acc) [].

  (** overwrite the first elements of a scan array, lines 336-342 *)
  Definition write_scan (dst : list (option Z)) (src : list Z) : R (list (option Z)) :=
    recv_into dst (zlen src) (map Some src).

  (** DenseSegment.h:299-358 [compress], Serializable types *)
  Definition buf_compress_ser (b : buf) : R buf :=
    do w <- words b ;;
    let np := b_snp b in
    let n := b_nints b in
    do parts <- mapR (fun p => collect_words w (b_value b) (part_start n np p) (part_end n np p)) (zrange 0 np) ;;
    let bytes := map enc parts in
    do nzs <- write_scan (b_nzscan b) (prefix_sums 0 (map zlen parts)) ;;
    do nbs <- write_scan (b_nbscan b) (prefix_sums 0 (map zlen bytes)) ;;
    Ok (set_ser (concat bytes) (zlen (concat bytes)) np nbs nzs b).

  Definition buf_compress (threads : Z) (b : buf) : R buf :=
    if ser then buf_compress_ser b else buf_compress_plain threads b.

  (** lines 273-277: skip forward while the index lies in word [w32] *)
  Fixpoint skip_word (fuel : nat) (idx : list (option Z)) (w32 m nnz : Z) : R Z :=
    if m <? nnz then
      do i <- rdi idx m ;;
      if Z.quot i 32 =? w32 then
        match fuel with O => Err NoFuel | S f => skip_word f idx w32 (m + 1) nnz end
      else Ok m
    else Ok m.

  (** lines 264-280: [end_nnzs] (the start of part p is the end of part p-1) *)
  Definition decomp_bounds (threads : Z) (idx : list (option Z)) (nnz : Z) : R (list Z) :=
    let np := threads in
    if np =? 0 then Err DivZero else
    let per0 := Z.quot (nnz + np - 1) np in
    let per := Z.quot (per0 + 31) 32 * 32 in
    do r <- forZ 0 np (fun p (st : Z * list Z) =>
        let '(mystart, ends) := st in
        let m := mystart + per in
        let m := if nnz <? m then nnz else m in
        do m <- (if m <? nnz then
                   do i <- rdi idx m ;; skip_word (Z.to_nat nnz) idx (Z.quot i 32) m nnz
                 else Ok m) ;;
        Ok (m, ends ++ [m])) (0, []) ;;
    Ok (snd r).

  (** one entry, lines 288-291 *)
  Definition decomp_entry (cdata : list (option T)) (cidx : list (option Z)) (i : Z)
      (wv : list Z * list (option T)) : R (list Z * list (option T)) :=
    do idx <- rdi cidx i ;;
    do w <- bv_set (fst wv) idx ;;
    do d <- rd cdata i ;;
    do v <- wr (snd wv) idx d ;;
    Ok (w, v).

  (** DenseSegment.h:258-297 [decompress], plain types *)
  Definition buf_decompress_plain (threads : Z) (b : buf) : R buf :=
    let w0 := repeat 0 (Z.to_nat (b_nints b)) in
    do ends <- decomp_bounds threads (b_cidx b) (b_nnz b) ;;
    do wv <- forZ 0 threads (fun p wv =>
        do st <- (if p =? 0 then Ok 0 else rd ends (p - 1)) ;;
        do en <- rd ends p ;;
        forZ st en (decomp_entry (b_cdata b) (b_cidx b)) wv) (w0, b_value b) ;;
    Ok (set_value (snd wv) (set_bits (fst wv) b)).

  (** DenseSegment.h:230-256 [decompress], Serializable types *)
  Definition buf_decompress_ser (b : buf) : R buf :=
    let w0 := repeat 0 (Z.to_nat (b_nints b)) in
    do wv <- forZ 0 (b_snp b) (fun p wv =>
        do b0 <- rdi (b_nbscan b) p ;;
        do b1 <- rdi (b_nbscan b) (p + 1) ;;
        do bytes <- slice (b_sdata b) b0 (b1 - b0) ;;
        do z0 <- rdi (b_nzscan b) p ;;
        do z1 <- rdi (b_nzscan b) (p + 1) ;;
        do pairs <- dec bytes (z1 - z0) ;;
        foldR (fun wv (e : Z * T) =>
          do v <- wr (snd wv) (fst e) (Some (snd e)) ;;
          do w <- bv_set (fst wv) (fst e) ;;
          Ok (w, v)) pairs wv) (w0, b_value b) ;;
    Ok (set_value (snd wv) (set_bits (fst wv) b)).

  Definition buf_decompress (threads : Z) (b : buf) : R buf :=
    if ser then buf_decompress_ser b else buf_decompress_plain threads b.

  (** DenseSegment.h:539-548 *)
  Definition seg_compress (threads : Z) (s : sg) : R sg :=
    do s <- seg_initialize (seg_alloc threads s) ;;
    do b <- prop s ;;
    match should_compress (s_cap s) (b_nnz b) with
    | NONE => Ok s
    | _ => do b' <- buf_compress threads b ;; Ok (set_prop (Some b') s)
    end.

  (** DenseSegment.h:549-557 *)
  Definition seg_decompress (threads : Z) (s : sg) : R sg :=
    match s_prop s with
    | None => Err AssertFail
    | Some b =>
      match should_compress (s_cap s) (b_nnz b) with
      | NONE => Ok s
      | _ => do b' <- buf_decompress threads b ;; Ok (set_prop (Some b') s)
      end
    end.

  (** what travels: the metadata, then the data in one of three encodings *)
  Inductive payload :=
  | PComp (d : list (option T)) (x : list (option Z))
  | PSer (d : list byte) (nz nb : list (option Z))
  | PDense (v : list (option T)) (w : list Z).

  (** DenseSegment.h:648-651 *)
  Definition seg_send_nnz (s : sg) : R send_md :=
    do b <- prop s ;; Ok (mkmd (b_nnz b) (b_snb b) (b_snp b)).

  (** DenseSegment.h:652-658: the newest is put in front *)
  Definition seg_recv_nnz_queue (m : send_md) (s : sg) : sg := set_qmd (m :: s_qmd s) s.

  (** DenseSegment.h:659-664 *)
  Definition seg_recv_nnz (threads : Z) (m : send_md) (s : sg) : sg := set_rmd m (seg_alloc threads s).

  (** DenseSegment.h:665-700 *)
  Definition seg_send_segment (s : sg) : R payload :=
    do b <- prop s ;;
    match should_compress (s_cap s) (b_nnz b) with
    | COMPRESSED =>
        do d <- send_from (b_cdata b) (b_nnz b) ;;
        do x <- send_from (b_cidx b) (b_nnz b) ;;
        Ok (PComp d x)
    | SERIALIZED =>
        do d <- send_from (b_sdata b) (b_snb b) ;;
        do nz <- send_from (b_nzscan b) (b_snp b + 1) ;;
        do nb <- send_from (b_nbscan b) (b_snp b + 1) ;;
        Ok (PSer d nz nb)
    | NONE =>
        do v <- send_from (b_value b) (s_cap s) ;;
        do w <- words b ;;
        do w <- send_from w (s_nints s) ;;
        Ok (PDense v w)
    end.

  (** DenseSegment.h:702-746; a payload in another encoding than the receiver expects is a
      message mismatch *)
  Definition recv_buffer (cap nints : Z) (m : send_md) (p : buf) (pl : payload) : R buf :=
    let p := set_ser (b_sdata p) (md_snb m) (md_snp m) (b_nbscan p) (b_nzscan p) (set_nnz (md_nnz m) p) in
    match should_compress cap (b_nnz p), pl with
    | COMPRESSED, PComp d x =>
        do d' <- recv_into (b_cdata p) (b_nnz p) d ;;
        do x' <- recv_into (b_cidx p) (b_nnz p) x ;;
        Ok (set_uninit false (set_comp d' x' p))
    | SERIALIZED, PSer d nz nb =>
        (* alloc_serialized(serialized_nbytes), then receive into it *)
        if negb (zlen d =? b_snb p) then Err OOB else
        do nz' <- recv_into (b_nzscan p) (b_snp p + 1) nz ;;
        do nb' <- recv_into (b_nbscan p) (b_snp p + 1) nb ;;
        Ok (set_uninit false (set_ser d (b_snb p) (b_snp p) nb' nz' p))
    | NONE, PDense v w =>
        do v' <- recv_into (b_value p) cap v ;;
        do w' <- (match b_bits p with
                  | Some w0 => recv_into w0 nints w
                  | None => if zlen w =? nints then Ok w else Err Uninit
                  end) ;;
        Ok (set_uninit false (set_bits w' (set_value v' p)))
    | _, _ => Err OOB
    end.

  (** DenseSegment.h:768-772 *)
  Definition seg_recv_segment (pl : payload) (s : sg) : R sg :=
    do b <- prop s ;;
    do b' <- recv_buffer (s_cap s) (s_nints s) (s_rmd s) b pl ;;
    Ok (set_prop (Some b') s).

  (** [back()] and [pop_back()] of a vector *)
  Definition pop_back {A} (l : list A) : option (A * list A) :=
    match rev l with [] => None | a :: r => Some (a, rev r) end.

  (** DenseSegment.h:748-766; popping an empty metadata queue is undefined *)
  Definition seg_recv_segment_queue (threads : Z) (pl : payload) (s : sg) : R sg :=
    let '(nb, pool) := match pop_back (s_pool s) with
                       | Some (b, r) => (b, r)
                       | None => (new_buffer threads (s_cap s) (s_nints s) (s_junk s) (s_fresh s), [])
                       end in
    match pop_back (s_qmd s) with
    | None => Err OOB
    | Some (m, q) =>
        do b' <- recv_buffer (s_cap s) (s_nints s) m nb pl ;;
        Ok (set_qmd q (set_lists (s_recv s ++ [b']) pool s))
    end.

  (** DenseSegment.h:774-791 [save], without the header: the (printed id, value) lines *)
  Definition seg_save (start_id : Z) (s : sg) : R (list (Z * option T)) :=
    forZ 0 (s_cap s) (fun i acc =>
      do b <- prop s ;;
      do w <- words b ;;
      do g <- bv_get w i ;;
      if g then do v <- rd (b_value b) i ;; Ok (acc ++ [(i + start_id, v)]) else Ok acc) [].

  (** DenseSegment.h:793-806 [get_edges]; (src, value) pairs, the caller's array has room for
      [room] edges *)
  Definition seg_get_edges (room start_nz : Z) (s : sg) : R (list (Z * option T)) :=
    forZ 0 (s_cap s) (fun i acc =>
      do b <- prop s ;;
      do w <- words b ;;
      do g <- bv_get w i ;;
      if g then
        do v <- rd (b_value b) i ;;
        if zlen acc <? room then Ok (acc ++ [(start_nz + i + 1, v)]) else Err OOB
      else Ok acc) [].
End Seg.

(** ** Merging received partial results *)
Section Union.
  Context {U byte : Type}.
  Variable ser : bool.
  Variable dec : list byte -> Z -> R (list (Z * U)).
  (** the callback [op_fp(a, b, &c)]: result of combining a and b *)
  Variable op : U -> U -> U.

  (** include/GMDP/singlenode/unionreduce.h:38-66 [union_dense], with v3 = v1 and bv3 = bv1 as
      called from DenseSegment.h:815-835 *)
  Definition union_dense (cap nints : Z) (v1 : list (option U)) (w1 : list Z) (v2 : list (option U)) (w2 : list Z)
    : R (list Z * list (option U)) :=
    do v <- forZ 0 cap (fun ii v =>
        do s1 <- bv_get w1 ii ;;
        do s2 <- bv_get w2 ii ;;
        if s1 && negb s2 then do a <- rd v ii ;; wr v ii a
        else if negb s1 && s2 then do c <- rd v2 ii ;; wr v ii c
        else if s1 && s2 then
          do a <- rdi v ii ;; do c <- rdi v2 ii ;; wr v ii (Some (op a c))
        else Ok v) v1 ;;
    do w <- forZ 0 nints (fun i w =>
        do a <- rd w i ;; do c <- rd w2 i ;; wr w i (Z.lor a c)) w1 ;;
    Ok (w, v).

  (** unionreduce.h:84-88: while index [m] lies in the same word as its predecessor, advance *)
  Fixpoint adjust (fuel : nat) (idx : list (option Z)) (m nnz : Z) : R Z :=
    if m <? nnz then
      do a <- rdi idx m ;;
      do c <- rdi idx (m - 1) ;;
      if Z.quot a 32 =? Z.quot c 32 then
        match fuel with O => Err NoFuel | S f => adjust f idx (m + 1) nnz end
      else Ok m
    else Ok m.

  (** unionreduce.h:90-105, one entry *)
  Definition union_entry (cdata : list (option U)) (cidx : list (option Z)) (i : Z)
      (wv : list Z * list (option U)) : R (list Z * list (option U)) :=
    do idx <- rdi cidx i ;;
    do g <- bv_get (fst wv) idx ;;
    if g then
      do a <- rdi (snd wv) idx ;;
      do c <- rdi cdata i ;;
      do v <- wr (snd wv) idx (Some (op a c)) ;;
      Ok (fst wv, v)
    else
      do w <- bv_set (fst wv) idx ;;
      do c <- rd cdata i ;;
      do v <- wr (snd wv) idx c ;;
      Ok (w, v).

  (** unionreduce.h:76-88: the entry range of part [p] *)
  Definition union_range (np : Z) (cidx : list (option Z)) (nnz p : Z) : R (Z * Z) :=
    let per := Z.quot (nnz + np - 1) np in
    let st := p * per in
    let en := (p + 1) * per in
    let en := if nnz <? en then nnz else en in
    do st <- (if 0 <? st then adjust (Z.to_nat nnz) cidx st nnz else Ok st) ;;
    do en <- adjust (Z.to_nat nnz) cidx en nnz ;;
    Ok (st, en).

  (** unionreduce.h:68-106 [union_compressed] *)
  Definition union_compressed (threads : Z) (cdata : list (option U)) (cidx : list (option Z)) (nnz : Z)
      (wv : list Z * list (option U)) : R (list Z * list (option U)) :=
    let np := threads * 16 in
    forZ 0 np (fun p wv =>
      do r <- union_range np cidx nnz p ;;
      forZ (fst r) (snd r) (union_entry cdata cidx) wv) wv.

  (** DenseSegment.h:808-836 [union_received].  Simplification: a received buffer that is decompressed
      here is not stored back; it is not read again before it is received into or reset *)
  Definition seg_union_received (threads : Z) (s : seg U byte) : R (seg U byte) :=
    do s <- seg_initialize (seg_alloc threads s) ;;
    do b <- prop s ;;
    do w <- words b ;;
    do wv <- foldR (fun wv (rb : buffer U byte) =>
        match should_compress ser (s_cap s) (b_nnz rb) with
        | COMPRESSED => union_compressed threads (b_cdata rb) (b_cidx rb) (b_nnz rb) wv
        | SERIALIZED =>
            do rb' <- buf_decompress ser dec threads rb ;;
            do w2 <- words rb' ;;
            union_dense (s_cap s) (s_nints s) (snd wv) (fst wv) (b_value rb') w2
        | NONE =>
            do w2 <- words rb ;;
            union_dense (s_cap s) (s_nints s) (snd wv) (fst wv) (b_value rb) w2
        end) (s_recv s) (w, b_value b) ;;
    Ok (set_prop (Some (set_value (snd wv) (set_bits (fst wv) b))) s).
End Union.
