(** The index arithmetic of the library in C's [int]: 32 bits with undefined overflow.  Every definition
    here is the version with checked operations of a definition that the rest of the model has in [Z]; [None]: an
    operation overflows or divides by zero. *)
From Verif Require Import Base Segment Layout DCSC.

Definition int_max : Z := 2 ^ 31 - 1.
Definition int_min : Z := - 2 ^ 31.
(** the value of an [int] expression *)
Definition chk (x : Z) : option Z := if (int_min <=? x) && (x <=? int_max) then Some x else None.
Definition obind {A B} (x : option A) (f : A -> option B) : option B := match x with Some a => f a | None => None end.
Notation "'int' x <- e ;; k" := (obind e (fun x => k)) (at level 200, x pattern, e at level 100, k at level 200, right associativity).
Definition iadd (a b : Z) : option Z := chk (a + b).
Definition isub (a b : Z) : option Z := chk (a - b).
Definition imul (a b : Z) : option Z := chk (a * b).
Definition idiv (a b : Z) : option Z := if b =? 0 then None else chk (Z.quot a b).
Definition imod (a b : Z) : option Z := if b =? 0 then None else int _ <- chk (Z.quot a b) ;; chk (Z.rem a b).
Fixpoint mapO {A B} (f : A -> option B) (l : list A) : option (list B) :=
  match l with [] => Some [] | a :: l => int b <- f a ;; int bs <- mapO f l ;; Some (b :: bs) end.
(** a 64-bit unsigned value passed as an [int] argument *)
Definition as_int (x : Z) : Z := (x + 2 ^ 31) mod 2 ^ 32 - 2 ^ 31.

(** include/Graph.h:111-130 *)
Definition vertexToNative_c (threads nseg len vertex : Z) : option Z :=
  int v <- isub vertex 1 ;;
  int t <- imul threads 16 ;; int np <- imul t nseg ;;
  int height <- idiv len np ;;
  int vmax <- imul height np ;;
  if vmax <=? v then iadd v 1 else
  int col <- imod v np ;;
  int row <- idiv v np ;;
  int x <- imul col height ;; int y <- iadd row x ;; iadd y 1.
(** include/Graph.h:132-150 *)
Definition nativeToVertex_c (threads nseg len vertex : Z) : option Z :=
  int v <- isub vertex 1 ;;
  int t <- imul threads 16 ;; int np <- imul t nseg ;;
  int height <- idiv len np ;;
  int vmax <- imul height np ;;
  if vmax <=? v then iadd v 1 else
  int col <- idiv v height ;;
  int row <- imod v height ;;
  int x <- imul row np ;; int y <- iadd col x ;; iadd y 1.

(** include/GMDP/vectors/SpVec.h:76-91 and include/GMDP/matrices/SpMat.h:290-310: where the segments or
    tiles start *)
Definition starts_c (n k : Z) : option (list Z) :=
  int a <- iadd n k ;; int b <- isub a 1 ;; int q <- idiv b k ;;
  int c <- iadd q 256 ;; int d <- isub c 1 ;; int e <- idiv d 256 ;;
  int vx <- imul e 256 ;;
  int l <- mapO (fun j => int x <- imul vx j ;; Some (Z.min x n)) (zrange 0 k) ;;
  Some (l ++ [n]).
(** SpMat.h:94: the number of a tile *)
Definition tile_id_c (i j nty : Z) : option Z := int x <- imul j nty ;; iadd i x.

(** include/GMDP/matrices/DCSCTile.h:206-219, with an array like [static_partition] in DCSC.v; an overflow is
    some error *)
Definition ovf {A} (x : option A) : R A := match x with Some a => Ok a | None => Err AssertFail end.
Definition static_partition_c (m np round : Z) : R (list Z) :=
  do q <- ovf (idiv m round) ;; do r <- ovf (idiv q np) ;;
  let n512 := Z.max r 1 in
  do a <- ovf (imul n512 np) ;; do b <- ovf (isub q a) ;;
  let n_round := Z.max 0 b in
  do _ <- assertb (n_round <? np) ;;
  do rp <- wr (repeat None (Z.to_nat (np + 1))) 0 (Some 0) ;;
  do st <- forZ 1 np (fun p (st : list (option Z) * Z) =>
      do prev <- rd (fst st) (p - 1) ;;
      do prev <- need prev ;;
      do step <- ovf (if 0 <? snd st then int c <- iadd n512 1 ;; imul c round else imul n512 round) ;;
      do x <- ovf (iadd prev step) ;;
      do rp <- wr (fst st) p (Some x) ;;
      do cur <- rd rp p ;;
      do cur <- need cur ;;
      do rp <- wr rp p (Some (Z.min cur m)) ;;
      Ok (rp, if 0 <? snd st then snd st - 1 else snd st)) (rp, n_round) ;;
  do rp <- wr (fst st) np (Some m) ;;
  mapR need rp.

(** include/GMDP/vectors/DenseSegment.h:310-313, 369-372, 388-391: the words of partition [p], and
    include/GMDP/singlenode/reduce.h:62-66: the elements of thread [p] *)
Definition part_bounds_c (n np p : Z) : option (Z * Z) :=
  int a <- iadd n np ;; int b <- isub a 1 ;; int per <- idiv b np ;;
  int start <- imul per p ;;
  int p1 <- iadd p 1 ;; int e <- imul per p1 ;;
  Some (start, if n <? e then n else e).
(** DenseSegment.h:397: the elements of word [ii] *)
Definition word_bounds_c (ii : Z) : option (Z * Z) :=
  int a <- imul ii 32 ;; int i1 <- iadd ii 1 ;; int b <- imul i1 32 ;; Some (a, b).

(** DCSCTile.h:330-336: col_starts from ncols *)
Fixpoint col_starts_c (total : Z) (ncols : list Z) : option (list Z) :=
  match ncols with
  | [] => Some [total]
  | k :: ncols => int k1 <- iadd k 1 ;; int t <- iadd total k1 ;; int l <- col_starts_c t ncols ;; Some (total :: l)
  end.
(** DCSCTile.h:259-260: an edge with coordinates relative to the tile; DCSCTile.h:373: the column number after the last *)
Definition local_edge_c {E} (rs cs : Z) (e : edge E) : option (edge E) :=
  int a <- isub (e_src e) 1 ;; int s <- isub a rs ;; int b <- isub (e_dst e) 1 ;; int d <- isub b cs ;; Some (mkE s d (e_val e)).
Definition last_column_c (n : Z) : option Z := iadd n 1.
(** DCSCTile.h:264-285: the search for the partition of a row *)
Fixpoint find_partition_c (fuel : nat) (rp : list Z) (src p_start p_end : Z) : option Z :=
  match fuel with
  | O => None
  | S fuel =>
    int d <- isub p_end p_start ;; int p_half <- iadd p_start d ;;
    match rd rp p_half with
    | Err _ => None
    | Ok a =>
      int p1 <- iadd p_half 1 ;;
      match rd rp p1 with
      | Err _ => None
      | Ok b =>
        if a <=? src then
          if src <? b then Some p_half else find_partition_c fuel rp src p1 p_end
        else int pm <- isub p_half 1 ;; find_partition_c fuel rp src (if b <=? src then p1 else p_start) pm
      end
    end
  end.

(** SpMat.h:378-395 [getNNZ] on rank [r]: the sum over the tiles of the rank is a [uint64_t], but the reduction
    works on its lower half as an [int] (sums of [MPI_INT] taken modulo 2^32, little endian) *)
Definition reported_nnz (locals : list Z) (local : Z) : Z :=
  local / 2 ^ 32 * 2 ^ 32 + fold_left Z.add (map (fun x => x mod 2 ^ 32) locals) 0 mod 2 ^ 32.

(** DenseSegment.h:670-672, 693-695: the byte counts handed to [MPI_Isend] for a plain type of [sz] bytes;
    the products are [size_t] *)
Definition packed_counts (sz nnz : Z) : Z * Z := (as_int (nnz * sz), as_int (nnz * 4)).
Definition dense_counts (sz cap nints : Z) : Z * Z := (as_int (cap * sz), as_int (nints * 4)).
(** SpVec.h:207-208, 222-223 *)
Definition edge_counts (esz count : Z) : Z := as_int (esz * count).
(** SpMat.h:199-209: counted in edges *)
Definition tile_edge_counts (count : Z) : Z := as_int count.

(** include/GMDP/utils/edgelist_transformation.h:398-402: the number of edges and the last position written *)
Definition bidirectional_c (nnz : Z) : option (Z * list (Z * Z)) :=
  int n2 <- imul nnz 2 ;;
  int l <- mapO (fun i => int a <- imul 2 i ;; int b <- iadd a 1 ;; Some (a, b)) (zrange 0 nnz) ;;
  Some (n2, l).
