(** include/GMDP/matrices/DCSCTile.h: the sparse tile used by graphs.  [int] is unbounded here.
    Every parallel loop of the constructor is run in index order: its iterations write to
    different array elements. *)
From Verif Require Import Base Bits Segment.

(** include/GMDP/utils/edgelist.h:38-50 [edge_t] *)
Record edge (E : Type) := mkE { e_src : Z; e_dst : Z; e_val : E }.
Arguments mkE {E}. Arguments e_src {E}. Arguments e_dst {E}. Arguments e_val {E}.
(** edgelist.h:80-86 [tedge_t]: tile id and edge *)
Notation tedge E := (Z * edge E)%type.

(** DCSCTile.h:41-58 *)
Definition compare_dcsc {E} (a b : tedge E) : bool :=
  if fst a <? fst b then true else if fst b <? fst a then false else
  if e_dst (snd a) <? e_dst (snd b) then true else if e_dst (snd b) <? e_dst (snd a) then false else
  if e_src (snd a) <? e_src (snd b) then true else if e_src (snd b) <? e_src (snd a) then false else
  false.

(** DCSCTile.h:62-77.  Arrays of a tile with [t_nnz <= 0] are never allocated ([[]] here); the
    constructors for such a tile leave [num_cols] unset, [t_num_cols] is then arbitrary.  The
    [name] is left out. *)
Record dcsc (E : Type) := mkT {
  t_nnz : Z; t_m : Z; t_n : Z; t_num_cols : Z; t_np : Z;
  t_vals : list E; t_row_inds : list Z; t_row_ptrs : list Z; t_edge_ptrs : list Z;
  t_col_starts : list Z; t_col_ptrs : list Z; t_col_idx : list Z }.
Arguments mkT {E}. Arguments t_nnz {E}. Arguments t_m {E}. Arguments t_n {E}. Arguments t_num_cols {E}. Arguments t_np {E}.
Arguments t_vals {E}. Arguments t_row_inds {E}. Arguments t_row_ptrs {E}. Arguments t_edge_ptrs {E}.
Arguments t_col_starts {E}. Arguments t_col_ptrs {E}. Arguments t_col_idx {E}.

(** DCSCTile.h:185-220.  [m / round], [/ num_partitions]: division by zero is an error *)
Definition static_partition (m np round : Z) : R (list Z) :=
  if (np =? 0) || (round =? 0) then Err DivZero else
  if round =? 1 then
    let rpp := Z.quot m np in
    do rp <- wr (repeat None (Z.to_nat (np + 1))) 0 (Some 0) ;;
    do st <- forZ 1 (np + 1) (fun p (st : list (option Z) * Z * Z) =>
        let '(rp, cur, rest) := st in
        if 0 <? rest then
          do rp <- wr rp p (Some (cur + 1)) ;; Ok (rp, cur + 1 + rpp, rest - 1)
        else
          do rp <- wr rp p (Some cur) ;; Ok (rp, cur + rpp, rest)) (rp, rpp, Z.rem m np) ;;
    mapR need (fst (fst st))
  else
    let n512 := Z.max (Z.quot (Z.quot m round) np) 1 in
    let n_round := Z.max 0 (Z.quot m round - n512 * np) in
    do _ <- assertb (n_round <? np) ;;
    do rp <- wr (repeat None (Z.to_nat (np + 1))) 0 (Some 0) ;;
    do st <- forZ 1 np (fun p (st : list (option Z) * Z) =>
        do prev <- rd (fst st) (p - 1) ;;
        do prev <- need prev ;;
        do rp <- wr (fst st) p (Some (prev + (if 0 <? snd st then (n512 + 1) * round else n512 * round))) ;;
        do cur <- rd rp p ;;
        do cur <- need cur ;;
        do rp <- wr rp p (Some (Z.min cur m)) ;;
        Ok (rp, if 0 <? snd st then snd st - 1 else snd st)) (rp, n_round) ;;
    do rp <- wr (fst st) np (Some m) ;;
    mapR need rp.

(** DCSCTile.h:266-280: the search for the partition of row [src].  The midpoint is
    [p_start + (p_end - p_start)], i.e. [p_end]. *)
Fixpoint find_partition (fuel : nat) (rp : list Z) (src p_start p_end : Z) : R Z :=
  match fuel with
  | O => Err NoFuel
  | S fuel =>
    let p_half := p_start + (p_end - p_start) in
    do a <- rd rp p_half ;;
    if a <=? src then
      do b <- rd rp (p_half + 1) ;;
      if src <? b then Ok p_half
      else find_partition fuel rp src (p_half + 1) p_end
    else
      do b <- rd rp (p_half + 1) ;;
      find_partition fuel rp src (if b <=? src then p_half + 1 else p_start) (p_half - 1)
  end.

(** DCSCTile.h:222-239: the inner [while] *)
Fixpoint advance (fuel : nat) (rp : list Z) (src edge_id : Z) (st : list (option Z) * Z) : R (list (option Z) * Z) :=
  match fuel with
  | O => Err NoFuel
  | S fuel =>
    let '(ep, p) := st in
    do a <- rd rp p ;;
    if a <=? src then
      do ep <- wr ep p (Some edge_id) ;;
      advance fuel rp src edge_id (ep, p + 1)
    else Ok (ep, p)
  end.
Definition set_edge_pointers {E} (edges : list (tedge E)) (rp : list Z) (nnz np : Z) : R (list Z) :=
  do st <- forZ 0 nnz (fun edge_id st =>
      do e <- rd edges edge_id ;;
      advance (Z.to_nat (np + 2)) rp (e_src (snd e)) edge_id st) (repeat None (Z.to_nat (np + 1)), 0) ;;
  do ep <- wr (fst st) (snd st) (Some nnz) ;;
  do ep <- forZ (snd st + 1) (np + 1) (fun p ep => wr ep p (Some nnz)) ep ;;
  mapR need ep.

(** DCSCTile.h:314-325: number of columns of partition [p] *)
Definition count_columns {E} (edges : list (tedge E)) (ep : list Z) (p : Z) : R Z :=
  do a <- rd ep p ;; do b <- rd ep (p + 1) ;;
  do st <- forZ a b (fun edge_id (st : Z * Z) =>
      do e <- rd edges edge_id ;;
      if fst st <? e_dst (snd e) then Ok (e_dst (snd e), snd st + 1) else Ok st) (-1, 0) ;;
  Ok (snd st).

(** the four arrays filled by DCSCTile.h:348-372 *)
Record arrays (E : Type) := mkA { a_vals : list (option E); a_rows : list (option Z); a_idx : list (option Z); a_ptrs : list (option Z) }.
Arguments mkA {E}. Arguments a_vals {E}. Arguments a_rows {E}. Arguments a_idx {E}. Arguments a_ptrs {E}.

(** DCSCTile.h:348-372: partition [p] *)
Definition build_partition {E} (edges : list (tedge E)) (ep cs : list Z) (n p : Z) (ar : arrays E) : R (arrays E) :=
  do a <- rd ep p ;; do b <- rd ep (p + 1) ;;
  do c <- rd cs p ;; do c' <- rd cs (p + 1) ;;
  do st <- forZ a b (fun edge_id (st : arrays E * Z * Z) =>
      let '(ar, cur, num) := st in
      do e <- rd edges edge_id ;;
      do vals <- wr (a_vals ar) (a + (edge_id - a)) (Some (e_val (snd e))) ;;
      do rows <- wr (a_rows ar) (a + (edge_id - a)) (Some (e_src (snd e))) ;;
      if cur <? e_dst (snd e) then
        do idx <- wr (a_idx ar) (c + (num + 1)) (Some (e_dst (snd e))) ;;
        do ptrs <- wr (a_ptrs ar) (c + (num + 1)) (Some (edge_id - a)) ;;
        Ok (mkA vals rows idx ptrs, e_dst (snd e), num + 1)
      else Ok (mkA vals rows (a_idx ar) (a_ptrs ar), cur, num)) (ar, -1, -1) ;;
  let ar := fst (fst st) in
  let num_columns := c' - c - 1 in
  do ptrs <- wr (a_ptrs ar) (c + num_columns) (Some (b - a)) ;;
  do idx <- wr (a_idx ar) (c + num_columns) (Some (n + 1)) ;;
  Ok (mkA (a_vals ar) (a_rows ar) idx ptrs).

Section Build.
  Context {E : Type}.
  (** [__gnu_parallel::sort] with [compare_dcsc] (line 298); only its specification is used *)
  Variable srt : list (tedge E) -> list (tedge E).

  (** DCSCTile.h:181-183: empty tile *)
  Definition dcsc_empty (m n junk : Z) : dcsc E := mkT 0 m n junk 0 [] [] [] [] [] [] [].

  (** DCSCTile.h:241-381.  [threads] = omp_get_max_threads(), [edges] the first [nnz] elements *)
  Definition dcsc_new (threads : Z) (edges : list (edge E)) (m n row_start col_start junk : Z) : R (dcsc E) :=
    let nnz := zlen edges in
    if 0 <? nnz then
      let np := threads * 16 in
      do rp <- static_partition m np 32 ;;
      do p_edges <- mapR (fun e =>
          let src := e_src e - 1 - row_start in
          do p <- find_partition (Z.to_nat (np + 1)) rp src 0 (np - 1) ;;
          do _ <- assertb (0 <=? p) ;;
          Ok (p, mkE src (e_dst e - 1 - col_start) (e_val e))) edges ;;
      do _ <- mapR (fun e : tedge E => assertb ((0 <=? e_src (snd e)) && (0 <=? e_dst (snd e)) && (e_src (snd e) <? m) && (e_dst (snd e) <? n))) p_edges ;;
      let p_edges := srt p_edges in
      do ep <- set_edge_pointers p_edges rp nnz np ;;
      do ncols <- mapR (count_columns p_edges ep) (zrange 0 np) ;;
      let cs := prefix_sums 0 (map (fun k => k + 1) ncols) in
      do num_cols <- rd cs np ;;
      do ar <- forZ 0 np (build_partition p_edges ep cs n)
        (mkA (repeat None (Z.to_nat nnz)) (repeat None (Z.to_nat nnz)) (repeat None (Z.to_nat num_cols)) (repeat None (Z.to_nat num_cols))) ;;
      do vals <- mapR need (a_vals ar) ;; do rows <- mapR need (a_rows ar) ;;
      do idx <- mapR need (a_idx ar) ;; do ptrs <- mapR need (a_ptrs ar) ;;
      Ok (mkT nnz m n num_cols np vals rows rp ep cs ptrs idx)
    else Ok (mkT nnz m n junk 0 [] [] [] [] [] [] []).

  (** DCSCTile.h:383-399: [room] is the number of edges that fit in the caller's array *)
  Definition dcsc_get_edges (t : dcsc E) (room row_start col_start : Z) : R (list (edge E)) :=
    do out <- forZ 0 (t_np t) (fun p out =>
        do c <- rd (t_col_starts t) p ;; do c' <- rd (t_col_starts t) (p + 1) ;;
        forZ 0 (c' - c - 1) (fun j out =>
          do ci <- rd (t_col_idx t) (c + j) ;;
          do lo <- rd (t_col_ptrs t) (c + j) ;; do hi <- rd (t_col_ptrs t) (c + j + 1) ;;
          forZ lo hi (fun nz out =>
            do a <- rd (t_edge_ptrs t) p ;;
            do row <- rd (t_row_inds t) (a + nz) ;;
            do v <- rd (t_vals t) (a + nz) ;;
            if zlen out <? room then Ok (out ++ [mkE (row_start + row + 1) (col_start + ci + 1) v]) else Err OOB) out) out) [] ;;
    do _ <- assertb (zlen out =? t_nnz t) ;;
    Ok out.
End Build.

(** Archive items: what boost::serialization is asked to write and read, in order. *)
Inductive item (E : Type) := IInt (z : Z) | IVal (v : E).
Arguments IInt {E}. Arguments IVal {E}.
Section Archive.
  Context {E : Type}.
  (** DCSCTile.h:81-119 *)
  Definition dcsc_save (t : dcsc E) : R (list (item E)) :=
    let header := [IInt (t_nnz t); IInt (t_m t); IInt (t_n t); IInt (t_num_cols t); IInt (t_np t)] in
    if 0 <? t_nnz t then
      do vals <- mapR (rd (t_vals t)) (zrange 0 (t_nnz t)) ;;
      do rows <- mapR (rd (t_row_inds t)) (zrange 0 (t_nnz t)) ;;
      do rp <- mapR (rd (t_row_ptrs t)) (zrange 0 (t_np t + 1)) ;;
      do ep <- mapR (rd (t_edge_ptrs t)) (zrange 0 (t_np t + 1)) ;;
      do cs <- mapR (rd (t_col_starts t)) (zrange 0 (t_np t + 1)) ;;
      do k <- rd (t_col_starts t) (t_np t) ;;
      do ptrs <- mapR (rd (t_col_ptrs t)) (zrange 0 k) ;;
      do idx <- mapR (rd (t_col_idx t)) (zrange 0 k) ;;
      Ok (header ++ map IVal vals ++ map IInt rows ++ map IInt rp ++ map IInt ep ++ map IInt cs ++ map IInt ptrs ++ map IInt idx)
    else Ok header.

  (** reading one integer / value; a mismatch or the end of the archive is an error *)
  Definition get_int (ar : list (item E)) : R (Z * list (item E)) :=
    match ar with IInt z :: t => Ok (z, t) | _ => Err Uninit end.
  Definition get_val (ar : list (item E)) : R (E * list (item E)) :=
    match ar with IVal v :: t => Ok (v, t) | _ => Err Uninit end.
  Fixpoint get_many {A} (get : list (item E) -> R (A * list (item E))) (k : nat) (ar : list (item E)) : R (list A * list (item E)) :=
    match k with
    | O => Ok ([], ar)
    | S k => do r <- get ar ;; do r' <- get_many get k (snd r) ;; Ok (fst r :: fst r', snd r')
    end.
  (** DCSCTile.h:121-178: the arrays are allocated with the sizes read, then filled *)
  Definition dcsc_load (ar : list (item E)) : R (dcsc E * list (item E)) :=
    do r <- get_int ar ;; let '(nnz, ar) := r in
    do r <- get_int ar ;; let '(m, ar) := r in
    do r <- get_int ar ;; let '(n, ar) := r in
    do r <- get_int ar ;; let '(num_cols, ar) := r in
    do r <- get_int ar ;; let '(np, ar) := r in
    if 0 <? nnz then
      do r <- get_many get_val (Z.to_nat nnz) ar ;; let '(vals, ar) := r in
      do r <- get_many get_int (Z.to_nat nnz) ar ;; let '(rows, ar) := r in
      do r <- get_many get_int (Z.to_nat (np + 1)) ar ;; let '(rp, ar) := r in
      do r <- get_many get_int (Z.to_nat (np + 1)) ar ;; let '(ep, ar) := r in
      do r <- get_many get_int (Z.to_nat (np + 1)) ar ;; let '(cs, ar) := r in
      do r <- get_many get_int (Z.to_nat num_cols) ar ;; let '(ptrs, ar) := r in
      do r <- get_many get_int (Z.to_nat num_cols) ar ;; let '(idx, ar) := r in
      Ok (mkT nnz m n num_cols np vals rows rp ep cs ptrs idx, ar)
    else Ok (mkT nnz m n num_cols np [] [] [] [] [] [] [], ar).
End Archive.
