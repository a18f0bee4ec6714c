(** Index arithmetic: vertex relabelling, segment and tile boundaries, tile-to-rank maps. *)
From Verif Require Import Base.

(** include/Graph.h:111-130 [Graph::vertexToNative].  [threads] is the member [num_threads];
    the [if (true)] is taken.  A zero divisor is an error outcome ([len / npartitions] with
    [npartitions = 0], and [v % npartitions], [v / npartitions]). *)
Definition npartitions (threads nseg : Z) : Z := threads * 16 * nseg.

Definition vertexToNative (threads nseg len vertex : Z) : R Z :=
  let v := vertex - 1 in
  let np := npartitions threads nseg in
  if np =? 0 then Err DivZero else
  let height := Z.quot len np in
  let vmax := height * np in
  if vmax <=? v then Ok (v + 1) else
  let col := Z.rem v np in
  let row := Z.quot v np in
  Ok (row + col * height + 1).

(** include/Graph.h:132-150 [Graph::nativeToVertex]; [v / height], [v % height] divide by
    [height], which is 0 when [len < npartitions]. *)
Definition nativeToVertex (threads nseg len vertex : Z) : R Z :=
  let v := vertex - 1 in
  let np := npartitions threads nseg in
  if np =? 0 then Err DivZero else
  let height := Z.quot len np in
  let vmax := height * np in
  if vmax <=? v then Ok (v + 1) else
  if height =? 0 then Err DivZero else
  let col := Z.quot v height in
  let row := Z.rem v height in
  Ok (col + row * np + 1).

(** include/GMDP/vectors/SpVec.h:77-81: block size [vx], [roundup] = 256. *)
Definition block_size (n nseg : Z) : Z :=
  Z.quot (Z.quot (n + nseg - 1) nseg + 256 - 1) 256 * 256.

(** include/GMDP/vectors/SpVec.h:87-90: [start_id], length [nseg]+1. *)
Definition starts (n nseg : Z) : list Z :=
  map (fun j => Z.min (block_size n nseg * j) n) (zrange 0 nseg) ++ [n].

(** include/GMDP/matrices/SpMat.h:291-293: [vx] (with [n], [ntiles_x]) and [vy] (with [m],
    [ntiles_y]), and SpMat.h:301-309: [start_idx], [start_idy]. *)
Definition mat_block_size (n nt : Z) : Z :=
  Z.quot (Z.quot (n + nt - 1) nt + 256 - 1) 256 * 256.
Definition mat_starts (n nt : Z) : list Z :=
  map (fun j => Z.min (mat_block_size n nt * j) n) (zrange 0 nt) ++ [n].

(** First [i] in [lo, lo+k) with [st[i] < src <= st[i+1]], -1 if none: the loop of
    SpVec.h:110-117 and of SpMat.h:78-89. *)
Fixpoint find_block (st : list Z) (src : Z) (k : nat) (i : Z) : R Z :=
  match k with
  | O => Ok (-1)
  | S k' =>
      do a <- rd st i ;;
      do b <- rd st (i + 1) ;;
      if (a <? src) && (src <=? b) then Ok i else find_block st src k' (i + 1)
  end.

(** include/GMDP/vectors/SpVec.h:110-117 [SpVec::getPartition] *)
Definition vec_getPartition (n nseg src : Z) : R Z :=
  find_block (starts n nseg) src (Z.to_nat nseg) 0.

(** include/GMDP/matrices/SpMat.h:75-95 [SpMat::getPartition]: returns (ival, jval, tile id);
    the tile id is -1 if either search fails.  [m] rows split into [nty], [n] columns into [ntx]. *)
Definition mat_getPartition (m n ntx nty src dst : Z) : R (Z * Z * Z) :=
  do i <- find_block (mat_starts m nty) src (Z.to_nat nty) 0 ;;
  do j <- find_block (mat_starts n ntx) dst (Z.to_nat ntx) 0 ;;
  if (i =? -1) || (j =? -1) then Ok (i, j, -1) else Ok (i, j, i + j * nty).

(** include/GMDP/matrices/layouts.h:39-49 [factorize_int].
    [static_cast<int>(sqrt(val) + 0.5)] is modelled as the nearest integer to the square root,
    computed exactly ([double] has enough precision for 32-bit [val]). *)
Definition round_sqrt (val : Z) : Z :=
  let s := Z.sqrt val in if s * s + s <? val then s + 1 else s.

Fixpoint factorize_loop (fuel : nat) (val r1 r2 : Z) : R (Z * Z) :=
  if r1 * r2 =? val then Ok (r1, r2) else
  match fuel with
  | O => Err NoFuel
  | S f =>
      let r1' := r1 - 1 in
      if r1' =? 0 then Err DivZero else factorize_loop f val r1' (Z.quot val r1')
  end.

Definition factorize_int (val : Z) : R (Z * Z) :=
  let s := round_sqrt val in
  if s =? 0 then Err DivZero else factorize_loop (Z.to_nat s) val s (Z.quot val s).

(** include/GMDP/matrices/layouts.h:51-57 [partition_fn_2d]; [factorize_int] is called with
    [&nrank_y] first. *)
Definition partition_fn_2d (tx ty ntx nty nrank : Z) : R Z :=
  do yx <- factorize_int nrank ;;
  let '(nrank_y, nrank_x) := yx in
  if (nrank_x =? 0) || (nrank_y =? 0) then Err DivZero else
  Ok (Z.rem ty nrank_y + Z.rem tx nrank_x * nrank_y).

(** include/GMDP/matrices/layouts.h:59-61 *)
Definition partition_fn_1d (tx ty ntx nty nrank : Z) : R Z :=
  if nrank =? 0 then Err DivZero else Ok (Z.rem ty nrank).

(** include/GMDP/matrices/layouts.h:63-65 *)
Definition vector_partition_fn (tile ntiles nrank : Z) : R Z :=
  if nrank =? 0 then Err DivZero else Ok (Z.rem tile nrank).

(** include/GMDP/matrices/layouts.h:67-91 [get_fn_and_tiles]; [true] stands for the 1D map,
    [false] for the 2D map. *)
Definition get_fn_and_tiles (layout nrank : Z) : R (bool * Z) :=
  do _ <- assertb ((layout =? 1) || (layout =? 2) || (layout =? 3)) ;;
  if layout =? 1 then Ok (true, nrank)
  else
    do yx <- factorize_int nrank ;;
    let '(nrank_y, nrank_x) := yx in
    if layout =? 2 then Ok (false, if nrank_y <? nrank_x then nrank_x else nrank_y)
    else Ok (false, nrank).

(** include/GMDP/vectors/SpVec.h:84-86: owner of each segment *)
Definition vec_nodeIds (nseg nrank : Z) : R (list Z) :=
  mapR (fun j => vector_partition_fn j nseg nrank) (zrange 0 nseg).

(** include/GMDP/matrices/SpMat.h:295-299: owners, tile (i,j) at position [i + j*nty] *)
Definition mat_nodeIds (ntx nty nrank : Z) : R (list Z) :=
  mapR (fun k => partition_fn_2d (Z.quot k nty) (Z.rem k nty) ntx nty nrank) (zrange 0 (ntx * nty)).
