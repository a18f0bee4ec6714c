(** include/GMDP/multinode/spmspv.h and spmspv3.h: distributed sparse matrix - sparse vector
    products.  A vector is the table of all ranks' segments ([rd2 v r j] = segment [j] as seen by
    rank [r]).  Each phase is modelled for all ranks at once.  A message is taken by the receiver
    from the sender's state directly; that the blocking exchange delivers exactly these messages
    and terminates is the subject of [Exchange].  Every rank runs [threads] threads. *)
From Verif Require Import Base Layout Bits Segment SegHistory Vec DCSC Kernel SpMat.

(** std::set<int>::insert (SpMat.h:404-416) on the increasing list of the elements *)
Fixpoint set_insert (x : Z) (l : list Z) : list Z :=
  match l with
  | [] => [x]
  | y :: t => if x <? y then x :: l else if x =? y then l else y :: set_insert x t
  end.
Definition set_of (l : list Z) : list Z := fold_left (fun s x => set_insert x s) l [].

(** SpMat.h:398-419 [get_row_ranks] *)
Definition row_ranks {E} (a : spmat E) (i : Z) : R (list Z) :=
  do l <- mapR (fun j => rd (mt_ids a) (i + j * mt_nty a)) (zrange 0 (mt_ntx a)) ;; Ok (set_of l).
Definition col_ranks {E} (a : spmat E) (j : Z) : R (list Z) :=
  do l <- mapR (fun i => rd (mt_ids a) (i + j * mt_nty a)) (zrange 0 (mt_nty a)) ;; Ok (set_of l).

Definition memz (x : Z) (l : list Z) : bool := existsb (Z.eqb x) l.

Section Bcast.
  Context {T byte : Type}.
  Variable ser : bool.
  Variable enc : list (Z * T) -> list byte.
  Variable dec : list byte -> Z -> R (list (Z * T)).
  Variables (nr ns threads : Z).

  (** the owner compresses once per destination (spmspv.h:61-70, spmspv3.h:64-84) *)
  Definition compress_for (o : Z) (ranks : list Z) (s : seg T byte) : R (seg T byte) :=
    foldR (fun s dst => if dst =? o then Ok s else seg_compress ser enc threads s) ranks s.

  (** spmspv.h:61-117, spmspv3.h:64-170: segment [j] goes from its owner to the other ranks of
      [ranks j] *)
  Definition bcast (ranks : Z -> R (list Z)) (v : list (list (seg T byte))) : R (list (list (seg T byte))) :=
    tab2 nr ns (fun r j =>
      do o <- vown ns nr j ;;
      do rs <- ranks j ;;
      do so <- rd2 v o j ;;
      do so <- compress_for o rs so ;;
      if r =? o then Ok so else
      do s <- rd2 v r j ;;
      if memz r rs then
        do md <- seg_send_nnz so ;;
        do pl <- seg_send_segment ser so ;;
        do s <- seg_recv_segment ser pl (seg_recv_nnz threads md s) ;;
        seg_decompress ser dec threads s
      else Ok s).

  (** spmspv.h:139-143: drop the copies on ranks that are not the owner *)
  Definition drop_copies (v : list (list (seg T byte))) : R (list (list (seg T byte))) :=
    tab2 nr ns (fun r j =>
      do o <- vown ns nr j ;;
      do s <- rd2 v r j ;;
      if r =? o then Ok s else Ok (seg_set_uninitialized s)).

  (** spmspv.h:145-205: the owner of segment [i] gathers the partial results of the other ranks of
      [ranks i] in increasing rank order; the others drop theirs *)
  Definition reduce_rows (op : T -> T -> T) (ranks : Z -> R (list Z)) (v : list (list (seg T byte))) : R (list (list (seg T byte))) :=
    tab2 nr ns (fun r i =>
      do o <- vown ns nr i ;;
      do rs <- ranks i ;;
      do s <- rd2 v r i ;;
      if r =? o then
        do cs <- mapR (fun src => do c <- rd2 v src i ;; Ok (threads, c)) (filter (fun src => negb (src =? o)) rs) ;;
        gather ser enc dec op threads cs s
      else
        do s <- (if memz r rs then seg_compress ser enc threads s else Ok s) ;;
        Ok (seg_set_uninitialized s)).
End Bcast.

Section SpMSpV.
  Context {E T V U byte : Type}.
  Variables (sert serv seru : bool).
  Variables (enct : list (Z * T) -> list byte) (dect : list byte -> Z -> R (list (Z * T))).
  Variables (encv : list (Z * V) -> list byte) (decv : list byte -> Z -> R (list (Z * V))).
  Variables (encu : list (Z * U) -> list byte) (decu : list byte -> Z -> R (list (Z * U))).
  Variables (nr threads : Z).
  Variable add : U -> U -> U.
  Notation vec A := (list (list (seg A byte))).

  (** spmspv.h:123-132, spmspv3.h:176-185: rank [r] multiplies its tiles into its segments of
      [y]; [f r i j] multiplies tile (i, j) into segment [i] on rank [r].  The loop over [i] is
      split by result segment. *)
  Definition mult_tiles (a : spmat E) (f : Z -> Z -> Z -> dcsc E -> seg U byte -> R (seg U byte)) (y : vec U) : R (vec U) :=
    tab2 nr (mt_nty a) (fun r i =>
      do s <- rd2 y r i ;;
      forZ 0 (mt_ntx a) (fun j s =>
        do o <- rd (mt_ids a) (i + j * mt_nty a) ;;
        if o =? r then do t <- mat_tile_ptr a r i j ;; f r i j t s else Ok s) s).

  (** spmspv.h:41-206 *)
  Definition spmspv (mul : E -> T -> U) (a : spmat E) (x : vec T) (y : vec U) : R (vec T * vec U) :=
    do x <- bcast sert enct dect nr (mt_ntx a) threads (col_ranks a) x ;;
    do y <- mult_tiles a (fun r i j t s => do xs <- rd2 x r j ;; mult_segment add threads mul t xs s) y ;;
    do x <- drop_copies nr (mt_ntx a) x ;;
    do y <- reduce_rows seru encu decu nr (mt_nty a) threads add (row_ranks a) y ;;
    Ok (x, y).

  (** spmspv3.h:41-265; the property vector is sent along rows *)
  Definition spmspv3 (mul : E -> T -> V -> U) (a : spmat E) (x : vec T) (vp : vec V) (y : vec U) : R (vec T * vec V * vec U) :=
    do x <- bcast sert enct dect nr (mt_ntx a) threads (col_ranks a) x ;;
    do vp <- bcast serv encv decv nr (mt_nty a) threads (row_ranks a) vp ;;
    do y <- mult_tiles a (fun r i j t s => do xs <- rd2 x r j ;; do vs <- rd2 vp r i ;; mult_segment3 add threads mul t xs vs s) y ;;
    do x <- drop_copies nr (mt_ntx a) x ;;
    do vp <- drop_copies nr (mt_nty a) vp ;;
    do y <- reduce_rows seru encu decu nr (mt_nty a) threads add (row_ranks a) y ;;
    Ok (x, vp, y).
End SpMSpV.
