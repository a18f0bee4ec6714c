(** The communication of each rank, as the list of MPI operations it makes, function by function.
    Buffers are not modelled here (Segment.v, SpMSpV.v, Vec.v, SpMat.v say what is sent); a message is
    known by what it is about. *)
From Verif Require Import Base SpMSpV Mpi.

(** [x]: number of the exchange in the run; which vector; the message with the counts or the
    [part]-th message with the contents; the segment (for the exchange of edges: 0) *)
Inductive which := OfX | OfVp | OfY | OfResult | OfEdges.
Inductive what := Counts | Contents (part : nat).
Definition label := (nat * which * what * Z)%type.

(** How a matrix is laid out: SpMat.h:50-60 [ntiles_x], [ntiles_y], [nodeIds]; and the owner of each
    vector segment (SpVec.h [nodeIds]). *)
Record layout := mkLay { ly_ntx : Z; ly_nty : Z; ly_tile : Z -> Z -> Z; ly_own : Z -> Z }.

Section Exchange.
  Variable nr : Z.

  Section Layout.
    Variable y : layout.
    (** SpMat.h:398-419, applyedges.h:60-72 *)
    Definition rows (i : Z) : list Z := set_of (map (fun j => ly_tile y i j) (zrange 0 (ly_ntx y))).
    Definition cols (j : Z) : list Z := set_of (map (fun i => ly_tile y i j) (zrange 0 (ly_nty y))).
    Definition rowcols (j : Z) : list Z := set_of (rows j ++ cols j).
  End Layout.

  (** DenseSegment.h:648-664 [send_nnz], [recv_nnz], [recv_nnz_queue] *)
  Definition send_nnz (d : Z) (l : label) : list (op label) := [Snd d 0 l; SndWait d 0].
  Definition recv_nnz (s : Z) (l : label) : list (op label) := [Rcv s 0 l; RcvWait s 0].
  (** DenseSegment.h:665-786 [send_segment], [recv_segment], [recv_segment_queue]: two or three
      messages, depending on the counts, which both sides have *)
  Definition send_segment (parts : nat) (d : Z) (l : nat -> label) : list (op label) := map (fun k => Snd d 0 (l k)) (seq 0 parts).
  Definition recv_segment (parts : nat) (s : Z) (l : nat -> label) : list (op label) := map (fun k => Rcv s 0 (l k)) (seq 0 parts).

  Section Loops.
    (** [own]: owner of a segment; [ranks]: the ranks it goes to or comes from; [ns] segments;
        [parts j p]: in how many messages rank [p] sends segment [j]; [r]: this rank *)
    Variables (x : nat) (w : which) (own : Z -> Z) (ranks : Z -> list Z) (ns : Z) (parts : Z -> Z -> nat) (r : Z).
    (** spmspv.h:74-87, spmspv3.h:87-115, applyedges.h:94-106 *)
    Definition bcast_counts : list (op label) :=
      flat_map (fun j => flat_map (fun dst =>
        (if (r =? own j) && negb (r =? dst) then send_nnz dst (x, w, Counts, j) else []) ++
        (if (r =? dst) && negb (r =? own j) then recv_nnz (own j) (x, w, Counts, j) else [])) (ranks j)) (zrange 0 ns).
    (** spmspv.h:89-101, spmspv3.h:118-144, applyedges.h:108-118 *)
    Definition bcast_contents : list (op label) :=
      flat_map (fun j => flat_map (fun dst =>
        (if (r =? own j) && negb (r =? dst) then send_segment (parts j (own j)) dst (fun k => (x, w, Contents k, j)) else []) ++
        (if (r =? dst) && negb (r =? own j) then recv_segment (parts j (own j)) (own j) (fun k => (x, w, Contents k, j)) else [])) (ranks j)) (zrange 0 ns).
    (** spmspv.h:157-170, spmspv3.h:217-230 *)
    Definition reduce_counts : list (op label) :=
      flat_map (fun i => flat_map (fun src =>
        (if (r =? own i) && negb (r =? src) then recv_nnz src (x, w, Counts, i) else []) ++
        (if negb (r =? own i) && (r =? src) then send_nnz (own i) (x, w, Counts, i) else [])) (ranks i)) (zrange 0 ns).
    (** spmspv.h:172-183, spmspv3.h:232-243 *)
    Definition reduce_contents : list (op label) :=
      flat_map (fun i => flat_map (fun src =>
        (if (r =? own i) && negb (r =? src) then recv_segment (parts i src) src (fun k => (x, w, Contents k, i)) else []) ++
        (if negb (r =? own i) && (r =? src) then send_segment (parts i src) (own i) (fun k => (x, w, Contents k, i)) else [])) (ranks i)) (zrange 0 ns).
  End Loops.

  (** What the ranks do together. *)
  Inductive exchange :=
  | XMult (y : layout) (px py : Z -> Z -> nat)          (* SpMSpV *)
  | XMult3 (y : layout) (px pvp py : Z -> Z -> nat)     (* SpMSpV3 *)
  | XEdges (y : layout) (pvp : Z -> Z -> nat)           (* ApplyEdges *)
  | XReduce                                             (* MapReduce *)
  | XShuffle                                            (* exchange of edges *)
  | XCollective.                                        (* MPI_Barrier, MPI_Bcast, MPI_Allreduce *)

  (** multinode/spmspv.h:41-206 *)
  Definition mult_ops (x : nat) (y : layout) px py (r : Z) : list (op label) :=
    bcast_counts x OfX (ly_own y) (cols y) (ly_ntx y) r ++
    bcast_contents x OfX (ly_own y) (cols y) (ly_ntx y) px r ++ [WaitAll] ++
    reduce_counts x OfY (ly_own y) (rows y) (ly_nty y) r ++
    reduce_contents x OfY (ly_own y) (rows y) (ly_nty y) py r ++ [WaitAll].
  (** multinode/spmspv3.h:41-265 *)
  Definition mult3_ops (x : nat) (y : layout) px pvp py (r : Z) : list (op label) :=
    bcast_counts x OfX (ly_own y) (cols y) (ly_ntx y) r ++
    bcast_counts x OfVp (ly_own y) (rows y) (ly_nty y) r ++
    bcast_contents x OfX (ly_own y) (cols y) (ly_ntx y) px r ++
    bcast_contents x OfVp (ly_own y) (rows y) (ly_nty y) pvp r ++ [WaitAll] ++
    reduce_counts x OfY (ly_own y) (rows y) (ly_nty y) r ++
    reduce_contents x OfY (ly_own y) (rows y) (ly_nty y) py r ++ [WaitAll].
  (** multinode/applyedges.h:45-161 *)
  Definition edges_ops (x : nat) (y : layout) pvp (r : Z) : list (op label) :=
    bcast_counts x OfVp (ly_own y) (rowcols y) (ly_ntx y) r ++
    bcast_contents x OfVp (ly_own y) (rowcols y) (ly_ntx y) pvp r ++ [WaitAll].
  (** multinode/reduce.h:55-73 *)
  Definition reduce_ops (x : nat) (r : Z) : list (op label) :=
    flat_map (fun i => if r =? i then [Snd 0 0 (x, OfResult, Counts, i); SndWait 0 0] else []) (zrange 1 nr) ++
    flat_map (fun i => if r =? 0 then [Rcv i 0 (x, OfResult, Counts, i); RcvWait i 0] else []) (zrange 1 nr) ++ [Enter; Leave].
  (** SpVec.h:169-248, SpMat.h:167-210, edgelist_transformation.h:173-213 and 322-362 *)
  Definition shuffle_ops (x : nat) (r : Z) : list (op label) :=
    [Enter; Leave] ++
    map (fun i => Snd i r (x, OfEdges, Counts, 0)) (zrange 0 nr) ++ map (fun i => Rcv i i (x, OfEdges, Counts, 0)) (zrange 0 nr) ++ [WaitAll; Enter; Leave] ++
    map (fun i => Snd i r (x, OfEdges, Contents 0, 0)) (zrange 0 nr) ++ map (fun i => Rcv i i (x, OfEdges, Contents 0, 0)) (zrange 0 nr) ++ [WaitAll; Enter; Leave].

  Definition exchange_ops (x : nat) (e : exchange) (r : Z) : list (op label) :=
    match e with
    | XMult y px py => mult_ops x y px py r
    | XMult3 y px pvp py => mult3_ops x y px pvp py r
    | XEdges y pvp => edges_ops x y pvp r
    | XReduce => reduce_ops x r
    | XShuffle => shuffle_ops x r
    | XCollective => [Enter; Leave]
    end.
  (** one exchange after the other, numbered from [x] *)
  Fixpoint all_ops (x : nat) (es : list exchange) (r : Z) : list (op label) :=
    match es with [] => [] | e :: es => exchange_ops x e r ++ all_ops (S x) es r end.
End Exchange.
