(** Dynamic memory: which blocks are requested and given back by edge lists, tiles, matrices, vector
    segments, vectors, graphs and runs (include/GMDP/utils/edgelist.h, edgelist_transformation.h,
    include/GMDP/matrices/*.h, include/GMDP/vectors/*.h, include/Graph.h, include/GraphMatRuntime.h).
    Only blocks are followed here, not what they hold: contents are the matter of the other files.
    Simplifications: a request for memory never fails, also not one for zero bytes; the standard
    containers, streams and strings give back their own memory. *)
From Verif Require Import Base Segment DCSC EdgeList.

(** the three ways to request memory: [_mm_malloc], [new T[]], [new T] *)
Inductive kind := Aligned | Array | Object.
Definition kind_eqb (a b : kind) : bool :=
  match a, b with Aligned, Aligned | Array, Array | Object, Object => true | _, _ => false end.
(** a pointer: null, to a block, or a variable nobody wrote *)
Inductive ptr := Null | At (b : Z) | Unset.
(** the number of the next block; the blocks in use *)
Record heap := mkHeap { h_next : Z; h_live : list (Z * kind) }.

(** code that uses the heap *)
Definition M (A : Type) := heap -> R (A * heap).
Definition ret {A} (a : A) : M A := fun h => Ok (a, h).
Definition fail {A} (e : err) : M A := fun _ => Err e.
Definition bindM {A B} (m : M A) (f : A -> M B) : M B :=
  fun h => match m h with Ok (a, h') => f a h' | Err e => Err e end.
Notation "x <~ e ;; k" := (bindM e (fun x => k)) (at level 61, e at next level, right associativity).
Notation "e ;;; k" := (bindM e (fun _ => k)) (at level 61, right associativity).
(** a computation that does not touch the heap *)
Definition lift {A} (r : R A) : M A := fun h => match r with Ok a => Ok (a, h) | Err e => Err e end.

Definition request (k : kind) : M ptr :=
  fun h => Ok (At (h_next h), mkHeap (h_next h + 1) ((h_next h, k) :: h_live h)).
Fixpoint take_out (b : Z) (l : list (Z * kind)) : option (kind * list (Z * kind)) :=
  match l with
  | [] => None
  | (c, k) :: l => if c =? b then Some (k, l) else match take_out b l with Some (k', l') => Some (k', (c, k) :: l') | None => None end
  end.
(** giving back a null pointer does nothing; a block must be in use and must have been requested in
    the matching way *)
Definition give_back (k : kind) (p : ptr) : M unit :=
  fun h => match p with
  | Null => Ok (tt, h)
  | Unset => Err Uninit
  | At b => match take_out b (h_live h) with
            | None => Err DoubleFree
            | Some (k', l) => if kind_eqb k k' then Ok (tt, mkHeap (h_next h) l) else Err BadFree
            end
  end.
Definition mm_malloc : M ptr := request Aligned.
Definition mm_free : ptr -> M unit := give_back Aligned.
Definition new_array : M ptr := request Array.
Definition delete_array : ptr -> M unit := give_back Array.
Definition new_object : M ptr := request Object.
Definition delete_object : ptr -> M unit := give_back Object.

(** run over a list, in order *)
Fixpoint eachM {A B} (f : A -> M B) (l : list A) : M (list B) :=
  match l with
  | [] => ret []
  | a :: l => b <~ f a ;; bs <~ eachM f l ;; ret (b :: bs)
  end.
Fixpoint foldM {S A} (f : S -> A -> M S) (l : list A) (s : S) : M S :=
  match l with
  | [] => ret s
  | a :: l => s <~ f s a ;; foldM f l s
  end.

(** ** Edge lists *)
Section EDGES.
  Context {E : Type}.
  Notation elist := (elist E).
  (** an [edgelist_t] variable: where [edges] points, and the list as in EdgeList.v *)
  Record mlist := mkML { ml_edges : ptr; ml_list : elist }.
  (** edgelist.h:58 *)
  Definition ml_default : mlist := mkML Null (mkEL [] 0 0 0).
  (** edgelist.h:59-67: [edges] stays unset if there are no edges *)
  Definition ml_sized (nnz : Z) : M ptr := if 0 <? nnz then mm_malloc else ret Unset.
  (** edgelist.h:69-77 *)
  Definition ml_clear (l : mlist) : M mlist :=
    (if 0 <? el_nnz (ml_list l) then mm_free (ml_edges l) else ret tt) ;;;
    ret (mkML Null (mkEL [] 0 0 0)).

  (** edgelist_transformation.h:37-53 *)
  Definition ml_remove_selfedges (l : mlist) : M mlist :=
    p <~ ml_sized (el_nnz (ml_list l)) ;;
    r <~ lift (remove_selfedges (ml_list l)) ;;
    ml_clear l ;;;
    ret (mkML p r).
  (** edgelist_transformation.h:69-93; [srt]: the sort *)
  Definition ml_remove_duplicate_edges_local (srt : list (edge E) -> list (edge E)) (l : mlist) : M mlist :=
    if 0 <? el_nnz (ml_list l) then
      p <~ ml_sized (el_nnz (ml_list l)) ;;
      r <~ lift (remove_duplicate_edges_local srt (ml_list l)) ;;
      ml_clear l ;;;
      ret (mkML p r)
    else ret l.
  (** edgelist_transformation.h:95-235 on one rank; [got]: the edges this rank ends up with *)
  Definition ml_shuffle_edges (got : elist) (l : mlist) : M mlist :=
    tedges <~ new_array ;;
    histogram <~ new_array ;;
    offset <~ new_array ;;
    woffset <~ new_array ;;
    positions <~ new_array ;;
    counts <~ new_array ;;
    recv_positions <~ new_array ;;
    recv_counts <~ new_array ;;
    mpi_req <~ new_array ;;
    mpi_status <~ new_array ;;
    p <~ ml_sized (el_nnz got) ;;
    delete_array mpi_status ;;;
    delete_array mpi_req ;;;
    delete_array positions ;;;
    delete_array counts ;;;
    delete_array recv_positions ;;;
    delete_array recv_counts ;;;
    delete_array tedges ;;;
    delete_array histogram ;;;
    delete_array offset ;;;
    delete_array woffset ;;;
    ml_clear l ;;;
    ret (mkML p got).
  (** edgelist_transformation.h:396-410 *)
  Definition ml_create_bidirectional_edges (l : mlist) : M mlist :=
    p <~ ml_sized (el_nnz (ml_list l) * 2) ;;
    r <~ lift (create_bidirectional_edges (ml_list l)) ;;
    ml_clear l ;;;
    ret (mkML p r).
  (** edgelist_transformation.h:431-443: the new list *)
  Definition ml_filter_edges (f : edge E -> bool) (l : mlist) : M mlist :=
    p <~ ml_sized (el_nnz (ml_list l)) ;;
    r <~ lift (filter_edges f (ml_list l)) ;;
    ret (mkML p (snd r)).
  (** edgelist.h:411-429: in place *)
  Definition ml_filter_edges_by_row (lo hi : Z) (l : mlist) : M mlist :=
    r <~ lift (filter_edges_by_row lo hi (ml_list l)) ;;
    ret (mkML (ml_edges l) r).
  (** edgelist.h:336-366 on one rank; [r]: the renumbered list *)
  Definition ml_randomize_edgelist_square (r : elist) (l : mlist) : M mlist :=
    mapping <~ new_array ;;
    rval <~ new_array ;;
    delete_array rval ;;;
    delete_array mapping ;;;
    ret (mkML (ml_edges l) r).
  (** edgelist.h:368-409: the list and the caller's array of the remaining columns *)
  Definition ml_remove_empty_columns (l : mlist) : M (mlist * ptr) :=
    colexists <~ new_array ;;
    new_colids <~ new_array ;;
    remaining <~ mm_malloc ;;
    r <~ lift (remove_empty_columns (ml_list l)) ;;
    delete_array colexists ;;;
    delete_array new_colids ;;;
    ret (mkML (ml_edges l) (fst r), remaining).
  (** edgelist_transformation.h:387-394, 412-428: the functions that change edges where they are *)
  Definition ml_rewrite (f : elist -> R elist) (l : mlist) : M mlist :=
    r <~ lift (f (ml_list l)) ;;
    ret (mkML (ml_edges l) r).
  (** edgelist.h:242-334: memory is requested also for a list without edges, and whatever the variable
      pointed to before is forgotten; [r]: what the files hold *)
  Definition ml_load_edgelist (r : elist) (l : mlist) : M mlist :=
    p <~ mm_malloc ;;
    ret (mkML p r).
  (** SpMat.h:343-375 and SpVec.h:118-145: what [get_edges] does to the caller's variable; nothing is
      requested, and the pointer is kept, if there are no edges *)
  Definition ml_get_edges (r : elist) (l : mlist) : M mlist :=
    if 0 <? el_nnz r then p <~ mm_malloc ;; ret (mkML p r) else ret (mkML (ml_edges l) r).

  (** What a caller does with one list.  [ORandomize], [ORewrite]: the function says what becomes of the
      edges; [OShuffle], [OLoad], [OGet]: the list says what this rank gets; [OEmptyCols]: the caller
      gives back the array of the remaining columns *)
  Inductive eop :=
  | ORemoveSelf
  | ORemoveDup (srt : list (edge E) -> list (edge E))
  | OShuffle (got : elist)
  | OBidir
  | OByRow (lo hi : Z)
  | ORandomize (f : elist -> R elist)
  | OEmptyCols
  | ORewrite (f : elist -> R elist)
  | OLoad (r : elist)
  | OGet (r : elist)
  | OClear.
  Definition ml_op (l : mlist) (o : eop) : M mlist :=
    match o with
    | ORemoveSelf => ml_remove_selfedges l
    | ORemoveDup srt => ml_remove_duplicate_edges_local srt l
    | OShuffle got => ml_shuffle_edges got l
    | OBidir => ml_create_bidirectional_edges l
    | OByRow lo hi => ml_filter_edges_by_row lo hi l
    | ORandomize f => r <~ lift (f (ml_list l)) ;; ml_randomize_edgelist_square r l
    | OEmptyCols => r <~ ml_remove_empty_columns l ;; mm_free (snd r) ;;; ret (fst r)
    | ORewrite f => ml_rewrite f l
    | OLoad r => ml_load_edgelist r l
    | OGet r => ml_get_edges r l
    | OClear => ml_clear l
    end.
  (** a caller with several lists: a new one, an operation on one, a new one filtered from one *)
  Inductive eact := VNew | VOp (i : nat) (o : eop) | VFilter (i : nat) (f : edge E -> bool).
  Fixpoint ml_on (f : mlist -> M mlist) (i : nat) (ls : list mlist) : M (list mlist) :=
    match ls, i with
    | [], _ => fail OOB
    | l :: ls, O => l <~ f l ;; ret (l :: ls)
    | l :: ls, S i => ls <~ ml_on f i ls ;; ret (l :: ls)
    end.
  Definition ml_act (ls : list mlist) (a : eact) : M (list mlist) :=
    match a with
    | VNew => ret (ls ++ [ml_default])
    | VOp i o => ml_on (fun l => ml_op l o) i ls
    | VFilter i f => match nth_error ls i with
                     | None => fail OOB
                     | Some l => l <~ ml_filter_edges f l ;; ret (ls ++ [l])
                     end
    end.
  (** the caller's lists come into being, are used and are cleared at the end *)
  Definition ml_life (acts : list eact) : M unit :=
    ls <~ foldM ml_act acts [] ;;
    eachM ml_clear ls ;;;
    ret tt.
End EDGES.
Arguments mlist : clear implicits.
Arguments eop : clear implicits.
Arguments eact : clear implicits.

(** ** Tiles *)

(** include/GMDP/matrices/DCSCTile.h:60-75, the pointers of a tile *)
Record mdcsc := mkDcsc { dc_nnz : Z; dc_row_inds : ptr; dc_col_ptrs : ptr; dc_col_indices : ptr; dc_vals : ptr;
                         dc_row_pointers : ptr; dc_edge_pointers : ptr; dc_col_starts : ptr }.
(** DCSCTile.h:182-184: the constructors of an empty tile set no pointer *)
Definition dcsc_empty : mdcsc := mkDcsc 0 Unset Unset Unset Unset Unset Unset Unset.
(** DCSCTile.h:234-404 (with 186-189 and 222-226) *)
Definition dcsc_build (nnz : Z) : M mdcsc :=
  if 0 <? nnz then
    row_pointers <~ mm_malloc ;;
    p_edges <~ mm_malloc ;;
    edge_pointers <~ mm_malloc ;;
    ncols <~ mm_malloc ;;
    col_starts <~ mm_malloc ;;
    vals <~ mm_malloc ;;
    row_inds <~ mm_malloc ;;
    col_indices <~ mm_malloc ;;
    col_ptrs <~ mm_malloc ;;
    mm_free p_edges ;;;
    mm_free ncols ;;;
    ret (mkDcsc nnz row_inds col_ptrs col_indices vals row_pointers edge_pointers col_starts)
  else ret (mkDcsc nnz Unset Unset Unset Unset Unset Unset Unset).
(** DCSCTile.h:118-179, into a tile just made with the default constructor *)
Definition dcsc_load (nnz : Z) : M mdcsc :=
  if 0 <? nnz then
    vals <~ mm_malloc ;;
    row_inds <~ mm_malloc ;;
    row_pointers <~ mm_malloc ;;
    edge_pointers <~ mm_malloc ;;
    col_starts <~ mm_malloc ;;
    col_ptrs <~ mm_malloc ;;
    col_indices <~ mm_malloc ;;
    ret (mkDcsc nnz row_inds col_ptrs col_indices vals row_pointers edge_pointers col_starts)
  else ret (mkDcsc nnz Unset Unset Unset Unset Unset Unset Unset).
(** DCSCTile.h:426-439 *)
Definition dcsc_destroy (t : mdcsc) : M unit :=
  if 0 <? dc_nnz t then
    mm_free (dc_row_inds t) ;;;
    mm_free (dc_col_ptrs t) ;;;
    mm_free (dc_col_indices t) ;;;
    mm_free (dc_vals t) ;;;
    mm_free (dc_row_pointers t) ;;;
    mm_free (dc_edge_pointers t) ;;;
    mm_free (dc_col_starts t)
  else ret tt.

(** include/GMDP/matrices/CSRTile.h:58-66 *)
Record mcsr := mkCsr { cs_nnz : Z; cs_a : ptr; cs_ja : ptr; cs_ia : ptr }.
(** CSRTile.h:127-205 *)
Definition csr_build (nnz : Z) : M mcsr :=
  if 0 <? nnz then
    a <~ mm_malloc ;;
    ja <~ mm_malloc ;;
    jia <~ mm_malloc ;;
    ia <~ mm_malloc ;;
    mm_free jia ;;;
    ret (mkCsr nnz a ja ia)
  else ret (mkCsr nnz Unset Unset Unset).
(** CSRTile.h:93-119 *)
Definition csr_load (nnz : Z) : M mcsr :=
  if 0 <? nnz then
    a <~ mm_malloc ;;
    ja <~ mm_malloc ;;
    ia <~ mm_malloc ;;
    ret (mkCsr nnz a ja ia)
  else ret (mkCsr nnz Unset Unset Unset).
(** CSRTile.h:235-242 *)
Definition csr_destroy (t : mcsr) : M unit :=
  if 0 <? cs_nnz t then
    mm_free (cs_a t) ;;;
    mm_free (cs_ja t) ;;;
    mm_free (cs_ia t)
  else ret tt.

(** include/GMDP/matrices/COOTile.h:58-68 *)
Record mcoo := mkCoo { co_nnz : Z; co_a : ptr; co_ja : ptr; co_ia : ptr; co_partition_start : ptr }.
(** COOTile.h:136-186 *)
Definition coo_build (nnz : Z) : M mcoo :=
  if 0 <? nnz then
    a <~ mm_malloc ;;
    ja <~ mm_malloc ;;
    ia <~ mm_malloc ;;
    partition_start <~ new_array ;;
    ret (mkCoo nnz a ja ia partition_start)
  else ret (mkCoo nnz Unset Unset Unset Unset).
(** COOTile.h:98-128: [partition_start] comes from [_mm_malloc] here *)
Definition coo_load (nnz : Z) : M mcoo :=
  if 0 <? nnz then
    a <~ mm_malloc ;;
    ja <~ mm_malloc ;;
    ia <~ mm_malloc ;;
    partition_start <~ mm_malloc ;;
    ret (mkCoo nnz a ja ia partition_start)
  else ret (mkCoo nnz Unset Unset Unset Unset).
(** COOTile.h:215-223 *)
Definition coo_destroy (t : mcoo) : M unit :=
  if 0 <? co_nnz t then
    mm_free (co_a t) ;;;
    mm_free (co_ja t) ;;;
    mm_free (co_ia t) ;;;
    delete_array (co_partition_start t)
  else ret tt.

(** include/GMDP/matrices/COOSIMD32Tile.h:66-77 *)
Record msimd := mkSimd { si_nnz : Z; si_a : ptr; si_ja : ptr; si_ia : ptr; si_partition_start : ptr; si_simd_nnz : ptr }.
(** COOSIMD32Tile.h:156-375; [np]: the number of partitions (four per thread), each with its own
    [borders]; the threads' requests are taken one after the other *)
Definition simd_build (np : nat) (nnz : Z) : M msimd :=
  if 0 <? nnz then
    a <~ mm_malloc ;;
    ja <~ mm_malloc ;;
    ia <~ mm_malloc ;;
    tmpedges <~ mm_malloc ;;
    partition_start <~ new_array ;;
    simd_nnz <~ new_array ;;
    eachM (fun _ => borders <~ new_array ;; delete_array borders) (seq 0 np) ;;;
    mm_free tmpedges ;;;
    ret (mkSimd nnz a ja ia partition_start simd_nnz)
  else ret (mkSimd nnz Unset Unset Unset Unset Unset).
(** COOSIMD32Tile.h:114-149 *)
Definition simd_load (nnz : Z) : M msimd :=
  if 0 <? nnz then
    a <~ mm_malloc ;;
    ja <~ mm_malloc ;;
    ia <~ mm_malloc ;;
    partition_start <~ mm_malloc ;;
    simd_nnz <~ mm_malloc ;;
    ret (mkSimd nnz a ja ia partition_start simd_nnz)
  else ret (mkSimd nnz Unset Unset Unset Unset Unset).
(** COOSIMD32Tile.h:403-412 *)
Definition simd_destroy (t : msimd) : M unit :=
  if 0 <? si_nnz t then
    mm_free (si_a t) ;;;
    mm_free (si_ja t) ;;;
    mm_free (si_ia t) ;;;
    delete_array (si_partition_start t) ;;;
    delete_array (si_simd_nnz t)
  else ret tt.

(** include/GMDP/matrices/DCSRTile.h:42-56 *)
Record mdcsr := mkDcsr { ds_nnz : Z; ds_partition_ptrs : ptr; ds_a : ptr; ds_ja : ptr; ds_ia : ptr; ds_row_ids : ptr }.
(** DCSRTile.h:120-215 *)
Definition dcsr_build (nnz : Z) : M mdcsr :=
  if 0 <? nnz then
    tmp_buf <~ new_array ;;
    row_ids <~ mm_malloc ;;
    ia <~ mm_malloc ;;
    delete_array tmp_buf ;;;
    partition_ptrs <~ new_array ;;
    ja <~ mm_malloc ;;
    a <~ mm_malloc ;;
    ret (mkDcsr nnz partition_ptrs a ja ia row_ids)
  else ret (mkDcsr nnz Unset Unset Unset Unset Unset).
(** DCSRTile.h:84-113: [partition_ptrs] is not set *)
Definition dcsr_load (nnz : Z) : M mdcsr :=
  if 0 <? nnz then
    a <~ mm_malloc ;;
    ja <~ mm_malloc ;;
    ia <~ mm_malloc ;;
    row_ids <~ mm_malloc ;;
    ret (mkDcsr nnz Unset a ja ia row_ids)
  else ret (mkDcsr nnz Unset Unset Unset Unset Unset).
(** DCSRTile.h:251-253 *)
Definition dcsr_clear (t : mdcsr) : mdcsr :=
  mkDcsr 0 (ds_partition_ptrs t) (ds_a t) (ds_ja t) (ds_ia t) (ds_row_ids t).
(** DCSRTile.h:255-263 *)
Definition dcsr_destroy (t : mdcsr) : M unit :=
  if 0 <? ds_nnz t then
    mm_free (ds_a t) ;;;
    mm_free (ds_ja t) ;;;
    mm_free (ds_ia t) ;;;
    mm_free (ds_row_ids t) ;;;
    delete_array (ds_partition_ptrs t)
  else ret tt.

(** include/GMDP/matrices/HybridTile.h:45-56: the two parts are objects of their own *)
Record mhybrid := mkHybrid { hy_nnz : Z; hy_t1 : ptr; hy_dcsr : mdcsr; hy_t2 : ptr; hy_simd : msimd }.
(** HybridTile.h:80-142, for a tile with edges; [nnz1], [nnz2]: edges in long and in short rows *)
Definition hybrid_build (np : nat) (nnz1 nnz2 : Z) : M mhybrid :=
  tmptile <~ new_object ;;
  csr <~ csr_build (nnz1 + nnz2) ;;
  ia_gte16 <~ new_array ;;
  ia_lt16 <~ new_array ;;
  edges_gte16 <~ mm_malloc ;;
  edges_lt16 <~ mm_malloc ;;
  csr_destroy csr ;;;
  delete_object tmptile ;;;
  t1 <~ new_object ;;
  d1 <~ dcsr_build nnz1 ;;
  t2 <~ new_object ;;
  d2 <~ simd_build np nnz2 ;;
  mm_free edges_gte16 ;;;
  mm_free edges_lt16 ;;;
  delete_array ia_gte16 ;;;
  delete_array ia_lt16 ;;;
  ret (mkHybrid (nnz1 + nnz2) t1 d1 t2 d2).
(** HybridTile.h:165: the destructor does nothing *)
Definition hybrid_destroy (t : mhybrid) : M unit := ret tt.

(** ** Matrices of DCSC tiles *)

(** include/GMDP/matrices/SpMat.h:52-60: the tile pointers in any order, each with its tile; null
    for the tiles of other ranks *)
Definition mtile : Type := ptr * mdcsc.
Definition mmat : Type := list mtile.
(** SpMat.h:97-276.  [nr]: number of ranks; [counts]: for each tile, [None] if another rank holds it,
    else its number of edges.  Binary searches and sorts use no memory that outlives them *)
Definition mat_build (nr : Z) (counts : list (option Z)) : M mmat :=
  received_edges <~
    (if nr =? 1 then new_array
     else
       tedges <~ new_array ;;
       assignment <~ new_array ;;
       delete_array tedges ;;;
       positions <~ new_array ;;
       counts <~ new_array ;;
       recv_positions <~ new_array ;;
       recv_counts <~ new_array ;;
       delete_array assignment ;;;
       mpi_req <~ new_array ;;
       mpi_status <~ new_array ;;
       received_edges <~ new_array ;;
       delete_array mpi_status ;;;
       delete_array mpi_req ;;;
       delete_array positions ;;;
       delete_array counts ;;;
       delete_array recv_positions ;;;
       delete_array recv_counts ;;;
       ret received_edges) ;;
  tedges2 <~ new_array ;;
  assignment2 <~ new_array ;;
  delete_array tedges2 ;;;
  ts <~ eachM (fun c =>
          match c with
          | None => ret (Null, dcsc_empty)
          | Some nnz =>
              o <~ new_object ;;
              t <~ (if nnz <=? 0 then ret dcsc_empty else dcsc_build nnz) ;;
              ret (o, t)
          end) counts ;;
  delete_array assignment2 ;;;
  delete_array received_edges ;;;
  ret ts.
(** SpMat.h:62-73 read back: the archive library makes a tile object for each pointer that was not null *)
Definition mat_load (counts : list (option Z)) : M mmat :=
  eachM (fun c =>
    match c with
    | None => ret (Null, dcsc_empty)
    | Some nnz => o <~ new_object ;; t <~ dcsc_load nnz ;; ret (o, t)
    end) counts.
(** SpMat.h:332-341; [delete] of a null pointer runs no destructor *)
Definition tile_delete (t : mtile) : M unit :=
  match fst t with
  | Null => ret tt
  | _ => dcsc_destroy (snd t) ;;; delete_object (fst t)
  end.
Definition mat_destroy (m : mmat) : M unit := eachM tile_delete m ;;; ret tt.
Definition mat_nnz (m : mmat) : Z := fold_right (fun t s => match fst t with Null => s | _ => dc_nnz (snd t) + s end) 0 m.
(** SpMat.h:422-443; [counts]: the tiles of the transposed matrix *)
Definition mat_transpose (nr : Z) (counts : list (option Z)) (m : mmat) : M (ptr * mmat) :=
  edges <~ (if 0 <? mat_nnz m then mm_malloc else ret Null) ;;
  o <~ new_object ;;
  t <~ mat_build nr counts ;;
  (if 0 <? mat_nnz m then mm_free edges else ret tt) ;;;
  ret (o, t).

(** ** Vectors *)

(** include/GMDP/vectors/DenseSegment.h:81-87: a buffer is an object with seven arrays *)
Record mbuf := mkBuf { bu_obj : ptr; bu_value : ptr; bu_bit_vector : ptr; bu_compressed_data : ptr; bu_compressed_indices : ptr;
                       bu_serialized_data : ptr; bu_nbytes_scan : ptr; bu_nnz_scan : ptr }.
(** [new buffer<T>(capacity, num_ints)], DenseSegment.h:180-196 *)
Definition buf_new : M mbuf :=
  obj <~ new_object ;;
  value <~ new_array ;;
  bit_vector <~ new_array ;;
  compressed_data <~ new_array ;;
  compressed_indices <~ new_array ;;
  serialized_data <~ new_array ;;
  nbytes_scan <~ new_array ;;
  nnz_scan <~ new_array ;;
  ret (mkBuf obj value bit_vector compressed_data compressed_indices serialized_data nbytes_scan nnz_scan).
(** DenseSegment.h:200-205 *)
Definition buf_alloc_serialized (b : mbuf) : M mbuf :=
  delete_array (bu_serialized_data b) ;;;
  serialized_data <~ new_array ;;
  ret (mkBuf (bu_obj b) (bu_value b) (bu_bit_vector b) (bu_compressed_data b) (bu_compressed_indices b)
             serialized_data (bu_nbytes_scan b) (bu_nnz_scan b)).
(** DenseSegment.h:230-257 (types that serialize themselves), 259-297 (plain types) *)
Definition buf_decompress (ser : bool) (b : mbuf) : M mbuf :=
  if ser then
    sss <~ new_array ;;
    delete_array sss ;;;
    ret b
  else
    start_nnzs <~ new_array ;;
    end_nnzs <~ new_array ;;
    delete_array start_nnzs ;;;
    delete_array end_nnzs ;;;
    ret b.
(** DenseSegment.h:299-357, 359-409 *)
Definition buf_compress (ser : bool) (b : mbuf) : M mbuf :=
  if ser then
    nbytes <~ new_array ;;
    nnz <~ new_array ;;
    sss <~ new_array ;;
    b <~ buf_alloc_serialized b ;;
    delete_array nnz ;;;
    delete_array nbytes ;;;
    delete_array sss ;;;
    ret b
  else
    partition_nnz <~ new_array ;;
    partition_nnz_scan <~ new_array ;;
    delete_array partition_nnz ;;;
    delete_array partition_nnz_scan ;;;
    ret b.
(** DenseSegment.h:128-149, into a buffer made with the default constructor (line 198) *)
Definition buf_load : M mbuf :=
  b <~ buf_new ;;
  delete_array (bu_value b) ;;;
  delete_array (bu_bit_vector b) ;;;
  delete_array (bu_compressed_data b) ;;;
  delete_array (bu_compressed_indices b) ;;;
  delete_array (bu_serialized_data b) ;;;
  delete_array (bu_nbytes_scan b) ;;;
  delete_array (bu_nnz_scan b) ;;;
  value <~ new_array ;;
  bit_vector <~ new_array ;;
  compressed_data <~ new_array ;;
  compressed_indices <~ new_array ;;
  serialized_data <~ new_array ;;
  nbytes_scan <~ new_array ;;
  nnz_scan <~ new_array ;;
  ret (mkBuf (bu_obj b) value bit_vector compressed_data compressed_indices serialized_data nbytes_scan nnz_scan).
(** [delete] of a buffer, DenseSegment.h:411-420 *)
Definition buf_delete (b : mbuf) : M unit :=
  delete_array (bu_value b) ;;;
  delete_array (bu_bit_vector b) ;;;
  delete_array (bu_compressed_data b) ;;;
  delete_array (bu_compressed_indices b) ;;;
  delete_array (bu_nbytes_scan b) ;;;
  delete_array (bu_nnz_scan b) ;;;
  delete_array (bu_serialized_data b) ;;;
  delete_object (bu_obj b).

(** DenseSegment.h:424-434: the segment object and its buffers *)
Record mseg := mkSeg { sg_obj : ptr; sg_properties : option mbuf; sg_received : list mbuf; sg_uninitialized : list mbuf }.
(** [new SpSegment(n)], DenseSegment.h:476-482 *)
Definition seg_new : M mseg := obj <~ new_object ;; ret (mkSeg obj None [] []).
(** DenseSegment.h:578-583 *)
Definition seg_alloc (s : mseg) : M (mseg * mbuf) :=
  match sg_properties s with
  | Some b => ret (s, b)
  | None => b <~ buf_new ;; ret (mkSeg (sg_obj s) (Some b) (sg_received s) (sg_uninitialized s), b)
  end.
(** What can be done to a segment, as far as memory goes.  [MTouch]: any function that starts with
    [alloc()] and requests nothing else (ingestEdges 486-496, set 604-611, unset 613-619, setAll 621-647,
    recv_nnz 668-673).  [MCompress]: 538-547, [squeeze]: it decides to compress.  [MDecompress]: 548-556.
    [MReset]: 568-575 (whether the list of received buffers only, 558-566, or the properties too, makes
    no difference for memory).  [MReceive]: 756-774 with 714-754, [ser]: the type serializes itself.
    [MReceiveHere]: 776-780.  [MUnion]: 808-836, [ser]: the received
    buffers are decompressed (all of them: a decompression gives back what it requests). *)
Inductive mop :=
| MTouch
| MCompress (ser squeeze : bool)
| MDecompress (ser squeeze : bool)
| MReset
| MReceive (ser : bool)
| MReceiveHere (ser : bool)
| MUnion (ser : bool).
(** DenseSegment.h:714-754 *)
Definition buf_receive (ser : bool) (b : mbuf) : M mbuf := if ser then buf_alloc_serialized b else ret b.
Definition seg_op (s : mseg) (o : mop) : M mseg :=
  match o with
  | MTouch => r <~ seg_alloc s ;; ret (fst r)
  | MCompress ser squeeze =>
      r <~ seg_alloc s ;;
      if squeeze then
        b <~ buf_compress ser (snd r) ;;
        ret (mkSeg (sg_obj s) (Some b) (sg_received s) (sg_uninitialized s))
      else ret (fst r)
  | MDecompress ser squeeze =>
      match sg_properties s with
      | None => fail AssertFail
      | Some b =>
          if squeeze then
            b <~ buf_decompress ser b ;;
            ret (mkSeg (sg_obj s) (Some b) (sg_received s) (sg_uninitialized s))
          else ret s
      end
  | MReset => ret (mkSeg (sg_obj s) (sg_properties s) [] (sg_uninitialized s ++ sg_received s))
  | MReceive ser =>
      match rev (sg_uninitialized s) with
      | b :: l =>
          b <~ buf_receive ser b ;;
          ret (mkSeg (sg_obj s) (sg_properties s) (sg_received s ++ [b]) (rev l))
      | [] =>
          b <~ buf_new ;;
          b <~ buf_receive ser b ;;
          ret (mkSeg (sg_obj s) (sg_properties s) (sg_received s ++ [b]) [])
      end
  | MReceiveHere ser =>
      match sg_properties s with
      | None => fail NullDeref
      | Some b =>
          b <~ buf_receive ser b ;;
          ret (mkSeg (sg_obj s) (Some b) (sg_received s) (sg_uninitialized s))
      end
  | MUnion ser =>
      r <~ seg_alloc s ;;
      bs <~ (if ser then eachM (buf_decompress true) (sg_received s) else ret (sg_received s)) ;;
      ret (mkSeg (sg_obj s) (Some (snd r)) bs (sg_uninitialized s))
  end.
(** [delete] of a segment, DenseSegment.h:498-516 *)
Definition seg_delete (s : mseg) : M unit :=
  match sg_properties s with Some b => buf_delete b | None => ret tt end ;;;
  eachM buf_delete (sg_received s) ;;;
  eachM buf_delete (sg_uninitialized s) ;;;
  delete_object (sg_obj s).

(** include/GMDP/vectors/SpVec.h:50-57: the vector object and its segments *)
Record mvec := mkVec { vc_obj : ptr; vc_segments : list mseg }.
(** [new SpVec(n, num_tiles_x, pfn)], SpVec.h:70-99 *)
Definition mvec_new (nseg : nat) : M mvec :=
  obj <~ new_object ;;
  ss <~ eachM (fun _ => seg_new) (seq 0 nseg) ;;
  ret (mkVec obj ss).
Fixpoint on_seg (f : mseg -> M mseg) (k : nat) (l : list mseg) : M (list mseg) :=
  match l, k with
  | [], _ => fail OOB
  | s :: l, O => s <~ f s ;; ret (s :: l)
  | s :: l, S k => l <~ on_seg f k l ;; ret (s :: l)
  end.
(** any operation on a vector is a series of operations on its segments *)
Definition mvec_ops (ops : list (nat * mop)) (v : mvec) : M mvec :=
  ss <~ foldM (fun ss o => on_seg (fun s => seg_op s (snd o)) (fst o) ss) ops (vc_segments v) ;;
  ret (mkVec (vc_obj v) ss).
(** [delete] of a vector, SpVec.h:101-108 *)
Definition mvec_delete (v : mvec) : M unit :=
  eachM seg_delete (vc_segments v) ;;;
  delete_object (vc_obj v).
(** SpVec.h:147-305 on a rank that ends up with [new_nnz] elements; [nr]: number of ranks; [touched]: the
    segments that get elements.  [assignment] (line 161) is never given back *)
Definition mvec_ingest (nr : nat) (new_nnz : Z) (touched : list nat) (v : mvec) : M mvec :=
  assignment <~ new_array ;;
  count <~ new_array ;;
  recv_count <~ new_array ;;
  mpi_req <~ new_array ;;
  mpi_status <~ new_array ;;
  msg <~ new_array ;;
  offsets <~ new_array ;;
  msgs <~ eachM (fun _ => new_array) (seq 0 nr) ;;
  local_hist <~ new_array ;;
  final_edge_list <~ mm_malloc ;;
  eachM delete_array msgs ;;;
  delete_array msg ;;;
  delete_array local_hist ;;;
  delete_array offsets ;;;
  delete_array count ;;;
  delete_array recv_count ;;;
  delete_array mpi_req ;;;
  delete_array mpi_status ;;;
  edges <~ mm_malloc ;;
  partitions <~ mm_malloc ;;
  counts <~ mm_malloc ;;
  start_nzs <~ mm_malloc ;;
  (if 0 <? new_nnz then mm_free final_edge_list ;;; mm_free partitions else ret tt) ;;;
  v <~ mvec_ops (map (fun k => (k, MTouch)) touched) v ;;
  mm_free counts ;;;
  mm_free start_nzs ;;;
  mm_free edges ;;;
  ret v.

(** a segment read back, DenseSegment.h:455-474: the archive library makes the segment and each buffer;
    [props]: the saved segment had properties; [nr], [nu]: how many received and unused buffers it had *)
Definition seg_load (sv : bool * (nat * nat)) : M mseg :=
  let '(props, (nr, nu)) := sv in
  obj <~ new_object ;;
  p <~ (if props then b <~ buf_load ;; ret (Some b) else ret None) ;;
  rs <~ eachM (fun _ => buf_load) (seq 0 nr) ;;
  us <~ eachM (fun _ => buf_load) (seq 0 nu) ;;
  ret (mkSeg obj p rs us).
(** a vector read back, SpVec.h:58-70 *)
Definition mvec_load (saved : list (bool * (nat * nat))) : M mvec :=
  obj <~ new_object ;;
  ss <~ eachM seg_load saved ;;
  ret (mkVec obj ss).

(** a caller's history of a vector: operations on its segments, and ingests; at the end it is deleted *)
Inductive vact := SOp (k : nat) (o : mop) | SIngest (new_nnz : Z) (touched : list nat).
Definition mvec_act (nr : nat) (v : mvec) (a : vact) : M mvec :=
  match a with
  | SOp k o => mvec_ops [(k, o)] v
  | SIngest new_nnz touched => mvec_ingest nr new_nnz touched v
  end.
Definition vec_life (nr : nat) (make : M mvec) (acts : list vact) : M unit :=
  v <~ make ;;
  v <~ foldM (mvec_act nr) acts v ;;
  mvec_delete v.

(** ** Graphs and runs *)

(** include/Graph.h:66-70; each matrix with the address of its object *)
Record mgraph := mkMG { mg_A : option (ptr * mmat); mg_AT : option (ptr * mmat); mg_vp : option mvec; mg_active : option mvec }.
(** Graph.h:73-77 *)
Definition mg_default : mgraph := mkMG None None None None.
(** SpVec.h:307-318 setAll; [mine]: the segments of this rank *)
Definition mvec_setAll (mine : list nat) (v : mvec) : M mvec := mvec_ops (map (fun k => (k, MTouch)) mine) v.
(** Graph.h:178-184, 232-237: the two vectors *)
Definition mg_vectors (nseg : nat) (mine : list nat) : M (mvec * mvec) :=
  vp <~ mvec_new nseg ;;
  v <~ new_object ;;
  vp <~ mvec_setAll mine vp ;;
  delete_object v ;;;
  act <~ mvec_new nseg ;;
  act <~ mvec_setAll mine act ;;
  ret (vp, act).
(** Graph.h:210-246; the old pointers are overwritten.  [countsA], [countsT]: the tiles of the matrix and
    of its transpose, as in [mat_build] *)
Definition mg_ReadEdgelist (nr : Z) (nseg : nat) (mine : list nat) (countsA countsT : list (option Z)) (g : mgraph) : M mgraph :=
  o <~ new_object ;;
  a <~ mat_build nr countsA ;;
  at_ <~ mat_transpose nr countsT a ;;
  vs <~ mg_vectors nseg mine ;;
  ret (mkMG (Some (o, a)) (Some at_) (Some (fst vs)) (Some (snd vs))).
(** Graph.h:248-260; [nnz]: how many edges this rank read *)
Definition mg_ReadMTX (nnz : Z) (nr : Z) (nseg : nat) (mine : list nat) (countsA countsT : list (option Z)) (g : mgraph) : M mgraph :=
  l <~ ml_load_edgelist (mkEL [] 0 0 nnz : elist unit) ml_default ;;
  g <~ mg_ReadEdgelist nr nseg mine countsA countsT g ;;
  ml_clear l ;;;
  ret g.
(** Graph.h:151-194, when the numbers in the file match *)
Definition mg_ReadGraphMatBin (nseg : nat) (mine : list nat) (countsA countsT : list (option Z)) (g : mgraph) : M mgraph :=
  o <~ new_object ;;
  a <~ mat_load countsA ;;
  ot <~ new_object ;;
  at_ <~ mat_load countsT ;;
  vs <~ mg_vectors nseg mine ;;
  ret (mkMG (Some (o, a)) (Some (ot, at_)) (Some (fst vs)) (Some (snd vs))).
(** [delete] of a matrix *)
Definition mat_delete (m : ptr * mmat) : M unit := mat_destroy (snd m) ;;; delete_object (fst m).
(** Graph.h:403-424, of a graph that owns its properties *)
Definition mg_destroy (g : mgraph) : M unit :=
  match mg_A g with Some a => mat_delete a | None => ret tt end ;;;
  match mg_AT g with Some a => mat_delete a | None => ret tt end ;;;
  match mg_vp g with Some v => mvec_delete v | None => ret tt end ;;;
  match mg_active g with Some v => mvec_delete v | None => ret tt end.

(** a graph in use, and a workspace of run_graph_program if there is one *)
Record mstate := mkMS { ms_graph : mgraph; ms_space : option (mvec * mvec) }.
Definition onv (v : option mvec) (ops : list (nat * mop)) : M (option mvec) :=
  match v with None => fail NullDeref | Some v => v <~ mvec_ops ops v ;; ret (Some v) end.
(** one part of a run or of a member function: operations on the properties, on the active set and on
    the two vectors of the workspace *)
Inductive mpart := PProps (ops : list (nat * mop)) | PActive (ops : list (nat * mop)) | PMessages (ops : list (nat * mop)) | PResults (ops : list (nat * mop)).
Definition do_part (s : mgraph * (mvec * mvec)) (p : mpart) : M (mgraph * (mvec * mvec)) :=
  let '(g, (x, y)) := s in
  match p with
  | PProps ops => v <~ onv (mg_vp g) ops ;; ret (mkMG (mg_A g) (mg_AT g) v (mg_active g), (x, y))
  | PActive ops => v <~ onv (mg_active g) ops ;; ret (mkMG (mg_A g) (mg_AT g) (mg_vp g) v, (x, y))
  | PMessages ops => x <~ mvec_ops ops x ;; ret (g, (x, y))
  | PResults ops => y <~ mvec_ops ops y ;; ret (g, (x, y))
  end.
(** GraphMatRuntime.h:56-70 and 110-117 *)
Definition new_space (nseg : nat) (mine : list nat) : M (mvec * mvec) :=
  px <~ mvec_new nseg ;;
  px <~ mvec_setAll mine px ;;
  py <~ mvec_new nseg ;;
  py <~ mvec_setAll mine py ;;
  ret (px, py).
(** GraphMatRuntime.h:72-76 and 266-269 *)
Definition delete_space (w : mvec * mvec) : M unit := mvec_delete (fst w) ;;; mvec_delete (snd w).
(** GraphMatRuntime.h:96-275 *)
Definition run_program (nseg : nat) (mine : list nat) (ps : list mpart) (own : bool) (s : mstate) : M mstate :=
  if own then
    match ms_space s with
    | None => fail NullDeref
    | Some w => r <~ foldM do_part ps (ms_graph s, w) ;; ret (mkMS (fst r) (Some (snd r)))
    end
  else
    w <~ new_space nseg mine ;;
    r <~ foldM do_part ps (ms_graph s, w) ;;
    delete_space (snd r) ;;;
    ret (mkMS (fst r) (ms_space s)).
(** Graph.h:336-350; [here]: elements this rank holds, [new_nnz]: elements it writes *)
Definition mg_saveVertexproperty (nr nseg : nat) (here new_nnz : Z) (touched : list nat) (g : mgraph) : M unit :=
  match mg_vp g with
  | None => fail NullDeref
  | Some _ =>
      l <~ ml_get_edges (mkEL [] 0 0 here : elist unit) ml_default ;;
      v <~ mvec_new nseg ;;
      v <~ mvec_ingest nr new_nnz touched v ;;
      ml_clear l ;;;
      mvec_delete v
  end.
(** Graph.h:327-334 followed by the caller's [clear()] *)
Definition mg_getEdgelist (g : mgraph) : M unit :=
  match mg_A g with
  | None => fail NullDeref
  | Some a =>
      l <~ ml_get_edges (mkEL [] 0 0 (mat_nnz (snd a)) : elist unit) ml_default ;;
      ml_clear l ;;;
      ret tt
  end.
(** Graph.h:376-380 with include/GMDP/singlenode/reduce.h:50-99 for each segment of this rank and
    include/GMDP/multinode/reduce.h:50-74 *)
Definition mg_applyReduceAllVertices (mine : list nat) (g : mgraph) : M unit :=
  match mg_vp g with
  | None => fail NullDeref
  | Some _ =>
      eachM (fun _ =>
        local_reduced <~ new_array ;;
        firstSet <~ new_array ;;
        delete_array local_reduced ;;;
        delete_array firstSet) mine ;;;
      all_res <~ new_array ;;
      delete_array all_res
  end.

(** what is done with a graph after it was loaded *)
Inductive mact :=
| AUse (props active : list (nat * mop))
| ARun (ps : list mpart)
| AInit
| ARunWith (ps : list mpart)
| AClear
| ASave (here new_nnz : Z) (touched : list nat)
| AEdges
| AReduce.
(** [nr]: ranks; [nseg]: segments of a vector; [mine]: those of this rank *)
Definition act (nr nseg : nat) (mine : list nat) (s : mstate) (a : mact) : M mstate :=
  let g := ms_graph s in
  match a with
  | AUse props active =>
      v <~ onv (mg_vp g) props ;;
      w <~ onv (mg_active g) active ;;
      ret (mkMS (mkMG (mg_A g) (mg_AT g) v w) (ms_space s))
  | ARun ps => run_program nseg mine ps false s
  | AInit => w <~ new_space nseg mine ;; ret (mkMS g (Some w))
  | ARunWith ps => run_program nseg mine ps true s
  | AClear => match ms_space s with None => fail NullDeref | Some w => delete_space w ;;; ret (mkMS g None) end
  | ASave here new_nnz touched => mg_saveVertexproperty nr nseg here new_nnz touched g ;;; ret s
  | AEdges => mg_getEdgelist g ;;; ret s
  | AReduce => mg_applyReduceAllVertices mine g ;;; ret s
  end.
(** the three ways to load *)
Inductive mload :=
| LEdges (countsA countsT : list (option Z))
| LFile (nnz : Z) (countsA countsT : list (option Z))
| LBin (countsA countsT : list (option Z)).
Definition load_graph (nr nseg : nat) (mine : list nat) (l : mload) (g : mgraph) : M mgraph :=
  match l with
  | LEdges a t => mg_ReadEdgelist (Z.of_nat nr) nseg mine a t g
  | LFile nnz a t => mg_ReadMTX nnz (Z.of_nat nr) nseg mine a t g
  | LBin a t => mg_ReadGraphMatBin nseg mine a t g
  end.
(** a graph is made, loaded, used and destroyed *)
Definition life (nr nseg : nat) (mine : list nat) (l : mload) (acts : list mact) : M unit :=
  g <~ load_graph nr nseg mine l mg_default ;;
  s <~ foldM (act nr nseg mine) acts (mkMS g None) ;;
  mg_destroy (ms_graph s).
