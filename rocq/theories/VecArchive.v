(** include/GMDP/vectors/DenseSegment.h, SpVec.h: archives of vectors.  An archive is a list of items;
    names and boost's bookkeeping for pointers and collections (versions, object numbers) are left out.
    Every item is read from memory once, so what memory that was never set holds is a function of the
    place of the item in the archive: [jz] for integers, [jt] for values. *)
From Verif Require Import Base Layout Bits Segment SegHistory Vec.

Inductive vitem (T byte : Type) := VBool (b : bool) | VInt (z : Z) | VVal (a : T) | VByte (c : byte).
Arguments VBool {T byte}. Arguments VInt {T byte}. Arguments VVal {T byte}. Arguments VByte {T byte}.

(** SpVec.h:44-53, the members of [SpVec] *)
Record vobj (T byte : Type) := mkVO { vo_nsegments : Z; vo_n : Z; vo_tiles : Z; vo_nrank : Z; vo_myrank : Z; vo_nodes : list Z; vo_starts : list Z; vo_segs : list (seg T byte) }.
Arguments mkVO {T byte}. Arguments vo_nsegments {T byte}. Arguments vo_n {T byte}. Arguments vo_tiles {T byte}. Arguments vo_nrank {T byte}.
Arguments vo_myrank {T byte}. Arguments vo_nodes {T byte}. Arguments vo_starts {T byte}. Arguments vo_segs {T byte}.

Section VecArchive.
  Context {T byte : Type}.
  Notation archive := (list (vitem T byte)).
  Notation buf := (buffer T byte).
  Notation sg := (seg T byte).

  (** ** saving *)
  Variable jz : Z -> Z.
  Variable jt : Z -> T.
  Definition put {A} (junk : Z -> A) (mk : A -> vitem T byte) (c : option A) (ar : archive) : archive :=
    ar ++ [mk (match c with Some a => a | None => junk (zlen ar) end)].
  (** [for(i = 0; i < count; i++) ar & l[i];] *)
  Definition puts {A} (junk : Z -> A) (mk : A -> vitem T byte) (count : Z) (l : list (option A)) (ar : archive) : R archive :=
    forZ 0 count (fun i ar => do c <- rd l i ;; Ok (put junk mk c ar)) ar.
  (** the elements of [bit_vector] *)
  Definition bit_cells (b : buf) : list (option Z) := match b_bits b with Some w => map Some w | None => repeat None (Z.to_nat (b_nints b)) end.
  (** DenseSegment.h:90-128 *)
  Definition buf_archive (b : buf) (ar : archive) : R archive :=
    let ar := ar ++ [VBool (b_uninit b); VInt (b_nnz b); VInt (b_cap b); VInt (b_nints b); VInt (b_snb b); VInt (b_snp b)] in
    do ar <- puts jt VVal (b_cap b) (b_value b) ar ;;
    do ar <- puts jz VInt (b_nints b) (bit_cells b) ar ;;
    do ar <- puts jt VVal (b_cap b) (b_cdata b) ar ;;
    do ar <- puts jz VInt (b_cap b) (b_cidx b) ar ;;
    do ar <- foldR (fun ar i => do c <- rd (b_sdata b) i ;; Ok (ar ++ [VByte c])) (zrange 0 (b_snb b)) ar ;;
    do ar <- puts jz VInt (b_snp b + 1) (b_nbscan b) ar ;;
    puts jz VInt (b_snp b + 1) (b_nzscan b) ar.
  (** DenseSegment.h:54-68 *)
  Definition md_archive (m : send_md) : archive := [VInt (md_nnz m); VInt (md_snb m); VInt (md_snp m)].
  (** DenseSegment.h:436-452.  A collection is its length and its elements.  [received_md] that was
      never set counts as zeros. *)
  Definition seg_archive (s : sg) (ar : archive) : R archive :=
    let ar := ar ++ [VBool (match s_prop s with None => true | Some _ => false end); VInt (s_cap s); VInt (s_nints s)] in
    do ar <- match s_prop s with Some b => buf_archive b ar | None => Ok ar end ;;
    let ar := ar ++ md_archive (s_rmd s) in
    let ar := ar ++ VInt (zlen (s_qmd s)) :: concat (map md_archive (s_qmd s)) in
    do ar <- foldR (fun ar b => buf_archive b ar) (s_recv s) (ar ++ [VInt (zlen (s_recv s))]) ;;
    foldR (fun ar b => buf_archive b ar) (s_pool s) (ar ++ [VInt (zlen (s_pool s))]).
  (** SpVec.h:55-67 *)
  Definition vec_archive (v : vobj T byte) (ar : archive) : R archive :=
    let ar := ar ++ [VInt (vo_nsegments v); VInt (vo_n v); VInt (vo_tiles v); VInt (vo_nrank v); VInt (vo_myrank v)] in
    let ar := ar ++ VInt (zlen (vo_nodes v)) :: map VInt (vo_nodes v) in
    let ar := ar ++ VInt (zlen (vo_starts v)) :: map VInt (vo_starts v) in
    foldR (fun ar s => seg_archive s ar) (vo_segs v) (ar ++ [VInt (zlen (vo_segs v))]).

  (** ** loading *)
  (** reading one item; a mismatch or the end of the archive is an error *)
  Definition take_bool (ar : archive) : R (bool * archive) := match ar with VBool b :: t => Ok (b, t) | _ => Err Uninit end.
  Definition take_int (ar : archive) : R (Z * archive) := match ar with VInt z :: t => Ok (z, t) | _ => Err Uninit end.
  Definition take_val (ar : archive) : R (T * archive) := match ar with VVal a :: t => Ok (a, t) | _ => Err Uninit end.
  Definition take_byte (ar : archive) : R (byte * archive) := match ar with VByte c :: t => Ok (c, t) | _ => Err Uninit end.
  Fixpoint take_many {A} (take : archive -> R (A * archive)) (k : nat) (ar : archive) : R (list A * archive) :=
    match k with
    | O => Ok ([], ar)
    | S k => do r <- take ar ;; do r' <- take_many take k (snd r) ;; Ok (fst r :: fst r', snd r')
    end.
  (** an array of [count] elements is allocated and filled; a negative size is an error *)
  Definition take_array {A} (take : archive -> R (A * archive)) (count : Z) (ar : archive) : R (list A * archive) :=
    if count <? 0 then Err OOB else take_many take (Z.to_nat count) ar.
  (** DenseSegment.h:129-178.  The arrays of the default constructor (line 199) are deleted. *)
  Definition buf_restore (ar : archive) : R (buf * archive) :=
    do r <- take_bool ar ;; let '(uninit, ar) := r in
    do r <- take_int ar ;; let '(nnz, ar) := r in
    do r <- take_int ar ;; let '(cap, ar) := r in
    do r <- take_int ar ;; let '(nints, ar) := r in
    do r <- take_int ar ;; let '(snb, ar) := r in
    do r <- take_int ar ;; let '(snp, ar) := r in
    do r <- take_array take_val cap ar ;; let '(value, ar) := r in
    do r <- take_array take_int nints ar ;; let '(bits, ar) := r in
    do r <- take_array take_val cap ar ;; let '(cdata, ar) := r in
    do r <- take_array take_int cap ar ;; let '(cidx, ar) := r in
    do r <- take_array take_byte snb ar ;; let '(sdata, ar) := r in
    do r <- take_array take_int (snp + 1) ar ;; let '(nbscan, ar) := r in
    do r <- take_array take_int (snp + 1) ar ;; let '(nzscan, ar) := r in
    Ok (mkbuf uninit nnz cap nints (map Some value) (Some bits) (map Some cdata) (map Some cidx) sdata snb snp (map Some nbscan) (map Some nzscan), ar).
  Definition take_md (ar : archive) : R (send_md * archive) :=
    do r <- take_int ar ;; let '(nnz, ar) := r in
    do r <- take_int ar ;; let '(snb, ar) := r in
    do r <- take_int ar ;; let '(snp, ar) := r in
    Ok (mkmd nnz snb snp, ar).
  Definition take_list {A} (take : archive -> R (A * archive)) (ar : archive) : R (list A * archive) :=
    do r <- take_int ar ;; take_array take (fst r) (snd r).
  (** DenseSegment.h:454-474; [junk] and [fresh] as in Segment.v, of the storage the new object allocates
      later *)
  Definition seg_restore (junk : Z) (fresh : option T) (ar : archive) : R (sg * archive) :=
    do r <- take_bool ar ;; let '(null, ar) := r in
    do r <- take_int ar ;; let '(cap, ar) := r in
    do r <- take_int ar ;; let '(nints, ar) := r in
    do r <- (if null : bool then Ok (None, ar) else do r <- buf_restore ar ;; Ok (Some (fst r), snd r)) ;; let '(p, ar) := r in
    do r <- take_md ar ;; let '(rmd, ar) := r in
    do r <- take_list take_md ar ;; let '(qmd, ar) := r in
    do r <- take_list buf_restore ar ;; let '(rc, ar) := r in
    do r <- take_list buf_restore ar ;; let '(pl, ar) := r in
    Ok (mkseg cap nints p rmd qmd rc pl junk fresh, ar).
  (** SpVec.h:55-67 *)
  Definition vec_restore (junk : Z) (fresh : option T) (ar : archive) : R (vobj T byte * archive) :=
    do r <- take_int ar ;; let '(nsegments, ar) := r in
    do r <- take_int ar ;; let '(n, ar) := r in
    do r <- take_int ar ;; let '(tiles, ar) := r in
    do r <- take_int ar ;; let '(nrank, ar) := r in
    do r <- take_int ar ;; let '(myrank, ar) := r in
    do r <- take_list take_int ar ;; let '(nodes, ar) := r in
    do r <- take_list take_int ar ;; let '(starts, ar) := r in
    do r <- take_list (seg_restore junk fresh) ar ;; let '(segs, ar) := r in
    Ok (mkVO nsegments n tiles nrank myrank nodes starts segs, ar).
End VecArchive.

(** SpVec.h:71-99: the object of rank [r] around segments *)
Definition vec_object {T byte} (n ns nr r : Z) (segs : list (seg T byte)) : R (vobj T byte) :=
  do nodes <- mapR (vown ns nr) (zrange 0 ns) ;;
  Ok (mkVO ns n ns nr r nodes (starts n ns) segs).
