(** Graph.h:152-208: saving a graph to GraphMat's own binary files, one per rank, and loading it
    back.  A file is the sequence of items boost::serialization is asked to write ([item], DCSC.v).
    Not modelled: the archive's own header, class versions and object numbers, and the bytes of
    the items. *)
From Verif Require Import Base Layout Bits Segment Vec DCSC SpMat GraphVert Graph GraphHist.

Section GraphBin.
  Context {E : Type}.
  Notation archive := (list (item E)).

  (** boost's std::vector: the size, then the elements *)
  Definition put_vec {A} (put : A -> R archive) (l : list A) : R archive :=
    do xs <- mapR put l ;; Ok (IInt (zlen l) :: concat xs).
  Definition get_vec {A} (get : archive -> R (A * archive)) (ar : archive) : R (list A * archive) :=
    do r <- get_int ar ;; get_many get (Z.to_nat (fst r)) (snd r).
  Definition put_int (z : Z) : R archive := Ok [IInt z].
  (** boost's pointers: a mark for NULL, otherwise the object; DCSCTile.h:81-178 for the object *)
  Definition put_ptr (t : option (dcsc E)) : R archive :=
    match t with None => Ok [IInt 0] | Some t => do ar <- dcsc_save t ;; Ok (IInt 1 :: ar) end.
  Definition get_ptr (ar : archive) : R (option (dcsc E) * archive) :=
    do r <- get_int ar ;;
    if fst r =? 0 then Ok (None, snd r) else do r' <- dcsc_load (snd r) ;; Ok (Some (fst r'), snd r').

  (** What one rank's SpMat object holds. *)
  Record matpart := mkPart {
    p_ntx : Z; p_nty : Z; p_m : Z; p_n : Z; p_tiles : list (list (option (dcsc E)));
    p_startx : list Z; p_starty : list Z; p_ids : list Z }.

  (** SpMat.h:62-74, writing *)
  Definition part_save (p : matpart) : R archive :=
    do ts <- put_vec (put_vec put_ptr) (p_tiles p) ;;
    do sx <- put_vec put_int (p_startx p) ;;
    do sy <- put_vec put_int (p_starty p) ;;
    do ids <- put_vec put_int (p_ids p) ;;
    Ok (IInt (p_ntx p) :: IInt (p_nty p) :: IInt (p_m p) :: IInt (p_n p) :: ts ++ sx ++ sy ++ ids).
  (** SpMat.h:62-74, reading *)
  Definition part_load (ar : archive) : R (matpart * archive) :=
    do r <- get_int ar ;; let '(ntx, ar) := r in
    do r <- get_int ar ;; let '(nty, ar) := r in
    do r <- get_int ar ;; let '(m, ar) := r in
    do r <- get_int ar ;; let '(n, ar) := r in
    do r <- get_vec (get_vec get_ptr) ar ;; let '(ts, ar) := r in
    do r <- get_vec get_int ar ;; let '(sx, ar) := r in
    do r <- get_vec get_int ar ;; let '(sy, ar) := r in
    do r <- get_vec get_int ar ;; let '(ids, ar) := r in
    Ok (mkPart ntx nty m n ts sx sy ids, ar).

  (** The object of rank [r] in our matrices over all ranks ([spmat]), and back.  In [spmat] the
      sizes, boundaries and owners are the same on all ranks and the boundaries are those of
      SpMat.h:301-309; objects that differ there cannot be put together ([Uninit]; the code does
      not check this). *)
  Definition mat_part (a : spmat E) (r : Z) : R matpart :=
    do tab <- rd (mt_tiles a) r ;;
    Ok (mkPart (mt_ntx a) (mt_nty a) (mt_m a) (mt_n a) tab (mat_starts (mt_n a) (mt_ntx a)) (mat_starts (mt_m a) (mt_nty a)) (mt_ids a)).
  Definition ints_eqb (l l' : list Z) : bool := if list_eq_dec Z.eq_dec l l' then true else false.
  Definition fits (p q : matpart) : bool :=
    (p_ntx p =? p_ntx q) && (p_nty p =? p_nty q) && (p_m p =? p_m q) && (p_n p =? p_n q) && ints_eqb (p_ids p) (p_ids q) &&
    ints_eqb (p_startx p) (mat_starts (p_n p) (p_ntx p)) && ints_eqb (p_starty p) (mat_starts (p_m p) (p_nty p)).
  Definition mat_join (ps : list matpart) : R (spmat E) :=
    match ps with
    | [] => Err Uninit
    | p :: _ => if forallb (fits p) ps then Ok (mkM (p_m p) (p_n p) (p_ntx p) (p_nty p) (p_ids p) (map p_tiles ps)) else Err Uninit
    end.

  (** the files whose names are a prefix and a number *)
  Definition folder := Z -> option archive.

  Section Graph.
    Context {V byte : Type}.
    Variables (nr threads : Z).
    (** Graph.h:195-207 on rank [r] *)
    Definition rank_write (g : graph V E byte) (r : Z) : R archive :=
      do pa <- mat_part (g_A g) r ;; do a <- part_save pa ;;
      do pat <- mat_part (g_AT g) r ;; do at_ <- part_save pat ;;
      Ok (a ++ at_ ++ [IInt (g_nt g)]).
    (** Graph.h:195-208: all ranks *)
    Definition g_WriteGraphMatBin (g : graph V E byte) (dir : folder) : R folder :=
      do files <- mapR (rank_write g) (zrange 0 nr) ;;
      Ok (fun k => if (0 <=? k) && (k <? nr) then match rd files k with Ok f => Some f | Err _ => None end else dir k).

    (** Graph.h:153-175 on rank [r].  The constructor of the archive throws when there is no file;
        nobody catches it ([AssertFail] here). *)
    Definition rank_read (dir : folder) (r : Z) : R (matpart * matpart * Z) :=
      match dir r with
      | None => Err AssertFail
      | Some ar =>
          do a <- part_load ar ;;
          do at_ <- part_load (snd a) ;;
          if negb (p_ntx (fst a) =? nr) || negb (p_nty (fst a) =? nr) || negb (p_ntx (fst at_) =? nr) || negb (p_nty (fst at_) =? nr) then Err ExitCall
          else
            do t <- get_int (snd at_) ;;
            if negb (fst t =? threads) then Err ExitCall else Ok (fst a, fst at_, fst t)
      end.
    Variables (vjunk ajunk : Z -> Z) (vfresh : option V) (afresh : option bool) (dv : V).
    (** Graph.h:153-193: all ranks; the first to fail ends the program *)
    Definition g_ReadGraphMatBin (dir : folder) : R (graph V E byte) :=
      do parts <- mapR (rank_read dir) (zrange 0 nr) ;;
      do a <- mat_join (map (fun p => fst (fst p)) parts) ;;
      do at_ <- mat_join (map (fun p => snd (fst p)) parts) ;;
      do va <- g_vectors nr threads vjunk ajunk vfresh afresh dv (mt_m a) ;;
      do nnz <- mat_getNNZ nr a ;;
      Ok (mkG (mt_m a) threads a at_ nnz (fst va) (snd va)).
  End Graph.
End GraphBin.
(** with the numbers of ranks and threads of a machine (GraphHist.v) *)
Definition write_bin {V E byte} (m : machine V E byte) (g : graph V E byte) (dir : folder) : R folder := g_WriteGraphMatBin (m_nr m) g dir.
Definition read_bin {V E byte} (m : machine V E byte) (dv : V) (dir : folder) : R (graph V E byte) :=
  g_ReadGraphMatBin (m_nr m) (m_nt m) (m_vjunk m) (m_ajunk m) (m_vfresh m) (m_afresh m) dv dir.
Arguments matpart E : clear implicits. Arguments folder E : clear implicits.
