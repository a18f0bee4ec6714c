(** include/Graph.h: a loaded graph over all ranks.  The number of ranks [nr] is also the number of
    tiles per dimension and of vector segments (Graph.h:164, 216). *)
From Verif Require Import Base Layout Bits Segment Vec DCSC SpMat GraphVert.

(** Graph.h:58-75.  [g_nt] is the member num_threads.  [g_nnz] has one entry per rank. *)
Record graph (V E byte : Type) := mkG {
  g_n : Z; g_nt : Z; g_A : spmat E; g_AT : spmat E; g_nnz : list Z;
  g_vp : list (list (seg V byte)); g_act : list (list (seg bool byte)) }.
Arguments mkG {V E byte}. Arguments g_n {V E byte}. Arguments g_nt {V E byte}. Arguments g_A {V E byte}. Arguments g_AT {V E byte}.
Arguments g_nnz {V E byte}. Arguments g_vp {V E byte}. Arguments g_act {V E byte}.

Section Graph.
  Context {V E byte : Type}.
  Variables srt tsrt : list (tedge E) -> list (tedge E).
  Variables (nr threads : Z).
  (** [junkA], [junkT]: unset members of empty tiles; [vjunk], [vfresh], [ajunk], [afresh]: what
      unwritten counters and cells of the vectors hold; [dv]: what [new V] holds *)
  Variables (junkA junkT : Z -> Z -> Z -> Z) (vjunk ajunk : Z -> Z) (vfresh : option V) (afresh : option bool) (dv : V).

  (** Graph.h:219-224 *)
  Definition edge_to_native (m : Z) (e : edge E) : R (edge E) :=
    do s <- vertexToNative threads nr m (e_src e) ;;
    do d <- vertexToNative threads nr m (e_dst e) ;; Ok (mkE s d (e_val e)).

  (** Graph.h:231-238 and 178-184 *)
  Definition g_vectors (n : Z) : R (list (list (seg V byte)) * list (list (seg bool byte))) :=
    do vp <- mapR (fun r => g_new_vp n nr vjunk vfresh threads r dv) (zrange 0 nr) ;;
    do act <- mapR (fun r => g_new_active n nr ajunk afresh threads r) (zrange 0 nr) ;;
    Ok (vp, act).

  (** Graph.h:210-246 [ReadEdgelist] called on every rank with its edge array and the dimensions
      [m], [n].  The second result is what the edge arrays of the callers hold afterwards. *)
  Definition g_ReadEdgelist (m n : Z) (blobs : list (list (edge E))) : R (graph V E byte * list (list (edge E))) :=
    do nblobs <- mapR (mapR (edge_to_native m)) blobs ;;
    do a <- mat_new srt tsrt nr threads junkA m n nr nr nblobs ;;
    do at_ <- mat_transpose srt tsrt nr threads junkT (fst a) nr nr ;;
    do _ <- assertb (m =? n) ;;
    do nnz <- mat_getNNZ nr (fst a) ;;
    do va <- g_vectors m ;;
    Ok (mkG m threads (fst a) at_ nnz (fst va) (snd va), snd a).

  (** Graph.h:327-335 on rank [r] *)
  Definition g_getEdgelist (g : graph V E byte) (r : Z) : R (list (edge E)) :=
    do es <- mat_get_edges (g_A g) r ;;
    mapR (fun e => do s <- nativeToVertex (g_nt g) nr (g_n g) (e_src e) ;;
                   do d <- nativeToVertex (g_nt g) nr (g_n g) (e_dst e) ;; Ok (mkE s d (e_val e))) es.
End Graph.
