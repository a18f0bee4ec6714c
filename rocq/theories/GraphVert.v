(** include/Graph.h: the vertex side of a graph.  [n] vertices, [nr] ranks (= tiles_per_dim =
    number of vector segments, Graph.h:216), [nt] the thread count recorded at load time
    (Graph.h:217), [threads] the thread count when an operation runs. *)
From Verif Require Import Base Layout Bits Segment SegHistory Bucket Vec.

Section GraphVert.
  Context {V byte : Type}.
  Notation sg := (seg V byte).
  Variables n nr nt : Z.

  (** Graph.h:233-236 (and 186-189 after a binary load): the property vector of one rank.  [dv]
      is what [new V] holds; for a [V] without a constructor that value is unspecified. *)
  Definition g_new_vp (junk : Z -> Z) (fresh : option V) (threads r : Z) (dv : V) : R (list sg) :=
    do segs <- vec_new n nr junk fresh ;; vec_setAll nr nr threads r (Some dv) segs.

  (** Graph.h:312-316 *)
  Definition g_setVertexproperty (threads r v : Z) (val : V) (segs : list sg) : R (list sg) :=
    do w <- vertexToNative nt nr n v ;; vec_set n nr nr threads r w (Some val) segs.
  (** Graph.h:307-310 *)
  Definition g_setAllVertexproperty (threads r : Z) (val : V) (segs : list sg) : R (list sg) :=
    vec_setAll nr nr threads r (Some val) segs.
  (** Graph.h:358-364; [dv] is what the local [V vp] holds *)
  Definition g_getVertexproperty (r v : Z) (dv : V) (segs : list sg) : R (option V) :=
    do w <- vertexToNative nt nr n v ;; vec_get n nr nr r w (Some dv) segs.
  (** Graph.h:352-356 *)
  Definition g_vertexNodeOwner (r v : Z) : R bool :=
    do w <- vertexToNative nt nr n v ;; vec_node_owner n nr nr r w.

  (** Graph.h:318-325 on one rank *)
  Definition g_getVertexEdgelist (r : Z) (segs : list sg) : R (list (Z * V)) :=
    do es <- vec_get_edges n nr nr r segs ;;
    mapR (fun e : Z * option V => do a <- need (snd e) ;; do v <- nativeToVertex nt nr n (fst e) ;; Ok (v, a)) es.

  (** Graph.h:337-350 over all ranks: the files each rank writes, as (segment number, lines) *)
  Definition g_saveVertexproperty (junk : Z -> Z) (fresh : option V) (threads : Z) (vp : list (list sg))
      : R (list (list (Z * list (Z * option V)))) :=
    do blobs <- mapR (fun r => do segs <- rd vp r ;; g_getVertexEdgelist r segs) (zrange 0 nr) ;;
    do v2 <- mapR (fun _ => @vec_new V byte n nr junk fresh) (zrange 0 nr) ;;
    do v2 <- vec_ingest n nr nr threads blobs v2 ;;
    mapR (fun r => do segs <- rd v2 r ;; vec_save n nr nr r segs) (zrange 0 nr).

  (** calls a rank makes on its copy of the graph object *)
  Inductive gop := GSet (v : Z) (a : V) | GSetAll (a : V).
  Definition run_gop (threads r : Z) (segs : list sg) (o : gop) : R (list sg) :=
    match o with
    | GSet v a => g_setVertexproperty threads r v a segs
    | GSetAll a => g_setAllVertexproperty threads r a segs
    end.
  Definition run_gops (threads r : Z) (ops : list gop) (segs : list sg) : R (list sg) :=
    foldR (run_gop threads r) ops segs.
  (** load, then the calls *)
  Definition run_graph_history (junk : Z -> Z) (fresh : option V) (threads r : Z) (dv : V) (ops : list gop) : R (list sg) :=
    do segs <- g_new_vp junk fresh threads r dv ;; run_gops threads r ops segs.
End GraphVert.

(** specification: the value most recently stored for [v] *)
Fixpoint latest {V} (dv : V) (ops : list (@gop V)) (v : Z) : V :=
  match ops with
  | [] => dv
  | o :: ops => latest (match o with GSet u a => if u =? v then a else dv | GSetAll a => a end) ops v
  end.
Definition gop_in_range {V} (n : Z) (o : @gop V) : Prop := match o with GSet v _ => 1 <= v <= n | GSetAll _ => True end.

(** specification: operations on the active set, as seen by one rank (Graph.h:262-290) *)
Section GraphAct.
  Context {byte : Type}.
  Notation sg := (seg bool byte).
  Variables n nr nt : Z.
  (** Graph.h:237-238: fresh active vector of one rank *)
  Definition g_new_active (junk : Z -> Z) (fresh : option bool) (threads r : Z) : R (list sg) :=
    do segs <- vec_new n nr junk fresh ;; vec_setAll nr nr threads r (Some false) segs.
  Inductive aop := AActive (v : Z) | AInactive (v : Z) | AAllActive | AAllInactive.
  Definition run_aop (threads r : Z) (segs : list sg) (o : aop) : R (list sg) :=
    match o with
    | AActive v => do w <- vertexToNative nt nr n v ;; vec_set n nr nr threads r w (Some true) segs
    | AInactive v => do w <- vertexToNative nt nr n v ;; vec_unset n nr nr threads r w segs
    | AAllActive => vec_setAll nr nr threads r (Some true) segs
    | AAllInactive => vec_set_inactive nr nr threads r (Some false) segs
    end.
  Definition run_aops (threads r : Z) (ops : list aop) (segs : list sg) : R (list sg) :=
    foldR (run_aop threads r) ops segs.
End GraphAct.
