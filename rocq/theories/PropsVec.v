(** Properties C03, C19, C25, C26: distributed vectors (include/GMDP/vectors/SpVec.h) and the
    vertex properties of a graph (include/Graph.h). *)
From Coq Require Import Sorting.Permutation.
From Verif Require Import BaseLemmas Layout Segment SegHistory Bucket Vec GraphVert GraphVertProofs.

(** C03.  Load a graph of [n] vertices on [nr] ranks and let rank [r] issue the calls [hist r]
    ([hist] constant: the same program everywhere).  Each vertex has exactly one owner; on the
    owner a read gives the value most recently stored, elsewhere the default [d] of the local
    result object. *)
Theorem C03_vertex_property_map {V} n nr nt threads junk fresh (dv : V) (hist : Z -> list (@gop V)) :
  0 <= n -> 1 <= nr -> 1 <= nt -> 1 <= threads -> (forall r, 0 <= r < nr -> Forall (gop_in_range n) (hist r)) ->
  (forall v, 1 <= v <= n -> exists o, 0 <= o < nr /\ forall r, 0 <= r < nr -> g_vertexNodeOwner n nr nt r v = Ok (o =? r)) /\
  (forall r, 0 <= r < nr -> exists segs : list (seg V unit), run_graph_history n nr nt junk fresh threads r dv (hist r) = Ok segs /\
    forall v d, 1 <= v <= n -> exists o, g_vertexNodeOwner n nr nt r v = Ok o /\
      g_getVertexproperty n nr nt r v d segs = Ok (Some (if o : bool then latest dv (hist r) v else d))).
Proof. exact (fun Hn Hr Hnt Ht Ho => history_map n nr nt Hn Hr Hnt junk fresh threads dv hist Ht Ho). Qed.
Print Assumptions C03_vertex_property_map.

Example C03_example :
  Forall (gop_in_range 600) [GSet 5 10; GSetAll 1; GSet 7 20; GSet 7 21] /\
  latest 0 [GSet 5 10; GSetAll 1; GSet 7 20; GSet 7 21] 7 = 21 /\ latest 0 [GSet 5 10; GSetAll 1; GSet 7 20; GSet 7 21] 5 = 1 /\
  g_vertexNodeOwner 600 3 2 1 7 = Ok false /\ g_vertexNodeOwner 600 3 2 0 7 = Ok true /\ g_vertexNodeOwner 600 3 2 1 50 = Ok true.
Proof. split; [repeat constructor; lia|]. repeat split; reflexivity. Qed.

(** C19.  After any history of stores (the same on all ranks), rank [r] writes exactly one file,
    number [r]; the files in order list every vertex once, ascending, with id [v-1] and its
    current value. *)
Theorem C19_save_vertices {V} n nr nt threads junk fresh (dv : V) (ops : list (@gop V)) :
  0 <= n -> 1 <= nr -> 1 <= nt -> 1 <= threads -> Forall (gop_in_range n) ops ->
  exists vp : list (list (seg V unit)), mapR (fun r => run_graph_history n nr nt junk fresh threads r dv ops) (zrange 0 nr) = Ok vp /\
  exists file : Z -> list (Z * option V),
    g_saveVertexproperty n nr nt junk fresh threads vp = Ok (map (fun r => [(r, file r)]) (zrange 0 nr)) /\
    concat (map file (zrange 0 nr)) = map (fun v => (v - 1, Some (latest dv ops v))) (zrange 1 (n + 1)).
Proof. exact (fun Hn Hr Hnt Ht Ho => save_history n nr nt Hn Hr Hnt junk fresh threads dv ops Ht Ho). Qed.
Print Assumptions C19_save_vertices.

Example C19_example : exists vp : list (list (seg Z unit)),
  mapR (fun r => run_graph_history 70 2 1 (fun _ => 0) None 1 r 4 [GSet 3 9; GSet 68 5]) (zrange 0 2) = Ok vp /\
  (do fs <- g_saveVertexproperty 70 2 1 (fun _ => 0) None 1 vp ;; Ok (map (map fst) fs)) = Ok [[0]; [1]].
Proof. eexists. split; [vm_compute; reflexivity|vm_compute; reflexivity]. Qed.

(** C25.  [blobs] holds the (id, value) lists of the ranks.  A new vector ingesting them stores,
    for each id, the value that comes last in rank order then list order; the count is the number of
    distinct ids; with at most one segment per rank (as in a graph) the exports of all ranks
    together are exactly those pairs. *)
Theorem C25_ingest {T} n ns nr threads junk fresh (blobs : list (list (Z * T))) :
  0 <= n -> 1 <= ns -> 1 <= nr -> 1 <= threads -> zlen blobs = nr -> (forall e, In e (concat blobs) -> 1 <= fst e <= n) ->
  exists v v' : list (list (seg T unit)), mapR (fun _ => vec_new n ns junk fresh) (zrange 0 nr) = Ok v /\ vec_ingest n ns nr threads blobs v = Ok v' /\
    vec_getNNZ ns nr v' = Ok (zlen (nodup Z.eq_dec (map fst (concat blobs)))) /\
    (forall id a, lastv (concat blobs) id = Some a -> exists o, 0 <= o < nr /\ exists segs, rd v' o = Ok segs /\
        vec_node_owner n ns nr o id = Ok true /\ forall d, vec_get n ns nr o id d segs = Ok (Some a)) /\
    (ns <= nr -> exists out, mapR (fun r => do segs <- rd v' r ;; vec_get_edges n ns nr r segs) (zrange 0 nr) = Ok out /\
        Permutation (concat out) (map (fun id => (id, lastv (concat blobs) id)) (nodup Z.eq_dec (map fst (concat blobs))))).
Proof. exact (fun Hn Hs Hr Ht Lb He => ingest_lookup n ns nr Hn Hs Hr junk fresh threads blobs Ht Lb He). Qed.
Print Assumptions C25_ingest.

(** With distinct ids nothing is lost: the export is the supplied multiset. *)
Theorem C25_ingest_distinct {T} n ns nr threads junk fresh (blobs : list (list (Z * T))) :
  0 <= n -> 1 <= ns <= nr -> 1 <= threads -> zlen blobs = nr -> (forall e, In e (concat blobs) -> 1 <= fst e <= n) ->
  NoDup (map fst (concat blobs)) ->
  exists v v' : list (list (seg T unit)), mapR (fun _ => vec_new n ns junk fresh) (zrange 0 nr) = Ok v /\ vec_ingest n ns nr threads blobs v = Ok v' /\
    vec_getNNZ ns nr v' = Ok (zlen (concat blobs)) /\
    exists out, mapR (fun r => do segs <- rd v' r ;; vec_get_edges n ns nr r segs) (zrange 0 nr) = Ok out /\
        Permutation (concat out) (map (fun e => (fst e, Some (snd e))) (concat blobs)).
Proof. exact (fun Hn Hs Ht Lb He Nd => ingest_distinct n ns nr Hn Hs junk fresh threads blobs Ht Lb He Nd). Qed.
Print Assumptions C25_ingest_distinct.

Example C25_example : let blobs := [[(3, 1); (300, 2)]; [(3, 7)]] in
  (forall e, In e (concat blobs) -> 1 <= fst e <= 400) /\ zlen blobs = 2 /\ lastv (concat blobs) 3 = Some 7 /\ nodup Z.eq_dec (map fst (concat blobs)) = [300; 3].
Proof. simpl. repeat split; try reflexivity; intros; intuition subst; simpl; lia. Qed.

(** With several segments on one rank the export dereferences the null storage of a segment that
    got nothing. *)
Theorem C25_export_many_segments_refuted : exists (v v' : list (list (seg Z unit))),
  mapR (fun _ => vec_new 512 2 (fun _ => 0) None) (zrange 0 1) = Ok v /\ vec_ingest 512 2 1 1 [[(1, 5)]] v = Ok v' /\
  mapR (fun r => do segs <- rd v' r ;; vec_get_edges 512 2 1 r segs) (zrange 0 1) = Err NullDeref.
Proof. exact export_many_segments_bad. Qed.
Print Assumptions C25_export_many_segments_refuted.

(** C26.  Each rank [r] performs its own history [ops r] of set / unset / setAll / Clear / bulk
    deactivate (possibly empty) on its copy of a new vector.  An id belongs to the vector if the history of its
    owner put it there; [getNNZ] is exactly the number of such ids. *)
Theorem C26_getNNZ {T} n ns nr threads junk fresh (ops : Z -> list (sop T)) :
  0 <= n -> 1 <= ns -> 1 <= nr -> 1 <= threads -> (forall r, 0 <= r < nr -> Forall (sop_in_range n) (ops r)) ->
  exists v : list (list (seg T unit)), mapR (fun r => vec_history n ns nr junk fresh threads r (ops r)) (zrange 0 nr) = Ok v /\
   exists own, (forall id r, 1 <= id <= n -> vec_node_owner n ns nr r id = Ok (own id =? r)) /\
   vec_getNNZ ns nr v = Ok (zlen (members n (fun id => spec_sops n (ops (own id)) id))).
Proof. exact (fun Hn Hs Hr Ht Ho => vec_nnz_history n ns nr Hn Hs Hr junk fresh threads ops Ht Ho). Qed.
Print Assumptions C26_getNNZ.

Example C26_example : let ops := [OSetAll true; OSetInactive false; OSet 300 true; OSet 2 true; OUnset 7] in
  Forall (sop_in_range 600) ops /\ members 600 (spec_sops 600 ops) = [2; 300].
Proof. split; [repeat constructor; lia|vm_compute; reflexivity]. Qed.
