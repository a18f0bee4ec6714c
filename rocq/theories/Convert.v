(** src/graph_converter.cpp: the converter of graph files. *)
From Coq Require Import QArith.
From Verif Require Import Base DCSC EdgeList Apps FileIO SpMat Graph GraphHist GraphBin.
Open Scope Z_scope.

(** graph_converter.cpp:19-35 [myoptions] *)
Record options := mkO {
  o_selfloops : Z; o_duplicatededges : Z; o_uppertriangular : Z; o_bidirectional : Z;
  o_inputformat : Z; o_outputformat : Z; o_inputheader : Z; o_outputheader : Z;
  o_inputedgeweights : Z; o_outputedgeweights : Z; o_edgeweighttype : Z; o_nvertices : Z;
  o_random_range : Z; o_nsplits : Z; o_randomizeID : Z }.

(** graph_converter.cpp:65-84 *)
Definition initOptions : options := mkO 0 0 0 0 1 0 1 1 1 1 0 0 128 1 0.

(** graph_converter.cpp:37-63 *)
Definition validateOptions (o : options) : bool :=
  negb (negb (o_selfloops o =? 0) && negb (o_selfloops o =? 1)) &&
  negb ((o_uppertriangular o =? 1) && (o_bidirectional o =? 1)) &&
  negb ((o_inputedgeweights o =? 0) && (o_outputedgeweights o =? 1)) &&
  negb (o_nsplits o <? 0) &&
  negb (negb (o_nsplits o =? 1)).

Section Convert.
  Context {E byte : Type}.
  (** the weight type; what scanf stores for numbers out of range; the ranks, threads, sorts and memory
      contents (for the graphs of format 2; the vertex properties are ints, [dv] what a new one holds) *)
  Variables (w : wtype E) (wide : Z -> Z) (m : machine Z E byte) (dv : Z).
  (** the sort on each rank; rounding to double, the conversion to the weight type, RAND_MAX, the values
      of rand() on each rank during random_edge_weights and on rank 0 during the renaming; [fuel]
      bounds the reading loops *)
  Variables (srt : Z -> list (edge E) -> list (edge E)) (fl : Q -> Q) (cast : Q -> E) (rmax : Z)
    (rndw : Z -> Z -> Z) (rnd : Z -> Z) (fuel : nat).
  Notation nr := (m_nr m).

  (** The steps of the function on the edge lists of all ranks. *)
  Definition each (f : Z -> elist E -> R (elist E)) (els : list (elist E)) : R (list (elist E)) :=
    mapR (fun p => f (fst p) (snd p)) (combine (zrange 0 (zlen els)) els).
  (** graph_converter.cpp:174-183 *)
  Definition set_dimensions (o : options) (el : elist E) : R (elist E) :=
    let maxn := Z.max (el_n el) (el_m el) in
    if 0 <? o_nvertices o then
      do _ <- assertb (maxn <=? o_nvertices o) ;;
      Ok (mkEL (el_arr el) (o_nvertices o) (o_nvertices o) (el_nnz el))
    else Ok (mkEL (el_arr el) maxn maxn (el_nnz el)).
  (** Graph.h:327-335 [getEdgelist] with the dimensions of SpMat.h:357-359 *)
  Definition edgelist_of (g : graph Z E byte) (r : Z) : R (elist E) :=
    do es <- g_getEdgelist nr g r ;; Ok (mkEL (map Some es) (mt_m (g_A g)) (mt_n (g_A g)) (zlen es)).
  (** Graph.h:210-246 [ReadEdgelist] on the lists of all ranks (the dimensions are those of rank 0's) *)
  Definition graph_of (els : list (elist E)) : R (graph Z E byte) :=
    do blobs <- mapR (fun el => mapR (fun i => rde el i) (zrange 0 (el_nnz el))) els ;;
    match els with
    | [] => Err Uninit
    | el :: _ =>
      do r <- g_ReadEdgelist (m_srt m) (m_tsrt m) (m_nr m) (m_nt m) (m_junkA m) (m_junkT m) (m_vjunk m) (m_ajunk m) (m_vfresh m) (m_afresh m) dv (el_m el) (el_n el) blobs ;;
      Ok (fst r)
    end.

  (** graph_converter.cpp:168-189.  An unknown format leaves the list as the constructor of
      edgelist.h:69-70 makes it. *)
  Definition read_input (o : options) (din : dirt) (gin : folder E) : R (list (elist E)) :=
    let els := repeat (mkEL [] 0 0 0) (Z.to_nat nr) in
    do els <- (if (o_inputformat o =? 0) || (o_inputformat o =? 1) then
                 do els <- load_edgelist w wide fuel (mkFmt (o_inputformat o =? 0) (o_inputheader o =? 1) (o_inputedgeweights o =? 1)) nr din ;;
                 mapR (set_dimensions o) els
               else Ok els) ;;
    if o_inputformat o =? 2 then do g <- read_bin m dv gin ;; mapR (edgelist_of g) (zrange 0 nr) else Ok els.
  (** graph_converter.cpp:190-209 *)
  Definition transform (o : options) (els : list (elist E)) : R (list (elist E)) :=
    do els <- (if o_outputedgeweights o =? 3 then each (fun r el => random_edge_weights fl cast rmax (rndw r) (o_random_range o) el) els else Ok els) ;;
    do els <- shuffle_edges (m_nt m) els ;;
    do els <- (if o_selfloops o =? 0 then mapR remove_selfedges els else Ok els) ;;
    do els <- (if o_bidirectional o =? 1 then mapR create_bidirectional_edges els else Ok els) ;;
    do els <- (if o_uppertriangular o =? 1 then mapR convert_to_dag els else Ok els) ;;
    do els <- (if o_duplicatededges o =? 0 then remove_duplicate_edges (m_nt m) srt els else Ok els) ;;
    if o_randomizeID o =? 1 then randomize_edgelist_square rnd els else Ok els.
  (** graph_converter.cpp:210-221: the edge files and the GraphMat files under the output name *)
  Definition write_output (o : options) (els : list (elist E)) (dout : dirt) (gout : folder E) : R (dirt * folder E) :=
    do dout <- (if (o_outputformat o =? 0) || (o_outputformat o =? 1) then
                  write_edgelist w (mkFmt (o_outputformat o =? 0) (o_outputheader o =? 1) (negb (o_outputedgeweights o =? 0))) dout els
                else Ok dout) ;;
    if o_outputformat o =? 2 then do g <- graph_of els ;; do gout <- write_bin m g gout ;; Ok (dout, gout) else Ok (dout, gout).
  (** graph_converter.cpp:161-224 *)
  Definition process_graph (o : options) (din : dirt) (gin : folder E) (dout : dirt) (gout : folder E) : R (dirt * folder E) :=
    do els <- read_input o din gin ;;
    do els <- transform o els ;;
    write_output o els dout gout.
End Convert.

(** graph_converter.cpp:305-337: main, after the options have been parsed.  [process t]: process_graph
    for the [t]-th weight type (unsigned int, double, float), with its outcome.  [Refused]: ended
    before any file was opened. *)
Inductive outcome (A : Type) := Refused (e : err) | Ran (r : R A).
Arguments Refused {A}. Arguments Ran {A}.
Definition converter_main {A} (o : options) (process : Z -> R A) : outcome A :=
  if validateOptions o then
    if (o_edgeweighttype o =? 0) || (o_edgeweighttype o =? 1) || (o_edgeweighttype o =? 2) then Ran (process (o_edgeweighttype o)) else Refused ExitCall
  else Refused AssertFail.
