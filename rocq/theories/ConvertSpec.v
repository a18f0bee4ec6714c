(** What the converter is asked to do, in terms of lists of edges. *)
From Coq Require Import QArith.
From Verif Require Import Base DCSC EdgeList EdgeSpec Apps FileIO FileSpec MatSpec SpMat Graph GraphOps GraphHist GraphBin Convert.
Open Scope Z_scope.

Section CS.
  Context {E byte : Type}.
  Variables (w : wtype E) (m : machine Z E byte) (fuel : nat) (cast : Q -> E).
  Notation edges := (list (edge E)).
  Notation nr := (m_nr m).

  (** *** the edges that the input contains *)
  Definition in_format (o : options) : fmt := mkFmt (o_inputformat o =? 0) (o_inputheader o =? 1) (o_inputedgeweights o =? 1).
  Definition out_format (o : options) : fmt := mkFmt (o_outputformat o =? 0) (o_outputheader o =? 1) (negb (o_outputedgeweights o =? 0)).
  (** the files that are read, by rank *)
  Definition files_read (d : dirt) (F : Z -> efile E) : list (efile E) := map F (concat (map (read_by nr d) (zrange 0 nr))).
  (** the largest dimension announced (with a header) or the largest id (without) *)
  Definition largest (fm : fmt) (fs : list (efile E)) : Z := maxl (map (file_m fm) fs ++ map (file_n fm) fs).
  (** Edge files: well formed, each with the right count, all lines ended. *)
  Definition edge_files (o : options) (d : dirt) (fs : list (efile E)) : Prop :=
    exists F, supported w (in_format o) /\ holds_files w (in_format o) d F /\ enough fuel d F /\
      (forall i, ef_newline (F i) = true) /\ (forall i, ef_count (F i) = zlen (ef_edges (F i))) /\ fs = files_read d F.
  Definition file_edges (o : options) (fs : list (efile E)) : edges := map (back w (in_format o)) (concat (map (@ef_edges E) fs)).
  (** GraphMat files: written, with as many ranks and threads, from a graph of [n] vertices whose
      edges are [es]. *)
  Definition graph_files (gin : folder E) (n : Z) (es : edges) : Prop :=
    exists neq (m0 : machine Z E byte) dv0 blobs h g q dir,
      setting m0 n blobs /\ calls_ok n m0 h /\ reached neq m0 dv0 n blobs h g /\ means neq dv0 n blobs h q /\
      m_nr m0 = nr /\ m_nt m0 = m_nt m /\ write_bin m0 g dir = Ok gin /\ gs_es q = es.
  (** The input is a graph of [n] vertices with the edges [es]. *)
  Definition input_is (o : options) (din : dirt) (gin : folder E) (n : Z) (es : edges) : Prop :=
    if (o_inputformat o =? 0) || (o_inputformat o =? 1) then
      exists fs, edge_files o din fs /\ es = file_edges o fs /\ largest (in_format o) fs <= n /\ n = (if 0 <? o_nvertices o then o_nvertices o else largest (in_format o) fs)
    else if o_inputformat o =? 2 then graph_files gin n es
    else n = 0 /\ es = [].

  (** *** the steps, in the order in which they are taken; each one up to the order of the edges *)
  Definition when (b : bool) (step : edges -> edges -> Prop) (l l' : edges) : Prop := if b then step l l' else Permutation l' l.
  Definition reweighted (range : Z) (l l' : edges) : Prop :=
    Permutation (map ends l') (map ends l) /\ forall e, In e l' -> exists t, (1 <= t <= inject_Z range)%Q /\ e_val e = cast t.
  Definition without_loops (l l' : edges) : Prop := Permutation l' (filter (fun e => negb (e_src e =? e_dst e)) l).
  Definition both_ways (l l' : edges) : Prop := Permutation l' (l ++ map (fun e => mkE (e_dst e) (e_src e) (e_val e)) l).
  Definition upwards (l l' : edges) : Prop := Permutation l' (map (fun e => mkE (Z.min (e_src e) (e_dst e)) (Z.max (e_src e) (e_dst e)) (e_val e)) l).
  (** one of the edges of each pair of endpoints remains *)
  Definition one_per_pair (l l' : edges) : Prop :=
    NoDup (map ends l') /\ incl l' l /\ incl (map ends l) (map ends l').
  Definition renamed (n : Z) (l l' : edges) : Prop := exists p, permutes n p /\ Permutation l' (map (rename p) l).
  Definition converted (o : options) (n : Z) (es out : edges) : Prop :=
    exists l1 l2 l3 l4 l5,
      when (o_outputedgeweights o =? 3) (reweighted (o_random_range o)) es l1 /\
      when (o_selfloops o =? 0) without_loops l1 l2 /\
      when (o_bidirectional o =? 1) both_ways l2 l3 /\
      when (o_uppertriangular o =? 1) upwards l3 l4 /\
      when (o_duplicatededges o =? 0) one_per_pair l4 l5 /\
      when (o_randomizeID o =? 1) (renamed n) l5 out.

  (** *** the files afterwards: the list [parts] gives the edges written by each rank *)
  Definition output_is (dv : Z) (o : options) (n : Z) (parts : list edges) (dout : dirt) (gout : folder E) (dout' : dirt) (gout' : folder E) : Prop :=
    zlen parts = nr /\
    (if (o_outputformat o =? 0) || (o_outputformat o =? 1) then
       forall i, 0 <= i -> file_at dout' i = match rd parts i with Ok l => Some (content w (out_format o) (mkEF n n (zlen l) l true)) | Err _ => file_at dout i end
     else dout' = dout) /\
    (if o_outputformat o =? 2 then exists g, load m dv n parts = Ok g /\ write_bin m g gout = Ok gout' else gout' = gout).

  (** *** options that are refused *)
  Definition acceptable (o : options) : Prop :=
    (o_selfloops o = 0 \/ o_selfloops o = 1) /\ ~ (o_uppertriangular o = 1 /\ o_bidirectional o = 1) /\
    ~ (o_inputedgeweights o = 0 /\ o_outputedgeweights o = 1) /\ o_nsplits o = 1 /\
    (o_edgeweighttype o = 0 \/ o_edgeweighttype o = 1 \/ o_edgeweighttype o = 2).
End CS.

(** the same options with another --outputedgeweights *)
Definition with_weights (o : options) (k : Z) : options :=
  mkO (o_selfloops o) (o_duplicatededges o) (o_uppertriangular o) (o_bidirectional o) (o_inputformat o) (o_outputformat o)
    (o_inputheader o) (o_outputheader o) (o_inputedgeweights o) k (o_edgeweighttype o) (o_nvertices o) (o_random_range o) (o_nsplits o) (o_randomizeID o).
