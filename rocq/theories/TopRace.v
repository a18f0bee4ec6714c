(** TopologicalSort.cpp:140-178 with the passes of the loop at 157-167 run by threads at the same time,
    on one rank. *)
From Verif Require Import Base Layout Reduce Segment DCSC SpMat Vec GraphVert Graph Runtime GraphOps GraphHist Apps Conc ParSet.
Section TopRace.
  Context {byte : Type}.
  Notation graph := (graph top_vertex Z byte).
  Variables (m : machine top_vertex Z byte) (th : Z) (fr1 : frame Z Z byte) (fr2 : frame bool Z byte) (dt1 : Z) (dt2 : bool) (dv : top_vertex) (fuel : nat) (n : Z).
  (** lines 140-156 *)
  Definition top_before (blobs : list (list (edge Z))) : R (graph * _) :=
    do g <- load m top_new n blobs ;;
    do d_tmp <- program_init m th fr1 dt1 g ;;
    do b_tmp <- program_init m th fr2 dt2 g ;;
    do r <- run_job top_neq m th (mkJ indegree tt 1 dt1 dv 1) fr1 (Some d_tmp) g ;;
    do g <- run_call top_neq m th CAllInactive (r_g (fst r)) ;;
    Ok (g, b_tmp).
  (** lines 168-178 *)
  Definition top_after b_tmp (g : graph) : R (graph * list Z) :=
    do r <- run_job top_neq m th (mkJ topsort 1 (-1) dt2 dv fuel) fr2 (Some b_tmp) g ;;
    g_applyReduceAllVertices (m_nr m) th top_unreachable i32_add (fun _ => 0) (r_g (fst r)).
  (** run_topsort is these two with the loop between them *)
  Lemma run_topsort_phases blobs : run_topsort m th fr1 fr2 dt1 dt2 dv fuel n blobs =
    (do q <- top_before blobs ;; do g <- forZ 1 (n + 1) (top_source m th) (fst q) ;; top_after (snd q) g).
  Proof.
    unfold run_topsort, top_before, top_after. destruct (load _ _ _ _) as [g|]; [|reflexivity]. cbn [bind]. destruct (program_init m th fr1 dt1 g); [|reflexivity]. cbn [bind].
    destruct (program_init m th fr2 dt2 g); [|reflexivity]. cbn [bind]. destruct (run_job _ _ _ _ _ _ _); [|reflexivity]. cbn [bind]. destruct (run_call _ _ _ _ _); reflexivity.
  Qed.
  (** lines 157-167 on one rank, when the calls setActive for the vertices [l] run at the same time:
      Graph.h:282-286 stores [true] at the internal number of the vertex.  The vertex properties,
      which are all written with their own words set already, come out as when the passes follow each
      other. *)
  Definition top_sources_at_once (l : list Z) (g g' : graph) : Prop :=
    exists gs s s' ids, forZ 1 (n + 1) (top_source m th) g = Ok gs /\ g_act g = [[s]] /\
      mapR (vertexToNative (g_nt g) (m_nr m) n) l = Ok ids /\ sets_at_once s (map (fun i => (i, Some true)) ids) s' /\
      g' = set_act [[s']] gs.
End TopRace.
