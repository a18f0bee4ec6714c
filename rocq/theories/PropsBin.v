(** C18: GraphMat's binary files. *)
From Verif Require Import Base BaseLemmas Segment DCSC MatSpec TileProofs SpMat Vec GraphVert Graph GraphOps GraphHist GraphBin GraphBinProofs.
From Verif Require Import PropsMat PropsRun.

(** A graph [g] reached by any calls is written into a folder with any contents and read with as many
    ranks and threads (everything else about the machine may differ, also the type of the vertex
    properties): the result has the same vertex count, the same relabelling (a function of the vertex
    count, the ranks and [g_nt]) and the same matrices, and behaves, under any calls, as a graph just
    loaded from the edges of [g]. *)
Theorem C18_round_trip {V E byte V' byte'} neq (m : machine V E byte) (dv : V) n blobs h g q (neq' : V' -> V' -> bool) (m' : machine V' E byte') dv' dir :
  setting m n blobs -> calls_ok n m h -> reached neq m dv n blobs h g -> means neq dv n blobs h q ->
  machine_ok m' -> m_nr m' = m_nr m -> m_nt m' = m_nt m ->
  exists dir' g', write_bin m g dir = Ok dir' /\ read_bin m' dv' dir' = Ok g' /\
    g_n g' = g_n g /\ g_nt g' = g_nt g /\ g_A g' = g_A g /\ g_AT g' = g_AT g /\
    forall h', calls_ok n m' h' ->
      (exists g2 q2, run_calls neq' m' h' g' = Ok g2 /\ spec_calls neq' n h' (loaded dv' (gs_es q)) (Some q2) /\ shows_properties n m' g2 (gs_P q2) /\ shows_edges m' g2 (gs_es q2)) \/
      (run_calls neq' m' h' g' = Err NoFuel /\ spec_calls neq' n h' (loaded dv' (gs_es q)) None).
Proof. exact (fun H1 H2 H3 H4 => round_trip neq m dv n blobs h g q H1 H2 H3 H4 neq' m' dv' dir). Qed.
Print Assumptions C18_round_trip.

(** With other ranks or threads every rank that has a file calls exit(1), the others throw (there is
    no file, unless an older one was there), and no graph results. *)
Theorem C18_other_configuration_exits {V E byte V' byte'} neq (m : machine V E byte) (dv : V) n blobs h g q (m' : machine V' E byte') dv' dir :
  setting m n blobs -> calls_ok n m h -> reached neq m dv n blobs h g -> means neq dv n blobs h q ->
  1 <= m_nr m' -> m_nr m' <> m_nr m \/ m_nt m' <> m_nt m ->
  exists dir', write_bin m g dir = Ok dir' /\ read_bin m' dv' dir' = Err ExitCall /\
    forall r, 0 <= r < m_nr m' -> (r < m_nr m -> rank_read (m_nr m') (m_nt m') dir' r = Err ExitCall) /\
      (m_nr m <= r -> dir r = None -> rank_read (m_nr m') (m_nt m') dir' r = Err AssertFail).
Proof. exact (fun H1 H2 H3 H4 => other_configuration neq m dv n blobs h g q H1 H2 H3 H4 m' dv' dir). Qed.
Print Assumptions C18_other_configuration_exits.

(** Two ranks, three threads ([situation_example] gives the hypotheses); with other memory contents at
    the time of reading. *)
Definition c18_g := exg (exm 2 3 false) exblobs (exh 2).
Definition c18_m (nr nt : Z) : machine Z Z (Z * Z) :=
  mkMach nr nt isort ksort (fun _ _ _ => 1) (fun _ _ _ => 2) (fun _ => 3) (fun _ => 4) (Some 0) None true (fun l => l) (fun l _ => Ok l).
Definition c18_read (nr nt : Z) : R (list (list (edge Z))) :=
  do dir <- write_bin (exm 2 3 false) c18_g (fun _ => None) ;; do g <- read_bin (c18_m nr nt) 40 dir ;; read_edges (c18_m nr nt) g.
Example C18_example : c18_read 2 3 = read_edges (exm 2 3 false) c18_g /\
  match c18_read 2 3 with Ok l => length (concat l) = 6%nat | _ => False end /\
  c18_read 1 3 = Err ExitCall /\ c18_read 3 3 = Err ExitCall /\ c18_read 2 4 = Err ExitCall.
Proof. split; [vm_compute; reflexivity|]. split; [vm_compute; reflexivity|]. split; [vm_compute; reflexivity|]. split; vm_compute; reflexivity. Qed.
