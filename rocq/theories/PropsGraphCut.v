(** C85: GraphMat's binary files after a save that was interrupted.  How the files are found is described
    in GraphCutSpec.v; the other notions are those of C18 (PropsBin.v). *)
From Verif Require Import Base BaseLemmas Segment DCSC MatSpec TileProofs SpMat Vec GraphVert Graph GraphOps GraphHist GraphHistProofs RunFinal GraphBin GraphBinProofs GraphCutSpec GraphCut GraphMix.
From Verif Require Import PropsMat PropsRun PropsBin.

(** A graph was being written ([dir']: what a complete save would leave).  If each rank's file is a
    beginning of what was to be written or missing, and at least one is not complete, then loading gives
    no graph, whatever the numbers of ranks and threads. *)
Theorem C85_no_graph_from_part_of_a_save {V E byte V' byte'} neq (m : machine V E byte) (dv : V) n blobs h g q (m' : machine V' E byte') dv' dir dir' found :
  setting m n blobs -> calls_ok n m h -> reached neq m dv n blobs h g -> means neq dv n blobs h q ->
  write_bin m g dir = Ok dir' -> 1 <= m_nr m' ->
  (forall r, 0 <= r < m_nr m -> exists whole, dir' r = Some whole /\ survived whole (found r)) ->
  (exists r, 0 <= r < m_nr m /\ found r <> dir' r) ->
  exists e, read_bin m' dv' found = Err e.
Proof. exact (fun H1 H2 H3 H4 => cut_folder neq m dv n blobs h g q H1 H2 H3 H4 m' dv' dir dir' found). Qed.
Print Assumptions C85_no_graph_from_part_of_a_save.

(** One damaged file is enough, whatever the other files are: the rank that reads it fails, with any
    number of ranks and threads, and so there is no graph. *)
Theorem C85_damaged_file_is_refused {V E byte V' byte'} neq (m : machine V E byte) (dv : V) n blobs h g q (m' : machine V' E byte') dv' dir dir' found r whole :
  setting m n blobs -> calls_ok n m h -> reached neq m dv n blobs h g -> means neq dv n blobs h q ->
  write_bin m g dir = Ok dir' -> 0 <= r < m_nr m -> dir' r = Some whole -> damaged whole (found r) ->
  (forall nr th, exists e, rank_read nr th found r = Err e) /\ (r < m_nr m' -> exists e, read_bin m' dv' found = Err e).
Proof. exact (fun H1 H2 H3 H4 => cut_file neq m dv n blobs h g q H1 H2 H3 H4 m' dv' dir dir' found r whole). Qed.
Print Assumptions C85_damaged_file_is_refused.

(** But complete files of two saves, of graphs with as many vertices, go together without any message: [newer r] tells
    whether rank [r]'s file is of the save of [g2] or still of that of [g1].  [place s d] is the rank that
    has the edges from [s] to [d] in its file; it depends only on the numbers of vertices, ranks and threads.  The graph loaded has
    the edges of [g2] where [newer (place s d)] and those of [g1] elsewhere.  Its transposed matrix goes by
    [place d s], so that the two need not have the same edges. *)
Theorem C85_files_of_two_saves_mix {V E byte} (m : machine V E byte) n : machine_ok m -> 0 <= n -> exists place : Z -> Z -> Z,
  (forall neq dv blobs h g q out r l e, setting m n blobs -> calls_ok n m h -> reached neq m dv n blobs h g -> means neq dv n blobs h q ->
     read_edges m g = Ok out -> rd out r = Ok l -> In e l -> place (e_src e) (e_dst e) = r) /\
  forall V1 V2 byte1 byte2 neq1 neq2 (m1 : machine V1 E byte1) (m2 : machine V2 E byte2) dv1 dv2 blobs1 blobs2 h1 h2 g1 g2 q1 q2 dv dir1 dir2 d1 d2 found newer,
    setting m1 n blobs1 -> calls_ok n m1 h1 -> reached neq1 m1 dv1 n blobs1 h1 g1 -> means neq1 dv1 n blobs1 h1 q1 ->
    setting m2 n blobs2 -> calls_ok n m2 h2 -> reached neq2 m2 dv2 n blobs2 h2 g2 -> means neq2 dv2 n blobs2 h2 q2 ->
    m_nr m1 = m_nr m -> m_nr m2 = m_nr m -> m_nt m1 = m_nt m -> m_nt m2 = m_nt m ->
    write_bin m1 g1 dir1 = Ok d1 -> write_bin m2 g2 dir2 = Ok d2 ->
    (forall r, 0 <= r < m_nr m -> found r = if (newer r : bool) then d2 r else d1 r) ->
    exists g out out', read_bin m dv found = Ok g /\ g_n g = n /\
      read_edges m g = Ok out /\ Permutation (concat out)
        (filter (fun e => newer (place (e_src e) (e_dst e))) (gs_es q2) ++ filter (fun e => negb (newer (place (e_src e) (e_dst e)))) (gs_es q1)) /\
      read_transposed m g = Ok out' /\ Permutation (concat out') (map (fun e => mkE (e_dst e) (e_src e) (e_val e))
        (filter (fun e => newer (place (e_dst e) (e_src e))) (gs_es q2) ++ filter (fun e => negb (newer (place (e_dst e) (e_src e)))) (gs_es q1))).
Proof. exact (saves_mix m n). Qed.
Print Assumptions C85_files_of_two_saves_mix.

(** Two ranks, three threads ([situation_example] gives the hypotheses). *)
Definition c85_whole : folder Z := match write_bin (exm 2 3 false) c18_g (fun _ => None) with Ok d => d | Err _ => fun _ => None end.
(** rank [k]'s file ends after [keep] items *)
Definition c85_cut (k : Z) (keep : nat) : folder Z := fun r => if r =? k then match c85_whole r with Some f => Some (firstn keep f) | None => None end else c85_whole r.
Definition c85_read (d : folder Z) : R (list (list (edge Z))) := do g <- read_bin (c18_m 2 3) 40 d ;; read_edges (c18_m 2 3) g.
Definition c85_size (r : Z) : nat := match c85_whole r with Some f => length f | None => 0 end.
Definition refused {A} (x : R A) : bool := match x with Ok _ => false | Err _ => true end.
Example C85_example : (forall r, 0 <= r < 2 -> exists whole, c85_whole r = Some whole /\ survived whole (c85_cut 1 50 r)) /\
  (exists r, 0 <= r < 2 /\ c85_cut 1 50 r <> c85_whole r) /\
  refused (c85_read c85_whole) = false /\
  forallb (fun k => refused (c85_read (c85_cut 0 k))) (seq 0 (c85_size 0)) = true /\
  forallb (fun k => refused (c85_read (c85_cut 1 k))) (seq 0 (c85_size 1)) = true /\
  refused (c85_read (c85_cut 0 (c85_size 0))) = false.
Proof.
  split.
  - intros r B. assert (r = 0 \/ r = 1) as [-> | ->] by lia.
    + eexists. split; [vm_compute; reflexivity|]. right. eexists _, []. split; [vm_compute; reflexivity|]. rewrite app_nil_r. reflexivity.
    + eexists. split; [vm_compute; reflexivity|]. right. eexists _, (match c85_whole 1 with Some f => skipn 50 f | None => [] end). split; [vm_compute; reflexivity|vm_compute; reflexivity].
  - split; [exists 1; split; [lia|vm_compute; discriminate]|]. split; [vm_compute; reflexivity|]. split; [vm_compute; reflexivity|]. split; vm_compute; reflexivity.
Qed.

(** Deviation.  One would expect a graph that was loaded to be one of those that were saved, or at least to have the
    same edges in both of its matrices.  Two ranks, three threads, 300 vertices; [c85_g 0] was saved, then
    [c85_g 100] (the same edges, weights higher by 100) over it, and rank 0 was stopped before it began. *)
Definition c85_blobs (k : Z) : list (list (edge Z)) := [[mkE 1 2 (1 + k); mkE 1 300 (2 + k)]; [mkE 300 1 (3 + k); mkE 300 299 (4 + k)]].
Definition c85_g (k : Z) : graph Z Z (Z * Z) := match load (exm 2 3 false) 100 300 (c85_blobs k) with Ok g => g | _ => mkG 0 0 (mkM 0 0 0 0 [] []) (mkM 0 0 0 0 [] []) [] [] [] end.
Definition c85_q (k : Z) : gspec Z Z := loaded 100 (concat (c85_blobs k)).
Definition c85_saved (k : Z) : folder Z := match write_bin (exm 2 3 false) (c85_g k) (fun _ => None) with Ok d => d | Err _ => fun _ => None end.
Definition c85_found : folder Z := fun r => if r =? 1 then c85_saved 100 r else c85_saved 0 r.
Theorem C85_one_save_refuted : let m := exm 2 3 false in
  (forall k, k = 0 \/ k = 100 -> setting m 300 (c85_blobs k) /\ calls_ok 300 m [] /\ reached neqZ m 100 300 (c85_blobs k) [] (c85_g k) /\ means (V:=Z) (byte:=Z * Z) neqZ 100 300 (c85_blobs k) [] (c85_q k) /\
     write_bin m (c85_g k) (fun _ => None) = Ok (c85_saved k)) /\
  exists g, read_bin m 40 c85_found = Ok g /\
    read_edges m g = Ok [[mkE 1 2 1; mkE 300 1 3]; [mkE 1 300 102; mkE 300 299 104]] /\
    read_transposed m g = Ok [[mkE 2 1 1; mkE 300 1 2]; [mkE 1 300 103; mkE 299 300 104]] /\
    (~ exists es, shows_edges m g es) /\ forall k, ~ shows_edges m g (concat (c85_blobs k)).
Proof.
  split.
  - intros k Hk. split; [split; [apply exm_ok; lia|]; split; [lia|]; split; [reflexivity|]; cbn; intuition subst; cbn; lia|]. split; [constructor|].
    split; [exists (c85_g k); destruct Hk as [-> | ->]; split; vm_compute; reflexivity|]. split; [reflexivity|]. destruct Hk as [-> | ->]; vm_compute; reflexivity.
  - destruct (read_bin (exm 2 3 false) 40 c85_found) as [g|] eqn:Eg; [|exfalso; vm_compute in Eg; discriminate Eg].
    assert (read_edges (exm 2 3 false) g = Ok [[mkE 1 2 1; mkE 300 1 3]; [mkE 1 300 102; mkE 300 299 104]]) as E1 by (vm_compute in Eg; injection Eg as <-; vm_compute; reflexivity).
    assert (read_transposed (exm 2 3 false) g = Ok [[mkE 2 1 1; mkE 300 1 2]; [mkE 1 300 103; mkE 299 300 104]]) as E2 by (vm_compute in Eg; injection Eg as <-; vm_compute; reflexivity).
    assert (~ exists es, shows_edges (exm 2 3 false) g es) as N.
    { intros (es & out & out' & O & P & O' & P'). rewrite E1 in O. injection O as <-. rewrite E2 in O'. injection O' as <-.
      assert (In (mkE 1 300 102) es) as I by (eapply Permutation_in; [exact P|cbn; auto]). apply (in_map (fun e => mkE (e_dst e) (e_src e) (e_val e))) in I. apply (Permutation_in _ (Permutation_sym P')) in I. cbn in I. repeat (destruct I as [I|I]; [discriminate I|]). exact I. }
    exists g. split; [reflexivity|]. split; [exact E1|]. split; [exact E2|]. split; [exact N|]. intros k S. apply N. eauto.
Qed.
Print Assumptions C85_one_save_refuted.
