(** Edge files with vertex numbers that do not exist (C93). *)
From Coq Require Import Permutation String SpecFloat.
From Verif Require Import Base BaseLemmas ListLemmas Layout DCSC SpMat MatSpec GraphVert Graph Runtime GraphOps GraphHist Apps IncRank Float32 Double64 EdgeList FileIO FileSpec FileProofs Cmd CmdRank CmdSpec CmdProofs CmdArgs CmdArgsProofs AppExample PropsApps PropsApps2 PropsCmd PropsCmdArgs VertexIdProofs PropsVertexIds PropsEdgeIds.

(** the files of C87 ([usable]: CmdSpec.v) without the condition on the vertex numbers *)
Definition readable (d : dirt) (fs : list (efile Z)) (fuel : nat) : Prop :=
  edge_folder d fs /\ (List.length d < fuel)%nat /\ forall F, In F fs -> (List.length (ef_edges F) < fuel)%nat.
(** the file with other vertex numbers *)
Definition renumbered (f : Z -> Z) (F : efile Z) : efile Z :=
  mkEF (ef_m F) (ef_n F) (ef_count F) (map (fun e => mkE (f (e_src e)) (f (e_dst e)) (e_val e)) (ef_edges F)) (ef_newline F).
(** [cmd d] is what a program does with the files [d], with [T] threads and [ranks] ranks.  It fails if some edge
    has an end that is no vertex ([no_vertex]: PropsVertexIds.v).  Numbers that are taken for vertex 1: it does what it
    does with files that have 1 in their place ([number_used]: PropsVertexIds.v). *)
Definition checks_numbers (T ranks : Z) (ffuel : nat) (ok : list (efile Z) -> Prop) (cmd : dirt -> R (list (list Z))) : Prop :=
  forall d fs, readable d fs ffuel -> let n := folder_size fs in
    (forall e, In e (folder_edges fs) -> no_vertex T ranks n (e_src e) \/ no_vertex T ranks n (e_dst e) -> exists x, cmd d = Err x) /\
    (forall d', ok fs -> readable d' (map (renumbered (number_used T ranks n)) fs) ffuel -> cmd d = cmd d').
Definition all_files (fs : list (efile Z)) : Prop := True.

Lemma usable_readable d fs fuel : usable d fs fuel -> readable d fs fuel.
Proof. intros (A & _ & B & C). split; auto. Qed.
Lemma size_renumbered f fs : folder_size (map (renumbered f) fs) = folder_size fs.
Proof. unfold folder_size. rewrite map_map. reflexivity. Qed.
Lemma dealt_renumbered T ranks n nr fs r :
  dealt nr (map (@ef_edges Z) (map (renumbered (number_used T ranks n)) fs)) r = map (edge_used T ranks n) (dealt nr (map (@ef_edges Z) fs) r).
Proof.
  assert (map (@ef_edges Z) (map (renumbered (number_used T ranks n)) fs) = map (map (edge_used T ranks n)) (map (@ef_edges Z) fs)) as -> by (rewrite !map_map; reflexivity).
  unfold dealt, zlen. rewrite map_length, concat_map. f_equal. rewrite (map_map _ (map (edge_used T ranks n)) (share _ _ _)). apply map_ext. intros i. change (@nil (edge Z)) with (map (@edge_used Z T ranks n) []) at 1. rewrite map_nth. reflexivity.
Qed.

Section Read.
  Context {V byte : Type}.
  Variables (m : machine V Z byte) (wide : Z -> Z) (ffuel : nat).
  Hypothesis Hm : machine_ok m.
  (** for programs that read the files and then load the graph *)
  Lemma checks (body : Z -> graph V Z byte -> R (list (list Z))) dv (cmd : dirt -> R (list (list Z))) :
    (forall d, cmd d = do q <- read_mtx (w_int wide) wide ffuel (m_nr m) d ;; do g <- load m dv (fst q) (snd q) ;; body (fst q) g) ->
    checks_numbers (m_nt m) (m_nr m) ffuel all_files cmd.
  Proof.
    intros Hc d fs (HD & H1 & H2) n. assert (1 <= m_nr m) as Hr by (apply Hm). pose proof (size_int d fs HD) as Hn. fold n in Hn. split.
    - intros e Ie Ne. rewrite Hc, (read_mtx_ok wide d fs (m_nr m) ffuel Hr HD H1 H2). cbn [bind fst snd]. fold n.
      destruct (C92_refused m dv n (map (dealt (m_nr m) (map (@ef_edges Z) fs)) (zrange 0 (m_nr m))) e Hm ltac:(lia)) as (x & ->); auto.
      + unfold zlen. rewrite map_length. change (zlen (zrange 0 (m_nr m)) = m_nr m). rewrite zlen_zrange; lia.
      + eapply Permutation_in; [apply Permutation_sym, (read_edges_perm wide fs (m_nr m) Hr)|exact Ie].
      + exists x. reflexivity.
    - intros d' _ (HD' & H1' & H2'). rewrite !Hc, (read_mtx_ok wide d fs (m_nr m) ffuel Hr HD H1 H2), (read_mtx_ok wide d' _ (m_nr m) ffuel Hr HD' H1' H2'). cbn [bind fst snd].
      rewrite size_renumbered. fold n. rewrite (C92_taken_for_1 m dv n _ Hm ltac:(lia)), map_map. do 2 f_equal. apply map_ext. intros r. symmetry. apply dealt_renumbered.
  Qed.
End Read.

Ltac by_loading m wide ffuel H dv :=
  eapply (checks m wide ffuel H _ dv); intros d; cbv beta; destruct (read_mtx _ _ _ _ d) as [[n blobs]|]; [|reflexivity]; cbn [bind fst snd];
  match goal with |- context [load ?m ?v ?n ?b] => destruct (load m v n b) as [g|] end; [|reflexivity]; cbn [bind]; reflexivity.

Theorem C93_bfs {byte} (m : machine bfs_vertex Z byte) wide ffuel fuel th fr dt dv s :
  machine_ok m -> checks_numbers (m_nt m) (m_nr m) ffuel all_files (fun d => bfs_cmd wide ffuel fuel th d m fr dt dv s).
Proof. intros Hm. unfold bfs_cmd, run_bfs. by_loading m wide ffuel Hm bfs_new. Qed.
Print Assumptions C93_bfs.
Theorem C93_sssp {byte} (m : machine Z Z byte) wide ffuel fuel th fr dt dv s :
  machine_ok m -> checks_numbers (m_nt m) (m_nr m) ffuel all_files (fun d => sssp_cmd wide ffuel fuel th d m fr dt dv s).
Proof. intros Hm. unfold sssp_cmd, run_sssp. by_loading m wide ffuel Hm MAX_DIST. Qed.
Print Assumptions C93_sssp.
Theorem C93_topsort {byte} (m : machine top_vertex Z byte) wide ffuel fuel th fr1 fr2 dt1 dt2 dv :
  machine_ok m -> checks_numbers (m_nt m) (m_nr m) ffuel all_files (fun d => topsort_cmd wide ffuel fuel th d m fr1 fr2 dt1 dt2 dv).
Proof. intros Hm. unfold topsort_cmd, run_topsort. by_loading m wide ffuel Hm top_new. Qed.
Print Assumptions C93_topsort.
Theorem C93_triangles {byte} srt (m : machine tc_vertex Z byte) wide ffuel th fr1 fr2 dt1 dt2 dv junk :
  machine_ok m -> checks_numbers (m_nt m) (m_nr m) ffuel all_files (fun d => triangles_cmd wide ffuel th d srt m fr1 fr2 dt1 dt2 dv junk).
Proof. intros Hm. unfold triangles_cmd, run_triangles. by_loading m wide ffuel Hm (mkTC junk 0 []). Qed.
Print Assumptions C93_triangles.
Theorem C93_pagerank {byte} (m : machine (pr_vertex spec_float) Z byte) wide ffuel fuel th fr1 fr2 dt1 dt2 dv :
  machine_ok m -> checks_numbers (m_nt m) (m_nr m) ffuel all_files (fun d => pagerank_cmd wide ffuel fuel th d m fr1 fr2 dt1 dt2 dv).
Proof. intros Hm. unfold pagerank_cmd, run_pagerank. by_loading m wide ffuel Hm (pr_new float32). Qed.
Print Assumptions C93_pagerank.
Theorem C93_incremental_pagerank {byte} (m : machine (ip_vertex spec_float) Z byte) wide ffuel fuel th fr1 fr2 dt1 dt2 dv :
  machine_ok m -> checks_numbers (m_nt m) (m_nr m) ffuel all_files (fun d => increment_cmd wide ffuel fuel th d m fr1 fr2 dt1 dt2 dv).
Proof. intros Hm. unfold increment_cmd, run_increment. by_loading m wide ffuel Hm (ip_new float64). Qed.
Print Assumptions C93_incremental_pagerank.

(** DeltaStepping loads two graphs, of the light and the heavy edges; it needs as many rows as columns (C87). *)
Section Delta.
  Context {byte : Type}.
  Variables (m : machine ds_vertex Z byte) (wide : Z -> Z) (ffuel fuel : nat) (th : Z) (fr : frame Z Z byte) (dt : Z) (dv : ds_vertex) (rounds : nat) (delta s : Z).
  Hypothesis Hm : machine_ok m.
  Let blobs (keep : edge Z -> bool) (fs : list (efile Z)) := map (filter keep) (map (dealt (m_nr m) (map (@ef_edges Z) fs)) (zrange 0 (m_nr m))).
  Let light := fun e : edge Z => e_val e <=? delta.
  Let heavy := fun e : edge Z => e_val e >? delta.
  Let rest (g g2 : graph ds_vertex Z byte) : R (list (list Z)) :=
    do q <- delta_run m th fr dt dv fuel delta rounds s g g2 ;;
    do p <- delta_count m th (fst q) ;;
    every_rank m (fun r k =>
      do l <- print_owned m ds_new 25 delta_line (fst p) r ;;
      Ok ((if r =? 0 then chars "Number of buckets processed = " ++ print_d (snd q) ++ chars " " ++ [10] else []) ++
          (if r =? 0 then chars "Reachable vertices = " ++ print_d k ++ chars " " ++ [10] else []) ++ l)) (snd p).
  Lemma delta_loads d fs : readable d fs ffuel -> square fs ->
    delta_cmd wide ffuel fuel th d m fr dt dv rounds delta s = do g <- load m ds_new (folder_size fs) (blobs light fs) ;; do g2 <- load m ds_new (folder_size fs) (blobs heavy fs) ;; rest g g2.
  Proof.
    intros (HD & HL1 & HL2) Hsq. assert (1 <= m_nr m) as Hr by (apply Hm). destruct (read_els wide d fs (m_nr m) ffuel Hr HD HL1 HL2) as (em & en & EL & EM & Em & En). unfold square in Hsq.
    destruct (filtered_els d fs (m_nr m) ffuel Hr HL1 HL2 light em en) as (l & El & Fl & (l1 & l2 & -> & M1 & N1)).
    destruct (filtered_els d fs (m_nr m) ffuel Hr HL1 HL2 heavy em en) as (h & Eh & Fh & (h1 & h2 & -> & M2 & N2)).
    unfold light in El. unfold heavy in Eh. unfold delta_cmd. change (mkFmt true true true) with mtx. rewrite EL. cbn [bind]. rewrite El. cbn [bind]. rewrite Eh. cbn [bind].
    rewrite (read_elists_ok m ds_new l1 l2 _ (folder_size fs) Fl), (read_elists_ok m ds_new h1 h2 _ (folder_size fs) Fh) by lia. reflexivity.
  Qed.
  Lemma filter_used (k : Z -> bool) T ranks n (l : list (edge Z)) : filter (fun e => k (e_val e)) (map (edge_used T ranks n) l) = map (edge_used T ranks n) (filter (fun e => k (e_val e)) l).
  Proof. induction l as [|e l IH]; [reflexivity|]. cbn [map filter edge_used e_val]. destruct (k (e_val e)); cbn [map]; rewrite IH; reflexivity. Qed.
  Lemma blobs_used (k : Z -> bool) n fs : map (map (edge_used (m_nt m) (m_nr m) n)) (blobs (fun e => k (e_val e)) fs) = blobs (fun e => k (e_val e)) (map (renumbered (number_used (m_nt m) (m_nr m) n)) fs).
  Proof. unfold blobs. rewrite !(map_map _ _ (zrange 0 (m_nr m))). apply map_ext. intros r. rewrite dealt_renumbered, filter_used. reflexivity. Qed.
  Lemma blobs_in keep e fs : In e (folder_edges fs) -> keep e = true -> In e (concat (blobs keep fs)).
  Proof.
    intros I K. assert (1 <= m_nr m) as Hr by (apply Hm). eapply Permutation_in in I; [|apply Permutation_sym, (read_edges_perm wide fs (m_nr m) Hr)].
    apply in_concat in I as (b & Ib & Ie). apply in_concat. exists (filter keep b). split; [apply in_map; exact Ib|]. apply filter_In. auto.
  Qed.
  Lemma blobs_len keep fs : zlen (blobs keep fs) = m_nr m.
  Proof. unfold blobs, zlen. rewrite !map_length. assert (1 <= m_nr m) by (apply Hm). change (zlen (zrange 0 (m_nr m)) = m_nr m). rewrite zlen_zrange; lia. Qed.
  Lemma delta_not_square d fs : readable d fs ffuel -> ~ square fs -> exists e, delta_cmd wide ffuel fuel th d m fr dt dv rounds delta s = Err e.
  Proof.
    intros (HD & HL1 & HL2) Hsq. assert (1 <= m_nr m) as Hn1 by (apply Hm).
    destruct (read_els wide d fs (m_nr m) ffuel Hn1 HD HL1 HL2) as (em & en & EL & EM & Em & En).
    destruct (filtered_els d fs (m_nr m) ffuel Hn1 HL1 HL2 light em en) as (l & El & _ & (l1 & l2 & -> & M1 & N1)).
    destruct (filtered_els d fs (m_nr m) ffuel Hn1 HL1 HL2 heavy em en) as (h & Eh & _).
    unfold light in El. unfold heavy in Eh. unfold delta_cmd. change (mkFmt true true true) with mtx. rewrite EL. cbn [bind]. rewrite El. cbn [bind]. rewrite Eh. cbn [bind].
    destruct (read_elists m ds_new (l1 :: l2)) as [g|e] eqn:E; [|exists e; reflexivity]. exfalso. apply Hsq. unfold square. rewrite <- Em, <- En, <- M1, <- N1. apply (read_elists_square m ds_new l1 l2 g E).
  Qed.
  Lemma delta_checks : checks_numbers (m_nt m) (m_nr m) ffuel square (fun d => delta_cmd wide ffuel fuel th d m fr dt dv rounds delta s).
  Proof.
    intros d fs HR n. pose proof (size_int d fs (proj1 HR)) as Hn. fold n in Hn. split.
    - intros e Ie Ne. destruct (Z.eq_dec (maxl (map (@ef_m Z) fs)) (maxl (map (@ef_n Z) fs))) as [Hsq|Hsq]; [|apply (delta_not_square d fs HR Hsq)].
      rewrite (delta_loads d fs HR Hsq). fold n. destruct (light e) eqn:L.
      + destruct (C92_refused m ds_new n (blobs light fs) e Hm ltac:(lia) (blobs_len _ _) (blobs_in _ _ _ Ie L) Ne) as (x & ->). exists x. reflexivity.
      + destruct (load m ds_new n (blobs light fs)) as [g|x]; [|exists x; reflexivity]. cbn [bind].
        assert (heavy e = true) as Hh by (unfold light, heavy in *; lia).
        destruct (C92_refused m ds_new n (blobs heavy fs) e Hm ltac:(lia) (blobs_len _ _) (blobs_in _ _ _ Ie Hh) Ne) as (x & ->). exists x. reflexivity.
    - intros d' Hsq HR'. rewrite (delta_loads d fs HR Hsq). rewrite (delta_loads d' _ HR'); [|unfold square in *; rewrite !map_map; exact Hsq].
      rewrite size_renumbered. fold n. rewrite (C92_taken_for_1 m ds_new n (blobs light fs) Hm ltac:(lia)), (C92_taken_for_1 m ds_new n (blobs heavy fs) Hm ltac:(lia)).
      unfold light, heavy. rewrite (blobs_used (fun x => x <=? delta)), (blobs_used (fun x => x >? delta)). reflexivity.
  Qed.
End Delta.
Theorem C93_deltastepping {byte} (m : machine ds_vertex Z byte) wide ffuel fuel th fr dt dv rounds delta s :
  machine_ok m -> checks_numbers (m_nt m) (m_nr m) ffuel square (fun d => delta_cmd wide ffuel fuel th d m fr dt dv rounds delta s).
Proof. intros Hm. apply delta_checks, Hm. Qed.
Print Assumptions C93_deltastepping.

(** Files counted from 0 for a graph of n < 16 * threads * ranks vertices, that is edges between 0 and n - 1: all
    these programs do, without any sign, what they do with the files in which 0 is replaced by 1; those are files as
    in C87 and C88, which say what is printed. *)
Theorem C93_counted_from_0 T ranks ffuel ok cmd d d' fs :
  checks_numbers T ranks ffuel ok cmd -> readable d fs ffuel -> ok fs ->
  1 <= folder_size fs < 16 * T * ranks -> (forall e, In e (folder_edges fs) -> 0 <= e_src e < folder_size fs /\ 0 <= e_dst e < folder_size fs) ->
  readable d' (map (renumbered (Z.max 1)) fs) ffuel -> usable d' (map (renumbered (Z.max 1)) fs) ffuel /\ cmd d = cmd d'.
Proof.
  intros Hc HR Hok Hn He HR'. assert (map (renumbered (Z.max 1)) fs = map (renumbered (number_used T ranks (folder_size fs))) fs) as Eq.
  { apply map_ext_in. intros F IF. unfold renumbered. f_equal. apply map_ext_in. intros e Ie. assert (In e (folder_edges fs)) as I by (apply in_concat; exists (ef_edges F); split; [apply in_map; auto|auto]). destruct (He e I).
    unfold number_used. f_equal; match goal with |- context [if ?b then _ else _] => destruct b eqn:Q end; lia. }
  split.
  - destruct HR' as (A & B & C). split; [exact A|]. split; [|split; auto]. rewrite size_renumbered. unfold folder_edges. rewrite map_map. intros e I. apply in_concat in I as (b & Ib & Ie). apply in_map_iff in Ib as (F & <- & IF). cbn [renumbered ef_edges] in Ie. apply in_map_iff in Ie as (e0 & <- & Ie).
    assert (In e0 (folder_edges fs)) as I by (apply in_concat; exists (ef_edges F); split; [apply in_map; auto|auto]). destruct (He e0 I). cbn. lia.
  - rewrite Eq in HR'. apply (Hc d fs HR); auto.
Qed.
Print Assumptions C93_counted_from_0.

(** the path 0 - 1 - 2 - 3 - 4 counted from 0: vertices 0 and 1 are merged, and the vertex meant by 4 is printed as 4,
    with vertex 5 added to the graph; an edge to 6 is refused *)
Definition c93_bad : list (list (edge Z)) := [[mkE 1 2 6]; [mkE 2 6 7]].
Lemma c93_readable a b : (forall e, In e (a ++ b) -> is_int (e_src e) /\ is_int (e_dst e) /\ is_int (e_val e)) -> zlen (a ++ b) < 5 * 2 ->
  readable (c87_dir [a; b]) (c87_files [a; b]) 10.
Proof.
  intros He Hl. unfold readable, edge_folder. cbn [c87_files map combine concat ef_edges fst snd]. rewrite app_nil_r. rewrite zlen_app in Hl. pose proof (zlen_nonneg a). pose proof (zlen_nonneg b).
  assert (forall F, In F (c87_files [a; b]) -> F = mkEF 5 4 (zlen a) a true \/ F = mkEF 3 5 (zlen b) b true) as HF by (cbn; intuition).
  split; [split; [|split; [rewrite zlen_app; lia|]]|split].
  - intros i Bi. unfold file_at, c87_dir. rewrite nth_error_map. change (c87_files [a; b]) with [mkEF 5 4 (zlen a) a true; mkEF 3 5 (zlen b) b true]. destruct (nth_error _ _); reflexivity.
  - intros F I. destruct (HF F I) as [->| ->]; cbn [ef_m ef_n ef_count ef_edges ef_newline]; (split; [unfold is_int; lia|]; split; [unfold is_int; lia|]; split; [auto|]; split; [auto|]; intros e Ie; apply He, in_or_app; auto).
  - cbn. lia.
  - intros F I. unfold zlen in *. destruct (HF F I) as [->| ->]; cbn [ef_edges]; lia.
Qed.
Example C93_example :
  readable (c87_dir c92_blobs) (c87_files c92_blobs) 10 /\ readable (c87_dir c93_bad) (c87_files c93_bad) 10 /\ square (c87_files c92_blobs) /\
  (exists d', readable d' (map (renumbered (Z.max 1)) (c87_files c92_blobs)) 10) /\
  (forall e, In e (folder_edges (c87_files c92_blobs)) -> 0 <= e_src e < folder_size (c87_files c92_blobs) /\ 0 <= e_dst e < folder_size (c87_files c92_blobs)) /\
  folder_size (c87_files c92_blobs) = 5 /\ m_nt (ax_m z_to z_of true) = 3 /\ m_nr (ax_m z_to z_of true) = 2 /\ no_vertex 3 2 5 6 /\
  sssp_cmd (fun z => z) 10 5 3 (c87_dir c92_blobs) (ax_m z_to z_of true) axf_z 6 7 1 = Ok
    [c87_text ["Reachable vertices = 4 "; "1 : distance = 0"; "2 : distance = 6"; "3 : distance = 13"; "4 : distance = 21"; "5 : distance = INF"]; []]%string /\
  delta_cmd (fun z => z) 10 5 3 (c87_dir c92_blobs) (ax_m d_to d_of true) axf_z 6 ds_new 17 7 1 = Ok
    [c87_text ["Number of buckets processed = 4 "; "Reachable vertices = 4 "; "1 : distance = 0"; "2 : distance = 6"; "3 : distance = 13"; "4 : distance = 21"; "5 : distance = INF"]; []]%string /\
  sssp_cmd (fun z => z) 10 5 3 (c87_dir c93_bad) (ax_m z_to z_of true) axf_z 6 7 1 = Err AssertFail /\
  delta_cmd (fun z => z) 10 5 3 (c87_dir c93_bad) (ax_m d_to d_of true) axf_z 6 ds_new 17 7 1 = Err AssertFail.
Proof.
  split; [apply c93_readable; [cbn; intuition subst; cbn; unfold is_int; lia|reflexivity]|]. split; [apply c93_readable; [cbn; intuition subst; cbn; unfold is_int; lia|reflexivity]|]. split; [reflexivity|].
  split; [exists (c87_dir [[mkE 1 1 5; mkE 1 2 6]; [mkE 2 3 7; mkE 3 4 8]]); apply (c93_readable [mkE 1 1 5; mkE 1 2 6] [mkE 2 3 7; mkE 3 4 8]); [cbn; intuition subst; cbn; unfold is_int; lia|reflexivity]|].
  split; [change (folder_size (c87_files c92_blobs)) with 5; cbn; intuition subst; cbn; lia|]. split; [reflexivity|]. split; [reflexivity|]. split; [reflexivity|]. split; [unfold no_vertex, taken_for_1; lia|].
  repeat split; vm_compute; reflexivity.
Qed.
