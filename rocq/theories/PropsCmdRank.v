(** C88: PageRank and IncrementalPageRank as commands, from the edge files to the printed text.
    CmdSpec.v says what the files are and how text is put together, FlowSpec.v what the PageRank equation is;
    [alphaQ] is the float nearest to 0.3 (Float32.v), [startQ64] the double nearest to it, [litQ64] the one
    nearest to 1e-8. *)
From Coq Require Import String SpecFloat QArith Qabs Qpower Lqa Lia Permutation.
Local Open Scope Z_scope.
From Verif Require Import Base BaseLemmas Layout Reduce Segment DCSC MatSpec TileProofs EdgeList SpMat Vec GraphVert Graph Runtime RunSpec GraphOps GraphHist.
From Verif Require Import RunFinal PropsMat Apps AppSpec RankSpec AppExample PropsApps FlowSpec FloatSpec Float32 Float32Proofs PropsFloat PropsFloatStop.
From Verif Require Import IncRank DoubleSpec Double64 Double64Proofs PropsDouble FileIO FileSpec FloatText CmdSpec Cmd CmdProofs PropsCmd CmdRank CmdRankProofs.

Lemma ranks_print {A} (f : Z -> R (list A)) h nr : (forall r, 0 <= r < nr -> f r = Ok (h r)) -> mapR f (zrange 0 nr) = Ok (map h (zrange 0 nr)).
Proof.
  intros H. assert (G : forall l, (forall r, In r l -> 0 <= r < nr) -> mapR f l = Ok (map h l)); [|apply G; intros r I; apply in_zrange in I; exact I].
  induction l as [|r l IH]; intros Hl; [reflexivity|]. cbn [mapR map]. rewrite H by (apply Hl; left; auto). cbn [bind]. rewrite IH by (intros; apply Hl; right; auto). reflexivity.
Qed.

(** PageRank, in-degrees up to D <= 2^20: every rank prints the lines of its vertices among the first 25:
    vertex, out-degree, rank in millionths.  The printed ranks are 0.3 or more, and near every solution [x] of
    the PageRank equation: the differences add up to at most
    n/alpha * ((1-alpha) * 1.00001e-5 + e + 9*(D+3)/2^26 + alpha * 5e-7), where [e] is by how much [x] fails. *)
Theorem C88_pagerank {byte} (m : machine (pr_vertex spec_float) Z byte) wide ffuel fuel th d fs fr1 fr2 dt1 dt2 dv D :
  machine_ok m -> usable d fs ffuel -> threads_ok m (m_serv m) th -> frame_ok m th fr1 -> frame_ok m th fr2 ->
  let n := folder_size fs in let es := folder_edges fs in
  (forall v, 1 <= v <= n -> in_degree es v <= D) -> 0 <= D <= 2 ^ 20 -> 170002 * n + 1 <= Z.of_nat fuel ->
  exists owner (q : Z -> Z), (forall v, 1 <= v <= n -> 0 <= owner v < m_nr m /\ 300000 <= q v) /\
    (forall e x, solves_within n es alphaQ alphaQ e x ->
      (alphaQ * apart n (fun v => q v # 1000000) x <=
       inject_Z n * ((1 - alphaQ) * (100001 # 10000000000) + e + inject_Z (D + 3) * (9 # 67108864) + alphaQ * (1 # 2000000)))%Q) /\
    pagerank_cmd wide ffuel fuel th d m fr1 fr2 dt1 dt2 dv = Ok (map (lines_of_rank owner 25 n (fun v =>
      dec v ++ text " : " ++ dec (out_degree es v) ++ text " " ++ millionths (q v) ++ newline)) (zrange 0 (m_nr m))).
Proof.
  intros Hm HU Ht Hf1 Hf2 n es HD HD2 Hfu. destruct (cmd_setting m wide ffuel d fs Hm HU) as (blobs & Er & Pe & Hset & Bn). fold n in Er, Hset, Bn. fold es in Pe.
  assert (Ln : zlen (concat blobs) < 2 ^ 31) by (unfold zlen; rewrite (Permutation_length Pe); apply HU).
  destruct (C81_stops_float32 m n D blobs th fr1 fr2 dt1 dt2 dv fuel Hset Bn Ln Ht Hf1 Hf2) as (g & K & P & Eg & _ & HP & Hd & Hx); [intros v Bv; rewrite (in_same _ _ Pe); auto|auto|auto|].
  pose proof (pagerank_n _ _ _ _ _ _ _ _ _ _ _ _ _ Eg) as Hg. assert (0 <= n) as N0 by apply Hset.
  assert (A0 : (0 < alphaQ)%Q) by (vm_compute; reflexivity).
  destruct (all_printed n (fun v => p_rank (P v))) as (q & Hq); [intros v Bv; destruct (Hd v Bv) as (_ & _ & L); eapply Qlt_le_trans; [exact A0|exact L]|].
  exists (owner_of m g), q. split; [|split].
  - intros v Bv. split; [apply (owner_is m n g P HP v Bv)|]. destruct (Hd v Bv) as (_ & _ & L). destruct (Hq v Bv) as [_ N]. apply Qabs_Qle_condition in N as [_ N].
    assert (A1 : ((3 # 10) <= alphaQ)%Q) by (vm_compute; discriminate). assert (G : (299999 # 1000000 < q v # 1000000)%Q) by (eapply Qlt_le_trans with ((3 # 10) - (1 # 2000000))%Q; [reflexivity|lra]).
    unfold Qlt in G. cbn in G. lia.
  - intros e x Hs. apply (solves_same _ _ Pe) in Hs. specialize (Hx e x Hs). pose proof (apart_printed n (fun v => fval (p_rank (P v))) (fun v => q v # 1000000)%Q x N0 (fun v Bv => proj2 (Hq v Bv))) as Ap.
    apply Qle_trans with (alphaQ * (apart n (fun v => fval (p_rank (P v))) x + inject_Z n * (1 # 2000000)))%Q; [apply Qmult_le_l; [exact A0|exact Ap]|].
    set (t := apart n (fun v => fval (p_rank (P v))) x) in *. clearbody t. generalize dependent alphaQ. intros al. intros. lra.
  - unfold pagerank_cmd. rewrite Er. cbn [bind fst snd]. rewrite Eg. cbn [bind fst snd]. apply ranks_print. intros r Br. rewrite (print_owned_ok m n g P HP Hg) by auto. f_equal.
    apply lines_ext. intros v Bv. unfold rank_line. destruct (Hd v Bv) as (-> & _). rewrite (out_same _ _ Pe). destruct (Hq v Bv) as [-> _].
    rewrite (print_d_dec v) by (unfold is_int; lia). rewrite print_d_dec; [reflexivity|]. unfold is_int. unfold out_degree.
    pose proof (zlen_nonneg (filter (fun e => e_src e =? v) es)). assert (zlen (filter (fun e => e_src e =? v) es) <= zlen es) by apply AppBase.zlen_filter_le. assert (zlen es < 2 ^ 31) by apply HU. lia.
Qed.
Print Assumptions C88_pagerank.

(** IncrementalPageRank: the same lines; here [rank v] is what the program has in double precision, and C82
    says how far from solving the equation: too high by the roundings only, too low by 1e-8 and by what the
    forgotten raises [drops] would have sent. *)
Theorem C88_incremental {byte} (m : machine (ip_vertex spec_float) Z byte) wide ffuel fuel th d fs fr1 fr2 dt1 dt2 dv D :
  machine_ok m -> usable d fs ffuel -> threads_ok m (m_serv m) th -> frame_ok m th fr1 -> frame_ok m th fr2 ->
  let n := folder_size fs in let es := folder_edges fs in
  (forall v, 1 <= v <= n -> in_degree es v <= D) -> 0 <= D < 2 ^ 31 -> 400000005 * n + 1 <= Z.of_nat fuel ->
  exists owner (q : Z -> Z) K (rank : Z -> Q) drops, 1 <= K <= 400000005 * n + 1 /\
    (forall v, 1 <= v <= n -> 0 <= owner v < m_nr m /\ (Qabs (rank v - (q v # 1000000)) <= 1 # 2000000)%Q /\ (startQ64 <= rank v)%Q /\
      (in_degree es v = 0 -> (rank v == startQ64)%Q /\ q v = 300000)) /\
    (forall v, 1 <= v <= n -> zlen (drops v) <= K /\ forall x, In x (drops v) -> (litQ64 < x)%Q /\ (x <= p53 * (100000001 # 10000000000000000) + (p53 - 1) * rank v)%Q) /\
    (forall v, 1 <= v <= n -> let T := (startQ64 + (1 - startQ64) * inflow es rank v)%Q in
      (rank v <= p53 ^ (D + 4 + 3 * K) * T)%Q /\
      (T <= p53 ^ (D + 4 + 3 * K) * (rank v + litQ64 + (1 - startQ64) * inflow es (fun u => qtotal (drops u)) v))%Q) /\
    increment_cmd wide ffuel fuel th d m fr1 fr2 dt1 dt2 dv = Ok (map (lines_of_rank owner 25 n (fun v =>
      dec v ++ text " : " ++ dec (out_degree es v) ++ text " " ++ millionths (q v) ++ newline)) (zrange 0 (m_nr m))).
Proof.
  intros Hm HU Ht Hf1 Hf2 n es HD HD2 Hfu. destruct (cmd_setting m wide ffuel d fs Hm HU) as (blobs & Er & Pe & Hset & Bn). fold n in Er, Hset, Bn. fold es in Pe.
  assert (Ln : zlen (concat blobs) < 2 ^ 31) by (unfold zlen; rewrite (Permutation_length Pe); apply HU).
  destruct (C82_increment_float64 m n D blobs th fr1 fr2 dt1 dt2 dv fuel Hset Bn Ln Ht Hf1 Hf2) as (g & K & P & drops & Eg & BK & HP & Hd & Hdr & HT); [intros v Bv; rewrite (in_same _ _ Pe); auto|auto|auto|].
  pose proof (increment_n _ _ _ _ _ _ _ _ _ _ _ _ _ Eg) as Hg.
  assert (A0 : (0 < startQ64)%Q) by (vm_compute; reflexivity).
  destruct (all_printed n (fun v => ip_rank (P v))) as (q & Hq); [intros v Bv; destruct (Hd v Bv) as (_ & _ & L & _); eapply Qlt_le_trans; [exact A0|exact L]|].
  exists (owner_of m g), q, K, (fun v => fval (ip_rank (P v))), drops. split; [exact BK|]. split; [|split; [exact Hdr|split]].
  - intros v Bv. split; [apply (owner_is m n g P HP v Bv)|]. destruct (Hq v Bv) as [_ N]. split; [exact N|]. destruct (Hd v Bv) as (_ & _ & L & Z0). split; [exact L|].
    intros I0. rewrite <- (in_same _ _ Pe) in I0. rewrite (Z0 I0) in *. split; [vm_compute; reflexivity|]. apply Qabs_Qle_condition in N as [N1 N2].
    assert (Lq : (Qabs (fval lit_03 - (3 # 10)) <= 1 # 100000000)%Q) by (vm_compute; discriminate). apply Qabs_Qle_condition in Lq as [L1 L2].
    assert (G1 : (299999 # 1000000 < q v # 1000000)%Q) by (apply Qlt_le_trans with ((3 # 10) - (1 # 100000000) - (1 # 2000000))%Q; [reflexivity|lra]).
    assert (G2 : (q v # 1000000 < 300001 # 1000000)%Q) by (apply Qle_lt_trans with ((3 # 10) + (1 # 100000000) + (1 # 2000000))%Q; [lra|reflexivity]).
    unfold Qlt in G1, G2. cbn in G1, G2. lia.
  - intros v Bv T. destruct (HT v Bv) as [T1 T2]. split.
    + eapply Qle_trans; [exact T1|]. unfold T. rewrite (inflow_same _ _ Pe). apply Qle_refl.
    + unfold T. rewrite <- !(inflow_same _ _ Pe). exact T2.
  - unfold increment_cmd. rewrite Er. cbn [bind fst snd]. rewrite Eg. cbn [bind fst snd]. apply ranks_print. intros r Br. rewrite (print_owned_ok m n g P HP Hg) by auto. f_equal.
    apply lines_ext. intros v Bv. unfold rank_line. destruct (Hd v Bv) as (-> & _). rewrite (out_same _ _ Pe). destruct (Hq v Bv) as [-> _].
    rewrite (print_d_dec v) by (unfold is_int; lia). rewrite print_d_dec; [reflexivity|]. unfold is_int. unfold out_degree.
    pose proof (zlen_nonneg (filter (fun e => e_src e =? v) es)). assert (zlen (filter (fun e => e_src e =? v) es) <= zlen es) by apply AppBase.zlen_filter_le. assert (zlen es < 2 ^ 31) by apply HU. lia.
Qed.
Print Assumptions C88_incremental.

(** 1 -> 2 -> 3 -> 4 -> 2, 1 -> 3 and 5 -> 1, in two files, on two ranks.  (The examples run on less fuel than
    the theorems ask for; 60 supersteps are enough here.) *)
Example C88_example :
  usable (c87_dir ax_blobs) (c87_files ax_blobs) 10 /\ (forall v, 1 <= v <= 5 -> in_degree (folder_edges (c87_files ax_blobs)) v <= 2) /\ folder_size (c87_files ax_blobs) = 5 /\
  (let m := ax_m pf_to pf_of true in machine_ok m /\ threads_ok m (m_serv m) 3 /\ frame_ok m 3 axf_z /\ frame_ok m 3 axf_f) /\
  (let m := ax_m df_to df_of true in machine_ok m /\ threads_ok m (m_serv m) 3 /\ frame_ok m 3 axf_z /\ frame_ok m 3 axf_f) /\
  170002 * 5 + 1 <= Z.of_nat (Z.to_nat 850011) /\ 400000005 * 5 + 1 <= Z.of_nat (Z.to_nat 2000000026) /\
  solves_within 5 (folder_edges (c87_files ax_blobs)) alphaQ alphaQ (1 # 1000000) ax_solution /\
  pagerank_cmd (fun z => z) 10 60 3 (c87_dir ax_blobs) (ax_m pf_to pf_of true) axf_z axf_f 6 S754_nan (mkPR S754_nan 9) = Ok
    [c87_text ["1 : 2 0.510000"; "2 : 1 1.404800"; "3 : 1 1.461853"; "4 : 1 1.323292"; "5 : 1 0.300000"]; []]%string /\
  increment_cmd (fun z => z) 10 60 3 (c87_dir ax_blobs) (ax_m df_to df_of true) axf_z axf_f 6 S754_nan (mkIP S754_nan S754_nan 9) = Ok
    [c87_text ["1 : 2 0.510000"; "2 : 1 1.404817"; "3 : 1 1.461872"; "4 : 1 1.323310"; "5 : 1 0.300000"]; []]%string.
Proof.
  split; [apply c87_usable; [cbn; intuition subst; cbn; unfold is_int; lia|reflexivity]|].
  assert (V : forall v, 1 <= v <= 5 -> v = 1 \/ v = 2 \/ v = 3 \/ v = 4 \/ v = 5) by lia.
  split; [intros v Hv; destruct (V v Hv) as [->|[->|[->|[->| ->]]]]; vm_compute; discriminate|]. split; [reflexivity|].
  split; [split; [apply ax_m_ok, pf_ok|]; split; [split; [lia|reflexivity]|]; split; [apply ax_f_ok; auto using z_ok|apply ax_f_ok; auto using f_ok]|].
  split; [split; [apply ax_m_ok, df_ok|]; split; [split; [lia|reflexivity]|]; split; [apply ax_f_ok; auto using z_ok|apply ax_f_ok; auto using f_ok]|].
  split; [lia|]. split; [lia|]. split; [intros v Hv; destruct (V v Hv) as [->|[->|[->|[->| ->]]]]; vm_compute; discriminate|].
  split; vm_compute; reflexivity.
Qed.
