(** C87: the programs BFS, SSSP, TopologicalSort, TriangleCounting and DeltaStepping as commands, from the edge files to the
    printed text.  CmdSpec.v says what the files are ([usable], [folder_edges], [folder_size]) and how text is
    put together; AppSpec.v has the graph notions.  Every rank prints one text; the theorems give all of them.
    [owner]: each line is printed by one rank only. *)
From Coq Require Import String.
From Verif Require Import Base BaseLemmas Layout Reduce Segment DCSC MatSpec TileProofs EdgeList SpMat Vec GraphVert Graph Runtime RunSpec GraphOps GraphHist.
From Verif Require Import GraphHistProofs AppBase DeltaProofs RunFinal PropsMat Apps AppSpec AppExample PropsApps PropsApps2 TriangleProofs AppClaims FileIO FileSpec CmdSpec Cmd CmdProofs.

Section Settings.
  Context {V byte : Type}.
  Variables (m : machine V Z byte) (wide : Z -> Z) (ffuel : nat) (d : dirt) (fs : list (efile Z)).
  Hypothesis (Hm : machine_ok m) (HU : usable d fs ffuel).
  Lemma cmd_setting : exists blobs, read_mtx (w_int wide) wide ffuel (m_nr m) d = Ok (folder_size fs, blobs) /\ Permutation (concat blobs) (folder_edges fs) /\ setting m (folder_size fs) blobs /\ folder_size fs < 2 ^ 31.
  Proof.
    destruct HU as (HD & Hi & H1 & H2). assert (1 <= m_nr m) as Hn by (apply Hm). pose proof (size_int d fs HD) as B.
    pose proof (read_edges_perm wide fs (m_nr m) Hn) as P.
    eexists. split; [apply read_mtx_ok; auto|]. split; [exact P|]. split; [|lia]. split; [exact Hm|]. split; [lia|]. split; [unfold zlen; rewrite map_length; change (zlen (zrange 0 (m_nr m)) = m_nr m); rewrite zlen_zrange; lia|].
    intros e Ie. apply Hi. eapply Permutation_in; eauto.
  Qed.
End Settings.

(** Breadth-first search: how many vertices can be reached and, for the first ten, the number of edges of a
    shortest path and the vertex before on one; -1 for the source itself. *)
Theorem C87_bfs {byte} (m : machine bfs_vertex Z byte) wide ffuel fuel th d fs fr dt dv s :
  machine_ok m -> usable d fs ffuel -> threads_ok m (m_serv m) th -> frame_ok m th fr ->
  let n := folder_size fs in let es := folder_edges fs in
  1 <= s <= n -> (Z.to_nat n <= fuel)%nat ->
  exists owner k (D : Z -> option (nat * Z)), (forall v, 1 <= v <= n -> 0 <= owner v < m_nr m) /\ counts n (reachable es s) k /\
    (forall v, 1 <= v <= n -> match D v with
       | None => ~ reachable es s v
       | Some (h, p) => hop_distance es s v h /\ (v = s -> p = -1) /\ (v <> s -> exists e h', In e es /\ e_dst e = v /\ e_src e = p /\ hop_distance es s p h' /\ h = S h')
       end) /\
    bfs_cmd wide ffuel fuel th d m fr dt dv s = Ok (map (fun r =>
      on_rank_0 (text "Reachable vertices = " ++ dec k ++ text " " ++ newline) r ++
      lines_of_rank owner 10 n (fun v => text "Depth " ++ dec v ++ match D v with
        | Some (h, p) => text " : " ++ dec (Z.of_nat h) ++ text " parent: " ++ dec p ++ newline
        | None => text " : INF " ++ newline end) r) (zrange 0 (m_nr m))).
Proof.
  intros Hm HU Ht Hf n es Hs Hfu. destruct (cmd_setting m wide ffuel d fs Hm HU) as (blobs & Er & Pe & Hset & Bn). fold n in Er, Hset, Bn. fold es in Pe.
  destruct (C52_bfs_finds_hop_distances m n s blobs th fr dt dv fuel Hset Bn Hs Ht Hf Hfu) as (g & k & P & Eg & HP & Hd & Hc).
  pose proof (bfs_n _ _ _ _ _ _ _ _ _ _ _ Eg) as Hg. assert (0 <= n < 2 ^ 31) as Bn' by lia.
  apply (counts_iff _ _ _ _ (reachable_perm _ _ Pe s)) in Hc. destruct (counts_int _ _ _ Hc Bn') as [Ik _].
  exists (owner_of m g), k, (fun v => if b_depth (P v) =? MAX_DIST then None else Some (Z.to_nat (b_depth (P v)), if v =? s then -1 else b_parent (P v))).
  assert (forall v, 1 <= v <= n -> b_depth (P v) <> MAX_DIST -> Z.of_nat (Z.to_nat (b_depth (P v))) = b_depth (P v) /\ is_int (b_depth (P v)) /\ b_depth (P v) < MAX_DIST) as Hdep.
  { intros v Bv N. destruct (Hd v Bv) as [[Q _]|(h & _ & -> & B & _)]; [contradiction|]. unfold is_int, MAX_DIST. lia. }
  split; [intros v Bv; apply (owner_is m n g P HP v Bv)|]. split; [exact Hc|]. split.
  - intros v Bv. destruct (Z.eqb_spec (b_depth (P v)) MAX_DIST) as [Q|N]; (destruct (Hd v Bv) as [(Q' & _ & Nr)|(h & Hh & Q' & B & Hsv & Hp)]; [|]); try congruence.
    + rewrite <- (reachable_perm _ _ Pe). exact Nr.
    + exfalso. rewrite Q' in Q. unfold MAX_DIST in Q. lia.
    + rewrite Q', Nat2Z.id. split; [apply (hop_perm _ _ Pe); auto|]. destruct (Z.eqb_spec v s) as [->|Nv]; [split; congruence|]. split; [congruence|]. intros _. destruct (Hp Nv) as (e & h' & Ie & Ed & -> & Hh' & ->).
      exists e, h'. split; [eapply Permutation_in; eauto|]. split; [auto|]. split; [auto|]. split; [apply (hop_perm _ _ Pe); auto|auto].
  - unfold bfs_cmd. rewrite Er. cbn [bind fst snd]. rewrite Eg. cbn [bind fst snd]. apply every_rank_ok. intros r Br. rewrite (print_owned_ok m n g P HP Hg) by auto. cbn [bind]. do 2 f_equal.
    + unfold on_rank_0. rewrite print_d_dec by auto. reflexivity.
    + apply lines_ext. intros v Bv. unfold bfs_line. rewrite (print_d_dec v) by (unfold is_int; lia). destruct (Z.eqb_spec (b_depth (P v)) MAX_DIST) as [Q|N].
      * rewrite Q, Z.ltb_irrefl. reflexivity.
      * destruct (Hdep v Bv N) as (Q1 & Q2 & Q3). destruct (Z.ltb_spec (b_depth (P v)) MAX_DIST); [|lia]. rewrite Q1. rewrite FileProofs.i32_id by auto. rewrite print_d_dec by auto.
        assert (print_lld (b_parent (P v)) = dec (if v =? s then -1 else b_parent (P v))) as ->; [|reflexivity].
        destruct (Hd v Bv) as [[Q' _]|(h & _ & _ & _ & Hsv & Hp)]; [contradiction|]. destruct (Z.eqb_spec v s) as [Ev|Nv]; [rewrite Hsv by auto; reflexivity|].
        destruct (Hp Nv) as (e & h' & Ie & _ & -> & _). apply print_lld_dec. destruct Hset as (_ & _ & _ & Hin). pose proof (Hin e Ie). lia.
Qed.
Print Assumptions C87_bfs.

(** Shortest paths, for weights that are not negative and whose sums fit: the distances of the first 25 vertices. *)
Theorem C87_sssp {byte} (m : machine Z Z byte) wide ffuel fuel th d fs fr dt dv s :
  machine_ok m -> usable d fs ffuel -> threads_ok m (m_serv m) th -> frame_ok m th fr ->
  let n := folder_size fs in let es := folder_edges fs in
  1 <= s <= n -> (Z.to_nat n <= fuel)%nat -> (forall e, In e es -> 0 <= e_val e) -> sums_fit es s ->
  exists owner k (D : Z -> option Z), (forall v, 1 <= v <= n -> 0 <= owner v < m_nr m) /\ counts n (reachable es s) k /\
    (forall v, 1 <= v <= n -> match D v with None => ~ reachable es s v | Some x => distance es s v x end) /\
    sssp_cmd wide ffuel fuel th d m fr dt dv s = Ok (map (fun r =>
      on_rank_0 (text "Reachable vertices = " ++ dec k ++ text " " ++ newline) r ++
      lines_of_rank owner 25 n (fun v => dec v ++ text " : distance = " ++ match D v with Some x => dec x | None => text "INF" end ++ newline) r) (zrange 0 (m_nr m))).
Proof.
  intros Hm HU Ht Hf n es Hs Hfu Hpos Hfit. destruct (cmd_setting m wide ffuel d fs Hm HU) as (blobs & Er & Pe & Hset & Bn). fold n in Er, Hset, Bn. fold es in Pe.
  assert (forall e, In e (concat blobs) -> 0 <= e_val e) as Hpos' by (intros e Ie; apply Hpos; eapply Permutation_in; eauto).
  destruct (C53_sssp_finds_distances m n s blobs th fr dt dv fuel Hset Bn Hs Ht Hf Hfu Hpos' (fit_perm _ _ Pe s Hfit)) as (g & k & P & Eg & HP & Hd & Hc).
  pose proof (sssp_n _ _ _ _ _ _ _ _ _ _ _ Eg) as Hg. assert (0 <= n < 2 ^ 31) as Bn' by lia.
  apply (counts_iff _ _ _ _ (reachable_perm _ _ Pe s)) in Hc. destruct (counts_int _ _ _ Hc Bn') as [Ik _].
  assert (forall e, In e es -> 0 <= e_val e) as _ by exact Hpos.
  assert (forall v x h, walk es s v x h -> 0 <= x) as Wn by (intros v x h W; induction W as [|w h e W IH Ie]; [lia|]; pose proof (Hpos e Ie); lia).
  exists (owner_of m g), k, (fun v => if P v =? MAX_DIST then None else Some (P v)).
  split; [intros v Bv; apply (owner_is m n g P HP v Bv)|]. split; [exact Hc|]. split.
  - intros v Bv. destruct (Hd v Bv) as [[Q Nr]|[L Di]]; destruct (Z.eqb_spec (P v) MAX_DIST); try lia.
    + rewrite <- (reachable_perm _ _ Pe). exact Nr.
    + apply (distance_perm _ _ Pe). exact Di.
  - unfold sssp_cmd. rewrite Er. cbn [bind fst snd]. rewrite Eg. cbn [bind fst snd]. apply every_rank_ok. intros r Br. rewrite (print_owned_ok m n g P HP Hg) by auto. cbn [bind]. do 2 f_equal.
    + unfold on_rank_0. rewrite print_d_dec by auto. reflexivity.
    + apply lines_ext. intros v Bv. unfold sssp_line. rewrite (print_d_dec v) by (unfold is_int; lia). f_equal. destruct (Hd v Bv) as [[-> Nr]|[L Di]]; [reflexivity|].
      destruct (Z.ltb_spec (P v) MAX_DIST); [|lia]. destruct (Z.eqb_spec (P v) MAX_DIST); [lia|]. apply (distance_perm _ _ Pe) in Di. destruct Di as [(h & W) _]. rewrite print_u_dec; [reflexivity|]. pose proof (Wn _ _ _ W). unfold MAX_DIST in L. lia.
Qed.
Print Assumptions C87_sssp.

(** Delta stepping, for the weights of C58 and headers that are square together: the same distances, and how many
    buckets of width [delta] the distances reach into. *)
Theorem C87_deltastepping {byte} (m : machine ds_vertex Z byte) wide ffuel fuel th d fs fr dt dv rounds delta W s :
  machine_ok m -> usable d fs ffuel -> threads_ok m (m_serv m) th -> frame_ok m th fr ->
  let n := folder_size fs in let es := folder_edges fs in
  square fs -> 1 <= s <= n -> (Z.to_nat n <= fuel)%nat -> (forall e, In e es -> 0 <= e_val e) -> 1 <= delta < 2 ^ 31 ->
  sums_below es W s -> 1 <= W <= 2 ^ 32 - 1 -> W <= delta * (2 ^ 31 - 1) -> W / delta < Z.of_nat rounds ->
  exists owner k (D : Z -> option Z) far, (forall v, 1 <= v <= n -> 0 <= owner v < m_nr m) /\ counts n (reachable es s) k /\
    (forall v, 1 <= v <= n -> match D v with None => ~ reachable es s v | Some x => distance es s v x end) /\
    (exists v, 1 <= v <= n /\ distance es s v far) /\ (forall v x, 1 <= v <= n -> distance es s v x -> x / delta <= far / delta) /\
    delta_cmd wide ffuel fuel th d m fr dt dv rounds delta s = Ok (map (fun r =>
      on_rank_0 (text "Number of buckets processed = " ++ dec (far / delta + 1) ++ text " " ++ newline) r ++
      on_rank_0 (text "Reachable vertices = " ++ dec k ++ text " " ++ newline) r ++
      lines_of_rank owner 25 n (fun v => dec v ++ text " : distance = " ++ match D v with Some x => dec x | None => text "INF" end ++ newline) r) (zrange 0 (m_nr m))).
Proof.
  intros Hm HU Ht Hf n es Hsq Hs Hfu Hpos Hdel Hfit HW HWd Hrd. destruct (cmd_setting m wide ffuel d fs Hm HU) as (blobs0 & Er0 & _ & _ & Bn). fold n in Bn.
  pose proof HU as (HD & Hi & HL1 & HL2). assert (1 <= m_nr m) as Hn1 by (apply Hm).
  destruct (read_els wide d fs (m_nr m) ffuel Hn1 HD HL1 HL2) as (em & en & EL & EM & Em & En).
  assert (em = n) as En1 by (unfold n; rewrite <- EM; unfold square in Hsq; lia). assert (en = n) as En2 by (unfold n; rewrite <- EM; unfold square in Hsq; lia). clear EM Em En. subst em en.
  destruct (filtered_els d fs (m_nr m) ffuel Hn1 HL1 HL2 (fun e => e_val e <=? delta) n n) as (light & El & Fl & (l1 & l2 & -> & M1 & N1)).
  destruct (filtered_els d fs (m_nr m) ffuel Hn1 HL1 HL2 (fun e => e_val e >? delta) n n) as (heavy & Eh & Fh & (h1 & h2 & -> & M2 & N2)).
  pose proof (read_edges_perm wide fs (m_nr m) Hn1) as Pe. set (blobs := map (dealt (m_nr m) (map (@ef_edges Z) fs)) (zrange 0 (m_nr m))) in *. fold es in Pe.
  assert (0 <= n < 2 ^ 31) as Bn' by lia.
  assert (zlen blobs = m_nr m) as Lb by (unfold blobs, zlen; rewrite map_length; change (zlen (zrange 0 (m_nr m)) = m_nr m); rewrite zlen_zrange; lia).
  assert (forall e, In e (concat blobs) -> 1 <= e_src e <= n /\ 1 <= e_dst e <= n) as Hin by (intros e Ie; apply Hi; eapply Permutation_in; eauto).
  assert (setting m n blobs) as Hset by (split; [exact Hm|]; split; [lia|]; split; [exact Lb|exact Hin]).
  assert (forall e, In e (concat blobs) -> 0 <= e_val e) as Hpos' by (intros e Ie; apply Hpos; eapply Permutation_in; eauto).
  pose proof (below_perm _ _ Pe W s Hfit) as Hfit'.
  destruct (load_is m Hm n (proj1 Bn') ds_new (map (filter (fun e => e_val e <=? delta)) blobs)) as (g0 & Eg0 & H0). { unfold zlen in *. rewrite map_length. exact Lb. } { intros e He. rewrite concat_filter_map in He. apply filter_In in He. apply Hin. tauto. }
  destruct (load_is m Hm n (proj1 Bn') ds_new (map (filter (fun e => e_val e >? delta)) blobs)) as (g2 & Eg2 & H2). { unfold zlen in *. rewrite map_length. exact Lb. } { intros e He. rewrite concat_filter_map in He. apply filter_In in He. apply Hin. tauto. }
  rewrite concat_filter_map in H0, H2.
  destruct (delta_run_spec m n s blobs Hset Bn Hs th fr dt dv fuel delta W Ht Hf Hpos' Hfit' HW HWd Hdel Hfu rounds g0 g2 Hrd H0 H2) as (g & q & c & Eq & Hg & Hv & (v1 & Bv1 & Lv1 & Ec)).
  assert (forall v, 1 <= v <= n -> (d_dist (gs_P q v) = MAX_DIST /\ ~ reachable (concat blobs) s v) \/ (d_dist (gs_P q v) < MAX_DIST /\ distance (concat blobs) s v (d_dist (gs_P q v)))) as Hv'.
  { intros v Bv. destruct (Hv v Bv) as [H|(A & B & _)]; [left; exact H|right; split; [unfold MAX_DIST; lia|exact B]]. }
  destruct (delta_count_spec m n s blobs Hset Bn th Ht g q Hg Hv') as (g' & k & Ek & HP & Hc).
  assert (g_n g' = n) as Hgn by (unfold delta_count in Ek; apply reduce_n in Ek; rewrite Ek; apply (is_n m n g q Hg)).
  apply (counts_iff _ _ _ _ (reachable_perm _ _ Pe s)) in Hc. destruct (counts_int _ _ _ Hc Bn') as [Ik _].
  assert (forall v x y, distance (concat blobs) s v x -> distance (concat blobs) s v y -> x = y) as Huniq.
  { intros v x y [(h & W1) L1] [(h' & W2) L2]. pose proof (L1 _ _ W2). pose proof (L2 _ _ W1). lia. }
  exists (owner_of m g'), k, (fun v => if d_dist (gs_P q v) =? MAX_DIST then None else Some (d_dist (gs_P q v))), (d_dist (gs_P q v1)).
  split; [intros v Bv; apply (owner_is m n g' (gs_P q) HP v Bv)|]. split; [exact Hc|]. split; [|split; [|split]].
  - intros v Bv. destruct (Hv' v Bv) as [[Q Nr]|[L Di]]; destruct (Z.eqb_spec (d_dist (gs_P q v)) MAX_DIST); try lia.
    + rewrite <- (reachable_perm _ _ Pe). exact Nr.
    + apply (distance_perm _ _ Pe). exact Di.
  - exists v1. split; [exact Bv1|]. apply (distance_perm _ _ Pe). destruct (Hv' v1 Bv1) as [[Q _]|[_ Di]]; [lia|exact Di].
  - intros v x Bv Dx. apply (distance_perm _ _ Pe) in Dx. destruct (Hv v Bv) as [[_ Nr]|(_ & Di & Lc)]; [destruct Dx as [(h & Wk) _]; destruct Nr; exists x, h; exact Wk|]. rewrite (Huniq _ _ _ Dx Di). lia.
  - unfold delta_cmd. change (mkFmt true true true) with mtx. rewrite EL. cbn [bind]. rewrite El. cbn [bind]. rewrite Eh. cbn [bind]. rewrite (read_elists_ok m ds_new l1 l2 _ n Fl M1 N1), Eg0. cbn [bind]. rewrite (read_elists_ok m ds_new h1 h2 _ n Fh M2 N2), Eg2. cbn [bind].
    rewrite Eq. cbn [bind fst snd]. rewrite Ek. cbn [bind fst snd]. apply every_rank_ok. intros r Br. rewrite (print_owned_ok m n g' (gs_P q) HP Hgn) by auto. cbn [bind].
    assert (0 <= d_dist (gs_P q v1) < W) as Bd1 by (destruct (Hv v1 Bv1) as [[Q _]|(B & _)]; lia).
    assert (is_int c) as Ic.
    { assert (d_dist (gs_P q v1) / delta < 2 ^ 31 - 1); [|assert (0 <= d_dist (gs_P q v1) / delta) by (apply Z.div_pos; lia); unfold is_int; lia].
      apply Z.div_lt_upper_bound; [lia|]. lia. }
    f_equal. f_equal; [|f_equal].
    + unfold on_rank_0. rewrite print_d_dec by auto. rewrite Ec. reflexivity.
    + unfold on_rank_0. rewrite print_d_dec by auto. reflexivity.
    + apply lines_ext. intros v Bv. unfold delta_line. rewrite (print_d_dec v) by (unfold is_int; lia). f_equal. destruct (Hv v Bv) as [[-> Nr]|[B Di]]; [reflexivity|]. assert (d_dist (gs_P q v) < MAX_DIST) by (unfold MAX_DIST; lia).
      destruct (Z.ltb_spec (d_dist (gs_P q v)) MAX_DIST); [|lia]. destruct (Z.eqb_spec (d_dist (gs_P q v)) MAX_DIST); [lia|]. rewrite print_u_dec; [reflexivity|]. lia.
Qed.
Print Assumptions C87_deltastepping.

(** With headers that are not square together it never gets to print anything, unlike the other programs. *)
Theorem C87_deltastepping_not_square {byte} (m : machine ds_vertex Z byte) wide ffuel fuel th d fs fr dt dv rounds delta s :
  machine_ok m -> usable d fs ffuel -> ~ square fs ->
  exists e, delta_cmd wide ffuel fuel th d m fr dt dv rounds delta s = Err e.
Proof.
  intros Hm (HD & Hi & HL1 & HL2) Hsq. assert (1 <= m_nr m) as Hn1 by (apply Hm).
  destruct (read_els wide d fs (m_nr m) ffuel Hn1 HD HL1 HL2) as (em & en & EL & EM & Em & En).
  destruct (filtered_els d fs (m_nr m) ffuel Hn1 HL1 HL2 (fun e => e_val e <=? delta) em en) as (light & El & _ & (l1 & l2 & -> & M1 & N1)).
  destruct (filtered_els d fs (m_nr m) ffuel Hn1 HL1 HL2 (fun e => e_val e >? delta) em en) as (heavy & Eh & _).
  unfold delta_cmd. change (mkFmt true true true) with mtx. rewrite EL. cbn [bind]. rewrite El. cbn [bind]. rewrite Eh. cbn [bind].
  destruct (read_elists m ds_new (l1 :: l2)) as [g|e] eqn:E; [|exists e; reflexivity]. exfalso. apply Hsq. unfold square. rewrite <- Em, <- En, <- M1, <- N1. apply (read_elists_square m ds_new l1 l2 g E).
Qed.
Print Assumptions C87_deltastepping_not_square.

(** Topological sort: with a cycle only a message; otherwise each of the first ten vertices with the number of
    edges of a longest path that ends there. *)
Theorem C87_topsort {byte} (m : machine top_vertex Z byte) wide ffuel fuel th d fs fr1 fr2 dt1 dt2 dv :
  machine_ok m -> usable d fs ffuel -> threads_ok m (m_serv m) th -> frame_ok m th fr1 -> frame_ok m th fr2 ->
  let n := folder_size fs in let es := folder_edges fs in
  (Z.to_nat (Z.max n 1) <= fuel)%nat ->
  (~ acyclic es -> topsort_cmd wide ffuel fuel th d m fr1 fr2 dt1 dt2 dv =
     Ok (map (on_rank_0 (text "Topological Sort not possible. Graph has cycles." ++ newline)) (zrange 0 (m_nr m)))) /\
  (acyclic es -> exists owner (H : Z -> nat), (forall v, 1 <= v <= n -> 0 <= owner v < m_nr m) /\
     (forall v, 1 <= v <= n -> longest_walk_to es v (H v)) /\
     topsort_cmd wide ffuel fuel th d m fr1 fr2 dt1 dt2 dv = Ok (map (fun r =>
       lines_of_rank owner 10 n (fun v => text "Top Sort order " ++ dec v ++ text " : " ++ dec (Z.of_nat (H v)) ++ newline) r) (zrange 0 (m_nr m)))).
Proof.
  intros Hm HU Ht Hf1 Hf2 n es Hfu. destruct (cmd_setting m wide ffuel d fs Hm HU) as (blobs & Er & Pe & Hset & Bn). fold n in Er, Hset, Bn. fold es in Pe.
  assert (zlen (concat blobs) < 2 ^ 31) as Hlen. { unfold zlen. rewrite (Permutation_length Pe). destruct HU as ((_ & H & _) & _). exact H. }
  destruct (C55_topsort_levels m n blobs th fr1 fr2 dt1 dt2 dv fuel Hset Bn Hlen Ht Hf1 Hf2 Hfu) as (g & k & P & Eg & HP & Hd & Hc).
  pose proof (topsort_n _ _ _ _ _ _ _ _ _ _ _ _ Eg) as Hg. assert (0 <= n < 2 ^ 31) as Bn' by (destruct Hset as (_ & Z0 & _); lia).
  apply (counts_iff _ _ _ _ (behind_perm _ _ Pe)) in Hc. destruct (counts_int _ _ _ Hc Bn') as [Ik K0].
  assert (forall x w h, walk es x x w (S h) -> 1 <= x <= n) as Hcyc.
  { intros x w h W. inversion W; subst. destruct HU as (_ & Hi & _). apply Hi; assumption. }
  assert (0 < k <-> ~ acyclic es) as Hk.
  { destruct Hc as (l & Nd & Hl & ->). split.
    - intros L Ha. destruct l as [|v l]; [cbn in L; lia|]. destruct (proj1 (Hl v) (or_introl eq_refl)) as (_ & x & w & h & w' & h' & W & _). apply Ha in W. discriminate.
    - intros Na. destruct l as [|v l]; [|unfold zlen; cbn [List.length]; lia]. exfalso. apply Na. intros x w h W. destruct h as [|h]; [reflexivity|]. exfalso.
      apply (proj2 (Hl x)). split; [eapply Hcyc; eauto|]. exists x, w, h, 0, O. split; [exact W|constructor]. }
  assert (topsort_cmd wide ffuel fuel th d m fr1 fr2 dt1 dt2 dv = every_rank m (fun r k =>
      if 0 <? k then Ok (if r =? 0 then chars "Topological Sort not possible. Graph has cycles." ++ [10] else [])
      else print_owned m top_new 10 top_line g r) (map (fun _ => k) (zrange 0 (m_nr m)))) as ->.
  { unfold topsort_cmd. rewrite Er. cbn [bind fst snd]. rewrite Eg. reflexivity. }
  split; intros Ha.
  - apply every_rank_ok. intros r Br. destruct (Z.ltb_spec 0 k); [reflexivity|]. pose proof (proj2 Hk Ha). lia.
  - assert (k <= 0) as K1 by (destruct (Z_lt_le_dec 0 k) as [L|L]; [destruct (proj1 Hk L Ha)|exact L]).
    exists (owner_of m g), (fun v => Z.to_nat (t_order (P v))). split; [intros v Bv; apply (owner_is m n g P HP v Bv)|].
    assert (forall v, 1 <= v <= n -> exists h, longest_walk_to es v h /\ t_order (P v) = Z.of_nat h /\ Z.of_nat h < n) as HD.
    { intros v Bv. destruct (Hd v Bv) as (_ & [[_ X]|(h & Hh & Q & B & _)]).
      - apply (behind_perm _ _ Pe) in X. destruct X as (x & w & h & w' & h' & W & _). apply Ha in W. discriminate.
      - exists h. split; [apply (longest_perm _ _ Pe); exact Hh|auto]. }
    split; [intros v Bv; destruct (HD v Bv) as (h & Hh & -> & _); rewrite Nat2Z.id; exact Hh|].
    apply every_rank_ok. intros r Br. destruct (Z.ltb_spec 0 k); [lia|]. rewrite (print_owned_ok m n g P HP Hg) by auto. f_equal. apply lines_ext. intros v Bv. unfold top_line.
    destruct (HD v Bv) as (h & _ & -> & B). rewrite Nat2Z.id, (print_d_dec v) by (unfold is_int; lia). rewrite FileProofs.i32_id by (unfold is_int; lia). rewrite print_d_dec by (unfold is_int; lia). reflexivity.
Qed.
Print Assumptions C87_topsort.

(** Triangles, for files without repeated edges: the number of all of them and, for the first ten vertices, of
    those with the vertex in the middle. *)
Theorem C87_triangles {byte} srt (m : machine tc_vertex Z byte) wide ffuel th d fs fr1 fr2 dt1 dt2 dv junk l :
  sorts_ints srt -> machine_ok m -> usable d fs ffuel -> threads_ok m (m_serv m) th -> frame_ok m th fr1 -> frame_ok m th fr2 ->
  let n := folder_size fs in let es := folder_edges fs in
  simple_edges es -> triangles es l -> zlen l < 2 ^ 31 ->
  exists owner, (forall v, 1 <= v <= n -> 0 <= owner v < m_nr m) /\
    triangles_cmd wide ffuel th d srt m fr1 fr2 dt1 dt2 dv junk = Ok (map (fun r =>
      on_rank_0 (text "Total triangles = " ++ dec (zlen l) ++ text " " ++ newline) r ++
      lines_of_rank owner 10 n (fun v => dec v ++ text " : " ++ dec (zlen (filter (fun t => snd (fst t) =? v) l)) ++ text " : " ++ newline) r) (zrange 0 (m_nr m))).
Proof.
  intros Hsrt Hm HU Ht Hf1 Hf2 n es Hsim Htri Hl. destruct (cmd_setting m wide ffuel d fs Hm HU) as (blobs & Er & Pe & Hset & Bn). fold n in Er, Hset, Bn. fold es in Pe.
  destruct (C56_triangles_counted srt m n blobs th fr1 fr2 dt1 dt2 dv junk l Hsrt Hset (simple_perm _ _ Pe Hsim) Ht Hf1 Hf2 (triangles_perm _ _ Pe l Htri) Hl) as (g & P & Eg & HP & Hd).
  pose proof (triangles_n _ _ _ _ _ _ _ _ _ _ _ _ _ Eg) as Hg. exists (owner_of m g).
  split; [intros v Bv; apply (owner_is m n g P HP v Bv)|].
  unfold triangles_cmd. rewrite Er. cbn [bind fst snd]. rewrite Eg. cbn [bind fst snd]. apply every_rank_ok. intros r Br. rewrite (print_owned_ok m n g P HP Hg) by auto. cbn [bind]. pose proof (zlen_nonneg l). do 2 f_equal.
  - unfold on_rank_0. rewrite print_lu_dec by lia. reflexivity.
  - apply lines_ext. intros v Bv. unfold tri_line. destruct (Hd v Bv) as [-> ->].
    assert (zlen (filter (fun t => snd (fst t) =? v) l) <= zlen l) by (unfold zlen; apply inj_le; clear; induction l as [|t l IH]; cbn; [lia|]; destruct (snd (fst t) =? v); cbn; lia).
    pose proof (zlen_nonneg (filter (fun t => snd (fst t) =? v) l)). rewrite !print_d_dec by (unfold is_int; lia). reflexivity.
Qed.
Print Assumptions C87_triangles.

(** two files whose headers give 5 x 4 and 3 x 5, two ranks with three threads; the 5 vertices all belong to rank 0 *)
Definition c87_files (blobs : list (list (edge Z))) : list (efile Z) := map (fun q => mkEF (fst (fst q)) (snd (fst q)) (zlen (snd q)) (snd q) true) (combine [(5, 4); (3, 5)] blobs).
Definition c87_dir (blobs : list (list (edge Z))) : dirt := map (fun F => Some (content (w_int (fun z => z)) mtx F)) (c87_files blobs).
Lemma c87_usable a b : (forall e, In e (a ++ b) -> 1 <= e_src e <= 5 /\ 1 <= e_dst e <= 5 /\ is_int (e_val e)) -> zlen (a ++ b) < 5 * 2 ->
  usable (c87_dir [a; b]) (c87_files [a; b]) 10.
Proof.
  intros He Hl. unfold usable, edge_folder, folder_edges. change (folder_size (c87_files [a; b])) with 5. cbn [c87_files map combine concat ef_edges fst snd]. rewrite app_nil_r. rewrite zlen_app in Hl. pose proof (zlen_nonneg a). pose proof (zlen_nonneg b).
  assert (forall F, In F (c87_files [a; b]) -> F = mkEF 5 4 (zlen a) a true \/ F = mkEF 3 5 (zlen b) b true) as HF by (cbn; intuition).
  split; [split; [|split; [rewrite zlen_app; lia|]]|split; [|split]].
  - intros i Bi. unfold file_at, c87_dir. rewrite nth_error_map. change (c87_files [a; b]) with [mkEF 5 4 (zlen a) a true; mkEF 3 5 (zlen b) b true]. destruct (nth_error _ _); reflexivity.
  - intros F I. destruct (HF F I) as [->| ->]; cbn [ef_m ef_n ef_count ef_edges ef_newline]; (split; [unfold is_int; lia|]; split; [unfold is_int; lia|]; split; [auto|]; split; [auto|]; intros e Ie;
      assert (1 <= e_src e <= 5 /\ 1 <= e_dst e <= 5 /\ is_int (e_val e)) as (B1 & B2 & B3) by (apply He, in_or_app; auto); unfold is_int in *; lia).
  - intros e Ie. destruct (He e Ie) as (B1 & B2 & _). auto.
  - cbn. lia.
  - intros F I. unfold zlen in *. destruct (HF F I) as [->| ->]; cbn [ef_edges]; lia.
Qed.
Definition c87_text (l : list string) : list Z := concat (map (fun s => text s ++ newline) l).
Example C87_example :
  usable (c87_dir ax_blobs) (c87_files ax_blobs) 10 /\ usable (c87_dir dag_blobs) (c87_files dag_blobs) 10 /\ usable (c87_dir tri_blobs) (c87_files tri_blobs) 10 /\
  (machine_ok (ax_m b_to b_of true) /\ machine_ok (ax_m z_to z_of true) /\ machine_ok (ax_m t_to t_of true) /\ machine_ok (ax_m tc_to tc_of true)) /\
  bfs_cmd (fun z => z) 10 5 3 (c87_dir ax_blobs) (ax_m b_to b_of true) axf_z 6 bfs_new 1 = Ok
    [c87_text ["Reachable vertices = 4 "; "Depth 1 : 0 parent: -1"; "Depth 2 : 1 parent: 1"; "Depth 3 : 1 parent: 1"; "Depth 4 : 2 parent: 3"; "Depth 5 : INF "]; []]%string /\
  sssp_cmd (fun z => z) 10 5 3 (c87_dir ax_blobs) (ax_m z_to z_of true) axf_z 6 7 1 = Ok
    [c87_text ["Reachable vertices = 4 "; "1 : distance = 0"; "2 : distance = 4"; "3 : distance = 5"; "4 : distance = 7"; "5 : distance = INF"]; []]%string /\
  square (c87_files ax_blobs) /\
  delta_cmd (fun z => z) 10 5 3 (c87_dir ax_blobs) (ax_m d_to d_of true) axf_z 6 ds_new 17 3 1 = Ok
    [c87_text ["Number of buckets processed = 3 "; "Reachable vertices = 4 "; "1 : distance = 0"; "2 : distance = 4"; "3 : distance = 5"; "4 : distance = 7"; "5 : distance = INF"]; []]%string /\
  topsort_cmd (fun z => z) 10 5 3 (c87_dir ax_blobs) (ax_m t_to t_of true) axf_z axf_b 6 true top_new = Ok
    [c87_text ["Topological Sort not possible. Graph has cycles."]; []]%string /\
  topsort_cmd (fun z => z) 10 5 3 (c87_dir dag_blobs) (ax_m t_to t_of true) axf_z axf_b 6 true top_new = Ok
    [c87_text ["Top Sort order 1 : 1"; "Top Sort order 2 : 2"; "Top Sort order 3 : 3"; "Top Sort order 4 : 4"; "Top Sort order 5 : 0"]; []]%string /\
  triangles_cmd (fun z => z) 10 3 (c87_dir tri_blobs) zsort (ax_m tc_to tc_of true) axf_l axf_tc 6 (mkTC 1 1 [1]) (mkTC 1 1 []) 99 = Ok
    [c87_text ["Total triangles = 2 "; "1 : 0 : "; "2 : 1 : "; "3 : 1 : "; "4 : 0 : "; "5 : 0 : "]; []]%string.
Proof.
  repeat (split; [apply c87_usable; [cbn; intuition subst; cbn; unfold is_int; lia|reflexivity]|]).
  split; [repeat split; try apply ax_m_ok; auto using b_ok, z_ok, t_ok, tc_ok|]. 
  repeat split; vm_compute; reflexivity.
Qed.
(** the same edges, but headers 5 x 4 and 3 x 4 *)
Example C87_not_square_example : let fs := [mkEF 5 4 1 [mkE 1 2 4] true; mkEF 3 4 1 [mkE 5 1 3] true] in let d := map (fun F => Some (content (w_int (fun z => z)) mtx F)) fs in
  usable d fs 10 /\ ~ square fs /\
  delta_cmd (fun z => z) 10 5 3 d (ax_m d_to d_of true) axf_z 6 ds_new 17 3 1 = Err AssertFail /\
  sssp_cmd (fun z => z) 10 5 3 d (ax_m z_to z_of true) axf_z 6 7 1 = Ok
    [c87_text ["Reachable vertices = 2 "; "1 : distance = 0"; "2 : distance = 4"; "3 : distance = INF"; "4 : distance = INF"; "5 : distance = INF"]; []]%string.
Proof.
  intros fs d. split; [|split; [discriminate|split; vm_compute; reflexivity]].
  split; [split; [|split; [reflexivity|]]|split; [|split]].
  - intros i Bi. unfold file_at, d. rewrite nth_error_map. destruct (nth_error _ _); reflexivity.
  - intros F [<-|[<-|[]]]; cbn; unfold is_int; (repeat split; try lia); intuition subst; cbn; lia.
  - cbn. intuition subst; cbn; unfold folder_size; cbn; lia.
  - cbn. lia.
  - intros F [<-|[<-|[]]]; cbn; lia.
Qed.
