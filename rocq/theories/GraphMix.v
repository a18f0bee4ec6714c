(** Reading GraphMat's binary files of which some are of an older save. *)
From Verif Require Import BaseLemmas BucketProofs SegmentProofs UnionProofs VecProofs2 SearchProofs Layout LayoutProofs Reduce Bits Segment Vec VecProofs GraphVertProofs ListLemmas DCSC DCSCFinal DCSCBuild MatSpec TileProofs SpMat SpMatProofs GraphVert Graph GraphProofs Runtime RunSegProofs RunSpec DistProofs MultProofs HeldProofs RuntimeProofs GraphOps GraphHist GraphHistProofs RunFinal GraphBin GraphBinProofs.

Section Mix.
  Context {E : Type}.
  Variables (nr m n ntx nty : Z).
  Hypothesis Hnr : 1 <= nr.
  Hypothesis Hm : 0 <= m.
  Hypothesis Hn : 0 <= n.
  Hypothesis Hx : 1 <= ntx.
  Hypothesis Hy : 1 <= nty.
  Variable newer : Z -> bool.
  Variable ids : list Z.
  Definition at_rank (e : edge E) : Z := own nty ids (trow m nty e) (tcol n ntx e).
  Definition mixed (es1 es2 : list (edge E)) : list (edge E) :=
    filter (fun e => newer (at_rank e)) es2 ++ filter (fun e => negb (newer (at_rank e))) es1.
  Variables (a1 a2 : spmat E) (es1 es2 : list (edge E)).
  Hypothesis H1 : mat_holds nr m n ntx nty ids a1 es1.
  Hypothesis H2 : mat_holds nr m n ntx nty ids a2 es2.

  Lemma filter_mixed i j o : rd ids (i + j * nty) = Ok o -> filter (in_tile m n ntx nty i j) (mixed es1 es2) = filter (in_tile m n ntx nty i j) (if newer o then es2 else es1).
  Proof.
    intros Eo. unfold mixed. rewrite filter_app.
    assert (forall e, in_tile m n ntx nty i j e = true -> at_rank e = o) as Q. { intros e He. unfold in_tile in He. apply andb_true_iff in He as [A B]. apply Z.eqb_eq in A, B. unfold at_rank, own. rewrite A, B, Eo. reflexivity. }
    assert (forall l, filter (in_tile m n ntx nty i j) (filter (fun e => newer (at_rank e)) l) = if newer o then filter (in_tile m n ntx nty i j) l else []) as F1.
    { induction l as [|e l IH]; cbn [filter]; [destruct (newer o); reflexivity|]. destruct (in_tile m n ntx nty i j e) eqn:Et.
      - rewrite (Q e Et). destruct (newer o) eqn:No; [cbn [filter]; rewrite Et, IH; reflexivity|exact IH].
      - destruct (newer (at_rank e)); [cbn [filter]; rewrite Et|]; exact IH. }
    assert (forall l, filter (in_tile m n ntx nty i j) (filter (fun e => negb (newer (at_rank e))) l) = if newer o then [] else filter (in_tile m n ntx nty i j) l) as F2.
    { induction l as [|e l IH]; cbn [filter]; [destruct (newer o); reflexivity|]. destruct (in_tile m n ntx nty i j e) eqn:Et.
      - rewrite (Q e Et). destruct (newer o) eqn:No; cbn [negb]; [exact IH|cbn [filter]; rewrite Et, IH; reflexivity].
      - destruct (newer (at_rank e)); cbn [negb]; [|cbn [filter]; rewrite Et]; exact IH. }
    rewrite F1, F2. destruct (newer o); [apply app_nil_r|reflexivity].
  Qed.

  Lemma mix_join ps : mapR (fun r => mat_part (if newer r then a2 else a1) r) (zrange 0 nr) = Ok ps ->
    exists a, mat_join ps = Ok a /\ mat_holds nr m n ntx nty ids a (mixed es1 es2).
  Proof.
    intros H. pose proof (mapR_length _ _ _ H) as Lp. assert (zlen ps = nr) as Lz by (unfold zlen; rewrite Lp; fold (zlen (zrange 0 nr)); rewrite zlen_zrange; lia).
    destruct H1 as [X1 X2 X3 X4 X5 X6 X7 X8 X9 [XL XD]]. destruct H2 as [Y1 Y2 Y3 Y4 Y5 Y6 Y7 Y8 Y9 [YL YD]].
    assert (forall r p, rd ps r = Ok p -> 0 <= r < nr /\ rd (mt_tiles (if newer r then a2 else a1)) r = Ok (p_tiles p) /\
      p_ntx p = ntx /\ p_nty p = nty /\ p_m p = m /\ p_n p = n /\ p_ids p = ids /\ p_startx p = mat_starts n ntx /\ p_starty p = mat_starts m nty) as Hp.
    { intros r p Ep. destruct (mapR_zrange_rd _ _ _ _ _ H Ep) as [Br Em]. split; [auto|]. unfold mat_part in Em. destruct (rd (mt_tiles (if newer r then a2 else a1)) r) as [tab|]; [|discriminate]. cbn [bind] in Em. injection Em as <-. cbn. destruct (newer r).
      - rewrite Y1, Y2, Y3, Y4, Y5. auto 10.
      - rewrite X1, X2, X3, X4, X5. auto 10. }
    exists (mkM m n ntx nty ids (map p_tiles ps)). split.
    - unfold mat_join. destruct ps as [|p ps']; [cbn in Lz; lia|].
      assert (rd (p :: ps') 0 = Ok p) as E0 by reflexivity. destruct (Hp 0 p E0) as (_ & _ & Q1 & Q2 & Q3 & Q4 & Q5 & Q6 & Q7).
      assert (forallb (fits p) (p :: ps') = true) as ->.
      { apply forallb_forall. intros q Hq. apply In_rd in Hq as (i & _ & Ei). destruct (Hp i q Ei) as (_ & _ & R1 & R2 & R3 & R4 & R5 & R6 & R7). unfold fits.
        rewrite Q1, Q2, Q3, Q4, Q5, Q6, Q7, R1, R2, R3, R4, R5, !Z.eqb_refl, !ints_eqb_refl. reflexivity. }
      rewrite Q1, Q2, Q3, Q4, Q5. reflexivity.
    - constructor; cbn [mt_m mt_n mt_ntx mt_nty mt_ids mt_tiles]; auto.
      + intros e He. unfold mixed in He. apply in_app_or in He as [He|He]; apply filter_In in He as [He _]; auto.
      + intros r i j Br Bi Bj. destruct (rd_ok ps r) as [p Ep]; [lia|]. destruct (Hp r p Ep) as (_ & Et & _).
        assert (mat_tile (mkM m n ntx nty ids (map p_tiles ps)) r i j = mat_tile (if newer r then a2 else a1) r i j) as ->. { unfold mat_tile. cbn [mt_tiles]. rewrite rd_map_list, Ep, Et. reflexivity. }
        assert (exists t, mat_tile (if newer r then a2 else a1) r i j = Ok t /\ forall o, rd ids (i + j * nty) = Ok o ->
          if o =? r then exists t' T, t = Some t' /\ tile_of (si m nty (i + 1) - si m nty i) (sj n ntx (j + 1) - sj n ntx j) (map (DCSCBuild.rel (si m nty i) (sj n ntx j)) T) t' /\ Permutation T (filter (in_tile m n ntx nty i j) (if newer r then es2 else es1)) else t = None) as (t & Tt & Q).
        { destruct (newer r); [apply Y9|apply X9]; auto. }
        exists t. split; [exact Tt|]. intros o Eo. specialize (Q o Eo). rewrite (filter_mixed i j o Eo). destruct (Z.eqb_spec o r) as [Eor|]; [rewrite Eor|]; exact Q.
      + split; [rewrite zlen_map; exact Lz|]. intros r tab Er. rewrite rd_map_list in Er. destruct (rd ps r) as [p|] eqn:Ep; [|discriminate]. injection Er as <-. destruct (Hp r p Ep) as (_ & Et & _). destruct (newer r); eauto.
  Qed.
End Mix.

Section Export.
  Context {V E byte : Type}.
  Variables (nr nt n : Z).
  Hypothesis Hth : 1 <= nt.
  Hypothesis Hnr : 1 <= nr.
  Hypothesis Hn : 0 <= n.
  (** the rank whose file holds the edges from [s] to [d] *)
  Definition place (s d : Z) : Z := match mat_nodeIds nr nr nr with Ok ids => own nr ids (vpart n nr (v2n nt nr n s)) (vpart n nr (v2n nt nr n d)) | Err _ => -1 end.
  Lemma place_at ids (e : edge E) : mat_nodeIds nr nr nr = Ok ids -> at_rank n n nr nr ids (ren (v2n nt nr n) e) = place (e_src e) (e_dst e).
  Proof. intros Ei. unfold place. rewrite Ei. reflexivity. Qed.

  Lemma exported_at ids (g : graph V E byte) es : mat_nodeIds nr nr nr = Ok ids -> g_n g = n -> g_nt g = nt -> mat_holds nr n n nr nr ids (g_A g) (map (ren (v2n nt nr n)) es) ->
    (forall e, In e es -> in_range n e) ->
    exists outs, mapR (g_getEdgelist nr g) (zrange 0 nr) = Ok outs /\ Permutation (concat outs) es /\
      forall r l e, rd outs r = Ok l -> In e l -> place (e_src e) (e_dst e) = r.
  Proof.
    intros Ei Gn Gt Ha Hin. unfold g_getEdgelist. rewrite Gn, Gt.
    destruct (exported nr n n nr nr Hnr Hn Hn Hnr Hnr ids (g_A g) _ Ha) as (outs & Eo & Lo & Po & _).
    erewrite mapR_bind by exact Eo. rewrite (concat_mapR_map _ (ren (n2v nt nr n))).
    - eexists. split; [reflexivity|]. split.
      + rewrite <- concat_map, Po, map_map. rewrite <- (map_id es) at 2. erewrite map_ext_in; [reflexivity|].
        intros e He. destruct (Hin e He). apply ren_ren; apply n2v_v2n; auto.
      + intros r l e Er Ie. rewrite rd_map_list in Er. destruct (rd outs r) as [l0|] eqn:El; [|discriminate]. injection Er as <-. apply in_map_iff in Ie as (e0 & <- & I0).
        destruct (mapR_zrange_rd _ _ _ _ _ Eo El) as [Br Em]. rewrite (mat_get_edges_spec nr n n nr nr Hn Hn Hnr Hnr ids (g_A g) _ Ha r Br) in Em. injection Em as <-.
        unfold rank_entries in I0. apply in_flat_map in I0 as (i & Bi & I0). apply in_flat_map in I0 as (j & Bj & I0). apply in_zrange in Bi, Bj. destruct (Z.eqb_spec (own nr ids i j) r) as [Er|]; [|destruct I0].
        destruct (held_tile nr n n nr nr Hnr Hnr ids (g_A g) _ Ha i j Bi Bj) as (t & _ & _ & P). apply (Permutation_in _ P) in I0. apply filter_In in I0 as [I0 T]. unfold in_tile in T. apply andb_true_iff in T as [T1 T2]. apply Z.eqb_eq in T1, T2.
        apply in_map_iff in I0 as (e1 & <- & I1). destruct (Hin e1 I1) as [B1 B2]. rewrite ren_ren by (apply n2v_v2n; auto). unfold place. rewrite Ei, <- Er. unfold trow, tcol, ren in T1, T2. cbn [e_src e_dst] in T1, T2. rewrite T1, T2. reflexivity.
    - intros e He. apply (Permutation_in _ Po) in He. apply in_map_iff in He as (e' & <- & He'). destruct (Hin _ He') as [Q1 Q2]. destruct (v2n_ok nt nr n _ Hth Hnr Q1) as [_ H1]. destruct (v2n_ok nt nr n _ Hth Hnr Q2) as [_ H2].
      set (e2 := ren (v2n nt nr n) e') in *. assert (1 <= e_src e2 <= n) as B1 by (cbn; lia). assert (1 <= e_dst e2 <= n) as B2 by (cbn; lia).
      rewrite (proj1 (n2v_ok nt nr n _ Hth Hnr B1)). cbn [bind]. rewrite (proj1 (n2v_ok nt nr n _ Hth Hnr B2)). reflexivity.
  Qed.
End Export.

Lemma filter_of_map {A B} (f : B -> bool) (k : A -> B) l : filter f (map k l) = map k (filter (fun a => f (k a)) l).
Proof. induction l as [|a l IH]; cbn [map filter]; [reflexivity|]. destruct (f (k a)); cbn [map]; rewrite IH; reflexivity. Qed.

Section Claims.
  Context {V1 V2 V E byte1 byte2 byte : Type}.
  Variables (m1 : machine V1 E byte1) (m2 : machine V2 E byte2) (m : machine V E byte) (n : Z).
  Variables (g1 : graph V1 E byte1) (g2 : graph V2 E byte2) (q1 : gspec V1 E) (q2 : gspec V2 E).
  Hypothesis Hm1 : machine_ok m1.
  Hypothesis Hm2 : machine_ok m2.
  Hypothesis Hm : machine_ok m.
  Hypothesis R1 : m_nr m1 = m_nr m.
  Hypothesis R2 : m_nr m2 = m_nr m.
  Hypothesis T1 : m_nt m1 = m_nt m.
  Hypothesis T2 : m_nt m2 = m_nt m.
  Hypothesis Hn : 0 <= n.
  Hypothesis H1 : is m1 n g1 q1.
  Hypothesis H2 : is m2 n g2 q2.
  Notation pl := (place (m_nr m) (m_nt m) n).
  Lemma rank_place g : forall q, is m n g q -> forall out r l e, read_edges m g = Ok out -> rd out r = Ok l -> In e l -> pl (e_src e) (e_dst e) = r.
  Proof.
    intros q (Hin & (Gn & Gt & ids & Ei & HA & HT) & _) out r l e Eo. destruct Hm as (Hr & Ht & _).
    destruct (exported_at (m_nr m) (m_nt m) n Ht Hr Hn ids g (gs_es q) Ei Gn Gt HA Hin) as (out' & Eo' & _ & Q). unfold read_edges in Eo. rewrite Eo in Eo'. injection Eo' as <-. apply Q.
  Qed.
  Lemma place_range s d : 1 <= s <= n -> 1 <= d <= n -> 0 <= pl s d < m_nr m.
  Proof.
    intros Bs Bd. destruct H1 as (_ & (_ & _ & ids & Ei & HA & _) & _). rewrite R1 in Ei, HA. pose proof Hm as (Hr & Ht & _). unfold place. rewrite Ei.
    destruct (v2n_ok (m_nt m) (m_nr m) n s Ht Hr Bs) as [_ B1]. destruct (v2n_ok (m_nt m) (m_nr m) n d Ht Hr Bd) as [_ B2].
    apply (own_ok (m_nr m) n n (m_nr m) (m_nr m) Hr Hr ids (g_A g1) _ HA); apply vpart_range; auto; lia.
  Qed.
  Lemma mixed_save dv dir1 dir2 d1 d2 found (newer : Z -> bool) : write_bin m1 g1 dir1 = Ok d1 -> write_bin m2 g2 dir2 = Ok d2 ->
    (forall r, 0 <= r < m_nr m -> found r = if newer r then d2 r else d1 r) ->
    exists g out out', read_bin m dv found = Ok g /\ g_n g = n /\ read_edges m g = Ok out /\ Permutation (concat out) (filter (fun e => newer (pl (e_src e) (e_dst e))) (gs_es q2) ++ filter (fun e => negb (newer (pl (e_src e) (e_dst e)))) (gs_es q1)) /\ read_transposed m g = Ok out' /\ Permutation (concat out') (map swap_ends (filter (fun e => newer (pl (e_dst e) (e_src e))) (gs_es q2) ++ filter (fun e => negb (newer (pl (e_dst e) (e_src e)))) (gs_es q1))).
  Proof.
    intros W1 W2 F. destruct H1 as (I1 & He1 & _). destruct H2 as (I2 & He2 & _). pose proof Hm as (Hr & Ht & _). unfold write_bin in *. rewrite R1 in W1, He1. rewrite T1 in He1. rewrite R2 in W2, He2. rewrite T2 in He2.
    destruct (written (m_nr m) (m_nt m) n g1 _ Hr He1 dir1) as (d & Ed & _ & Rd1). rewrite W1 in Ed. injection Ed as <-.
    destruct (written (m_nr m) (m_nt m) n g2 _ Hr He2 dir2) as (d & Ed & _ & Rd2). rewrite W2 in Ed. injection Ed as <-.
    destruct He1 as (Gn1 & Gt1 & ids & Ei & HA1 & HT1). destruct He2 as (Gn2 & Gt2 & ids' & Ei' & HA2 & HT2). rewrite Ei in Ei'. injection Ei' as <-.
    unfold read_bin, g_ReadGraphMatBin.
    destruct (mapR_seq_all (rank_read (m_nr m) (m_nt m) found) (fun r p => mat_part (if newer r then g_A g2 else g_A g1) r = Ok (fst (fst p)) /\ mat_part (if newer r then g_AT g2 else g_AT g1) r = Ok (snd (fst p))) (m_nr m)) as (parts & Ep & Lp & Ip); [lia| |].
    { intros r Br. destruct (newer r) eqn:Nr.
      - destruct (Rd2 r Br) as (pa & pt & Ea & Eat & _ & Q). exists (pa, pt, m_nt m). split; [|auto]. rewrite (Q (m_nr m) (m_nt m) found), !Z.eqb_refl; [reflexivity|]. rewrite (F r Br), Nr. reflexivity.
      - destruct (Rd1 r Br) as (pa & pt & Ea & Eat & _ & Q). exists (pa, pt, m_nt m). split; [|auto]. rewrite (Q (m_nr m) (m_nt m) found), !Z.eqb_refl; [reflexivity|]. rewrite (F r Br), Nr. reflexivity. }
    rewrite Ep. cbn [bind].
    assert (mapR (fun r => mat_part (if newer r then g_A g2 else g_A g1) r) (zrange 0 (m_nr m)) = Ok (map (fun p => fst (fst p)) parts)) as J1.
    { apply mapR_of_rd; [lia|rewrite zlen_map; auto|]. intros r b Eb. rewrite rd_map_list in Eb. destruct (rd parts r) eqn:Er; [|discriminate]. injection Eb as <-. apply Ip in Er. tauto. }
    assert (mapR (fun r => mat_part (if newer r then g_AT g2 else g_AT g1) r) (zrange 0 (m_nr m)) = Ok (map (fun p => snd (fst p)) parts)) as J2.
    { apply mapR_of_rd; [lia|rewrite zlen_map; auto|]. intros r b Eb. rewrite rd_map_list in Eb. destruct (rd parts r) eqn:Er; [|discriminate]. injection Eb as <-. apply Ip in Er. tauto. }
    destruct (mix_join (m_nr m) n n (m_nr m) (m_nr m) Hr newer ids _ _ _ _ HA1 HA2 _ J1) as (a & -> & HA). cbn [bind].
    destruct (mix_join (m_nr m) n n (m_nr m) (m_nr m) Hr newer ids _ _ _ _ HT1 HT2 _ J2) as (at_ & -> & HT). cbn [bind].
    rewrite (mh_m _ _ _ _ _ _ _ _ HA).
    destruct (g_vectors_ok (byte:=byte) (m_nr m) (m_nt m) Ht Hr n (m_vjunk m) (m_ajunk m) (m_vfresh m) (m_afresh m) dv Hn) as (vp & act & -> & _). cbn [bind].
    destruct (nnz_spec (m_nr m) n n (m_nr m) (m_nr m) Hr Hn Hn Hr Hr ids a _ HA) as (outs & _ & _ & ->). cbn [bind fst snd].
    set (g := mkG n (m_nt m) a at_ _ vp act).
    assert (mixed n n (m_nr m) (m_nr m) newer ids (map (ren (v2n (m_nt m) (m_nr m) n)) (gs_es q1)) (map (ren (v2n (m_nt m) (m_nr m) n)) (gs_es q2)) = map (ren (v2n (m_nt m) (m_nr m) n)) (filter (fun e => newer (pl (e_src e) (e_dst e))) (gs_es q2) ++ filter (fun e => negb (newer (pl (e_src e) (e_dst e)))) (gs_es q1))) as X1.
    { unfold mixed. rewrite !filter_of_map, map_app. f_equal; f_equal; apply filter_ext; intros e; rewrite (place_at _ (m_nt m)) by exact Ei; reflexivity. }
    assert (mixed n n (m_nr m) (m_nr m) newer ids (map swap_ends (map (ren (v2n (m_nt m) (m_nr m) n)) (gs_es q1))) (map swap_ends (map (ren (v2n (m_nt m) (m_nr m) n)) (gs_es q2))) =
      map (ren (v2n (m_nt m) (m_nr m) n)) (map swap_ends (filter (fun e => newer (pl (e_dst e) (e_src e))) (gs_es q2) ++ filter (fun e => negb (newer (pl (e_dst e) (e_src e)))) (gs_es q1)))) as X2.
    { unfold mixed. rewrite !filter_of_map, !map_app, !map_map. f_equal; f_equal; apply filter_ext; intros e; change (swap_ends (ren (v2n (m_nt m) (m_nr m) n) e)) with (ren (v2n (m_nt m) (m_nr m) n) (swap_ends e)); rewrite (place_at _ (m_nt m)) by exact Ei; reflexivity. }
    rewrite X1 in HA. rewrite X2 in HT.
    destruct (exported_at (m_nr m) (m_nt m) n Ht Hr Hn ids g _ Ei eq_refl eq_refl HA) as (out & Eo & Po & _).
    { intros e He. apply in_app_or in He as [He|He]; apply filter_In in He as [He _]; [apply I2|apply I1]; exact He. }
    destruct (exported_at (m_nr m) (m_nt m) n Ht Hr Hn ids (mkG (g_n g) (g_nt g) (g_AT g) (g_A g) (g_nnz g) (g_vp g) (g_act g)) _ Ei eq_refl eq_refl HT) as (out' & Eo' & Po' & _).
    { intros e He. apply in_map_iff in He as (e0 & <- & He). apply in_app_or in He as [He|He]; apply filter_In in He as [He _]; [apply I2 in He|apply I1 in He]; destruct He; split; assumption. }
    exists g, out, out'. split; [reflexivity|]. split; [reflexivity|]. split; [exact Eo|]. split; [exact Po|]. split; [exact Eo'|exact Po'].
  Qed.
End Claims.

Lemma saves_mix {V E byte} (m : machine V E byte) n : machine_ok m -> 0 <= n -> exists place : Z -> Z -> Z,
  (forall neq dv blobs h g q out r l e, setting m n blobs -> calls_ok n m h -> reached neq m dv n blobs h g -> means neq dv n blobs h q ->
     read_edges m g = Ok out -> rd out r = Ok l -> In e l -> place (e_src e) (e_dst e) = r) /\
  forall V1 V2 byte1 byte2 neq1 neq2 (m1 : machine V1 E byte1) (m2 : machine V2 E byte2) dv1 dv2 blobs1 blobs2 h1 h2 g1 g2 q1 q2 dv dir1 dir2 d1 d2 found newer,
    setting m1 n blobs1 -> calls_ok n m1 h1 -> reached neq1 m1 dv1 n blobs1 h1 g1 -> means neq1 dv1 n blobs1 h1 q1 ->
    setting m2 n blobs2 -> calls_ok n m2 h2 -> reached neq2 m2 dv2 n blobs2 h2 g2 -> means neq2 dv2 n blobs2 h2 q2 ->
    m_nr m1 = m_nr m -> m_nr m2 = m_nr m -> m_nt m1 = m_nt m -> m_nt m2 = m_nt m ->
    write_bin m1 g1 dir1 = Ok d1 -> write_bin m2 g2 dir2 = Ok d2 ->
    (forall r, 0 <= r < m_nr m -> found r = if (newer r : bool) then d2 r else d1 r) ->
    exists g out out', read_bin m dv found = Ok g /\ g_n g = n /\
      read_edges m g = Ok out /\ Permutation (concat out)
        (filter (fun e => newer (place (e_src e) (e_dst e))) (gs_es q2) ++ filter (fun e => negb (newer (place (e_src e) (e_dst e)))) (gs_es q1)) /\
      read_transposed m g = Ok out' /\ Permutation (concat out') (map (fun e => mkE (e_dst e) (e_src e) (e_val e))
        (filter (fun e => newer (place (e_dst e) (e_src e))) (gs_es q2) ++ filter (fun e => negb (newer (place (e_dst e) (e_src e)))) (gs_es q1))).
Proof.
  intros Hm Hn. exists (place (m_nr m) (m_nt m) n). split.
  - intros neq dv blobs h g q out r l e A B C D. apply (rank_place m n Hm Hn g q). eapply reach_is; eauto.
  - intros V1 V2 byte1 byte2 neq1 neq2 m1 m2 dv1 dv2 blobs1 blobs2 h1 h2 g1 g2 q1 q2 dv dir1 dir2 d1 d2 found newer S1 C1 X1 M1 S2 C2 X2 M2 R1 R2 T1 T2 W1 W2 F.
    apply (mixed_save m1 m2 m n g1 g2 q1 q2 Hm R1 R2 T1 T2 Hn) with (dir1 := dir1) (dir2 := dir2) (d1 := d1) (d2 := d2); auto; eapply reach_is; eauto.
Qed.
