(** Proofs about ParLoop.v, part 7: the functions whose loops these are. *)
From Coq Require Import Permutation.
From Verif Require Import BaseLemmas Bits BitsProofs Segment SegmentProofs TransferProofs ListLemmas Conc DCSC DCSCBuild Kernel TileProofs SpMat BucketProofs EdgeList EdgeSpec ShuffleProofs Runtime GraphOps
  ParLoop ParLoopProofs ParLoopWords ParLoopWords2 ParLoopWords3 ParLoopWords4 ParLoopEdges.

Lemma add_reduction l r : reduction_gives Z.add 0 0 l r -> r = fold_left Z.add l 0.
Proof. apply reduction_any; intros; lia. Qed.
Lemma and_reduction l r : reduction_gives andb true true l r -> r = fold_left andb l true.
Proof. apply reduction_any; intros; [apply andb_assoc|apply andb_comm|apply andb_true_r]. Qed.

  Lemma fill_spec {A} (l : list A) n a : 0 <= n <= zlen l -> forZ 0 n (fun i v => wr v i a) l = Ok (repeat a (Z.to_nat n) ++ skipn (Z.to_nat n) l).
  Proof.
    intros Hn. destruct (forZ_inv (fun i v => v = repeat a (Z.to_nat i) ++ skipn (Z.to_nat i) l) 0 n (fun i v => wr v i a) l) as (v & -> & ->); auto; [lia|].
    intros i v Hi ->. assert (zlen (repeat a (Z.to_nat i) ++ skipn (Z.to_nat i) l) = zlen l) as Lz by (rewrite zlen_app, zlen_repeat; unfold zlen in *; rewrite skipn_length; lia).
    rewrite wr_ok by lia. eexists. split; [reflexivity|].
    apply rd_ext. { rewrite zlen_upd, Lz. rewrite zlen_app, zlen_repeat. unfold zlen in *. rewrite skipn_length. lia. }
    intros j Hj. rewrite zlen_upd, Lz in Hj.
    assert (forall k j, 0 <= k <= zlen l -> 0 <= j < zlen l -> rd (repeat a (Z.to_nat k) ++ skipn (Z.to_nat k) l) j = if j <? k then Ok a else rd l j) as G.
    { clear. intros k j Hk Hj. destruct (Z.ltb_spec j k).
      - rewrite rd_app1 by (rewrite zlen_repeat; lia). apply rd_repeat. lia.
      - rewrite rd_app2 by (rewrite zlen_repeat; lia). rewrite zlen_repeat by lia. rewrite <- (firstn_skipn (Z.to_nat k) l) at 2.
        assert (zlen (firstn (Z.to_nat k) l) = k) as Lf by (unfold zlen in *; rewrite firstn_length; lia). rewrite rd_app2 by lia. rewrite Lf. f_equal. lia. }
    rewrite (G (i + 1)) by lia. destruct (Z.eq_dec j i) as [->|N].
    - rewrite rd_upd_same by lia. destruct (Z.ltb_spec i (i + 1)); auto. lia.
    - rewrite rd_upd_other by lia. rewrite G by lia. destruct (Z.ltb_spec j i), (Z.ltb_spec j (i + 1)); auto; lia.
  Qed.

Section Seg.
  Context {A B C abyte bbyte cbyte : Type}.

  Lemma apply_segment_any (ap : A -> B -> B) neq st (sy : seg A abyte) (sv : seg B bbyte) (sa : seg bool cbyte) sv' sa' conv ev cs0 :
    0 <= s_nints sy -> apply_segment ap neq st sy sv sa = Ok (sv', sa', conv, ev) -> zlen cs0 = s_nints sy ->
    exists by_ wy bv ba wa v av aw cs,
      prop sy = Ok by_ /\ words by_ = Ok wy /\ prop sv = Ok bv /\ prop sa = Ok ba /\ words ba = Ok wa /\
      any_schedule (apply_loop_t ap neq st wy (b_value by_) (s_nints sy)) (mkArrs (b_value bv) (b_value ba) wa cs0) (mkArrs v av aw cs) /\
      sv' = set_prop (Some (set_value v bv)) sv /\ sa' = set_prop (Some (set_bits aw (set_value av ba))) sa /\
      (forall r, reduction_gives andb true true (map fst cs) r -> r = conv) /\ ev = concat (map snd cs).
  Proof.
    intros Hn H L. unfold apply_segment in H. apply bind_Ok in H as (by_ & E1 & H). apply bind_Ok in H as (wy & E2 & H). apply bind_Ok in H as (bv & E3 & H).
    apply bind_Ok in H as (ba & E4 & H). apply bind_Ok in H as (wa & E5 & H). apply bind_Ok in H as ([[[[v av] aw] conv'] ev'] & E6 & H).
    injection H as <- <- <- <-. destruct (apply_loop_any ap neq st wy (b_value by_) (s_nints sy) _ _ _ _ _ _ _ _ cs0 Hn E6 L) as (cs & S & Hc & He).
    exists by_, wy, bv, ba, wa, v, av, aw, cs. split; auto. split; auto. split; auto. split; auto. split; auto. split; auto. split; auto. split; auto. split; auto.
    intros r Hr. apply and_reduction in Hr. congruence.
  Qed.

  Lemma intersect_segment_any threads (op : Z -> A -> B -> C -> C * list event) (s1 : seg A abyte) (s2 : seg B bbyte) (s3 s3i s3' : seg C cbyte) b1 b2 b3 w1 w2 w3 ev cs0 :
    0 <= s_nints s1 -> intersect_segment threads op s1 s2 s3 = Ok (s3', ev) ->
    prop s1 = Ok b1 -> b_uninit b1 = false -> prop s2 = Ok b2 -> b_uninit b2 = false ->
    seg_initialize (seg_alloc threads s3) = Ok s3i -> prop s3i = Ok b3 ->
    words b1 = Ok w1 -> words b2 = Ok w2 -> words b3 = Ok w3 -> zlen cs0 = s_nints s1 ->
    exists w v cs cnt,
      any_schedule (and_words_t w1 w2 (s_nints s1)) (mkArrs w3 [] [] []) (mkArrs w [] [] []) /\
      any_schedule (intersect_values_t op (b_value b1) (b_value b2) w (s_nints s1)) (mkArrs (b_value b3) cs0 [] []) (mkArrs v cs [] []) /\
      (forall r, reduction_gives Z.add 0 0 (map fst cs) r -> r = cnt) /\ ev = concat (map snd cs) /\
      s3' = set_prop (Some (set_nnz cnt (set_value v (set_bits w b3)))) s3i.
  Proof.
    intros Hn H P1 U1 P2 U2 I3 P3 W1 W2 W3 L. unfold intersect_segment in H. rewrite I3 in H. cbn [bind] in H. rewrite P1 in H. cbn [bind] in H. rewrite U1 in H. rewrite P2 in H. cbn [bind] in H.
    rewrite U2 in H. rewrite P3 in H. cbn [bind] in H. rewrite W1, W2, W3 in H. cbn [bind] in H. apply bind_Ok in H as (w & Ew & H). apply bind_Ok in H as ([[v cnt] ev'] & Ev & H).
    cbn [fst snd] in H. injection H as <- <-. pose proof (and_words_any _ _ _ _ _ Hn Ew) as S1.
    destruct (intersect_values_any op _ _ _ _ _ _ _ _ cs0 Hn Ev L) as (cs & S2 & Hc & He). exists w, v, cs, cnt. split; auto. split; auto. split; auto.
    intros r Hr. apply add_reduction in Hr. congruence.
  Qed.

  Lemma apply_to_segment_any threads (f : A -> A -> A) (s si s' : seg A abyte) b w cs0 :
    0 <= s_nints si -> apply_to_segment threads f s = Ok s' -> seg_initialize (seg_alloc threads s) = Ok si -> prop si = Ok b -> words b = Ok w -> zlen cs0 = s_nints si ->
    exists w' v cs cnt,
      any_schedule (or_words_t (s_nints si)) (mkArrs w [] [] []) (mkArrs w' [] [] []) /\
      any_schedule (apply_values_t f w' (s_nints si)) (mkArrs (b_value b) cs0 [] []) (mkArrs v cs [] []) /\
      (forall r, reduction_gives Z.add 0 0 cs r -> r = cnt) /\
      s' = set_prop (Some (set_nnz cnt (set_value v (set_bits w' b)))) si.
  Proof.
    intros Hn H I P W L. unfold apply_to_segment in H. rewrite I in H. cbn [bind] in H. rewrite P in H. cbn [bind] in H. rewrite W in H. cbn [bind] in H.
    apply bind_Ok in H as (w' & Ew & H). apply bind_Ok in H as ([v cnt] & Ev & H). cbn [fst snd] in H. injection H as <-.
    destruct (apply_values_any f _ _ _ _ _ cs0 Hn Ev L) as (cs & S2 & Hc). exists w', v, cs, cnt. split; [apply or_words_any; auto|]. split; auto. split; auto.
    intros r Hr. apply add_reduction in Hr. congruence.
  Qed.

  Lemma mapreduce_segment_any threads (mp : A -> A * B) (op : B -> B -> B) (s si s' : seg A abyte) b w res res' lr0 fs0 :
    0 <= s_cap si -> 0 <= threads -> mapreduce_segment threads mp op s res = Ok (s', res') ->
    seg_initialize (seg_alloc threads s) = Ok si -> prop si = Ok b -> words b = Ok w ->
    zlen lr0 = threads * 16 -> zlen fs0 = threads * 16 ->
    exists v lr fs,
      any_schedule (mapreduce_t threads mp op w (s_cap si)) (mkArrs (b_value b) lr0 fs0 []) (mkArrs v lr fs []) /\
      mapreduce_combine threads op lr fs res = Ok res' /\
      s' = set_prop (Some (set_value v b)) si.
  Proof.
    intros Hc Ht H I P W L1' L2'. unfold mapreduce_segment in H. rewrite I in H. cbn [bind] in H. rewrite P in H. cbn [bind] in H. rewrite W in H. cbn [bind] in H.
    apply bind_Ok in H as ([v rs] & E & H). cbn [fst snd] in H. injection H as <- <-.
    destruct (mapreduce_any threads mp op w (s_cap si) _ _ _ lr0 fs0 Hc Ht E L1' L2') as (lr & fs & S & Lr & Lo).
    exists v, lr, fs. split; auto. split; auto. apply combine_locals; auto.
  Qed.

  Lemma set_all_any threads (val : option A) (s s' : seg A abyte) b w l : seg_setAll threads val s = Ok s' -> prop (seg_alloc threads s) = Ok b ->
    0 < s_nints s -> 0 <= s_cap s -> zlen w = s_nints s -> l = upd w (Z.to_nat (s_nints s - 1)) 0 ->
    exists v w',
      any_schedule (fill_t (s_nints s - 1) (2 ^ 32 - 1)) (mkArrs l [] [] []) (mkArrs (repeat (2 ^ 32 - 1) (Z.to_nat (s_nints s - 1)) ++ [0]) [] [] []) /\
      forZ (Z.max 0 (s_cap s - 32)) (s_cap s) (fun idx w => bv_set w idx) (repeat (2 ^ 32 - 1) (Z.to_nat (s_nints s - 1)) ++ [0]) = Ok w' /\
      any_schedule (fill_t (s_cap s) val) (mkArrs (b_value b) [] [] []) (mkArrs v [] [] []) /\
      s' = set_prop (Some (set_value v (set_nnz (s_cap s) (set_bits w' (set_uninit false b))))) (seg_alloc threads s).
  Proof.
    intros H P Hn Hc L ->. unfold seg_setAll in H. rewrite P in H. cbn [bind] in H.
    assert (s_nints (seg_alloc threads s) = s_nints s /\ s_cap (seg_alloc threads s) = s_cap s) as [N1 N2].
    { unfold seg_alloc. destruct (s_prop s); auto. }
    rewrite N1, N2 in H. destruct (Z.eqb_spec (s_nints s) 0); [lia|]. apply bind_Ok in H as (w' & Ew & H). apply bind_Ok in H as (v & Ev & H). injection H as <-.
    exists v, w'. split; [|split; [exact Ew|split; [|reflexivity]]].
    - apply fill_any; [lia|]. rewrite fill_spec by (rewrite zlen_upd; lia). do 2 f_equal.
      apply rd_ext; [unfold zlen; rewrite skipn_length, length_upd; simpl; unfold zlen in L; lia|]. intros j Hj.
      assert (zlen (skipn (Z.to_nat (s_nints s - 1)) (upd w (Z.to_nat (s_nints s - 1)) 0)) = 1) as L1' by (unfold zlen; rewrite skipn_length, length_upd; unfold zlen in L; lia).
      assert (j = 0) as -> by lia.
      transitivity (rd (firstn (Z.to_nat (s_nints s - 1)) (upd w (Z.to_nat (s_nints s - 1)) 0) ++ skipn (Z.to_nat (s_nints s - 1)) (upd w (Z.to_nat (s_nints s - 1)) 0)) (s_nints s - 1)).
      + assert (zlen (firstn (Z.to_nat (s_nints s - 1)) (upd w (Z.to_nat (s_nints s - 1)) 0)) = s_nints s - 1) as Lf by (unfold zlen in *; rewrite firstn_length, length_upd; lia).
        rewrite rd_app2 by lia. f_equal. lia.
      + rewrite firstn_skipn. rewrite rd_upd_same by lia. reflexivity.
    - apply fill_any; auto.
  Qed.

  Lemma compress_plain_any threads (b b' : buffer A abyte) w : 0 <= b_nints b -> 1 <= threads -> buf_compress_plain threads b = Ok b' -> words b = Ok w ->
    forall c0, zlen c0 = threads * 16 ->
    exists counts cd ci,
      any_schedule (count_parts_t w (b_nints b) (threads * 16)) (mkArrs c0 [] [] []) (mkArrs (map Some counts) [] [] []) /\
      any_schedule (emit_parts_t w (b_value b) (prefix_sums 0 counts) (b_nints b) (threads * 16)) (mkArrs (b_cdata b) (b_cidx b) [] []) (mkArrs cd ci [] []) /\
      b' = set_nnz (fold_left Z.add counts 0) (set_comp cd ci b).
  Proof.
    intros Hn Ht H W c0 L. unfold buf_compress_plain in H. rewrite W in H. cbn [bind] in H. cbv zeta in H. apply bind_Ok in H as (counts & Ec & H). apply bind_Ok in H as ([cd ci] & Ee & H).
    cbn [fst snd] in H. injection H as <-. exists counts, cd, ci. split; [|split; [|reflexivity]].
    - unfold count_parts_t. apply (zrange_any (fun p => bv_count w (part_start (b_nints b) (threads * 16) p) (part_end (b_nints b) (threads * 16) p))); auto. lia.
    - apply (emit_parts_any w (b_value b) (b_nints b) (threads * 16) counts _ _ (cd, ci)); auto. lia.
  Qed.

  Lemma compress_ser_any (enc : list (Z * A) -> list abyte) (b b' : buffer A abyte) w : 0 <= b_snp b -> buf_compress_ser enc b = Ok b' -> words b = Ok w ->
    forall l1 l2 l3 l4, zlen l1 = b_snp b -> zlen l2 = b_snp b -> zlen l3 = b_snp b -> zlen l4 = zlen (b_sdata b') ->
    exists bytes nzs,
      any_schedule (archive_parts_t enc w (b_value b) (b_nints b) (b_snp b)) (mkArrs l1 l2 l3 []) (mkArrs (map Some bytes) (map Some nzs) (map Some (map zlen bytes)) []) /\
      any_schedule (copy_parts_t bytes (prefix_sums 0 (map zlen bytes)) (b_snp b)) (mkArrs l4 [] [] []) (mkArrs (map Some (b_sdata b')) [] [] []) /\
      write_scan (b_nzscan b) (prefix_sums 0 nzs) = Ok (b_nzscan b') /\ write_scan (b_nbscan b) (prefix_sums 0 (map zlen bytes)) = Ok (b_nbscan b').
  Proof.
    intros Hs H W l1 l2 l3 l4 Len1 Len2 Len3 Len4. unfold buf_compress_ser in H. rewrite W in H. cbn [bind] in H. cbv zeta in H.
    apply bind_Ok in H as (parts & Ec & H). apply bind_Ok in H as (nzs & E1 & H). apply bind_Ok in H as (nbs & E2 & H). injection H as <-. cbn in Len4.
    exists (map enc parts), (map zlen parts). cbn. split; [|split; [|split; auto]].
    - apply archive_parts_any; auto.
    - apply copy_parts_any; auto. rewrite zlen_map. apply mapR_at in Ec as [Lc _]. rewrite zlen_zrange in Lc by lia. lia.
  Qed.

  Lemma write_scan_rd dst src out p : write_scan dst src = Ok out -> 0 <= p < zlen src -> rdi out p = rdi (map Some src) p.
  Proof.
    unfold write_scan, recv_into. destruct (_ || _); [discriminate|]. intros H Hp. assert (map Some src ++ skipn (length (map Some src)) dst = out) as <- by congruence.
    unfold rdi. rewrite rd_app1 by (rewrite zlen_map; lia). reflexivity.
  Qed.
  Lemma decompress_ser_any (enc : list (Z * A) -> list abyte) dec (b b1 b2 b3 : buffer A abyte) :
    (forall l, dec (enc l) (zlen l) = Ok l) ->
    0 <= b_nints b -> 1 <= b_snp b -> buf_compress_ser enc b = Ok b1 ->
    b_sdata b2 = b_sdata b1 -> b_nzscan b2 = b_nzscan b1 -> b_nbscan b2 = b_nbscan b1 -> b_snp b2 = b_snp b1 ->
    buf_decompress_ser dec b2 = Ok b3 ->
    exists w v,
      any_schedule (decode_parts_t dec (b_sdata b2) (b_nbscan b2) (b_nzscan b2) (b_snp b2)) (mkArrs (repeat 0 (Z.to_nat (b_nints b2))) (b_value b2) [] []) (mkArrs w v [] []) /\
      b3 = set_value v (set_bits w b2).
  Proof.
    intros De Hn Hs H S1 S2 S3 S4 H2. unfold buf_compress_ser in H. apply bind_Ok in H as (w & W & H). cbv zeta in H.
    apply bind_Ok in H as (parts & Ec & H). apply bind_Ok in H as (nzs & E1 & H). apply bind_Ok in H as (nbs & E2 & H). injection H as <-. cbn in S1, S2, S3, S4.
    unfold buf_decompress_ser in H2. cbv zeta in H2. apply bind_Ok in H2 as ([w' v'] & Ed & H2). cbn [fst snd] in H2. injection H2 as <-.
    exists w', v'. split; auto. rewrite S1, S2, S3, S4 in *.
    assert (zlen parts = b_snp b) as Lp by (apply mapR_at in Ec as [Lc _]; rewrite zlen_zrange in Lc by lia; lia).
    apply (decode_parts_any enc dec De w (b_value b) (b_nints b) (b_snp b) parts _ _ _ _ _ (w', v')); auto.
    - intros p Hp. eapply write_scan_rd; eauto. rewrite prefix_sums_len, !zlen_map. lia.
    - intros p Hp. eapply write_scan_rd; eauto. rewrite prefix_sums_len, !zlen_map. lia.
  Qed.

  Lemma union_dense_any (op : A -> A -> A) cap nints v1 w1 v2 w2 w v : 0 <= cap -> 0 <= nints -> union_dense op cap nints v1 w1 v2 w2 = Ok (w, v) ->
    any_schedule (union_values_t op cap w1 v2 w2) (mkArrs v1 [] [] []) (mkArrs v [] [] []) /\
    any_schedule (union_words_t w2 nints) (mkArrs w1 [] [] []) (mkArrs w [] [] []).
  Proof.
    intros Hc Hn H. unfold union_dense in H. apply bind_Ok in H as (v' & Ev & H). apply bind_Ok in H as (w' & Ew & H). injection H as <- <-.
    split; [apply union_values_any|apply union_words_any]; auto.
  Qed.
End Seg.

Section Tiles.
  Context {E V : Type}.
  Lemma mapR_need_inv {A} (l : list (option A)) l' : mapR need l = Ok l' -> l = map Some l'.
  Proof.
    intros H. apply mapR_Ok in H. induction H as [|a b l l' Hab H IH]; simpl; auto. apply need_Ok in Hab. congruence.
  Qed.
  Lemma mapR_assert {A} (ok : A -> bool) l u : mapR (fun a => assertb (ok a)) l = Ok u -> forallb ok l = true.
  Proof.
    intros H. apply mapR_Ok in H. induction H as [|a b l l' Hab H IH]; simpl; auto. rewrite IH. unfold assertb in Hab. destruct (ok a); auto. discriminate.
  Qed.
  (** the functions of the element-wise loops of [dcsc_new] *)
  Lemma tile_build_any srt threads (edges : list (edge E)) m n rs cs junk t : 1 <= threads -> 0 < zlen edges ->
    dcsc_new srt threads edges m n rs cs junk = Ok t ->
    exists rp p_edges ncols,
      static_partition m (threads * 16) 32 = Ok rp /\
      (forall l0, zlen l0 = zlen edges -> any_schedule (compute_t (fun e => do p <- find_partition (Z.to_nat (threads * 16 + 1)) rp (e_src e - 1 - rs) 0 (threads * 16 - 1) ;;
          do _ <- assertb (0 <=? p) ;; Ok (p, mkE (e_src e - 1 - rs) (e_dst e - 1 - cs) (e_val e))) edges) (mkArrs l0 [] [] []) (mkArrs (map Some p_edges) [] [] [])) /\
      any_schedule (check_t (fun e : tedge E => (0 <=? e_src (snd e)) && (0 <=? e_dst (snd e)) && (e_src (snd e) <? m) && (e_dst (snd e) <? n)) p_edges) (mkArrs [] [] [] []) (mkArrs [] [] [] []) /\
      set_edge_pointers (srt p_edges) rp (zlen edges) (threads * 16) = Ok (t_edge_ptrs t) /\
      (forall c0, zlen c0 = threads * 16 -> any_schedule (count_columns_t (srt p_edges) (t_edge_ptrs t) (threads * 16)) (mkArrs c0 [] [] []) (mkArrs (map Some ncols) [] [] [])) /\
      t_col_starts t = prefix_sums 0 (map (fun k => k + 1) ncols) /\
      any_schedule (build_t (srt p_edges) (t_edge_ptrs t) (t_col_starts t) n (threads * 16))
        (mkArrs (repeat None (Z.to_nat (zlen edges))) (repeat None (Z.to_nat (zlen edges))) (repeat None (Z.to_nat (t_num_cols t))) (repeat None (Z.to_nat (t_num_cols t))))
        (mkArrs (map Some (t_vals t)) (map Some (t_row_inds t)) (map Some (t_col_idx t)) (map Some (t_col_ptrs t))).
  Proof.
    intros Ht Hz H. unfold dcsc_new in H. destruct (Z.ltb_spec 0 (zlen edges)); [|lia]. cbv zeta in H.
    apply bind_Ok in H as (rp & Erp & H). apply bind_Ok in H as (pe & Epe & H). apply bind_Ok in H as (u & Echk & H). apply bind_Ok in H as (ep & Eep & H). apply bind_Ok in H as (ncols & Enc & H).
    apply bind_Ok in H as (nc & Enum & H). apply bind_Ok in H as (ar & Ear & H). apply bind_Ok in H as (vals & Ev & H). apply bind_Ok in H as (rows & Er & H). apply bind_Ok in H as (idx & Ei & H).
    apply bind_Ok in H as (ptrs & Ept & H). injection H as <-. cbn [t_edge_ptrs t_col_starts t_vals t_row_inds t_col_idx t_col_ptrs t_num_cols].
    exists rp, pe, ncols. split; auto. split; [intros l0 L0; apply compute_any; auto|]. split; [apply check_any; eapply mapR_assert; eauto|]. split; auto.
    split; [intros c0 L0; unfold count_columns_t; apply (zrange_any (count_columns (srt pe) ep)); auto; lia|]. split; auto.
    apply mapR_need_inv in Ev, Er, Ei, Ept. rewrite <- Ev, <- Er, <- Ei, <- Ept.
    pose proof (build_any (srt pe) ep n (threads * 16) ncols _ ar ltac:(lia) (edge_pointers_rise _ _ _ _ _ (zlen_nonneg edges) Eep) Enc Ear) as S. cbn in S. exact S.
  Qed.

  Lemma apply_edges_any strict (op : E -> V -> V -> E) {byte} m n es (t t' : dcsc E) (s1 s2 : seg V byte) : tile_of m n es t -> 0 < t_nnz t ->
    apply_edges strict op t s1 s2 = Ok t' ->
    exists b1 b2 w2 vals, prop s1 = Ok b1 /\ prop s2 = Ok b2 /\ words b2 = Ok w2 /\ t' = set_vals vals t /\
      any_schedule (applyedges_t strict op t (b_value b1) w2 (b_value b2)) (mkArrs (t_vals t) [] [] []) (mkArrs vals [] [] []).
  Proof.
    intros Ht Hz H. unfold apply_edges in H. destruct (Z.leb_spec (t_nnz t) 0); [lia|]. apply bind_Ok in H as (b1 & E1 & H). apply bind_Ok in H as (b2 & E2 & H).
    apply bind_Ok in H as (w2 & E3 & H). apply bind_Ok in H as (vals & E4 & H). injection H as <-. exists b1, b2, w2, vals. split; auto. split; auto. split; auto. split; auto.
    eapply applyedges_any; eauto.
  Qed.

  Lemma rewrite_any (f : Z -> edge E -> R (edge E)) el el' : 0 <= el_nnz el -> rewrite_edges f el = Ok el' ->
    any_schedule (replace_t (fun i o => do e <- need o ;; do e' <- f i e ;; Ok (Some e')) (el_nnz el)) (mkArrs (el_arr el) [] [] []) (mkArrs (el_arr el') [] [] []) /\
    el_m el' = el_m el /\ el_n el' = el_n el /\ el_nnz el' = el_nnz el.
  Proof.
    intros Hn H. unfold rewrite_edges in H. apply bind_Ok in H as (a & Ea & H). injection H as <-. cbn. split; auto. apply replace_any; auto.
    rewrite <- Ea. apply forZ_ext. intros i l Hi. unfold rdi. destruct (rd l i) as [o|]; cbn [bind]; auto. destruct o as [e|]; cbn [need bind]; auto. destruct (f i e); reflexivity.
  Qed.

  Lemma shuffle_any nt nr (el : elist E) l : 1 <= nt -> 1 <= nr -> holds el l -> (forall e, In e l -> 1 <= e_src e) ->
    exists h o te wo,
      any_schedule (hist_t nt nr el) (mkArrs (repeat 0 (Z.to_nat (nt * nr))) [] [] []) (mkArrs h [] [] []) /\
      shuffle_offset nt nr h = Ok o /\
      any_schedule (scatter_t nt nr el o) (mkArrs (repeat None (Z.to_nat (el_nnz el))) (repeat 0 (Z.to_nat (nt * nr))) [] []) (mkArrs te wo [] []) /\
      mapR (shuffle_message nt nr h o te) (zrange 0 nr) = Ok (map (fun b => map Some (filter (fun e => Z.rem (e_src e - 1) nr =? b) l)) (zrange 0 nr)).
  Proof.
    intros Ht Hr Hh Hp. destruct (local_spec nt nr Ht Hr el l Hh Hp) as (slots & H & Nd & _). unfold shuffle_local in H. destruct (Z.eqb_spec nt 0); [lia|].
    apply bind_Ok in H as (h & Eh & H). apply bind_Ok in H as (o & Eo & H). apply bind_Ok in H as ([[te wo] sl] & Es & H). apply bind_Ok in H as (ms & Em & H).
    injection H as -> ->. exists h, o, te, wo. split; [apply hist_any; auto; lia|]. split; auto. split; [eapply scatter_any; eauto; lia|]. exact Em.
  Qed.
End Tiles.

(** every schedule can be carried on to the end *)
Section Ends.
  Context {L V : Type} (leq : L -> L -> bool).
  Lemma psteps_trans (s1 s2 s3 : list (thread L V) * mem) : psteps leq s1 s2 -> psteps leq s2 s3 -> psteps leq s1 s3.
  Proof. intros H1 H2. induction H2 as [|a b c Hab IH Hbc]; [exact H1|]. exact (steps_more leq _ _ _ (IH H1) Hbc). Qed.
  Definition sound (s : list (thread L V) * mem) : Prop := forall s', psteps leq s s' -> ~ bad s'.
  Lemma sound_step s s' : sound s -> pstep leq s s' -> sound s'.
  Proof. intros H P x Hx. apply H. eapply psteps_trans; [|exact Hx]. eapply steps_more; [apply steps_refl|exact P]. Qed.
  Lemma nth_error_upd {A} (l : list A) i a j : (i < length l)%nat -> nth_error (upd l i a) j = if Nat.eqb i j then Some a else nth_error l j.
  Proof.
    revert i j. induction l as [|x l IH]; intros [|i] [|j] H; simpl in *; auto; try lia. apply IH. lia.
  Qed.
  Lemma upd_twice {A} (l : list A) i a b : upd (upd l i a) i b = upd l i b.
  Proof. revert i. induction l as [|x l IH]; intros [|i]; simpl; auto. now rewrite IH. Qed.
  Lemma finish_one t : forall ts m i, nth_error ts i = Some t -> sound (ts, m) -> exists m', psteps leq (ts, m) (upd ts i Fin, m').
  Proof.
    induction t as [|e|l k IH|l v t IH]; intros ts m i Hi Hs.
    - exists m. assert (upd ts i Fin = ts) as ->; [|constructor]. clear - Hi. revert ts Hi. induction i; intros [|x ts] H; simpl in *; try discriminate; [congruence|]. now rewrite IHi.
    - exfalso. apply (Hs (ts, m) (steps_refl _ _)). exists (Fail e). split; [eapply nth_error_In; eauto|exact I].
    - pose proof (nth_error_Some ts i) as B. rewrite Hi in B. assert (i < length ts)%nat as Bi by (apply B; discriminate).
      destruct (m l) as [v|] eqn:El; [|exfalso; apply (Hs (ts, m) (steps_refl _ _)); exists (Rd l k); split; [eapply nth_error_In; eauto|exact El]].
      pose proof (step_rd leq ts m i l k v Hi El) as St. destruct (IH v (upd ts i (k v)) m i) as [m' Hm].
      + rewrite nth_error_upd by auto. now rewrite Nat.eqb_refl.
      + eapply sound_step; eauto.
      + exists m'. rewrite upd_twice in Hm. eapply psteps_trans; [eapply steps_more; [apply steps_refl|exact St]|exact Hm].
    - pose proof (nth_error_Some ts i) as B. rewrite Hi in B. assert (i < length ts)%nat as Bi by (apply B; discriminate).
      destruct (m l) as [o|] eqn:El; [|exfalso; apply (Hs (ts, m) (steps_refl _ _)); exists (Wr l v t); split; [eapply nth_error_In; eauto|exact El]].
      pose proof (step_wr leq ts m i l v t o Hi El) as St. destruct (IH (upd ts i t) (mput leq m l v) i) as [m' Hm].
      + rewrite nth_error_upd by auto. now rewrite Nat.eqb_refl.
      + eapply sound_step; eauto.
      + exists m'. rewrite upd_twice in Hm. eapply psteps_trans; [eapply steps_more; [apply steps_refl|exact St]|exact Hm].
  Qed.
  Lemma finish_all n : forall ts m, (n <= length ts)%nat -> sound (ts, m) ->
    exists ts' m', psteps leq (ts, m) (ts', m') /\ length ts' = length ts /\ forall i, (i < n)%nat -> nth_error ts' i = Some Fin.
  Proof.
    induction n as [|n IH]; intros ts m Hn Hs; [exists ts, m; split; [constructor|split; [auto|intros; lia]]|].
    destruct (IH ts m ltac:(lia) Hs) as (ts1 & m1 & H1 & Len & F). destruct (nth_error ts1 n) as [t|] eqn:En; [|apply nth_error_None in En; lia].
    assert (sound (ts1, m1)) as S1 by (intros x Hx; apply Hs; eapply psteps_trans; eauto).
    destruct (finish_one t ts1 m1 n En S1) as [m2 H2]. exists (upd ts1 n Fin), m2. split; [eapply psteps_trans; eauto|]. split; [rewrite length_upd; auto|].
    intros i Hi. rewrite nth_error_upd by lia. destruct (Nat.eqb_spec n i); auto. apply F. lia.
  Qed.
  Lemma finishes ts m : sound (ts, m) -> exists ts' m', psteps leq (ts, m) (ts', m') /\ finished ts'.
  Proof.
    intros Hs. destruct (finish_all (length ts) ts m ltac:(lia) Hs) as (ts' & m' & H & Len & F). exists ts', m'. split; auto.
    intros t Ht. apply In_nth_error in Ht as [i Hi]. assert (i < length ts')%nat as B by (apply nth_error_Some; congruence). rewrite F in Hi by lia. congruence.
  Qed.
End Ends.
Lemma any_schedule_ends {A B C D} pool (s s' : arrs A B C D) ts m : any_schedule pool s s' -> psteps loc4_eqb (pool, view s) (ts, m) ->
  exists ts' m', psteps loc4_eqb (ts, m) (ts', m') /\ finished ts' /\ forall l, m' l = view s' l.
Proof.
  intros H P. destruct (finishes loc4_eqb ts m) as (ts' & m' & P' & F).
  - intros [ts1 m1] H1. apply (H ts1 m1). eapply psteps_trans; eauto.
  - exists ts', m'. split; auto. split; auto. apply (H ts' m'); auto. eapply psteps_trans; eauto.
Qed.
(** so the arrays at the end are the same for all schedules *)
Lemma any_schedule_unique {A B C D} pool (s s1 s2 : arrs A B C D) : any_schedule pool s s1 -> any_schedule pool s s2 -> s1 = s2.
Proof.
  intros H1 H2. destruct (any_schedule_ends _ _ _ _ _ H1 (steps_refl _ _)) as (ts & m & P & F & E). apply view_inj. intros l. rewrite <- E. apply (H2 ts m P); auto.
Qed.
