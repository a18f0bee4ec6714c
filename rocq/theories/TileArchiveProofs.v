From Verif Require Import BaseLemmas SegmentProofs Bits BitsProofs Segment ListLemmas GraphVertProofs Bucket BucketProofs Reduce DCSC DCSCBuild DCSCFinal MatSpec EdgeList EdgeSpec Tiles TilesProofs DcsrProofs SimdProofs SimdFinal HybridProofs TileKernel TileArchive.

Lemma pos_len {A} (l : list A) : l <> [] -> 0 < zlen l.
Proof. destruct l as [|a l]; [congruence|]. rewrite zlen_cons. pose proof (zlen_nonneg l). lia. Qed.
Lemma mapR_rd_past {A} (l : list A) k : zlen l < k -> mapR (rd l) (zrange 0 k) = Err OOB.
Proof.
  intros H. pose proof (zlen_nonneg l). rewrite (zrange_app 0 (zlen l) k) by lia. rewrite mapR_app, mapR_rd_all. cbn [bind]. rewrite zrange_cons by lia. cbn [mapR].
  rewrite rd_oob by lia. reflexivity.
Qed.
Lemma mapR_need_some {A} (l : list A) : mapR need (map Some l) = Ok l.
Proof. induction l as [|a l IH]; auto. cbn [map mapR need bind]. rewrite IH. reflexivity. Qed.

Section TileArchive.
  Context {E : Type}.
  (** *** what is written can be read *)
  Lemma coo_round junk m n np (a : list E) ja ia ps rest : a <> [] -> zlen ja = zlen a -> zlen ia = zlen a -> zlen ps = np + 1 ->
    exists ar, coo_save junk (mkCoo (zlen a) m n np a ja ia ps) = Ok ar /\ coo_load (ar ++ rest) = Ok (mkCoo (zlen a) m n np a ja ia ps, rest).
  Proof.
    intros Ha H1 H2 H3. pose proof (pos_len a Ha) as P. unfold coo_save. cbn [o_nnz o_m o_n o_np o_a o_ja o_ia o_ps]. rewrite (proj2 (Z.ltb_lt _ _) P).
    rewrite mapR_rd_all, (mapR_rd_len ja), (mapR_rd_len ia), (mapR_rd_len ps) by auto. cbn [bind]. eexists; split; [reflexivity|]. unfold coo_load. cbn [app get_int bind]. rewrite (proj2 (Z.ltb_lt _ _) P).
    rewrite <- !app_assoc. rewrite get_vals by auto. cbn [bind]. rewrite !get_ints by auto. cbn [bind]. rewrite !get_ints by auto. cbn [bind]. rewrite !get_ints by auto. reflexivity.
  Qed.
  Lemma csr_round m n (a : list E) ja ia rest : a <> [] -> zlen ja = zlen a -> zlen ia = m + 1 ->
    exists ar, csr_save (mkCsr (zlen a) m n a ja ia) = Ok ar /\ csr_load (ar ++ rest) = Ok (mkCsr (zlen a) m n a ja ia, rest).
  Proof.
    intros Ha H1 H2. pose proof (pos_len a Ha) as P. unfold csr_save. cbn [s_nnz s_m s_n s_a s_ja s_ia]. rewrite (proj2 (Z.ltb_lt _ _) P).
    rewrite mapR_rd_all, (mapR_rd_len ja), (mapR_rd_len ia) by auto. cbn [bind]. eexists; split; [reflexivity|]. unfold csr_load. cbn [app get_int bind]. rewrite (proj2 (Z.ltb_lt _ _) P).
    rewrite <- !app_assoc. rewrite get_vals by auto. cbn [bind]. rewrite get_ints by auto. cbn [bind]. rewrite get_ints by auto. reflexivity.
  Qed.
  Lemma dcsr_round junk m n N np pp (a : list E) ja ia rows rest : a <> [] -> zlen ja = zlen a -> zlen ia = m + 1 -> zlen rows = N ->
    exists ar, dcsr_save junk (mkDcsr (zlen a) m n N np pp a ja ia rows) = Ok ar /\ dcsr_load (ar ++ rest) = Ok (mkDcsr (zlen a) m n N np [] a ja ia rows, rest).
  Proof.
    intros Ha H1 H2 H3. pose proof (pos_len a Ha) as P. unfold dcsr_save. cbn [d_nnz d_m d_n d_np d_num_rows d_a d_ja d_ia d_rows]. rewrite (proj2 (Z.ltb_lt _ _) P).
    rewrite mapR_rd_all, (mapR_rd_len ja), (mapR_rd_len ia), (mapR_rd_len rows) by auto. cbn [bind]. eexists; split; [reflexivity|]. unfold dcsr_load. cbn [app get_int bind]. rewrite (proj2 (Z.ltb_lt _ _) P).
    rewrite <- !app_assoc. rewrite get_vals by auto. cbn [bind]. rewrite get_ints by auto. cbn [bind]. rewrite get_ints by auto. cbn [bind]. rewrite get_ints by auto. reflexivity.
  Qed.
  Lemma dcsr_past_save junk m n N np pp (a : list E) ja ia rows : a <> [] -> zlen ja = zlen a -> zlen ia < m + 1 ->
    dcsr_save junk (mkDcsr (zlen a) m n N np pp a ja ia rows) = Err OOB.
  Proof.
    intros Ha H1 H2. pose proof (pos_len a Ha) as P. unfold dcsr_save. cbn [d_nnz d_m d_n d_np d_num_rows d_a d_ja d_ia d_rows]. rewrite (proj2 (Z.ltb_lt _ _) P).
    rewrite mapR_rd_all, (mapR_rd_len ja), (mapR_rd_past ia) by auto. reflexivity.
  Qed.
  Lemma simd_round g m n np (a : list E) ja ia ps sn rest : a <> [] -> zlen ja = zlen a -> zlen ia = zlen a -> zlen ps = np + 1 -> zlen sn = np ->
    exists ar, simd_save (Some g) (mkSimd (zlen a) m n np a ja ia ps sn) = Ok ar /\ simd_load (ar ++ rest) = Ok (mkSimd (zlen a) m n np a ja ia ps (sn ++ [g]), rest).
  Proof.
    intros Ha H1 H2 H3 H4. pose proof (pos_len a Ha) as P. unfold simd_save. cbn [i_nnz i_m i_n i_np i_a i_ja i_ia i_ps i_simd]. rewrite (proj2 (Z.ltb_lt _ _) P).
    rewrite mapR_rd_all, (mapR_rd_len ja), (mapR_rd_len ia), (mapR_rd_len ps) by auto. cbn [bind].
    change [Some g] with (map Some [g]). rewrite <- map_app. assert (zlen (sn ++ [g]) = np + 1) as L by (rewrite zlen_app; change (zlen [g]) with 1; lia).
    rewrite (mapR_rd_len (map Some (sn ++ [g]))) by (rewrite zlen_map; auto). cbn [bind]. rewrite mapR_need_some. cbn [bind].
    eexists; split; [reflexivity|]. unfold simd_load. cbn [app get_int bind]. rewrite (proj2 (Z.ltb_lt _ _) P).
    rewrite <- !app_assoc. rewrite get_vals by auto. cbn [bind]. rewrite get_ints by auto. cbn [bind]. rewrite get_ints by auto. cbn [bind]. rewrite get_ints by auto. cbn [bind]. rewrite get_ints by auto. reflexivity.
  Qed.
  Lemma simd_unset_save m n np (a : list E) ja ia ps sn : a <> [] -> zlen ja = zlen a -> zlen ia = zlen a -> zlen ps = np + 1 -> zlen sn = np ->
    simd_save None (mkSimd (zlen a) m n np a ja ia ps sn) = Err Uninit.
  Proof.
    intros Ha H1 H2 H3 H4. pose proof (pos_len a Ha) as P. unfold simd_save. cbn [i_nnz i_m i_n i_np i_a i_ja i_ia i_ps i_simd]. rewrite (proj2 (Z.ltb_lt _ _) P).
    rewrite mapR_rd_all, (mapR_rd_len ja), (mapR_rd_len ia), (mapR_rd_len ps) by auto. cbn [bind].
    rewrite (mapR_rd_len (map Some sn ++ [None])) by (rewrite zlen_app, zlen_map; change (zlen [@None Z]) with 1; lia). cbn [bind]. rewrite mapR_app, mapR_need_some. reflexivity.
  Qed.

  (** *** the rows of a DCSR tile *)
  Section Rows.
    Variable srt : list (edge E) -> list (edge E).
    Hypothesis Hsrt : sorts_ends srt.
    Variables (es : list (edge E)) (m n rs cs : Z).
    Hypothesis Hes : forall e, In e es -> in_rect m n rs cs e.
    Hypothesis Hne : es <> [].
    Let s := srt es.
    Let rows := row_numbers s rs.
    Lemma sOrd : forall i j a b, 0 <= i <= j -> rd s i = Ok a -> rd s j = Ok b -> e_src a <= e_src b. Proof using Hsrt. exact (s_order srt Hsrt es). Qed.
    Lemma sPos : 0 < zlen s. Proof using Hsrt Hne. apply s_pos; auto. Qed.
    Lemma rows_nodup : NoDup rows.
    Proof using Hsrt Hne. clear Hes.
      apply NoDup_nth_error. intros i j Hi Hij. assert (exists a, rd rows (Z.of_nat i) = Ok a) as (a & Ha) by (apply rd_ok; unfold zlen; lia).
      assert (rd rows (Z.of_nat j) = Ok a) as Hb. { apply rd_nth in Ha as [_ Ha]. apply rd_nth. split; [lia|]. rewrite Nat2Z.id in *. congruence. }
      destruct (Nat.lt_trichotomy i j) as [L|[L|L]]; auto; exfalso.
      - assert (a < a); [|lia]. eapply (numbers_incr s sPos sOrd rs (Z.of_nat i) (Z.of_nat j)); eauto. lia.
      - assert (a < a); [|lia]. eapply (numbers_incr s sPos sOrd rs (Z.of_nat j) (Z.of_nat i)); eauto. lia.
    Qed.
    Lemma rows_sound x : In x rows -> exists e, In e es /\ e_src e = x + rs + 1.
    Proof using Hsrt Hne. clear Hes.
      intros Hx. unfold rows, row_numbers in Hx. apply in_map_iff in Hx as (j & <- & Hj). apply In_rd in Hj as (r & _ & Hr). destruct (starts_inv s sPos sOrd r j Hr) as (J & _).
      destruct (rd_ok s j J) as [e He]. exists e. split; [apply (Permutation_in e (proj1 (Hsrt es))); eapply rd_In; eauto|]. rewrite (key_rd s j e He). lia.
    Qed.
    Lemma rows_complete e : In e es -> In (e_src e - rs - 1) rows.
    Proof using Hsrt Hne. clear Hes.
      intros He. apply (Permutation_in e (Permutation_sym (proj1 (Hsrt es)))) in He. apply In_rd in He as (j & Hj & He). fold s in Hj, He.
      assert (forall k, 0 <= k -> k <= zlen (starts s) -> (exists y, rd (row_bounds s) k = Ok y /\ j < y) -> In (e_src e - rs - 1) rows) as Q.
      { intros k Hk. pattern k. apply natlike_ind; auto.
        - intros _ (y & Hy & Hlt). change (rd (row_bounds s) 0) with (@Ok Z 0) in Hy. injection Hy as <-. lia.
        - intros k0 Hk0 IH Hle (y & Hy & Hlt). unfold Z.succ in *. destruct (rd_ok (row_bounds s) k0) as [x Hx]; [rewrite zlen_bounds; lia|].
          destruct (Z_lt_dec j x); [apply IH; [lia|eauto]|]. pose proof (row_of s sPos sOrd rs k0 x y j e ltac:(lia) Hx Hy ltac:(lia) He) as R. eapply rd_In; eauto. }
      apply (Q (zlen (starts s))); [apply zlen_nonneg|lia|]. exists (zlen s). split; [|lia]. unfold row_bounds. rewrite rd_app2, Z.sub_diag by lia. reflexivity.
    Qed.
    Lemma rows_within x : In x rows -> In x (zrange 0 m).
    Proof using Hsrt Hne Hes. intros H. apply rows_sound in H as (e & He & Es). apply in_zrange. destruct (Hes e He). lia. Qed.
    Lemma rows_missing r : rs < r <= rs + m -> (forall e, In e es -> e_src e <> r) -> zlen rows < m.
    Proof using Hsrt Hne Hes.
      intros Hr Hno. assert (0 <= m) by lia. assert (~ In (r - rs - 1) rows) as Nin by (intros Hin; apply rows_sound in Hin as (e & He & Es); apply (Hno e He); lia).
      assert ((length ((r - rs - 1)%Z :: rows) <= length (zrange 0 m))%nat) as L.
      { apply NoDup_incl_length; [constructor; [auto|apply rows_nodup]|]. intros x [<-|Hx]; [apply in_zrange; lia|apply rows_within; auto]. }
      pose proof (zlen_zrange 0 m). unfold zlen in *. cbn [length] in L. lia.
    Qed.
    Lemma rows_all : 0 <= m -> (forall r, rs < r <= rs + m -> exists e, In e es /\ e_src e = r) -> zlen rows = m.
    Proof using Hsrt Hne Hes.
      intros Hm Hall. apply Z.le_antisymm.
      - replace m with (zlen (zrange 0 m)) by (rewrite zlen_zrange; lia). unfold zlen. apply inj_le. apply NoDup_incl_length; [apply rows_nodup|]. intros x. apply rows_within.
      - replace m with (zlen (zrange 0 m)) by (rewrite zlen_zrange; lia). unfold zlen. apply inj_le. apply NoDup_incl_length; [apply NoDup_zrange|].
        intros x Hx. apply in_zrange in Hx. destruct (Hall (x + rs + 1)) as (e & He & Es); [lia|]. replace x with (e_src e - rs - 1) by lia. apply rows_complete. auto.
    Qed.
  End Rows.

  Variables (threads : Z) (es : list (edge E)) (m n rs cs : Z).
  Hypothesis Hth : 1 <= threads.
  Hypothesis Hes : forall e, In e es -> in_rect m n rs cs e.

  Lemma map_nil_inv {A B} (f : A -> B) l : l <> [] -> map f l <> []. Proof. destruct l; [congruence|discriminate]. Qed.
  Lemma srt_nil srt : sorts_ends srt -> es <> [] -> srt es <> [].
  Proof using. intros S H N. apply H. apply Permutation_nil. rewrite <- N. apply (S es). Qed.

  Lemma coo_archive srt g junk t rest : sorts_ends srt -> coo_new srt threads (Some g) es m n rs cs = Ok t ->
    (es <> [] -> exists ar, coo_save junk t = Ok ar /\ coo_load (ar ++ rest) = Ok (t, rest)) /\
    (es = [] -> coo_save None t = Err Uninit /\ forall j, exists ar, coo_save (Some j) t = Ok ar /\ coo_load (ar ++ rest) = Ok (mkCoo 0 m n j [] [] [] [], rest)).
  Proof.
    intros S Hn. split; intros He.
    - destruct (coo_built srt S threads es m n rs cs Hth Hes g He) as (rpp & ps & _ & Hps & Hc). rewrite Hn in Hc. injection Hc as ->.
      replace (zlen es) with (zlen (map e_val (srt es))) by (rewrite zlen_map; apply s_len; auto).
      apply coo_round; [apply map_nil_inv, srt_nil; auto|unfold ja_of; rewrite !zlen_map; auto|unfold ia_of; rewrite !zlen_map; auto|]. rewrite zlen_app. f_equal. apply (proj1 Hps).
    - subst es. injection Hn as <-. split; [reflexivity|]. intros j. eexists. split; [reflexivity|]. reflexivity.
  Qed.
  Lemma csr_archive srt t rest : sorts_ends srt -> csr_new srt threads es m n rs cs = Ok t -> exists ar, csr_save t = Ok ar /\ csr_load (ar ++ rest) = Ok (t, rest).
  Proof.
    intros S Hn. destruct (nil_dec es) as [He|He].
    - subst es. injection Hn as <-. eexists. split; [reflexivity|]. reflexivity.
    - rewrite (csr_built srt S threads es m n rs cs Hth Hes He) in Hn. injection Hn as <-. pose proof (nonempty_m es m n rs cs Hes He) as [Hm _].
      replace (zlen es) with (zlen (map e_val (srt es))) by (rewrite zlen_map; apply s_len; auto).
      apply csr_round; [apply map_nil_inv, srt_nil; auto|unfold ja_of; rewrite !zlen_map; auto|]. unfold row_ptrs. rewrite zlen_map, zlen_zrange by lia. lia.
  Qed.
  Lemma dcsr_archive srt g junk t rest : sorts_ends srt -> dcsr_new srt threads (Some g) es m n rs cs = Ok t ->
    (es <> [] -> (exists r, rs < r <= rs + m /\ forall e, In e es -> e_src e <> r) -> dcsr_save junk t = Err OOB) /\
    (es <> [] -> (forall r, rs < r <= rs + m -> exists e, In e es /\ e_src e = r) -> exists ar t', dcsr_save junk t = Ok ar /\ dcsr_load (ar ++ rest) = Ok (t', rest) /\
       dcsr_get_edges t' rs cs = dcsr_get_edges t rs cs /\ forall U (add : U -> U -> U) xw f wv, dcsr_multiply add xw f t' wv = Err OOB) /\
    (es = [] -> dcsr_save None t = Err Uninit /\ forall j, exists ar, dcsr_save (Some j) t = Ok ar /\ dcsr_load (ar ++ rest) = Ok (mkDcsr 0 m n j j [] [] [] [] [], rest)).
  Proof.
    intros S Hn. destruct (nil_dec es) as [He|He].
    - split; [congruence|]. split; [congruence|]. intros _. subst es. injection Hn as <-. split; [reflexivity|]. intros j. eexists. split; [reflexivity|]. reflexivity.
    - split; [|split; [|congruence]]; intros _.
      + intros (r & Hr & Hno). destruct (dcsr_built srt S threads es m n rs cs Hth Hes He g) as (pp & _ & _ & _ & Hc). rewrite Hn in Hc. injection Hc as ->.
        replace (zlen es) with (zlen (map e_val (srt es))) by (rewrite zlen_map; apply s_len; auto).
        apply dcsr_past_save; [apply map_nil_inv, srt_nil; auto|rewrite !zlen_map; auto|]. rewrite zlen_bounds, <- (zlen_numbers _ rs).
        pose proof (rows_missing srt S es m n rs cs Hes He r Hr Hno). lia.
      + intros Hall. destruct (dcsr_built srt S threads es m n rs cs Hth Hes He g) as (pp & _ & _ & _ & Hc). rewrite Hn in Hc. injection Hc as ->. pose proof (nonempty_m es m n rs cs Hes He) as [Hm _].
        pose proof (rows_all srt S es m n rs cs Hes He ltac:(lia) Hall) as Hrows.
        assert (zlen es = zlen (map e_val (srt es))) as Hz by (rewrite zlen_map; symmetry; apply s_len; auto).
        destruct (dcsr_round junk m n (zlen (row_numbers (srt es) rs)) (threads * 4) pp (map e_val (srt es)) (map (fun e => e_dst e - cs - 1) (srt es)) (row_bounds (srt es)) (row_numbers (srt es) rs) rest) as (ar & Sv & Ld); auto.
        * apply map_nil_inv, srt_nil; auto.
        * rewrite !zlen_map; auto.
        * rewrite zlen_bounds, <- (zlen_numbers _ rs). lia.
        * rewrite <- Hz in Sv, Ld. eexists. eexists. split; [exact Sv|]. split; [exact Ld|]. split; [reflexivity|]. intros U add xw f wv. unfold dcsr_multiply. cbn [d_nnz d_np]. pose proof (pos_len es He). destruct (Z.ltb_spec 0 (zlen es)); [|lia].
          rewrite forZ_step by lia. reflexivity.
  Qed.
  Lemma simd_archive bsrt binsrt t rest : sorts bsrt -> (forall l, Permutation l (binsrt l)) -> simd_new bsrt binsrt threads es m n rs cs = Ok t ->
    simd_save None t = Err Uninit /\
    forall g, exists ar t', simd_save (Some g) t = Ok ar /\ simd_load (ar ++ rest) = Ok (t', rest) /\
      (es <> [] -> t' = mkSimd (i_nnz t) (i_m t) (i_n t) (i_np t) (i_a t) (i_ja t) (i_ia t) (i_ps t) (i_simd t ++ [g])) /\
      simd_get_edges t' rs cs = simd_get_edges t rs cs /\ forall U (add : U -> U -> U) xw f wv, simd_multiply add xw f t' wv = simd_multiply add xw f t wv.
  Proof.
    intros S B Hn. destruct (nil_dec es) as [He|He].
    - subst es. injection Hn as <-. split; [reflexivity|]. intros g. eexists. eexists. split; [reflexivity|]. split; [reflexivity|]. split; [congruence|]. split; [reflexivity|]. reflexivity.
    - destruct (simd_built bsrt S binsrt B threads es m n rs cs Hth Hes He) as (rpp & ps & parts & _ & Lp & _ & Perm & Lps & _ & _ & Hc). rewrite Hn in Hc. injection Hc as ->.
      set (out := concat (map chunk parts)) in *.
      assert (zlen es = zlen (map e_val out)) as Hz by (rewrite zlen_map; rewrite <- (zlen_map (shifted rs cs) es); unfold zlen; f_equal; apply Permutation_length; auto).
      assert (map e_val out <> []) as Ho by (intros N; rewrite N in Hz; pose proof (pos_len es He); change (zlen []) with 0 in Hz; lia). rewrite Hz.
      split; [apply simd_unset_save; auto; rewrite !zlen_map; auto|]. intros g.
      destruct (simd_round g m n (threads * 4) (map e_val out) (map e_dst out) (map e_src out) ps (map (fun x => zlen (concat (fst x))) parts) rest) as (ar & Sv & Ld); [auto|rewrite !zlen_map; auto|rewrite !zlen_map; auto|auto|rewrite zlen_map; auto|].
      eexists. eexists. split; [exact Sv|]. split; [exact Ld|]. split; [reflexivity|]. split; [reflexivity|]. reflexivity.
  Qed.
End TileArchive.

Section HybridArchive.
  Context {E : Type}.
  Variable srt : list (edge E) -> list (edge E).
  Hypothesis Hsrt : sorts_ends srt.
  Variable bsrt : list (tedge E) -> list (tedge E).
  Hypothesis Hbsrt : sorts bsrt.
  Variable binsrt : list bin -> list bin.
  Hypothesis Hbin : forall l, Permutation l (binsrt l).
  Variables (threads : Z) (es : list (edge E)) (m n rs cs : Z).
  Hypothesis Hth : 1 <= threads.
  Hypothesis Hes : forall e, In e es -> in_rect m n rs cs e.
  Hypothesis Hne : es <> [].
  Definition in_row (r : Z) := zlen (filter (fun x => e_src x =? r) es).

  Lemma hybrid_archive g junk t rest : hybrid_new srt bsrt binsrt threads (Some g) es m n rs cs = Ok t ->
    ((forall r, in_row r < 16) -> exists ar t', hybrid_save (Some junk) t = Ok ar /\ hybrid_load (ar ++ rest) = Ok (t', rest) /\
       hybrid_get_edges t' rs cs = hybrid_get_edges t rs cs /\ forall U (add : U -> U -> U) xw f wv, hybrid_multiply add xw f t' wv = hybrid_multiply add xw f t wv) /\
    (forall r r', 16 <= in_row r -> rs < r' <= rs + m -> in_row r' < 16 -> hybrid_save (Some junk) t = Err OOB) /\
    ((forall r, rs < r <= rs + m -> 16 <= in_row r) -> exists ar t', hybrid_save (Some junk) t = Ok ar /\ hybrid_load (ar ++ rest) = Ok (t', rest) /\
       hybrid_get_edges t' rs cs = hybrid_get_edges t rs cs /\ forall U (add : U -> U -> U) xw f wv, hybrid_multiply add xw f t' wv = Err OOB).
  Proof.
    intros Hn. pose proof (pos_len es Hne) as Pz.
    destruct (hybrid_parts srt Hsrt bsrt Hbsrt binsrt Hbin threads es m n rs cs Hth Hes g Hne) as (t0 & o1 & o2 & e1 & e2 & Hn0 & N0 & N1 & N2 & G1 & G2 & (H1 & H2 & P12) & F1 & F2).
    rewrite Hn in Hn0. injection Hn0 as <-.
    assert (forall e, In e e1 -> In e es) as I1 by (intros e He; apply (Permutation_in e (Permutation_sym P12)); apply in_or_app; auto).
    assert (forall e, In e e2 -> In e es) as I2 by (intros e He; apply (Permutation_in e (Permutation_sym P12)); apply in_or_app; auto).
    assert (Permutation (filter (heavy es) es) e1) as Pe.
    { destruct (dcsr_kept srt threads g e1 m n rs cs Hsrt Hth (fun e He => Hes e (I1 e He))) as (t1 & out & A & B & C & _). rewrite H1 in A. injection A as <-. rewrite G1 in B. injection B as <-. rewrite F1. symmetry. auto. }
    assert (forall e, In e e1 <-> In e es /\ 16 <= in_row (e_src e)) as He1.
    { intros e. split.
      - intros He. apply (Permutation_in e (Permutation_sym Pe)) in He. apply filter_In in He as [He Hh]. split; auto. apply Z.leb_le. exact Hh.
      - intros [He Hh]. apply (Permutation_in e Pe). apply filter_In. split; auto. apply Z.leb_le. exact Hh. }
    assert (forall r, 1 <= in_row r -> exists e, In e es /\ e_src e = r) as Hrow.
    { intros r Hr. unfold in_row in Hr. destruct (filter (fun x => e_src x =? r) es) as [|e l] eqn:Ef; [change (zlen []) with 0 in Hr; lia|]. assert (In e (e :: l)) as Hi by (left; auto). rewrite <- Ef in Hi. apply filter_In in Hi as [Hi He]. apply Z.eqb_eq in He. eauto. }
    destruct (simd_archive threads e2 m n rs cs Hth (fun e He => Hes e (I2 e He)) bsrt binsrt (h_t2 t) rest Hbsrt Hbin H2) as [_ S2]. destruct (S2 junk) as (ar2 & t2' & Sv2 & Ld2 & _ & Ge2 & Mu2).
    assert (forall ar1 t1', dcsr_save (Some junk) (h_t1 t) = Ok ar1 -> dcsr_load (ar1 ++ (ar2 ++ rest)) = Ok (t1', ar2 ++ rest) -> dcsr_get_edges t1' rs cs = dcsr_get_edges (h_t1 t) rs cs ->
      exists ar, hybrid_save (Some junk) t = Ok ar /\ hybrid_load (ar ++ rest) = Ok (mkHyb (h_nnz t) (h_m t) (h_n t) (h_nnz1 t) (h_nnz2 t) t1' t2', rest) /\
        hybrid_get_edges (mkHyb (h_nnz t) (h_m t) (h_n t) (h_nnz1 t) (h_nnz2 t) t1' t2') rs cs = hybrid_get_edges t rs cs) as Fin.
    { intros ar1 t1' Sv1 Ld1 Ge1. unfold hybrid_save. rewrite N0, (proj2 (Z.ltb_lt _ _) Pz), Sv1, Sv2. cbn [bind]. eexists. split; [reflexivity|]. split.
      - unfold hybrid_load. cbn [app get_int bind]. rewrite (proj2 (Z.ltb_lt _ _) Pz). rewrite <- app_assoc. rewrite Ld1. cbn [bind]. rewrite Ld2. reflexivity.
      - unfold hybrid_get_edges. cbn [h_nnz h_t1 h_t2]. rewrite Ge1, Ge2, N0. reflexivity. }
    destruct (dcsr_archive threads e1 m n rs cs Hth (fun e He => Hes e (I1 e He)) srt g (Some junk) (h_t1 t) (ar2 ++ rest) Hsrt H1) as (D1 & D2 & D3).
    split; [|split].
    - intros Hl. assert (e1 = []) as E1. { destruct e1 as [|e l]; auto. exfalso. destruct (proj1 (He1 e) ltac:(left; auto)) as [_ Hh]. specialize (Hl (e_src e)). lia. }
      destruct (D3 E1) as [_ D4]. destruct (D4 junk) as (ar1 & Sv1 & Ld1). rewrite E1 in H1. injection H1 as Ht1.
      destruct (Fin ar1 _ Sv1 Ld1) as (ar & A & B & C); [rewrite <- Ht1; reflexivity|]. exists ar. eexists. split; [exact A|]. split; [exact B|]. split; [exact C|].
      intros U add xw f wv. unfold hybrid_multiply. cbn [h_t1 h_t2]. rewrite <- Ht1. unfold dcsr_multiply. cbn [d_nnz dcsr_empty Z.ltb Z.compare bind]. apply Mu2.
    - intros r r' Hr Hr' Hl. destruct (Hrow r ltac:(lia)) as (e & He & Es). unfold hybrid_save. rewrite N0, (proj2 (Z.ltb_lt _ _) Pz). rewrite D1; auto.
      + intros Z1. assert (In e e1) as Hi by (apply He1; rewrite Es; auto). rewrite Z1 in Hi. destruct Hi.
      + exists r'. split; auto. intros e' He' Es'. apply He1 in He' as [_ Hh]. rewrite Es' in Hh. lia.
    - intros Hall. destruct D2 as (ar1 & t1' & Sv1 & Ld1 & Ge1 & Mu1).
      + destruct es as [|e l] eqn:Ee; [congruence|]. rewrite <- Ee in *. assert (In e es) as He by (rewrite Ee; left; auto). destruct (Hes e He) as [Hr _].
        intros Z1. assert (In e e1) as Hi by (apply He1; split; auto). rewrite Z1 in Hi. destruct Hi.
      + intros r Hr. pose proof (Hall r Hr) as Hh. destruct (Hrow r ltac:(lia)) as (e & He & Es). exists e. split; auto. apply He1. rewrite Es. auto.
      + destruct (Fin ar1 t1' Sv1 Ld1 Ge1) as (ar & A & B & C). exists ar. eexists. split; [exact A|]. split; [exact B|]. split; [exact C|]. intros U add xw f wv. unfold hybrid_multiply. cbn [h_t1 h_t2]. rewrite Mu1. reflexivity.
  Qed.
End HybridArchive.
