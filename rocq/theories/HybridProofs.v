(** Hybrid tiles. *)
From Coq Require Import Sorting.Sorted.
From Verif Require Import BaseLemmas Segment SegmentProofs Bucket BucketProofs VecProofs2 ListLemmas Search SearchProofs DCSC EdgeList EdgeSpec MatSpec DCSCFinal GraphVertProofs Tiles TilesProofs DcsrProofs SimdProofs SimdBorders SimdFinal.

Lemma filter_true_all {A} (f : A -> bool) l : (forall a, In a l -> f a = true) -> filter f l = l.
Proof. induction l as [|a l IH]; intros H; auto. cbn [filter]. rewrite (H a (or_introl eq_refl)), IH; auto. intros b Hb. apply H. right. auto. Qed.
Lemma filter_false_all {A} (f : A -> bool) l : (forall a, In a l -> f a = false) -> filter f l = [].
Proof. induction l as [|a l IH]; intros H; auto. cbn [filter]. rewrite (H a (or_introl eq_refl)), IH; auto. intros b Hb. apply H. right. auto. Qed.
Lemma filter_parts {A} (f : A -> bool) l : Permutation l (filter f l ++ filter (fun a => negb (f a)) l).
Proof. induction l as [|a l IH]; auto. cbn [filter]. destruct (f a); cbn [negb app]; [constructor; auto|]. rewrite IH at 1. apply Permutation_middle. Qed.
Lemma zlen_perm {A} (l l' : list A) : Permutation l l' -> zlen l = zlen l'.
Proof. intros H. unfold zlen. f_equal. apply Permutation_length. auto. Qed.

(** entries of rows with at least 16 entries *)
Definition row_size {E} (es : list (edge E)) (e : edge E) : Z := zlen (filter (fun x => e_src x =? e_src e) es).
Definition heavy {E} (es : list (edge E)) (e : edge E) : bool := 16 <=? row_size es e.

Section Rows.
  Context {E : Type}.
  Variables (s : list (edge E)) (d : edge E) (m rs : Z).
  Let ia := ia_of rs s.
  Hypothesis Is : isorted ia.
  Hypothesis Ir : forall a, In a ia -> 1 <= a <= m.
  Hypothesis Hm : 0 < m.
  Let c (k : Z) := cross ia (k + 1).
  Definition elt (i : Z) : edge E := match rd s i with Ok e => e | Err _ => d end.
  Definition row (k : Z) : list (edge E) := map elt (zrange (c k) (c (k + 1))).
  Definition big (k : Z) : bool := negb (c (k + 1) + 1 - (c k + 1) <? 16).

  Lemma L_ia : zlen ia = zlen s. Proof. unfold ia, ia_of. apply zlen_map. Qed.
  Lemma elt_rd i : 0 <= i < zlen s -> rd s i = Ok (elt i).
  Proof. intros H. destruct (rd_ok s i H) as [e He]. unfold elt. rewrite He. auto. Qed.
  Lemma c_bounds k : 0 <= c k <= zlen s.
  Proof. rewrite <- L_ia. apply cross_range. Qed.
  Lemma c_le k : c k <= c (k + 1).
  Proof. apply cross_mono. lia. Qed.
  Lemma zlen_row k : zlen (row k) = c (k + 1) - c k.
  Proof. unfold row. rewrite zlen_map, zlen_zrange by apply c_le. auto. Qed.
  Lemma all_rows : s = concat (map row (zrange 0 m)).
  Proof.
    destruct (concat_ranges row elt c m) as [_ ->]; [lia|intros; apply c_le|auto|]. unfold c. rewrite (c_zero ia m Ir), (c_last ia m Ir). rewrite L_ia.
    pose proof (zlen_nonneg s). apply rd_ext; [rewrite zlen_map, zlen_zrange by lia; lia|]. intros i Hi. rewrite rd_map_list, rd_zrange by lia. apply elt_rd. auto.
  Qed.
  Lemma elt_src k i : c k <= i < c (k + 1) -> e_src (elt i) = rs + k + 1.
  Proof.
    intros Hi. pose proof (c_bounds k). pose proof (c_bounds (k + 1)). pose proof (elt_rd i ltac:(lia)) as He. assert (rd ia i = Ok (e_src (elt i) - rs)) as Ha. { unfold ia, ia_of. rewrite rd_map_list, He. auto. }
    pose proof (c_row ia Is k i _ Ha Hi). lia.
  Qed.
  Lemma row_src k e : In e (row k) -> e_src e = rs + k + 1.
  Proof. intros H. apply in_map_iff in H as (i & <- & Hi). apply in_zrange in Hi. apply elt_src; auto. Qed.
  Lemma row_filter k : 0 <= k < m -> filter (fun x => e_src x =? rs + k + 1) s = row k.
  Proof.
    intros Hk. rewrite all_rows at 1. rewrite (zrange_app 0 k m), (zrange_cons k m), map_app, concat_app by lia. cbn [map concat]. rewrite !filter_app.
    rewrite filter_false_all, (filter_true_all _ (row k)), (filter_false_all _ (concat (map row (zrange (k + 1) m)))); [rewrite app_nil_r; auto| | |].
    - intros e He. apply in_concat in He as (l & Hl & He). apply in_map_iff in Hl as (j & <- & Hj). apply in_zrange in Hj. apply row_src in He. lia.
    - intros e He. apply row_src in He. lia.
    - intros e He. apply in_concat in He as (l & Hl & He). apply in_map_iff in Hl as (j & <- & Hj). apply in_zrange in Hj. apply row_src in He. lia.
  Qed.
  Lemma heavy_row k e : 0 <= k < m -> In e (row k) -> heavy s e = big k.
  Proof.
    intros Hk He. apply row_src in He. unfold heavy, row_size, big. rewrite He, row_filter, zlen_row by auto. destruct (Z.leb_spec 16 (c (k + 1) - c k)); destruct (Z.ltb_spec (c (k + 1) + 1 - (c k + 1)) 16); auto; lia.
  Qed.
  Lemma heavy_rows l : (forall k, In k l -> 0 <= k < m) -> filter (heavy s) (concat (map row l)) = concat (map row (filter big l)) /\
    filter (fun e => negb (heavy s e)) (concat (map row l)) = concat (map row (filter (fun k => negb (big k)) l)).
  Proof.
    induction l as [|k l IH]; intros H; auto. destruct IH as [IH1 IH2]; [intros j Hj; apply H; right; auto|]. cbn [map concat filter]. rewrite !filter_app, IH1, IH2.
    assert (forall e, In e (row k) -> heavy s e = big k) as Hk by (intros e He; apply heavy_row; auto; apply H; left; auto).
    destruct (big k) eqn:Q; cbn [negb map concat]; split; auto; rewrite ?(filter_true_all _ (row k)) by (intros e He; rewrite (Hk e He); auto); rewrite ?(filter_false_all _ (row k)) by (intros e He; rewrite (Hk e He); auto); auto.
  Qed.

  Lemma copy_row_spec total out pre from to k : filled total out pre -> to = zlen pre -> 0 <= k -> to + k <= total -> 0 <= from -> from + k <= zlen s ->
    exists out', copy_row s from to k out = Ok out' /\ filled total out' (pre ++ map elt (zrange from (from + k))).
  Proof.
    intros F Ht Hk Htot Hf0 Hf. unfold copy_row.
    destruct (forZ_inv (fun i out => filled total out (pre ++ map elt (zrange from (from + i)))) 0 k (fun i out => do e <- rd s (from + i) ;; wr out (to + i) (Some e)) out) as (out' & E1 & F'); eauto.
    - rewrite zrange_nil by lia. simpl. rewrite app_nil_r. auto.
    - intros i o Hi Fo. rewrite elt_rd by lia. cbn [bind]. assert (zlen (pre ++ map elt (zrange from (from + i))) = to + i) as L by (rewrite zlen_app, zlen_map, zlen_zrange by lia; lia).
      destruct (filled_wr _ _ _ (to + i) (elt (from + i)) Fo) as (o' & -> & Fo'); try lia. exists o'. split; auto. rewrite <- app_assoc in Fo'. replace (from + (i + 1)) with (from + i + 1) by lia. rewrite zrange_snoc, map_app by lia. auto.
  Qed.

  (** the sizes the first loop adds up *)
  Definition bigs (k : Z) := concat (map row (filter big (zrange 0 k))).
  Definition smalls (k : Z) := concat (map row (filter (fun k => negb (big k)) (zrange 0 k))).
  Lemma bigs_next k : 0 <= k -> bigs (k + 1) = bigs k ++ (if big k then row k else []).
  Proof. intros H. unfold bigs. rewrite zrange_snoc, filter_app, map_app, concat_app by lia. f_equal. cbn [filter]. destruct (big k); cbn [map concat]; rewrite ?app_nil_r; auto. Qed.
  Lemma smalls_next k : 0 <= k -> smalls (k + 1) = smalls k ++ (if big k then [] else row k).
  Proof. intros H. unfold smalls. rewrite zrange_snoc, filter_app, map_app, concat_app by lia. f_equal. cbn [filter]. destruct (big k); cbn [negb map concat]; rewrite ?app_nil_r; auto. Qed.
  Lemma prefix_le (f : Z -> list (edge E)) : (forall k, 0 <= k -> exists x, f (k + 1) = f k ++ x) -> forall j k, 0 <= j <= k -> zlen (f j) <= zlen (f k).
  Proof.
    clear. intros H j k Hjk. pattern k. apply Zlt_lower_bound_ind with (z := j); [|lia].
    intros x IH Hx. destruct (Z.eq_dec x j) as [->|]; [lia|]. destruct (H (x - 1) ltac:(lia)) as (y & Hy). replace (x - 1 + 1) with x in Hy by lia. rewrite Hy, zlen_app. pose proof (zlen_nonneg y).
    specialize (IH (x - 1) ltac:(lia)). lia.
  Qed.
  Lemma bigs_le j k : 0 <= j <= k -> zlen (bigs j) <= zlen (bigs k).
  Proof. intros H. apply prefix_le; auto. intros i Hi. rewrite bigs_next by auto. eauto. Qed.
  Lemma smalls_le j k : 0 <= j <= k -> zlen (smalls j) <= zlen (smalls k).
  Proof. intros H. apply prefix_le; auto. intros i Hi. rewrite smalls_next by auto. eauto. Qed.

  Definition ptrs := row_ptrs m rs s.
  Lemma ptrs_rd k : 0 <= k <= m -> rd ptrs k = Ok (c k + 1).
  Proof. intros H. unfold ptrs, row_ptrs. rewrite rd_map_list, rd_zrange by lia. do 2 f_equal. Qed.

  Lemma sizes_loop nnz : 0 < nnz -> exists st, forZ 0 m (fun i (st : list Z * list Z) =>
        if negb (0 <? nnz) then Err Uninit else
        do x <- rd ptrs i ;; do y <- rd ptrs (i + 1) ;;
        do gte <- rd (fst st) i ;; do lt <- rd (snd st) i ;;
        if y - x <? 16 then Ok (fst st ++ [gte], snd st ++ [lt + (y - x)])
        else Ok (fst st ++ [gte + (y - x)], snd st ++ [lt])) ([0], [0]) = Ok st /\
      forall i, 0 <= i <= m -> rd (fst st) i = Ok (zlen (bigs i)) /\ rd (snd st) i = Ok (zlen (smalls i)).
  Proof.
    intros Hn. destruct (Z.ltb_spec 0 nnz); [|lia]. cbn [negb].
    destruct (forZ_inv (fun i (st : list Z * list Z) => zlen (fst st) = i + 1 /\ zlen (snd st) = i + 1 /\ forall k, 0 <= k <= i -> rd (fst st) k = Ok (zlen (bigs k)) /\ rd (snd st) k = Ok (zlen (smalls k))) 0 m
      (fun i (st : list Z * list Z) => do x <- rd ptrs i ;; do y <- rd ptrs (i + 1) ;; do gte <- rd (fst st) i ;; do lt <- rd (snd st) i ;;
        if y - x <? 16 then Ok (fst st ++ [gte], snd st ++ [lt + (y - x)]) else Ok (fst st ++ [gte + (y - x)], snd st ++ [lt])) ([0], [0])) as (st & E1 & _ & _ & Q); [lia| | |exists st; auto].
    - split; auto. split; auto. intros k Hk. replace k with 0 by lia. split; reflexivity.
    - intros i [g l] Hi (Lg & Ll & Hst). cbn [fst snd] in *. rewrite !ptrs_rd by lia. cbn [bind]. destruct (Hst i ltac:(lia)) as [-> ->]. cbn [bind].
      pose proof (bigs_next i ltac:(lia)) as Bn. pose proof (smalls_next i ltac:(lia)) as Sn. unfold big in Bn, Sn. pose proof (zlen_row i) as Lr.
      assert (zlen (@nil (edge E)) = 0) as Z0 by reflexivity.
      destruct (c (i + 1) + 1 - (c i + 1) <? 16) eqn:Q; cbn [negb] in *; (eexists; split; [reflexivity|]; cbn [fst snd]; rewrite !zlen_app; change (zlen [_]) with 1; split; [unfold zlen in *; simpl; lia|]; split; [unfold zlen in *; simpl; lia|]).
      all: intros k Hk; destruct (Z.eq_dec k (i + 1)) as [->|]; [|rewrite !rd_app1 by lia; apply Hst; lia].
      all: rewrite Bn, Sn, !zlen_app, !rd_app2 by lia; rewrite Lg, Ll, Z.sub_diag; rewrite !rd_cons0; split; f_equal; lia.
  Qed.

  Lemma parts_loop (g l : list Z) : (forall i, 0 <= i <= m -> rd g i = Ok (zlen (bigs i)) /\ rd l i = Ok (zlen (smalls i))) ->
    exists parts, forZ 0 m (fun i (parts : list (option (edge E)) * list (option (edge E))) =>
        do x <- rd ptrs i ;; do y <- rd ptrs (i + 1) ;;
        if y - x <? 16 then
          do lt <- rd l i ;;
          do _ <- assertb (lt + (y - x) <=? zlen (smalls m)) ;;
          do out <- copy_row s (x - 1) lt (y - x) (snd parts) ;;
          Ok (fst parts, out)
        else
          do gte <- rd g i ;;
          do _ <- assertb (gte + (y - x) <=? zlen (bigs m)) ;;
          do out <- copy_row s (x - 1) gte (y - x) (fst parts) ;;
          Ok (out, snd parts)) (repeat None (Z.to_nat (zlen (bigs m))), repeat None (Z.to_nat (zlen (smalls m)))) = Ok parts /\
      mapR need (fst parts) = Ok (bigs m) /\ mapR need (snd parts) = Ok (smalls m).
  Proof.
    intros Hgl.
    match goal with |- exists parts, forZ 0 m ?b ?s0 = _ /\ _ => destruct (forZ_inv (fun i (parts : list (option (edge E)) * list (option (edge E))) => filled (zlen (bigs m)) (fst parts) (bigs i) /\ filled (zlen (smalls m)) (snd parts) (smalls i)) 0 m b s0) as (parts & -> & F1 & F2) end.
    - lia.
    - split; cbn [fst snd]; apply filled_start; apply zlen_nonneg.
    - intros i [o1 o2] Hi [F1 F2]. cbn [fst snd] in *. rewrite !ptrs_rd by lia. cbn [bind]. destruct (Hgl i ltac:(lia)) as [-> ->].
      pose proof (bigs_next i ltac:(lia)) as Bn. pose proof (smalls_next i ltac:(lia)) as Sn. unfold big in Bn, Sn. pose proof (zlen_row i) as Lr. pose proof (c_bounds i). pose proof (c_bounds (i + 1)). pose proof (c_le i).
      pose proof (bigs_le (i + 1) m ltac:(lia)) as Bl. pose proof (smalls_le (i + 1) m ltac:(lia)) as Sl. rewrite Bn, zlen_app in Bl. rewrite Sn, zlen_app in Sl.
      assert (forall pre, pre ++ map elt (zrange (c i + 1 - 1) (c i + 1 - 1 + (c (i + 1) + 1 - (c i + 1)))) = pre ++ row i) as Hrow.
      { intros pre. f_equal. unfold row. do 2 f_equal; lia. }
      destruct (c (i + 1) + 1 - (c i + 1) <? 16) eqn:Q; cbn [negb] in *; cbn [bind].
      + replace (zlen (smalls i) + (c (i + 1) + 1 - (c i + 1)) <=? zlen (smalls m)) with true by lia. cbn [bind assertb].
        destruct (copy_row_spec _ _ _ (c i + 1 - 1) (zlen (smalls i)) (c (i + 1) + 1 - (c i + 1)) F2) as (out & -> & F'); try lia. cbn [bind].
        eexists. split; [reflexivity|]. cbn [fst snd]. rewrite Bn, Sn, app_nil_r, <- Hrow. auto.
      + replace (zlen (bigs i) + (c (i + 1) + 1 - (c i + 1)) <=? zlen (bigs m)) with true by lia. cbn [bind assertb].
        destruct (copy_row_spec _ _ _ (c i + 1 - 1) (zlen (bigs i)) (c (i + 1) + 1 - (c i + 1)) F1) as (out & -> & F'); try lia. cbn [bind].
        eexists. split; [reflexivity|]. cbn [fst snd]. rewrite Bn, Sn, app_nil_r, <- Hrow. auto.
    - exists parts. split; auto. split; eapply filled_end; eauto.
  Qed.
  Lemma bigs_all : bigs m = filter (heavy s) s /\ smalls m = filter (fun e => negb (heavy s e)) s.
  Proof.
    destruct (heavy_rows (zrange 0 m)) as [H1 H2]; [intros k Hk; apply in_zrange in Hk; auto|]. rewrite <- all_rows in H1, H2. unfold bigs, smalls. auto.
  Qed.
End Rows.

Section HybridTile.
  Context {E : Type}.
  Variable srt : list (edge E) -> list (edge E).
  Hypothesis Hsrt : sorts_ends srt.
  Variable bsrt : list (tedge E) -> list (tedge E).
  Hypothesis Hbsrt : sorts bsrt.
  Variable binsrt : list bin -> list bin.
  Hypothesis Hbin : forall l, Permutation l (binsrt l).
  Variables (threads : Z) (es : list (edge E)) (m n rs cs : Z).
  Hypothesis Hth : 1 <= threads.
  Hypothesis Hes : forall e, In e es -> in_rect m n rs cs e.

  Lemma heavy_perm (l l' : list (edge E)) e : Permutation l l' -> heavy l e = heavy l' e.
  Proof. intros H. unfold heavy, row_size. f_equal. apply zlen_perm. apply Permutation_filter'. auto. Qed.

  Lemma hybrid_parts g : es <> [] -> exists t out1 out2 e1 e2,
    hybrid_new srt bsrt binsrt threads (Some g) es m n rs cs = Ok t /\ h_nnz t = zlen es /\ h_nnz1 t = zlen out1 /\ h_nnz2 t = zlen out2 /\
    dcsr_get_edges (h_t1 t) rs cs = Ok out1 /\ simd_get_edges (h_t2 t) rs cs = Ok out2 /\
    (dcsr_new srt threads (Some g) e1 m n rs cs = Ok (h_t1 t) /\ simd_new bsrt binsrt threads e2 m n rs cs = Ok (h_t2 t) /\ Permutation es (e1 ++ e2)) /\
    Permutation (filter (heavy es) es) out1 /\ Permutation (filter (fun e => negb (heavy es e)) es) out2.
  Proof.
    intros Hne. pose proof (nonempty_m es m n rs cs Hes Hne) as [Hm Hn].
    assert (0 < zlen es) as Hz. { destruct es; [congruence|]. rewrite zlen_cons. pose proof (zlen_nonneg l). lia. }
    assert (exists d, In d es) as (d & _) by (destruct es as [|d l]; [congruence|exists d; left; auto]).
    set (es1 := srt es). set (s := srt es1).
    assert (Permutation es es1) as P1 by (symmetry; apply Hsrt). assert (Permutation es1 s) as P2 by (symmetry; apply Hsrt). assert (Permutation es s) as P3 by (etransitivity; eauto).
    assert (forall e, In e es1 -> in_rect m n rs cs e) as Hes1 by (intros e He; apply Hes; apply (Permutation_in e (Permutation_sym P1)); auto).
    assert (forall e, In e s -> in_rect m n rs cs e) as Hs by (intros e He; apply Hes; apply (Permutation_in e (Permutation_sym P3)); auto).
    assert (zlen es1 = zlen es) as L1 by (symmetry; apply zlen_perm; auto). assert (zlen s = zlen es) as L2 by (symmetry; apply zlen_perm; auto).
    assert (es1 <> []) as Hne1. { intros Q. rewrite Q in L1. change (zlen (@nil (edge E))) with 0 in L1. lia. }
    assert (isorted (ia_of rs s)) as Is by (apply ia_sorted; auto).
    assert (forall a, In a (ia_of rs s) -> 1 <= a <= m) as Ir. { intros a Ha. apply in_map_iff in Ha as (e & <- & He). destruct (Hs e He). lia. }
    unfold hybrid_new. fold es1. rewrite (csr_built srt Hsrt threads es1 m n rs cs Hth Hes1 Hne1). fold s. cbn [bind s_ia]. destruct (Z.ltb_spec 0 (zlen es)); [|lia].
    change (row_ptrs m rs s) with (ptrs s m rs). destruct (sizes_loop s d m rs Ir Hm (zlen es) Hz) as (st & E1 & Hst). destruct (Z.ltb_spec 0 (zlen es)) in E1; [|lia].
    rewrite E1; cbn [bind]. destruct (Hst m ltac:(lia)) as [-> ->]. cbn [bind]. destruct (bigs_all s d m rs Is Ir Hm) as [B1 B2].
    assert (Permutation s (bigs s d rs m ++ smalls s d rs m)) as Ps by (rewrite B1, B2; apply filter_parts).
    assert (zlen (bigs s d rs m) + zlen (smalls s d rs m) = zlen es) as Lsum by (rewrite <- zlen_app, <- L2; symmetry; apply zlen_perm; auto).
    replace (zlen (bigs s d rs m) + zlen (smalls s d rs m) =? zlen es) with true by lia. cbn [assertb bind].
    destruct (parts_loop s d m rs Ir Hm (fst st) (snd st) Hst) as (parts & E2 & E3 & E4). fold es1 s. rewrite E2; cbn [bind]. rewrite E3; cbn [bind]. rewrite E4; cbn [bind].
    rewrite B1, B2 in *. set (e1 := filter (heavy s) s) in *. set (e2 := filter (fun e => negb (heavy s e)) s) in *.
    assert (exists t1 out1, dcsr_new srt threads (Some g) e1 m n rs cs = Ok t1 /\ dcsr_get_edges t1 rs cs = Ok out1 /\ Permutation e1 out1) as (t1 & out1 & D1 & D2 & D3).
    { assert (forall e, In e e1 -> in_rect m n rs cs e) as He1 by (intros e He; apply Hs; apply filter_In in He; apply He).
      destruct (nil_dec e1) as [->|N1]; [exists (dcsr_empty m n), []; auto|].
      destruct (dcsr_built srt Hsrt threads e1 m n rs cs Hth He1 N1 g) as (pp & _ & _ & _ & D). eexists. exists (srt e1). split; [exact D|]. split; [|symmetry; apply Hsrt]. eapply dcsr_entries; eauto. }
    destruct (simd_entries bsrt Hbsrt binsrt Hbin threads e2 m n rs cs Hth) as (t2 & out2 & S1 & _ & S2 & S3); [intros e He; apply Hs; apply filter_In in He; apply He|].
    rewrite D1; cbn [bind]. rewrite S1; cbn [bind]. eexists. exists out1, out2, e1, e2. split; [reflexivity|]. cbn [h_nnz h_nnz1 h_nnz2 h_t1 h_t2].
    split; auto. split; [apply zlen_perm; auto|]. split; [apply zlen_perm; auto|]. split; auto. split; auto.
    split; [split; auto; split; auto; rewrite P3; exact Ps|].
    split; [rewrite <- D3|rewrite <- S3]; unfold e1, e2; rewrite <- P3 at 2 || idtac.
    - erewrite filter_ext; [apply Permutation_filter'; exact P3|]. intros a. apply heavy_perm; auto.
    - erewrite filter_ext; [apply Permutation_filter'; exact P3|]. intros a. cbv beta. f_equal. apply heavy_perm; auto.
  Qed.
  Lemma hybrid_built g : es <> [] -> exists t out1 out2,
    hybrid_new srt bsrt binsrt threads (Some g) es m n rs cs = Ok t /\ h_nnz t = zlen es /\ h_nnz1 t = zlen out1 /\ h_nnz2 t = zlen out2 /\
    dcsr_get_edges (h_t1 t) rs cs = Ok out1 /\ simd_get_edges (h_t2 t) rs cs = Ok out2 /\
    Permutation (filter (heavy es) es) out1 /\ Permutation (filter (fun e => negb (heavy es e)) es) out2.
  Proof. intros Hne. destruct (hybrid_parts g Hne) as (t & out1 & out2 & e1 & e2 & H1 & H2 & H3 & H4 & H5 & H6 & _ & H7). exists t, out1, out2. repeat (split; auto). Qed.
  Lemma hybrid_entries g : es <> [] -> exists t out, hybrid_new srt bsrt binsrt threads (Some g) es m n rs cs = Ok t /\ hybrid_get_edges t rs cs = Ok out /\ Permutation es out.
  Proof.
    intros Hne. destruct (hybrid_built g Hne) as (t & out1 & out2 & E1 & E2 & _ & _ & E3 & E4 & P1 & P2). exists t, (out1 ++ out2). split; auto. split.
    - unfold hybrid_get_edges. rewrite E2. assert (0 < zlen es) as Hz. { destruct es; [congruence|]. rewrite zlen_cons. pose proof (zlen_nonneg l). lia. }
      destruct (Z.ltb_spec 0 (zlen es)); [|lia]. rewrite E3; cbn [bind]. rewrite E4; cbn [bind]. auto.
    - rewrite (filter_parts (heavy es) es) at 1. apply Permutation_app; auto.
  Qed.
End HybridTile.
Lemma hybrid_no_entries {E} (srt : list (edge E) -> list (edge E)) bsrt binsrt threads past m n rs cs : sorts_ends srt -> 0 < m ->
  hybrid_new srt bsrt binsrt threads past [] m n rs cs = Err Uninit.
Proof.
  intros Hs Hm. unfold hybrid_new. change (zlen (@nil (edge E))) with 0. assert (srt [] = []) as ->. { apply Permutation_nil. symmetry. apply Hs. }
  unfold csr_new. change (zlen (@nil (edge E))) with 0. cbn [Z.ltb Z.compare negb bind]. rewrite forZ_step by lia. reflexivity.
Qed.

(** ** the statements of PropsTiles.v *)
Lemma coo_kept {E} srt threads g (es : list (edge E)) m n rs cs :
  sorts_ends srt -> 1 <= threads -> (forall e, In e es -> in_rect m n rs cs e) ->
  exists t out, coo_new srt threads (Some g) es m n rs cs = Ok t /\ coo_get_edges t rs cs = Ok out /\ Permutation es out.
Proof.
  intros S T H. destruct (nil_dec es) as [->|Hne]; [exists (coo_empty m n), []; auto|]. destruct (coo_built srt S threads es m n rs cs T H g Hne) as (rpp & ps & _ & _ & Hc).
  eexists. exists (srt es). split; [exact Hc|]. split; [|symmetry; apply S]. unfold coo_get_edges. cbn [o_nnz o_a o_ja o_ia]. apply export_all. symmetry. apply s_len; auto.
Qed.
Lemma csr_kept {E} srt threads (es : list (edge E)) m n rs cs :
  sorts_ends srt -> 1 <= threads -> (forall e, In e es -> in_rect m n rs cs e) ->
  exists t out, csr_new srt threads es m n rs cs = Ok t /\ csr_get_edges t rs cs = Ok out /\ Permutation es out.
Proof.
  intros S T H. destruct (nil_dec es) as [->|Hne]; [exists (csr_empty m n), []; auto|]. pose proof (csr_built srt S threads es m n rs cs T H Hne) as Hc.
  eexists. eexists. split; [exact Hc|]. split; [eapply csr_entries; eauto|]. destruct (Z.ltb_spec 0 (zlen es)); [symmetry; apply S|]. destruct es as [|e l]; [congruence|]. rewrite zlen_cons in *. pose proof (zlen_nonneg l). lia.
Qed.
Lemma dcsr_kept {E} srt threads g (es : list (edge E)) m n rs cs :
  sorts_ends srt -> 1 <= threads -> (forall e, In e es -> in_rect m n rs cs e) ->
  exists t out, dcsr_new srt threads (Some g) es m n rs cs = Ok t /\ dcsr_get_edges t rs cs = Ok out /\ Permutation es out /\
    forall g', dcsr_new srt threads (Some g') es m n rs cs = Ok t.
Proof.
  intros S T H. destruct (nil_dec es) as [->|Hne]; [exists (dcsr_empty m n), []; auto|]. destruct (dcsr_built srt S threads es m n rs cs T H Hne g) as (pp & _ & _ & _ & Hc).
  eexists. exists (srt es). split; [exact Hc|]. split; [eapply dcsr_entries; eauto|]. split; [symmetry; apply S|]. intros g'. rewrite <- Hc. eapply dcsr_past; eauto.
Qed.
Lemma simd_kept {E} bsrt binsrt threads (es : list (edge E)) m n rs cs :
  sorts bsrt -> (forall l, Permutation l (binsrt l)) -> 1 <= threads -> (forall e, In e es -> in_rect m n rs cs e) ->
  exists t out, simd_new bsrt binsrt threads es m n rs cs = Ok t /\ simd_get_edges t rs cs = Ok out /\ Permutation es out.
Proof. intros S B T H. destruct (simd_entries bsrt S binsrt B threads es m n rs cs T H) as (t & out & E1 & _ & E2 & P). eauto. Qed.
Lemma hybrid_kept {E} srt bsrt binsrt threads g (es : list (edge E)) m n rs cs :
  sorts_ends srt -> sorts bsrt -> (forall l, Permutation l (binsrt l)) -> 1 <= threads -> (forall e, In e es -> in_rect m n rs cs e) -> es <> [] ->
  exists t out out1 out2, hybrid_new srt bsrt binsrt threads (Some g) es m n rs cs = Ok t /\ hybrid_get_edges t rs cs = Ok out /\ Permutation es out /\
    dcsr_get_edges (h_t1 t) rs cs = Ok out1 /\ simd_get_edges (h_t2 t) rs cs = Ok out2 /\ out = out1 ++ out2 /\
    let in_row e := zlen (filter (fun x => e_src x =? e_src e) es) in
    Permutation (filter (fun e => 16 <=? in_row e) es) out1 /\ Permutation (filter (fun e => negb (16 <=? in_row e)) es) out2.
Proof.
  intros S Sb B T H Hne. destruct (hybrid_built srt S bsrt Sb binsrt B threads es m n rs cs T H g Hne) as (t & out1 & out2 & E1 & E2 & _ & _ & E3 & E4 & P1 & P2).
  exists t, (out1 ++ out2), out1, out2. split; auto. split.
  - unfold hybrid_get_edges. rewrite E2. assert (0 < zlen es) as Hz. { destruct es as [|e0 l]; [congruence|]. rewrite zlen_cons. pose proof (zlen_nonneg l). lia. }
    destruct (Z.ltb_spec 0 (zlen es)); [|lia]. rewrite E3; cbn [bind]. rewrite E4; cbn [bind]. auto.
  - split; [rewrite (filter_parts (heavy es) es) at 1; apply Permutation_app; auto|]. repeat (split; auto).
Qed.
Lemma dcsr_past_end {E} srt threads (es : list (edge E)) m n rs cs l :
  sorts_ends srt -> 1 <= threads -> (forall e, In e es -> in_rect m n rs cs e) -> es <> [] ->
  (forall e, In e es -> In (e_src e) l) -> zlen l <= 4 * threads * (4 * threads - 2) ->
  dcsr_new srt threads None es m n rs cs = Err OOB.
Proof.
  intros S T H Hne Hl Hz. apply (dcsr_reads_past srt S threads es m n rs cs T H Hne). transitivity (zlen l); [|lia].
  assert (forall i j a b, 0 <= i <= j -> rd (srt es) i = Ok a -> rd (srt es) j = Ok b -> e_src a <= e_src b) as Ord by (exact (s_order srt S es)).
  assert (0 < zlen (srt es)) as Pos by (apply s_pos; auto).
  assert (NoDup (row_numbers (srt es) rs)) as ND.
  { apply NoDup_nth_error. intros i j Hi Hij. assert (exists a, rd (row_numbers (srt es) rs) (Z.of_nat i) = Ok a) as (a & Ha) by (apply rd_ok; unfold zlen; lia).
    assert (rd (row_numbers (srt es) rs) (Z.of_nat j) = Ok a) as Hb. { apply rd_nth in Ha as [_ Ha]. apply rd_nth. split; [lia|]. rewrite Nat2Z.id in *. congruence. }
    destruct (Nat.lt_trichotomy i j) as [L|[L|L]]; auto; exfalso.
    - assert (a < a); [|lia]. eapply (numbers_incr (srt es) Pos Ord rs (Z.of_nat i) (Z.of_nat j)); eauto. lia.
    - assert (a < a); [|lia]. eapply (numbers_incr (srt es) Pos Ord rs (Z.of_nat j) (Z.of_nat i)); eauto. lia. }
  rewrite <- (zlen_map (fun x => x - rs - 1) l). unfold zlen. apply inj_le. apply NoDup_incl_length; auto.
  intros x Hx. unfold row_numbers in Hx. apply in_map_iff in Hx as (j & <- & Hj). apply In_rd in Hj as (r & _ & Hr). destruct (starts_inv (srt es) Pos Ord r j Hr) as (J & _).
  destruct (rd_ok (srt es) j J) as [e He]. rewrite (key_rd (srt es) j e He). apply in_map_iff. exists (e_src e). split; auto. apply Hl. eapply Permutation_in; [apply S|]. eapply rd_In; eauto.
Qed.
