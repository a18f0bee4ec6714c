(** COOSIMD32 tiles: the whole constructor. *)
From Coq Require Import Sorting.Sorted.
From Verif Require Import BaseLemmas Segment SegmentProofs Bucket BucketProofs VecProofs2 ListLemmas Search SearchProofs DCSC EdgeList EdgeSpec MatSpec DCSCFinal GraphVertProofs Tiles TilesProofs DcsrProofs SimdProofs SimdBorders.

Lemma concat_ranges {A} (f : Z -> list A) (g : Z -> A) b : forall n, 0 <= n -> (forall k, 0 <= k < n -> b k <= b (k + 1)) -> (forall k, 0 <= k < n -> f k = map g (zrange (b k) (b (k + 1)))) ->
  b 0 <= b n /\ concat (map f (zrange 0 n)) = map g (zrange (b 0) (b n)).
Proof.
  intros n Hn. pattern n. apply natlike_ind; auto.
  - intros _ _. rewrite !zrange_nil by lia. split; [lia|]. auto.
  - intros x Hx IH Hb Hf. unfold Z.succ in *. destruct IH as [L IH]; [intros; apply Hb; lia|intros; apply Hf; lia|].
    specialize (Hb x ltac:(lia)). split; [lia|].
    rewrite zrange_snoc, map_app, concat_app, IH by lia. simpl. rewrite app_nil_r, (Hf x) by lia. rewrite <- zrange_shift_map; auto.
Qed.

Lemma Permutation_filter' {A} (f : A -> bool) l l' : Permutation l l' -> Permutation (filter f l) (filter f l').
Proof. induction 1; simpl; auto; repeat (destruct (f _)); auto; [apply perm_swap|etransitivity; eauto]. Qed.
Section Part.
  Context {E : Type}.
  Variable binsrt : list bin -> list bin.
  Hypothesis Hbin : forall l, Permutation l (binsrt l).
  Variable tmp : list (tedge E).
  Variable d : edge E.
  Variables (m rpp p lo hi : Z) (ps : list Z).
  Let nnz := zlen tmp.
  Let start_row := Z.min (p * rpp) m.
  Let end_row := Z.min ((p + 1) * rpp) m.
  Hypothesis Hp : 0 <= p.
  Hypothesis Hrpp : 0 <= rpp.
  Hypothesis H32 : rpp mod 32 = 0.
  Hypothesis Hm : 0 <= m.
  Hypothesis Hlo : rd ps p = Ok lo.
  Hypothesis Hhi : rd ps (p + 1) = Ok hi.
  Hypothesis Hr : 0 <= lo <= hi /\ hi <= nnz.
  Hypothesis Hrow : forall i, lo <= i < hi -> start_row < e_src (ent tmp d i) <= end_row.
  Hypothesis Hblocks : forall i j, 0 <= i -> i <= j -> j < nnz -> block_of (ent tmp d i) <= block_of (ent tmp d j).

  (** fewer than 32 blocks of rows *)
  Definition narrow (l : list (edge E)) : Prop := exists bl, zlen bl < 32 /\ incl (map block_of l) bl.

  Lemma part_spec f done : fil tmp done f -> zlen done = lo ->
    exists rounds rest f', simd_part binsrt tmp ps m rpp p f = Ok (f', zlen (concat rounds)) /\ fil tmp (done ++ concat rounds ++ rest) f' /\
      Permutation (map (ent tmp d) (zrange lo hi)) (concat rounds ++ rest) /\ Forall spread rounds /\ narrow rest.
  Proof.
    intros F Hd. unfold simd_part. rewrite Hlo; cbn [bind]. rewrite Hhi; cbn [bind]. fold start_row end_row.
    set (nparts := Z.quot (end_row - start_row + 31) 32).
    assert (start_row <= end_row) as Hse by (unfold start_row, end_row; nia).
    assert (nparts = (end_row - start_row + 31) / 32) as Enp by (unfold nparts; rewrite quot_div by lia; auto).
    assert (0 <= nparts) as Hnp by (rewrite Enp; apply Z.div_pos; lia).
    set (q := fun i => (e_src (ent tmp d i) - start_row - 1) / 32).
    assert (forall i, lo <= i < hi -> 0 <= q i < nparts) as Hq.
    { intros i Hi. specialize (Hrow i Hi). unfold q. rewrite Enp. lia. }
    set (off := start_row / 32).
    assert (forall i, lo <= i < hi -> block_of (ent tmp d i) = q i + off) as Hqo.
    { intros i Hi. specialize (Hrow i Hi). unfold q, off, block_of. assert (start_row = p * rpp) as Es by lia.
      assert (exists z, start_row = 32 * z) as (z & Ez). { exists (p * (rpp / 32)). rewrite Es. rewrite (Z.div_mod rpp 32) at 1 by lia. lia. }
      rewrite Ez. lia. }
    assert (forall i j, lo <= i -> i <= j -> j < hi -> q i <= q j) as Hqm.
    { intros i j H1 H2 H3. pose proof (Hblocks i j ltac:(lia) H2 ltac:(lia)). rewrite !Hqo in H by lia. lia. }
    assert (forall i, lo <= i < hi -> Z.quot (e_src (ent tmp d i) - start_row - 1) 32 = q i) as Hqq.
    { intros i Hi. unfold q. apply quot_div; specialize (Hrow i Hi); lia. }
    clear Enp Hse. clearbody nparts q off. clear Hrow Hblocks Hm Hrpp H32 Hp.
    destruct F as (F1 & F2 & F3).
    rewrite (simd_borders_spec lo hi nparts q); [|lia|exact Hq|exact Hqm|exact Hnp|].
    2:{ intros i Hi. exists (e_src (ent tmp d i)). split; [|auto].
        rewrite F3. assert (zlen (map e_src done) = lo) as Ls by (rewrite zlen_map; auto). rewrite rd_app2 by lia. rewrite Ls.
        destruct (ent_rd tmp d i ltac:(unfold nnz in *; lia)) as (te & Ht & <-).
        transitivity (rd (srcs tmp) i); [|unfold srcs; rewrite rd_map_list, Ht; auto].
        rewrite <- (firstn_skipn (length done) (srcs tmp)) at 2. assert (zlen (firstn (length done) (srcs tmp)) = lo) as Lf.
        { unfold zlen. rewrite firstn_length. unfold srcs. rewrite map_length. unfold nnz, zlen in *. lia. }
        rewrite rd_app2 by lia. rewrite Lf. auto. }
    clear Hqq. clearbody start_row end_row. cbn [bind]. set (B := bord lo hi q). set (borders := map B (zrange 0 (nparts + 1))).
    assert (forall k, 0 <= k <= nparts -> rd borders k = Ok (B k)) as Hb. { intros k Hk. unfold borders. rewrite rd_map_list, rd_zrange by lia. f_equal. }
    assert (lo <= hi) as Hlh by lia.
    assert (forall k, lo <= B k <= hi) as HB by (intros k; apply bord_range; auto).
    assert (forall k, B k <= B (k + 1)) as HBm by (intros k; apply bord_mono).
    set (bins0 := map (fun b => mkBin b (B (b + 1) - B b) (B (b + 1) - B b) 0) (zrange 0 nparts)).
    rewrite (mapR_map _ (fun b => mkBin b (B (b + 1) - B b) (B (b + 1) - B b) 0)) by (intros b Hb0; apply in_zrange in Hb0; rewrite !Hb by lia; reflexivity).
    fold bins0. cbn [bind].
    set (full := zlen (filter (fun b => 0 <? num_total b) bins0)).
    assert (full = busy (binsrt bins0)) as Hfull.
    { unfold busy. transitivity (busy bins0).
      - unfold full, busy. f_equal. apply filter_ext_in. intros b Hin. apply in_map_iff in Hin as (k & <- & _). reflexivity.
      - unfold busy, zlen. f_equal. apply Permutation_length. apply Permutation_filter'. auto. }
    assert (Forall (bin_ok nparts B) (binsrt bins0)) as Hok.
    { eapply Permutation_Forall; [apply Hbin|]. apply Forall_forall. intros b Hin. apply in_map_iff in Hin as (k & <- & Hk). apply in_zrange in Hk. specialize (HBm k). unfold bin_ok. cbn [p32 num_total num_left num_taken]. lia. }
    assert (Permutation (zrange 0 nparts) (map p32 (binsrt bins0))) as Hp32.
    { rewrite <- (Hbin bins0). unfold bins0. rewrite map_map. cbn [p32]. rewrite map_id. auto. }
    assert (concat (map (seg_of tmp d B) (zrange 0 nparts)) = map (ent tmp d) (zrange lo hi)) as Hseg.
    { destruct (concat_ranges (seg_of tmp d B) (ent tmp d) B nparts) as [_ C]; auto. unfold B at 2 3 in C. rewrite bord_first with (nparts := nparts), bord_last in C by auto. auto. }
    assert (forall bins, Forall (bin_ok nparts B) bins -> Permutation (map p32 bins) (zrange 0 nparts) -> zlen (concat (map (taken_of tmp d B) bins)) + lefts bins = hi - lo) as Hsum.
    { intros bins Hb1 Hb2. transitivity (zlen (concat (map (seg_of tmp d B) (zrange 0 nparts)))); [|rewrite Hseg, zlen_map, zlen_zrange by lia; lia].
      transitivity (zlen (concat (map (seg_of tmp d B) (map p32 bins)))); [|unfold zlen; f_equal; apply Permutation_length, Permutation_concat, Permutation_map; auto].
      clear Hb2. induction bins as [|b bins IH]; [reflexivity|]. apply Forall_cons_iff in Hb1 as [Hb0 Hb1]. destruct Hb0 as (B1 & B2 & B3 & B4 & B5). cbn [map concat]. rewrite !zlen_app, <- (IH Hb1).
      change (lefts (b :: bins)) with (num_left b + lefts bins). unfold taken_of, seg_of. rewrite !zlen_map, !zlen_zrange by (try apply HBm; lia). lia. }
    assert (concat (map (taken_of tmp d B) (binsrt bins0)) = []) as Ht0.
    { assert (Forall (fun b => num_taken b = 0) (binsrt bins0)) as T0. { eapply Permutation_Forall; [apply Hbin|]. apply Forall_forall. intros b Hin. apply in_map_iff in Hin as (k & <- & _). auto. }
      clear -T0. induction T0 as [|b l Hb T IH]; auto. cbn [map concat]. rewrite IH, app_nil_r. unfold taken_of. rewrite Hb, zrange_nil by lia. auto. }
    assert (lefts (binsrt bins0) = hi - lo) as Hl0. { rewrite <- (Hsum (binsrt bins0)); auto; [|symmetry; auto]. rewrite Ht0. reflexivity. }
    assert (forall k i, 0 <= k < nparts -> B k <= i < B (k + 1) -> block_of (ent tmp d i) = k + off) as Hblk.
    { intros k i Hk Hi. pose proof (HB k). pose proof (HB (k + 1)). rewrite Hqo by lia. assert (q i < k + 1) by (apply (bord_below lo hi q); auto; fold B; lia). assert (k <= q i) by (apply (bord_above lo hi q); auto; fold B; lia). lia. }
    assert (forall k, 0 <= k <= nparts -> lo <= B k <= zlen tmp) as HB' by (intros k _; specialize (HB k); unfold nnz in *; lia).
    destruct (rotations_spec tmp d lo nparts off B borders) with (k := S (Z.to_nat (hi - lo))) (bins := binsrt bins0) (full := full) (done := done) (f := mkFill (f_a f) (f_ja f) (f_ia f) 0)
      as (bins1 & rounds & f1 & -> & K1 & K2 & K3 & K4 & K5 & K6 & K7 & K8); auto; cbn [f_cnt]; try (unfold nnz in *; lia).
    { eapply Permutation_NoDup; [apply Hp32|apply NoDup_zrange]. }
    { split; auto. }
    cbn [bind f_cnt] in *.
    assert (Permutation (map p32 bins1) (zrange 0 nparts)) as Hp1 by (rewrite K2; symmetry; auto).
    assert (zlen (done ++ concat rounds) = lo + zlen (concat rounds)) as L1 by (rewrite zlen_app; lia).
    destruct (leftovers tmp d lo nparts off B borders) with (bins := bins1) (done := done ++ concat rounds) (f := f1) as (f2 & -> & J1 & J2); auto; try (unfold nnz in *; lia).
    cbn [bind]. replace (f_cnt f2 =? hi - lo) with true by lia. cbn [negb].
    exists rounds, (concat (map (rest_of tmp d B) bins1)), f2. split; [rewrite K4; do 2 f_equal; lia|]. split; [rewrite app_assoc; auto|]. split.
    - rewrite <- Hseg. rewrite <- Hp1. rewrite <- (taken_rest tmp d nparts B bins1 K1). apply Permutation_app_tail. rewrite K5, Ht0. auto.
    - split; auto. exists (map (fun b => p32 b + off) (filter (fun b => 0 <? num_left b) bins1)). split; [rewrite zlen_map; auto|].
      intros x Hx. apply in_map_iff in Hx as (e & <- & He). apply in_concat in He as (l & Hl & He). apply in_map_iff in Hl as (b & <- & Hb1). unfold rest_of in He. apply in_map_iff in He as (i & <- & Hi). apply in_zrange in Hi.
      rewrite Forall_forall in K1. destruct (K1 b Hb1) as (B1 & B2 & B3 & B4 & B5). apply in_map_iff. exists b. split; [symmetry; apply Hblk; lia|]. apply filter_In. split; auto. lia.
  Qed.
End Part.

Lemma nil_dec {A} (l : list A) : {l = []} + {l <> []}.
Proof. destruct l; [left; auto|right; discriminate]. Qed.
Section SimdTile.
  Context {E : Type}.
  Variable bsrt : list (tedge E) -> list (tedge E).
  Hypothesis Hbsrt : sorts bsrt.
  Variable binsrt : list bin -> list bin.
  Hypothesis Hbin : forall l, Permutation l (binsrt l).
  Variables (threads : Z) (es : list (edge E)) (m n rs cs : Z).
  Hypothesis Hth : 1 <= threads.
  Hypothesis Hes : forall e, In e es -> in_rect m n rs cs e.

  Definition shifted (e : edge E) : edge E := mkE (e_src e - rs) (e_dst e - cs) (e_val e).
  Definition chunk (x : list (list (edge E)) * list (edge E)) : list (edge E) := concat (fst x) ++ snd x.
  (** a partition of the tile: groups of 32 entries of 32 different blocks, then entries of fewer than 32 blocks *)
  Definition grouped (x : list (list (edge E)) * list (edge E)) : Prop := Forall spread (fst x) /\ narrow (snd x).
  Let mk := fun e : edge E => let src := e_src e - rs in (Z.quot (src - 1) 32, mkE src (e_dst e - cs) (e_val e)).
  Let tmp := bsrt (map mk es).

  Lemma tmp_perm : Permutation (map shifted es) (map snd tmp).
  Proof using Hbsrt. unfold tmp. rewrite <- (proj1 (Hbsrt (map mk es))). rewrite map_map. apply Permutation_refl. Qed.
  Lemma tmp_len : zlen tmp = zlen es.
  Proof using Hbsrt. unfold tmp, zlen. f_equal. rewrite <- (Permutation_length (proj1 (Hbsrt (map mk es)))). apply map_length. Qed.
  Lemma tmp_in te : In te tmp -> 1 <= e_src (snd te) <= m /\ fst te = block_of (snd te).
  Proof using Hbsrt Hes.
    clear Hth. intros H. apply (Permutation_in te (Permutation_sym (proj1 (Hbsrt (map mk es))))) in H. apply in_map_iff in H as (e & <- & He). apply Hes in He. destruct He as [H1 H2].
    unfold mk. cbn [fst snd e_src]. split; [lia|]. unfold block_of. cbn [e_src]. apply quot_div; lia.
  Qed.
  Lemma tmp_sorted i j a b : 0 <= i -> i <= j -> rd tmp i = Ok a -> rd tmp j = Ok b -> fst a <= fst b.
  Proof using Hbsrt.
    intros Hi Hij Ha Hb. assert (isorted (map fst tmp)) as S.
    { eapply sorted_map_isorted; [|apply Hbsrt]. clear. intros x y. unfold compare_dcsc. destruct (fst y <? fst x) eqn:Q; [discriminate|]. intros _. apply Z.ltb_ge in Q. auto. }
    apply (S i j); auto; rewrite rd_map_list, ?Ha, ?Hb; auto.
  Qed.

  Lemma simd_built : es <> [] -> exists rpp ps parts, rows_per m (threads * 4) = Ok rpp /\ zlen parts = threads * 4 /\ Forall grouped parts /\
    Permutation (map shifted es) (concat (map chunk parts)) /\
    zlen ps = threads * 4 + 1 /\ rd ps 0 = Ok 0 /\
    (forall p x lo, rd parts p = Ok x -> rd ps p = Ok lo -> rd ps (p + 1) = Ok (lo + zlen (chunk x)) /\ forall e, In e (chunk x) -> Z.min (p * rpp) m < e_src e <= Z.min ((p + 1) * rpp) m) /\
    simd_new bsrt binsrt threads es m n rs cs =
      Ok (mkSimd (zlen es) m n (threads * 4) (map e_val (concat (map chunk parts))) (map e_dst (concat (map chunk parts))) (map e_src (concat (map chunk parts))) ps
            (map (fun x => zlen (concat (fst x))) parts)).
  Proof.
    intros Hne. assert (exists d, In d es) as (d & Hd) by (destruct es as [|d l]; [congruence|exists d; left; auto]).
    assert (0 < m) as Hm. { destruct (Hes d Hd) as [H1 H2]. lia. }
    assert (0 < zlen es) as Hz. { apply In_rd in Hd as (i & Hi & _). lia. }
    clear Hne Hd. set (np := threads * 4). destruct (rows_per_spec m np) as (rpp & Hr & Hr0 & Hr32 & Hrm); try (unfold np; lia).
    set (ia := srcs tmp). assert (zlen ia = zlen es) as Lia by (unfold ia, srcs; rewrite zlen_map; apply tmp_len).
    set (row := fun p => Z.min (p * rpp) m). set (P := fun p => cross ia (row p + 1)).
    assert (forall p, 0 <= p -> crossing ia (zlen es) (row p + 1) (P p)) as HP.
    { intros p Hp. rewrite <- Lia. apply cross_split. intros i j a b Hij Ha Hb Hlt. unfold ia, srcs in Ha, Hb. rewrite rd_map_list in Ha, Hb.
      destruct (rd tmp i) as [x|] eqn:Hx; [|discriminate]. destruct (rd tmp j) as [y|] eqn:Hy; [|discriminate]. injection Ha as <-. injection Hb as <-.
      pose proof (tmp_sorted i j x y ltac:(lia) ltac:(lia) Hx Hy) as Hs. destruct (tmp_in x) as [X1 X2]; [eapply rd_In; eauto|]. destruct (tmp_in y) as [Y1 Y2]; [eapply rd_In; eauto|].
      unfold row in *. destruct (Z.min_spec (p * rpp) m) as [[? Q]|[? Q]]; rewrite Q in *; [|lia].
      assert (exists z, p * rpp = 32 * z) as (z & Ez). { exists (p * (rpp / 32)). rewrite (Z.div_mod rpp 32) at 1 by lia. lia. }
      rewrite Ez in *. unfold block_of in *. lia. }
    assert (forall i, 0 <= i < zlen es -> rd ia i = Ok (e_src (ent tmp d i))) as Hia.
    { intros i Hi. destruct (ent_rd tmp d i) as (te & Ht & <-); [rewrite tmp_len; lia|]. unfold ia, srcs. rewrite rd_map_list, Ht. auto. }
    assert (P 0 = 0) as P0.
    { apply cross_none. intros a Ha. apply in_map_iff in Ha as (te & <- & Hte). apply tmp_in in Hte. unfold row. lia. }
    assert (P np = zlen es) as PN.
    { rewrite <- Lia. apply cross_all. intros a Ha. apply in_map_iff in Ha as (te & <- & Hte). apply tmp_in in Hte. unfold row. lia. }
    assert (forall p, 0 <= p -> P p <= P (p + 1)) as Pm. { intros p Hp. apply cross_mono. unfold row. nia. }
    set (ps := map P (zrange 0 (np + 1))).
    assert (forall p, 0 <= p <= np -> rd ps p = Ok (P p)) as Hps. { intros p Hp. unfold ps. rewrite rd_map_list, rd_zrange by lia. f_equal. }
    assert (zlen ps = np + 1) as Lps. { unfold ps. rewrite zlen_map, zlen_zrange by (unfold np; lia). lia. }
    assert (forall p, 0 <= p -> 0 <= P p <= zlen es) as PR. { intros p Hp. apply (HP p Hp). }
    assert (forall p i, 0 <= p -> P p <= i < P (p + 1) -> row p < e_src (ent tmp d i) <= row (p + 1)) as Prow.
    { intros p i Hp Hi. pose proof (PR p Hp). pose proof (PR (p + 1) ltac:(lia)). destruct (HP p Hp) as (_ & _ & C). destruct (HP (p + 1) ltac:(lia)) as (_ & D & _).
      specialize (C i _ ltac:(lia) (Hia i ltac:(lia))). specialize (D i _ ltac:(lia) (Hia i ltac:(lia))). lia. }
    destruct (forZ_inv (fun p (st : filling (E:=E) * list Z) => exists parts, zlen parts = p /\ fil tmp (concat (map chunk parts)) (fst st) /\ zlen (concat (map chunk parts)) = P p /\ Permutation (map (ent tmp d) (zrange 0 (P p))) (concat (map chunk parts)) /\
         snd st = map (fun x => zlen (concat (fst x))) parts /\ forall k x, rd parts k = Ok x -> Permutation (map (ent tmp d) (zrange (P k) (P (k + 1)))) (chunk x) /\ grouped x) 0 np
       (fun p (st : filling (E:=E) * list Z) => do r <- simd_part binsrt tmp ps m rpp p (fst st) ;; Ok (fst r, snd st ++ [snd r]))
       (mkFill (repeat None (Z.to_nat (zlen es))) (repeat None (Z.to_nat (zlen es))) ia 0, [])) as ([f simds] & Eloop & parts & Lp & Ff & Lc & Pc & Es & Hparts); [unfold np; lia| | |].
    { exists []. cbn [map concat fst snd]. split; auto. split; [|split; [rewrite P0; reflexivity|split; [rewrite zrange_nil by lia; auto|split; auto]]; intros k x Hk; apply rd_bounds in Hk; change (zlen []) with 0 in Hk; lia].
      split; [|split]; cbn [f_a f_ja f_ia map]; try (rewrite tmp_len; apply filled_start; lia). reflexivity. }
    { intros p [f simds] Hp (parts & Lp & Ff & Lc & Pc & Es & Hparts). cbn [fst snd] in *. pose proof (PR p ltac:(lia)). pose proof (PR (p + 1) ltac:(lia)). pose proof (Pm p ltac:(lia)).
      destruct (part_spec binsrt Hbin tmp d m rpp p (P p) (P (p + 1)) ps) with (f := f) (done := concat (map chunk parts)) as (rounds & rest & f' & Ep & Fp & Pp & S1 & S2); auto; try lia.
      - apply Hps; lia.
      - apply Hps; lia.
      - rewrite tmp_len. lia.
      - intros i Hi. apply (Prow p i); lia.
      - intros i j Hi Hij Hj. destruct (ent_rd tmp d i) as (x & Hx & <-); [lia|]. destruct (ent_rd tmp d j) as (y & Hy & <-); [lia|].
        pose proof (tmp_sorted i j x y Hi Hij Hx Hy) as Hs. rewrite <- (proj2 (tmp_in x ltac:(eapply rd_In; eauto))), <- (proj2 (tmp_in y ltac:(eapply rd_In; eauto))). auto.
      - rewrite Ep; cbn [bind fst snd]. eexists. split; [reflexivity|]. exists (parts ++ [(rounds, rest)]). cbn [fst snd].
        rewrite map_app, concat_app. cbn [map concat]. rewrite app_nil_r. change (chunk (rounds, rest)) with (concat rounds ++ rest).
        assert (zlen (concat rounds ++ rest) = P (p + 1) - P p) as Lch. { transitivity (zlen (map (ent tmp d) (zrange (P p) (P (p + 1))))); [unfold zlen; f_equal; apply Permutation_length; symmetry; auto|]. rewrite zlen_map, zlen_zrange by lia. auto. }
        split; [rewrite zlen_app, Lp; reflexivity|]. split; auto. split; [rewrite zlen_app; lia|]. split; [rewrite (zrange_shift_map (ent tmp d) 0 (P p)) by lia; apply Permutation_app; auto|]. split; [rewrite Es, map_app; reflexivity|].
        intros k x Hk. destruct (Z.eq_dec k p) as [->|Hkp].
        + rewrite rd_app2 in Hk by lia. replace (p - zlen parts) with 0 in Hk by lia. injection Hk as <-. split; auto. split; auto.
        + pose proof (rd_bounds _ _ _ Hk) as Bk. rewrite zlen_app, Lp in Bk. change (zlen [(rounds, rest)]) with 1 in Bk. rewrite rd_app1 in Hk by lia. apply Hparts; auto. }
    cbn [fst snd] in *. exists rpp, ps, parts. split; auto. split; auto. split; [apply Forall_forall; intros x Hx; apply In_rd in Hx as (k & _ & Hk); apply (Hparts k x Hk)|].
    assert (Permutation (map shifted es) (concat (map chunk parts))) as Perm.
    { rewrite tmp_perm. transitivity (map (ent tmp d) (zrange 0 (zlen tmp))).
      - pose proof (zlen_nonneg tmp). assert (map snd tmp = map (ent tmp d) (zrange 0 (zlen tmp))) as <-; [|auto]. apply rd_ext; [rewrite !zlen_map, zlen_zrange by lia; lia|]. intros i Hi. rewrite zlen_map in Hi. rewrite !rd_map_list, rd_zrange by lia. destruct (ent_rd tmp d i Hi) as (te & Ht & Hte). rewrite Ht, Hte. auto.
      - rewrite tmp_len, <- PN. auto. }
    split; auto. split; auto. split; [rewrite Hps by (unfold np; lia); f_equal; auto|]. split.
    { intros p x lo Hx Hlo. pose proof (rd_bounds _ _ _ Hx) as Bp. rewrite Lp in Bp. rewrite Hps in Hlo by lia. injection Hlo as <-. destruct (Hparts p x Hx) as [Hc _]. pose proof (Pm p ltac:(lia)). split.
      - rewrite Hps by lia. f_equal. transitivity (P p + zlen (map (ent tmp d) (zrange (P p) (P (p + 1))))); [rewrite zlen_map, zlen_zrange by lia; lia|]. f_equal. unfold zlen. f_equal. apply Permutation_length; auto.
      - intros e He. apply (Permutation_in e (Permutation_sym Hc)) in He. apply in_map_iff in He as (i & <- & Hi). apply in_zrange in Hi. apply (Prow p i); lia. }
    unfold simd_new. destruct (Z.ltb_spec 0 (zlen es)); [|lia]. fold np mk tmp. change (map (fun e : tedge E => e_src (snd e)) tmp) with ia. rewrite Hr; cbn [bind].
    rewrite (mapR_map _ P); [|intros p Hp; apply in_zrange in Hp; rewrite <- !Lia, (l_linear_search_spec ia _ (P p)), (l_linear_search_spec ia _ (P (p + 1))) by (rewrite ?Lia; try lia; apply HP; lia); reflexivity].
    cbn [bind]. replace (map P (zrange 0 np) ++ [zlen es]) with ps by (unfold ps; rewrite zrange_snoc, map_app, <- PN by (unfold np; lia); reflexivity).
    rewrite Eloop; cbn [bind fst snd]. destruct Ff as (F1 & F2 & F3).
    assert (zlen (concat (map chunk parts)) = zlen tmp) as Lo by (rewrite tmp_len; lia).
    rewrite (filled_end _ _ _ F1) by (rewrite zlen_map; auto). cbn [bind]. rewrite (filled_end _ _ _ F2) by (rewrite zlen_map; auto). cbn [bind].
    rewrite F3, skipn_all2, app_nil_r by (unfold srcs; rewrite map_length; unfold zlen in Lo; lia). rewrite Es. reflexivity.
  Qed.

  Lemma simd_entries : exists t out, simd_new bsrt binsrt threads es m n rs cs = Ok t /\ i_nnz t = zlen es /\ simd_get_edges t rs cs = Ok out /\ Permutation es out.
  Proof.
    destruct (nil_dec es) as [Hne|Hne].
    - exists (simd_empty m n), []. rewrite Hne. repeat split; auto.
    - destruct (simd_built Hne) as (rpp & ps & parts & _ & _ & _ & Perm & _ & _ & _ & Hnew). eexists. exists (map (fun e => mkE (e_src e + rs) (e_dst e + cs) (e_val e)) (concat (map chunk parts))).
      split; [exact Hnew|]. split; auto. set (out := concat (map chunk parts)) in *. split.
      + unfold simd_get_edges. cbn [i_nnz i_a i_ja i_ia]. replace (zlen es) with (zlen out) by (transitivity (zlen (map shifted es)); [unfold zlen; f_equal; apply Permutation_length; symmetry; auto|apply zlen_map]).
        set (out' := map (fun e => mkE (e_src e + rs) (e_dst e + cs) (e_val e)) out). replace (map e_val out) with (map e_val out') by (unfold out'; rewrite map_map; auto).
        replace (map e_dst out) with (ja_of cs out') by (unfold ja_of, out'; rewrite map_map; apply map_ext; intros []; simpl; lia).
        replace (map e_src out) with (ia_of rs out') by (unfold ia_of, out'; rewrite map_map; apply map_ext; intros []; simpl; lia).
        apply export_all. unfold out'. rewrite zlen_map. auto.
      + rewrite <- Perm, map_map. match goal with |- Permutation _ ?l => assert (es = l) as H; [|rewrite <- H; auto] end. clear. induction es as [|e l IH]; auto. cbn [map]. rewrite <- IH. f_equal. destruct e; unfold shifted; simpl. f_equal; lia.
  Qed.
End SimdTile.

Lemma concat_rd {A} (k : Z) (ls : list (list A)) : 0 < k -> Forall (fun l => zlen l = k) ls -> forall j r a, rd ls j = Ok r -> 0 <= a < k -> rd (concat ls) (k * j + a) = rd r a.
Proof.
  intros Hk F. induction F as [|l ls Hl F IH]; intros j r a Hj Ha; [apply rd_bounds in Hj; change (zlen []) with 0 in Hj; lia|].
  pose proof (rd_bounds _ _ _ Hj). cbn [concat]. destruct (Z.eq_dec j 0) as [->|].
  - injection Hj as <-. rewrite rd_app1 by lia. f_equal. lia.
  - rewrite rd_consS in Hj by lia. rewrite rd_app2 by nia. rewrite Hl. replace (k * j + a - k) with (k * (j - 1) + a) by lia. apply IH; auto.
Qed.
Lemma concat_len {A} (k : Z) (ls : list (list A)) : Forall (fun l => zlen l = k) ls -> zlen (concat ls) = k * zlen ls.
Proof. induction 1 as [|l ls Hl F IH]; [change (zlen []) with 0; rewrite Z.mul_0_r; reflexivity|]. cbn [concat]. rewrite zlen_app, zlen_cons, IH, Hl. lia. Qed.
Lemma parts_offset {A B} (f : A -> list B) (parts : list A) ps : rd ps 0 = Ok 0 ->
  (forall p x lo, rd parts p = Ok x -> rd ps p = Ok lo -> rd ps (p + 1) = Ok (lo + zlen (f x))) ->
  forall p x, rd parts p = Ok x -> exists lo, rd ps p = Ok lo /\ 0 <= lo /\ forall i, 0 <= i < zlen (f x) -> rd (concat (map f parts)) (lo + i) = rd (f x) i.
Proof.
  intros H0 Hn.
  assert (forall k, 0 <= k -> k <= zlen parts -> rd ps k = Ok (zlen (concat (map f (firstn (Z.to_nat k) parts))))) as Q.
  { intros k Hk. pattern k. apply natlike_ind; auto. intros x Hx IH Hle. unfold Z.succ in *. specialize (IH ltac:(lia)). destruct (rd_ok parts x ltac:(lia)) as [y Hy].
    rewrite (Hn _ _ _ Hy IH), (firstn_snoc parts x y Hy), map_app, concat_app, zlen_app. cbn [map concat]. rewrite app_nil_r. auto. }
  intros p x Hx. pose proof (rd_bounds _ _ _ Hx) as Bp. eexists. split; [apply Q; lia|]. split; [apply zlen_nonneg|]. intros i Hi. pose proof (zlen_nonneg (concat (map f (firstn (Z.to_nat p) parts)))).
  rewrite <- (firstn_skipn (Z.to_nat (p + 1)) parts) at 1. rewrite (firstn_snoc parts p x Hx), !map_app, !concat_app. cbn [map concat]. rewrite app_nil_r.
  rewrite rd_app1 by (rewrite zlen_app; lia). rewrite rd_app2 by lia. f_equal. lia.
Qed.

Section SimdGroups.
  Context {E : Type}.
  Variable bsrt : list (tedge E) -> list (tedge E).
  Hypothesis Hbsrt : sorts bsrt.
  Variable binsrt : list bin -> list bin.
  Hypothesis Hbin : forall l, Permutation l (binsrt l).
  Variables (threads : Z) (es : list (edge E)) (m n rs cs : Z).
  Hypothesis Hth : 1 <= threads.
  Hypothesis Hes : forall e, In e es -> in_rect m n rs cs e.

  Lemma simd_groups : es <> [] -> exists t, simd_new bsrt binsrt threads es m n rs cs = Ok t /\ zlen (i_ia t) = zlen es /\ rd (i_ps t) 0 = Ok 0 /\ rd (i_ps t) (i_np t) = Ok (zlen es) /\ i_np t = 4 * threads /\
    forall p, 0 <= p < i_np t -> exists lo hi k, rd (i_ps t) p = Ok lo /\ rd (i_ps t) (p + 1) = Ok hi /\ rd (i_simd t) p = Ok (32 * k) /\ 0 <= k /\ 0 <= lo /\ lo + 32 * k <= hi /\ hi <= zlen es /\
      forall j a b, 0 <= j < k -> 0 <= a < b -> b < 32 -> exists r r', rd (i_ia t) (lo + 32 * j + a) = Ok r /\ rd (i_ia t) (lo + 32 * j + b) = Ok r' /\ (r - 1) / 32 <> (r' - 1) / 32.
  Proof.
    intros Hne. destruct (simd_built bsrt Hbsrt binsrt Hbin threads es m n rs cs Hth Hes Hne) as (rpp & ps & parts & _ & Lp & Hg & Perm & Lps & H0 & Hn & Hnew).
    assert (zlen (concat (map chunk parts)) = zlen es) as Lo by (rewrite <- (zlen_map (shifted rs cs) es); unfold zlen; f_equal; apply Permutation_length; symmetry; auto).
    assert (forall p x lo, rd parts p = Ok x -> rd ps p = Ok lo -> rd ps (p + 1) = Ok (lo + zlen (chunk x))) as Hn' by (intros p x lo Hx Hlo; apply (Hn p x lo Hx Hlo)).
    pose proof (parts_offset chunk parts ps H0 Hn') as Off.
    assert (forall k, 0 <= k -> k <= zlen parts -> rd ps k = Ok (zlen (concat (map chunk (firstn (Z.to_nat k) parts))))) as Q.
    { intros k Hk. pattern k. apply natlike_ind; auto. intros x Hx IH Hle. unfold Z.succ in *. specialize (IH ltac:(lia)). destruct (rd_ok parts x ltac:(lia)) as [y Hy].
      rewrite (Hn' _ _ _ Hy IH), (firstn_snoc parts x y Hy), map_app, concat_app, zlen_app. cbn [map concat]. rewrite app_nil_r. auto. }
    eexists. split; [exact Hnew|]. cbn [i_ia i_ps i_np i_simd]. split; [rewrite zlen_map; auto|]. split; auto. split.
    { rewrite Q by lia. rewrite <- Lp. unfold zlen at 2. rewrite Nat2Z.id, firstn_all, Lo. auto. }
    split; [lia|]. intros p Hp. destruct (rd_ok parts p ltac:(lia)) as [x Hx]. destruct (Off p x Hx) as (lo & Hlo & L0 & Hrd).
    rewrite Forall_forall in Hg. destruct (Hg x (rd_In _ _ _ Hx)) as [Hsp _]. assert (Forall (fun l : list (edge E) => zlen l = 32) (fst x)) as H32 by (eapply Forall_impl; [|exact Hsp]; intros l [Hl _]; auto).
    pose proof (concat_len 32 (fst x) H32) as Lr. exists lo, (lo + zlen (chunk x)), (zlen (fst x)). split; auto. split; auto. split; [rewrite rd_map_list, Hx, Lr; auto|].
    assert (zlen (chunk x) = 32 * zlen (fst x) + zlen (snd x)) as Lc by (unfold chunk; rewrite zlen_app; lia). pose proof (zlen_nonneg (fst x)). pose proof (zlen_nonneg (snd x)).
    split; auto. split; auto. split; [lia|]. split.
    { destruct (Z.eq_dec (zlen (chunk x)) 0) as [Z0|].
      - pose proof (Hn' p x lo Hx Hlo) as Hn2. rewrite (Q (p + 1)) in Hn2 by lia. injection Hn2 as Hn2. rewrite <- Hn2, <- Lo. rewrite <- (firstn_skipn (Z.to_nat (p + 1)) parts) at 2. rewrite map_app, concat_app, zlen_app. pose proof (zlen_nonneg (concat (map chunk (skipn (Z.to_nat (p + 1)) parts)))). lia.
      - assert (exists y, rd (chunk x) (zlen (chunk x) - 1) = Ok y) as (y & Hy) by (apply rd_ok; pose proof (zlen_nonneg (chunk x)); lia).
        pose proof (rd_bounds _ _ _ Hy). rewrite <- Hrd in Hy by lia. apply rd_bounds in Hy. lia. }
    intros j a b Hj Hab Hb. destruct (rd_ok (fst x) j ltac:(lia)) as [g Hgj]. rewrite Forall_forall in Hsp. destruct (Hsp g (rd_In _ _ _ Hgj)) as [Lg ND].
    assert (forall i, 0 <= i < 32 -> rd (concat (map chunk parts)) (lo + 32 * j + i) = rd g i) as Rg.
    { intros i Hi. rewrite <- Z.add_assoc, Hrd by lia. unfold chunk. rewrite rd_app1 by lia. apply concat_rd; auto; lia. }
    destruct (rd_ok g a ltac:(lia)) as [ea Ha]. destruct (rd_ok g b ltac:(lia)) as [eb Heb].
    exists (e_src ea), (e_src eb). rewrite !rd_map_list, !Rg, Ha, Heb by lia. split; auto. split; auto. intros Heq.
    assert (a = b); [|lia]. assert (rd (map block_of g) a = Ok (block_of ea)) as R1 by (rewrite rd_map_list, Ha; auto). assert (rd (map block_of g) b = Ok (block_of ea)) as R2 by (rewrite rd_map_list, Heb; unfold block_of; rewrite Heq; auto).
    apply rd_nth in R1 as [R1 R1']. apply rd_nth in R2 as [R2 R2']. rewrite NoDup_nth_error in ND. assert (Z.to_nat a = Z.to_nat b); [|lia]. apply ND; [|congruence]. apply nth_error_Some. congruence.
  Qed.
End SimdGroups.
