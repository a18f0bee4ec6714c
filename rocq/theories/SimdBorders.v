(** COOSIMD32 tiles: where the blocks of 32 rows of a partition begin. *)
From Coq Require Import Sorting.Sorted.
From Verif Require Import BaseLemmas Segment SegmentProofs Bucket BucketProofs VecProofs2 ListLemmas Search SearchProofs DCSC EdgeList EdgeSpec MatSpec DCSCFinal GraphVertProofs Tiles TilesProofs DcsrProofs SimdProofs.

Section Borders.
  Variables (lo hi nparts : Z) (q : Z -> Z).
  Hypothesis Hlh : lo <= hi.
  Hypothesis Hq : forall i, lo <= i < hi -> 0 <= q i < nparts.
  Hypothesis Hqm : forall i j, lo <= i -> i <= j -> j < hi -> q i <= q j.
  Hypothesis Hnp : 0 <= nparts.
  Definition bord (k : Z) : Z := lo + cross (map q (zrange lo hi)) k.

  Lemma q_rd i : 0 <= i < hi - lo -> rd (map q (zrange lo hi)) i = Ok (q (lo + i)).
  Proof using. clear. intros H. rewrite rd_map_list, rd_zrange by lia. reflexivity. Qed.
  Lemma bord_cross k : crossing (map q (zrange lo hi)) (hi - lo) k (bord k - lo).
  Proof using Hlh Hqm.
    clear Hq Hnp. unfold bord. replace (lo + cross (map q (zrange lo hi)) k - lo) with (cross (map q (zrange lo hi)) k) by lia.
    replace (hi - lo) with (zlen (map q (zrange lo hi))) by (rewrite zlen_map, zlen_zrange by lia; lia). apply cross_sorted.
    intros i j a b Hij Ha Hb. pose proof (rd_bounds _ _ _ Ha) as Ba. pose proof (rd_bounds _ _ _ Hb) as Bb. rewrite zlen_map, zlen_zrange in Ba, Bb by lia.
    rewrite q_rd in Ha, Hb by lia. injection Ha as <-. injection Hb as <-. apply Hqm; lia.
  Qed.
  Lemma bord_range k : lo <= bord k <= hi.
  Proof using Hlh Hqm. clear Hq Hnp. destruct (bord_cross k) as (C & _). lia. Qed.
  Lemma bord_below k i : lo <= i < bord k -> q i < k.
  Proof using Hlh Hqm. clear Hq Hnp. intros Hi. pose proof (bord_range k). destruct (bord_cross k) as (_ & C & _). apply (C (i - lo)); [lia|]. rewrite q_rd by lia. do 2 f_equal. lia. Qed.
  Lemma bord_above k i : bord k <= i < hi -> k <= q i.
  Proof using Hlh Hqm. clear Hq Hnp. intros Hi. pose proof (bord_range k). destruct (bord_cross k) as (_ & _ & C). apply (C (i - lo)); [lia|]. rewrite q_rd by lia. do 2 f_equal. lia. Qed.
  Lemma bord_at k e : lo <= e <= hi -> (forall i, lo <= i < e -> q i < k) -> (forall i, e <= i < hi -> k <= q i) -> bord k = e.
  Proof using Hlh Hqm.
    clear Hq Hnp. intros He H1 H2. pose proof (bord_range k). destruct (Z.lt_trichotomy (bord k) e) as [H0|[H0|H0]]; auto; exfalso.
    - assert (k <= q (bord k)) by (apply bord_above; lia). specialize (H1 (bord k)). lia.
    - assert (q e < k) by (apply bord_below; lia). specialize (H2 e). lia.
  Qed.
  Lemma bord_mono k : bord k <= bord (k + 1).
  Proof using. clear. unfold bord. pose proof (cross_mono (map q (zrange lo hi)) k (k + 1)). lia. Qed.
  Lemma bord_first : bord 0 = lo.
  Proof using Hlh Hq Hqm. clear Hnp. apply bord_at; [lia|intros; lia|]. intros i Hi. apply Hq in Hi. lia. Qed.
  Lemma bord_last : bord nparts = hi.
  Proof using Hlh Hq Hqm. clear Hnp. apply bord_at; [lia| |intros; lia]. intros i Hi. apply Hq in Hi. lia. Qed.

  Lemma set_borders_spec eid upto : forall k arr cur, filled (nparts + 1) arr (map bord (zrange 0 cur)) -> 0 <= cur <= nparts + 1 -> upto <= nparts -> upto + 1 - cur <= Z.of_nat k ->
    (forall j, cur <= j <= upto -> bord j = eid) ->
    exists arr', set_borders k arr cur upto eid = Ok (arr', Z.max cur (upto + 1)) /\ filled (nparts + 1) arr' (map bord (zrange 0 (Z.max cur (upto + 1)))).
  Proof using.
    clear. induction k as [|k IH]; intros arr cur F Hc Hu Hk Hb; cbn [set_borders].
    - destruct (Z.leb_spec cur upto); [lia|]. exists arr. rewrite Z.max_l by lia. auto.
    - destruct (Z.leb_spec cur upto); [|exists arr; rewrite Z.max_l by lia; auto].
      destruct (filled_wr _ _ _ cur eid F) as (arr1 & -> & F1); try (rewrite zlen_map, zlen_zrange by lia; lia). cbn [bind].
      assert (forall j, cur + 1 <= j <= upto -> bord j = eid) as Hb' by (intros; apply Hb; lia).
      destruct (IH arr1 (cur + 1)) as (arr2 & -> & F2); auto; try lia.
      + rewrite zrange_snoc, map_app by lia. simpl. rewrite (Hb cur) by lia. auto.
      + exists arr2. replace (Z.max (cur + 1) (upto + 1)) with (Z.max cur (upto + 1)) in * by lia. auto.
  Qed.

  Variables (ia : list Z) (start_row : Z).
  Hypothesis Hia : forall i, lo <= i < hi -> exists r, rd ia i = Ok r /\ Z.quot (r - start_row - 1) 32 = q i.
  Lemma simd_borders_spec : simd_borders ia lo hi start_row nparts = Ok (map bord (zrange 0 (nparts + 1))).
  Proof.
    unfold simd_borders. set (room := Z.to_nat (nparts + 1)).
    destruct (forZ_inv (fun eid (st : list (option Z) * Z) => filled (nparts + 1) (fst st) (map bord (zrange 0 (snd st))) /\ 0 <= snd st <= nparts /\ forall i, lo <= i < eid -> q i < snd st) lo hi
      (fun eid (st : list (option Z) * Z) => do r <- rd ia eid ;; set_borders room (fst st) (snd st) (Z.quot (r - start_row - 1) 32) eid) (repeat None room, 0)) as ([arr cur] & -> & F & Hc & Hlt); auto.
    - cbn [fst snd]. split; [|split; [lia|intros; lia]]. rewrite zrange_nil by lia. apply (filled_start (nparts + 1)). lia.
    - intros eid [arr cur] He (F & Hc & Hlt). cbn [fst snd] in *. destruct (Hia eid He) as (r & -> & Hr). cbn [bind]. rewrite Hr. pose proof (Hq eid He).
      destruct (set_borders_spec eid (q eid) room arr cur) as (arr' & -> & F'); auto; try lia.
      + intros j Hj. apply bord_at; [lia| |].
        * intros i Hi. specialize (Hlt i Hi). lia.
        * intros i Hi. pose proof (Hqm eid i). lia.
      + eexists. split; [reflexivity|]. cbn [fst snd]. split; auto. split; [lia|]. intros i Hi. destruct (Z.eq_dec i eid) as [->|]; [lia|]. specialize (Hlt i). lia.
    - cbn [bind fst snd] in *. destruct (set_borders_spec hi nparts room arr cur) as (arr' & -> & F'); auto; try lia.
      + intros j Hj. apply bord_at; [lia| |intros; lia]. intros i Hi. specialize (Hlt i Hi). lia.
      + cbn [bind fst]. rewrite Z.max_r in F' by lia. eapply filled_end; eauto. rewrite zlen_map, zlen_zrange by lia. lia.
  Qed.
End Borders.
