(** COO and CSR tiles. *)
From Coq Require Import Sorting.Sorted.
From Verif Require Import BaseLemmas Segment SegmentProofs Bucket BucketProofs VecProofs2 ListLemmas Search SearchProofs DCSC EdgeList EdgeSpec MatSpec DCSCFinal GraphVertProofs Tiles.

(** the number of elements below [item]; in an array split by [item] the place of the split *)
Definition cross (v : list Z) (item : Z) : Z := zlen (filter (fun a => a <? item) v).

Lemma cross_split v item : (forall i j a b, 0 <= i < j -> rd v i = Ok a -> rd v j = Ok b -> b < item -> a < item) -> crossing v (zlen v) item (cross v item).
Proof.
  unfold cross. induction v as [|x v IH]; intros H.
  - split; [unfold zlen; simpl; lia|]. split; intros i a Hi; unfold zlen in Hi; simpl in Hi; lia.
  - assert (crossing v (zlen v) item (zlen (filter (fun a => a <? item) v))) as C.
    { apply IH. intros i j a b Hij Ha Hb. apply (H (i + 1) (j + 1)); [lia| |]; rewrite rd_consS by lia; rewrite Z.add_simpl_r; auto. }
    destruct C as (C0 & C1 & C2). cbn [filter]. pose proof (zlen_cons x v) as L. destruct (Z.ltb_spec x item).
    + rewrite !zlen_cons. split; [lia|]. split; intros i a Hi Ha.
      * destruct (Z.eq_dec i 0) as [->|]; [injection Ha as <-; auto|]. rewrite rd_consS in Ha by lia. apply (C1 (i - 1)); auto; lia.
      * rewrite rd_consS in Ha by lia. apply (C2 (i - 1)); auto; lia.
    + assert (zlen (filter (fun a => a <? item) v) = 0) as Z0.
      { destruct (Z.eq_dec (zlen (filter (fun a => a <? item) v)) 0); auto.
        destruct (rd_ok v 0) as [y Hy]; [lia|]. assert (y < item) by (apply (C1 0); auto; lia).
        assert (x < item); [|lia]. apply (H 0 1 x y); [lia|reflexivity| |auto]. rewrite rd_consS by lia. auto. }
      rewrite Z0 in *. split; [lia|]. split; intros i a Hi Ha; [lia|].
      destruct (Z.eq_dec i 0) as [->|]; [injection Ha as <-; auto|]. rewrite rd_consS in Ha by lia. apply (C2 (i - 1)); auto; lia.
Qed.
Lemma cross_sorted v item : isorted v -> crossing v (zlen v) item (cross v item).
Proof. intros S. apply cross_split. intros i j a b Hij Ha Hb Hlt. assert (a <= b); [|lia]. apply (S i j); auto. lia. Qed.
Lemma cross_range v item : 0 <= cross v item <= zlen v.
Proof. unfold cross. split; [apply zlen_nonneg|]. induction v as [|x v IH]; [unfold zlen; simpl; lia|]. cbn [filter]. rewrite zlen_cons. destruct (x <? item); rewrite ?zlen_cons; lia. Qed.
Lemma cross_mono v a b : a <= b -> cross v a <= cross v b.
Proof. intros H. unfold cross. induction v as [|x v IH]; [unfold zlen; simpl; lia|]. cbn [filter]. destruct (Z.ltb_spec x a); destruct (Z.ltb_spec x b); rewrite ?zlen_cons; try lia. Qed.
Lemma cross_all v item : (forall a, In a v -> a < item) -> cross v item = zlen v.
Proof. intros H. unfold cross. induction v as [|x v IH]; [reflexivity|]. cbn [filter]. destruct (Z.ltb_spec x item); [|specialize (H x (or_introl eq_refl)); lia]. rewrite !zlen_cons, IH; auto. intros a Ha. apply H. right. auto. Qed.
Lemma cross_none v item : (forall a, In a v -> item <= a) -> cross v item = 0.
Proof. intros H. unfold cross. rewrite filter_all_false; auto. intros a Ha. specialize (H a Ha). lia. Qed.

Lemma rows_per_spec m np : 0 <= m -> 1 <= np -> exists r, rows_per m np = Ok r /\ 0 <= r /\ r mod 32 = 0 /\ m <= np * r.
Proof.
  intros Hm Hn. unfold rows_per. destruct (Z.eqb_spec np 0); [lia|]. eexists. split; [reflexivity|].
  rewrite (quot_div (m + np - 1)) by lia. assert (0 <= (m + np - 1) / np) by (apply Z.div_pos; lia).
  rewrite quot_div by lia. pose proof (Z.mod_pos_bound (m + np - 1) np ltac:(lia)). pose proof (Z.div_mod (m + np - 1) np ltac:(lia)).
  set (q := (m + np - 1) / np) in *. split; [lia|]. split; [rewrite Z.mod_mul; lia|].
  assert (q <= (q + 31) / 32 * 32) by lia. nia.
Qed.

Lemma sorted_map_isorted {A} (f : A -> Z) (P : A -> A -> Prop) l : (forall a b, P a b -> f a <= f b) -> StronglySorted P l -> isorted (map f l).
Proof.
  intros H S. apply sorted_isorted. induction S as [|a l S IH F]; simpl; constructor; auto.
  apply Forall_map. eapply Forall_impl; [|exact F]. intros b; apply H.
Qed.

Section Coo.
  Context {E : Type}.
  Variable srt : list (edge E) -> list (edge E).
  Hypothesis Hsrt : sorts_ends srt.
  Variables (threads : Z) (es : list (edge E)) (m n rs cs : Z).
  Hypothesis Hth : 1 <= threads.
  Hypothesis Hes : forall e, In e es -> in_rect m n rs cs e.

  Lemma s_len : zlen (srt es) = zlen es.
  Proof using Hsrt. unfold zlen. f_equal. apply Permutation_length. apply Hsrt. Qed.
  Lemma s_rect e : In e (srt es) -> in_rect m n rs cs e.
  Proof using Hsrt Hes. intros H. apply Hes. eapply Permutation_in; [apply Hsrt|auto]. Qed.
  Lemma nonempty_m : es <> [] -> 0 < m /\ 0 < n.
  Proof using Hes. intros H. destruct es as [|e l]; [congruence|]. destruct (Hes e (or_introl eq_refl)). lia. Qed.
  Definition ia_of (l : list (edge E)) := map (fun e => e_src e - rs) l.
  Definition ja_of (l : list (edge E)) := map (fun e => e_dst e - cs) l.
  Lemma ia_sorted : isorted (ia_of (srt es)).
  Proof using Hsrt. eapply sorted_map_isorted; [|apply Hsrt]. clear Hes Hth; intros a b; simpl; lia. Qed.

  Lemma export_all (l : list (edge E)) k : k = zlen l -> coo_export k (map e_val l) (ja_of l) (ia_of l) rs cs = Ok l.
  Proof using.
    intros ->. unfold coo_export. transitivity (mapR (rd l) (zrange 0 (zlen l))); [|apply DCSCFinal.mapR_rd_all].
    apply GraphVertProofs.mapR_ext. intros i Hi. apply in_zrange in Hi. unfold ja_of, ia_of. destruct (rd_ok l i ltac:(lia)) as [e He]. rewrite !rd_map_list, He. cbn [bind].
    f_equal. destruct e; simpl. f_equal; lia.
  Qed.

  (** what the searches of the constructor return: the split at the partition's first row, or the
      array's end where the last entry alone lies behind the split *)
  Definition coo_starts (g : Z) (rpp : Z) (ps : list Z) : Prop :=
    zlen ps = threads * 4 /\ forall p s, rd ps p = Ok s ->
      l_binary_search 0 (zlen es) (ia_of (srt es) ++ [g]) (Z.min (p * rpp) m + 1) = Ok s /\
      let c := cross (ia_of (srt es)) (Z.min (p * rpp) m + 1) in s = c \/ s = zlen es /\ g < Z.min (p * rpp) m + 1 /\ c = zlen es - 1.
  Lemma coo_built g : es <> [] -> exists rpp ps, rows_per m (threads * 4) = Ok rpp /\ coo_starts g rpp ps /\
    coo_new srt threads (Some g) es m n rs cs = Ok (mkCoo (zlen es) m n (threads * 4) (map e_val (srt es)) (ja_of (srt es)) (ia_of (srt es)) (ps ++ [zlen es])).
  Proof.
    intros Hne. pose proof (nonempty_m Hne). destruct (rows_per_spec m (threads * 4)) as (rpp & Hr & Hr0 & _); try lia.
    assert (0 < zlen es) as Hz. { destruct es; [congruence|]. rewrite zlen_cons. pose proof (zlen_nonneg l). lia. }
    assert (zlen (ia_of (srt es)) = zlen es) as L by (unfold ia_of; rewrite zlen_map; apply s_len).
    assert (forall item, exists s, l_binary_search 0 (zlen es) (ia_of (srt es) ++ [g]) item = Ok s /\
              (s = cross (ia_of (srt es)) item \/ s = zlen es /\ g < item /\ cross (ia_of (srt es)) item = zlen es - 1)) as B.
    { intros item. rewrite <- L. apply l_binary_search_spec. apply cross_sorted, ia_sorted. }
    destruct (GraphVertProofs.mapR_seq_all (fun p =>
          let start_row := Z.min (p * rpp) m in
          let end_row := Z.min ((p + 1) * rpp) m in
          do s <- l_binary_search 0 (zlen es) (ia_of (srt es) ++ [g]) (start_row + 1) ;;
          do _ <- l_binary_search 0 (zlen es) (ia_of (srt es) ++ [g]) (end_row + 1) ;;
          Ok s) (fun p s => l_binary_search 0 (zlen es) (ia_of (srt es) ++ [g]) (Z.min (p * rpp) m + 1) = Ok s) (threads * 4)) as (ps & Eps & Lps & Pps); [lia| |].
    { intros p Hp. destruct (B (Z.min (p * rpp) m + 1)) as (s & Es & _). destruct (B (Z.min ((p + 1) * rpp) m + 1)) as (s' & Es' & _). exists s. cbv zeta. rewrite Es; cbn [bind]. rewrite Es'. auto. }
    exists rpp, ps. split; auto. split.
    { split; [auto|]. intros p s Hs. apply Pps in Hs as [_ Hs]. cbv beta in Hs. split; auto. destruct (B (Z.min (p * rpp) m + 1)) as (s' & Es' & Q). rewrite Es' in Hs. injection Hs as <-. auto. }
    unfold coo_new. destruct (Z.ltb_spec 0 (zlen es)); [|lia]. rewrite Hr. cbn [bind]. cbv zeta in Eps. unfold ia_of in *. rewrite Eps. reflexivity.
  Qed.

  Lemma coo_entries past t : coo_new srt threads past es m n rs cs = Ok t -> o_nnz t = zlen es /\ coo_get_edges t rs cs = Ok (if 0 <? zlen es then srt es else []).
  Proof.
    unfold coo_new. destruct (Z.ltb_spec 0 (zlen es)).
    - intros H0. apply bind_Ok in H0 as (rpp & _ & H0). apply bind_Ok in H0 as (ps & _ & H0). injection H0 as <-. split; auto.
      unfold coo_get_edges. simpl. apply export_all. symmetry. apply s_len.
    - intros H0. injection H0 as <-. pose proof (zlen_nonneg es). split; [simpl; lia|]. reflexivity.
  Qed.
End Coo.

Section Csr.
  Variable jia : list Z.
  Variable m : Z.
  Let nnz := zlen jia.
  Hypothesis Hnnz : 0 < nnz.
  Hypothesis Hs : isorted jia.
  Hypothesis Hin : forall a, In a jia -> 1 <= a <= m.
  Let c (k : Z) := cross jia (k + 1).

  Lemma c_cross k : crossing jia nnz (k + 1) (c k).
  Proof using Hs. apply cross_sorted; auto. Qed.
  Lemma c_range k : 0 <= c k <= nnz.
  Proof. apply cross_range. Qed.
  Lemma c_is k x : crossing jia nnz (k + 1) x -> c k = x.
  Proof using Hs. intros H. apply (crossing_unique jia nnz (k + 1)); auto; [apply Z.le_refl|apply c_cross]. Qed.
  Lemma c_last : c m = nnz.
  Proof using Hin. apply cross_all. intros a Ha. specialize (Hin a Ha). lia. Qed.
  Lemma c_zero : c 0 = 0.
  Proof using Hin. apply cross_none. intros a Ha. specialize (Hin a Ha). lia. Qed.
  Lemma c_mono k k' : k <= k' -> c k <= c k'.
  Proof using. clear Hin Hnnz. intros. apply cross_mono. lia. Qed.
  (** the entries of row [k] *)
  Lemma c_row k i a : rd jia i = Ok a -> c k <= i < c (k + 1) -> a = k + 1.
  Proof using Hs.
    clear Hin Hnnz.
    intros Ha Hi. destruct (c_cross k) as (C0 & C1 & C2). destruct (c_cross (k + 1)) as (D0 & D1 & D2).
    pose proof (rd_bounds _ _ _ Ha). fold nnz in H. specialize (C2 i a ltac:(lia) Ha). specialize (D1 i a ltac:(lia) Ha). lia.
  Qed.

  Lemma csr_first_spec : forall k row, 0 <= row -> Z.of_nat k = m - row -> csr_first k jia nnz row = Ok (c row).
  Proof.
    induction k as [|k IH]; intros row Hrow Hk; cbn [csr_first].
    - rewrite <- c_last. f_equal. unfold c. f_equal. lia.
    - destruct (rd_ok jia 0) as [j0 H0]; [fold nnz; lia|]. rewrite H0; cbn [bind].
      destruct (Z.ltb_spec (row + 1) j0).
      { f_equal. symmetry. apply c_is. split; [lia|]. split; intros i a Hi Ha; [lia|]. assert (j0 <= a); [|lia]. destruct (Z.eq_dec i 0) as [->|]; [rewrite H0 in Ha; injection Ha; lia|]. apply (Hs 0 i); auto. lia. }
      destruct (rd_ok jia (nnz - 1)) as [jl Hl]; [fold nnz; lia|]. rewrite Hl; cbn [bind].
      destruct (Z.ltb_spec jl (row + 1)).
      { f_equal. symmetry. apply c_is. split; [lia|]. split; intros i a Hi Ha; [|lia]. assert (a <= jl); [|lia]. destruct (Z.eq_dec i (nnz - 1)) as [->|]; [rewrite Hl in Ha; injection Ha; lia|]. apply (Hs i (nnz - 1)); auto. lia. }
      destruct (left_border_all_spec jia Hs (row + 1)) as (r & Er & D). unfold left_border_all, left_border_to in Er. fold nnz in Er. rewrite Er; cbn [bind].
      destruct D as [[-> A]|F].
      + cbn [Z.eqb Pos.eqb]. rewrite IH by lia. f_equal. symmetry. apply c_is. destruct (c_cross (row + 1)) as (C0 & C1 & C2).
        split; [lia|]. split; intros i a Hi Ha.
        * specialize (C1 i a Hi Ha). destruct (Z.eq_dec a (row + 1)) as [->|]; [|lia]. destruct (A i Ha).
        * specialize (C2 i a Hi Ha). lia.
      + destruct F as [F1 F2]. pose proof (rd_bounds _ _ _ F1) as B. destruct (Z.eqb_spec r (-1)); [lia|]. f_equal. symmetry. apply c_is. fold nnz in B.
        split; [lia|]. split; intros i a Hi Ha.
        * assert (a <= row + 1) by (apply (Hs i r); auto; lia). destruct (Z.eq_dec a (row + 1)) as [->|]; [|lia]. destruct (F2 i ltac:(lia) Ha).
        * destruct (Z.eq_dec i r) as [->|]; [rewrite F1 in Ha; injection Ha; lia|]. apply (Hs r i); auto. lia.
  Qed.

  Definition ia_ok (lo hi : Z) (ia : list (option Z)) : Prop := zlen ia = m + 1 /\ forall k, lo <= k < hi -> rd ia k = Ok (Some (c k + 1)).

  Lemma csr_rows_spec j i end_row lo : end_row <= m -> 0 <= lo -> (forall k, k < j -> (forall i' a, i' < i -> rd jia i' = Ok a -> a <= k) -> c k = i) ->
    forall f ia cur, end_row - cur <= Z.of_nat f -> lo <= cur -> ia_ok lo cur ia -> (cur < end_row -> forall i' a, i' < i -> rd jia i' = Ok a -> a <= cur) ->
      exists ia' cur', csr_rows f j i end_row (ia, cur) = Ok (ia', cur') /\ lo <= cur' /\ cur <= cur' /\ ia_ok lo cur' ia' /\ (cur' < end_row -> j <= cur') /\ (cur <= end_row -> cur' <= end_row).
  Proof.
    intros He Hlo Hc. induction f as [|f IH]; intros ia cur Hf H1 Hia Hb.
    - cbn [csr_rows]. destruct (Z.ltb_spec cur end_row); [lia|]. rewrite andb_false_r. exists ia, cur. split; auto. repeat split; try lia; apply Hia.
    - cbn [csr_rows]. destruct (Z.ltb_spec cur j); destruct (Z.ltb_spec cur end_row); cbn [andb].
      2-4: exists ia, cur; split; auto; repeat split; try lia; apply Hia.
      destruct Hia as [L P]. rewrite wr_ok by lia. cbn [bind].
      destruct (IH (upd ia (Z.to_nat cur) (Some (i + 1))) (cur + 1)) as (ia' & cur' & E & Q1 & Q2 & Q3 & Q4 & Q5); try lia.
      + split; [rewrite zlen_upd; auto|]. intros k Hk. destruct (Z.eq_dec k cur) as [->|].
        * rewrite rd_upd_same by lia. rewrite (Hc cur); [reflexivity|lia|]. apply Hb. lia.
        * rewrite rd_upd_other by lia. apply P. lia.
      + intros _ i' a Hi' Ha. specialize (Hb ltac:(lia) i' a Hi' Ha). lia.
      + exists ia', cur'. split; auto. split; [lia|]. split; [lia|]. split; [auto|]. split; [auto|]. intros; apply Q5; lia.
  Qed.

  Lemma csr_part_spec rpp p ia : 0 <= rpp -> 0 <= p -> ia_ok 0 (Z.min (rpp * p) m) ia ->
    exists ia', csr_part jia nnz m rpp p ia = Ok ia' /\ ia_ok 0 (Z.min (rpp * (p + 1)) m) ia'.
  Proof.
    intros Hr Hp Hia. unfold csr_part. assert (0 < m) as Hm. { destruct (rd_ok jia 0) as [a Ha]; [fold nnz; lia|]. apply rd_In in Ha. specialize (Hin a Ha). lia. }
    set (s := Z.min (rpp * p) m) in *. set (e := Z.min (rpp * (p + 1)) m).
    assert (0 <= s <= e) as Hse by (unfold s, e; nia). assert (e <= m) as Hem by (unfold e; lia).
    rewrite csr_first_spec by lia. cbn [bind]. destruct Hia as [L P]. rewrite wr_ok by lia. cbn [bind].
    set (ia0 := upd ia (Z.to_nat s) (Some (c s))). assert (ia_ok 0 s ia0) as I0.
    { split; [unfold ia0; rewrite zlen_upd; auto|]. intros k Hk. unfold ia0. rewrite rd_upd_other by lia. auto. }
    pose proof (c_range s) as Cs.
    destruct (forZ_inv (fun i st => 0 <= snd st <= e /\ s <= snd st /\ ia_ok 0 (snd st) (fst st) /\ (snd st < e -> forall i' a, i' < i -> rd jia i' = Ok a -> a <= snd st)) (c s) nnz
       (fun i st => if e <=? snd st then Ok st else do j <- rd jia i ;; csr_rows (Z.to_nat (e - snd st)) j i e st) (ia0, s)) as ([ia1 cur] & E1 & K1 & K2 & K3 & K4); [lia| | |].
    - cbn [fst snd]. split; [lia|]. split; [lia|]. split; [auto|]. intros _ i' a Hi' Ha. pose proof (rd_bounds _ _ _ Ha) as B. destruct (c_cross s) as (C0 & C1 & C2). specialize (C1 i' a ltac:(lia) Ha). lia.
    - intros i [ia1 cur] Hi (K1 & K2 & K3 & K4). cbn [fst snd] in *. destruct (Z.leb_spec e cur).
      + exists (ia1, cur). split; auto. cbn [fst snd]. split; [lia|]. split; [lia|]. split; [auto|]. intros; lia.
      + destruct (rd_ok jia i) as [j Hj]; [fold nnz; lia|]. rewrite Hj; cbn [bind].
        destruct (csr_rows_spec j i e 0 ltac:(lia) ltac:(lia)) with (f := Z.to_nat (e - cur)) (ia := ia1) (cur := cur) as (ia' & cur' & E & Q1 & Q2 & Q3 & Q4 & Q5); auto; try lia.
        * intros k Hk Hb. apply c_is. split; [lia|]. split; intros i' a Hi' Ha.
          -- specialize (Hb i' a ltac:(lia) Ha). lia.
          -- destruct (Z.eq_dec i' i) as [->|]; [rewrite Hj in Ha; injection Ha; lia|]. assert (j <= a) by (apply (Hs i i'); auto; lia). lia.
        * exists (ia', cur'). split; auto. cbn [fst snd]. split; [lia|]. split; [lia|]. split; [auto|]. intros Hlt i' a Hi' Ha.
          destruct (Z.eq_dec i' i) as [->|]; [rewrite Hj in Ha; injection Ha as <-; auto|]. specialize (K4 ltac:(lia) i' a ltac:(lia) Ha). lia.
    - rewrite E1. cbn [bind fst snd] in *.
      destruct (forZ_inv (fun k ia => ia_ok 0 k ia) cur e (fun cur ia => wr ia cur (Some (nnz + 1))) ia1) as (ia2 & E2 & J2); auto; [lia| |].
      + intros k ia2 Hk [L2 P2]. rewrite wr_ok by lia. eexists. split; [reflexivity|]. split; [rewrite zlen_upd; auto|]. intros k' Hk'. destruct (Z.eq_dec k' k) as [->|].
        * rewrite rd_upd_same by lia. do 3 f_equal. symmetry. apply c_is. split; [lia|]. split; intros i' a Hi' Ha; [|lia]. specialize (K4 ltac:(lia) i' a ltac:(lia) Ha). lia.
        * rewrite rd_upd_other by lia. apply P2. lia.
      + exists ia2. split; auto.
  Qed.

  Lemma csr_ptrs np rpp : 1 <= np -> 0 <= rpp -> m <= rpp * np -> exists ia0 ia, forZ 0 np (csr_part jia nnz m rpp) (repeat None (Z.to_nat (m + 1))) = Ok ia0 /\
    wr ia0 m (Some (nnz + 1)) = Ok ia /\ mapR need ia = Ok (map (fun k => c k + 1) (zrange 0 (m + 1))).
  Proof.
    intros Hn Hr Hm. assert (0 < m) as Hm0. { destruct (rd_ok jia 0) as [a Ha]; [fold nnz; lia|]. apply rd_In in Ha. specialize (Hin a Ha). lia. }
    destruct (forZ_inv (fun p ia => ia_ok 0 (Z.min (rpp * p) m) ia) 0 np (csr_part jia nnz m rpp) (repeat None (Z.to_nat (m + 1)))) as (ia0 & E & L & P).
    - lia.
    - split; [rewrite zlen_repeat; lia|]. intros; lia.
    - intros p ia Hp I. apply csr_part_spec; auto; lia.
    - rewrite Z.min_r in P by lia. exists ia0. rewrite wr_ok by lia. eexists. split; auto. split; [reflexivity|].
      replace (upd ia0 (Z.to_nat m) (Some (nnz + 1))) with (map Some (map (fun k => c k + 1) (zrange 0 (m + 1)))); [apply mapR_need|].
      apply rd_ext; rewrite ?zlen_map, ?zlen_upd, zlen_zrange by lia; [lia|]. intros i Hi. rewrite !rd_map_list, rd_zrange by lia. rewrite Z.add_0_l.
      destruct (Z.eq_dec i m) as [->|]; [rewrite rd_upd_same, c_last by lia; auto|]. rewrite rd_upd_other by lia. symmetry. apply P. lia.
  Qed.
End Csr.

Section CsrTile.
  Context {E : Type}.
  Variable srt : list (edge E) -> list (edge E).
  Hypothesis Hsrt : sorts_ends srt.
  Variables (threads : Z) (es : list (edge E)) (m n rs cs : Z).
  Hypothesis Hth : 1 <= threads.
  Hypothesis Hes : forall e, In e es -> in_rect m n rs cs e.

  Definition row_ptrs (l : list (edge E)) : list Z := map (fun k => cross (ia_of rs l) (k + 1) + 1) (zrange 0 (m + 1)).
  Lemma csr_built : es <> [] ->
    csr_new srt threads es m n rs cs = Ok (mkCsr (zlen es) m n (map e_val (srt es)) (ja_of cs (srt es)) (row_ptrs (srt es))).
  Proof.
    intros Hne. pose proof (nonempty_m es m n rs cs Hes Hne).
    assert (0 < zlen es) as Hz. { destruct es; [congruence|]. rewrite zlen_cons. pose proof (zlen_nonneg l). lia. }
    assert (zlen (ia_of rs (srt es)) = zlen es) as L by (unfold ia_of; rewrite zlen_map; apply s_len; auto).
    unfold csr_new. destruct (Z.ltb_spec 0 (zlen es)); [|lia]. destruct (Z.eqb_spec (threads * 4) 0); [lia|]. cbn [bind].
    change (map (fun e => e_src e - rs) (srt es)) with (ia_of rs (srt es)).
    assert (forall np, 1 <= np -> 0 <= Z.quot (m + np - 1) np /\ m <= Z.quot (m + np - 1) np * np) as Q.
    { intros np Hnp. rewrite quot_div by lia. pose proof (Z.mod_pos_bound (m + np - 1) np ltac:(lia)). pose proof (Z.div_mod (m + np - 1) np ltac:(lia)). assert (0 <= (m + np - 1) / np) by (apply Z.div_pos; lia). nia. }
    destruct (Q (threads * 4)) as [Q1 Q2]; [lia|].
    destruct (csr_ptrs (ia_of rs (srt es)) m) with (np := threads * 4) (rpp := Z.quot (m + threads * 4 - 1) (threads * 4)) as (ia0 & ia & E1 & E2 & E3); auto; try lia.
    - apply ia_sorted; auto.
    - intros a Ha. unfold ia_of in Ha. apply in_map_iff in Ha as (e & <- & He). destruct (s_rect srt Hsrt es m n rs cs Hes e He). lia.
    - rewrite L in *. rewrite E1; cbn [bind]. rewrite E2; cbn [bind]. rewrite E3; cbn [bind]. reflexivity.
  Qed.

  Lemma csr_entries t : csr_new srt threads es m n rs cs = Ok t -> csr_get_edges t rs cs = Ok (if 0 <? zlen es then srt es else []).
  Proof.
    destruct (Z.ltb_spec 0 (zlen es)) as [Hz|Hz].
    - assert (es <> []) as Hne by (intros ->; cbn in Hz; lia). rewrite (csr_built Hne). intros H0. injection H0 as <-. pose proof (nonempty_m es m n rs cs Hes Hne).
      unfold csr_get_edges. cbn [s_nnz s_m s_ia s_ja s_a]. destruct (Z.ltb_spec 0 (zlen es)); [|lia].
      pose proof (s_len srt Hsrt es) as Ls. set (s := srt es) in *.
      assert (isorted (ia_of rs s)) as Is by (apply ia_sorted; auto).
      assert (forall a, In a (ia_of rs s) -> 1 <= a <= m) as Ir. { intros a Ha. apply in_map_iff in Ha as (e & <- & He). destruct (s_rect srt Hsrt es m n rs cs Hes e He). lia. }
      assert (zlen (ia_of rs s) = zlen es) as L by (unfold ia_of; rewrite zlen_map; auto).
      destruct (forZ_inv (fun i out => filled (zlen es) out (firstn (Z.to_nat (cross (ia_of rs s) (i + 1))) s)) 0 m
         (fun i out => do lo <- rd (row_ptrs s) i ;; do hi <- rd (row_ptrs s) (i + 1) ;;
            forZ lo hi (fun nz out => do d <- rd (ja_of cs s) (nz - 1) ;; do v <- rd (map e_val s) (nz - 1) ;; wr out (nz - 1) (Some (mkE (i + rs + 1) (d + cs) v))) out) (repeat None (Z.to_nat (zlen es)))) as (out & E1 & F).
      + lia.
      + rewrite (c_zero (ia_of rs s) m Ir). simpl. apply filled_start. lia.
      + intros i out Hi F. unfold row_ptrs. rewrite !rd_map_list, !rd_zrange by lia. cbn [bind]. rewrite !Z.add_0_l.
        pose proof (cross_mono (ia_of rs s) (i + 1) (i + 1 + 1) ltac:(lia)) as M. pose proof (cross_range (ia_of rs s) (i + 1 + 1)) as R1. pose proof (cross_range (ia_of rs s) (i + 1)) as R0.
        destruct (forZ_inv (fun nz out => filled (zlen es) out (firstn (Z.to_nat (nz - 1)) s)) (cross (ia_of rs s) (i + 1) + 1) (cross (ia_of rs s) (i + 1 + 1) + 1)
           (fun nz out => do d <- rd (ja_of cs s) (nz - 1) ;; do v <- rd (map e_val s) (nz - 1) ;; wr out (nz - 1) (Some (mkE (i + rs + 1) (d + cs) v))) out) as (out' & E1 & F').
        * lia.
        * rewrite Z.add_simpl_r. auto.
        * intros nz o Hnz Fo. destruct (rd_ok s (nz - 1)) as [e He]; [lia|]. unfold ja_of. rewrite !rd_map_list, He. cbn [bind].
          assert (e_src e - rs = i + 1) as Er. { apply (c_row (ia_of rs s) Is i (nz - 1)); [unfold ia_of; rewrite rd_map_list, He; auto|lia]. }
          replace (mkE (i + rs + 1) (e_dst e - cs + cs) (e_val e)) with e by (destruct e; simpl in *; f_equal; lia).
          replace (nz + 1 - 1) with (nz - 1 + 1) by lia. rewrite (firstn_snoc s (nz - 1) e He).
          assert (zlen (firstn (Z.to_nat (nz - 1)) s) = nz - 1) as Lf by (unfold zlen in *; rewrite firstn_length; lia).
          apply filled_wr; auto; lia.
        * exists out'. split; auto. rewrite Z.add_simpl_r in F'. auto.
      + rewrite E1; cbn [bind]. rewrite (c_last (ia_of rs s) m Ir), L in F.
        replace (Z.to_nat (zlen es)) with (length s) in F by (unfold zlen in *; lia). rewrite firstn_all in F.
        eapply filled_end; eauto.
    - pose proof (zlen_nonneg es). unfold csr_new. destruct (Z.ltb_spec 0 (zlen es)); [lia|]. intros H1. injection H1 as <-. reflexivity.
  Qed.
End CsrTile.
