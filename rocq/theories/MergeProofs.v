(** Transfer of a segment between ranks and merging of received partial results. *)
From Verif Require Import BaseLemmas Bits BitsProofs Segment SegmentProofs TransferProofs.

Section EX.
  Context {T byte : Type}.
  Notation buf := (buffer T byte).
  Notation sg := (seg T byte).
  Variable ser : bool.
  Variable thr : Z.
  Variable enc : list (Z * T) -> list byte.
  Variable dec : list byte -> Z -> R (list (Z * T)).
  Hypothesis dec_enc : forall l, dec (enc l) (zlen l) = Ok l.
  Notation bwf0 := (bwf0 ser thr).
  Notation bwf := (bwf ser thr).
  Notation swf := (swf ser thr).
  Notation ready := (ready ser thr).
  Notation thok := (thok ser thr).

  (** a received buffer that represents content [A] in the encoding its count announces *)
  Definition holds (cap : Z) (rb : buf) (A : Z -> option (option T)) : Prop :=
    bwf0 cap rb /\ b_uninit rb = false /\
    match should_compress ser cap (b_nnz rb) with
    | COMPRESSED => exists es, b_nnz rb = zlen es /\ incr (map fst es) /\ (forall e, In e es -> 0 <= fst e < cap) /\
        starts (b_cidx rb) (map Some (map fst es)) /\ starts (b_cdata rb) (map snd es) /\ forall k, A k = massoc es k
    | SERIALIZED => exists parts, zlen parts = b_snp rb /\ b_sdata rb = concat (map enc parts) /\
        b_nbscan rb = map Some (prefix_sums 0 (map zlen (map enc parts))) /\
        b_nzscan rb = map Some (prefix_sums 0 (map zlen parts)) /\
        (forall e, In e (concat parts) -> 0 <= fst e < cap) /\ forall k, A k = massoc (map inj (concat parts)) k
    | NONE => exists w, b_bits rb = Some w /\ wwf cap w /\ forall k, A k = wabs w (b_value rb) k
    end.

  (** a message that carries content [A] to any well-formed receiving buffer *)
  Definition msg (cap : Z) (A : Z -> option (option T)) (md : send_md) (pl : payload (T:=T) (byte:=byte)) : Prop :=
    forall p : buf, bwf0 cap p -> exists p', recv_buffer ser cap (num_ints_of cap) md p pl = Ok p' /\ holds cap p' A.

  Definition determinate (s : sg) : Prop := forall k, sabs s k <> Some None.

  Lemma map_fst_pairs (v : list (option T)) ks : map fst (pairs_of v ks) = ks.
  Proof. unfold pairs_of. rewrite map_map. simpl. apply map_id. Qed.
  Lemma map_snd_pairs (v : list (option T)) ks : map snd (pairs_of v ks) = map (cell v) ks.
  Proof. unfold pairs_of. rewrite map_map. reflexivity. Qed.

  Lemma seg_compress_spec threads (s : sg) : thok threads -> swf s -> (ser = true -> determinate s) ->
    exists s' md pl, seg_compress ser enc threads s = Ok s' /\ swf s' /\ s_cap s' = s_cap s /\
      (forall k, sabs s' k = sabs s k) /\
      (exists b', s' = set_prop (Some b') s) /\
      seg_send_nnz s' = Ok md /\ seg_send_segment ser s' = Ok pl /\ msg (s_cap s) (sabs s) md pl.
  Proof.
    intros Ht W D. destruct (seg_init_spec ser thr threads s Ht W) as (b & w & E & Rd & A & N & C & V).
    pose proof W as (H0 & H1 & _).
    unfold seg_compress. rewrite E; cbn [bind]. rewrite prop_set_prop; cbn [bind]. cbn [set_prop s_cap].
    pose proof Rd as (Bw & U & Bb & Ww). pose proof Bw as [Bw0 B7]. pose proof Bw0 as (B0 & B1 & B2 & B3 & B4 & B5 & B6 & B8).
    assert (forall k, sabs s k = wabs w (b_value b) k) as AW.
    { intros k. rewrite <- A. unfold babs. rewrite U, Bb. reflexivity. }
    (* sending the dense form is always possible *)
    assert (forall b0, ready (s_cap s) b0 w -> b_value b0 = b_value b -> should_compress ser (s_cap s) (b_nnz b0) = NONE ->
      let s' := set_prop (Some b0) s in exists md pl, swf s' /\ (forall k, sabs s' k = sabs s k) /\
       seg_send_nnz s' = Ok md /\ seg_send_segment ser s' = Ok pl /\ msg (s_cap s) (sabs s) md pl) as Dense.
    { intros b0 R0 V0 Dc s'. pose proof R0 as (Bw' & U' & Bb' & _). pose proof Bw' as [(G0 & G1 & G2 & G3 & G4 & G5 & G6 & G8) G7].
      unfold seg_send_nnz, seg_send_segment, s'. rewrite !prop_set_prop. cbn [bind]. cbn [set_prop s_cap s_nints]. rewrite Dc.
      destruct Ww as [W1 W2]. rewrite (starts_send (b_value b0) (b_value b0)); [|exists []; rewrite app_nil_r; auto|auto]. cbn [bind].
      unfold words. rewrite Bb'. cbn [bind]. rewrite (starts_send w w); [|exists []; rewrite app_nil_r; auto|lia]. cbn [bind].
      do 2 eexists. split; [apply swf_set_prop; auto|]. split.
      { intros k. rewrite AW. unfold sabs, babs; simpl. rewrite U', Bb', V0. reflexivity. }
      split; [reflexivity|]. split; [reflexivity|].
      intros p Bp. pose proof Bp as (P0 & P1 & P2 & P3 & P4 & P5 & P6 & P8). unfold recv_buffer. cbn [b_nnz set_ser set_nnz md_nnz]. rewrite Dc.
      simpl b_value. simpl b_bits.
      destruct (starts_recv (b_value p) (b_value b0) (s_cap s) G3 ltac:(lia)) as (v' & -> & Sv & Lv). cbn [bind].
      apply starts_full in Sv; [|lia]. subst v'.
      assert (exists w', match b_bits p with Some w0 => recv_into w0 (num_ints_of (s_cap s)) w | None => if zlen w =? num_ints_of (s_cap s) then Ok w else Err Uninit end = Ok w' /\ w' = w) as (w' & -> & ->).
      { destruct (b_bits p) as [w0|].
        - destruct (starts_recv w0 w (num_ints_of (s_cap s)) ltac:(lia) ltac:(lia)) as (w' & -> & Sw & Lw). apply starts_full in Sw; [eauto|lia].
        - rewrite W1, Z.eqb_refl. eauto. }
      cbn [bind]. eexists. split; [reflexivity|]. split; [|split; [reflexivity|]].
      - unfold SegmentProofs.bwf0; simpl. conjs; auto; try lia. 
      - simpl. rewrite Dc. exists w. rewrite V0. split; auto. split; [split; auto|]. auto. }
    destruct (should_compress ser (s_cap s) (b_nnz b)) eqn:Dc.
    - destruct (Dense b Rd eq_refl Dc) as (md & pl & Q1 & Q2 & Q3 & Q4 & Q5).
      exists (set_prop (Some b) s), md, pl. conjs; auto. eauto.
    - assert (ser = false) as Sf by (unfold should_compress in Dc; destruct ser; [discriminate|auto]).
      assert (buf_compress ser enc threads b = buf_compress_plain threads b) as -> by (unfold buf_compress; rewrite Sf; auto). destruct Ht as [Ht _].
      destruct (buf_compress_plain_spec ser thr threads (s_cap s) b w Ht Rd) as (b' & -> & R' & V' & Nz & S1 & S2). cbn [bind].
      rewrite set_prop_set_prop.
      destruct (should_compress ser (s_cap s) (b_nnz b')) eqn:Dc'; try (unfold should_compress in Dc'; rewrite Sf in Dc'; destruct (s_cap s <? 2 * b_nnz b'); discriminate).
      + destruct (Dense b' R' V' Dc') as (md & pl & Q1 & Q2 & Q3 & Q4 & Q5).
        exists (set_prop (Some b') s), md, pl. conjs; auto. eauto.
      + pose proof R' as (Bw' & U' & Bb' & _). pose proof Bw' as [(G0 & G1 & G2 & G3 & G4 & G5 & G6 & G8) G7].
        set (ks := setbits w 0 (s_cap s)) in *.
        assert (zlen ks <= s_cap s) as Lk by (apply zlen_setbits_le; auto).
        exists (set_prop (Some b') s).
        unfold seg_send_nnz, seg_send_segment. rewrite !prop_set_prop. cbn [bind]. cbn [set_prop s_cap s_nints]. rewrite Dc'.
        rewrite (starts_send _ _ _ S2) by (rewrite zlen_map; auto). cbn [bind].
        rewrite (starts_send _ _ _ S1) by (rewrite zlen_map; auto). cbn [bind].
        do 2 eexists. split; [reflexivity|]. split; [apply swf_set_prop; auto|]. split; auto. split.
        { intros k. rewrite AW. unfold sabs, babs; simpl. rewrite U', Bb', V'. reflexivity. }
        split; [eauto|]. split; [reflexivity|]. split; [reflexivity|].
        intros p Bp. pose proof Bp as (P0 & P1 & P2 & P3 & P4 & P5 & P6 & P8). unfold recv_buffer. cbn [b_nnz set_ser set_nnz md_nnz].
        rewrite Dc'. cbn [b_cdata b_cidx set_ser set_nnz].
        destruct (starts_recv (b_cdata p) (map (cell (b_value b)) ks) (b_nnz b')) as (d' & -> & Sd & Ld); [rewrite zlen_map; auto|lia|]. cbn [bind].
        destruct (starts_recv (b_cidx p) (map Some ks) (b_nnz b')) as (x' & -> & Sx & Lx); [rewrite zlen_map; auto|lia|]. cbn [bind].
        eexists. split; [reflexivity|]. split; [|split; [reflexivity|]].
        * unfold SegmentProofs.bwf0; simpl. conjs; auto; try lia.
        * simpl. rewrite Dc'. exists (pairs_of (b_value b) ks). rewrite map_fst_pairs, map_snd_pairs.
          conjs; auto.
          -- unfold pairs_of. rewrite zlen_map. auto.
          -- apply incr_setbits.
          -- intros e He. unfold pairs_of in He. apply in_map_iff in He as (k & <- & Hk). simpl. apply in_setbits in Hk. tauto.
          -- intros k. rewrite AW. symmetry. apply (massoc_setbits (s_cap s)); auto.
    - assert (ser = true) as St by (unfold should_compress in Dc; destruct ser; auto; destruct (s_cap s <? 2 * b_nnz b); discriminate).
      assert (buf_compress ser enc threads b = buf_compress_ser enc b) as -> by (unfold buf_compress; rewrite St; auto).
      destruct (buf_compress_ser_spec enc thr (s_cap s) b w) as (b' & -> & R' & V' & Nz & parts & Lp & Sd & Snb & Sb & Sz & Ca).
      { rewrite <- St. exact Rd. }
      { intros k Hk. destruct (wabs_ok (s_cap s) w (b_value b) k Ww B3 Hk) as (c & Hc & Hw). destruct c as [a|]; [eauto|].
        exfalso. apply (D St k). rewrite AW. auto. }
      cbn [bind]. rewrite set_prop_set_prop. rewrite <- St in R'.
      pose proof R' as (Bw' & U' & Bb' & _). pose proof Bw' as [(G0 & G1 & G2 & G3 & G4 & G5 & G6 & G8) G7].
      destruct (G8 St) as (T1 & Np' & Lb & Lz).
      exists (set_prop (Some b') s).
      unfold seg_send_nnz, seg_send_segment. rewrite !prop_set_prop. cbn [bind]. cbn [set_prop s_cap s_nints].
      replace (should_compress ser (s_cap s) (b_nnz b')) with SERIALIZED by (unfold should_compress; rewrite St; auto).
      rewrite (starts_send (b_sdata b') (b_sdata b')); [|exists []; rewrite app_nil_r; auto|auto]. cbn [bind].
      rewrite (starts_send (b_nzscan b') (b_nzscan b')); [|exists []; rewrite app_nil_r; auto|lia]. cbn [bind].
      rewrite (starts_send (b_nbscan b') (b_nbscan b')); [|exists []; rewrite app_nil_r; auto|lia]. cbn [bind].
      do 2 eexists. split; [reflexivity|]. split; [apply swf_set_prop; auto|]. split; auto. split.
      { intros k. rewrite AW. unfold sabs, babs; simpl. rewrite U', Bb', V'. reflexivity. }
      split; [eauto|]. split; [reflexivity|]. split; [reflexivity|].
      intros p Bp. pose proof Bp as (P0 & P1 & P2 & P3 & P4 & P5 & P6 & P8). destruct (P8 St) as (_ & PN & PB & PZ).
      unfold recv_buffer. cbn [b_nnz set_ser set_nnz md_nnz]. unfold should_compress at 1. rewrite St.
      cbn [b_snb b_snp b_nzscan b_nbscan set_ser set_nnz md_snb md_snp].
      destruct (Z.eqb_spec (zlen (b_sdata b')) (b_snb b')); [|lia]. cbn [negb].
      destruct (starts_recv (b_nzscan p) (b_nzscan b') (b_snp b' + 1)) as (d' & -> & Sd' & Ld'); [lia|lia|]. cbn [bind].
      destruct (starts_recv (b_nbscan p) (b_nbscan b') (b_snp b' + 1)) as (x' & -> & Sx' & Lx'); [lia|lia|]. cbn [bind].
      apply starts_full in Sd'; [|lia]. apply starts_full in Sx'; [|lia]. subst d' x'.
      eexists. split; [reflexivity|]. split; [|split; [reflexivity|]].
      + unfold SegmentProofs.bwf0; simpl. conjs; auto; try lia.
      + unfold should_compress. rewrite St. simpl. exists parts. conjs; auto.
        * clear e; intros e He. assert (In (inj e) (pairs_of (b_value b) (setbits w 0 (s_cap s)))) as Hi by (rewrite <- Ca; apply in_map; auto).
          unfold pairs_of in Hi. apply in_map_iff in Hi as (k & Ek & Hk). apply (f_equal fst) in Ek. simpl in Ek. rewrite <- Ek. apply in_setbits in Hk. tauto.
        * intros k. rewrite Ca, AW. symmetry. apply (massoc_setbits (s_cap s)); auto.
  Qed.

  (** what a receiver has after the data arrived and after decompressing *)
  Lemma seg_recv_spec threads (s : sg) A md pl : thok threads -> swf s -> msg (s_cap s) A md pl ->
    exists p, seg_recv_segment ser pl (seg_recv_nnz threads md s) = Ok (set_rmd md (set_prop (Some p) s)) /\ holds (s_cap s) p A.
  Proof.
    intros Ht W M. destruct (seg_alloc_spec ser thr threads s Ht W) as (b & E & [Bw _] & _). pose proof W as (H0 & H1 & _).
    unfold seg_recv_segment, seg_recv_nnz. rewrite E. unfold prop. simpl. rewrite H1.
    destruct (M b Bw) as (p & -> & Hp). simpl. exists p. split; auto.
  Qed.

  Lemma holds_decompress threads cap (rb : buf) A : thok threads -> holds cap rb A ->
    exists b', (match should_compress ser cap (b_nnz rb) with NONE => Ok rb | _ => buf_decompress ser dec threads rb end) = Ok b' /\
      bwf cap b' /\ b_uninit b' = false /\ (exists w, b_bits b' = Some w /\ wwf cap w) /\ (forall k, babs b' k = A k).
  Proof.
    intros Ht (Bw & U & H). pose proof Bw as (B0 & B1 & B2 & B3 & B4 & B5 & B6 & B8).
    destruct (should_compress ser cap (b_nnz rb)) eqn:Dc.
    - destruct H as (w & Bb & Ww & HA). exists rb. split; auto. split; [split; eauto|]. split; auto. split; [eauto|]. intros k. rewrite HA.
      unfold babs. rewrite U, Bb. reflexivity.
    - destruct H as (es & Nz & I & K & S1 & S2 & HA).
      assert (ser = false) as Sf by (unfold should_compress in Dc; destruct ser; [discriminate|auto]).
      unfold buf_decompress. rewrite Sf. destruct Ht as [Ht _].
      destruct (buf_decompress_plain_spec threads cap rb es) as (w & v & -> & Ww & Lv & Hw); auto.
      eexists. split; [reflexivity|]. split; [|split; [auto|split]].
      + unfold SegmentProofs.bwf, SegmentProofs.bwf0; simpl. pose proof Ww as [W1 _]. conjs; eauto.
      + simpl. eauto.
      + intros k. rewrite HA, <- Hw. unfold babs; simpl. rewrite U. reflexivity.
    - destruct H as (parts & Lp & Sd & Sb & Sz & K & HA).
      assert (ser = true) as St by (unfold should_compress in Dc; destruct ser; auto; destruct (cap <? 2 * b_nnz rb); discriminate).
      unfold buf_decompress. rewrite St.
      destruct (buf_decompress_ser_spec enc dec dec_enc cap rb parts) as (w & v & -> & Ww & Lv & Hw); auto.
      eexists. split; [reflexivity|]. split; [|split; [auto|split]].
      + unfold SegmentProofs.bwf, SegmentProofs.bwf0; simpl. pose proof Ww as [W1 _]. conjs; eauto.
      + simpl. eauto.
      + intros k. rewrite HA, <- Hw. unfold babs; simpl. rewrite U. reflexivity.
  Qed.

  Lemma seg_decompress_spec threads (s : sg) p A : thok threads ->
    0 <= s_cap s -> s_nints s = num_ints_of (s_cap s) -> Forall (bwf0 (s_cap s)) (s_recv s) -> Forall (bwf0 (s_cap s)) (s_pool s) ->
    s_prop s = Some p -> holds (s_cap s) p A ->
    exists s', seg_decompress ser dec threads s = Ok s' /\ swf s' /\ (forall k, sabs s' k = A k) /\
      (exists b', s' = set_prop (Some b') s /\ b_uninit b' = false).
  Proof.
    intros Ht H0 H1 H3 H4 E Hp. destruct (holds_decompress threads (s_cap s) p A Ht Hp) as (b' & Eb & Bw & U & Wb & HA).
    unfold seg_decompress. rewrite E.
    assert (s = set_prop (Some p) s) as Es by (clear - E; destruct s; simpl in *; subst; reflexivity).
    exists (set_prop (Some b') s). split.
    - destruct (should_compress ser (s_cap s) (b_nnz p)); [injection Eb as <-; congruence|rewrite Eb; reflexivity|rewrite Eb; reflexivity].
    - split; [unfold SegmentProofs.swf; simpl; auto|]. split; [intros k; unfold sabs; simpl; auto|]. eauto.
  Qed.

  (** ** queue of partial results *)
  Lemma pop_back_snoc {A} (l : list A) a : pop_back (l ++ [a]) = Some (a, l).
  Proof. unfold pop_back. rewrite rev_app_distr. simpl. rewrite rev_involutive. reflexivity. Qed.
  Lemma pop_back_spec {A} (l : list A) : match pop_back l with Some (a, r) => l = r ++ [a] | None => l = [] end.
  Proof. destruct l as [|x l] using rev_ind; [reflexivity|]. rewrite pop_back_snoc. reflexivity. Qed.

  Lemma recv_queue1 threads (s : sg) A md pl q : thok threads -> swf s -> msg (s_cap s) A md pl -> s_qmd s = q ++ [md] ->
    exists s' p, seg_recv_segment_queue ser threads pl s = Ok s' /\ swf s' /\ s_qmd s' = q /\ s_recv s' = s_recv s ++ [p] /\
      holds (s_cap s) p A /\ s_prop s' = s_prop s /\ s_cap s' = s_cap s.
  Proof.
    intros Ht W M Q. pose proof W as (H0 & H1 & H2 & H3 & H4). unfold seg_recv_segment_queue. rewrite Q, pop_back_snoc.
    pose proof (pop_back_spec (s_pool s)) as Pb. rewrite H1.
    assert (exists nb pool, (match pop_back (s_pool s) with Some (b, r) => (b, r) | None => (new_buffer threads (s_cap s) (num_ints_of (s_cap s)) (s_junk s) (s_fresh s), []) end) = (nb, pool)
        /\ bwf0 (s_cap s) nb /\ Forall (bwf0 (s_cap s)) pool) as (nb & pool & -> & Bn & Bp).
    { destruct (pop_back (s_pool s)) as [[b r]|].
      - exists b, r. split; auto. rewrite Pb in H4. apply Forall_app in H4 as [F1 F2]. inversion F2; auto.
      - eexists _, _. split; [reflexivity|]. split; [apply bwf0_new; auto|constructor]. }
    destruct (M nb Bn) as (p & -> & Hp). cbn [bind]. eexists _, p. split; [reflexivity|]. simpl. conjs; auto.
    - unfold SegmentProofs.swf; simpl. conjs; auto. apply Forall_app. split; auto. constructor; auto. apply Hp.
  Qed.

  (** metadata for all senders, then data for all senders, in the same order *)
  Lemma recv_queue_md mds (s : sg) : fold_left (fun s m => seg_recv_nnz_queue m s) mds s = set_qmd (rev mds ++ s_qmd s) s.
  Proof.
    revert s. induction mds as [|m l IH]; intros s; simpl; [destruct s; reflexivity|]. rewrite IH. unfold seg_recv_nnz_queue. simpl.
    rewrite <- app_assoc. reflexivity.
  Qed.

  Lemma recv_queue_data threads ms : forall (s : sg), thok threads -> swf s -> 
    (forall m, In m ms -> msg (s_cap s) (fst (fst m)) (snd (fst m)) (snd m)) -> s_qmd s = rev (map (fun m => snd (fst m)) ms) ->
    exists s' ps, foldR (fun s m => seg_recv_segment_queue ser threads (snd m) s) ms s = Ok s' /\ swf s' /\ s_qmd s' = [] /\
      s_recv s' = s_recv s ++ ps /\ Forall2 (fun p m => holds (s_cap s) p (fst (fst m))) ps ms /\ s_prop s' = s_prop s /\ s_cap s' = s_cap s.
  Proof.
    induction ms as [|[[A md] pl] ms IH]; intros s Ht W M Q; simpl.
    - exists s, []. rewrite app_nil_r. conjs; auto.
    - simpl in Q. destruct (recv_queue1 threads s A md pl _ Ht W (M _ (or_introl eq_refl)) Q) as (s1 & p & E & W1 & Q1 & R1 & H1 & P1 & C1).
      rewrite E. cbn [bind]. destruct (IH s1 Ht W1) as (s2 & ps & E2 & W2 & Q2 & R2 & F2 & P2 & C2).
      { intros m Hm. rewrite C1. apply M. simpl; auto. } { auto. }
      exists s2, (p :: ps). rewrite E2. conjs; auto; try congruence.
      + rewrite R2, R1, <- app_assoc. reflexivity.
      + constructor; auto. rewrite C1 in F2. auto.
  Qed.

  (** received buffers are recycled *)
  Lemma seg_set_uninit_received_spec (s : sg) : swf s ->
    swf (seg_set_uninitialized_received s) /\ (forall k, sabs (seg_set_uninitialized_received s) k = sabs s k) /\
    s_cap (seg_set_uninitialized_received s) = s_cap s /\ s_recv (seg_set_uninitialized_received s) = [] /\
    s_prop (seg_set_uninitialized_received s) = s_prop s /\ s_qmd (seg_set_uninitialized_received s) = s_qmd s.
  Proof.
    intros (H0 & H1 & H2 & H3 & H4). unfold seg_set_uninitialized_received. unfold SegmentProofs.swf, sabs; simpl. conjs; auto.
    apply Forall_app. split; auto. apply Forall_forall. intros b Hb. apply in_map_iff in Hb as (b0 & <- & Hb).
    rewrite Forall_forall in H3. apply bwf0_uninit; auto.
  Qed.
End EX.
