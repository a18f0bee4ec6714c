From Verif Require Import BaseLemmas Bits BitsProofs Segment.

Lemma zlen_repeat {A} (a : A) n : zlen (repeat a n) = Z.of_nat n.
Proof. unfold zlen. rewrite repeat_length. auto. Qed.
Lemma zlen_map {A B} (f : A -> B) l : zlen (map f l) = zlen l.
Proof. unfold zlen. rewrite map_length. auto. Qed.

Ltac conjs := repeat match goal with |- _ /\ _ => split end.

Section WF.
  Context {T byte : Type}.
  Notation buf := (buffer T byte).
  Notation sg := (seg T byte).
  (** Serializable element type or not; [thr] is the common thread count of all ranks, relevant
      only for Serializable types. *)
  Variable ser : bool.
  Variable thr : Z.
  Definition thok (threads : Z) : Prop := 1 <= threads /\ (ser = true -> threads = thr).

  Definition wwf (cap : Z) (w : list Z) : Prop :=
    zlen w = num_ints_of cap /\ forall k, cap <= k -> tb w k = false.

  (** sizes *)
  Definition bwf0 (cap : Z) (b : buf) : Prop :=
    0 <= cap /\ b_cap b = cap /\ b_nints b = num_ints_of cap /\
    zlen (b_value b) = cap /\ zlen (b_cdata b) = cap /\ zlen (b_cidx b) = cap /\
    match b_bits b with Some w => zlen w = num_ints_of cap | None => 0 < num_ints_of cap end /\
    (ser = true -> 1 <= thr /\ b_snp b = thr * 16 /\ zlen (b_nbscan b) = thr * 16 + 1 /\ zlen (b_nzscan b) = thr * 16 + 1).
  Definition bwf (cap : Z) (b : buf) : Prop :=
    bwf0 cap b /\ (b_uninit b = false -> exists w, b_bits b = Some w /\ wwf cap w).

  (** membership and content, [None]: not a member *)
  Definition wabs (w : list Z) (v : list (option T)) (k : Z) : option (option T) :=
    if tb w k then match rd v k with Ok c => Some c | Err _ => None end else None.
  Definition babs (b : buf) (k : Z) : option (option T) :=
    if b_uninit b then None else match b_bits b with Some w => wabs w (b_value b) k | None => None end.
  Definition sabs (s : sg) (k : Z) : option (option T) :=
    match s_prop s with Some b => babs b k | None => None end.

  Definition swf (s : sg) : Prop :=
    0 <= s_cap s /\ s_nints s = num_ints_of (s_cap s) /\
    match s_prop s with Some b => bwf (s_cap s) b | None => True end /\
    Forall (bwf0 (s_cap s)) (s_recv s) /\ Forall (bwf0 (s_cap s)) (s_pool s).

  Definition bcount (b : buf) : Z :=
    if b_uninit b then 0 else match b_bits b with Some w => zlen (setbits w 0 (b_cap b)) | None => 0 end.

  (** the buffer after alloc+initialize: usable words *)
  Definition ready (cap : Z) (b : buf) (w : list Z) : Prop :=
    bwf cap b /\ b_uninit b = false /\ b_bits b = Some w /\ wwf cap w.

  Lemma wwf_zero cap : 0 <= cap -> wwf cap (repeat 0 (Z.to_nat (num_ints_of cap))).
  Proof.
    intros H. pose proof (num_ints_bounds cap H). split; [rewrite zlen_repeat; lia|]. intros k _. apply tb_repeat0.
  Qed.

  Lemma bwf0_new threads cap junk fresh : thok threads -> 0 <= cap ->
    bwf0 cap (@new_buffer T byte threads cap (num_ints_of cap) junk fresh).
  Proof.
    intros [Ht Ht'] Hc. unfold bwf0, new_buffer; simpl. rewrite !zlen_repeat.
    pose proof (num_ints_bounds cap Hc). conjs; try lia.
    destruct (Z.leb_spec (num_ints_of cap) 0); [unfold zlen; simpl; lia|auto].
  Qed.
  Lemma bwf_new threads cap junk fresh : thok threads -> 0 <= cap ->
    bwf cap (@new_buffer T byte threads cap (num_ints_of cap) junk fresh).
  Proof. intros Ht Hc. split; [apply bwf0_new; auto|]. simpl. discriminate. Qed.

  Lemma bwf0_uninit cap (b : buf) u : bwf0 cap b -> bwf0 cap (set_uninit u b).
  Proof. exact (fun H => H). Qed.

  Lemma buf_initialize_spec cap (b : buf) : bwf cap b ->
    exists w, ready cap (buf_initialize (num_ints_of cap) b) w /\
      (forall k, babs (buf_initialize (num_ints_of cap) b) k = babs b k) /\
      (bcount (buf_initialize (num_ints_of cap) b) = bcount b) /\
      b_nnz (buf_initialize (num_ints_of cap) b) = (if b_uninit b then 0 else b_nnz b) /\
      (forall k c, rd (b_value b) k = Ok c -> rd (b_value (buf_initialize (num_ints_of cap) b)) k = Ok c).
  Proof.
    intros [H HU]. pose proof H as (H0 & H1 & H2 & H3 & H4 & H5 & H6 & H7).
    unfold buf_initialize. destruct (b_uninit b) eqn:U.
    - exists (repeat 0 (Z.to_nat (num_ints_of cap))). pose proof (wwf_zero cap H0) as W. split.
      + unfold ready, bwf, bwf0; simpl. conjs; auto; try lia; try (destruct W; auto; fail).
        intros _. eauto.
      + split; [|split; [|split]]; auto.
        * intros k. unfold babs, wabs; simpl. rewrite U, tb_repeat0. reflexivity.
        * unfold bcount; simpl. rewrite U. replace (setbits _ _ _) with (@nil Z); auto.
          symmetry. unfold setbits. induction (zrange 0 (b_cap b)) as [|a l IH]; simpl; auto. rewrite tb_repeat0. auto.
    - destruct (HU eq_refl) as (w & B & W). exists w. split.
      + unfold ready, bwf, bwf0; simpl. rewrite B in *. conjs; eauto; try lia.
      + split; [|split; [|split]]; auto.
        * intros k. unfold babs; simpl. rewrite U, B. reflexivity.
        * unfold bcount; simpl. rewrite U, B. reflexivity.
  Qed.

  Lemma seg_init_spec threads (s : sg) : thok threads -> swf s ->
    exists b w, seg_initialize (seg_alloc threads s) = Ok (set_prop (Some b) s) /\
      ready (s_cap s) b w /\ (forall k, babs b k = sabs s k) /\
      (b_nnz b = match s_prop s with None => 0 | Some b0 => if b_uninit b0 then 0 else b_nnz b0 end) /\
      (bcount b = match s_prop s with None => 0 | Some b0 => bcount b0 end) /\
      b_value b = match s_prop s with None => repeat (s_fresh s) (Z.to_nat (s_cap s)) | Some b0 => b_value b0 end.
  Proof.
    intros Ht (H0 & H1 & H2 & H3 & H4). unfold seg_alloc. destruct (s_prop s) as [b0|] eqn:E.
    - unfold seg_initialize, prop. rewrite E. cbn [bind]. rewrite H1.
      destruct (buf_initialize_spec (s_cap s) b0 H2) as (w & Rw & A & C & N & _).
      do 2 eexists. split; [reflexivity|]. split; [eauto|]. split; [|split; [|split]]; auto.
      + intros k. rewrite A. unfold sabs. rewrite E. reflexivity.
      + unfold buf_initialize. destruct (b_uninit b0); reflexivity.
    - set (b0 := new_buffer threads (s_cap s) (s_nints s) (s_junk s) (s_fresh s)).
      assert (bwf (s_cap s) b0) as W0 by (unfold b0; rewrite H1; apply bwf_new; auto).
      unfold seg_initialize, prop. simpl. rewrite H1.
      destruct (buf_initialize_spec (s_cap s) b0 W0) as (w & Rw & A & C & N & _).
      exists (buf_initialize (num_ints_of (s_cap s)) b0), w. split; [destruct s; simpl in *; reflexivity|].
      split; [auto|]. split; [|split; [|split]].
      + intros k. rewrite A. unfold sabs. rewrite E. reflexivity.
      + reflexivity.
      + rewrite C. reflexivity.
      + reflexivity.
  Qed.

  Lemma prop_set_prop b (s : sg) : prop (set_prop (Some b) s) = Ok b.
  Proof. reflexivity. Qed.
  Lemma set_prop_set_prop a b (s : sg) : set_prop a (set_prop b s) = set_prop a s.
  Proof. reflexivity. Qed.

  Lemma swf_set_prop (s : sg) b : swf s -> bwf (s_cap s) b -> swf (set_prop (Some b) s).
  Proof. unfold swf; simpl. tauto. Qed.

  Lemma ready_change cap b w w' v' n' : ready cap b w -> wwf cap w' -> zlen v' = cap ->
    ready cap (set_uninit false (set_nnz n' (set_bits w' (set_value v' b)))) w'.
  Proof.
    intros ([(B0 & B1 & B2 & B3 & B4 & B5 & B6 & B8) B7] & U & B & W) W' L.
    unfold ready, bwf, bwf0; simpl. conjs; auto; try lia; try (destruct W'; auto; fail). eauto.
  Qed.

  Lemma wabs_ok cap w (v : list (option T)) k : wwf cap w -> zlen v = cap -> tb w k = true -> exists c, rd v k = Ok c /\ wabs w v k = Some c.
  Proof.
    intros [W1 W2] L E. unfold wabs. rewrite E.
    destruct (rd_ok v k) as [c Hc].
    - destruct (Z_lt_dec k (zlen v)); [|rewrite W2 in E by lia; discriminate].
      destruct (Z_le_dec 0 k); [lia|]. rewrite tb_out in E by lia. discriminate.
    - exists c. rewrite Hc. auto.
  Qed.

  (** ** set / unset / setAll / get *)
  Lemma seg_set_spec threads idx c (s : sg) : thok threads -> swf s -> 1 <= idx <= s_cap s ->
    exists s', seg_set threads idx c s = Ok s' /\ swf s' /\ s_cap s' = s_cap s /\
      (forall k, sabs s' k = if k =? idx - 1 then Some c else sabs s k) /\
      (exists b, s_prop s' = Some b /\ b_uninit b = false /\
         b_nnz b = match s_prop s with None => 0 | Some b0 => if b_uninit b0 then 0 else b_nnz b0 end
                   + (match sabs s (idx-1) with Some _ => 0 | None => 1 end)).
  Proof.
    intros Ht W Hi. destruct (seg_init_spec threads s Ht W) as (b & w & E & Rd & A & N & C & V).
    unfold seg_set. rewrite E; cbn [bind]. rewrite prop_set_prop; cbn [bind].
    destruct Rd as (Bw & U & Bb & Ww). unfold words. rewrite Bb; cbn [bind].
    pose proof Bw as [(B0 & B1 & B2 & B3 & B4 & B5 & B6 & B8) B7].
    pose proof (num_ints_bounds (s_cap s) B0) as NB. pose proof Ww as [W1 W2].
    rewrite bv_get_ok by (rewrite W1; lia). cbn [bind].
    set (bb := if tb w (idx - 1) then b else set_nnz (b_nnz b + 1) b).
    assert (b_value bb = b_value b) as Vb by (unfold bb; destruct (tb w (idx-1)); reflexivity).
    rewrite Vb. rewrite wr_ok by lia. cbn [bind].
    destruct (bv_set_ok w (idx - 1)) as (w' & Ew & L' & T' & _); [rewrite W1; lia|]. rewrite Ew; cbn [bind].
    eexists. split; [reflexivity|].
    assert (wwf (s_cap s) w') as Ww'.
    { split; [lia|]. intros k Hk. rewrite T'. rewrite W2 by auto. destruct (Z.eqb_spec k (idx-1)); [lia|auto]. }
    set (v' := upd (b_value b) (Z.to_nat (idx - 1)) c).
    assert (ready (s_cap s) (set_uninit false (set_bits w' (set_value v' bb))) w') as R'.
    { assert (set_uninit false (set_bits w' (set_value v' bb)) =
              set_uninit false (set_nnz (b_nnz bb) (set_bits w' (set_value v' b)))) as ->.
      { unfold bb. destruct (tb w (idx-1)); destruct b; reflexivity. }
      eapply ready_change; eauto; [unfold ready; eauto|]. unfold v'. rewrite zlen_upd. auto. }
    split; [|split; [reflexivity|split]].
    - rewrite set_prop_set_prop. apply swf_set_prop; auto. apply R'.
    - intros k. rewrite set_prop_set_prop. unfold sabs at 1. simpl. unfold babs; simpl. unfold wabs. rewrite T'.
      destruct (Z.eqb_spec k (idx-1)) as [->|Nk]; simpl.
      + unfold v'. rewrite rd_upd_same by lia. reflexivity.
      + rewrite <- A. unfold babs. rewrite U, Bb. unfold wabs. unfold v'.
        rewrite rd_upd_other by lia. reflexivity.
    - eexists. split; [reflexivity|]. simpl. split; auto.
      rewrite <- A. unfold babs; rewrite U, Bb. unfold bb.
      destruct (tb w (idx-1)) eqn:Q.
      + destruct (wabs_ok (s_cap s) w (b_value b) (idx-1) Ww B3 Q) as (c' & _ & ->). lia.
      + unfold wabs. rewrite Q. simpl. lia.
  Qed.

  Lemma seg_unset_spec threads idx (s : sg) : thok threads -> swf s -> 1 <= idx <= s_cap s ->
    exists s', seg_unset threads idx s = Ok s' /\ swf s' /\ s_cap s' = s_cap s /\
      (forall k, sabs s' k = if k =? idx - 1 then None else sabs s k) /\
      (exists b, s_prop s' = Some b /\ b_uninit b = false /\
         b_nnz b = match s_prop s with None => 0 | Some b0 => if b_uninit b0 then 0 else b_nnz b0 end
                   - (match sabs s (idx-1) with Some _ => 1 | None => 0 end)).
  Proof.
    intros Ht W Hi. destruct (seg_init_spec threads s Ht W) as (b & w & E & Rd & A & N & C & V).
    unfold seg_unset. rewrite E; cbn [bind]. rewrite prop_set_prop; cbn [bind].
    destruct Rd as (Bw & U & Bb & Ww). unfold words. rewrite Bb; cbn [bind].
    pose proof Bw as [(B0 & B1 & B2 & B3 & B4 & B5 & B6 & B8) B7].
    pose proof (num_ints_bounds (s_cap s) B0) as NB. pose proof Ww as [W1 W2].
    rewrite bv_get_ok by (rewrite W1; lia). cbn [bind].
    set (bb := if tb w (idx - 1) then set_nnz (b_nnz b - 1) b else b).
    destruct (bv_clear_ok w (idx - 1)) as (w' & Ew & L' & T'); [rewrite W1; lia|]. rewrite Ew; cbn [bind].
    eexists. split; [reflexivity|].
    assert (wwf (s_cap s) w') as Ww'.
    { split; [lia|]. intros k Hk. rewrite T'. rewrite W2 by auto. apply andb_false_r. }
    assert (ready (s_cap s) (set_uninit false (set_bits w' bb)) w') as R'.
    { assert (set_uninit false (set_bits w' bb) =
              set_uninit false (set_nnz (b_nnz bb) (set_bits w' (set_value (b_value b) b)))) as ->.
      { unfold bb. destruct (tb w (idx-1)); destruct b; reflexivity. }
      eapply ready_change; eauto. unfold ready; eauto. }
    split; [|split; [reflexivity|split]].
    - rewrite set_prop_set_prop. apply swf_set_prop; auto. apply R'.
    - intros k. rewrite set_prop_set_prop. unfold sabs at 1. simpl. unfold babs; simpl. unfold wabs. rewrite T'.
      destruct (Z.eqb_spec k (idx-1)) as [->|Nk]; simpl; auto.
      rewrite <- A. unfold babs. rewrite U, Bb. unfold wabs.
      assert (b_value bb = b_value b) as -> by (unfold bb; destruct (tb w (idx-1)); reflexivity). reflexivity.
    - eexists. split; [reflexivity|]. simpl. split; auto.
      rewrite <- A. unfold babs; rewrite U, Bb. unfold bb.
      destruct (tb w (idx-1)) eqn:Q.
      + destruct (wabs_ok (s_cap s) w (b_value b) (idx-1) Ww B3 Q) as (c' & _ & ->). simpl. lia.
      + unfold wabs. rewrite Q. simpl. lia.
  Qed.

  (** filling loops *)
  Lemma bv_set_range lo hi w : 0 <= lo <= hi -> hi <= 32 * zlen w ->
    exists w', forZ lo hi (fun i w => bv_set w i) w = Ok w' /\ zlen w' = zlen w /\
      (forall k, tb w' k = ((lo <=? k) && (k <? hi)) || tb w k).
  Proof.
    intros H H'. destruct (forZ_inv (fun i w' => zlen w' = zlen w /\ forall k, tb w' k = ((lo <=? k) && (k <? i)) || tb w k)
       lo hi (fun i w => bv_set w i) w) as (w' & E & L & T'); eauto.
    - lia.
    - split; auto. intros k. destruct (Z.leb_spec lo k); destruct (Z.ltb_spec k lo); auto; lia.
    - intros i w0 Hi [L T0]. destruct (bv_set_ok w0 i) as (w1 & E & L1 & T1 & _); [lia|].
      exists w1. split; auto. split; [lia|]. intros k. rewrite T1, T0.
      destruct (Z.eqb_spec k i); destruct (Z.leb_spec lo k); destruct (Z.ltb_spec k i); destruct (Z.ltb_spec k (i+1));
        simpl; auto; lia.
  Qed.

  Lemma fill_value (v : list (option T)) (c : option T) n : 0 <= n <= zlen v ->
    exists v', forZ 0 n (fun i v => wr v i c) v = Ok v' /\ zlen v' = zlen v /\
      (forall k, rd v' k = if (0 <=? k) && (k <? n) then Ok c else rd v k).
  Proof.
    intros H. destruct (forZ_inv (fun i v' => zlen v' = zlen v /\ forall k, rd v' k = if (0 <=? k) && (k <? i) then Ok c else rd v k)
       0 n (fun i v => wr v i c) v) as (v' & E & L & T'); eauto.
    - lia.
    - split; auto. intros k. destruct (Z.leb_spec 0 k); destruct (Z.ltb_spec k 0); auto; lia.
    - intros i v0 Hi [L T0]. rewrite wr_ok by lia. eexists; split; [reflexivity|]. rewrite zlen_upd. split; auto.
      intros k. destruct (Z.eq_dec i k) as [->|N].
      + rewrite rd_upd_same by lia. destruct (Z.leb_spec 0 k); destruct (Z.ltb_spec k (k+1)); simpl; auto; lia.
      + rewrite rd_upd_other by lia. rewrite T0.
        destruct (Z.leb_spec 0 k); destruct (Z.ltb_spec k i); destruct (Z.ltb_spec k (i+1)); simpl; auto; lia.
  Qed.

  Lemma tb_ones n k : 0 <= k < 32 * Z.of_nat n -> tb (repeat (2^32-1) n) k = true.
  Proof.
    intros H. destruct (tb_rd (repeat (2^32-1) n) k) as (w & Hw & ->); [rewrite zlen_repeat; lia|].
    apply rd_In in Hw. apply repeat_spec in Hw. subst w. change (2^32-1) with (Z.ones 32).
    apply Z.ones_spec_low. lia.
  Qed.

  Lemma tb_app1 w w' k : 0 <= k < 32 * zlen w -> tb (w ++ w') k = tb w k.
  Proof.
    intros H. unfold tb, bv_get. rewrite shiftr5. rewrite rd_app1 by lia. reflexivity.
  Qed.
  Lemma tb_app2 w w' k : 32 * zlen w <= k -> tb (w ++ w') k = tb w' (k - 32 * zlen w).
  Proof.
    intros H. unfold tb, bv_get. rewrite !shiftr5, !land31. rewrite rd_app2 by lia.
    replace ((k - 32 * zlen w) / 32) with (k / 32 - zlen w) by lia.
    replace ((k - 32 * zlen w) mod 32) with (k mod 32) by lia. reflexivity.
  Qed.

  Lemma seg_alloc_spec threads (s : sg) : thok threads -> swf s ->
    exists b, seg_alloc threads s = set_prop (Some b) s /\ bwf (s_cap s) b /\
      b = match s_prop s with Some b => b | None => new_buffer threads (s_cap s) (s_nints s) (s_junk s) (s_fresh s) end.
  Proof.
    intros Ht (H0 & H1 & H2 & H3 & H4). unfold seg_alloc. destruct (s_prop s) as [b|] eqn:E.
    - exists b. split; auto. destruct s; simpl in *; subst; reflexivity.
    - eexists. split; [reflexivity|]. split; auto. rewrite H1. apply bwf_new; auto.
  Qed.

  Lemma seg_setAll_spec threads c (s : sg) : thok threads -> swf s ->
    exists s', seg_setAll threads c s = Ok s' /\ swf s' /\ s_cap s' = s_cap s /\
      (forall k, sabs s' k = if (0 <=? k) && (k <? s_cap s) then Some c else None) /\
      (exists b, s_prop s' = Some b /\ b_uninit b = false /\ (0 < s_cap s -> b_nnz b = s_cap s)).
  Proof.
    intros Ht W. destruct (seg_alloc_spec threads s Ht W) as (b & E & Bw & Eb).
    pose proof W as (H0 & H1 & H2 & H3 & H4).
    pose proof (num_ints_bounds (s_cap s) H0) as NB.
    pose proof Bw as [(B0 & B1 & B2 & B3 & B4 & B5 & B6 & B8) B7].
    unfold seg_setAll. rewrite E. rewrite prop_set_prop. cbn [bind]. cbn [set_prop s_nints s_cap].
    destruct (Z.eqb_spec (s_nints s) 0) as [Z0|NZ].
    - assert (s_cap s = 0) as C0 by lia.
      destruct (b_bits b) as [w|] eqn:Bb; [|lia].
      assert (wwf (s_cap s) w) as Ww.
      { split; auto. intros k Hk. apply tb_out. lia. }
      assert (bwf (s_cap s) (set_uninit false b)) as Bw'.
      { unfold bwf, bwf0; simpl. rewrite Bb. conjs; auto; try lia. eauto. }
      eexists. split; [reflexivity|]. split; [rewrite set_prop_set_prop; apply swf_set_prop; auto|].
      split; [reflexivity|]. split.
      + intros k. unfold sabs, babs; simpl. rewrite Bb. unfold wabs.
        rewrite tb_out by lia. destruct (Z.leb_spec 0 k); destruct (Z.ltb_spec k (s_cap s)); simpl; auto; lia.
      + eexists; split; [reflexivity|]. simpl. split; auto. lia.
    - set (w0 := repeat (2^32-1) (Z.to_nat (s_nints s - 1)) ++ [0]).
      assert (zlen w0 = s_nints s) as L0.
      { unfold w0. rewrite zlen_app, zlen_repeat. unfold zlen; simpl. lia. }
      destruct (bv_set_range (Z.max 0 (s_cap s - 32)) (s_cap s) w0) as (w & Ew & Lw & Tw); [lia|lia|].
      rewrite Ew; cbn [bind]. cbn [set_nnz set_bits set_uninit b_value].
      destruct (fill_value (b_value b) c (s_cap s)) as (v & Ev & Lv & Tv); [lia|]. rewrite Ev; cbn [bind].
      assert (forall k, tb w k = (0 <=? k) && (k <? s_cap s)) as TT.
      { intros k. rewrite Tw. unfold w0.
        destruct (Z.leb_spec 0 k); simpl.
        - destruct (Z_lt_dec k (32 * (s_nints s - 1))).
          + rewrite tb_app1 by (rewrite zlen_repeat; lia). rewrite tb_ones by lia. rewrite orb_true_r.
            destruct (Z.ltb_spec k (s_cap s)); auto; lia.
          + rewrite tb_app2 by (rewrite zlen_repeat; lia). change [0] with (repeat 0 1). rewrite tb_repeat0, orb_false_r.
            destruct (Z.leb_spec (Z.max 0 (s_cap s - 32)) k); simpl; auto; lia.
        - rewrite tb_out by (fold w0; lia). rewrite orb_false_r. destruct (Z.leb_spec (Z.max 0 (s_cap s - 32)) k); simpl; auto; lia. }
      assert (wwf (s_cap s) w) as Ww.
      { split; [lia|]. intros k Hk. rewrite TT. destruct (Z.leb_spec 0 k); destruct (Z.ltb_spec k (s_cap s)); simpl; auto; lia. }
      eexists. split; [reflexivity|]. split.
      { rewrite set_prop_set_prop; apply swf_set_prop; auto. unfold bwf, bwf0; simpl.
        conjs; auto; try lia. eauto. }
      split; [reflexivity|]. split.
      + intros k. unfold sabs, babs; simpl. unfold wabs. rewrite TT, Tv.
        destruct ((0 <=? k) && (k <? s_cap s)); auto.
      + eexists; split; [reflexivity|]. simpl. split; auto.
  Qed.

  Lemma seg_get_spec idx (s : sg) b : swf s -> s_prop s = Some b -> b_uninit b = false -> 1 <= idx <= s_cap s ->
    exists c, seg_get idx s = Ok c /\ rd (b_value b) (idx - 1) = Ok c /\
       (sabs s (idx - 1) = None \/ sabs s (idx - 1) = Some c).
  Proof.
    intros W Eb U Hi. pose proof W as (H0 & H1 & H2 & _). rewrite Eb in H2.
    pose proof H2 as [(B0 & B1 & B2 & B3 & B4 & B5 & B6 & B8) B7].
    unfold seg_get. rewrite Eb, U. simpl. destruct (rd_ok (b_value b) (idx-1)) as [c Hc]; [lia|].
    exists c. rewrite Hc. split; auto. split; auto. unfold sabs, babs. rewrite Eb, U.
    destruct (b_bits b) as [w|]; auto. unfold wabs. rewrite Hc. destruct (tb w (idx-1)); auto.
  Qed.

  Lemma seg_compute_nnz_spec (s : sg) : swf s ->
    seg_compute_nnz s = Ok (match s_prop s with None => 0 | Some b => bcount b end).
  Proof.
    intros (H0 & H1 & H2 & _). unfold seg_compute_nnz, bcount. destruct (s_prop s) as [b|]; auto.
    pose proof H2 as [(B0 & B1 & B2 & B3 & B4 & B5 & B6 & B8) B7].
    destruct (b_uninit b) eqn:U; auto. unfold buf_compute_nnz, words.
    destruct (B7 eq_refl) as (w & Bb & W1 & W2). rewrite Bb. cbn [bind]. pose proof (num_ints_bounds (s_cap s) B0).
    rewrite bv_count_ok by lia. do 2 f_equal. rewrite B1. apply setbits_tail; auto. lia.
  Qed.

  Lemma seg_set_uninitialized_spec (s : sg) : swf s ->
    swf (seg_set_uninitialized s) /\ (forall k, sabs (seg_set_uninitialized s) k = None) /\
    s_cap (seg_set_uninitialized s) = s_cap s /\
    (forall b, s_prop (seg_set_uninitialized s) = Some b -> b_uninit b = true /\ b_nnz b = 0) /\
    s_recv (seg_set_uninitialized s) = [].
  Proof.
    intros (H0 & H1 & H2 & H3 & H4). unfold seg_set_uninitialized, seg_set_uninitialized_received.
    assert (Forall (bwf0 (s_cap s)) (s_pool s ++ map (set_uninit true) (s_recv s))) as FP.
    { apply Forall_app. split; auto. apply Forall_forall. intros b Hb. apply in_map_iff in Hb as (b0 & <- & Hb).
      rewrite Forall_forall in H3. apply bwf0_uninit; auto. }
    unfold swf, sabs; simpl. destruct (s_prop s) as [b|] eqn:E; simpl.
    - assert (bwf (s_cap s) (set_nnz 0 (set_uninit true b))) as B'.
      { destruct H2 as [B _]. split; [exact B|]. simpl. discriminate. }
      conjs; auto. intros b0 Hb0. injection Hb0 as <-. auto.
    - conjs; auto; try (rewrite E; auto); intros b Hb; congruence.
  Qed.
End WF.
