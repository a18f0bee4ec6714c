(** Compression, transfer and decompression of a segment. *)
From Verif Require Import BaseLemmas Bits BitsProofs Segment SegmentProofs.
Global Arguments Z.mul : simpl never.

(** ** arrays that begin with a known sequence *)
Definition starts {A} (l ls : list A) : Prop := exists r, l = ls ++ r.

Lemma starts_nil {A} (l : list A) : starts l [].
Proof. exists l. reflexivity. Qed.
Lemma starts_rd {A} (l ls : list A) i : starts l ls -> 0 <= i < zlen ls -> rd l i = rd ls i.
Proof. intros [r ->] H. apply rd_app1. auto. Qed.
Lemma starts_snoc {A} (l ls : list A) a : starts l ls -> zlen ls < zlen l ->
  starts (upd l (Z.to_nat (zlen ls)) a) (ls ++ [a]).
Proof.
  intros [r ->] H. rewrite zlen_app in H. unfold zlen. rewrite Nat2Z.id. destruct r as [|x r].
  { unfold zlen in H. simpl in H. lia. }
  exists r. induction ls as [|h t IH]; simpl; auto. rewrite IH; auto. unfold zlen in *. simpl in *. lia.
Qed.
Lemma starts_send {A} (l ls : list A) n : starts l ls -> n = zlen ls -> send_from l n = Ok ls.
Proof.
  intros [r ->] ->. unfold send_from. rewrite zlen_app. pose proof (zlen_nonneg ls). pose proof (zlen_nonneg r).
  destruct (Z.ltb_spec (zlen ls) 0); [lia|]. destruct (Z.ltb_spec (zlen ls + zlen r) (zlen ls)); [lia|]. simpl.
  unfold zlen. rewrite Nat2Z.id. rewrite firstn_app, Nat.sub_diag, firstn_all, firstn_O, app_nil_r. reflexivity.
Qed.
Lemma starts_recv {A} (dst src : list A) n : zlen src = n -> n <= zlen dst ->
  exists dst', recv_into dst n src = Ok dst' /\ starts dst' src /\ zlen dst' = zlen dst.
Proof.
  intros H H'. unfold recv_into. destruct (Z.ltb_spec n (zlen src)); [lia|]. destruct (Z.ltb_spec (zlen dst) n); [lia|]. simpl.
  eexists. split; [reflexivity|]. split; [eexists; reflexivity|]. unfold zlen in *. rewrite app_length, skipn_length. lia.
Qed.
Lemma starts_full {A} (l ls : list A) : starts l ls -> zlen l = zlen ls -> l = ls.
Proof. intros [r ->] H. rewrite zlen_app in H. destruct r; [apply app_nil_r|]. unfold zlen in H. simpl in H. lia. Qed.

(** ** set bits: order and counts *)
Definition incr (ks : list Z) : Prop := forall a b x y, a < b -> rd ks a = Ok x -> rd ks b = Ok y -> x < y.

Lemma incr_snoc ks k : incr ks -> (forall x, In x ks -> x < k) -> incr (ks ++ [k]).
Proof.
  intros H H' a b x y Hab Ha Hb. pose proof (rd_bounds _ _ _ Ha). pose proof (rd_bounds _ _ _ Hb) as Hb'.
  rewrite zlen_app in Hb'. unfold zlen at 2 in Hb'; simpl in Hb'.
  rewrite rd_app1 in Ha by lia. destruct (Z.eq_dec b (zlen ks)) as [->|N].
  - rewrite rd_app2, Z.sub_diag, rd_cons0 in Hb by lia. injection Hb as <-. apply H'. apply rd_In in Ha. auto.
  - rewrite rd_app1 in Hb by lia. exact (H a b x y Hab Ha Hb).
Qed.

Lemma setbits_step w i : 0 <= i -> setbits w 0 (i+1) = setbits w 0 i ++ (if tb w i then [i] else []).
Proof.
  intros H. rewrite (setbits_app w 0 i (i+1)) by lia. f_equal. unfold setbits.
  rewrite zrange_cons by lia. rewrite zrange_nil by lia. reflexivity.
Qed.

Lemma incr_setbits w hi : incr (setbits w 0 hi).
Proof.
  destruct (Z_le_dec hi 0); [rewrite setbits_nil by lia; intros a b x y _ Ha; apply rd_bounds in Ha; unfold zlen in Ha; simpl in Ha; lia|].
  replace hi with (Z.of_nat (Z.to_nat hi)) by lia. generalize (Z.to_nat hi) as m. clear.
  induction m as [|m IH]; [intros a b x y _ Ha; apply rd_bounds in Ha; unfold zlen in Ha; simpl in Ha; lia|].
  replace (Z.of_nat (S m)) with (Z.of_nat m + 1) by lia. rewrite setbits_step by lia.
  destruct (tb w (Z.of_nat m)); [|rewrite app_nil_r; auto].
  apply incr_snoc; auto. intros x Hx. apply in_setbits in Hx. lia.
Qed.

Lemma zlen_setbits_le w hi : 0 <= hi -> zlen (setbits w 0 hi) <= hi.
Proof.
  intros H. unfold setbits, zlen. pose proof (zlen_zrange 0 hi H) as E. unfold zlen in E.
  assert (forall (l : list Z), (length (filter (tb w) l) <= length l)%nat) as F.
  { induction l as [|a l IH]; simpl; [lia|]. destruct (tb w a); simpl; lia. }
  specialize (F (zrange 0 hi)). lia.
Qed.

(** ** the partition of the words used when compressing *)
Section Parts.
  Variables nints np : Z.
  Hypothesis Hn : 0 <= nints.
  Hypothesis Hp : 1 <= np.
  Let per := part_per nints np.
  Definition bd (p : Z) : Z := Z.min nints (part_per nints np * p).
  Lemma part_per_eq : part_per nints np = (nints + np - 1) / np.
  Proof. unfold part_per. rewrite quot_div; lia. Qed.
  Lemma part_per_bounds : 0 <= part_per nints np /\ nints <= part_per nints np * np.
  Proof. rewrite part_per_eq. split; [apply Z.div_pos; lia|]. pose proof (Z.div_mod (nints+np-1) np). pose proof (Z.mod_pos_bound (nints+np-1) np). nia. Qed.
  Lemma bd_0 : bd 0 = 0. Proof. unfold bd. lia. Qed.
  Lemma bd_np : bd np = nints. Proof. unfold bd. pose proof part_per_bounds. lia. Qed.
  Lemma bd_mono p q : 0 <= p -> p <= q -> 0 <= bd p /\ bd p <= bd q /\ bd q <= nints.
  Proof. unfold bd. pose proof part_per_bounds. nia. Qed.
  Lemma part_end_bd p : 0 <= p -> part_end nints np p = bd (p+1).
  Proof. intros H. unfold part_end, bd. destruct (Z.ltb_spec nints (part_per nints np * (p+1))); lia. Qed.
  (** an empty part either way, or exactly the words between two bounds *)
  Lemma part_start_bd p : 0 <= p -> part_start nints np p = bd p \/ (part_end nints np p <= part_start nints np p /\ bd p = nints /\ bd (p+1) = nints).
  Proof.
    intros H. rewrite part_end_bd by lia. unfold part_start, bd. pose proof part_per_bounds.
    destruct (Z_le_dec (part_per nints np * p) nints); [left; lia|right]. nia.
  Qed.
  Lemma setbits_part w p : 0 <= p -> setbits w (32 * part_start nints np p) (32 * part_end nints np p) = setbits w (32 * bd p) (32 * bd (p+1)).
  Proof.
    intros H. destruct (part_start_bd p H) as [-> | (E & -> & ->)]; [rewrite part_end_bd by lia; reflexivity|].
    rewrite !setbits_nil by lia. reflexivity.
  Qed.
  Lemma concat_parts w n : 0 <= n <= np ->
    concat (map (fun p => setbits w (32 * bd p) (32 * bd (p+1))) (zrange 0 n)) = setbits w 0 (32 * bd n).
  Proof.
    intros H. replace n with (Z.of_nat (Z.to_nat n)) in * by lia. revert H. generalize (Z.to_nat n) as m. induction m as [|m IH]; intros H.
    - change (Z.of_nat 0) with 0. rewrite bd_0. rewrite !setbits_nil by lia. reflexivity.
    - replace (Z.of_nat (S m)) with (Z.of_nat m + 1) in * by lia. rewrite zrange_snoc by lia.
      rewrite map_app, concat_app, IH by lia. cbn [map concat]. rewrite app_nil_r.
      pose proof (bd_mono (Z.of_nat m) (Z.of_nat m + 1) ltac:(lia) ltac:(lia)). symmetry. apply setbits_app. lia.
  Qed.
End Parts.

Lemma prefix_sums_rd l a i : 0 <= i <= zlen l -> rd (prefix_sums a l) i = Ok (a + fold_left Z.add (firstn (Z.to_nat i) l) 0).
Proof.
  revert a i. induction l as [|x t IH]; intros a i H.
  - unfold zlen in H; simpl in H. replace i with 0 by lia. simpl. rewrite rd_cons0. f_equal. lia.
  - rewrite zlen_cons in H. cbn [prefix_sums]. destruct (Z.eq_dec i 0) as [->|N].
    + rewrite rd_cons0. simpl. f_equal. lia.
    + rewrite rd_consS by lia. rewrite IH by lia. f_equal.
      replace (Z.to_nat i) with (S (Z.to_nat (i - 1))) by lia. cbn [firstn fold_left].
      assert (forall (l : list Z) s, fold_left Z.add l s = s + fold_left Z.add l 0) as F.
      { clear. induction l as [|y l IH]; intros s; simpl; [lia|]. rewrite IH, (IH y). lia. }
      rewrite (F _ (0 + x)). lia.
Qed.
Lemma zlen_prefix_sums l a : zlen (prefix_sums a l) = zlen l + 1.
Proof. revert a; induction l as [|x t IH]; intros a; cbn [prefix_sums]; [reflexivity|]. rewrite !zlen_cons, IH. lia. Qed.
Lemma sum_zlen_concat {A} (ls : list (list A)) : fold_left Z.add (map zlen ls) 0 = zlen (concat ls).
Proof.
  induction ls as [|l t IH]; simpl; auto. rewrite zlen_app.
  assert (forall (l : list Z) s, fold_left Z.add l s = s + fold_left Z.add l 0) as F.
  { clear. induction l as [|y l IH]; intros s; simpl; [lia|]. rewrite IH, (IH y). lia. }
  rewrite F, IH. lia.
Qed.

Section TR.
  Context {T byte : Type}.
  Notation buf := (buffer T byte).
  Notation sg := (seg T byte).

  (** ** association lists of stores *)
  Definition massoc (es : list (Z * option T)) (k : Z) : option (option T) :=
    fold_left (fun acc e => if fst e =? k then Some (snd e) else acc) es None.
  Lemma massoc_snoc es e k : massoc (es ++ [e]) k = if fst e =? k then Some (snd e) else massoc es k.
  Proof. unfold massoc. rewrite fold_left_app. reflexivity. Qed.

  Definition cell (v : list (option T)) (k : Z) : option T := match rd v k with Ok c => c | Err _ => None end.
  Definition pairs_of (v : list (option T)) (ks : list Z) : list (Z * option T) := map (fun k => (k, cell v k)) ks.

  Lemma massoc_pairs v ks k : massoc (pairs_of v ks) k = if existsb (Z.eqb k) ks then Some (cell v k) else None.
  Proof.
    unfold pairs_of. induction ks as [|x l IH] using rev_ind; [reflexivity|]. rewrite map_app. simpl map. rewrite massoc_snoc. simpl fst. simpl snd.
    rewrite existsb_app. simpl. rewrite orb_false_r, IH. rewrite (Z.eqb_sym x k). destruct (Z.eqb_spec k x) as [->|N].
    - rewrite orb_true_r. reflexivity.
    - rewrite orb_false_r. reflexivity.
  Qed.

  Lemma massoc_setbits cap w v k : wwf cap w -> zlen v = cap -> 0 <= cap ->
    massoc (pairs_of v (setbits w 0 cap)) k = wabs w v k.
  Proof.
    intros W L C. rewrite massoc_pairs. unfold wabs. destruct (tb w k) eqn:E.
    - destruct (wabs_ok cap w v k W L E) as (c & Hc & _).
      replace (existsb (Z.eqb k) (setbits w 0 cap)) with true.
      + unfold cell. rewrite Hc. reflexivity.
      + symmetry. apply existsb_exists. exists k. split; [|apply Z.eqb_refl]. apply in_setbits. apply rd_bounds in Hc. split; auto. lia.
    - replace (existsb (Z.eqb k) (setbits w 0 cap)) with false; auto. symmetry.
      apply not_true_iff_false. intros H. apply existsb_exists in H as (x & Hx & Ex). apply Z.eqb_eq in Ex. subst x.
      apply in_setbits in Hx. destruct Hx; congruence.
  Qed.

  (** storing one element *)
  Lemma store1 cap w (v : list (option T)) idx c : wwf cap w -> zlen v = cap -> 0 <= idx < cap -> 
    exists w' v', bv_set w idx = Ok w' /\ wr v idx c = Ok v' /\ wwf cap w' /\ zlen v' = cap /\
      (forall k, wabs w' v' k = if idx =? k then Some c else wabs w v k) /\
      (forall j, j <> idx / 32 -> rd w' j = rd w j) /\ (forall k, k <> idx -> rd v' k = rd v k).
  Proof.
    intros [W1 W2] L H. pose proof (num_ints_bounds cap ltac:(lia)) as NB.
    destruct (bv_set_ok w idx) as (w' & E & L' & T' & O'); [lia|].
    exists w', (upd v (Z.to_nat idx) c). rewrite wr_ok by lia. conjs; auto; try lia; try (rewrite zlen_upd; auto).
    - split; [lia|]. intros k Hk. rewrite T', W2 by auto. destruct (Z.eqb_spec k idx); [lia|auto].
    - intros k. unfold wabs. rewrite T'. rewrite (Z.eqb_sym idx k). destruct (Z.eqb_spec k idx) as [->|N]; simpl.
      + rewrite rd_upd_same by lia. reflexivity.
      + rewrite rd_upd_other by lia. reflexivity.
    - intros k Hk. apply rd_upd_other; lia.
  Qed.

  (** ** compress *)
  Definition Einv cap w (value : list (option T)) (i : Z) (st : list (option T) * list (option Z) * Z) : Prop :=
    let '(d, x, c) := st in
    c = zlen (setbits w 0 i) /\ zlen d = cap /\ zlen x = cap /\
    starts x (map Some (setbits w 0 i)) /\ starts d (map (cell value) (setbits w 0 i)).

  Lemma emit_words_spec cap w value s e st : wwf cap w -> zlen value = cap -> 0 <= cap -> 0 <= s <= e -> e <= num_ints_of cap ->
    Einv cap w value (32*s) st -> exists st', emit_words w value s e st = Ok st' /\ Einv cap w value (32*e) st'.
  Proof.
    intros [W1 W2] L C Hs He HI. unfold emit_words.
    destruct (forZ_inv (fun ii st => Einv cap w value (32*ii) st) s e
      (fun ii st =>
      do wd <- rd w ii ;;
      if popcnt32 wd =? 0 then Ok st else
      forZ (ii * 32) ((ii + 1) * 32) (fun i st =>
        do g <- bv_get w i ;;
        if g then
          let '(d, x, c) := st in
          do val <- rd value i ;;
          do d' <- wr d c val ;;
          do x' <- wr x c (Some i) ;;
          Ok (d', x', c + 1)
        else Ok st) st) st) as (st' & E' & I'); eauto; [lia|].
    intros ii st0 Hii I0. destruct (rd_ok w ii) as [wd Hwd]; [lia|]. rewrite Hwd. cbn [bind].
    destruct (Z.eqb_spec (popcnt32 wd) 0) as [P0|P0].
    - exists st0. split; auto. rewrite (popcnt_setbits w ii wd Hwd) in P0.
      destruct st0 as [[d x] c]. unfold Einv in *. replace (32 * (ii+1)) with (32*ii+32) by lia.
      assert (setbits w 0 (32*ii+32) = setbits w 0 (32*ii)) as ->; auto.
      rewrite (setbits_app w 0 (32*ii) (32*ii+32)) by lia.
      destruct (setbits w (32*ii) (32*ii+32)); [apply app_nil_r|]. rewrite zlen_cons in P0. pose proof (zlen_nonneg l). lia.
    - rewrite (Z.mul_comm ii 32), (Z.mul_comm (ii+1) 32).
      match goal with |- exists s', forZ ?lo ?hi ?f ?s = _ /\ _ => destruct (forZ_inv (fun i st => Einv cap w value i st) lo hi f s) as (st1 & E1 & I1) end; eauto; [lia|].
      intros i [[d x] c] Hi (Ec & Ld & Lx & Sx & Sd). rewrite bv_get_ok by lia. cbn [bind].
      destruct (tb w i) eqn:Ti.
      + assert (i < cap) by (destruct (Z_lt_dec i cap); auto; rewrite W2 in Ti by lia; discriminate).
        destruct (rd_ok value i) as [cv Hcv]; [lia|]. rewrite Hcv. cbn [bind].
        pose proof (zlen_setbits_le w i ltac:(lia)). pose proof (zlen_nonneg (setbits w 0 i)).
        rewrite wr_ok by lia. cbn [bind]. rewrite wr_ok by lia. cbn [bind]. eexists. split; [reflexivity|].
        unfold Einv. rewrite setbits_step by lia. rewrite Ti. rewrite zlen_app, !map_app, !zlen_upd.
        simpl map. conjs; auto.
        * rewrite Ec. unfold zlen at 3. simpl. lia.
        * rewrite Ec. rewrite <- (zlen_map Some (setbits w 0 i)). apply starts_snoc; auto. rewrite zlen_map. lia.
        * rewrite Ec. rewrite <- (zlen_map (cell value) (setbits w 0 i)). 
          replace (cell value i) with cv by (unfold cell; rewrite Hcv; reflexivity).
          apply starts_snoc; auto. rewrite zlen_map. lia.
      + eexists. split; [reflexivity|]. unfold Einv. rewrite setbits_step by lia. rewrite Ti, app_nil_r. auto.
  Qed.

  Lemma forZ_zrange_firstn {A} (g : Z -> A) np p : 0 <= p <= np -> firstn (Z.to_nat p) (map g (zrange 0 np)) = map g (zrange 0 p).
  Proof.
    intros H. rewrite (zrange_app 0 p np) by lia. rewrite map_app.
    assert (length (map g (zrange 0 p)) = Z.to_nat p) as L.
    { rewrite map_length. pose proof (zlen_zrange 0 p ltac:(lia)) as Z0. unfold zlen in Z0. lia. }
    rewrite <- L at 1. rewrite firstn_app, Nat.sub_diag, firstn_all, firstn_O, app_nil_r. reflexivity.
  Qed.

  Lemma buf_compress_plain_spec ser thr threads cap (b : buf) w : 1 <= threads -> ready ser thr cap b w ->
    exists b', buf_compress_plain threads b = Ok b' /\ ready ser thr cap b' w /\ b_value b' = b_value b /\
      b_nnz b' = zlen (setbits w 0 cap) /\
      starts (b_cidx b') (map Some (setbits w 0 cap)) /\ starts (b_cdata b') (map (cell (b_value b)) (setbits w 0 cap)).
  Proof.
    intros Ht Rd. pose proof Rd as ([(B0 & B1 & B2 & B3 & B4 & B5 & B6 & B8) B7] & U & Bb & Ww).
    pose proof (num_ints_bounds cap B0) as NB. pose proof Ww as [W1 W2].
    unfold buf_compress_plain, words. rewrite Bb, B2. cbn [bind].
    set (np := threads * 16). set (n := num_ints_of cap) in *.
    assert (1 <= np) as Hnp by (unfold np; lia).
    rewrite (mapR_map _ (fun p => zlen (setbits w (32 * bd n np p) (32 * bd n np (p+1))))).
    2: { intros p Hp. apply in_zrange in Hp. destruct (part_start_bd n np ltac:(lia) Hnp p ltac:(lia)) as [E | (E & E1 & E2)].
         - rewrite E, part_end_bd by lia. pose proof (bd_mono n np ltac:(lia) Hnp p (p+1) ltac:(lia) ltac:(lia)). rewrite bv_count_ok; auto; lia.
         - rewrite bv_count_empty by auto. rewrite E1, E2, setbits_nil by lia. reflexivity. }
    cbn [bind].
    set (counts := map (fun p : Z => zlen (setbits w (32 * bd n np p) (32 * bd n np (p + 1)))) (zrange 0 np)).
    assert (forall p, 0 <= p <= np -> fold_left Z.add (firstn (Z.to_nat p) counts) 0 = zlen (setbits w 0 (32 * bd n np p))) as FC.
    { intros p Hp. unfold counts. rewrite forZ_zrange_firstn by auto. rewrite <- (concat_parts n np) by lia.
      rewrite <- sum_zlen_concat. rewrite map_map. reflexivity. }
    assert (zlen counts = np) as LC by (unfold counts; rewrite zlen_map, zlen_zrange; lia).
    match goal with |- context [forZ 0 np ?f ?s] => 
      destruct (forZ_inv (fun p dx => Einv cap w (b_value b) (32 * bd n np p) (fst dx, snd dx, zlen (setbits w 0 (32 * bd n np p)))) 0 np f s) as (dx & Edx & Idx) end.
    - lia.
    - simpl. rewrite bd_0 by lia. rewrite setbits_nil by lia. conjs; auto; apply starts_nil.
    - intros p [d x] Hp I. simpl fst in *. simpl snd in *.
      rewrite prefix_sums_rd by lia. cbn [bind]. rewrite FC by lia. rewrite Z.add_0_l.
      destruct (part_start_bd n np ltac:(lia) Hnp p ltac:(lia)) as [E | (E & E1 & E2)].
      + rewrite E, part_end_bd by lia. pose proof (bd_mono n np ltac:(lia) Hnp p (p+1) ltac:(lia) ltac:(lia)).
        destruct (emit_words_spec cap w (b_value b) (bd n np p) (bd n np (p+1)) (d, x, zlen (setbits w 0 (32 * bd n np p)))) as (st' & -> & I'); auto; try lia.
        cbn [bind]. destruct st' as [[d' x'] c']. simpl. eexists. split; [reflexivity|]. simpl. unfold Einv in I'.
        destruct I' as (Ec & I'). split; auto.
      + unfold emit_words. rewrite forZ_empty by auto. cbn [bind]. simpl. eexists. split; [reflexivity|]. simpl. rewrite E1, E2 in *. exact I.
    - rewrite Edx. cbn [bind]. destruct dx as [d x]. cbn [fst snd Einv] in Idx |- *. unfold Einv in Idx. rewrite bd_np in Idx by lia.
      assert (setbits w 0 (32 * n) = setbits w 0 cap) as ES by (apply setbits_tail; auto; lia).
      rewrite ES in Idx. destruct Idx as (_ & Ld & Lx & Sx & Sd).
      eexists. split; [reflexivity|]. unfold ready, bwf, bwf0; simpl. rewrite Bb in *. conjs; eauto; try lia.
      rewrite <- ES. replace (32 * n) with (32 * bd n np np) by (rewrite bd_np; lia). rewrite <- FC by lia.
      rewrite firstn_all2; auto. unfold zlen in LC. lia.
  Qed.

  (** ** compress, Serializable *)
  Definition dpairs (v : list (option T)) (ks : list Z) : list (Z * T) :=
    flat_map (fun k => match cell v k with Some a => [(k, a)] | None => [] end) ks.
  Definition inj (e : Z * T) : Z * option T := (fst e, Some (snd e)).
  Lemma dpairs_app v a b : dpairs v (a ++ b) = dpairs v a ++ dpairs v b.
  Proof. unfold dpairs. apply flat_map_app. Qed.
  Lemma dpairs_inj v ks : (forall k, In k ks -> exists a, rd v k = Ok (Some a)) -> map inj (dpairs v ks) = pairs_of v ks.
  Proof.
    induction ks as [|k l IH]; intros H; [reflexivity|]. unfold dpairs, pairs_of in *. simpl.
    destruct (H k (or_introl eq_refl)) as [a Ha]. unfold cell at 1 3. rewrite Ha. simpl. f_equal. apply IH. intros; apply H; simpl; auto.
  Qed.
  Lemma in_dpairs v ks k a : In (k, a) (dpairs v ks) -> In k ks.
  Proof.
    unfold dpairs. rewrite in_flat_map. intros (x & Hx & H). destruct (cell v x); simpl in H; [|tauto].
    destruct H as [E|[]]. injection E as -> _. auto.
  Qed.

  Lemma collect_words_spec cap w value s e : wwf cap w -> zlen value = cap -> 0 <= cap -> 0 <= s <= e -> e <= num_ints_of cap ->
    (forall k, tb w k = true -> exists a, rd value k = Ok (Some a)) ->
    collect_words w value s e = Ok (dpairs value (setbits w (32*s) (32*e))).
  Proof.
    intros [W1 W2] L C Hs He D. unfold collect_words.
    match goal with |- forZ ?lo ?hi ?f ?s = _ => destruct (forZ_inv (fun ii acc => acc = dpairs value (setbits w (32*lo) (32*ii))) lo hi f s) as (st' & E' & I') end.
    - lia.
    - rewrite setbits_nil by lia. reflexivity.
    - intros ii acc Hii ->. destruct (rd_ok w ii) as [wd Hwd]; [lia|]. rewrite Hwd. cbn [bind].
      destruct (Z.eqb_spec (popcnt32 wd) 0) as [P0|P0].
      + eexists. split; [reflexivity|]. rewrite (popcnt_setbits w ii wd Hwd) in P0. replace (32 * (ii+1)) with (32*ii+32) by lia.
        rewrite (setbits_app w (32*s) (32*ii) (32*ii+32)) by lia.
        destruct (setbits w (32*ii) (32*ii+32)); [rewrite app_nil_r; auto|]. rewrite zlen_cons in P0. pose proof (zlen_nonneg l). lia.
      + rewrite (Z.mul_comm ii 32), (Z.mul_comm (ii+1) 32).
        match goal with |- exists s', forZ ?lo ?hi ?f ?s0 = _ /\ _ => destruct (forZ_inv (fun i acc => acc = dpairs value (setbits w (32*s) i)) lo hi f s0) as (st1 & E1 & I1) end; eauto; [lia|].
        intros i acc Hi ->. rewrite bv_get_ok by lia. cbn [bind].
        assert (setbits w (32*s) (i+1) = setbits w (32*s) i ++ (if tb w i then [i] else [])) as ES.
        { rewrite (setbits_app w (32*s) i (i+1)) by lia. f_equal. unfold setbits. rewrite zrange_cons by lia. rewrite zrange_nil by lia. reflexivity. }
        rewrite ES, dpairs_app. destruct (tb w i) eqn:Ti.
        * destruct (D i Ti) as [a Ha]. unfold rdi. rewrite Ha. cbn [bind]. eexists. split; [reflexivity|]. unfold dpairs at 3. simpl.
          unfold cell. rewrite Ha. reflexivity.
        * eexists. split; [reflexivity|]. simpl. rewrite app_nil_r. reflexivity.
    - rewrite E'. congruence.
  Qed.

  Variable enc : list (Z * T) -> list byte.
  Variable dec : list byte -> Z -> R (list (Z * T)).
  Hypothesis dec_enc : forall l, dec (enc l) (zlen l) = Ok l.

  Definition ser_parts (w : list Z) (v : list (option T)) (n np : Z) : list (list (Z * T)) :=
    map (fun p => dpairs v (setbits w (32 * bd n np p) (32 * bd n np (p+1)))) (zrange 0 np).

  Lemma buf_compress_ser_spec thr cap (b : buf) w : ready true thr cap b w ->
    (forall k, tb w k = true -> exists a, rd (b_value b) k = Ok (Some a)) ->
    exists b', buf_compress_ser enc b = Ok b' /\ ready true thr cap b' w /\ b_value b' = b_value b /\ b_nnz b' = b_nnz b /\
      exists parts, zlen parts = b_snp b' /\ b_sdata b' = concat (map enc parts) /\ b_snb b' = zlen (b_sdata b') /\
        b_nbscan b' = map Some (prefix_sums 0 (map zlen (map enc parts))) /\
        b_nzscan b' = map Some (prefix_sums 0 (map zlen parts)) /\
        map inj (concat parts) = pairs_of (b_value b) (setbits w 0 cap).
  Proof.
    intros Rd D. pose proof Rd as ([(B0 & B1 & B2 & B3 & B4 & B5 & B6 & B8) B7] & U & Bb & Ww).
    destruct (B8 eq_refl) as (T1 & Np & Lb & Lz).
    pose proof (num_ints_bounds cap B0) as NB. pose proof Ww as [W1 W2].
    unfold buf_compress_ser, words. rewrite Bb, B2. cbn [bind]. rewrite Np.
    set (np := thr * 16) in *. set (n := num_ints_of cap) in *.
    assert (1 <= np) as Hnp by (unfold np; lia).
    rewrite (mapR_map _ (fun p => dpairs (b_value b) (setbits w (32 * bd n np p) (32 * bd n np (p+1))))).
    2: { intros p Hp. apply in_zrange in Hp. destruct (part_start_bd n np ltac:(lia) Hnp p ltac:(lia)) as [E | (E & E1 & E2)].
         - rewrite E, part_end_bd by lia. pose proof (bd_mono n np ltac:(lia) Hnp p (p+1) ltac:(lia) ltac:(lia)).
           apply (collect_words_spec cap); auto; lia.
         - unfold collect_words. rewrite forZ_empty by auto. rewrite E1, E2, setbits_nil by lia. reflexivity. }
    cbn [bind]. fold (ser_parts w (b_value b) n np). set (parts := ser_parts w (b_value b) n np).
    assert (zlen parts = np) as LP by (unfold parts, ser_parts; rewrite zlen_map, zlen_zrange; lia).
    unfold write_scan.
    destruct (starts_recv (b_nzscan b) (map Some (prefix_sums 0 (map zlen parts))) (zlen (prefix_sums 0 (map zlen parts)))) as (nzs & E1 & S1 & L1).
    { apply zlen_map. } { rewrite zlen_prefix_sums, zlen_map. lia. }
    rewrite E1; cbn [bind].
    destruct (starts_recv (b_nbscan b) (map Some (prefix_sums 0 (map zlen (map enc parts)))) (zlen (prefix_sums 0 (map zlen (map enc parts))))) as (nbs & E2 & S2 & L2).
    { apply zlen_map. } { rewrite zlen_prefix_sums, !zlen_map. lia. }
    rewrite E2; cbn [bind]. eexists. split; [reflexivity|].
    apply starts_full in S1; [|rewrite zlen_map, zlen_prefix_sums, zlen_map; lia].
    apply starts_full in S2; [|rewrite zlen_map, zlen_prefix_sums, !zlen_map; lia].
    split; [|split; [|split]]; auto.
    - unfold ready, bwf, bwf0; simpl. rewrite Bb in *. conjs; eauto; try lia.
    - exists parts. simpl. conjs; auto. 
      assert (concat parts = dpairs (b_value b) (setbits w 0 cap)) as ->.
      { replace (setbits w 0 cap) with (setbits w 0 (32 * bd n np np)).
        - rewrite <- (concat_parts n np) by lia. unfold parts, ser_parts. clear. induction (zrange 0 np) as [|p l IH]; simpl; auto.
          rewrite IH, dpairs_app. reflexivity.
        - rewrite bd_np by lia. apply setbits_tail; auto; lia. }
      apply dpairs_inj. intros k Hk. apply in_setbits in Hk. apply D. tauto.
  Qed.

  (** ** decompress *)
  Definition bdry (ks : list Z) (m : Z) : Prop :=
    forall a b x y, a < m -> m <= b -> rd ks a = Ok x -> rd ks b = Ok y -> x / 32 < y / 32.
  Definition nonneg (ks : list Z) : Prop := forall k, In k ks -> 0 <= k.

  Lemma incr_le ks a b x y : incr ks -> a <= b -> rd ks a = Ok x -> rd ks b = Ok y -> x <= y.
  Proof. intros H L Ha Hb. destruct (Z.eq_dec a b) as [->|N]; [assert (x = y) by congruence; lia|]. pose proof (H a b x y ltac:(lia) Ha Hb). lia. Qed.

  Lemma bdry_of_step ks m x y : incr ks -> rd ks (m-1) = Ok x -> rd ks m = Ok y -> x / 32 <> y / 32 -> bdry ks m.
  Proof.
    intros I Hx Hy N a b u v Ha Hb Ru Rv.
    pose proof (incr_le ks a (m-1) u x I ltac:(lia) Ru Hx). pose proof (incr_le ks m b y v I ltac:(lia) Hy Rv).
    pose proof (I (m-1) m x y ltac:(lia) Hx Hy).
    pose proof (Z.div_le_mono u x 32 ltac:(lia) ltac:(lia)). pose proof (Z.div_le_mono y v 32 ltac:(lia) ltac:(lia)).
    pose proof (Z.div_le_mono x y 32 ltac:(lia) ltac:(lia)). lia.
  Qed.
  Lemma bdry_end ks m : zlen ks <= m -> bdry ks m.
  Proof. intros H a b x y _ Hb _ Ry. apply rd_bounds in Ry. lia. Qed.
  Lemma bdry_0 ks m : m <= 0 -> bdry ks m.
  Proof. intros H a b x y Ha _ Rx _. apply rd_bounds in Rx. lia. Qed.

  Lemma rdi_starts (idx : list (option Z)) ks m : starts idx (map Some ks) -> 0 <= m < zlen ks -> exists x, rdi idx m = Ok x /\ rd ks m = Ok x.
  Proof.
    intros S H. destruct (rd_ok ks m H) as [x Hx]. exists x. split; auto. unfold rdi.
    rewrite (starts_rd _ _ _ S) by (rewrite zlen_map; lia). rewrite (rd_map Some ks m x Hx). reflexivity.
  Qed.

  Lemma skip_word_spec (idx : list (option Z)) ks w32 fuel m : starts idx (map Some ks) -> nonneg ks -> 0 <= m <= zlen ks -> (Z.to_nat (zlen ks - m) <= fuel)%nat ->
    exists r, skip_word fuel idx w32 m (zlen ks) = Ok r /\ m <= r <= zlen ks /\
      (forall j x, m <= j < r -> rd ks j = Ok x -> x / 32 = w32) /\ (forall x, rd ks r = Ok x -> x / 32 <> w32).
  Proof.
    intros S N. revert m. induction fuel as [|f IH]; intros m H F; cbn [skip_word].
    - destruct (Z.ltb_spec m (zlen ks)); [lia|]. exists m. split; auto. split; [lia|]. split; [intros; lia|].
      intros x Hx. apply rd_bounds in Hx. lia.
    - destruct (Z.ltb_spec m (zlen ks)).
      + destruct (rdi_starts idx ks m S ltac:(lia)) as (x & Hx & Rx). rewrite Hx. cbn [bind].
        assert (0 <= x) by (apply N; apply rd_In in Rx; auto). rewrite quot_div by lia.
        destruct (Z.eqb_spec (x/32) w32) as [E|E].
        * destruct (IH (m+1) ltac:(lia) ltac:(lia)) as (r & Er & B & J & L). exists r. split; auto. split; [lia|]. split; auto.
          intros j y Hj Ry. destruct (Z.eq_dec j m) as [->|]; [congruence|]. apply (J j y); auto; lia.
        * exists m. split; auto. split; [lia|]. split; [intros; lia|]. intros y Ry. congruence.
      + exists m. split; auto. split; [lia|]. split; [intros; lia|]. intros x Hx. apply rd_bounds in Hx. lia.
  Qed.

  (** cut points of the entry list: monotone, ending at its length, never inside a word *)
  Definition prevc (ends : list Z) (p : Z) : R Z := if p =? 0 then Ok 0 else rd ends (p - 1).
  Definition cuts (ks : list Z) (np : Z) (ends : list Z) : Prop :=
    zlen ends = np /\
    (forall p, 0 <= p < np -> exists a b, prevc ends p = Ok a /\ rd ends p = Ok b /\ 0 <= a <= b /\ b <= zlen ks /\ bdry ks a /\ bdry ks b) /\
    prevc ends np = Ok (zlen ks).

  Lemma decomp_bounds_spec threads (idx : list (option Z)) ks : 1 <= threads -> starts idx (map Some ks) -> nonneg ks -> incr ks ->
    exists ends, decomp_bounds threads idx (zlen ks) = Ok ends /\ cuts ks threads ends.
  Proof.
    intros Ht S N I. unfold decomp_bounds. destruct (Z.eqb_spec threads 0); [lia|].
    pose proof (zlen_nonneg ks). rewrite (quot_div (zlen ks + threads - 1) threads) by lia.
    set (per0 := (zlen ks + threads - 1) / threads).
    assert (0 <= per0) by (apply Z.div_pos; lia). rewrite quot_div by lia.
    assert (zlen ks <= per0 * threads).
    { unfold per0. pose proof (Z.div_mod (zlen ks + threads - 1) threads). pose proof (Z.mod_pos_bound (zlen ks + threads - 1) threads). nia. }
    clearbody per0. set (per := (per0 + 31) / 32 * 32). assert (per0 <= per) by (unfold per; lia). clearbody per.
    match goal with |- exists e, (do r <- forZ ?lo ?hi ?f ?s ;; _) = _ /\ _ =>
      destruct (forZ_inv (fun p (st : Z * list Z) => let '(m, ends) := st in
         zlen ends = p /\ 0 <= m <= zlen ks /\ Z.min (zlen ks) (per * p) <= m /\ prevc ends p = Ok m /\ bdry ks m /\
         (forall q, 0 <= q < p -> exists a b, prevc ends q = Ok a /\ rd ends q = Ok b /\ 0 <= a <= b /\ b <= zlen ks /\ bdry ks a /\ bdry ks b)) lo hi f s) as ([m ends] & E & HI) end.
    - lia.
    - cbn beta. conjs; try lia; auto; try (intros; lia). apply bdry_0. lia.
    - intros p [m ends] Hp (L & B & G & P & Bm & Q).
      set (m1 := if zlen ks <? m + per then zlen ks else m + per).
      assert (0 <= m1 <= zlen ks /\ m <= m1 /\ Z.min (zlen ks) (per * (p+1)) <= m1) as (M1 & M2 & M3).
      { unfold m1. destruct (Z.ltb_spec (zlen ks) (m + per)); lia. }
      assert (exists m2, (if m1 <? zlen ks then do i <- rdi idx m1;; skip_word (Z.to_nat (zlen ks)) idx (Z.quot i 32) m1 (zlen ks) else Ok m1) = Ok m2
              /\ m1 <= m2 <= zlen ks /\ bdry ks m2) as (m2 & E2 & B2 & D2).
      { destruct (Z.ltb_spec m1 (zlen ks)).
        - destruct (rdi_starts idx ks m1 S ltac:(lia)) as (x & Hx & Rx). rewrite Hx. cbn [bind].
          assert (0 <= x) by (apply N; apply rd_In in Rx; auto). rewrite quot_div by lia.
          destruct (skip_word_spec idx ks (x/32) (Z.to_nat (zlen ks)) m1 S N ltac:(lia) ltac:(lia)) as (r & Er & Br & J & K).
          exists r. split; auto. split; auto. destruct (Z.eq_dec r (zlen ks)); [apply bdry_end; lia|].
          destruct (rd_ok ks r ltac:(lia)) as [y Hy]. assert (r <> m1) by (intros ->; apply (K x Rx); auto).
          destruct (rd_ok ks (r-1) ltac:(lia)) as [z Hz]. apply (bdry_of_step ks r z y); auto.
          pose proof (J (r-1) z ltac:(lia) Hz). pose proof (K y Hy). lia.
        - exists m1. split; auto. split; [lia|]. apply bdry_end. lia. }
      rewrite E2. cbn [bind]. eexists. split; [reflexivity|]. cbn beta iota.
      assert (forall q, 0 <= q < p -> rd (ends ++ [m2]) q = rd ends q) as RQ by (intros; apply rd_app1; lia).
      assert (forall q, 0 <= q <= p -> prevc (ends ++ [m2]) q = prevc ends q) as PQ.
      { intros q Hq. unfold prevc. destruct (Z.eqb_spec q 0); auto. apply RQ. lia. }
      assert (rd (ends ++ [m2]) p = Ok m2) as RP by (rewrite rd_app2 by lia; replace (p - zlen ends) with 0 by lia; apply rd_cons0).
      conjs; auto; try lia.
      + rewrite zlen_app. unfold zlen at 2; simpl. lia.
      + unfold prevc. destruct (Z.eqb_spec (p+1) 0); [lia|]. replace (p+1-1) with p by lia. auto.
      + intros q Hq. destruct (Z.eq_dec q p) as [->|Nq].
        * exists m, m2. rewrite PQ by lia. conjs; auto; lia.
        * rewrite PQ, RQ by lia. apply Q. lia.
    - rewrite E. cbn [bind snd]. exists ends. split; auto. destruct HI as (L & B & G & P & Bm & Q).
      split; [auto|]. split; auto. rewrite P. f_equal. nia.
  Qed.

  (** processing all entries part by part *)
  Lemma cuts_run {S} ks np ends (body : Z -> S -> R S) (I : Z -> S -> Prop) s :
    cuts ks np ends -> 0 <= np -> I 0 s ->
    (forall i s, 0 <= i < zlen ks -> I i s -> exists s', body i s = Ok s' /\ I (i+1) s') ->
    exists s', forZ 0 np (fun p s => do a <- prevc ends p ;; do b <- rd ends p ;; forZ a b body s) s = Ok s' /\ I (zlen ks) s'.
  Proof.
    intros (L & Q & E) Hn I0 HS.
    match goal with |- exists s', forZ ?lo ?hi ?f ?s = _ /\ _ =>
      destruct (forZ_inv (fun p s => exists a, prevc ends p = Ok a /\ I a s) lo hi f s) as (s1 & E1 & a & Ea & Ia) end.
    - lia.
    - exists 0. auto.
    - intros p s0 Hp (a & Ea & Ia). destruct (Q p Hp) as (a' & b & Ea' & Eb & B1 & B2 & _). rewrite Ea, Eb. cbn [bind].
      assert (a' = a) by congruence. subst a'.
      destruct (forZ_inv I a b body s0) as (s2 & E2 & I2); auto; [lia|intros; apply HS; auto; lia|].
      exists s2. split; auto. exists b. split; auto. unfold prevc. destruct (Z.eqb_spec (p+1) 0); [lia|]. replace (p+1-1) with p by lia. auto.
    - exists s1. split; auto. assert (a = zlen ks) by congruence. subst; auto.
  Qed.

  Lemma decomp_entry_spec cap (es : list (Z * option T)) cdata cidx i w v e : starts cidx (map Some (map fst es)) -> starts cdata (map snd es) ->
    rd es i = Ok e -> 0 <= fst e < cap -> wwf cap w -> zlen v = cap ->
    exists w' v', decomp_entry cdata cidx i (w, v) = Ok (w', v') /\ wwf cap w' /\ zlen v' = cap /\
      forall k, wabs w' v' k = if fst e =? k then Some (snd e) else wabs w v k.
  Proof.
    intros S1 S2 He Hk W L. unfold decomp_entry. pose proof (rd_bounds _ _ _ He) as Bi.
    destruct (rdi_starts cidx (map fst es) i S1) as (x & -> & Hx); [rewrite zlen_map; auto|]. cbn [bind fst snd].
    rewrite (rd_map fst es i e He) in Hx. injection Hx as <-.
    destruct (store1 cap w v (fst e) (snd e) W L Hk) as (w' & v' & -> & Ev & W' & L' & A & _). cbn [bind].
    rewrite (starts_rd _ _ _ S2) by (rewrite zlen_map; auto). rewrite (rd_map snd es i e He). cbn [bind]. rewrite Ev. cbn [bind].
    eauto 10.
  Qed.

  Lemma firstn_snoc {A} (l : list A) i a : rd l i = Ok a -> firstn (Z.to_nat (i+1)) l = firstn (Z.to_nat i) l ++ [a].
  Proof.
    intros H. apply rd_nth in H as [H0 H]. replace (Z.to_nat (i+1)) with (S (Z.to_nat i)) by lia.
    revert H. generalize (Z.to_nat i) as n. clear. induction l as [|x l IH]; intros [|n] H; simpl in *; try discriminate; [congruence|].
    f_equal. apply IH; auto.
  Qed.

  Lemma buf_decompress_plain_spec threads cap (b : buf) es :
    1 <= threads -> 0 <= cap -> b_nints b = num_ints_of cap -> zlen (b_value b) = cap ->
    b_nnz b = zlen es -> incr (map fst es) -> (forall e, In e es -> 0 <= fst e < cap) ->
    starts (b_cidx b) (map Some (map fst es)) -> starts (b_cdata b) (map snd es) ->
    exists w v, buf_decompress_plain threads b = Ok (set_value v (set_bits w b)) /\ wwf cap w /\ zlen v = cap /\
      forall k, wabs w v k = massoc es k.
  Proof.
    intros Ht C Ni Lv Nz I K S1 S2. unfold buf_decompress_plain. rewrite Ni, Nz.
    replace (zlen es) with (zlen (map fst es)) by apply zlen_map.
    destruct (decomp_bounds_spec threads (b_cidx b) (map fst es) Ht S1) as (ends & -> & Cu); auto.
    { intros k Hk. apply in_map_iff in Hk as (e & <- & He). apply K in He. lia. }
    cbn [bind].
    destruct (cuts_run (map fst es) threads ends (decomp_entry (b_cdata b) (b_cidx b))
      (fun i wv => wwf cap (fst wv) /\ zlen (snd wv) = cap /\ forall k, wabs (fst wv) (snd wv) k = massoc (firstn (Z.to_nat i) es) k)
      (repeat 0 (Z.to_nat (num_ints_of cap)), b_value b)) as ([w v] & E & W & L & A); auto; [lia| | |].
    - simpl. split; [apply wwf_zero; auto|]. split; auto. intros k. unfold wabs. rewrite tb_repeat0. reflexivity.
    - intros i [w v] Hi (W & L & A). rewrite zlen_map in Hi. destruct (rd_ok es i Hi) as [e He].
      destruct (decomp_entry_spec cap es (b_cdata b) (b_cidx b) i w v e) as (w' & v' & E & W' & L' & A'); auto.
      { apply K. apply rd_In in He. auto. }
      exists (w', v'). split; auto. simpl. split; auto. split; auto. intros k. rewrite A', A. rewrite (firstn_snoc es i e He), massoc_snoc. reflexivity.
    - unfold prevc in E. rewrite E. cbn [bind fst snd]. simpl in W, L, A. exists w, v. split; auto. split; auto. split; auto. intros k. rewrite A.
      rewrite zlen_map. unfold zlen. rewrite Nat2Z.id, firstn_all. reflexivity.
  Qed.

  (** Serializable *)
  Lemma store_fold cap (ps : list (Z * T)) w v : wwf cap w -> zlen v = cap -> (forall e : Z * T, In e ps -> 0 <= fst e < cap) ->
    exists w' v', foldR (fun wv (e : Z * T) =>
          do v <- wr (snd wv) (fst e) (Some (snd e)) ;;
          do w <- bv_set (fst wv) (fst e) ;;
          Ok (w, v)) ps (w, v) = Ok (w', v') /\ wwf cap w' /\ zlen v' = cap /\
      forall k, wabs w' v' k = fold_left (fun acc e => if fst e =? k then Some (snd e) else acc) (map inj ps) (wabs w v k).
  Proof.
    revert w v. induction ps as [|e ps IH]; intros w v W L K; simpl.
    - exists w, v. auto.
    - destruct (store1 cap w v (fst e) (Some (snd e)) W L) as (w1 & v1 & E1 & E2 & W1 & L1 & A1 & _); [apply K; simpl; auto|].
      rewrite E2, E1. cbn [bind]. destruct (IH w1 v1 W1 L1) as (w' & v' & E & W' & L' & A'); [intros; apply K; simpl; auto|].
      exists w', v'. split; auto. split; auto. split; auto. intros k. rewrite A', A1. reflexivity.
  Qed.

  Lemma slice_concat (bs : list (list byte)) p x : rd bs p = Ok x ->
    slice (concat bs) (zlen (concat (firstn (Z.to_nat p) bs))) (zlen x) = Ok x.
  Proof.
    intros H. apply rd_nth in H as [H0 H]. revert H. generalize (Z.to_nat p) as n. clear.
    assert (forall (pre x post : list byte), slice (pre ++ x ++ post) (zlen pre) (zlen x) = Ok x) as G.
    { clear x. intros pre x post. unfold slice. rewrite !zlen_app. pose proof (zlen_nonneg pre). pose proof (zlen_nonneg x). pose proof (zlen_nonneg post).
      destruct (Z.ltb_spec (zlen pre) 0); [lia|]. destruct (Z.ltb_spec (zlen x) 0); [lia|].
      destruct (Z.ltb_spec (zlen pre + (zlen x + zlen post)) (zlen pre + zlen x)); [lia|]. simpl.
      unfold zlen. rewrite !Nat2Z.id. rewrite skipn_app, skipn_all, Nat.sub_diag. simpl.
      rewrite firstn_app, Nat.sub_diag, firstn_all. simpl. rewrite app_nil_r. auto. }
    intros n H. apply nth_error_split in H as (l1 & l2 & -> & <-). rewrite firstn_app, Nat.sub_diag, firstn_all. simpl. rewrite app_nil_r.
    rewrite concat_app. simpl. apply G.
  Qed.

  Lemma rd_scan {A} (ls : list (list A)) scan p : scan = map Some (prefix_sums 0 (map zlen ls)) -> 0 <= p <= zlen ls ->
    rdi scan p = Ok (zlen (concat (firstn (Z.to_nat p) ls))).
  Proof.
    intros -> H. unfold rdi. erewrite rd_map; [|apply prefix_sums_rd; rewrite zlen_map; auto].
    cbn [bind]. f_equal. rewrite firstn_map, sum_zlen_concat. lia.
  Qed.

  Lemma buf_decompress_ser_spec cap (b : buf) parts :
    0 <= cap -> b_nints b = num_ints_of cap -> zlen (b_value b) = cap ->
    zlen parts = b_snp b -> b_sdata b = concat (map enc parts) ->
    b_nbscan b = map Some (prefix_sums 0 (map zlen (map enc parts))) ->
    b_nzscan b = map Some (prefix_sums 0 (map zlen parts)) ->
    (forall e, In e (concat parts) -> 0 <= fst e < cap) ->
    exists w v, buf_decompress_ser dec b = Ok (set_value v (set_bits w b)) /\ wwf cap w /\ zlen v = cap /\
      forall k, wabs w v k = massoc (map inj (concat parts)) k.
  Proof.
    intros C Ni Lv Np Sd Sb Sz K. unfold buf_decompress_ser. rewrite Ni. pose proof (zlen_nonneg parts).
    match goal with |- exists w v, (do wv <- forZ ?lo ?hi ?f ?s ;; _) = _ /\ _ =>
      destruct (forZ_inv (fun p wv => wwf cap (fst wv) /\ zlen (snd wv) = cap /\
         forall k, wabs (fst wv) (snd wv) k = massoc (map inj (concat (firstn (Z.to_nat p) parts))) k) lo hi f s) as ([w v] & E & W & L & A) end.
    - lia.
    - simpl. split; [apply wwf_zero; auto|]. split; auto. intros k. unfold wabs. rewrite tb_repeat0. reflexivity.
    - intros p [w v] Hp (W & L & A). cbn [fst snd] in *.
      destruct (rd_ok parts p ltac:(lia)) as [x Hx]. pose proof (rd_map enc parts p x Hx) as Hbx.
      assert (forall q, 0 <= q <= b_snp b -> 0 <= q <= zlen (map enc parts)) as LE by (intros; rewrite zlen_map; lia).
      rewrite (rd_scan (map enc parts) _ p Sb) by (apply LE; lia). cbn [bind].
      rewrite (rd_scan (map enc parts) _ (p+1) Sb) by (apply LE; lia). cbn [bind].
      rewrite (firstn_snoc _ _ _ Hbx). rewrite concat_app, zlen_app. simpl (concat [enc x]). rewrite app_nil_r.
      replace (zlen (concat (firstn (Z.to_nat p) (map enc parts))) + zlen (enc x) - zlen (concat (firstn (Z.to_nat p) (map enc parts)))) with (zlen (enc x)) by lia.
      rewrite Sd, (slice_concat _ _ _ Hbx). cbn [bind].
      rewrite (rd_scan parts _ p Sz) by lia. cbn [bind]. rewrite (rd_scan parts _ (p+1) Sz) by lia. cbn [bind].
      rewrite (firstn_snoc _ _ _ Hx). rewrite concat_app, zlen_app. simpl (concat [x]). rewrite app_nil_r.
      replace (zlen (concat (firstn (Z.to_nat p) parts)) + zlen x - zlen (concat (firstn (Z.to_nat p) parts))) with (zlen x) by lia.
      rewrite dec_enc. cbn [bind].
      destruct (store_fold cap x w v W L) as (w' & v' & E & W' & L' & A').
      { intros e He. apply K. apply in_concat. exists x. split; auto. apply rd_In in Hx. auto. }
      exists (w', v'). split; auto. cbn [fst snd]. split; auto. split; auto. intros k. rewrite A', A. unfold massoc.
      rewrite map_app, fold_left_app. reflexivity.
    - rewrite E. cbn [bind fst snd] in *. exists w, v. split; auto. split; auto. split; auto. intros k. rewrite A.
      rewrite <- Np. unfold zlen. rewrite Nat2Z.id, firstn_all. reflexivity.
  Qed.
End TR.
