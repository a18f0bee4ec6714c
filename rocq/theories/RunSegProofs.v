(** One segment in a superstep: sending and applying. *)
From Verif Require Import BaseLemmas Layout LayoutProofs Bits BitsProofs Segment SegmentProofs TransferProofs MergeProofs UnionProofs SegHistory SegHistoryProofs Reduce ReduceProofs SegFinal Bucket BucketProofs Vec VecProofs VecProofs2 ListLemmas DCSC SpMat SpMSpV DistProofs GraphVert Graph Runtime.

Lemma find_zrange p lo hi :
  match find p (zrange lo hi) with
  | None => filter p (zrange lo hi) = []
  | Some b => lo <= b < hi /\ p b = true /\ filter p (zrange lo hi) = b :: filter p (zrange (b + 1) hi) /\ forall k, lo <= k < b -> p k = false
  end.
Proof.
  remember (Z.to_nat (hi - lo)) as m eqn:Em. revert lo Em. induction m as [|m IH]; intros lo Em.
  - rewrite zrange_nil by lia. reflexivity.
  - rewrite (zrange_cons lo hi) by lia. simpl. destruct (p lo) eqn:El.
    + conjs; auto; lia.
    + specialize (IH (lo + 1) ltac:(lia)). destruct (find p (zrange (lo + 1) hi)) as [b|]; auto. destruct IH as (B & Pb & F & Q). conjs; auto; try lia.
      intros k Hk. destruct (Z.eq_dec k lo) as [->|]; auto. apply Q. lia.
Qed.

Lemma scan_bits_gen fuel : forall v, 0 <= v -> (forall k, 32 <= k -> Z.testbit v k = false) -> (length (filter (Z.testbit v) (zrange 0 32)) <= fuel)%nat ->
  scan_bits fuel v = Ok (filter (Z.testbit v) (zrange 0 32)).
Proof.
  induction fuel as [|f IH]; intros v Hv Hh Hl; cbn [scan_bits]; destruct (Z.eqb_spec v 0) as [->|N].
  - rewrite filter_all_false; auto. intros; apply Z.bits_0.
  - exfalso. apply N. apply Z.bits_inj'. intros k Hk. rewrite Z.bits_0. destruct (Z_lt_dec k 32); [|apply Hh; lia].
    destruct (filter (Z.testbit v) (zrange 0 32)) eqn:F; [|simpl in Hl; lia]. destruct (Z.testbit v k) eqn:T; auto.
    assert (In k (filter (Z.testbit v) (zrange 0 32))) as Hin by (apply filter_In; split; auto; apply in_zrange; lia). rewrite F in Hin. destruct Hin.
  - rewrite filter_all_false; auto. intros; apply Z.bits_0.
  - pose proof (find_zrange (Z.testbit v) 0 32) as Fz. destruct (find (Z.testbit v) (zrange 0 32)) as [b|].
    + destruct Fz as (B & Pb & F & Q). rewrite F in Hl |- *.
      assert (forall k, 0 <= k -> Z.testbit (Z.ldiff v (Z.shiftl 1 b)) k = Z.testbit v k && negb (k =? b)) as Tb.
      { intros k Hk. rewrite Z.ldiff_spec, Z.shiftl_spec by lia. f_equal. f_equal. destruct (Z.eqb_spec k b) as [->|Nk]; [rewrite Z.sub_diag; reflexivity|].
        destruct (Z_lt_dec k b); [apply Z.testbit_neg_r; lia|]. change 1 with (2 ^ 0). rewrite Z.pow2_bits_false; auto; lia. }
      assert (filter (Z.testbit (Z.ldiff v (Z.shiftl 1 b))) (zrange 0 32) = filter (Z.testbit v) (zrange (b + 1) 32)) as F'.
      { rewrite (zrange_app 0 (b + 1) 32) by lia. rewrite filter_app, filter_all_false.
        - simpl. apply filter_ext_in. intros k Hk. apply in_zrange in Hk. rewrite Tb by lia. destruct (Z.eqb_spec k b); [lia|]. apply andb_true_r.
        - intros k Hk. apply in_zrange in Hk. rewrite Tb by lia. destruct (Z.eqb_spec k b); [apply andb_false_r|]. rewrite Q by lia. reflexivity. }
      rewrite IH.
      * cbn [bind]. rewrite F'. reflexivity.
      * apply Z.ldiff_nonneg. auto.
      * intros k Hk. rewrite Tb by lia. rewrite Hh by lia. reflexivity.
      * rewrite F'. simpl in Hl. lia.
    + exfalso. apply N. apply Z.bits_inj'. intros k Hk. rewrite Z.bits_0. destruct (Z_lt_dec k 32); [|apply Hh; lia].
      destruct (Z.testbit v k) eqn:T; auto. assert (In k (filter (Z.testbit v) (zrange 0 32))) as Hin by (apply filter_In; split; auto; apply in_zrange; lia). rewrite Fz in Hin. destruct Hin.
Qed.
Lemma scan_bits_word wd : scan_bits 32 (wd mod 2 ^ 32) = Ok (filter (Z.testbit wd) (zrange 0 32)).
Proof.
  assert (filter (Z.testbit (wd mod 2 ^ 32)) (zrange 0 32) = filter (Z.testbit wd) (zrange 0 32)) as F.
  { apply filter_ext_in. intros k Hk. apply in_zrange in Hk. apply Z.mod_pow2_bits_low. lia. }
  rewrite scan_bits_gen; [rewrite F; auto| | |].
  - apply Z.mod_pos_bound. lia.
  - intros k Hk. apply Z.mod_pow2_bits_high. lia.
  - assert (forall (p : Z -> bool) l, (length (filter p l) <= length l)%nat) as G. { intros p l. induction l as [|x l IH]; simpl; auto. destruct (p x); simpl; lia. }
    etransitivity; [apply G|]. reflexivity.
Qed.

Lemma scan_words {St} (body : Z -> St -> R St) w ni s : 0 <= ni <= zlen w ->
  forZ 0 ni (fun i s => do wd <- rd w i ;; do bits <- scan_bits 32 (wd mod 2 ^ 32) ;; foldR (fun s b => body (i * 32 + b) s) bits s) s
  = foldR (fun s k => body k s) (setbits w 0 (32 * ni)) s.
Proof.
  intros [H0 H1]. revert H1. revert ni H0. apply (natlike_ind (fun ni => ni <= zlen w -> _ = _)).
  - intros _. rewrite forZ_empty by lia. rewrite setbits_nil by lia. reflexivity.
  - intros k Hk IH H1. unfold Z.succ in *. rewrite (forZ_split 0 k (k + 1)) by lia. rewrite IH by lia. rewrite (setbits_app w 0 (32 * k) (32 * (k + 1))) by lia. rewrite foldR_app.
    destruct (foldR (fun s k => body k s) (setbits w 0 (32 * k)) s) as [s'|e]; auto. cbn [bind]. rewrite forZ_step by lia.
    destruct (rd_ok w k ltac:(lia)) as [wd Ewd]. rewrite Ewd. cbn [bind]. rewrite scan_bits_word. cbn [bind].
    assert (setbits w (32 * k) (32 * (k + 1)) = map (fun b => k * 32 + b) (filter (Z.testbit wd) (zrange 0 32))) as ->.
    { unfold setbits. replace (32 * (k + 1)) with (32 * k + 32) by lia. rewrite zrange_shift.
      assert (forall l, (forall b, In b l -> 0 <= b < 32) -> filter (tb w) (map (fun b => 32 * k + b) l) = map (fun b => k * 32 + b) (filter (Z.testbit wd) l)) as G.
      { induction l as [|b l IHl]; intros Hl; simpl; auto. rewrite (tb_word w k wd b Ewd) by (apply Hl; simpl; auto). rewrite IHl by (intros; apply Hl; simpl; auto).
        destruct (Z.testbit wd b); simpl; auto. f_equal; lia. }
      apply G. intros b Hb. apply in_zrange in Hb. lia. }
    assert (forall l s, foldR (fun s b => body (k * 32 + b) s) l s = foldR (fun s k => body k s) (map (fun b => k * 32 + b) l) s) as G.
    { induction l as [|b l IHl]; intros s1; simpl; auto. destruct (body (k * 32 + b) s1); simpl; auto. }
    rewrite <- G. destruct (foldR (fun s b => body (k * 32 + b) s) (filter (Z.testbit wd) (zrange 0 32)) s') as [s2|e]; auto. cbn [bind]. apply forZ_empty. lia.
Qed.

Lemma and_words_spec n w1 w2 w3 : zlen w1 = n -> zlen w2 = n -> zlen w3 = n ->
  exists w, and_words w1 w2 w3 n = Ok w /\ zlen w = n /\ forall k, tb w k = tb w1 k && tb w2 k.
Proof.
  intros L1 L2 L3. pose proof (zlen_nonneg w1). unfold and_words.
  match goal with |- exists s', forZ ?lo ?hi ?f ?s = _ /\ _ =>
    destruct (forZ_inv (fun ii w => zlen w = n /\ forall i a c, 0 <= i < ii -> rd w1 i = Ok a -> rd w2 i = Ok c -> rd w i = Ok (Z.land a c)) lo hi f s) as (w & E & L & D) end.
  - lia.
  - conjs; auto. intros; lia.
  - intros i w Hi (L & D). destruct (rd_ok w1 i ltac:(lia)) as [a Ha]. destruct (rd_ok w2 i ltac:(lia)) as [c Hc].
    rewrite Ha, Hc. cbn [bind]. rewrite wr_ok by lia. eexists. split; [reflexivity|]. rewrite zlen_upd. conjs; auto.
    intros j a' c' Hj Ha' Hc'. destruct (Z.eq_dec i j) as [->|N].
    + rewrite rd_upd_same by lia. congruence.
    + rewrite rd_upd_other by lia. apply D; auto; lia.
  - exists w. split; auto. split; auto. intros k.
    destruct (Z_le_dec 0 k); [destruct (Z_lt_dec k (32 * n))|].
    + destruct (tb_rd w1 k ltac:(lia)) as (a & Ha & ->). destruct (tb_rd w2 k ltac:(lia)) as (c & Hc & ->).
      destruct (tb_rd w k ltac:(lia)) as (x & Hx & ->). rewrite (D (k/32) a c ltac:(lia) Ha Hc) in Hx. injection Hx as <-.
      apply Z.land_spec.
    + rewrite !tb_out by lia. reflexivity.
    + rewrite !tb_out by lia. reflexivity.
Qed.

(** words and cells of a segment in use *)
Lemma live_cells {T byte} ser thr (s : seg T byte) M : swf ser thr s -> live s -> segM s M ->
  exists b w, s_prop s = Some b /\ ready ser thr (s_cap s) b w /\ (forall k, tb w k = is_some (M (k + 1))) /\
    (forall k a, M (k + 1) = Some a -> 0 <= k < s_cap s /\ rd (b_value b) k = Ok (Some a)).
Proof.
  intros W (b & Eb & U) A. pose proof W as (H0 & H1 & H2 & _). rewrite Eb in H2. pose proof H2 as [(B0 & B1 & B2 & B3 & B4 & B5 & B6 & B8) B7].
  destruct (B7 U) as (w & Bb & Ww). exists b, w. split; auto. split; [unfold ready; auto|].
  assert (dmap w (b_value b) (fun k => M (k + 1))) as D. { intros k. rewrite <- A. unfold sabs, babs. rewrite Eb, U, Bb. reflexivity. }
  split; intros k.
  - pose proof (dmap_cell (s_cap s) w (b_value b) _ k Ww B3 D) as C. cbv beta in C. destruct (M (k + 1)); tauto.
  - intros a Ha. pose proof (dmap_cell (s_cap s) w (b_value b) _ k Ww B3 D) as C. cbv beta in C. rewrite Ha in C. destruct C as [_ C]. split; auto. apply rd_bounds in C. lia.
Qed.

Section IntersectProofs.
  Context {A B C abyte bbyte cbyte : Type}.
  Variables (sera serb serc : bool) (thr threads : Z).
  Variable op : Z -> A -> B -> C -> C * list event.
  Hypothesis Hth : thok serc thr threads.

  (** outcome at position [k], if both operands have an element there *)
  Definition both (Am : Z -> option A) (Bm : Z -> option B) (Cm : Z -> C) (k : Z) : option (C * list event) :=
    match Am (k + 1), Bm (k + 1) with Some a, Some b => Some (op k a b (Cm k)) | _, _ => None end.

  Lemma intersect_values_spec cap v1 v2 w v3 (Am : Z -> option A) (Bm : Z -> option B) (Cm : Z -> C) : 0 <= cap ->
    wwf cap w -> zlen v3 = cap ->
    (forall k, tb w k = is_some (both Am Bm Cm k)) ->
    (forall k a, Am (k + 1) = Some a -> rd v1 k = Ok (Some a)) -> (forall k a, Bm (k + 1) = Some a -> rd v2 k = Ok (Some a)) ->
    (forall k, 0 <= k < cap -> rd v3 k = Ok (Some (Cm k))) ->
    exists v nz, intersect_values op v1 v2 w (num_ints_of cap) v3 = Ok (v, nz, flat_map (fun k => match both Am Bm Cm k with Some q => snd q | None => [] end) (zrange 0 cap)) /\
      zlen v = cap /\ forall k, 0 <= k < cap -> rd v k = Ok (Some (match both Am Bm Cm k with Some q => fst q | None => Cm k end)).
  Proof.
    intros Hc [Lw Tw] L3 Hw H1 H2 H3. pose proof (num_ints_bounds cap Hc) as NB. unfold intersect_values.
    set (ev := fun i => flat_map (fun k => match both Am Bm Cm k with Some q => snd q | None => [] end) (zrange 0 i)).
    assert (forall i, cap <= i -> both Am Bm Cm i = None) as Out. { intros i Hi. specialize (Tw i Hi). rewrite Hw in Tw. destruct (both Am Bm Cm i); auto. discriminate. }
    set (Iv := fun i (st : list (option C) * Z * list event) => zlen (fst (fst st)) = cap /\ snd st = ev i /\
       forall k, 0 <= k < cap -> rd (fst (fst st)) k = Ok (Some (if k <? i then match both Am Bm Cm k with Some q => fst q | None => Cm k end else Cm k))).
    assert (forall i, 0 <= i -> ev (i + 1) = ev i ++ match both Am Bm Cm i with Some q => snd q | None => [] end) as Ev.
    { intros i Hi. unfold ev. rewrite zrange_snoc by lia. rewrite flat_map_app. simpl. rewrite app_nil_r. auto. }
    assert (forall i st, 0 <= i -> both Am Bm Cm i = None -> Iv i st -> Iv (i + 1) st) as Skip.
    { intros i st Hi N (Q1 & Q2 & Q3). unfold Iv. rewrite Ev, N, app_nil_r by lia. conjs; auto. intros k Hk. rewrite (Q3 k Hk).
      destruct (Z.ltb_spec k i), (Z.ltb_spec k (i + 1)); auto; try lia. replace k with i by lia. rewrite N. auto. }
    match goal with |- context [forZ 0 ?hi ?f ?s] => destruct (forZ_inv (fun ii st => Iv (32 * ii) st) 0 hi f s) as (st & E & I1) end.
    - lia.
    - unfold Iv. cbn [fst snd]. rewrite Z.mul_0_r. split; [auto|]. split; [reflexivity|]. intros k Hk. destruct (Z.ltb_spec k 0); [lia|]. auto.
    - intros ii st Hii I0. destruct (rd_ok w ii ltac:(lia)) as [wd Ewd]. rewrite Ewd. cbn [bind]. rewrite (popcnt_setbits w ii wd Ewd).
      destruct (Z.eqb_spec (zlen (setbits w (32 * ii) (32 * ii + 32))) 0) as [Zr|Nz].
      + exists st. split; auto. assert (forall m : nat, (m <= 32)%nat -> Iv (32 * ii + Z.of_nat m) st) as G.
        { induction m as [|m IHm]; intros Hm; [rewrite Z.add_0_r; auto|]. replace (32 * ii + Z.of_nat (S m)) with (32 * ii + Z.of_nat m + 1) by lia. apply Skip; [lia| |apply IHm; lia].
          destruct (both Am Bm Cm (32 * ii + Z.of_nat m)) eqn:Q; auto. exfalso. assert (In (32 * ii + Z.of_nat m) (setbits w (32 * ii) (32 * ii + 32))) as Hin.
          { apply in_setbits. split; [lia|]. rewrite Hw, Q. auto. }
          destruct (setbits w (32 * ii) (32 * ii + 32)); [destruct Hin|]. rewrite zlen_cons in Zr. pose proof (zlen_nonneg l). lia. }
        replace (32 * (ii + 1)) with (32 * ii + Z.of_nat 32) by lia. apply G. lia.
      + replace (32 * (ii + 1)) with ((ii + 1) * 32) by lia.
        match goal with |- exists s', forZ ?lo ?hi ?f ?s = _ /\ _ => destruct (forZ_inv Iv lo hi f s) as (st' & E' & I') end.
        * lia.
        * destruct I0 as (Q1 & Q2 & Q3). unfold Iv. cbn [fst snd]. replace (ii * 32) with (32 * ii) by lia. auto.
        * intros i st' Hi I'. rewrite bv_get_ok by lia. cbn [bind]. rewrite Hw. destruct (both Am Bm Cm i) as [q|] eqn:Q; cbn [is_some].
          -- destruct I' as (Q1 & Q2 & Q3). assert (0 <= i < cap) as Bi. { destruct (Z_lt_dec i cap); [lia|]. rewrite Out in Q by lia. discriminate. }
             pose proof Q as Q'. unfold both in Q'. destruct (Am (i + 1)) as [a|] eqn:Ea; [|discriminate]. destruct (Bm (i + 1)) as [b|] eqn:Eb; [|discriminate]. injection Q' as Q'.
             unfold rdi. rewrite (H1 i a Ea), (H2 i b Eb), (Q3 i Bi). cbn [bind]. destruct (Z.ltb_spec i i); [lia|]. rewrite wr_ok by lia. cbn [bind]. eexists. split; [reflexivity|].
             unfold Iv. cbn [fst snd]. rewrite zlen_upd, Ev, Q, Q2, Q' by lia. conjs; auto. intros k Hk. destruct (Z.eq_dec k i) as [->|Nk].
             ++ rewrite rd_upd_same by lia. destruct (Z.ltb_spec i (i + 1)); [|lia]. rewrite Q. auto.
             ++ rewrite rd_upd_other by lia. rewrite (Q3 k Hk). destruct (Z.ltb_spec k i), (Z.ltb_spec k (i + 1)); auto; lia.
          -- exists st'. split; auto. apply Skip; auto. lia.
        * exists st'. auto.
    - rewrite E. destruct st as [[v nz] e]. destruct I1 as (Q1 & Q2 & Q3). cbn [fst snd] in *. exists v, nz.
      assert (e = ev cap) as ->.
      { rewrite Q2. unfold ev. rewrite (zrange_app 0 cap (32 * num_ints_of cap)) by lia. rewrite flat_map_app.
        rewrite (flat_map_ext_in _ (fun _ => []) (zrange cap (32 * num_ints_of cap))); [rewrite flat_map_nil, app_nil_r; auto|]. intros k Hk. apply in_zrange in Hk. rewrite Out by lia. auto. }
      split; auto. split; auto. intros k Hk. rewrite (Q3 k Hk). destruct (Z.ltb_spec k (32 * num_ints_of cap)); [auto|lia].
  Qed.

  Lemma intersect_segment_spec cap (s1 : seg A abyte) (s2 : seg B bbyte) (s3 : seg C cbyte) Am Bm (Cm : Z -> C) b3 :
    swf sera thr s1 -> live s1 -> s_cap s1 = cap -> segM s1 Am ->
    swf serb thr s2 -> live s2 -> s_cap s2 = cap -> segM s2 Bm ->
    swf serc thr s3 -> s_cap s3 = cap -> quiet s3 -> s_prop s3 = Some b3 -> (forall k, 0 <= k < cap -> rd (b_value b3) k = Ok (Some (Cm k))) ->
    exists s', intersect_segment threads op s1 s2 s3 = Ok (s', flat_map (fun k => match both Am Bm Cm k with Some q => snd q | None => [] end) (zrange 0 cap)) /\
      swf serc thr s' /\ live s' /\ s_cap s' = cap /\ quiet s' /\ segM s' (fun k => option_map fst (both Am Bm Cm (k - 1))) /\
      exists b', s_prop s' = Some b' /\ forall k, 0 <= k < cap -> rd (b_value b') k = Ok (Some (match both Am Bm Cm k with Some q => fst q | None => Cm k end)).
  Proof.
    intros W1 V1 C1 A1 W2 V2 C2 A2 W3 C3 Q3 E3 Hc3. unfold intersect_segment.
    destruct (live_cells _ _ _ _ W1 V1 A1) as (b1 & w1 & Eb1 & Rb1 & T1 & D1). destruct (live_cells _ _ _ _ W2 V2 A2) as (b2 & w2 & Eb2 & Rb2 & T2 & D2).
    destruct (seg_init_spec serc thr threads s3 Hth W3) as (b & w3 & Ei & Rb & _ & _ & _ & Vb). rewrite E3 in Vb.
    rewrite Ei. cbn [bind]. unfold prop at 1. rewrite Eb1. cbn [bind]. destruct Rb1 as (Bw1 & U1 & Bb1 & Ww1). rewrite U1.
    unfold prop at 1. rewrite Eb2. cbn [bind]. destruct Rb2 as (Bw2 & U2 & Bb2 & Ww2). rewrite U2. rewrite prop_set_prop. cbn [bind].
    pose proof Rb as (Bw3 & U3 & Bb3 & Ww3). unfold words. rewrite Bb1, Bb2, Bb3. cbn [bind].
    pose proof W1 as (P0 & P1 & _). rewrite C1 in *. rewrite C2 in *. rewrite C3 in *. rewrite P1.
    destruct (and_words_spec (num_ints_of cap) w1 w2 w3) as (w & Ew & Lw & Tw); [apply Ww1|apply Ww2|apply Ww3|]. rewrite Ew. cbn [bind].
    assert (forall k, tb w k = is_some (both Am Bm Cm k)) as Tb. { intros k. rewrite Tw, T1, T2. unfold both. destruct (Am (k + 1)), (Bm (k + 1)); reflexivity. }
    assert (wwf cap w) as Ww. { split; auto. intros k Hk. rewrite Tw. rewrite (proj2 Ww1 k Hk). reflexivity. }
    assert (zlen (b_value b) = cap) as Lb. { destruct Bw3 as [(_ & _ & _ & L & _) _]. auto. }
    destruct (intersect_values_spec cap (b_value b1) (b_value b2) w (b_value b) Am Bm Cm P0 Ww Lb Tb) as (v & nz & Ev & Lv & Dv).
    { intros k a Ha. apply D1; auto. } { intros k a Ha. apply D2; auto. } { intros k Hk. rewrite Vb. auto. }
    rewrite Ev. cbn [bind fst snd]. rewrite set_prop_set_prop. eexists. split; [reflexivity|].
    pose proof (ready_change serc thr cap b w3 w v nz Rb Ww Lv) as Rn.
    assert (set_uninit false (set_nnz nz (set_bits w (set_value v b))) = set_nnz nz (set_value v (set_bits w b))) as En by (unfold set_uninit, set_nnz, set_bits, set_value; simpl; rewrite U3; auto).
    rewrite En in Rn. split; [apply swf_set_prop; auto; rewrite C3; apply Rn|]. split; [eexists; split; [reflexivity|apply Rn]|]. split; [auto|]. split; [auto|]. split.
    - intros k. unfold sabs. cbn [set_prop s_prop]. unfold babs. destruct Rn as (Bn & Un & Bbn & _). rewrite Un, Bbn. cbn [set_nnz set_value set_bits b_value]. unfold wabs. rewrite Tb. replace (k + 1 - 1) with k by lia.
      destruct (both Am Bm Cm k) as [q|] eqn:Q; simpl; auto. assert (0 <= k < cap) as Bk. { unfold both in Q. destruct (Am (k + 1)) eqn:Ea; [|discriminate]. apply (D1 k _ Ea). } rewrite (Dv k Bk), Q. auto.
    - eexists. split; [reflexivity|]. cbn [set_nnz set_value set_bits b_value]. auto.
  Qed.
End IntersectProofs.

Section ApplyProofs.
  Context {U V ubyte vbyte abyte : Type}.
  Variables (seru serv sera : bool) (thr : Z).
  Variable ap : U -> V -> V.
  Variable neq : V -> V -> bool.

  (** new property and whether it differs, given the optional reduced message and the old one *)
  Definition newp (m : option U) (p : V) : V := match m with Some u => ap u p | None => p end.
  Definition chg (m : option U) (p : V) : bool := match m with Some u => neq p (ap u p) | None => false end.

  Lemma apply_list cap st (u : list (option U)) v0 av0 aw0 (Um : Z -> option U) (P : Z -> V) : zlen v0 = cap -> zlen av0 = cap -> wwf cap aw0 ->
    (forall k, 0 <= k < cap -> rd v0 k = Ok (Some (P k))) -> (forall k, tb aw0 k = false) ->
    forall l, NoDup l -> (forall k, In k l -> 0 <= k < cap /\ exists m, Um k = Some m /\ rd u k = Ok (Some m)) ->
    exists v av aw, foldR (fun s k => apply_one ap neq st u k s) l (v0, av0, aw0, true, []) =
        Ok (v, av, aw, forallb (fun k => negb (chg (Um k) (P k))) l, map (fun k => Applied (st + k + 1)) l) /\
      zlen v = cap /\ zlen av = cap /\ wwf cap aw /\
      (forall k, 0 <= k < cap -> rd v k = Ok (Some (if memz k l then newp (Um k) (P k) else P k))) /\
      (forall k, tb aw k = memz k l && chg (Um k) (P k)) /\
      (forall k, tb aw k = true -> rd av k = Ok (Some true)).
  Proof.
    intros L0 La0 W0 H0 T0 l. induction l as [|k l IH] using rev_ind; intros Nd Hl.
    - exists v0, av0, aw0. split; [reflexivity|]. conjs; auto. intros k Hk. rewrite T0 in Hk. discriminate.
    - assert (NoDup l) as Nd' by (apply NoDup_remove_1 in Nd; rewrite app_nil_r in Nd; auto). assert (~ In k l) as Nk by (apply NoDup_remove_2 in Nd; rewrite app_nil_r in Nd; auto).
      destruct IH as (v & av & aw & E & Lv & Lav & Ww & Dv & Tw & Dav); auto. { intros; apply Hl; apply in_or_app; auto. }
      destruct (Hl k ltac:(apply in_or_app; simpl; auto)) as (Bk & m & Em & Ru). rewrite foldR_app, E. cbn [bind foldR apply_one].
      assert (memz k l = false) as Mk. { destruct (memz k l) eqn:Q; auto. apply memz_in in Q. contradiction. }
      assert (forall k', memz k' (l ++ [k]) = memz k' l || (k' =? k)) as Mx. { intros k'. unfold memz. rewrite existsb_app. simpl. rewrite orb_false_r. reflexivity. }
      pose proof (Dv k Bk) as Dk. rewrite Mk in Dk. unfold rdi. rewrite Dk, Ru. cbn [bind]. rewrite wr_ok by lia. cbn [bind].
      assert (chg (Um k) (P k) = neq (P k) (ap m (P k))) as Ck by (unfold chg; rewrite Em; auto).
      assert (newp (Um k) (P k) = ap m (P k)) as Nw by (unfold newp; rewrite Em; auto).
      assert (forall k', 0 <= k' < cap -> rd (upd v (Z.to_nat k) (Some (ap m (P k)))) k' = Ok (Some (if memz k' (l ++ [k]) then newp (Um k') (P k') else P k'))) as Dv'.
      { intros k' Hk'. rewrite Mx. destruct (Z.eqb_spec k' k) as [->|N].
        - rewrite rd_upd_same by lia. rewrite Mk, Nw. auto.
        - rewrite rd_upd_other by lia. rewrite orb_false_r. auto. }
      rewrite map_app, forallb_app. cbn [map forallb]. rewrite Ck, andb_true_r. destruct (neq (P k) (ap m (P k))) eqn:Ch.
      + rewrite wr_ok by lia. cbn [bind]. pose proof Ww as [Ww1 Ww2]. pose proof (num_ints_bounds cap ltac:(lia)) as NB.
        destruct (bv_set_ok aw k ltac:(lia)) as (aw' & Ea & La' & Ta' & _). rewrite Ea. cbn [bind negb]. rewrite andb_false_r.
        eexists _, _, _. split; [reflexivity|]. rewrite !zlen_upd. assert (forall k', tb aw' k' = memz k' (l ++ [k]) && chg (Um k') (P k')) as Tw'.
        { intros k'. rewrite Ta', Tw, Mx. destruct (Z.eqb_spec k' k) as [->|N]; [rewrite Ck, orb_true_r; reflexivity|rewrite orb_false_r; reflexivity]. }
        split; [auto|]. split; [auto|]. split; [split; [lia|intros j Hj; rewrite Ta', Ww2 by lia; destruct (Z.eqb_spec j k); [lia|auto]]|]. split; [auto|]. split; [auto|].
        intros k' Hk'. destruct (Z.eq_dec k' k) as [->|N]; [rewrite rd_upd_same by lia; auto|]. rewrite rd_upd_other by lia. apply Dav. rewrite Ta' in Hk'. destruct (Z.eqb_spec k' k); [contradiction|auto].
      + cbn [negb]. rewrite andb_true_r. eexists _, _, _. split; [reflexivity|]. rewrite !zlen_upd. conjs; auto. intros k'. rewrite Tw, Mx. destruct (Z.eqb_spec k' k) as [->|N]; [rewrite Ck, !andb_false_r; auto|rewrite orb_false_r; auto].
  Qed.

  Lemma apply_segment_spec cap st (sy : seg U ubyte) (sv : seg V vbyte) (sa : seg bool abyte) (Y : Z -> option U) (P : Z -> V) Pm :
    swf seru thr sy -> live sy -> s_cap sy = cap -> segM sy Y ->
    swf serv thr sv -> live sv -> s_cap sv = cap -> segM sv Pm -> (forall k, 1 <= k <= cap -> Pm k = Some (P k)) -> (forall k, ~ (1 <= k <= cap) -> Pm k = None) ->
    swf sera thr sa -> live sa -> s_cap sa = cap -> segM sa (fun _ => None) -> quiet sv -> quiet sa ->
    exists sv' sa', apply_segment ap neq st sy sv sa =
        Ok (sv', sa', forallb (fun k => negb (chg (Y k) (P k))) (zrange 1 (cap + 1)), map (fun k => Applied (st + k)) (members cap Y)) /\
      swf serv thr sv' /\ live sv' /\ s_cap sv' = cap /\ quiet sv' /\ segM sv' (fun k => if (1 <=? k) && (k <=? cap) then Some (newp (Y k) (P k)) else None) /\
      swf sera thr sa' /\ live sa' /\ s_cap sa' = cap /\ quiet sa' /\ segM sa' (fun k => if ((1 <=? k) && (k <=? cap)) && chg (Y k) (P k) then Some true else None).
  Proof.
    intros Wy Vy Cy Ay Wv Vv Cv Av HP HPn Wa Va Ca Aa Qv Qa. unfold apply_segment.
    destruct (live_cells _ _ _ _ Wy Vy Ay) as (by_ & wy & Eby & Rby & Ty & Dy). destruct (live_cells _ _ _ _ Wv Vv Av) as (bv & wv & Ebv & Rbv & Tv & Dv).
    destruct (live_cells _ _ _ _ Wa Va Aa) as (ba & wa & Eba & Rba & Ta & Da). pose proof Wy as (C0 & Ny & _).
    rewrite Cy in *. rewrite Cv in *. rewrite Ca in *.
    pose proof Rby as (Bwy & Uy & Bby & Wwy). pose proof Rbv as (Bwv & Uv & Bbv & Wwv). pose proof Rba as (Bwa & Ua & Bba & Wwa).
    unfold prop at 1. rewrite Eby. cbn [bind]. unfold words at 1. rewrite Bby. cbn [bind]. unfold prop at 1. rewrite Ebv. cbn [bind]. unfold prop at 1. rewrite Eba. cbn [bind]. unfold words at 1. rewrite Bba. cbn [bind].
    pose proof (num_ints_bounds cap C0) as NB. rewrite Ny.
    match goal with |- context [forZ 0 ?hi ?f ?s0] => rewrite (scan_words (fun k s => apply_one ap neq st (b_value by_) k s) wy hi s0) by (destruct Wwy; lia) end.
    rewrite (setbits_tail wy cap) by (try lia; apply Wwy).
    destruct (apply_list cap st (b_value by_) (b_value bv) (b_value ba) wa (fun k => Y (k + 1)) (fun k => P (k + 1))) with (l := setbits wy 0 cap) as (v & av & aw & E & Lv & Lav & Ww & Dv' & Tw & Dav); auto.
    { apply Bwv. } { apply Bwa. } { intros k Hk. apply Dv. apply HP. lia. } { apply NoDup_setbits. }
    { intros k Hk. apply in_setbits in Hk as [Bk Hk]. split; [lia|]. rewrite Ty in Hk. destruct (Y (k + 1)) as [m|] eqn:Em; [|discriminate]. exists m. split; auto. apply Dy; auto. }
    rewrite E. cbn [bind].
    assert (forall k, memz k (setbits wy 0 cap) = ((0 <=? k) && (k <? cap)) && is_some (Y (k + 1))) as Mem.
    { intros k. destruct (memz k (setbits wy 0 cap)) eqn:Q.
      - apply memz_in in Q. apply in_setbits in Q as [Bk Q]. rewrite Ty in Q. rewrite Q. destruct (Z.leb_spec 0 k), (Z.ltb_spec k cap); auto; lia.
      - symmetry. destruct (Z.leb_spec 0 k), (Z.ltb_spec k cap); auto. simpl. rewrite <- Ty. destruct (tb wy k) eqn:T; auto. assert (memz k (setbits wy 0 cap) = true) as Q'; [|congruence]. apply memz_in, in_setbits. auto. }
    assert (zrange 1 (cap + 1) = map (fun k => k + 1) (zrange 0 cap)) as Zr.
    { unfold zrange, zseq. rewrite map_map. replace (cap + 1 - 1) with (cap - 0) by lia. apply map_ext. intros; lia. }
    eexists _, _. split.
    - f_equal. f_equal; [f_equal|].
      + rewrite Zr. assert (forall l, (forall k, In k l -> 0 <= k < cap) -> forallb (fun k => negb (chg (Y (k + 1)) (P (k + 1)))) (filter (tb wy) l) = forallb (fun k => negb (chg (Y k) (P k))) (map (fun k => k + 1) l)) as G.
        { induction l as [|k l IH]; intros Hl; simpl; auto. rewrite Ty. rewrite <- IH by (intros; apply Hl; simpl; auto). destruct (Y (k + 1)) eqn:Q; simpl; auto. rewrite Q. auto. }
        apply G. intros k Hk. apply in_zrange in Hk. lia.
      + assert (members cap Y = map (fun k => k + 1) (setbits wy 0 cap)) as ->.
        { unfold members, setbits. rewrite Zr. generalize (zrange 0 cap) as l. induction l as [|k l IH]; simpl; auto. rewrite Ty. destruct (is_some (Y (k + 1))); simpl; congruence. }
        rewrite map_map. apply map_ext. intros k. f_equal. lia.
    - assert (ready serv thr cap (set_value v bv) wv) as Rv.
      { pose proof (ready_change serv thr cap bv wv wv v (b_nnz bv) Rbv Wwv Lv) as Q. replace (set_uninit false (set_nnz (b_nnz bv) (set_bits wv (set_value v bv)))) with (set_value v bv) in Q; auto.
        clear -Uv Bbv. destruct bv; cbn in *; subst; reflexivity. }
      assert (ready sera thr cap (set_bits aw (set_value av ba)) aw) as Ra.
      { pose proof (ready_change sera thr cap ba wa aw av (b_nnz ba) Rba Ww Lav) as Q. replace (set_uninit false (set_nnz (b_nnz ba) (set_bits aw (set_value av ba)))) with (set_bits aw (set_value av ba)) in Q; auto.
        clear -Ua Bba. destruct ba; cbn in *; subst; reflexivity. }
      split; [apply swf_set_prop; auto; rewrite Cv; apply Rv|]. split; [eexists; split; [reflexivity|apply Rv]|]. split; [auto|]. split; [auto|]. split.
      { intros k. unfold sabs. cbn [set_prop s_prop]. unfold babs. destruct Rv as (_ & -> & -> & _). cbn [set_value b_value]. unfold wabs. rewrite Tv.
        destruct (Z.leb_spec 1 (k + 1)), (Z.leb_spec (k + 1) cap); cbn [andb option_map]; try (rewrite HPn by lia; auto; fail). rewrite HP by lia. cbn [is_some]. rewrite Dv' by lia. rewrite Mem.
        destruct (Z.leb_spec 0 k), (Z.ltb_spec k cap); try lia. simpl. destruct (Y (k + 1)); auto. }
      split; [apply swf_set_prop; auto; rewrite Ca; apply Ra|]. split; [eexists; split; [reflexivity|apply Ra]|]. split; [auto|]. split; [auto|].
      intros k. unfold sabs. cbn [set_prop s_prop]. unfold babs. destruct Ra as (_ & -> & -> & _). cbn [set_bits set_value b_value]. unfold wabs. destruct (tb aw k) eqn:T.
      + rewrite (Dav k T). rewrite Tw, Mem in T. apply andb_prop in T as [T1 T2]. rewrite T2. apply andb_prop in T1 as [T1 _]. destruct (Z.leb_spec 0 k), (Z.ltb_spec k cap); try discriminate. destruct (Z.leb_spec 1 (k + 1)), (Z.leb_spec (k + 1) cap); try lia. auto.
      + rewrite Tw, Mem in T. destruct (Z.leb_spec 1 (k + 1)), (Z.leb_spec (k + 1) cap); auto. simpl. destruct (Z.leb_spec 0 k), (Z.ltb_spec k cap); try lia. simpl in T. destruct (Y (k + 1)); auto. simpl in *. rewrite T. auto.
  Qed.
End ApplyProofs.
