(** The remaining operations on a loaded graph. *)
From Verif Require Import BaseLemmas Layout LayoutProofs Reduce ReduceProofs Bits BitsProofs Segment SegmentProofs TransferProofs UnionProofs SegHistory SegHistoryProofs SegFinal Bucket BucketProofs Vec VecProofs VecProofs2 GraphVertProofs ListLemmas DCSC DCSCProofs DCSCBuild Kernel MatSpec TileProofs SpMat SpMatProofs SpMSpV DistProofs MultProofs GraphVert Graph GraphProofs Runtime RunSegProofs RunSpec HeldProofs RuntimeProofs GraphOps.

(** the segment after alloc and initialize *)
Lemma init_cells {T byte} ser thr threads (s : seg T byte) M : thok ser thr threads -> swf ser thr s -> segM s M ->
  exists b w, seg_initialize (seg_alloc threads s) = Ok (set_prop (Some b) s) /\ ready ser thr (s_cap s) b w /\ zlen (b_value b) = s_cap s /\
    (forall k, tb w k = is_some (M (k + 1))) /\ (forall k a, M (k + 1) = Some a -> 0 <= k < s_cap s /\ rd (b_value b) k = Ok (Some a)).
Proof.
  intros Ht W A. destruct (seg_init_spec ser thr threads s Ht W) as (b & w & Ei & Rb & Ab & _). exists b, w. split; auto. split; auto.
  pose proof Rb as ([(_ & _ & _ & L & _) _] & U & Bb & Ww). split; auto.
  assert (dmap w (b_value b) (fun k => M (k + 1))) as D. { intros k. rewrite <- A, <- Ab. unfold babs. rewrite U, Bb. reflexivity. }
  split; intros k.
  - pose proof (dmap_cell (s_cap s) w (b_value b) _ k Ww L D) as C. cbv beta in C. destruct (M (k + 1)); tauto.
  - intros a Ha. pose proof (dmap_cell (s_cap s) w (b_value b) _ k Ww L D) as C. cbv beta in C. rewrite Ha in C. destruct C as [_ C]. split; auto. apply rd_bounds in C. lia.
Qed.
(** putting new values and words of the same members back *)
Lemma put_cells {T byte} ser thr (s : seg T byte) M b w w' v nz : swf ser thr s -> ready ser thr (s_cap s) b w ->
  (forall k, tb w' k = is_some (M (k + 1))) -> wwf (s_cap s) w' -> zlen v = s_cap s -> (forall k a, M (k + 1) = Some a -> rd v k = Ok (Some a)) ->
  swf ser thr (set_prop (Some (set_nnz nz (set_value v (set_bits w' b)))) s) /\ live (set_prop (Some (set_nnz nz (set_value v (set_bits w' b)))) s) /\ segM (set_prop (Some (set_nnz nz (set_value v (set_bits w' b)))) s) M.
Proof.
  intros W Rb Tw Ww L Dv. pose proof Rb as (_ & U & _).
  pose proof (ready_change ser thr (s_cap s) b w w' v nz Rb Ww L) as Rn.
  assert (set_uninit false (set_nnz nz (set_bits w' (set_value v b))) = set_nnz nz (set_value v (set_bits w' b))) as En by (unfold set_uninit, set_nnz, set_bits, set_value; simpl; rewrite U; auto).
  rewrite En in Rn. split; [apply swf_set_prop; auto; apply Rn|]. split; [eexists; split; [reflexivity|apply Rn]|].
  intros k. unfold sabs. cbn [set_prop s_prop]. unfold babs. destruct Rn as (Bn & Un & Bbn & _). rewrite Un, Bbn. cbn [set_nnz set_value set_bits b_value]. unfold wabs. rewrite Tw.
  destruct (M (k + 1)) as [a|] eqn:Q; simpl; auto. rewrite (Dv k a Q). auto.
Qed.

Section ApplySeg.
  Context {V byte : Type}.
  Variables (ser : bool) (thr threads : Z).
  Hypothesis Hth : thok ser thr threads.
  Variable f : V -> V -> V.

  Lemma apply_values_spec cap w v (M : Z -> option V) : 0 <= cap -> wwf cap w -> zlen v = cap ->
    (forall k, tb w k = is_some (M (k + 1))) -> (forall k a, M (k + 1) = Some a -> 0 <= k < cap /\ rd v k = Ok (Some a)) ->
    exists v' nz, apply_values f w (num_ints_of cap) v = Ok (v', nz) /\ zlen v' = cap /\ forall k a, M (k + 1) = Some a -> rd v' k = Ok (Some (f a a)).
  Proof.
    intros Hc [Lw Tw] L3 Hw H1. pose proof (num_ints_bounds cap Hc) as NB. unfold apply_values.
    set (Iv := fun i (st : list (option V) * Z) => zlen (fst st) = cap /\ forall k a, M (k + 1) = Some a -> rd (fst st) k = Ok (Some (if k <? i then f a a else a))).
    assert (forall i st, M (i + 1) = None -> Iv i st -> Iv (i + 1) st) as Skip.
    { intros i st N (Q1 & Q3). split; auto. intros k a Ha. rewrite (Q3 k a Ha).
      destruct (Z.ltb_spec k i), (Z.ltb_spec k (i + 1)); auto; try lia. replace k with i in Ha by lia. congruence. }
    match goal with |- context [forZ 0 ?hi ?f ?s0] => destruct (forZ_inv (fun ii st => Iv (32 * ii) st) 0 hi f s0) as (st & E & I1) end.
    - lia.
    - split; [auto|]. intros k a Ha. destruct (H1 k a Ha). destruct (Z.ltb_spec k (32 * 0)); [lia|]. auto.
    - intros ii st Hii I0. destruct (rd_ok w ii ltac:(lia)) as [wd Ewd]. rewrite Ewd. cbn [bind]. rewrite (popcnt_setbits w ii wd Ewd).
      destruct (Z.eqb_spec (zlen (setbits w (32 * ii) (32 * ii + 32))) 0) as [Zr|Nz].
      + exists st. split; auto. assert (forall m : nat, (m <= 32)%nat -> Iv (32 * ii + Z.of_nat m) st) as G.
        { induction m as [|m IHm]; intros Hm; [rewrite Z.add_0_r; auto|]. replace (32 * ii + Z.of_nat (S m)) with (32 * ii + Z.of_nat m + 1) by lia. apply Skip; [|apply IHm; lia].
          destruct (M (32 * ii + Z.of_nat m + 1)) eqn:Q; auto. exfalso. assert (In (32 * ii + Z.of_nat m) (setbits w (32 * ii) (32 * ii + 32))) as Hin.
          { apply in_setbits. split; [lia|]. rewrite Hw, Q. auto. }
          destruct (setbits w (32 * ii) (32 * ii + 32)); [destruct Hin|]. rewrite zlen_cons in Zr. pose proof (zlen_nonneg l). lia. }
        replace (32 * (ii + 1)) with (32 * ii + Z.of_nat 32) by lia. apply G. lia.
      + replace (32 * (ii + 1)) with ((ii + 1) * 32) by lia.
        match goal with |- exists s', forZ ?lo ?hi ?f ?s0 = _ /\ _ => destruct (forZ_inv Iv lo hi f s0) as (st' & E' & I') end.
        * lia.
        * destruct I0 as (Q1 & Q3). unfold Iv. cbn [fst snd]. replace (ii * 32) with (32 * ii) by lia. auto.
        * intros i st' Hi I'. rewrite bv_get_ok by lia. cbn [bind]. rewrite Hw. destruct (M (i + 1)) as [a|] eqn:Q; cbn [is_some].
          -- destruct I' as (Q1 & Q3). destruct (H1 i a Q) as [Bi _]. unfold rdi. rewrite (Q3 i a Q). cbn [bind]. destruct (Z.ltb_spec i i); [lia|]. rewrite wr_ok by lia. cbn [bind]. eexists. split; [reflexivity|].
             split; cbn [fst]; [rewrite zlen_upd; auto|]. intros k a' Ha. destruct (H1 k a' Ha) as [Bk _]. destruct (Z.eq_dec k i) as [->|Nk].
             ++ rewrite rd_upd_same by lia. destruct (Z.ltb_spec i (i + 1)); [|lia]. congruence.
             ++ rewrite rd_upd_other by lia. rewrite (Q3 k a' Ha). destruct (Z.ltb_spec k i), (Z.ltb_spec k (i + 1)); auto; lia.
          -- exists st'. split; auto.
        * exists st'. auto.
    - rewrite E. destruct st as [v' nz]. destruct I1 as (Q1 & Q3). cbn [fst snd] in *. exists v', nz. split; auto. split; auto.
      intros k a Ha. rewrite (Q3 k a Ha). destruct (H1 k a Ha). destruct (Z.ltb_spec k (32 * num_ints_of cap)); [auto|lia].
  Qed.

  Lemma or_words_spec w ni : zlen w = ni -> exists w', or_words w w ni = Ok w' /\ zlen w' = ni /\ forall k, tb w' k = tb w k.
  Proof.
    intros L. destruct (UnionProofs.or_words ni w w L L) as (w' & E & L' & T). exists w'. split; [|split; auto].
    - exact E.
    - intros k. rewrite T. apply orb_diag.
  Qed.

  Lemma apply_to_segment_spec (s : seg V byte) M : swf ser thr s -> segM s M ->
    exists s', apply_to_segment threads f s = Ok s' /\ swf ser thr s' /\ live s' /\ s_cap s' = s_cap s /\ (quiet s -> quiet s') /\ segM s' (fun k => option_map (fun a => f a a) (M k)).
  Proof.
    intros W A. unfold apply_to_segment. destruct (init_cells ser thr threads s M Hth W A) as (b & w & Ei & Rb & L & Tw & Dw). rewrite Ei. cbn [bind]. rewrite prop_set_prop. cbn [bind].
    pose proof Rb as (_ & _ & Bb & Ww). unfold words. rewrite Bb. cbn [bind]. cbn [set_prop s_nints]. pose proof W as (C0 & C1 & _). rewrite C1.
    destruct (or_words_spec w (num_ints_of (s_cap s)) (proj1 Ww)) as (w' & Ew & Lw & Tw'). rewrite Ew. cbn [bind].
    assert (wwf (s_cap s) w') as Ww'. { split; auto. intros k Hk. rewrite Tw'. apply Ww. auto. }
    destruct (apply_values_spec (s_cap s) w' (b_value b) M C0 Ww' L) as (v & nz & Ev & Lv & Dv); auto. { intros k. rewrite Tw'. auto. }
    rewrite Ev. cbn [bind fst snd]. change (set_prop ?x (set_prop ?y s)) with (set_prop x s).
    destruct (put_cells ser thr s (fun k => option_map (fun a => f a a) (M k)) b w w' v nz) as (W' & L' & A'); auto.
    { intros k. rewrite Tw', Tw. destruct (M (k + 1)); reflexivity. }
    { intros k a Ha. destruct (M (k + 1)) as [a0|] eqn:Q; [|discriminate]. injection Ha as <-. auto. }
    eexists. split; [reflexivity|]. auto.
  Qed.
End ApplySeg.

Section ReduceSeg.
  Context {V W byte : Type}.
  Variables (ser : bool) (thr threads : Z).
  Hypothesis Hth : thok ser thr threads.
  Variable mp : V -> V * W.
  Variable op : W -> W -> W.
  Hypothesis Ha : associative op.

  (** the mapped values at positions [lo .. hi) *)
  Definition mapped (M : Z -> option V) (lo hi : Z) : list W := flat_map (fun k => match M (k + 1) with Some a => [snd (mp a)] | None => [] end) (zrange lo hi).
  Definition remap (M : Z -> option V) (k : Z) : option V := option_map (fun a => fst (mp a)) (M k).
  Lemma mapped_snoc M lo i : lo <= i -> mapped M lo (i + 1) = mapped M lo i ++ match M (i + 1) with Some a => [snd (mp a)] | None => [] end.
  Proof. intros H. unfold mapped. rewrite zrange_snoc by lia. rewrite flat_map_app. cbn [flat_map]. rewrite app_nil_r. auto. Qed.
  Lemma mapped_app M lo i hi : lo <= i <= hi -> mapped M lo hi = mapped M lo i ++ mapped M i hi.
  Proof. intros H. unfold mapped. rewrite (zrange_app lo i hi) by lia. apply flat_map_app. Qed.

  Definition bnd (cap p : Z) : Z := let per := Z.quot (cap + threads - 1) threads in if per * p >? cap then cap else per * p.
  Lemma bnd_props cap : 0 <= cap -> bnd cap 0 = 0 /\ bnd cap threads = cap /\ forall p, 0 <= p -> 0 <= bnd cap p <= bnd cap (p + 1) /\ bnd cap (p + 1) <= cap.
  Proof.
    intros Hc. destruct Hth as [Ht _]. unfold bnd. rewrite (quot_div (cap + threads - 1) threads) by lia.
    assert (0 <= (cap + threads - 1) / threads) as P0 by (apply Z.div_pos; lia).
    assert (cap <= (cap + threads - 1) / threads * threads) as P1. { pose proof (Z.div_mod (cap + threads - 1) threads ltac:(lia)). pose proof (Z.mod_pos_bound (cap + threads - 1) threads ltac:(lia)). nia. }
    set (per := (cap + threads - 1) / threads) in *. clearbody per. cbv zeta. split; [|split].
    - rewrite Z.mul_0_r. destruct (Z.gtb_spec 0 cap); lia.
    - destruct (Z.gtb_spec (per * threads) cap); lia.
    - intros p Hp. destruct (Z.gtb_spec (per * p) cap), (Z.gtb_spec (per * (p + 1)) cap); nia.
  Qed.

  (** values rewritten below [i] *)
  Definition done (cap : Z) (M : Z -> option V) (i : Z) (v : list (option V)) : Prop :=
    zlen v = cap /\ forall k a, M (k + 1) = Some a -> rd v k = Ok (Some (if k <? i then fst (mp a) else a)).

  Lemma part_spec cap w M v p : 0 <= cap -> wwf cap w -> (forall k, tb w k = is_some (M (k + 1))) -> (forall k a, M (k + 1) = Some a -> 0 <= k < cap) ->
    0 <= p -> done cap M (bnd cap p) v ->
    exists v', mapreduce_part threads mp op w cap p v = Ok (v', red op (mapped M (bnd cap p) (bnd cap (p + 1)))) /\ done cap M (bnd cap (p + 1)) v'.
  Proof.
    intros Hc [Lw _] Tw Bm Hp D. unfold mapreduce_part. change (let per := Z.quot (cap + threads - 1) threads in if per * ?x >? cap then cap else per * ?x) with (bnd cap x).
    fold (bnd cap p) (bnd cap (p + 1)). destruct (bnd_props cap Hc) as (_ & _ & B). specialize (B p Hp). pose proof (num_ints_bounds cap Hc) as NB.
    match goal with |- context [forZ ?lo ?hi ?f ?s0] => destruct (forZ_inv (fun i st => done cap M i (fst st) /\ snd st = red op (mapped M lo i)) lo hi f s0) as (st & E & I1 & I2) end.
    - lia.
    - split; auto. unfold mapped. rewrite zrange_nil by lia. reflexivity.
    - intros i st Hi [Q1 Q2]. rewrite bv_get_ok by lia. cbn [bind]. rewrite Tw. destruct (M (i + 1)) as [a|] eqn:Q; cbn [is_some].
      + destruct Q1 as [L Q1]. unfold rdi. rewrite (Q1 i a Q). destruct (Z.ltb_spec i i); [lia|]. cbn [bind]. rewrite wr_ok by lia. cbn [bind]. eexists. split; [reflexivity|]. cbn [fst snd]. split.
        * split; [rewrite zlen_upd; auto|]. intros k a' Ha'. pose proof (Bm k a' Ha'). destruct (Z.eq_dec k i) as [->|N].
          -- rewrite rd_upd_same by lia. destruct (Z.ltb_spec i (i + 1)); [|lia]. congruence.
          -- rewrite rd_upd_other by lia. rewrite (Q1 k a' Ha'). destruct (Z.ltb_spec k i), (Z.ltb_spec k (i + 1)); auto; lia.
        * rewrite mapped_snoc, Q, red_snoc, <- Q2 by lia. destruct (snd st); reflexivity.
      + exists st. split; auto. destruct Q1 as [L Q1]. split.
        * split; auto. intros k a' Ha'. rewrite (Q1 k a' Ha'). destruct (Z.ltb_spec k i), (Z.ltb_spec k (i + 1)); auto; try lia. replace k with i in Ha' by lia. congruence.
        * rewrite mapped_snoc, Q, app_nil_r by lia. auto.
    - exists (fst st). split; auto. rewrite <- I2. rewrite E. destruct st; reflexivity.
  Qed.

  Lemma fold_locals ls : forall res, Some (fold_left (fun acc l => match l with Some x => op acc x | None => acc end) ls res) = red op (res :: flat_map olist ls).
  Proof.
    induction ls as [|[x|] ls IH]; intros res; cbn [fold_left flat_map olist app]; [|rewrite IH|rewrite IH]; reflexivity.
  Qed.

  Lemma mapreduce_segment_spec (s : seg V byte) M res : swf ser thr s -> segM s M ->
    exists s' res', mapreduce_segment threads mp op s res = Ok (s', res') /\ swf ser thr s' /\ live s' /\ s_cap s' = s_cap s /\ (quiet s -> quiet s') /\ segM s' (remap M) /\
      Some res' = red op (res :: mapped M 0 (s_cap s)).
  Proof.
    intros Ws A. unfold mapreduce_segment. destruct (init_cells ser thr threads s M Hth Ws A) as (b & w & Ei & Rb & L & Tw & Dw). rewrite Ei. cbn [bind]. rewrite prop_set_prop. cbn [bind].
    pose proof Rb as (_ & _ & Bb & Ww). unfold words. rewrite Bb. cbn [bind]. cbn [set_prop s_cap]. pose proof Ws as (C0 & C1 & _).
    destruct (bnd_props (s_cap s) C0) as (B0 & BT & B).
    match goal with |- context [forZ ?lo ?hi ?f ?s0] => destruct (forZ_inv (fun p st => done (s_cap s) M (bnd (s_cap s) p) (fst st) /\ snd st = map (fun p => red op (mapped M (bnd (s_cap s) p) (bnd (s_cap s) (p + 1)))) (zrange 0 p)) lo hi f s0) as (st & E & I1 & I2) end.
    - destruct Hth; lia.
    - cbn [fst snd]. rewrite B0. split; [|rewrite zrange_nil by lia; reflexivity]. split; auto. intros k a Ha'. destruct (Dw k a Ha'). destruct (Z.ltb_spec k 0); [lia|auto].
    - intros p st Hp [Q1 Q2]. destruct (part_spec (s_cap s) w M (fst st) p) as (v' & Ev & Dv); auto; [intros k a Ha'; apply (Dw k a Ha')|lia|]. rewrite Ev. cbn [bind fst snd]. eexists. split; [reflexivity|]. cbn [fst snd].
      split; auto. rewrite Q2, zrange_snoc, map_app by lia. reflexivity.
    - rewrite E. cbn [bind]. rewrite BT in I1. destruct I1 as [Lv Dv]. change (set_prop ?x (set_prop ?y s)) with (set_prop x s).
      assert (set_value (fst st) b = set_nnz (b_nnz b) (set_value (fst st) (set_bits w b))) as Eb. { destruct b; cbn in *. rewrite Bb. reflexivity. }
      destruct (put_cells ser thr s (remap M) b w w (fst st) (b_nnz b)) as (W' & L' & A'); auto.
      { intros k. rewrite Tw. unfold remap. destruct (M (k + 1)); reflexivity. }
      { intros k a Ha'. unfold remap in Ha'. destruct (M (k + 1)) as [a0|] eqn:Q; [|discriminate]. injection Ha' as <-. rewrite (Dv k a0 Q). destruct (Dw k a0 Q). destruct (Z.ltb_spec k (s_cap s)); [auto|lia]. }
      rewrite <- Eb in *. eexists _, _. split; [reflexivity|]. split; [auto|]. split; [auto|]. split; [auto|]. split; [auto|]. split; [auto|].
      rewrite fold_locals, I2. rewrite flat_map_concat_map, map_map, <- flat_map_concat_map.
      change (res :: ?l) with ([res] ++ l). rewrite !red_app by auto. f_equal. rewrite red_reds by auto.
      assert (forall m, 0 <= m -> flat_map (fun p => mapped M (bnd (s_cap s) p) (bnd (s_cap s) (p + 1))) (zrange 0 m) = mapped M 0 (bnd (s_cap s) m)) as G.
      { apply natlike_ind.
        - rewrite B0. unfold mapped. rewrite !zrange_nil by lia. reflexivity.
        - intros m Hm IH. unfold Z.succ. rewrite zrange_snoc, flat_map_app, IH by lia. cbn [flat_map]. rewrite app_nil_r. symmetry. apply mapped_app. pose proof (B m Hm). lia. }
      destruct Hth. rewrite G by lia. rewrite BT. reflexivity.
  Qed.
End ReduceSeg.

Lemma zrange_flat lo (f : Z -> Z) m : 0 <= m -> f 0 = lo -> (forall i, 0 <= i < m -> f i <= f (i + 1)) -> flat_map (fun i => zrange (f i) (f (i + 1))) (zrange 0 m) = zrange lo (f m).
Proof.
  intros Hm H0 Hf.
  assert (forall k, 0 <= k -> k <= m -> lo <= f k /\ flat_map (fun i => zrange (f i) (f (i + 1))) (zrange 0 k) = zrange lo (f k)) as G; [|apply G; lia].
  apply (natlike_ind (fun k => k <= m -> lo <= f k /\ flat_map (fun i => zrange (f i) (f (i + 1))) (zrange 0 k) = zrange lo (f k))).
  - intros _. rewrite (zrange_nil 0 0), (zrange_nil lo (f 0)) by lia. split; [lia|reflexivity].
  - intros k Hk IH Hk'. unfold Z.succ in *. destruct IH as [L IH]; [lia|]. specialize (Hf k ltac:(lia)). split; [lia|].
    rewrite zrange_snoc, flat_map_app, IH by lia. cbn [flat_map]. rewrite app_nil_r. symmetry. apply zrange_app. lia.
Qed.

Section HeldOps2.
  Context {V byte : Type}.
  Notation sg := (seg V byte).
  Variable ser : bool.
  Variable thr : Z.
  Variables n ns nr : Z.
  Hypothesis Hn : 0 <= n.
  Hypothesis Hs : 1 <= ns.
  Hypothesis Hr : 1 <= nr.
  Variable threads : Z.
  Hypothesis Hth : thok ser thr threads.
  Notation held := (held (byte:=byte) ser thr n ns nr).
  Notation ow := (ow nr).

  Lemma restr_map {A B} (f : A -> B) (M : Z -> option A) j k : restr n ns (fun id => option_map f (M id)) j k = option_map f (restr n ns M j k).
  Proof. unfold restr. destruct (_ && _); reflexivity. Qed.

  Lemma held_each f (v : list (list sg)) M M' : held v M ->
    (forall j s, 0 <= j < ns -> fine ser thr n ns j s (restr n ns M j) -> exists s', f s = Ok s' /\ fine ser thr n ns j s' (restr n ns M' j) /\ live s') ->
    exists v', on_ranks nr (fun r segs => each_owned ns nr r (fun _ s => f s) segs) v = Ok v' /\ held v' M' /\ hlive nr v'.
  Proof.
    intros [D F] Hf. unfold on_ranks, each_owned.
    assert (exists v', tab2 nr ns (fun r j => do s <- rd2 v r j ;; do o <- vown ns nr j ;; if o =? r then f s else Ok s) = Ok v' /\ dims nr ns v' /\
       forall r j s', rd2 v' r j = Ok s' -> fine ser thr n ns j s' (if ow j =? r then restr n ns M' j else fun _ => None) /\ (ow j = r -> live s')) as (v' & E & D' & I0).
    { apply tab2_ex; [lia|lia|]. intros r j Br Bj. destruct (dims_rd2 _ _ _ r j D Br Bj) as [s Es]. rewrite Es. cbn [bind]. rewrite vown_ok by lia. cbn [bind].
      pose proof (F r j s Es) as Fs. destruct (Z.eqb_spec (ow j) r) as [Eo|No].
      - destruct (Hf j s Bj Fs) as (s' & Ef & F' & L'). eauto.
      - exists s. split; auto. split; auto. intros; contradiction. }
    exists v'. split; [|split].
    - rewrite <- E. unfold tab2. apply mapR_ext. intros r Br. apply in_zrange in Br. destruct (rd_ok v r) as [segs Er]; [destruct D; lia|]. unfold rd2. rewrite Er. cbn [bind]. reflexivity.
    - split; auto. intros r j s' Es. apply (I0 r j s' Es).
    - intros j s' Es. apply (I0 _ j s' Es). auto.
  Qed.

  Lemma held_apply f (v : list (list sg)) M : held v M ->
    exists v', on_ranks nr (fun r segs => each_owned ns nr r (fun _ s => apply_to_segment threads f s) segs) v = Ok v' /\ held v' (fun id => option_map (fun a => f a a) (M id)) /\ hlive nr v'.
  Proof.
    intros Hv. apply (held_each _ v M _ Hv). intros j s Bj (W & C & Q & A). destruct (apply_to_segment_spec ser thr threads Hth f s _ W A) as (s' & E & W' & L' & C' & Q' & A').
    exists s'. split; auto. split; [|auto]. split; [auto|]. split; [congruence|]. split; [auto|]. eapply segM_ext; [|exact A']. intros k. cbv beta. symmetry. apply restr_map.
  Qed.

  Section MR.
    Context {W : Type}.
    Variable mp : V -> V * W.
    Variable op : W -> W -> W.
    Hypothesis Ha : associative op.

    (** the mapped values rank [r] sees, in order *)
    Definition rank_mapped (M : Z -> option V) (r : Z) : list W :=
      flat_map (fun j => if ow j =? r then mapped mp (restr n ns M j) 0 (cap n ns j) else []) (zrange 0 ns).

    Lemma rank_spec (v : list (list sg)) M r segs init : held v M -> 0 <= r < nr -> rd v r = Ok segs ->
      exists segs' res, mapreduce_rank threads mp op ns nr r segs init = Ok (segs', res) /\ zlen segs' = ns /\
        (forall j s', rd segs' j = Ok s' -> fine ser thr n ns j s' (if ow j =? r then restr n ns (remap mp M) j else fun _ => None) /\ (ow j = r -> live s')) /\
        Some res = red op (init :: rank_mapped M r).
    Proof.
      intros [D F] Br Er. assert (zlen segs = ns) as Ls by (destruct D as [_ D]; eauto). unfold mapreduce_rank.
      match goal with |- context [forZ ?lo ?hi ?f ?s0] => destruct (forZ_inv (fun i (st : list sg * W) => zlen (fst st) = ns /\
         (forall j s', rd (fst st) j = Ok s' -> if j <? i then fine ser thr n ns j s' (if ow j =? r then restr n ns (remap mp M) j else fun _ => None) /\ (ow j = r -> live s') else rd segs j = Ok s') /\
         Some (snd st) = red op (init :: flat_map (fun j => if ow j =? r then mapped mp (restr n ns M j) 0 (cap n ns j) else []) (zrange 0 i))) lo hi f s0) as (st & E & I1 & I2 & I3) end.
      - lia.
      - cbn [fst snd]. split; [auto|]. split; [|rewrite zrange_nil by lia; reflexivity]. intros j s' Ej. pose proof (rd_bounds _ _ _ Ej). destruct (Z.ltb_spec j 0); [lia|auto].
      - intros i st Hi (I1 & I2 & I3). rewrite vown_ok by lia. cbn [bind]. rewrite zrange_snoc, flat_map_app by lia. cbn [flat_map]. rewrite app_nil_r.
        destruct (rd_ok (fst st) i) as [s Es]; [lia|]. pose proof (I2 i s Es) as Es0. destruct (Z.ltb_spec i i); [lia|]. pose proof (F r i s ltac:(eapply rd2_ok; eauto)) as Fs.
        destruct (Z.eqb_spec (ow i) r) as [Eo|No].
        + rewrite Es. cbn [bind]. destruct Fs as (Ws & Cs & Qs & As). destruct (mapreduce_segment_spec ser thr threads Hth mp op Ha s _ (snd st) Ws As) as (s' & res' & Em & W' & L' & C' & Q' & A' & R'). rewrite Em. cbn [bind fst snd].
          rewrite wr_ok by lia. cbn [bind]. eexists. split; [reflexivity|]. cbn [fst snd]. split; [rewrite zlen_upd; auto|]. split.
          * intros j s2 Ej. destruct (Z.eq_dec j i) as [->|N].
            -- rewrite rd_upd_same in Ej by lia. injection Ej as <-. destruct (Z.ltb_spec i (i + 1)); [|lia]. rewrite Eo, Z.eqb_refl. split; auto. split; [auto|]. split; [congruence|]. split; [auto|].
               eapply segM_ext; [|exact A']. intros k. cbv beta. unfold remap. symmetry. apply restr_map.
            -- rewrite rd_upd_other in Ej by lia. specialize (I2 j s2 Ej). destruct (Z.ltb_spec j i), (Z.ltb_spec j (i + 1)); auto; lia.
          * rewrite R', Cs. rewrite app_comm_cons. rewrite (red_app op Ha (init :: _)), <- I3. change (snd st :: ?l) with ([snd st] ++ l). rewrite red_app by auto. reflexivity.
        + exists st. split; auto. split; [auto|]. rewrite app_nil_r. split; auto. intros j s2 Ej. specialize (I2 j s2 Ej). destruct (Z.ltb_spec j i), (Z.ltb_spec j (i + 1)); auto; try lia.
          replace j with i in * by lia. destruct (Z.eqb_spec (ow i) r); [contradiction|]. rewrite Es0 in I2. injection I2 as <-. split; auto. intros; contradiction.
      - exists (fst st), (snd st). split; [rewrite E; destruct st; reflexivity|]. split; [auto|]. split; [|auto]. intros j s' Ej. specialize (I2 j s' Ej). pose proof (rd_bounds _ _ _ Ej). destruct (Z.ltb_spec j ns); [auto|lia].
    Qed.

    Lemma held_reduce (v : list (list sg)) M init : held v M ->
      exists v' res, map_reduce threads mp op ns nr v init = Ok (v', map (fun _ => res) (zrange 0 nr)) /\ held v' (remap mp M) /\ hlive nr v' /\
        Some res = red op (flat_map (fun r => init r :: rank_mapped M r) (zrange 0 nr)).
    Proof.
      intros Hv. pose proof Hv as [D F]. unfold map_reduce.
      destruct (mapR_seq_all (fun r => do segs <- rd v r ;; mapreduce_rank threads mp op ns nr r segs (init r)) (fun r q => zlen (fst q) = ns /\
        (forall j s', rd (fst q) j = Ok s' -> fine ser thr n ns j s' (if ow j =? r then restr n ns (remap mp M) j else fun _ => None) /\ (ow j = r -> live s')) /\
        Some (snd q) = red op (init r :: rank_mapped M r)) nr) as (t & E & L & I0); [lia| |].
      { intros r Br. destruct (rd_ok v r) as [segs Er]; [destruct D; lia|]. rewrite Er. cbn [bind]. destruct (rank_spec v M r segs (init r) Hv Br Er) as (segs' & res & Em & H). exists (segs', res). split; auto. }
      rewrite E. cbn [bind].
      destruct (rd_ok t 0) as [q0 E0]; [lia|]. rewrite rd_map_list, E0. cbn [bind].
      match goal with |- context [forZ ?lo ?hi ?f ?s0] => destruct (forZ_inv (fun i res => Some res = red op (flat_map (fun r => init r :: rank_mapped M r) (zrange 0 i))) lo hi f s0) as (res & Er & Ir) end.
      - lia.
      - change (zrange 0 1) with [0]. cbn [app flat_map]. rewrite app_nil_r. apply (I0 0 q0 E0).
      - intros i res Hi Ir. destruct (rd_ok t i) as [q Eq]; [lia|]. rewrite rd_map_list, Eq. cbn [bind]. eexists. split; [reflexivity|].
        rewrite zrange_snoc, flat_map_app by lia. cbn [flat_map]. rewrite app_nil_r. rewrite red_app, <- Ir by auto. destruct (I0 i q Eq) as (_ & _ & _ & R). rewrite <- R. reflexivity.
      - rewrite Er. cbn [bind]. exists (map fst t), res. split; [reflexivity|]. split; [|split; [|auto]].
        + split.
          * split; [rewrite zlen_map; auto|]. intros r row Er'. rewrite rd_map_list in Er'. destruct (rd t r) as [q|] eqn:Eq; [|discriminate]. injection Er' as <-. apply (I0 r q Eq).
          * intros r j s' Ej. apply rd2_inv in Ej as (row & Er' & Ej). rewrite rd_map_list in Er'. destruct (rd t r) as [q|] eqn:Eq; [|discriminate]. injection Er' as <-. destruct (I0 r q Eq) as (_ & _ & I1 & _). apply (I1 j s' Ej).
        + intros j s' Ej. apply rd2_inv in Ej as (row & Er' & Ej). rewrite rd_map_list in Er'. destruct (rd t (ow j)) as [q|] eqn:Eq; [|discriminate]. injection Er' as <-. destruct (I0 _ q Eq) as (_ & _ & I1 & _). apply (I1 j s' Ej). auto.
    Qed.
  End MR.
End HeldOps2.

Section EdgesProofs.
  Context {V E byte : Type}.
  Variables (nr n ns : Z).
  Hypothesis Hnr : 1 <= nr.
  Hypothesis Hn : 0 <= n.
  Hypothesis Hs : 1 <= ns.
  Variables (serv : bool) (thr threads : Z).
  Variables (encv : list (Z * V) -> list byte) (decv : list byte -> Z -> R (list (Z * V))).
  Hypothesis DEv : forall l, decv (encv l) (zlen l) = Ok l.
  Hypothesis Tv : thok serv thr threads.
  Variables (ids : list Z) (a : spmat E) (es : list (edge E)).
  Hypothesis Ha : mat_holds nr n n ns ns ids a es.
  Variable op : E -> V -> V -> E.
  Variable P : Z -> V.
  Notation si := (SpMatProofs.si n ns). Notation sj := (SpMatProofs.sj n ns).
  Notation own := (SpMatProofs.own ns ids).
  Notation stored := (SpMatProofs.stored n n ns ns ids a).
  Notation ow := (ow nr).
  Definition newval (e : edge E) : edge E := mkE (e_src e) (e_dst e) (op (e_val e) (P (e_dst e)) (P (e_src e))).

  Lemma newval_tile i j e : in_tile n n ns ns i j (newval e) = in_tile n n ns ns i j e.
  Proof. reflexivity. Qed.

  Lemma apply_tiles_spec vp : held serv thr n ns nr vp (fun id => if (1 <=? id) && (id <=? n) then Some (P id) else None) -> hlive nr vp ->
    exists a' vp', apply_all_tiles serv encv decv nr threads op a vp = Ok (a', vp') /\ mat_holds nr n n ns ns ids a' (map newval es) /\
      held serv thr n ns nr vp' (fun id => if (1 <=? id) && (id <=? n) then Some (P id) else None) /\ hlive nr vp'.
  Proof.
    set (M := fun id => if (1 <=? id) && (id <=? n) then Some (P id) else None). intros Hv Lv. unfold apply_all_tiles. pose proof Ha as [Hm1 Hm2 Hm3 Hm4 Hm5 Hm6 Hm7 Hm8 Hm9 Hm10]. rewrite Hm3, Hm4, Hm5.
    assert (forall j, 0 <= j < ns -> rowcol_ranks a j = Ok (set_of (rrk ns ns ids j ++ crk ns ids j))) as RC.
    { intros j Bj. unfold rowcol_ranks. rewrite (row_ranks_ok nr n n ns ns Hs Hs ids a es Ha j Bj). cbn [bind]. rewrite (col_ranks_ok nr n n ns ns Hs Hs ids a es Ha j Bj). reflexivity. }
    destruct (bcast_spec serv thr n ns nr ltac:(lia) ltac:(lia) encv decv DEv threads Tv (rowcol_ranks a) _ vp M Hv RC) as (v1 & E1 & C1). rewrite E1. cbn [bind].
    assert (forall r j, 0 <= r < nr -> 0 <= j < ns -> In r (rrk ns ns ids j) \/ In r (crk ns ids j) -> exists s, rd2 v1 r j = Ok s /\ fine serv thr n ns j s (restr n ns M j) /\ live s) as Seg.
    { intros r j Br Bj Hin. destruct C1 as [D1 I1]. destruct (dims_rd2 _ _ _ r j D1 Br Bj) as [s Es]. exists s. split; auto. destruct (I1 r j s Es) as (Fs & L1 & O1).
      assert (memz r (set_of (rrk ns ns ids j ++ crk ns ids j)) = true) as Mr. { apply memz_in. apply set_of_in. apply in_app_iff. auto. }
      rewrite Mr, orb_true_r in Fs. split; auto. destruct (Z.eq_dec (ow j) r) as [Eq|Ne]; [|auto]. destruct (dims_rd2 _ _ _ r j (proj1 Hv) Br Bj) as [x0 Ex0]. destruct (O1 Eq x0 Ex0) as [Ol _]. apply Ol. rewrite <- Eq in Ex0. exact (Lv _ _ Ex0). }
    destruct (mapR_seq_all (fun r => tab2 ns ns (fun i j => do o <- rd ids (i + j * ns) ;; if o =? r then do t <- mat_tile_ptr a r i j ;; do s1 <- rd2 v1 r j ;; do s2 <- rd2 v1 r i ;; do t' <- apply_edges false op t s1 s2 ;; Ok (Some t') else mat_tile a r i j))
      (fun r tab => dims ns ns tab /\ forall i j t, rd2 tab i j = Ok t -> if own i j =? r then exists t' T, t = Some t' /\ tile_of (si (i + 1) - si i) (sj (j + 1) - sj j) (map (rel (si i) (sj j)) T) t' /\ Permutation T (filter (in_tile n n ns ns i j) (map newval es)) else t = None) nr) as (tiles & Et & Lt & It); [lia| |].
    { intros r Br. destruct (tab2_ex ns ns (fun i j => do o <- rd ids (i + j * ns) ;; if o =? r then do t <- mat_tile_ptr a r i j ;; do s1 <- rd2 v1 r j ;; do s2 <- rd2 v1 r i ;; do t' <- apply_edges false op t s1 s2 ;; Ok (Some t') else mat_tile a r i j)
        (fun i j t => if own i j =? r then exists t' T, t = Some t' /\ tile_of (si (i + 1) - si i) (sj (j + 1) - sj j) (map (rel (si i) (sj j)) T) t' /\ Permutation T (filter (in_tile n n ns ns i j) (map newval es)) else t = None)) as (tab & Etab & Dt & Itab); [lia|lia| |eauto].
      intros i j Bi Bj. destruct (own_ok nr n n ns ns Hs Hs ids a es Ha i j Bi Bj) as [Eo Bo]. rewrite Eo. cbn [bind]. destruct (Z.eqb_spec (own i j) r) as [Er|Nr].
      - destruct (held_tile nr n n ns ns Hs Hs ids a es Ha i j Bi Bj) as (t & Ept & Tile & Pm). rewrite Er in Ept. rewrite Ept. cbn [bind].
        destruct (Seg r j Br Bj) as (s1 & Es1 & (W1 & Cp1 & Q1 & A1) & L1); [right; eapply in_crk; eauto|]. destruct (Seg r i Br Bi) as (s2 & Es2 & (W2 & Cp2 & Q2 & A2) & L2); [left; eapply in_rrk; eauto|].
        rewrite Es1. cbn [bind]. rewrite Es2. cbn [bind].
        assert (forall j k, 0 <= j < ns -> 0 <= k < cap n ns j -> restr n ns M j (k + 1) = Some (P (st n ns j + k + 1))) as RM.
        { intros j0 k Bj0 Bk. unfold restr. destruct (Z.leb_spec 1 (k + 1)); [|lia]. destruct (Z.leb_spec (k + 1) (cap n ns j0)); [|lia]. cbn [andb]. unfold M. unfold VecProofs.cap in *.
          pose proof (st_bounds n ns Hn Hs j0 ltac:(lia)). pose proof (st_bounds n ns Hn Hs (j0+1) ltac:(lia)). destruct (Z.leb_spec 1 (st n ns j0 + (k + 1))); [|lia]. destruct (Z.leb_spec (st n ns j0 + (k + 1)) n); [|lia]. cbn [andb]. rewrite Z.add_assoc. reflexivity. }
        destruct (apply_edges_spec op serv thr (si (i + 1) - si i) (sj (j + 1) - sj j) (map (rel (si i) (sj j)) (stored i j)) t Tile s1 s2 (fun k => P (sj j + k + 1)) (fun k => P (si i + k + 1)) W1 W2 Cp1 Cp2 L1 L2) as (t' & Eae & Tile').
        { intros k Bk. rewrite A1. rewrite (RM j k Bj Bk). reflexivity. } { intros k Bk. rewrite A2. rewrite (RM i k Bi Bk). reflexivity. }
        rewrite Eae. cbn [bind]. eexists. split; [reflexivity|]. cbv beta. exists t', (map newval (stored i j)). split; auto. split.
        + rewrite map_map in Tile'. rewrite map_map. erewrite map_ext; [exact Tile'|]. intros e. unfold newval, rel. simpl. f_equal. f_equal; f_equal; lia.
        + assert (forall l, filter (in_tile n n ns ns i j) (map newval l) = map newval (filter (in_tile n n ns ns i j) l)) as G.
          { induction l as [|e l IHl]; cbn [map filter]; auto. rewrite newval_tile. destruct (in_tile n n ns ns i j e); cbn [map]; rewrite IHl; auto. }
          rewrite G. apply Permutation_map. exact Pm.
      - destruct (Hm9 r i j Br Bi Bj) as (t & Emt & Q). exists t. split; auto. specialize (Q _ Eo). destruct (Z.eqb_spec (own i j) r); [contradiction|]. auto. }
    rewrite Et. cbn [bind].
    destruct (drop_spec serv thr n ns nr ltac:(lia) ltac:(lia) threads _ vp v1 M Hv C1) as (v2 & E2 & H2 & L2 & _). rewrite E2. cbn [bind].
    eexists _, v2. split; [reflexivity|]. split; [|auto]. split; cbn [mt_m mt_n mt_ntx mt_nty mt_ids mt_tiles]; auto.
    - intros e He. apply in_map_iff in He as (e0 & <- & He). apply Hm8 in He. exact He.
    - intros r i j Br Bi Bj. destruct (rd_ok tiles r) as [tab Etab]; [lia|]. destruct (It r tab Etab) as (_ & Dt & It'). destruct (dims_rd2 _ _ _ i j Dt Bi Bj) as [t Etij].
      exists t. split. { unfold mat_tile. cbn [mt_tiles]. rewrite Etab. cbn [bind]. auto. }
      intros o Eo. destruct (own_ok nr n n ns ns Hs Hs ids a es Ha i j Bi Bj) as [Eo' _]. rewrite Eo in Eo'. injection Eo' as ->. apply (It' i j t Etij).
    - split; [exact Lt|]. intros r tab Etab. apply (It r tab Etab).
  Qed.
End EdgesProofs.
