(** Merging received partial results into a segment. *)
From Verif Require Import BaseLemmas Bits BitsProofs Segment SegmentProofs TransferProofs MergeProofs.

(** combining two optional contributions *)
Definition opt_op {U} (op : U -> U -> U) (x y : option U) : option U :=
  match x, y with
  | None, _ => y
  | _, None => x
  | Some a, Some c => Some (op a c)
  end.

Section UN.
  Context {U byte : Type}.
  Notation buf := (buffer U byte).
  Notation sg := (seg U byte).
  Variable ser : bool.
  Variable thr : Z.
  Variable enc : list (Z * U) -> list byte.
  Variable dec : list byte -> Z -> R (list (Z * U)).
  Hypothesis dec_enc : forall l, dec (enc l) (zlen l) = Ok l.
  Variable op : U -> U -> U.

  (** determinate content *)
  Definition dmap (w : list Z) (v : list (option U)) (M : Z -> option U) : Prop := forall k, wabs w v k = option_map Some (M k).

  Lemma dmap_cell cap w v M k : wwf cap w -> zlen v = cap -> dmap w v M ->
    match M k with Some a => tb w k = true /\ rd v k = Ok (Some a) | None => tb w k = false end.
  Proof.
    intros W L D. specialize (D k). destruct (tb w k) eqn:E.
    - destruct (wabs_ok cap w v k W L E) as (c & Hc & Hw). rewrite Hw in D. destruct (M k); simpl in D; [|discriminate]. split; congruence.
    - unfold wabs in D. rewrite E in D. destruct (M k); [discriminate|auto].
  Qed.

  Lemma dmap_bound cap w v M k a : wwf cap w -> zlen v = cap -> dmap w v M -> M k = Some a -> 0 <= k < cap.
  Proof. intros W L D E. pose proof (dmap_cell cap w v M k W L D) as H. rewrite E in H. destruct H as [_ H]. apply rd_bounds in H. lia. Qed.

  Lemma or_words n w1 w2 : zlen w1 = n -> zlen w2 = n ->
    exists w, forZ 0 n (fun i w => do a <- rd w i ;; do c <- rd w2 i ;; wr w i (Z.lor a c)) w1 = Ok w /\ zlen w = n /\
      forall k, tb w k = tb w1 k || tb w2 k.
  Proof.
    intros L1 L2. pose proof (zlen_nonneg w1).
    match goal with |- exists s', forZ ?lo ?hi ?f ?s = _ /\ _ =>
      destruct (forZ_inv (fun ii w => zlen w = n /\ (forall i, ii <= i -> rd w i = rd w1 i) /\
         forall i a c, 0 <= i < ii -> rd w1 i = Ok a -> rd w2 i = Ok c -> rd w i = Ok (Z.lor a c)) lo hi f s) as (w & E & L & _ & D) end.
    - lia.
    - conjs; auto. intros; lia.
    - intros i w Hi (L & S & D). rewrite S by lia. destruct (rd_ok w1 i ltac:(lia)) as [a Ha]. destruct (rd_ok w2 i ltac:(lia)) as [c Hc].
      rewrite Ha, Hc. cbn [bind]. rewrite wr_ok by lia. eexists. split; [reflexivity|]. rewrite zlen_upd. conjs; auto.
      + intros j Hj. rewrite rd_upd_other by lia. apply S. lia.
      + intros j a' c' Hj Ha' Hc'. destruct (Z.eq_dec i j) as [->|N].
        * rewrite rd_upd_same by lia. congruence.
        * rewrite rd_upd_other by lia. apply D; auto; lia.
    - exists w. split; auto. split; auto. intros k.
      destruct (Z_le_dec 0 k); [destruct (Z_lt_dec k (32 * n))|].
      + destruct (tb_rd w1 k ltac:(lia)) as (a & Ha & ->). destruct (tb_rd w2 k ltac:(lia)) as (c & Hc & ->).
        destruct (tb_rd w k ltac:(lia)) as (x & Hx & ->). rewrite (D (k/32) a c ltac:(lia) Ha Hc) in Hx. injection Hx as <-.
        apply Z.lor_spec.
      + rewrite !tb_out by lia. reflexivity.
      + rewrite !tb_out by lia. reflexivity.
  Qed.

  Lemma union_dense_spec cap v1 w1 v2 w2 M N : 0 <= cap -> wwf cap w1 -> wwf cap w2 -> zlen v1 = cap -> zlen v2 = cap ->
    dmap w1 v1 M -> dmap w2 v2 N ->
    exists w v, union_dense op cap (num_ints_of cap) v1 w1 v2 w2 = Ok (w, v) /\ wwf cap w /\ zlen v = cap /\
      dmap w v (fun k => opt_op op (M k) (N k)).
  Proof.
    intros C W1 W2 L1 L2 D1 D2. unfold union_dense. pose proof (num_ints_bounds cap C) as NB.
    pose proof W1 as [WL1 WT1]. pose proof W2 as [WL2 WT2].
    assert (forall k, match M k with Some a => tb w1 k = true /\ rd v1 k = Ok (Some a) | None => tb w1 k = false end) as C1
      by (intros; eapply dmap_cell; eauto).
    assert (forall k, match N k with Some a => tb w2 k = true /\ rd v2 k = Ok (Some a) | None => tb w2 k = false end) as C2
      by (intros; eapply dmap_cell; eauto).
    match goal with |- exists w v, (do v <- forZ ?lo ?hi ?f ?s ;; _) = _ /\ _ =>
      destruct (forZ_inv (fun ii v => zlen v = cap /\ (forall i, ii <= i -> rd v i = rd v1 i) /\
         forall i, 0 <= i < ii -> match opt_op op (M i) (N i) with Some a => rd v i = Ok (Some a) | None => True end) lo hi f s) as (v & Ev & Lv & _ & Dv) end.
    - lia.
    - conjs; auto. intros; lia.
    - intros i v Hi (L & S & D). rewrite !bv_get_ok by lia. cbn [bind].
      specialize (C1 i). specialize (C2 i).
      assert (forall c, opt_op op (M i) (N i) = Some c -> 
        zlen (upd v (Z.to_nat i) (Some c)) = cap /\ (forall j, i + 1 <= j -> rd (upd v (Z.to_nat i) (Some c)) j = rd v1 j) /\
        forall j, 0 <= j < i + 1 -> match opt_op op (M j) (N j) with Some a => rd (upd v (Z.to_nat i) (Some c)) j = Ok (Some a) | None => True end) as Step.
      { intros c Hc. rewrite zlen_upd. conjs; auto.
        - intros j Hj. rewrite rd_upd_other by lia. apply S; lia.
        - intros j Hj. destruct (Z.eq_dec i j) as [<-|Nj].
          + rewrite Hc. apply rd_upd_same. lia.
          + rewrite rd_upd_other by lia. apply D. lia. }
      destruct (M i) as [a|] eqn:Mi; destruct (N i) as [c|] eqn:Ni.
      + destruct C1 as [-> R1], C2 as [-> R2]. cbn [andb negb]. unfold rdi. rewrite S, R1, R2 by lia. cbn [bind].
        rewrite wr_ok by lia. eexists. split; [reflexivity|]. apply Step. reflexivity.
      + destruct C1 as [-> R1]. rewrite C2. cbn [andb negb]. rewrite S, R1 by lia. cbn [bind].
        rewrite wr_ok by lia. eexists. split; [reflexivity|]. apply Step. reflexivity.
      + destruct C2 as [-> R2]. rewrite C1. cbn [andb negb]. rewrite R2 by lia. cbn [bind].
        rewrite wr_ok by lia. eexists. split; [reflexivity|]. apply Step. reflexivity.
      + rewrite C1, C2. cbn [andb negb]. eexists. split; [reflexivity|]. conjs; auto.
        * intros; apply S; lia.
        * intros j Hj. destruct (Z.eq_dec i j) as [<-|Nj]; [rewrite Mi, Ni; exact I|apply D; lia].
    - rewrite Ev. cbn [bind]. destruct (or_words (num_ints_of cap) w1 w2 WL1 WL2) as (w & -> & Lw & Tw). cbn [bind].
      exists w, v. split; auto. assert (wwf cap w) as Ww.
      { split; auto. intros k Hk. rewrite Tw, WT1, WT2 by auto. reflexivity. }
      split; auto. split; auto. intros k. unfold wabs. rewrite Tw.
      pose proof (C1 k) as C1k. pose proof (C2 k) as C2k.
      assert (opt_op op (M k) (N k) <> None -> 0 <= k < cap) as Bk.
      { destruct (M k) as [a|]; [intros _; destruct C1k as [_ Q]; apply rd_bounds in Q; lia|].
        destruct (N k) as [a|]; [intros _; destruct C2k as [_ Q]; apply rd_bounds in Q; lia|simpl; congruence]. }
      destruct (opt_op op (M k) (N k)) as [c|] eqn:O.
      + pose proof (Dv k (Bk ltac:(discriminate))) as Q. rewrite O in Q. rewrite Q.
        replace (tb w1 k || tb w2 k) with true; [reflexivity|]. destruct (M k); [destruct C1k as [-> _]; reflexivity|].
        destruct (N k); [destruct C2k as [-> _]; rewrite orb_true_r; reflexivity|discriminate].
      + replace (tb w1 k || tb w2 k) with false; [reflexivity|]. destruct (M k); destruct (N k); try discriminate. rewrite C1k, C2k. reflexivity.
  Qed.

  (** ** union_compressed *)
  Lemma adjust_spec (idx : list (option Z)) ks fuel m : starts idx (map Some ks) -> nonneg ks -> incr ks -> 1 <= m <= zlen ks -> (Z.to_nat (zlen ks - m) <= fuel)%nat ->
    exists r, adjust fuel idx m (zlen ks) = Ok r /\ m <= r <= zlen ks /\ bdry ks r /\
      (forall j x y, m <= j < r -> rd ks j = Ok x -> rd ks (j-1) = Ok y -> x / 32 = y / 32) /\
      (forall x y, rd ks r = Ok x -> rd ks (r-1) = Ok y -> x / 32 <> y / 32).
  Proof.
    intros S N I. revert m. induction fuel as [|f IH]; intros m H F; cbn [adjust].
    - destruct (Z.ltb_spec m (zlen ks)); [lia|]. exists m. split; auto. split; [lia|]. split; [apply bdry_end; lia|]. split; [intros; lia|].
      intros x y Hx. apply rd_bounds in Hx. lia.
    - destruct (Z.ltb_spec m (zlen ks)).
      + destruct (rdi_starts idx ks m S ltac:(lia)) as (x & Hx & Rx). destruct (rdi_starts idx ks (m-1) S ltac:(lia)) as (y & Hy & Ry).
        rewrite Hx, Hy. cbn [bind].
        assert (0 <= x) by (apply N; apply rd_In in Rx; auto). assert (0 <= y) by (apply N; apply rd_In in Ry; auto).
        rewrite !quot_div by lia. destruct (Z.eqb_spec (x/32) (y/32)) as [E|E].
        * destruct (IH (m+1) ltac:(lia) ltac:(lia)) as (r & Er & B & D & J & K). exists r. split; auto. split; [lia|]. split; auto. split; auto.
          intros j u v Hj Ru Rv. destruct (Z.eq_dec j m) as [->|]; [congruence|]. apply (J j u v); auto; lia.
        * exists m. split; auto. split; [lia|]. split; [apply (bdry_of_step ks m y x); auto|]. split; [intros; lia|]. intros u v Hu Hv. congruence.
      + exists m. split; auto. split; [lia|]. split; [apply bdry_end; lia|]. split; [intros; lia|]. intros x y Hx. apply rd_bounds in Hx. lia.
  Qed.

  Definition upos (np : Z) (idx : list (option Z)) (nnz p : Z) : R Z :=
    let per := Z.quot (nnz + np - 1) np in
    if 0 <? p * per then adjust (Z.to_nat nnz) idx (Z.min nnz (p * per)) nnz else Ok 0.

  Section UP.
    Variables (np : Z) (idx : list (option Z)) (ks : list Z).
    Hypothesis Hnp : 1 <= np.
    Hypothesis S : starts idx (map Some ks).
    Hypothesis N : nonneg ks.
    Hypothesis I : incr ks.
    Let per := Z.quot (zlen ks + np - 1) np.

    Lemma uper : 0 <= per /\ zlen ks <= per * np.
    Proof.
      unfold per. pose proof (zlen_nonneg ks). rewrite quot_div by lia. split; [apply Z.div_pos; lia|].
      pose proof (Z.div_mod (zlen ks + np - 1) np). pose proof (Z.mod_pos_bound (zlen ks + np - 1) np). nia.
    Qed.
    Lemma uper0 : per = 0 -> zlen ks = 0.
    Proof. pose proof uper. pose proof (zlen_nonneg ks). nia. Qed.

    Lemma upos_ok p : 0 <= p -> exists r, upos np idx (zlen ks) p = Ok r /\ 0 <= r <= zlen ks /\ Z.min (zlen ks) (p * per) <= r /\ bdry ks r.
    Proof.
      intros Hp. pose proof uper as [P1 P2]. pose proof (zlen_nonneg ks). unfold upos. fold per. destruct (Z.ltb_spec 0 (p * per)).
      - assert (1 <= zlen ks \/ zlen ks = 0) as [Q|Q] by lia.
        + destruct (adjust_spec idx ks (Z.to_nat (zlen ks)) (Z.min (zlen ks) (p * per)) S N I ltac:(lia) ltac:(lia)) as (r & E & B & D & _).
          exists r. split; auto. split; [lia|]. split; [lia|auto].
        + exists 0. rewrite Q. replace (Z.min 0 (p * per)) with 0 by lia. split; [|split; [lia|split; [lia|apply bdry_0; lia]]]. unfold adjust. destruct (Z.to_nat 0); reflexivity.
      - exists 0. split; auto. split; [lia|]. split; [lia|]. apply bdry_0. lia.
    Qed.

    Lemma upos_mono p q r r' : 0 <= p <= q -> upos np idx (zlen ks) p = Ok r -> upos np idx (zlen ks) q = Ok r' -> r <= r'.
    Proof.
      intros Hp E E'. pose proof uper as [P1 P2]. pose proof (zlen_nonneg ks).
      destruct (upos_ok q ltac:(lia)) as (r0 & E0 & B0 & M0 & D0). assert (r0 = r') by congruence. subst r0.
      unfold upos in E. fold per in E. destruct (Z.ltb_spec 0 (p * per)); [|injection E as <-; lia].
      assert (1 <= zlen ks \/ zlen ks = 0) as [Q|Q] by lia.
      2: { destruct (upos_ok p ltac:(lia)) as (r1 & E1 & B1 & _). unfold upos in E1. fold per in E1. destruct (Z.ltb_spec 0 (p * per)); [|lia]. assert (r = r1) by congruence. lia. }
      destruct (adjust_spec idx ks (Z.to_nat (zlen ks)) (Z.min (zlen ks) (p * per)) S N I ltac:(lia) ltac:(lia)) as (r1 & E1 & B1 & D1 & J1 & _).
      assert (r1 = r) by congruence. subst r1.
      destruct (Z_le_dec r r'); auto. exfalso.
      assert (p * per <= q * per) by nia.
      destruct (rd_ok ks r' ltac:(lia)) as [x Hx]. destruct (rd_ok ks (r'-1) ltac:(lia)) as [y Hy].
      pose proof (J1 r' x y ltac:(lia) Hx Hy). pose proof (D0 (r'-1) r' y x ltac:(lia) ltac:(lia) Hy Hx). lia.
    Qed.

    Lemma union_range_spec p : 0 <= p -> exists st en q, union_range np idx (zlen ks) p = Ok (st, en) /\
      upos np idx (zlen ks) p = Ok q /\ upos np idx (zlen ks) (p+1) = Ok en /\ (st = q \/ (zlen ks <= st /\ q = zlen ks /\ en = zlen ks)).
    Proof.
      intros Hp. pose proof uper as [P1 P2]. pose proof (zlen_nonneg ks).
      destruct (upos_ok p Hp) as (q & Eq & Bq & Mq & _). destruct (upos_ok (p+1) ltac:(lia)) as (en & Ee & Be & Me & _).
      unfold union_range. fold per. rewrite Eq, Ee.
      assert (adjust (Z.to_nat (zlen ks)) idx (if zlen ks <? (p + 1) * per then zlen ks else (p + 1) * per) (zlen ks) = Ok en) as EN.
      { replace (if zlen ks <? (p+1) * per then zlen ks else (p+1)*per) with (Z.min (zlen ks) ((p+1)*per)).
        2: { destruct (Z.ltb_spec (zlen ks) ((p+1)*per)); lia. }
        unfold upos in Ee. fold per in Ee. destruct (Z.ltb_spec 0 ((p+1)*per)); auto. injection Ee as <-.
        assert (zlen ks = 0) as -> by (apply uper0; nia). replace (Z.min 0 ((p+1)*per)) with 0 by nia. unfold adjust. destruct (Z.to_nat 0); reflexivity. }
      destruct (Z.ltb_spec 0 (p * per)).
      - unfold upos in Eq. fold per in Eq. destruct (Z.ltb_spec 0 (p * per)); [|lia].
        destruct (Z_lt_dec (p * per) (zlen ks)).
        + rewrite Z.min_r in Eq by lia. rewrite Eq. cbn [bind]. rewrite EN. cbn [bind]. exists q, en, q. auto.
        + assert (adjust (Z.to_nat (zlen ks)) idx (p*per) (zlen ks) = Ok (p * per)) as ->.
          { unfold adjust. destruct (Z.to_nat (zlen ks)); destruct (Z.ltb_spec (p*per) (zlen ks)); auto; lia. }
          cbn [bind]. rewrite EN. cbn [bind]. exists (p*per), en, q. conjs; auto. right. nia.
      - cbn [bind]. rewrite EN. cbn [bind]. unfold upos in Eq. fold per in Eq. destruct (Z.ltb_spec 0 (p * per)); [lia|]. injection Eq as <-.
        exists (p*per), en, 0. conjs; auto. left. nia.
    Qed.

    Lemma union_cuts : exists ends, cuts ks np ends /\
      (forall X (body : Z -> X -> R X) s,
        forZ 0 np (fun p s => do r <- union_range np idx (zlen ks) p ;; forZ (fst r) (snd r) body s) s =
        forZ 0 np (fun p s => do a <- prevc ends p ;; do b <- rd ends p ;; forZ a b body s) s) /\
      (forall p, 0 <= p < np -> exists st en a b, union_range np idx (zlen ks) p = Ok (st, en) /\ prevc ends p = Ok a /\ rd ends p = Ok b /\
         ((st = a /\ en = b) \/ (en <= st /\ b <= a))).
    Proof.
      pose proof uper as [P1 P2].
      set (ends := map (fun p => match upos np idx (zlen ks) (p+1) with Ok r => r | Err _ => 0 end) (zrange 0 np)).
      assert (forall p, 0 <= p < np -> rd ends p = upos np idx (zlen ks) (p+1)) as RE.
      { intros p Hp. unfold ends. erewrite rd_map; [|apply rd_zrange; lia]. destruct (upos_ok (p+1) ltac:(lia)) as (r & E & _). rewrite Z.add_0_l, E. reflexivity. }
      assert (forall p, 0 <= p <= np -> prevc ends p = upos np idx (zlen ks) p) as PE.
      { intros p Hp. unfold prevc. destruct (Z.eqb_spec p 0) as [->|]; [reflexivity|]. rewrite RE by lia. replace (p-1+1) with p by lia. auto. }
      exists ends. split; [|split].
      - split; [unfold ends; rewrite zlen_map, zlen_zrange; lia|]. split.
        + intros p Hp. rewrite PE, RE by lia. destruct (upos_ok p ltac:(lia)) as (a & Ea & Ba & _ & Da). destruct (upos_ok (p+1) ltac:(lia)) as (b & Eb & Bb & _ & Db).
          exists a, b. rewrite Ea, Eb. pose proof (upos_mono p (p+1) a b ltac:(lia) Ea Eb). conjs; auto; lia.
        + rewrite PE by lia. destruct (upos_ok np ltac:(lia)) as (a & Ea & Ba & Ma & _). rewrite Ea. f_equal. lia.
      - intros X body s. apply forZ_ext. intros p s0 Hp. rewrite PE, RE by lia.
        destruct (union_range_spec p ltac:(lia)) as (st & en & q & -> & -> & -> & H). cbn [bind fst snd].
        destruct H as [-> | (H1 & -> & ->)]; auto. rewrite !forZ_empty by lia. reflexivity.
      - intros p Hp. rewrite PE, RE by lia.
        destruct (union_range_spec p ltac:(lia)) as (st & en & q & -> & -> & -> & H). exists st, en, q, en. conjs; auto.
        destruct H as [-> | (H1 & -> & ->)]; [left; auto|right; lia].
    Qed.
  End UP.

  Lemma massoc_firstn_none (es : list (Z * option U)) i e : incr (map fst es) -> rd es i = Ok e -> forall j e', 0 <= j < i -> rd es j = Ok e' -> fst e' <> fst e.
  Proof.
    intros I He j e' Hj He'. pose proof (I j i (fst e') (fst e) ltac:(lia) (rd_map fst es j e' He') (rd_map fst es i e He)). lia.
  Qed.

  Lemma massoc_in (es : list (Z * option U)) k : match massoc es k with Some c => In (k, c) es | None => ~ In k (map fst es) end.
  Proof.
    induction es as [|e es IH] using rev_ind; [simpl; auto|]. rewrite massoc_snoc. destruct (Z.eqb_spec (fst e) k) as [<-|N].
    - apply in_app_iff. right. simpl. destruct e; auto.
    - destruct (massoc es k); [apply in_app_iff; auto|]. rewrite map_app, in_app_iff. simpl. tauto.
  Qed.

  Lemma massoc_incr (es : list (Z * option U)) i e : incr (map fst es) -> rd es i = Ok e -> massoc es (fst e) = Some (snd e).
  Proof.
    intros I He. pose proof (massoc_in es (fst e)) as H. destruct (massoc es (fst e)) as [c|].
    - apply In_rd in H as (j & Bj & Hj). destruct (Z.lt_trichotomy i j) as [L | [<- | L] ].
      + pose proof (I i j _ _ L (rd_map fst es i e He) (rd_map fst es j _ Hj)). simpl in *. lia.
      + rewrite He in Hj. injection Hj as ->. reflexivity.
      + pose proof (I j i _ _ L (rd_map fst es j _ Hj) (rd_map fst es i e He)). simpl in *. lia.
    - exfalso. apply H. apply in_map. apply rd_In in He. auto.
  Qed.

  (** one merged entry *)
  Lemma union_entry_spec cap (es : list (Z * option U)) cdata cidx i w v e c M :
    starts cidx (map Some (map fst es)) -> starts cdata (map snd es) ->
    rd es i = Ok e -> snd e = Some c -> 0 <= fst e < cap -> wwf cap w -> zlen v = cap -> dmap w v M ->
    exists w' v', union_entry op cdata cidx i (w, v) = Ok (w', v') /\ wwf cap w' /\ zlen v' = cap /\
      dmap w' v' (fun k => if fst e =? k then opt_op op (M k) (Some c) else M k).
  Proof.
    intros S1 S2 He Hc Hk W L D. unfold union_entry. pose proof (rd_bounds _ _ _ He) as Bi. pose proof (num_ints_bounds cap ltac:(lia)) as NB.
    destruct (rdi_starts cidx (map fst es) i S1) as (x & -> & Hx); [rewrite zlen_map; auto|]. cbn [bind fst snd].
    rewrite (rd_map fst es i e He) in Hx. injection Hx as <-. pose proof W as [W1 W2].
    rewrite bv_get_ok by lia. cbn [bind].
    assert (rd cdata i = Ok (Some c)) as Rc.
    { rewrite (starts_rd _ _ _ S2) by (rewrite zlen_map; auto). rewrite (rd_map snd es i e He). congruence. }
    pose proof (dmap_cell cap w v M (fst e) W L D) as Cell.
    destruct (M (fst e)) as [a|] eqn:Me.
    - destruct Cell as [-> Rv]. unfold rdi. rewrite Rv, Rc. cbn [bind]. rewrite wr_ok by lia. cbn [bind].
      eexists _, _. split; [reflexivity|]. split; auto. rewrite zlen_upd. split; auto. intros k. unfold wabs.
      destruct (Z.eqb_spec (fst e) k) as [<-|Nk].
      + rewrite Me. simpl. rewrite rd_upd_same by lia. pose proof (dmap_cell cap w v M (fst e) W L D) as Q. rewrite Me in Q. destruct Q as [-> _]. reflexivity.
      + rewrite rd_upd_other by lia. apply D.
    - rewrite Cell. destruct (store1 cap w v (fst e) (Some c) W L Hk) as (w' & v' & -> & Ev & W' & L' & A & _). cbn [bind].
      rewrite Rc. cbn [bind]. rewrite Ev. cbn [bind]. exists w', v'. split; auto. split; auto. split; auto.
      intros k. rewrite A. destruct (Z.eqb_spec (fst e) k) as [<-|Nk]; [rewrite Me; reflexivity|apply D].
  Qed.

  Lemma union_compressed_spec threads cap (es : list (Z * option U)) cdata cidx w v M N :
    1 <= threads -> 0 <= cap -> incr (map fst es) -> (forall e, In e es -> 0 <= fst e < cap) ->
    starts cidx (map Some (map fst es)) -> starts cdata (map snd es) ->
    (forall k, massoc es k = option_map Some (N k)) ->
    wwf cap w -> zlen v = cap -> dmap w v M ->
    exists w' v', union_compressed op threads cdata cidx (zlen es) (w, v) = Ok (w', v') /\ wwf cap w' /\ zlen v' = cap /\
      dmap w' v' (fun k => opt_op op (M k) (N k)).
  Proof.
    intros Ht C I K S1 S2 HN W L D. unfold union_compressed.
    assert (nonneg (map fst es)) as Nn. { intros k Hk. apply in_map_iff in Hk as (e & <- & He). apply K in He. lia. }
    replace (zlen es) with (zlen (map fst es)) by apply zlen_map.
    destruct (union_cuts (threads * 16) cidx (map fst es) ltac:(lia) S1 Nn I) as (ends & Cu & Eq & _). rewrite Eq.
    destruct (cuts_run (map fst es) (threads * 16) ends (union_entry op cdata cidx)
      (fun i wv => wwf cap (fst wv) /\ zlen (snd wv) = cap /\
         dmap (fst wv) (snd wv) (fun k => match massoc (firstn (Z.to_nat i) es) k with Some _ => opt_op op (M k) (N k) | None => M k end))
      (w, v)) as ([w' v'] & E & W' & L' & A); auto; [lia| |].
    - intros i [w0 v0] Hi (W0 & L0 & D0). cbn [fst snd] in *. rewrite zlen_map in Hi. destruct (rd_ok es i Hi) as [e He].
      pose proof (massoc_incr es i e I He) as Me. rewrite HN in Me. destruct (N (fst e)) as [c|] eqn:Ne; [|discriminate].
      assert (massoc (firstn (Z.to_nat i) es) (fst e) = None) as Mi.
      { pose proof (massoc_in (firstn (Z.to_nat i) es) (fst e)) as Q. destruct (massoc (firstn (Z.to_nat i) es) (fst e)) as [c'|]; auto.
        exfalso. apply In_rd in Q as (j & Bj & Hj). unfold zlen in Bj. rewrite firstn_length in Bj.
        assert (rd es j = Ok (fst e, c')) as Hj'.
        { rewrite <- (firstn_skipn (Z.to_nat i) es). rewrite rd_app1; auto. unfold zlen. rewrite firstn_length. lia. }
        apply (massoc_firstn_none es i e I He j (fst e, c')); auto. unfold zlen in Hi. lia. }
      destruct (union_entry_spec cap es cdata cidx i w0 v0 e c _ S1 S2 He ltac:(simpl in Me; congruence) (K e ltac:(apply rd_In in He; auto)) W0 L0 D0) as (w1 & v1 & E1 & W1 & L1 & D1).
      exists (w1, v1). split; auto. cbn [fst snd]. split; auto. split; auto. intros k. rewrite D1. f_equal.
      rewrite (firstn_snoc es i e He), massoc_snoc. destruct (Z.eqb_spec (fst e) k) as [<-|Nk]; auto. rewrite Mi, Ne. reflexivity.
    - rewrite E. exists w', v'. split; auto. cbn [fst snd] in *. split; auto. split; auto. intros k. rewrite A. f_equal.
      rewrite zlen_map. unfold zlen. rewrite Nat2Z.id, firstn_all. rewrite HN. destruct (N k); simpl; auto. destruct (M k); reflexivity.
  Qed.

  (** ** union_received *)
  Lemma seg_union_received_spec threads (s : sg) (M : Z -> option U) (Ns : list (Z -> option U)) :
    thok ser thr threads -> swf ser thr s -> (forall k, sabs s k = option_map Some (M k)) ->
    Forall2 (fun rb N => holds ser thr enc (s_cap s) rb (fun k => option_map Some (N k))) (s_recv s) Ns ->
    exists s', seg_union_received ser dec op threads s = Ok s' /\ swf ser thr s' /\ s_cap s' = s_cap s /\ s_recv s' = s_recv s /\ s_qmd s' = s_qmd s /\
      (forall k, sabs s' k = option_map Some (fold_left (fun acc (N : Z -> option U) => opt_op op acc (N k)) Ns (M k))) /\
      (exists b, s_prop s' = Some b /\ b_uninit b = false).
  Proof.
    intros Ht W A F. pose proof W as (H0 & H1 & H2 & H3 & H4).
    destruct (seg_init_spec ser thr threads s Ht W) as (b & w & E & Rd & Ab & _).
    unfold seg_union_received. rewrite E; cbn [bind]. rewrite prop_set_prop; cbn [bind]. cbn [set_prop s_cap s_nints s_recv].
    pose proof Rd as (Bw & U0 & Bb & Ww). pose proof Bw as [(B0 & B1 & B2 & B3 & B4 & B5 & B6 & B8) B7].
    unfold words at 1. rewrite Bb. cbn [bind]. rewrite H1.
    assert (dmap w (b_value b) M) as D. { intros k. rewrite <- A, <- Ab. unfold babs. rewrite U0, Bb. reflexivity. }
    assert (forall rbs Ns w v M, Forall2 (fun rb N => holds ser thr enc (s_cap s) rb (fun k => option_map Some (N k))) rbs Ns ->
      wwf (s_cap s) w -> zlen v = s_cap s -> dmap w v M ->
      exists w' v', foldR (fun wv (rb : buffer U byte) =>
        match should_compress ser (s_cap s) (b_nnz rb) with
        | COMPRESSED => union_compressed op threads (b_cdata rb) (b_cidx rb) (b_nnz rb) wv
        | SERIALIZED =>
            do rb' <- buf_decompress ser dec threads rb ;;
            do w2 <- words rb' ;;
            union_dense op (s_cap s) (num_ints_of (s_cap s)) (snd wv) (fst wv) (b_value rb') w2
        | NONE =>
            do w2 <- words rb ;;
            union_dense op (s_cap s) (num_ints_of (s_cap s)) (snd wv) (fst wv) (b_value rb) w2
        end) rbs (w, v) = Ok (w', v') /\ wwf (s_cap s) w' /\ zlen v' = s_cap s /\
        dmap w' v' (fun k => fold_left (fun acc (N : Z -> option U) => opt_op op acc (N k)) Ns (M k))) as G.
    { clear - dec_enc Ht H0. induction rbs as [|rb rbs IH]; intros Ns w v M F W L D; inversion F as [|? N ? Ns' Hh F']; subst.
      - exists w, v. simpl. auto.
      - cbn [foldR fold_left].
        assert (exists w1 v1, (match should_compress ser (s_cap s) (b_nnz rb) with
          | COMPRESSED => union_compressed op threads (b_cdata rb) (b_cidx rb) (b_nnz rb) (w, v)
          | SERIALIZED =>
            do rb' <- buf_decompress ser dec threads rb ;;
            do w2 <- words rb' ;;
            union_dense op (s_cap s) (num_ints_of (s_cap s)) (snd (w,v)) (fst (w,v)) (b_value rb') w2
          | NONE =>
            do w2 <- words rb ;;
            union_dense op (s_cap s) (num_ints_of (s_cap s)) (snd (w,v)) (fst (w,v)) (b_value rb) w2
          end) = Ok (w1, v1) /\ wwf (s_cap s) w1 /\ zlen v1 = s_cap s /\ dmap w1 v1 (fun k => opt_op op (M k) (N k))) as (w1 & v1 & E1 & W1 & L1 & D1).
        { destruct (holds_decompress ser thr enc dec dec_enc threads (s_cap s) rb _ Ht Hh) as (b' & Eb & [Bw0 _] & Ub & (w2 & Bb & Ww2) & HA).
          pose proof Bw0 as (B0 & B1 & B2 & B3 & _).
          assert (dmap w2 (b_value b') N) as DN. { intros k. rewrite <- HA. unfold babs. rewrite Ub, Bb. reflexivity. }
          destruct Hh as (_ & _ & Hh). cbn [fst snd]. destruct (should_compress ser (s_cap s) (b_nnz rb)).
          - injection Eb as <-. unfold words. rewrite Bb. cbn [bind]. apply union_dense_spec; auto.
          - destruct Hh as (es & Nz & I & K & S1 & S2 & HE). rewrite Nz. apply (union_compressed_spec threads (s_cap s) es); auto. apply Ht.
          - rewrite Eb. cbn [bind]. unfold words. rewrite Bb. cbn [bind]. apply union_dense_spec; auto. }
        rewrite E1. cbn [bind]. apply (IH Ns' w1 v1 _ F' W1 L1 D1). }
    destruct (G (s_recv s) Ns w (b_value b) M F Ww B3 D) as (w' & v' & -> & W' & L' & D'). cbn [bind fst snd].
    eexists. split; [reflexivity|]. rewrite set_prop_set_prop. pose proof W' as [WL' _].
    split; [|split; [|split; [|split; [|split] ] ] ]; auto.
    - apply swf_set_prop; auto. unfold SegmentProofs.bwf, SegmentProofs.bwf0; simpl. conjs; eauto.
    - intros k. rewrite <- D'. unfold sabs, babs; simpl. rewrite U0. reflexivity.
    - eexists; split; [reflexivity|]. auto.
  Qed.
End UN.
