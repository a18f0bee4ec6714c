From Verif Require Import BaseLemmas Bits BitsProofs Segment SegmentProofs UnionProofs Reduce ReduceProofs ListLemmas GraphVertProofs Bucket BucketProofs VecProofs2 Search SearchProofs DCSC DCSCBuild DCSCFinal MatSpec TileProofs Conc ConcProofs ParSeg ParSegProofs EdgeList EdgeSpec Kernel KernelProofs MultProofs Tiles TilesProofs DcsrProofs SimdProofs SimdFinal HybridProofs TileKernel TileSpec TileKernelProofs.

Section Conv.
  Context {E U : Type}.
  Variables (es out : list (edge E)) (m n rs cs : Z).
  Hypothesis Hm : 0 <= m.
  Hypothesis Hes : forall e, In e es -> in_rect m n rs cs e.
  Hypothesis Po : Permutation es out.
  Variable add : U -> U -> U.
  Variable xw : list Z.
  Hypothesis Xw : n <= 32 * zlen xw.
  Variable f : Z -> E -> Z -> R U.
  Variable G : edge E -> option U.
  Hypothesis HG : forall e, In e es -> if tb xw (e_dst e - 1 - cs) then exists u, f (e_dst e - 1 - cs) (e_val e) (e_src e - 1 - rs) = Ok u /\ G e = Some u else G e = None.
  Notation st := (list Z * list (option U))%type.
  Let es0 := map (rel rs cs) out.
  Definition G0 (e : edge E) := G (unrel rs cs e).

  Lemma es0_in e : In e es0 -> exists e', In e' es /\ e = rel rs cs e'.
  Proof using Po. clear HG Xw Hm. intros H. apply in_map_iff in H as (e' & <- & H). exists e'. split; auto. apply (Permutation_in _ (Permutation_sym Po)). auto. Qed.
  Lemma es0_range e : In e es0 -> 0 <= e_src e < m /\ 0 <= e_dst e < n.
  Proof using Hes Po. clear HG Xw Hm add f G. intros H. apply es0_in in H as (e' & H & ->). destruct (Hes e' H) as [H1 H2]. simpl. lia. Qed.
  Lemma es0_products e : In e es0 -> if tb xw (e_dst e) then exists u, f (e_dst e) (e_val e) (e_src e) = Ok u /\ G0 e = Some u else G0 e = None.
  Proof using HG Po. clear Hes Xw Hm. intros H. apply es0_in in H as (e' & H & ->). specialize (HG e' H). unfold G0. rewrite unrel_rel. exact HG. Qed.

  Definition computed (mult : st -> R st) w v (M : Z -> option U) w' v' : Prop :=
    mult (w, v) = Ok (w', v') /\
    represents m w' v' (fun k => red add (olist (M k) ++ row_products G out (k + 1 + rs))) /\
    (commutative add -> associative add -> represents m w' v' (fun k => red add (olist (M k) ++ row_products G es (k + 1 + rs)))).

  Lemma conv mult w v M : (forall s, Good m s -> mult s = forZ 0 (zlen out) (ientry add xw f es0) s) -> represents m w v M -> exists w' v', computed mult w v M w' v'.
  Proof.
    intros Hmult Rw. destruct (represents_dmap m w v M Hm Rw) as (W & L & D).
    destruct (all_entries add m n xw f G0 es0 es0_range es0_products w v (inside m M) W L D) as (w' & v' & E1 & W' & L' & D').
    assert (forall k, 0 <= k < m -> inside m M k = M k) as Hi.
    { intros k Hk. unfold inside. destruct (Z.leb_spec 0 k), (Z.ltb_spec k m); simpl; auto; lia. }
    assert (forall k, row_products G0 es0 k = row_products G out (k + 1 + rs)) as Ep.
    { intros k. transitivity (row_products G (map (unrel rs cs) es0) (k + 1 + rs)).
      - symmetry. apply (row_products_map G (unrel rs cs)). intros e He. simpl. destruct (Z.eqb_spec (rs + e_src e + 1) (k + 1 + rs)), (Z.eqb_spec (e_src e) k); auto; lia.
      - f_equal. unfold es0. rewrite map_map. rewrite (map_ext _ (fun e => e)) by (intros; apply unrel_rel). apply map_id. }
    exists w', v'. split; [|split].
    - rewrite Hmult by (exists (inside m M); auto). unfold es0 in E1 at 1. rewrite zlen_map in E1. exact E1.
    - eapply dmap_represents; [auto|auto|auto|exact D'|]. intros k Hk. cbv beta. rewrite Hi, Ep; auto.
    - intros Cm As. eapply dmap_represents; [auto|auto|auto|exact D'|]. intros k Hk. cbv beta. rewrite Hi by auto. apply red_perm; auto. apply Permutation_app_head. rewrite Ep. apply row_products_perm. symmetry. auto.
  Qed.
  Lemma conv_coo mult np ps w v M : mult = coo_loop add xw f np (map e_val out) (ja_of cs out) (ia_of rs out) ps ->
    0 <= np -> zlen ps = np + 1 -> rd ps 0 = Ok 0 -> rd ps np = Ok (zlen out) ->
    (forall p a b, rd ps p = Ok a -> rd ps (p + 1) = Ok b -> a <= b) ->
    (forall p q a b c d i j e e', 0 <= p < q -> rd ps p = Ok a -> rd ps (p + 1) = Ok b -> rd ps q = Ok c -> rd ps (q + 1) = Ok d ->
       a <= i < b -> c <= j < d -> rd out i = Ok e -> rd out j = Ok e' -> (e_src e - 1 - rs) / 32 <> (e_src e' - 1 - rs) / 32) ->
    represents m w v M -> exists w' v', computed mult w v M w' v' /\
      forall ts' m', psteps sloc_eqb (coo_pool add xw f np (map e_val out) (ja_of cs out) (ia_of rs out) ps, smem (w, v)) (ts', m') ->
         ~ bad (ts', m') /\ (finished ts' -> forall l, m' l = smem (w', v') l).
  Proof.
    intros -> Hnp Lps P0 Pn Pm Pd Rw.
    assert (map e_val es0 = map e_val out) as Ea by (unfold es0; rewrite map_map; auto).
    assert (map (fun e => e_dst e + 1) es0 = ja_of cs out) as Ej by (unfold es0, ja_of; rewrite map_map; apply map_ext; intros; simpl; lia).
    assert (map (fun e => e_src e + 1) es0 = ia_of rs out) as Ei by (unfold es0, ia_of; rewrite map_map; apply map_ext; intros; simpl; lia).
    destruct (coo_loop_all add m n xw Xw f G0 es0 es0_range es0_products np ps Hnp Lps P0) as [C1 C2]; auto.
    - unfold es0. rewrite zlen_map. auto.
    - intros p q a b c d i j e e' Hpq H1 H2 H3 H4 Hi Hj He He'. unfold es0 in He, He'. rewrite rd_map_list in He, He'.
      destruct (rd out i) as [x|] eqn:Ex; [|discriminate]. destruct (rd out j) as [y|] eqn:Ey; [|discriminate]. injection He as <-. injection He' as <-. simpl. eapply (Pd p q); eauto.
    - rewrite Ea, Ej, Ei in *. destruct (conv (coo_loop add xw f np (map e_val out) (ja_of cs out) (ia_of rs out) ps) w v M) as (w' & v' & Cp); auto.
      { intros s Gs. rewrite C1 by auto. unfold es0 at 1. rewrite zlen_map. auto. }
      exists w', v'. split; auto. apply C2. apply Cp.
  Qed.
  Lemma conv_rows mult np (pf : Z -> st -> R st) pt rows w v M : mult = forZ 0 np pf ->
    (forall s, Good m s -> mult s = forZ 0 (zlen out) (ientry add xw f es0) s) ->
    (forall p, 0 <= p < np -> sim (pt p) (pf p)) ->
    (forall p, 0 <= p < np -> only (fun l => exists r, In r (rows p) /\ at_idx r l) (pt p)) ->
    (forall p q r r', 0 <= p < q -> q < np -> In r (rows p) -> In r' (rows q) -> r / 32 <> r' / 32) ->
    represents m w v M -> exists w' v', computed mult w v M w' v' /\
      forall ts' m', psteps sloc_eqb (map pt (zrange 0 np), smem (w, v)) (ts', m') -> ~ bad (ts', m') /\ (finished ts' -> forall l, m' l = smem (w', v') l).
  Proof.
    intros -> H1 H2 H3 H4 Rw. destruct (conv (forZ 0 np pf) w v M H1 Rw) as (w' & v' & Cp). exists w', v'. split; auto.
    apply (pool_interleavings np pf pt rows H2 H3 H4). apply Cp.
  Qed.
  Lemma conv_none w v M : out = [] -> represents m w v M -> exists w' v', computed (fun s => Ok s) w v M w' v' /\
      forall ts' m', psteps sloc_eqb ([], smem (w, v)) (ts', m') -> ~ bad (ts', m') /\ (finished ts' -> forall l, m' l = smem (w', v') l).
  Proof.
    intros Ho Rw. destruct (conv (fun s => Ok s) w v M) as (w' & v' & Cp); auto.
    { intros s _. rewrite Ho. rewrite forZ_empty by (unfold zlen; simpl; lia). auto. }
    exists w', v'. split; auto. intros ts' m' St. change (@nil (thread sloc (@scell U))) with (map (fun _ : Z => @Fin sloc (@scell U)) (zrange 0 0)) in St.
    revert St. apply (pool_interleavings 0 (fun _ s => Ok s) (fun _ => Fin) (fun _ => [])); try lia; intros; try lia. destruct Cp as [Cp _]. injection Cp as <- <-. rewrite forZ_empty by lia. auto.
  Qed.
End Conv.

(** ** the binary search only compares *)
Lemma l_bsearch_loop_same v i1 i2 : (forall h a, rd v h = Ok a -> (a <? i1) = (a <? i2)) ->
  forall fuel e1 e2 eh, l_bsearch_loop fuel v i1 e1 e2 eh = l_bsearch_loop fuel v i2 e1 e2 eh.
Proof.
  intros H. induction fuel as [|k IH]; intros e1 e2 eh; cbn [l_bsearch_loop]; auto. destruct (e1 <=? e2); auto. cbv zeta. destruct (_ =? 0); auto.
  destruct (rd v (e2 - Z.quot (e2 - e1) 2 - 1)) as [a|] eqn:Ea; cbn [bind]; auto. rewrite (H _ _ Ea).
  destruct (rd v (e2 - Z.quot (e2 - e1) 2)) as [b|] eqn:Eb; cbn [bind].
  - assert ((i1 <=? b) = (i2 <=? b)) as -> by (pose proof (H _ _ Eb); lia). destruct (a <? i2); cbn [bind]; [destruct (i2 <=? b); auto|]. destruct (i2 <=? b); auto.
  - destruct (a <? i2); reflexivity.
Qed.
Lemma rpp_words rpp m p q a b : rpp mod 32 = 0 -> 0 <= rpp -> p < q -> a < Z.min ((p + 1) * rpp) m -> Z.min (q * rpp) m <= b -> b < m -> a / 32 <> b / 32.
Proof.
  intros H0 H1 Hpq Ha Hb Hbm. apply Z.mod_divide in H0 as [k ->]; [|lia]. assert (q * (k * 32) <= b) as B by lia. assert (a < (p + 1) * (k * 32)) as A by lia.
  assert ((p + 1) * (k * 32) <= q * (k * 32)) by nia. clear Ha Hb Hbm.
  assert (a / 32 < (p + 1) * k) by (apply Z.div_lt_upper_bound; lia). assert ((p + 1) * k <= b / 32) by (apply Z.div_le_lower_bound; lia). lia.
Qed.

Section Formats.
  Context {E U : Type}.
  Variable srt : list (edge E) -> list (edge E).
  Hypothesis Hsrt : sorts_ends srt.
  Variables (threads : Z) (es : list (edge E)) (m n rs cs : Z).
  Hypothesis Hth : 1 <= threads.
  Hypothesis Hm : 0 <= m.
  Hypothesis Hes : forall e, In e es -> in_rect m n rs cs e.
  Variable add : U -> U -> U.
  Variable xw : list Z.
  Hypothesis Xw : n <= 32 * zlen xw.
  Variable f : Z -> E -> Z -> R U.
  Variable G : edge E -> option U.
  Hypothesis HG : forall e, In e es -> if tb xw (e_dst e - 1 - cs) then exists u, f (e_dst e - 1 - cs) (e_val e) (e_src e - 1 - rs) = Ok u /\ G e = Some u else G e = None.
  Notation computed := (computed es).
  Notation st := (list Z * list (option U))%type.

  Lemma ia_len : zlen (ia_of rs (srt es)) = zlen es. Proof using Hsrt. unfold ia_of. rewrite zlen_map. apply s_len. auto. Qed.
  Lemma ia_range i a : rd (ia_of rs (srt es)) i = Ok a -> 1 <= a <= m.
  Proof using Hsrt Hes.
    intros H. unfold ia_of in H. rewrite rd_map_list in H. destruct (rd (srt es) i) as [e|] eqn:He; [|discriminate]. injection H as <-.
    destruct (s_rect srt Hsrt es m n rs cs Hes e (rd_In _ _ _ He)). clear - H H0. lia.
  Qed.
  Lemma N_posE : es <> [] -> 0 < zlen es. Proof using. clear. intros H. destruct es; [congruence|]. rewrite zlen_cons. pose proof (zlen_nonneg l). lia. Qed.

  (** *** COOTile *)
  Section Starts.
    Variables (g rpp : Z) (ps : list Z).
    Hypothesis Hrpp : rows_per m (threads * 4) = Ok rpp.
    Hypothesis Hps : coo_starts srt threads es m rs g rpp ps.
    Let N := zlen es.
    Let ia := ia_of rs (srt es).
    Let item p := Z.min (p * rpp) m + 1.
    Lemma ia_len' : zlen ia = N. Proof using Hsrt. exact ia_len. Qed.
    Lemma rpp_facts : 0 <= rpp /\ rpp mod 32 = 0 /\ m <= threads * 4 * rpp.
    Proof. destruct (rows_per_spec m (threads * 4)) as (r & Er & H); [lia|lia|]. rewrite Er in Hrpp. injection Hrpp as <-. auto. Qed.
    Lemma item_mono p q : p <= q -> item p <= item q.
    Proof. intros H. destruct rpp_facts as (R & _). unfold item. assert (p * rpp <= q * rpp) by nia. lia. Qed.
    Lemma start_at p s : rd ps p = Ok s -> s = cross ia (item p) \/ s = N /\ g < item p /\ cross ia (item p) = N - 1.
    Proof. intros H. apply Hps in H as [_ H]. exact H. Qed.
    Lemma start_range p s : rd ps p = Ok s -> cross ia (item p) <= s <= N.
    Proof. intros H. pose proof (cross_range ia (item p)). rewrite ia_len' in H0. apply start_at in H. lia. Qed.
    Lemma start_mono p q s s' : p <= q -> rd ps p = Ok s -> rd ps q = Ok s' -> s <= s'.
    Proof.
      intros Hpq Hs Hs'. pose proof (item_mono p q Hpq) as Im. pose proof (cross_mono ia _ _ Im) as Cm. pose proof (start_range _ _ Hs'). destruct (start_at _ _ Hs) as [->|(-> & Hg & Hc)]; [lia|].
      destruct (Z.eq_dec (cross ia (item q)) N); [lia|]. pose proof (cross_range ia (item q)) as Rq. rewrite ia_len' in Rq. assert (cross ia (item q) = N - 1) as Hq by lia.
      destruct (proj2 Hps p N Hs) as [S1 _]. destruct (proj2 Hps q s' Hs') as [S2 _]. fold (item p) in S1. fold (item q) in S2. unfold l_binary_search in S1, S2.
      rewrite (l_bsearch_loop_same _ (item p) (item q)) in S1; [rewrite S1 in S2; injection S2 as <-; lia|].
      intros h a Ha. pose proof (cross_sorted ia (item p) (ia_sorted srt Hsrt es rs)) as (_ & P1 & P2). pose proof (cross_sorted ia (item q) (ia_sorted srt Hsrt es rs)) as (_ & Q1 & Q2).
      rewrite Hc, ia_len' in *. rewrite Hq in *. fold ia in Ha. pose proof (rd_bounds _ _ _ Ha) as B. rewrite zlen_app in B. change (zlen [g]) with 1 in B. rewrite ia_len' in B.
      destruct (Z_lt_dec h N).
      - rewrite rd_app1 in Ha by (rewrite ia_len'; lia). destruct (Z_lt_dec h (N - 1)).
        + pose proof (P1 h a ltac:(lia) Ha). pose proof (Q1 h a ltac:(lia) Ha). lia.
        + pose proof (P2 h a ltac:(lia) Ha). pose proof (Q2 h a ltac:(lia) Ha). lia.
      - rewrite rd_app2 in Ha by (rewrite ia_len'; lia). rewrite ia_len' in Ha. replace (h - N) with 0 in Ha by lia. injection Ha as <-. lia.
    Qed.
    Lemma start_first s : rd ps 0 = Ok s -> zlen es <> 1 \/ 1 <= g -> s = 0.
    Proof.
      intros Hs Hc. assert (item 0 = 1) as I0 by (unfold item; rewrite Z.mul_0_l; lia). assert (cross ia 1 = 0) as C0.
      { apply cross_none. intros a Ha. apply In_rd in Ha as (i & _ & Hi). apply ia_range in Hi. lia. }
      destruct (start_at _ _ Hs) as [H|(H1 & H2 & H3)]; rewrite ?I0, ?C0 in *; auto. unfold N in *. lia.
    Qed.
    Lemma start_words p q a b c d i j e e' : 0 <= p < q -> rd (ps ++ [N]) p = Ok a -> rd (ps ++ [N]) (p + 1) = Ok b -> rd (ps ++ [N]) q = Ok c -> rd (ps ++ [N]) (q + 1) = Ok d ->
       a <= i < b -> c <= j < d -> rd (srt es) i = Ok e -> rd (srt es) j = Ok e' -> (e_src e - 1 - rs) / 32 <> (e_src e' - 1 - rs) / 32.
    Proof.
      intros Hpq Ha Hb Hc Hd Hi Hj He He'. destruct rpp_facts as (R1 & R2 & R3). destruct Hps as [Lp _]. pose proof (rd_bounds _ _ _ Hd) as Bd. rewrite zlen_app in Bd. change (zlen [N]) with 1 in Bd.
      rewrite rd_app1 in Hb, Hc by lia. pose proof (rd_bounds _ _ _ He') as Bj. rewrite (s_len srt Hsrt) in Bj. fold N in Bj.
      pose proof (start_mono (p + 1) q b c ltac:(lia) Hb Hc) as Mo. destruct (start_at _ _ Hb) as [->|(-> & _)]; [|lia]. destruct (start_at _ _ Hc) as [->|(-> & _)]; [|lia].
      assert (rd ia i = Ok (e_src e - rs)) as Ri by (unfold ia, ia_of; rewrite rd_map_list, He; auto). assert (rd ia j = Ok (e_src e' - rs)) as Rj by (unfold ia, ia_of; rewrite rd_map_list, He'; auto).
      pose proof (cross_sorted ia (item (p + 1)) (ia_sorted srt Hsrt es rs)) as (_ & P1 & _). pose proof (cross_sorted ia (item q) (ia_sorted srt Hsrt es rs)) as (_ & _ & Q2).
      rewrite ia_len' in *. pose proof (rd_bounds _ _ _ Ri) as Bi. specialize (P1 i _ ltac:(lia) Ri). specialize (Q2 j _ ltac:(lia) Rj). pose proof (ia_range _ _ Rj). unfold item in *.
      apply (rpp_words rpp m p q); auto; lia.
    Qed.
  End Starts.

  Lemma coo_computed g w v M : zlen es <> 1 \/ 1 <= g -> represents m w v M -> exists t out w' v',
    coo_new srt threads (Some g) es m n rs cs = Ok t /\ Permutation es out /\ computed out m rs add G (coo_multiply add xw f t) w v M w' v' /\
    forall ts' m', psteps sloc_eqb (coo_mpool add xw f t, smem (w, v)) (ts', m') -> ~ bad (ts', m') /\ (finished ts' -> forall l, m' l = smem (w', v') l).
  Proof.
    intros Hg Rw. destruct (nil_dec es) as [Hn|Hne].
    - exists (coo_empty m n), []. subst es. destruct (conv_none [] [] m n rs cs Hm Hes ltac:(constructor) add xw f G HG w v M eq_refl Rw) as (w' & v' & Cp & Hs). exists w', v'. split; auto.
    - destruct (coo_built srt Hsrt threads es m n rs cs Hth Hes g Hne) as (rpp & ps & Er & Hps & Hnew). pose proof (N_posE Hne) as Np. pose proof (proj1 Hps) as Lps.
      assert (Permutation es (srt es)) as Po by (symmetry; apply Hsrt).
      destruct (conv_coo es (srt es) m n rs cs Hm Hes Po add xw Xw f G HG) with (np := threads * 4) (ps := ps ++ [zlen es]) (w := w) (v := v) (M := M)
        (mult := coo_loop add xw f (threads * 4) (map e_val (srt es)) (ja_of cs (srt es)) (ia_of rs (srt es)) (ps ++ [zlen es])) as (w' & v' & Cp & Hs); auto.
      + lia.
      + rewrite zlen_app, Lps. reflexivity.
      + rewrite rd_app1 by lia. destruct (rd_ok ps 0) as [s Hs]; [lia|]. rewrite Hs. f_equal. eapply start_first; eauto.
      + rewrite rd_app2 by lia. rewrite Lps, Z.sub_diag, (s_len srt Hsrt). reflexivity.
      + intros p a b Ha Hb. pose proof (rd_bounds _ _ _ Hb) as B. pose proof (rd_bounds _ _ _ Ha) as Ba. rewrite zlen_app in B. change (zlen [zlen es]) with 1 in B. rewrite rd_app1 in Ha by lia.
        destruct (Z.eq_dec (p + 1) (threads * 4)) as [Hl|].
        * rewrite rd_app2 in Hb by lia. rewrite Hl, Lps, Z.sub_diag in Hb. injection Hb as <-. eapply start_range; eauto.
        * rewrite rd_app1 in Hb by lia. eapply (start_mono g rpp ps Er Hps p (p + 1)); eauto. lia.
      + intros. eapply (start_words g rpp ps Er Hps p q); eauto.
      + eexists. exists (srt es), w', v'. split; [exact Hnew|]. split; [symmetry; apply Hsrt|].
        unfold coo_multiply, coo_mpool. cbn [o_nnz o_np o_a o_ja o_ia o_ps]. destruct (Z.ltb_spec 0 (zlen es)); [|lia]. split; auto.
  Qed.
  Lemma coo_lost g t (s : st) : zlen es = 1 -> g < 1 -> coo_new srt threads (Some g) es m n rs cs = Ok t -> coo_multiply add xw f t s = Ok s.
  Proof.
    intros H1 Hg Ht. assert (es <> []) as Hne by (intros ->; discriminate). destruct (coo_built srt Hsrt threads es m n rs cs Hth Hes g Hne) as (rpp & ps & Er & Hps & Hnew).
    rewrite Hnew in Ht. injection Ht as <-. unfold coo_multiply. cbn [o_nnz o_np o_a o_ja o_ia o_ps]. rewrite H1. cbn [Z.ltb Z.compare].
    pose proof (proj1 Hps) as Lps. destruct (rd_ok ps 0) as [s0 Hs0]; [lia|].
    assert (s0 = 1) as ->.
    { destruct (proj2 Hps 0 s0 Hs0) as [S1 _]. rewrite Z.mul_0_l in S1. rewrite Z.min_l in S1 by lia. rewrite H1 in S1.
      pose proof (ia_len) as Li. destruct (ia_of rs (srt es)) as [|a [|b l]] eqn:Ei; try (rewrite H1 in Li; unfold zlen in Li; simpl in Li; lia).
      pose proof (ia_range 0 a) as Ra. rewrite Ei in Ra. specialize (Ra eq_refl). clear - S1 Ra Hg. change (l_bsearch_loop 2 [a; g] 1 0 1 None = Ok s0) in S1. cbn -[Z.ltb Z.leb] in S1. change (0 <=? 1) with true in S1. cbv iota beta in S1.
      change (rd [a; g] 0) with (Ok a) in S1. change (rd [a; g] 1) with (Ok g) in S1. cbn [bind] in S1. rewrite (proj2 (Z.ltb_ge a 1)) in S1 by lia. cbn [bind] in S1. rewrite (proj2 (Z.leb_gt 1 g)) in S1 by lia. cbn in S1. congruence. }
    assert (forall p s, rd (ps ++ [1]) p = Ok s -> s = 1) as All.
    { intros p s1 Hp. pose proof (rd_bounds _ _ _ Hp) as B. rewrite zlen_app in B. change (zlen [1]) with 1 in B. destruct (Z.eq_dec p (zlen ps)) as [->|].
      - rewrite rd_app2, Z.sub_diag in Hp by lia. injection Hp. auto.
      - rewrite rd_app1 in Hp by lia. pose proof (start_mono g rpp ps Er Hps 0 p 1 s1 ltac:(lia) Hs0 Hp). pose proof (start_range g rpp ps Hps p s1 Hp). lia. }
    unfold coo_loop. destruct (forZ_inv (fun _ s' => s' = s) 0 (threads * 4) (coo_part add xw f (map e_val (srt es)) (ja_of cs (srt es)) (ia_of rs (srt es)) (ps ++ [1])) s) as (s' & -> & ->); auto; [lia|].
    intros i s1 Hi ->. unfold coo_part. destruct (rd_ok (ps ++ [1]) i) as [x Hx]; [rewrite zlen_app; change (zlen [1]) with 1; lia|]. destruct (rd_ok (ps ++ [1]) (i + 1)) as [y Hy]; [rewrite zlen_app; change (zlen [1]) with 1; lia|].
    rewrite Hx, Hy. cbn [bind]. rewrite (All _ _ Hx), (All _ _ Hy). rewrite forZ_empty by lia. eauto.
  Qed.

  (** *** CSRTile *)
  Lemma csr_computed threads' w v M : 1 <= threads' -> represents m w v M -> exists t out pool w' v',
    csr_new srt threads es m n rs cs = Ok t /\ Permutation es out /\ computed out m rs add G (csr_multiply add xw f threads' t) w v M w' v' /\
    csr_mpool add xw f threads' t = Ok pool /\
    forall ts' m', psteps sloc_eqb (pool, smem (w, v)) (ts', m') -> ~ bad (ts', m') /\ (finished ts' -> forall l, m' l = smem (w', v') l).
  Proof.
    intros Hth' Rw. destruct (nil_dec es) as [Hn|Hne].
    - exists (csr_empty m n), [], []. subst es. destruct (conv_none [] [] m n rs cs Hm Hes ltac:(constructor) add xw f G HG w v M eq_refl Rw) as (w' & v' & Cp & Hs). exists w', v'. split; auto.
    - pose proof (csr_built srt Hsrt threads es m n rs cs Hth Hes Hne) as Hnew. pose proof (N_posE Hne) as Np.
      set (t := mkCsr (zlen es) m n (map e_val (srt es)) (ja_of cs (srt es)) (row_ptrs m rs (srt es))) in *.
      destruct (rows_per_spec m (threads' * 4)) as (rpp & Er & R1 & R2 & R3); [lia|lia|].
      set (c := fun k => cross (ia_of rs (srt es)) (k + 1)).
      set (es0 := map (rel rs cs) (srt es)).
      assert (Permutation es (srt es)) as Po by (symmetry; apply Hsrt).
      assert (forall k, 0 <= k <= m -> rd (s_ia t) k = Ok (c k + 1)) as Rc.
      { intros k Hk. unfold t. cbn [s_ia]. unfold row_ptrs. rewrite rd_map_list, rd_zrange by lia. reflexivity. }
      assert (c m = zlen (srt es)) as Cm. { unfold c. rewrite cross_all; [rewrite ia_len, s_len; auto|]. intros a Ha. apply In_rd in Ha as (i & _ & Hi). apply ia_range in Hi. lia. }
      assert (c 0 = 0) as C0. { apply cross_none. intros a Ha. apply In_rd in Ha as (i & _ & Hi). apply ia_range in Hi. lia. }
      assert (forall k k', k <= k' -> c k <= c k') as Cmono by (intros k k' Hk; apply cross_mono; lia).
      assert (forall k, c k <= zlen (srt es)) as Cle. { intros k. unfold c. pose proof (cross_range (ia_of rs (srt es)) (k + 1)) as B. rewrite ia_len in B. rewrite s_len; auto. lia. }
      destruct (conv_rows es (srt es) m n rs cs Hm Hes Po add xw f G HG) with (mult := forZ 0 (threads' * 4) (csr_mpart add xw f t rpp))
        (np := threads' * 4) (pf := csr_mpart add xw f t rpp) (pt := csr_mpart_t add xw f t rpp) (rows := fun p => zrange (p * rpp) (Z.min ((p + 1) * rpp) m)) (w := w) (v := v) (M := M) as (w' & v' & Cp & Hs); auto.
      + intros s Gs. fold es0.
        replace (zlen (srt es)) with (c (Z.min (threads' * 4 * rpp) m)) by (rewrite <- Cm; f_equal; lia).
        replace 0 with (c (Z.min (0 * rpp) m)) at 2 by (rewrite Z.mul_0_l, Z.min_l by lia; auto).
        apply (good_chain add m n xw f (G0 rs cs G) es0 (es0_range es (srt es) m n rs cs Hes Po) (es0_products es (srt es) rs cs Po xw f G HG) (fun p => c (Z.min (p * rpp) m))); auto; [lia| |].
        * intros k Hk. apply Cmono. assert (k * rpp <= (k + 1) * rpp) by nia. lia.
        * intros k s1 Hk Gs1. unfold csr_mpart. change (s_m t) with m.
          destruct (Z_le_dec m (k * rpp)).
          { rewrite forZ_empty by lia. assert (m <= (k + 1) * rpp) by nia. rewrite !Z.min_r by lia. rewrite forZ_empty by lia. auto. }
          rewrite (Z.min_l (k * rpp) m) by lia. assert (0 <= k * rpp) as K0 by nia. assert (k * rpp <= (k + 1) * rpp) as K1 by nia. set (r1 := Z.min ((k + 1) * rpp) m) in *. assert (r1 <= m) as K2 by lia. assert (k * rpp <= r1) as K3 by lia. clearbody r1.
          apply (good_chain add m n xw f (G0 rs cs G) es0 (es0_range es (srt es) m n rs cs Hes Po) (es0_products es (srt es) rs cs Po xw f G HG) c); auto.
          { intros k0 Hk0. apply Cmono. lia. }
          intros row s2 Hrow Gs2. rewrite (Rc row), (Rc (row + 1)) by lia. cbn [bind].
          apply (row_mult_entries add m n xw Xw f (G0 rs cs G) es0 (es0_range es (srt es) m n rs cs Hes Po) (es0_products es (srt es) rs cs Po xw f G HG)); auto; [lia|].
          intros i Hi. assert (0 <= i < zlen (srt es)) as Bi by (pose proof (Cle (row + 1)); pose proof (Cmono 0 row ltac:(lia)); lia).
          destruct (rd_ok (srt es) i Bi) as [e He]. exists (rel rs cs e). split; [unfold es0; rewrite rd_map_list, He; auto|].
          assert (rd (ia_of rs (srt es)) i = Ok (e_src e - rs)) as Ri by (unfold ia_of; rewrite rd_map_list, He; auto).
          pose proof (cross_sorted (ia_of rs (srt es)) (row + 1) (ia_sorted srt Hsrt es rs)) as (_ & _ & P2). pose proof (cross_sorted (ia_of rs (srt es)) (row + 1 + 1) (ia_sorted srt Hsrt es rs)) as (_ & Q1 & _).
          unfold c in Hi. rewrite ia_len in *. rewrite s_len in Bi by auto. specialize (P2 i _ ltac:(lia) Ri). specialize (Q1 i _ ltac:(lia) Ri).
          split; [simpl; lia|]. unfold csr_at, t. cbn [s_ja s_a]. replace (i + 1 - 1) with i by lia. unfold ja_of. rewrite !rd_map_list, He. cbn [bind]. simpl. do 2 f_equal. lia.
      + intros p Hp. apply sim_csr_mpart.
      + intros p Hp. apply (only_csr_mpart add xw f t rpp p).
      + intros p q r r' Hpq Hq Hr Hr'. apply in_zrange in Hr, Hr'. apply (rpp_words rpp m p q); auto; lia.
      + exists t, (srt es). eexists. exists w', v'. split; auto. split; auto. unfold csr_multiply, csr_mpool. change (s_nnz t) with (zlen es). change (s_m t) with m. destruct (Z.ltb_spec 0 (zlen es)); [|lia].
        rewrite Er. cbn [bind]. split; auto.
  Qed.

  (** *** DCSRTile *)
  Lemma dcsr_computed g w v M : represents m w v M -> exists t out w' v',
    dcsr_new srt threads (Some g) es m n rs cs = Ok t /\ Permutation es out /\ computed out m rs add G (dcsr_multiply add xw f t) w v M w' v' /\
    forall ts' m', psteps sloc_eqb (dcsr_mpool add xw f t, smem (w, v)) (ts', m') -> ~ bad (ts', m') /\ (finished ts' -> forall l, m' l = smem (w', v') l).
  Proof.
    intros Rw. destruct (nil_dec es) as [Hn|Hne].
    - exists (dcsr_empty m n), []. subst es. destruct (conv_none [] [] m n rs cs Hm Hes ltac:(constructor) add xw f G HG w v M eq_refl Rw) as (w' & v' & Cp & Hs). exists w', v'. split; auto.
    - destruct (dcsr_built srt Hsrt threads es m n rs cs Hth Hes Hne g) as (pp & Lpp & Ppn & (Pp0 & Ppm & Pcut) & Hnew). pose proof (N_posE Hne) as Np.
      set (sl := srt es) in *. set (rows := row_numbers sl rs) in *. set (N := zlen rows) in *. set (bs := row_bounds sl) in *.
      set (t := mkDcsr (zlen es) m n N (threads * 4) pp (map e_val sl) (map (fun e => e_dst e - cs - 1) sl) bs rows) in *.
      set (es0 := map (rel rs cs) sl).
      assert (Permutation es sl) as Po by (symmetry; apply Hsrt).
      assert (0 < zlen sl) as Spos by (apply s_pos; auto).
      assert (forall i j a b, 0 <= i <= j -> rd sl i = Ok a -> rd sl j = Ok b -> e_src a <= e_src b) as Sord by (exact (s_order srt Hsrt es)).
      assert (N = zlen (starts sl)) as NS by (apply zlen_numbers).
      assert (zlen bs = N + 1) as Lbs by (rewrite NS; apply zlen_bounds).
      assert (forall k, 0 <= k < N -> exists x y, rd bs k = Ok x /\ rd bs (k + 1) = Ok y /\ 0 <= x < y /\ y <= zlen sl) as Bs.
      { intros k Hk. destruct (rd_ok bs k) as [x Hx]; [lia|]. destruct (rd_ok bs (k + 1)) as [y Hy]; [lia|]. exists x, y. split; auto. split; auto.
        destruct (bounds_next sl Spos Sord k x y) as (B1 & B2 & _); auto; lia. }
      assert (rd bs 0 = Ok 0) as Bs0 by reflexivity.
      assert (rd bs N = Ok (zlen sl)) as BsN. { unfold bs, row_bounds. rewrite rd_app2 by lia. rewrite NS, Z.sub_diag. reflexivity. }
      assert (forall p x, rd pp p = Ok x -> 0 <= x <= N) as Pr by (intros p x Hx; apply rd_In in Hx; apply (Pcut x Hx)).
      assert (forall p, 0 <= p < threads * 4 -> exists x y, rd pp p = Ok x /\ rd pp (p + 1) = Ok y /\ 0 <= x <= y /\ y <= N) as Pp.
      { intros p Hp. destruct (rd_ok pp p) as [x Hx]; [lia|]. destruct (rd_ok pp (p + 1)) as [y Hy]; [lia|]. exists x, y. split; auto. split; auto.
        pose proof (Ppm _ _ _ Hx Hy). pose proof (Pr _ _ Hx). pose proof (Pr _ _ Hy). lia. }
      assert (forall j i x y, 0 <= i -> i <= j -> rd pp i = Ok x -> rd pp j = Ok y -> x <= y) as Pmono.
      { intros j i x y Hi Hij Hx. revert y. pattern j. apply (Zlt_lower_bound_ind _ i); auto. intros k IH Hk y Hy. destruct (Z.eq_dec k i) as [->|]; [rewrite Hx in Hy; injection Hy; lia|].
        pose proof (rd_bounds _ _ _ Hy). destruct (rd_ok pp (k - 1)) as [z Hz]; [lia|]. pose proof (IH (k - 1) ltac:(lia) z Hz). pose proof (Ppm (k - 1) z y Hz). replace (k - 1 + 1) with k in H1 by lia. specialize (H1 Hy). lia. }
      assert (forall r r' a b, r <= r' -> rd rows r = Ok a -> rd rows r' = Ok b -> a <= b) as Rmono.
      { intros r r' a b Hr Ha Hb. destruct (Z.eq_dec r r') as [->|]; [rewrite Ha in Hb; injection Hb; lia|]. pose proof (numbers_incr sl Spos Sord rs r r' a b ltac:(lia) Ha Hb). lia. }
      assert (forall r a, rd rows r = Ok a -> 0 <= a < m) as Rrows by (exact (rows_pos srt Hsrt threads es m n rs cs Hes Hne)).
      destruct (conv_rows es sl m n rs cs Hm Hes Po add xw f G HG) with (mult := forZ 0 (threads * 4) (dcsr_mpart add xw f t))
        (np := threads * 4) (pf := dcsr_mpart add xw f t) (pt := dcsr_mpart_t add xw f t) (rows := fun p => map (getz rows) (zrange (getz pp p) (getz pp (p + 1)))) (w := w) (v := v) (M := M) as (w' & v' & Cp & Hs); auto.
      + intros s Gs. fold es0.
        replace (zlen sl) with (getz bs (getz pp (threads * 4))) by (rewrite (getz_rd _ _ _ Ppn), (getz_rd _ _ _ BsN); auto).
        replace 0 with (getz bs (getz pp 0)) at 2 by (rewrite (getz_rd _ _ _ Pp0), (getz_rd _ _ _ Bs0); auto).
        assert (forall a b, 0 <= a <= b -> b <= N -> forall s1, Good m s1 -> forZ a b (fun k wv =>
            do row <- rd rows k ;; do lo <- rd bs k ;; do hi <- rd bs (k + 1) ;; row_mult add xw f false row lo hi (dcsr_at t) wv) s1 = forZ (getz bs a) (getz bs b) (ientry add xw f es0) s1) as Inner.
        { intros a b Ha Hb s1 Gs1.
          apply (good_chain add m n xw f (G0 rs cs G) es0 (es0_range es sl m n rs cs Hes Po) (es0_products es sl rs cs Po xw f G HG) (getz bs)); auto; [lia| |].
          { intros k Hk. destruct (Bs k ltac:(lia)) as (x & y & Hx & Hy & B). rewrite (getz_rd _ _ _ Hx), (getz_rd _ _ _ Hy). lia. }
          intros k s2 Hk Gs2. destruct (Bs k ltac:(lia)) as (x & y & Hx & Hy & B). rewrite (getz_rd _ _ _ Hx), (getz_rd _ _ _ Hy). destruct (rd_ok rows k) as [row Hrow]; [fold N; lia|].
          rewrite Hrow, Hx, Hy. cbn [bind]. replace x with (x + 0) at 1 by lia. replace y with (y + 0) at 1 by lia.
          apply (row_mult_entries add m n xw Xw f (G0 rs cs G) es0 (es0_range es sl m n rs cs Hes Po) (es0_products es sl rs cs Po xw f G HG)); auto; [eapply Rrows; eauto|].
          intros i Hi. destruct (rd_ok sl i) as [e He]; [lia|]. exists (rel rs cs e). split; [unfold es0; rewrite rd_map_list, He; auto|].
          pose proof (row_of sl Spos Sord rs k x y i e ltac:(lia) Hx Hy Hi He) as Ro. fold rows in Ro. rewrite Hrow in Ro. injection Ro as ->.
          split; [simpl; lia|]. unfold dcsr_at, t. cbn [d_ja d_a]. rewrite Z.add_0_r, !rd_map_list, He. cbn [bind]. simpl. do 2 f_equal. lia. }
        apply (good_chain add m n xw f (G0 rs cs G) es0 (es0_range es sl m n rs cs Hes Po) (es0_products es sl rs cs Po xw f G HG) (fun p => getz bs (getz pp p))); auto; [lia| |].
        * intros k Hk. destruct (Pp k Hk) as (x & y & Hx & Hy & B). rewrite (getz_rd _ _ _ Hx), (getz_rd _ _ _ Hy).
          assert (forall d, 0 <= d -> x + d <= N -> getz bs x <= getz bs (x + d)) as Q.
          { intros d Hd. pattern d. apply natlike_ind; auto; [rewrite Z.add_0_r; lia|]. intros d0 Hd0 IH Hle. unfold Z.succ in *. destruct (Bs (x + d0) ltac:(lia)) as (a & b & Ea & Eb & Bb). rewrite <- Z.add_assoc in Eb. rewrite (getz_rd _ _ _ Eb). rewrite (getz_rd _ _ _ Ea) in IH. lia. }
          specialize (Q (y - x) ltac:(lia) ltac:(lia)). replace (x + (y - x)) with y in Q by lia. exact Q.
        * intros k s1 Hk Gs1. destruct (Pp k Hk) as (x & y & Hx & Hy & B). rewrite (getz_rd _ _ _ Hx), (getz_rd _ _ _ Hy). unfold dcsr_mpart, t. cbn [d_pp d_rows d_ia]. rewrite Hx, Hy. cbn [bind]. apply Inner; auto; lia.
      + intros p Hp. apply sim_dcsr_mpart.
      + intros p Hp. apply only_dcsr_mpart. unfold t. cbn [d_pp d_rows]. intros a b k r Ha Hb Hk Hr. rewrite (getz_rd _ _ _ Ha), (getz_rd _ _ _ Hb). apply in_map_iff. exists k. split; [apply getz_rd; auto|apply in_zrange; lia].
      + intros p q r r' Hpq Hq Hr Hr'. apply in_map_iff in Hr as (i & <- & Hi). apply in_map_iff in Hr' as (j & <- & Hj). apply in_zrange in Hi, Hj.
        destruct (Pp p ltac:(lia)) as (a & b & Ha & Hb & B). destruct (Pp q ltac:(lia)) as (c & d & Hc & Hd & B'). rewrite (getz_rd _ _ _ Ha), (getz_rd _ _ _ Hb) in Hi. rewrite (getz_rd _ _ _ Hc), (getz_rd _ _ _ Hd) in Hj.
        pose proof (Pmono q (p + 1) b c ltac:(lia) ltac:(lia) Hb Hc) as Mo.
        destruct (rd_ok rows i) as [ri Ri]; [fold N; lia|]. destruct (rd_ok rows j) as [rj Rj]; [fold N; lia|]. destruct (rd_ok rows (b - 1)) as [r1 R1]; [fold N; lia|]. destruct (rd_ok rows b) as [r2 R2]; [fold N; lia|].
        rewrite (getz_rd _ _ _ Ri), (getz_rd _ _ _ Rj). destruct (Pcut b (rd_In _ _ _ Hb)) as [_ Cb]. specialize (Cb _ _ R1 R2).
        pose proof (Rmono i (b - 1) ri r1 ltac:(lia) Ri R1). pose proof (Rmono (b - 1) b r1 r2 ltac:(lia) R1 R2). pose proof (Rmono b j r2 rj ltac:(lia) R2 Rj).
        pose proof (Z.div_le_mono ri r1 32 ltac:(lia) ltac:(lia)). pose proof (Z.div_le_mono r1 r2 32 ltac:(lia) ltac:(lia)). pose proof (Z.div_le_mono r2 rj 32 ltac:(lia) ltac:(lia)). clear - Cb H2 H3 H4. lia.
      + exists t, sl, w', v'. split; auto. split; auto. unfold dcsr_multiply, dcsr_mpool. change (d_nnz t) with (zlen es). destruct (Z.ltb_spec 0 (zlen es)); [|lia]. split; auto.
  Qed.
End Formats.

Lemma parts_total {A B} (f : A -> list B) (parts : list A) ps : rd ps 0 = Ok 0 ->
  (forall p x lo, rd parts p = Ok x -> rd ps p = Ok lo -> rd ps (p + 1) = Ok (lo + zlen (f x))) -> rd ps (zlen parts) = Ok (zlen (concat (map f parts))).
Proof.
  intros H0 Hn.
  assert (forall k, 0 <= k -> k <= zlen parts -> rd ps k = Ok (zlen (concat (map f (firstn (Z.to_nat k) parts))))) as Q.
  { intros k Hk. pattern k. apply natlike_ind; auto. intros x Hx IH Hle. unfold Z.succ in *. specialize (IH ltac:(lia)). destruct (rd_ok parts x ltac:(lia)) as [y Hy].
    rewrite (Hn _ _ _ Hy IH), (firstn_snoc parts x y Hy), map_app, concat_app, zlen_app. cbn [map concat]. rewrite app_nil_r. auto. }
  rewrite Q by (pose proof (zlen_nonneg parts); lia). unfold zlen at 2. rewrite Nat2Z.id, firstn_all. auto.
Qed.
Lemma red_left {U} (add : U -> U -> U) l l' : red add (olist (red add l) ++ l') = red add (l ++ l').
Proof. destruct l as [|a l]; [reflexivity|]. simpl. rewrite fold_left_app. auto. Qed.

Lemma represents_ext {T} n w (v : list (option T)) M M' : (forall k, 0 <= k < n -> M' k = M k) -> represents n w v M -> represents n w v M'.
Proof. intros H (A & B & C & D). split; auto. split; auto. split; auto. intros k Hk. rewrite H by auto. apply D. auto. Qed.

Section Formats2.
  Context {E U : Type}.
  Variable srt : list (edge E) -> list (edge E).
  Hypothesis Hsrt : sorts_ends srt.
  Variable bsrt : list (tedge E) -> list (tedge E).
  Hypothesis Hbsrt : sorts bsrt.
  Variable binsrt : list bin -> list bin.
  Hypothesis Hbin : forall l, Permutation l (binsrt l).
  Variables (threads : Z) (m n rs cs : Z).
  Hypothesis Hth : 1 <= threads.
  Hypothesis Hm : 0 <= m.
  Variable add : U -> U -> U.
  Variable xw : list Z.
  Hypothesis Xw : n <= 32 * zlen xw.
  Variable f : Z -> E -> Z -> R U.
  Variable G : edge E -> option U.

  (** *** COOSIMD32Tile *)
  Lemma simd_computed es w v M : (forall e, In e es -> in_rect m n rs cs e) ->
    (forall e, In e es -> if tb xw (e_dst e - 1 - cs) then exists u, f (e_dst e - 1 - cs) (e_val e) (e_src e - 1 - rs) = Ok u /\ G e = Some u else G e = None) ->
    represents m w v M -> exists t out w' v',
    simd_new bsrt binsrt threads es m n rs cs = Ok t /\ Permutation es out /\ computed es out m rs add G (simd_multiply add xw f t) w v M w' v' /\
    forall ts' m', psteps sloc_eqb (simd_mpool add xw f t, smem (w, v)) (ts', m') -> ~ bad (ts', m') /\ (finished ts' -> forall l, m' l = smem (w', v') l).
  Proof.
    intros Hes HG Rw. destruct (nil_dec es) as [Hn|Hne].
    - exists (simd_empty m n), []. subst es. destruct (conv_none [] [] m n rs cs Hm Hes ltac:(constructor) add xw f G HG w v M eq_refl Rw) as (w' & v' & Cp & Hs). exists w', v'. split; auto.
    - destruct (simd_built bsrt Hbsrt binsrt Hbin threads es m n rs cs Hth Hes Hne) as (rpp & ps & parts & Hrpp & Lp & _ & Perm & Lps & P0 & Pn & Hnew).
      assert (0 < zlen es) as Np by (destruct es as [|e0 l0]; [congruence|rewrite zlen_cons; pose proof (zlen_nonneg l0); lia]).
      destruct (nonempty_m es m n rs cs Hes Hne) as [Hm' _]. destruct (rows_per_spec m (threads * 4)) as (rpp' & Hr' & Hr0 & Hr32 & Hrm); try lia. rewrite Hrpp in Hr'. injection Hr' as <-.
      set (out0 := concat (map chunk parts)) in *. set (out := map (fun e => mkE (e_src e + rs) (e_dst e + cs) (e_val e)) out0).
      assert (map e_dst out0 = ja_of cs out) as Ej by (unfold ja_of, out; rewrite map_map; apply map_ext; intros []; simpl; lia).
      assert (map e_src out0 = ia_of rs out) as Ei by (unfold ia_of, out; rewrite map_map; apply map_ext; intros []; simpl; lia).
      assert (map e_val out0 = map e_val out) as Ea by (unfold out; rewrite map_map; apply map_ext; intros []; simpl; auto).
      assert (Permutation es out) as Po.
      { unfold out. rewrite <- Perm, map_map. match goal with |- Permutation _ ?l => assert (es = l) as H; [|rewrite <- H; auto] end. clear. induction es as [|e l IH]; auto. cbn [map]. rewrite <- IH. f_equal. destruct e; unfold shifted; simpl. f_equal; lia. }
      rewrite Ej, Ei, Ea in Hnew.
      assert (forall p x lo, rd parts p = Ok x -> rd ps p = Ok lo -> rd ps (p + 1) = Ok (lo + zlen (chunk x))) as Pn1 by (intros p x lo Hx Hlo; apply (Pn p x lo Hx Hlo)).
      assert (forall p a b, rd ps p = Ok a -> rd ps (p + 1) = Ok b -> exists x, rd parts p = Ok x /\ b = a + zlen (chunk x) /\ forall i, 0 <= i < zlen (chunk x) -> rd out0 (a + i) = rd (chunk x) i) as Pt.
      { intros p a b Ha Hb. pose proof (rd_bounds _ _ _ Ha). pose proof (rd_bounds _ _ _ Hb). destruct (rd_ok parts p) as [x Hx]; [lia|]. exists x. split; auto. rewrite (Pn1 _ _ _ Hx Ha) in Hb. injection Hb as <-. split; auto.
        destruct (parts_offset chunk parts ps P0 Pn1 p x Hx) as (lo & Hlo & _ & Hi). rewrite Ha in Hlo. injection Hlo as <-. auto. }
      destruct (conv_coo es out m n rs cs Hm Hes Po add xw Xw f G HG) with (mult := coo_loop add xw f (threads * 4) (map e_val out) (ja_of cs out) (ia_of rs out) ps) (np := threads * 4) (ps := ps) (w := w) (v := v) (M := M) as (w' & v' & Cp & Hs); auto.
      + lia.
      + rewrite <- Lp. rewrite (parts_total chunk parts ps P0 Pn1). unfold out. rewrite zlen_map. auto.
      + intros p a b Ha Hb. destruct (Pt p a b Ha Hb) as (x & _ & -> & _). pose proof (zlen_nonneg (chunk x)). lia.
      + intros p q a b c d i j e e' Hpq Ha Hb Hc Hd Hi Hj He He'. destruct (Pt p a b Ha Hb) as (x & Hx & -> & Ex). destruct (Pt q c d Hc Hd) as (y & Hy & -> & Ey).
        unfold out in He, He'. rewrite rd_map_list in He, He'. specialize (Ex (i - a) ltac:(lia)). specialize (Ey (j - c) ltac:(lia)). replace (a + (i - a)) with i in Ex by lia. replace (c + (j - c)) with j in Ey by lia.
        destruct (rd out0 i) as [e0|]; [|discriminate]. destruct (rd out0 j) as [e1|]; [|discriminate]. injection He as <-. injection He' as <-. symmetry in Ex, Ey. apply rd_In in Ex, Ey.
        destruct (Pn p x a Hx Ha) as [_ R1]. destruct (Pn q y c Hy Hc) as [_ R2]. specialize (R1 _ Ex). specialize (R2 _ Ey). cbn [e_src].
        apply (rpp_words rpp m p q); auto; lia.
      + exists (mkSimd (zlen es) m n (threads * 4) (map e_val out) (ja_of cs out) (ia_of rs out) ps (map (fun x => zlen (concat (fst x))) parts)), out, w', v'.
        split; auto. split; auto. unfold simd_multiply, simd_mpool. cbn [i_nnz i_np i_a i_ja i_ia i_ps]. destruct (Z.ltb_spec 0 (zlen es)); [|lia]. split; auto.
  Qed.

  (** *** HybridTile: the rows with many entries, then the others *)
  Lemma hybrid_computed es g w v M : es <> [] -> (forall e, In e es -> in_rect m n rs cs e) ->
    (forall e, In e es -> if tb xw (e_dst e - 1 - cs) then exists u, f (e_dst e - 1 - cs) (e_val e) (e_src e - 1 - rs) = Ok u /\ G e = Some u else G e = None) ->
    represents m w v M -> exists t out w1 v1 w' v',
    hybrid_new srt bsrt binsrt threads (Some g) es m n rs cs = Ok t /\ Permutation es out /\ computed es out m rs add G (hybrid_multiply add xw f t) w v M w' v' /\
    (forall ts' m', psteps sloc_eqb (dcsr_mpool add xw f (h_t1 t), smem (w, v)) (ts', m') -> ~ bad (ts', m') /\ (finished ts' -> forall l, m' l = smem (w1, v1) l)) /\
    (forall ts' m', psteps sloc_eqb (simd_mpool add xw f (h_t2 t), smem (w1, v1)) (ts', m') -> ~ bad (ts', m') /\ (finished ts' -> forall l, m' l = smem (w', v') l)).
  Proof.
    intros Hne Hes HG Rw. destruct (hybrid_parts srt Hsrt bsrt Hbsrt binsrt Hbin threads es m n rs cs Hth Hes g Hne) as (t & o1 & o2 & e1 & e2 & Hn & _ & _ & _ & _ & _ & (H1 & H2 & P12) & _).
    assert (forall e, In e e1 -> In e es) as I1 by (intros e He; apply (Permutation_in e (Permutation_sym P12)); apply in_or_app; auto).
    assert (forall e, In e e2 -> In e es) as I2 by (intros e He; apply (Permutation_in e (Permutation_sym P12)); apply in_or_app; auto).
    destruct (dcsr_computed srt Hsrt threads e1 m n rs cs Hth Hm (fun e He => Hes e (I1 e He)) add xw Xw f G (fun e He => HG e (I1 e He)) g w v M Rw) as (t1 & out1 & w1 & v1 & E1 & Q1 & (M1 & R1 & _) & S1).
    rewrite H1 in E1. injection E1 as <-.
    destruct (simd_computed e2 w1 v1 _ (fun e He => Hes e (I2 e He)) (fun e He => HG e (I2 e He)) R1) as (t2 & out2 & w2 & v2 & E2 & Q2 & (M2 & R2 & _) & S2). rewrite H2 in E2. injection E2 as <-.
    assert (Permutation es (out1 ++ out2)) as Po by (rewrite P12; apply Permutation_app; auto).
    assert (represents m w2 v2 (fun k => red add (olist (M k) ++ row_products G (out1 ++ out2) (k + 1 + rs)))) as R3.
    { eapply represents_ext; [|exact R2]. intros k Hk. cbv beta. rewrite red_left, row_products_app, app_assoc. auto. }
    exists t, (out1 ++ out2), w1, v1, w2, v2. split; auto. split; auto. split; [|split; auto]. split; [|split]; auto.
    - unfold hybrid_multiply. rewrite M1. cbn [bind]. auto.
    - intros Cm As. eapply represents_ext; [|exact R3]. intros k Hk. cbv beta. apply red_perm; auto. apply Permutation_app_head. apply row_products_perm. exact Po.
  Qed.
End Formats2.

(** *** with the products the program defines *)
Section WithProgram.
  Context {E T U V : Type}.
  Variables (threads : Z) (es : list (edge E)) (m n rs cs : Z).
  Hypothesis Hth : 1 <= threads.
  Hypothesis Hm : 0 <= m.
  Hypothesis Hn : 0 <= n.
  Hypothesis Hes : forall e, In e es -> in_rect m n rs cs e.
  Variable add : U -> U -> U.
  Variables (xw : list Z) (xv : list (option T)) (X : Z -> option T).
  Hypothesis Rx : represents n xw xv X.

  Lemma products2 (mul : E -> T -> U) e : In e es -> if tb xw (e_dst e - 1 - cs)
    then exists u, mul2 mul xv (e_dst e - 1 - cs) (e_val e) (e_src e - 1 - rs) = Ok u /\ option_map (mul (e_val e)) (X (e_dst e - 1 - cs)) = Some u
    else option_map (mul (e_val e)) (X (e_dst e - 1 - cs)) = None.
  Proof using Hes Hn Rx.
    intros He. destruct Rx as (Lx & Lv & _ & H); pose proof (num_ints_bounds n Hn). destruct (Hes e He) as [_ C]. destruct (H (e_dst e - 1 - cs)) as [Hb Hv]; [lia|]. rewrite bv_get_ok in Hb by lia. injection Hb as ->.
    destruct (X (e_dst e - 1 - cs)) as [a|]; simpl; auto. unfold mul2, rdi. rewrite (Hv a eq_refl). simpl. eauto.
  Qed.
  Lemma products3 (mul : E -> T -> V -> U) vw vv P e : represents m vw vv (fun k => Some (P k)) -> In e es -> if tb xw (e_dst e - 1 - cs)
    then exists u, mul3 mul xv vw vv (e_dst e - 1 - cs) (e_val e) (e_src e - 1 - rs) = Ok u /\ option_map (fun x => mul (e_val e) x (P (e_src e - 1 - rs))) (X (e_dst e - 1 - cs)) = Some u
    else option_map (fun x => mul (e_val e) x (P (e_src e - 1 - rs))) (X (e_dst e - 1 - cs)) = None.
  Proof using Hes Hn Rx.
    intros Rp He. destruct Rx as (Lx & Lv & _ & H); pose proof (num_ints_bounds n Hn). destruct (Hes e He) as [R C]. destruct (H (e_dst e - 1 - cs)) as [Hb Hv]; [lia|]. rewrite bv_get_ok in Hb by lia. injection Hb as ->.
    destruct (X (e_dst e - 1 - cs)) as [a|]; simpl; auto. destruct Rp as (_ & _ & _ & Hp). destruct (Hp (e_src e - 1 - rs)) as [Gp Vp]; [lia|].
    unfold mul3. rewrite Gp. cbn [bind assertb]. unfold rdi. rewrite (Hv a eq_refl). cbn [bind]. rewrite (Vp _ eq_refl). simpl. eauto.
  Qed.
  Lemma words : n <= 32 * zlen xw.
  Proof using Hn Rx. destruct Rx as (Lx & _). pose proof (num_ints_bounds n Hn). lia. Qed.
  Lemma computed_multiplies out G mult w v M w' v' : Permutation es out -> computed es out m rs add G mult w v M w' v' -> multiplies add G es m rs M mult w v w' v'.
  Proof using. intros P (A & B & C). split; auto. split; auto. exists out. auto. Qed.

  Notation G2 mul := (fun e => option_map (mul (e_val e)) (X (e_dst e - 1 - cs))).
  Notation G3 mul P := (fun e => option_map (fun x => mul (e_val e) x (P (e_src e - 1 - rs))) (X (e_dst e - 1 - cs))).
  Lemma coo_mult srt (mul : E -> T -> U) g w v M : sorts_ends srt -> zlen es <> 1 \/ 1 <= g -> represents m w v M -> exists t w' v',
    coo_new srt threads (Some g) es m n rs cs = Ok t /\ multiplies add (G2 mul) es m rs M (coo_multiply add xw (mul2 mul xv) t) w v w' v' /\
    every_schedule (coo_mpool add xw (mul2 mul xv) t) w v w' v'.
  Proof. intros Hs Hg Rw. destruct (coo_computed srt Hs threads es m n rs cs Hth Hm Hes add xw words (mul2 mul xv) _ (products2 mul) g w v M Hg Rw) as (t & out & w' & v' & A & B & C & D). exists t, w', v'. split; auto. split; auto. eapply computed_multiplies; eauto. Qed.
  Lemma csr_mult srt (mul : E -> T -> U) threads' w v M : sorts_ends srt -> 1 <= threads' -> represents m w v M -> exists t pool w' v',
    csr_new srt threads es m n rs cs = Ok t /\ multiplies add (G2 mul) es m rs M (csr_multiply add xw (mul2 mul xv) threads' t) w v w' v' /\
    csr_mpool add xw (mul2 mul xv) threads' t = Ok pool /\ every_schedule pool w v w' v'.
  Proof. intros Hs Hg Rw. destruct (csr_computed srt Hs threads es m n rs cs Hth Hm Hes add xw words (mul2 mul xv) _ (products2 mul) threads' w v M Hg Rw) as (t & out & pool & w' & v' & A & B & C & D & F). exists t, pool, w', v'. split; auto. split; auto. eapply computed_multiplies; eauto. Qed.
  Lemma dcsr_mult srt (mul : E -> T -> U) g w v M : sorts_ends srt -> represents m w v M -> exists t w' v',
    dcsr_new srt threads (Some g) es m n rs cs = Ok t /\ multiplies add (G2 mul) es m rs M (dcsr_multiply add xw (mul2 mul xv) t) w v w' v' /\
    every_schedule (dcsr_mpool add xw (mul2 mul xv) t) w v w' v'.
  Proof. intros Hs Rw. destruct (dcsr_computed srt Hs threads es m n rs cs Hth Hm Hes add xw words (mul2 mul xv) _ (products2 mul) g w v M Rw) as (t & out & w' & v' & A & B & C & D). exists t, w', v'. split; auto. split; auto. eapply computed_multiplies; eauto. Qed.
  Lemma simd_mult bsrt binsrt (mul : E -> T -> U) w v M : sorts bsrt -> (forall l, Permutation l (binsrt l)) -> represents m w v M -> exists t w' v',
    simd_new bsrt binsrt threads es m n rs cs = Ok t /\ multiplies add (G2 mul) es m rs M (simd_multiply add xw (mul2 mul xv) t) w v w' v' /\
    every_schedule (simd_mpool add xw (mul2 mul xv) t) w v w' v'.
  Proof. intros Hs Hb Rw. destruct (simd_computed bsrt Hs binsrt Hb threads m n rs cs Hth Hm add xw words (mul2 mul xv) _ es w v M Hes (products2 mul) Rw) as (t & out & w' & v' & A & B & C & D). exists t, w', v'. split; auto. split; auto. eapply computed_multiplies; eauto. Qed.
  Lemma hybrid_mult srt bsrt binsrt (mul : E -> T -> U) g w v M : sorts_ends srt -> sorts bsrt -> (forall l, Permutation l (binsrt l)) -> es <> [] -> represents m w v M -> exists t w1 v1 w' v',
    hybrid_new srt bsrt binsrt threads (Some g) es m n rs cs = Ok t /\ multiplies add (G2 mul) es m rs M (hybrid_multiply add xw (mul2 mul xv) t) w v w' v' /\
    every_schedule (dcsr_mpool add xw (mul2 mul xv) (h_t1 t)) w v w1 v1 /\ every_schedule (simd_mpool add xw (mul2 mul xv) (h_t2 t)) w1 v1 w' v'.
  Proof. intros H1 H2 H3 Hne Rw. destruct (hybrid_computed srt H1 bsrt H2 binsrt H3 threads m n rs cs Hth Hm add xw words (mul2 mul xv) _ es g w v M Hne Hes (products2 mul) Rw) as (t & out & w1 & v1 & w' & v' & A & B & C & D & F). exists t, w1, v1, w', v'. split; auto. split; auto. eapply computed_multiplies; eauto. Qed.

  Lemma coo_mult3 srt (mul : E -> T -> V -> U) g vw vv P w v M : sorts_ends srt -> es <> [] -> zlen es <> 1 \/ 1 <= g -> represents m vw vv (fun k => Some (P k)) -> represents m w v M -> exists t w' v',
    coo_new srt threads (Some g) es m n rs cs = Ok t /\ multiplies add (G3 mul P) es m rs M (coo_multiply3 add xw (mul3 mul xv vw vv) t) w v w' v' /\
    every_schedule (coo_mpool add xw (mul3 mul xv vw vv) t) w v w' v'.
  Proof.
    intros Hs Hne Hg Rp Rw. destruct (coo_computed srt Hs threads es m n rs cs Hth Hm Hes add xw words (mul3 mul xv vw vv) _ (fun e => products3 mul vw vv P e Rp) g w v M Hg Rw) as (t & out & w' & v' & A & B & C & D). exists t, w', v'. split; auto. split; auto.
    apply computed_multiplies in C; auto. unfold coo_multiply3. unfold coo_multiply in C.
    destruct (coo_built srt Hs threads es m n rs cs Hth Hes g Hne) as (rpp & ps & _ & _ & Hnew). rewrite Hnew in A. injection A as <-. cbn [o_nnz] in C |- *.
    assert (0 < zlen es) as Np by (destruct es as [|e0 l0]; [congruence|rewrite zlen_cons; pose proof (zlen_nonneg l0); lia]). destruct (Z.ltb_spec 0 (zlen es)); [exact C|lia].
  Qed.
  Lemma coo_lost_one srt (mul : E -> T -> U) g : sorts_ends srt -> zlen es = 1 -> g < 1 -> exists t, coo_new srt threads (Some g) es m n rs cs = Ok t /\ forall s, coo_multiply add xw (mul2 mul xv) t s = Ok s.
  Proof.
    intros Hs H1 Hg. destruct (coo_kept srt threads g es m n rs cs Hs Hth Hes) as (t & out & A & _). exists t. split; auto. intros s.
    exact (coo_lost srt Hs threads es m n rs cs Hth Hm Hes add xw (mul2 mul xv) _ (products2 mul) g t s H1 Hg A).
  Qed.
End WithProgram.
Lemma coo_none3 {E U} (srt : list (edge E) -> list (edge E)) threads past m n rs cs (add : U -> U -> U) xw f s : exists t, coo_new srt threads past [] m n rs cs = Ok t /\ coo_multiply3 add xw f t s = Err Uninit.
Proof. exists (coo_empty m n). split; reflexivity. Qed.
