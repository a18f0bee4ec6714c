(** Proofs about ParLoop.v, part 6: building a tile, applying a function to its entries, the two
    loops of [shuffle_edges], and [reduction] clauses. *)
From Coq Require Import Permutation.
From Verif Require Import BaseLemmas Bits BitsProofs Segment SegmentProofs TransferProofs ListLemmas Conc DCSC DCSCBuild Kernel TileProofs EdgeList ShuffleProofs ParLoop ParLoopProofs ParLoopWords ParLoopWords3 ParLoopWords4.

(** ** ranges given by an array of bounds *)
Definition within (l : list Z) (p i : Z) : bool :=
  match rd l p, rd l (p + 1) with Ok a, Ok b => (a <=? i) && (i <? b) | _, _ => false end.
Definition rises (l : list Z) (np : Z) : Prop := forall p a b, 0 <= p < np -> rd l p = Ok a -> rd l (p + 1) = Ok b -> a <= b.
Lemma rises_mono l np : rises l np -> forall p q a b, 0 <= p <= q -> q <= np -> rd l p = Ok a -> rd l q = Ok b -> a <= b.
Proof.
  intros H p q a b Hpq Hq Ea Eb. assert (forall k : nat, p + Z.of_nat k <= q -> forall c, rd l (p + Z.of_nat k) = Ok c -> a <= c) as G.
  { induction k as [|k IH]; intros Hk c Ec; [rewrite Z.add_0_r in Ec; assert (a = c) by congruence; lia|].
    pose proof (rd_bounds _ _ _ Eb). destruct (rd_ok l (p + Z.of_nat k)) as [d Ed]; [lia|]. pose proof (IH ltac:(lia) d Ed).
    replace (p + Z.of_nat (S k)) with (p + Z.of_nat k + 1) in Ec by lia. pose proof (H (p + Z.of_nat k) d c ltac:(lia) Ed Ec). lia. }
  apply (G (Z.to_nat (q - p))); [lia|]. replace (p + Z.of_nat (Z.to_nat (q - p))) with q by lia. auto.
Qed.
Lemma within_disj l np p q i : rises l np -> 0 <= p < np -> 0 <= q < np -> within l p i = true -> within l q i = true -> p = q.
Proof.
  intros H Hp Hq. unfold within. destruct (rd l p) as [a|] eqn:Ea; [|discriminate]. destruct (rd l (p + 1)) as [b|] eqn:Eb; [|discriminate].
  destruct (rd l q) as [c|] eqn:Ec; [|discriminate]. destruct (rd l (q + 1)) as [d|] eqn:Ed; [|discriminate].
  rewrite !andb_true_iff, !Z.leb_le, !Z.ltb_lt. intros. destruct (Z.lt_trichotomy p q) as [L|[L|L]]; auto; exfalso.
  - pose proof (rises_mono l np H (p + 1) q b c ltac:(lia) ltac:(lia) Eb Ec). lia.
  - pose proof (rises_mono l np H (q + 1) p d a ltac:(lia) ltac:(lia) Ed Ea). lia.
Qed.

(** ** building a tile *)
Section Build.
  Context {E : Type}.
  Notation arr4 := (arrs (option E) (option Z) (option Z) (option Z)).
  Definition ownB (ep cs : list Z) (p : Z) (l : loc4) : bool :=
    match l with L1 i | L2 i => within ep p i | L3 i | L4 i => within cs p i end.
  Notation cbody edges := (fun edge_id (st : Z * Z) =>
      do e <- rd edges edge_id ;;
      if fst st <? e_dst (snd e) then Ok (e_dst (snd e), snd st + 1) else Ok st).
  Lemma cbody_mono (edges : list (tedge E)) a b st st' : forZ a b (cbody edges) st = Ok st' -> snd st <= snd st'.
  Proof.
    intros H. apply (forZ_keeps (fun s => snd st <= snd s) _ _ _ _ _ H); [lia|]. intros i s s' _ Hs Eb.
    apply bind_Ok in Eb as (e & _ & Eb). destruct (fst s <? e_dst (snd e)); [assert ((e_dst (snd e), snd s + 1) = s') as <- by congruence; cbn [snd]; lia|].
    assert (s = s') as <- by congruence. auto.
  Qed.
  Lemma count_nonneg (edges : list (tedge E)) ep p k : count_columns edges ep p = Ok k -> 0 <= k.
  Proof.
    unfold count_columns. intros H. apply bind_Ok in H as (a & _ & H). apply bind_Ok in H as (b & _ & H). apply bind_Ok in H as (st & H & H').
    apply cbody_mono in H. cbn [snd] in H. assert (snd st = k) by congruence. lia.
  Qed.

  Lemma build_any (edges : list (tedge E)) ep n np ncols (ar ar' : arrays E) : 0 <= np -> rises ep np ->
    mapR (count_columns edges ep) (zrange 0 np) = Ok ncols ->
    forZ 0 np (build_partition edges ep (prefix_sums 0 (map (fun k => k + 1) ncols)) n) ar = Ok ar' ->
    any_schedule (build_t edges ep (prefix_sums 0 (map (fun k => k + 1) ncols)) n np)
      (mkArrs (a_vals ar) (a_rows ar) (a_idx ar) (a_ptrs ar)) (mkArrs (a_vals ar') (a_rows ar') (a_idx ar') (a_ptrs ar')).
  Proof.
    intros Hnp Re Ec E0. apply mapR_at in Ec as [Lc Hc]. rewrite zlen_zrange in Lc by lia. rewrite Z.sub_0_r in Lc.
    set (cs := prefix_sums 0 (map (fun k => k + 1) ncols)) in *.
    assert (forall p, 0 <= p < np -> exists k c, count_columns edges ep p = Ok k /\ 0 <= k /\ rd cs p = Ok c /\ rd cs (p + 1) = Ok (c + (k + 1))) as Cs.
    { intros p Hp. destruct (Hc p p) as (k & Ek & Rk); [rewrite rd_zrange by lia; f_equal|]. exists k, (psum (map (fun k => k + 1) ncols) p). split; auto.
      split; [eapply count_nonneg; eauto|]. unfold cs. split; [rewrite prefix_sums_rd by (rewrite zlen_map; lia); reflexivity|].
      rewrite prefix_sums_rd by (rewrite zlen_map; lia). fold (psum (map (fun k => k + 1) ncols) (p + 1)). rewrite (psum_step _ p (k + 1)); [reflexivity|]. apply (rd_map (fun k => k + 1)); auto. }
    assert (rises cs np) as Rc.
    { intros p a b Hp Ea Eb. destruct (Cs p Hp) as (k & c & _ & Hk & E1 & E2). assert (a = c) by congruence. assert (b = c + (k + 1)) by congruence. lia. }
    unfold build_t. match goal with |- context [parfor np ?t] => set (tb := t) end.
    destruct (par_forZ (ownB ep cs) np tb (build_partition edges ep cs n) (fun p st s => s = mkArrs (a_vals st) (a_rows st) (a_idx st) (a_ptrs st))
      (mkArrs (a_vals ar) (a_rows ar) (a_idx ar) (a_ptrs ar) : arr4) ar ar' E0 Hnp) as (s' & -> & H); auto.
    - intros p q l Hp Hq. destruct l; simpl; [eapply within_disj|eapply within_disj|eapply within_disj|eapply within_disj]; eauto.
    - clear E0. intros p st st1 s Hp -> _ Eb. destruct (Cs p Hp) as (k & c0 & Ek & Hk & E1 & E2).
      unfold build_partition in Eb. apply bind_Ok in Eb as (a & Ea & Eb). apply bind_Ok in Eb as (b & Eb1 & Eb). apply bind_Ok in Eb as (c & Ec & Eb). apply bind_Ok in Eb as (c' & Ec' & Eb).
      assert (c0 = c) as -> by congruence. assert (c' = c + (k + 1)) as -> by congruence.
      apply bind_Ok in Eb as (fin & Ef & Eb). cbv zeta in Eb. apply bind_Ok in Eb as (ptrs & Ep & Eb). apply bind_Ok in Eb as (idx & Ei & Eb).
      assert (mkA (a_vals (fst (fst fin))) (a_rows (fst (fst fin))) idx ptrs = st1) as <- by congruence. clear Eb. cbn [a_vals a_rows a_idx a_ptrs].
      unfold count_columns in Ek. rewrite Ea in Ek. cbn [bind] in Ek. rewrite Eb1 in Ek. cbn [bind] in Ek. apply bind_Ok in Ek as (cf & Ek & Ek2). assert (snd cf = k) as Hcf by congruence. clear Ek2.
      assert (forall i, a <= i < b -> ownB ep cs p (L1 i) = true) as O1.
      { intros i Hi. simpl. unfold within. rewrite Ea, Eb1. apply andb_true_iff. rewrite Z.leb_le, Z.ltb_lt. lia. }
      assert (forall i, c <= i < c + (k + 1) -> ownB ep cs p (L3 i) = true) as O3.
      { intros i Hi. simpl. unfold within. rewrite Ec, Ec'. apply andb_true_iff. rewrite Z.leb_le, Z.ltb_lt. lia. }
      pose proof (fol_forZ (ownB ep cs p) (fun edge_id (st : Z * Z) =>
        par e <- plift (rd edges edge_id) ;;
        par _ <- put1 (a + (edge_id - a)) (Some (e_val (snd e))) ;;
        par _ <- put2 (a + (edge_id - a)) (Some (e_src (snd e))) ;;
        if fst st <? e_dst (snd e) then
          par _ <- put3 (c + (snd st + 1)) (Some (e_dst (snd e))) ;;
          par _ <- put4 (c + (snd st + 1)) (Some (edge_id - a)) ;;
          pret (e_dst (snd e), snd st + 1)
        else pret st) _ (fun st => (snd (fst st), snd st)) (fun st => let ar := fst (fst st) in mkArrs (a_vals ar) (a_rows ar) (a_idx ar) (a_ptrs ar) : arr4)
        (fun i st => -1 <= snd st /\ forZ i b (cbody edges) (snd (fst st), snd st + 1) = Ok cf) _ _ _ _ Ef) as F.
      cbv zeta in F. cbn [fst snd] in F. destruct F as [F _].
      { split; [lia|exact Ek]. }
      { clear - Hcf O1 O3. intros i [[ar0 cur] num] st1 Hi [Hn Hs] Eb. cbn [fst snd] in *. rewrite forZ_step in Hs by lia. apply bind_Ok in Hs as (cs1 & Hs1 & Hs).
        apply bind_Ok in Eb as (e & Ee & Eb). rewrite Ee in Hs1. cbn [bind fst snd] in Hs1.
        apply bind_Ok in Eb as (vals & Wv & Eb). apply bind_Ok in Eb as (rows & Wr & Eb).
        assert (ownB ep cs p (L1 (a + (i - a))) = true) as P1 by (apply O1; lia).
        destruct (cur <? e_dst (snd e)) eqn:Cu; try rewrite Cu in Hs1.
        - apply bind_Ok in Eb as (idx & Wi & Eb). apply bind_Ok in Eb as (ptrs & Wp & Eb). assert ((mkA vals rows idx ptrs, e_dst (snd e), num + 1) = st1) as <- by congruence. cbn [fst snd a_vals a_rows a_idx a_ptrs].
          assert (cs1 = (e_dst (snd e), num + 1 + 1)) as -> by congruence. pose proof (cbody_mono _ _ _ _ _ Hs) as M. cbn [snd] in M.
          assert (ownB ep cs p (L3 (c + (num + 1))) = true) as P3 by (apply O3; lia).
          split; [|split; [lia|exact Hs]].
          eapply fol_bind; [apply fol_lift; eauto|]. eapply fol_bind; [apply (fol_put1 _ (a + (i - a))); [exact Wv|exact P1]|]. cbn [ar1 ar2 ar3 ar4].
          eapply fol_bind; [apply (fol_put2 _ (a + (i - a))); [exact Wr|exact P1]|]. cbn [ar1 ar2 ar3 ar4]. rewrite Cu.
          eapply fol_bind; [apply (fol_put3 _ (c + (num + 1))); [exact Wi|exact P3]|]. cbn [ar1 ar2 ar3 ar4].
          eapply fol_bind; [apply (fol_put4 _ (c + (num + 1))); [exact Wp|exact P3]|]. cbn [ar1 ar2 ar3 ar4]. apply fol_ret.
        - assert ((mkA vals rows (a_idx ar0) (a_ptrs ar0), cur, num) = st1) as <- by congruence. cbn [fst snd a_vals a_rows a_idx a_ptrs].
          assert (cs1 = (cur, num + 1)) as -> by congruence. split; [|auto].
          eapply fol_bind; [apply fol_lift; eauto|]. eapply fol_bind; [apply (fol_put1 _ (a + (i - a))); [exact Wv|exact P1]|]. cbn [ar1 ar2 ar3 ar4].
          eapply fol_bind; [apply (fol_put2 _ (a + (i - a))); [exact Wr|exact P1]|]. cbn [ar1 ar2 ar3 ar4]. rewrite Cu. apply fol_ret. }
      eexists. split; [|reflexivity]. cbn [a_vals a_rows a_idx a_ptrs]. unfold tb.
      do 4 (eapply fol_bind; [apply fol_lift; eauto|]). eapply fol_bind; [exact F|]. cbv zeta.
      assert (ownB ep cs p (L3 (c + (c + (k + 1) - c - 1))) = true) as P3 by (apply O3; lia).
      eapply fol_bind; [apply (fol_put4 _ (c + (c + (k + 1) - c - 1))); [exact Ep|exact P3]|]. cbn [ar1 ar2 ar3 ar4].
      apply (fol_put3 (ownB ep cs p) (c + (c + (k + 1) - c - 1)) (mkArrs _ _ (a_idx (fst (fst fin))) ptrs)); auto.
  Qed.

  (** the edge pointers rise *)
  Lemma advance_len fuel rp src id : forall ep p ep' p', advance fuel rp src id (ep, p) = Ok (ep', p') -> zlen ep' = zlen ep /\ p <= p' /\
    (forall q, q < p -> rd ep' q = rd ep q) /\ (forall q, p <= q < p' -> rd ep' q = Ok (Some id)).
  Proof.
    induction fuel as [|fuel IH]; intros ep p ep' p' H; [discriminate|]. cbn [advance] in H. apply bind_Ok in H as (a & _ & H). destruct (a <=? src).
    - apply bind_Ok in H as (ep1 & W & H). apply IH in H as (L & Lp & Ho & Hn). rewrite (wr_zlen _ _ _ _ W) in L. split; auto. split; [lia|]. split.
      + intros q Hq. rewrite Ho by lia. eapply wr_other_rd; eauto. lia.
      + intros q Hq. destruct (Z.eq_dec q p) as [->|N]; [rewrite Ho by lia; eapply wr_same_rd; eauto|apply Hn; lia].
    - assert (ep = ep') as <- by congruence. assert (p = p') as <- by congruence. split; auto. split; [lia|]. split; auto. intros; lia.
  Qed.
  Definition rises_to (ep : list (option Z)) (p top : Z) : Prop :=
    (forall q, 0 <= q < p -> exists v, rd ep q = Ok (Some v) /\ v <= top) /\
    (forall q u v, 0 <= q -> q + 1 < p -> rd ep q = Ok (Some u) -> rd ep (q + 1) = Ok (Some v) -> u <= v).
  Lemma edge_pointers_rise (edges : list (tedge E)) rp nnz np ep : 0 <= nnz -> set_edge_pointers edges rp nnz np = Ok ep -> rises ep np.
  Proof.
    intros Hn H. unfold set_edge_pointers in H. apply bind_Ok in H as ([ep1 p1] & E1 & H). apply bind_Ok in H as (ep2 & E2 & H). apply bind_Ok in H as (ep3 & E3 & H). cbn [fst snd] in *.
    assert (0 <= p1 /\ rises_to ep1 p1 nnz) as [Hp1 R1].
    { assert (forall m i st, 0 <= i -> i + Z.of_nat m <= nnz -> 0 <= snd st -> rises_to (fst st) (snd st) i ->
        forall st', forN m i (fun edge_id st => do e <- rd edges edge_id ;; advance (Z.to_nat (np + 2)) rp (e_src (snd e)) edge_id st) st = Ok st' -> 0 <= snd st' /\ rises_to (fst st') (snd st') (i + Z.of_nat m)) as G.
      { clear. induction m as [|m IH]; intros i st Hi Hm Hp Hr st' H; cbn [forN] in H.
        - assert (st = st') as <- by congruence. rewrite Z.add_0_r. auto.
        - apply bind_Ok in H as ([epa pa] & Ha & H). apply bind_Ok in Ha as (e & _ & Ha). destruct st as [epb pb]. cbn [fst snd] in *.
          apply advance_len in Ha as (La & Lp & Ho & Hn). replace (i + Z.of_nat (S m)) with (i + 1 + Z.of_nat m) by lia. apply (IH (i + 1) (epa, pa)); cbn [fst snd]; auto; try lia.
          destruct Hr as [Ra Rb]. split.
          + intros q Hq. destruct (Z_lt_dec q pb); [destruct (Ra q ltac:(lia)) as (v & Rv & Lv); exists v; rewrite Ho by lia; split; auto; lia|]. exists i. rewrite Hn by lia. split; auto. lia.
          + intros q u v Hq Hq1 Ru Rv. destruct (Z_lt_dec (q + 1) pb); [rewrite Ho in Ru, Rv by lia; eapply Rb; eauto|]. rewrite (Hn (q + 1)) in Rv by lia. assert (v = i) as -> by congruence.
            destruct (Z_lt_dec q pb); [rewrite Ho in Ru by lia; destruct (Ra q ltac:(lia)) as (w & Rw & Lw); assert (u = w) by congruence; lia|]. rewrite Hn in Ru by lia. assert (u = i) by congruence. lia. }
      unfold forZ in E1. rewrite Z.sub_0_r in E1. apply G in E1; cbn [fst snd]; try lia.
      - replace (0 + Z.of_nat (Z.to_nat nnz)) with nnz in E1 by lia. auto.
      - split; intros; lia. }
    assert (forall q, p1 <= q -> q <= np -> rd ep3 q = Ok (Some nnz)) as Top.
    { intros q Hq1 Hq2.
      assert (forall m i e e', p1 < i -> (forall j, p1 <= j < i -> rd e j = Ok (Some nnz)) -> forN m i (fun p ep => wr ep p (Some nnz)) e = Ok e' -> forall j, p1 <= j < i + Z.of_nat m -> rd e' j = Ok (Some nnz)) as G.
      { clear. induction m as [|m IH]; intros i e e' Hi H0 H j Hj; cbn [forN] in H; [assert (e = e') as <- by congruence; apply H0; lia|].
        apply bind_Ok in H as (e1 & W & H). apply (IH (i + 1) e1 e'); auto; try lia. intros k Hk. destruct (Z.eq_dec k i) as [->|N]; [eapply wr_same_rd; eauto|]. rewrite (wr_other_rd _ _ _ k _ W) by auto. apply H0. lia. }
      unfold forZ in E3. refine (G _ _ _ _ _ _ E3 q _); [lia| |lia]. intros j Hj. assert (j = p1) as -> by lia. eapply wr_same_rd; eauto. }
    assert (forall q, q < p1 -> rd ep3 q = rd ep1 q) as Bot.
    { intros q Hq. assert (forall m i e e', q < i -> forN m i (fun p ep => wr ep p (Some nnz)) e = Ok e' -> rd e' q = rd e q) as G.
      { clear. induction m as [|m IH]; intros i e e' Hi H; cbn [forN] in H; [congruence|]. apply bind_Ok in H as (e1 & W & H). rewrite (IH (i + 1) e1 e' ltac:(lia) H). eapply wr_other_rd; eauto. lia. }
      unfold forZ in E3. rewrite (G _ _ _ _ (Z.lt_trans _ _ _ Hq (Z.lt_succ_diag_r p1)) E3). eapply wr_other_rd; eauto. lia. }
    apply mapR_at in H as [Le He].
    intros p a b Hp Ea Eb. pose proof (rd_bounds _ _ _ Ea) as Ba. pose proof (rd_bounds _ _ _ Eb) as Bb. rewrite Le in Ba, Bb.
    destruct (rd_ok ep3 p) as [oa Oa]; [lia|]. destruct (rd_ok ep3 (p + 1)) as [ob Ob]; [lia|].
    destruct (He _ _ Oa) as (a' & Na & Ra). destruct (He _ _ Ob) as (b' & Nb & Rb). assert (a' = a) as -> by congruence. assert (b' = b) as -> by congruence.
    apply need_Ok in Na, Nb. subst oa ob. destruct R1 as [Ra1 Rb1].
    destruct (Z_lt_dec (p + 1) p1).
    - rewrite Bot in Oa, Ob by lia. apply (Rb1 p a b); auto; lia.
    - rewrite (Top (p + 1)) in Ob by lia. assert (b = nnz) as -> by congruence. destruct (Z_lt_dec p p1).
      + rewrite Bot in Oa by lia. destruct (Ra1 p ltac:(lia)) as (v & Rv & Lv). assert (a = v) by congruence. lia.
      + rewrite Top in Oa by lia. assert (a = nnz) by congruence. lia.
  Qed.

  (** applying a function to the entries *)
  Context {V : Type}.
  Lemma applyedges_any strict (op : E -> V -> V -> E) m n es (t : dcsc E) v1 w2 v2 vals vals' : tile_of m n es t ->
    forZ 0 (t_np t) (applyedges_part strict op t v1 w2 v2) vals = Ok vals' ->
    any_schedule (applyedges_t strict op t v1 w2 v2) (mkArrs vals [] [] []) (mkArrs vals' [] [] []).
  Proof.
    intros Ht Ev. unfold applyedges_t. match goal with |- context [parfor _ ?t] => set (tb := t) end.
    assert (rises (t_edge_ptrs t) (t_np t)) as Re.
    { destruct Ht as [[_ [junk ->]]|(rp & parts & -> & To & Hp & _)]; [intros p a b Hp; simpl in Hp; lia|].
      intros p a b Hp' Ea Eb. change (t_np (encode rp m n parts)) with (zlen parts) in Hp'. rewrite enc_ep in Ea, Eb by lia.
      destruct (rd_ok parts p Hp') as [cs Hcs]. rewrite (offs_succ _ _ _ _ Hcs) in Eb. pose proof (zlen_nonneg (centries cs)).
      assert (a = offs centries parts p) by congruence. assert (b = offs centries parts p + zlen (centries cs)) by congruence. lia. }
    assert (0 <= t_np t) as Np.
    { destruct Ht as [[_ [junk ->]]|(rp & parts & -> & _)]; [simpl; lia|]. apply zlen_nonneg. }
    destruct (par_forZ (fun p l => match l with L1 i => within (t_edge_ptrs t) p i | _ => false end) (t_np t) tb _ (fun _ st s => s = mkArrs st [] [] [])
      (mkArrs vals [] [] [] : arrs E unit unit unit) vals vals' Ev Np) as (s' & -> & H); auto.
    - intros p q l Hp Hq. destruct l; try discriminate. apply (within_disj _ _ _ _ _ Re); auto.
    - clear Ev. intros p st st1 s Hp -> _ Eb. exists (mkArrs st1 [] [] []). split; auto. unfold applyedges_part in Eb.
      apply bind_Ok in Eb as (c & Ec & Eb). apply bind_Ok in Eb as (c' & Ec' & Eb). apply bind_Ok in Eb as (a & Ea & Eb).
      unfold tb. do 3 (eapply fol_bind; [apply fol_lift; eauto|]).
      assert (forall j lo hi i, 0 <= j < c' - c - 1 -> rd (t_col_ptrs t) (c + j) = Ok lo -> rd (t_col_ptrs t) (c + (j + 1)) = Ok hi -> lo <= i < hi -> within (t_edge_ptrs t) p (a + i) = true) as Ow.
      { clear - Ht Hp Ec Ec' Ea. intros j lo hi i Hj El Eh Hi. destruct Ht as [[_ [junk ->]]|(rp & parts & -> & To & Hp' & _)]; [simpl in Hp; lia|].
        change (t_np (encode rp m n parts)) with (zlen parts) in Hp. destruct (rd_ok parts p Hp) as [cs Hcs].
        rewrite enc_cs in Ec, Ec' by lia. rewrite enc_ep in Ea by lia. assert (c = offs (part_idx n) parts p) as -> by congruence. assert (c' = offs (part_idx n) parts (p + 1)) as -> by congruence.
        assert (a = offs centries parts p) as -> by congruence. rewrite (coff_succ n parts p cs Hcs) in Hj.
        rewrite (enc_ptrs rp m n parts p cs j Hcs) in El by lia. rewrite (enc_ptrs rp m n parts p cs (j + 1) Hcs) in Eh by lia.
        assert (lo = cptr cs j) as -> by congruence. assert (hi = cptr cs (j + 1)) as -> by congruence.
        destruct (rd_ok cs j) as [col Hcol]; [lia|]. rewrite (cptr_succ cs j col Hcol) in Hi.
        pose proof (flat_room (@snd Z (list (Z * E))) cs j col Hcol) as Fr. change (offs snd cs j) with (cptr cs j) in Fr. change (flat_map snd cs) with (centries cs) in Fr.
        assert (0 <= cptr cs j) by apply offs_nonneg.
        unfold within. rewrite !enc_ep by lia. rewrite (offs_succ _ _ _ _ Hcs). apply andb_true_iff. rewrite Z.leb_le, Z.ltb_lt. lia. }
      apply (fol_forZ (C := unit) (D := unit) _ _ _ (fun _ => tt) (fun st => mkArrs st [] [] [] : arrs E unit unit unit) (fun _ _ => True) _ _ _ _ Eb I).
      clear Eb st st1. intros j st st1 Hj _ Eb. split; auto.
      apply bind_Ok in Eb as (ci & Eci & Eb). apply bind_Ok in Eb as (u & El & Eb). apply bind_Ok in Eb as (lo & Elo & Eb). apply bind_Ok in Eb as (hi & Ehi & Eb).
      do 4 (eapply fol_bind; [apply fol_lift; eauto|]).
      apply (fol_forZ (C := unit) (D := unit) _ _ _ (fun _ => tt) (fun st => mkArrs st [] [] [] : arrs E unit unit unit) (fun _ _ => True) _ _ _ _ Eb I).
      clear Eb st st1. intros nz st st1 Hnz _ Eb. split; auto.
      apply bind_Ok in Eb as (row & Er & Eb). apply bind_Ok in Eb as (g & Eg & Eb). apply bind_Ok in Eb as (u1 & Eas & Eb). apply bind_Ok in Eb as (val & Eval & Eb).
      apply bind_Ok in Eb as (x & Ex & Eb). apply bind_Ok in Eb as (y & Ey & Eb). pose proof (Ow j lo hi nz Hj Elo Ehi Hnz) as O.
      do 3 (eapply fol_bind; [apply fol_lift; eauto|]). eapply fol_bind; [apply (fol_get1 _ (a + nz)); [exact Eval|exact O]|].
      do 2 (eapply fol_bind; [apply fol_lift; eauto|]). apply (fol_put1 _ (a + nz) (mkArrs st [] [] [])); auto.
  Qed.
End Build.

(** ** shuffle_edges *)
Lemma nodup_tail {A} (l l' : list A) : NoDup (l ++ l') -> NoDup l'.
Proof. induction l as [|a l IH]; simpl; auto. intros H. inversion H; auto. Qed.
Section Shuffle.
  Context {E : Type}.
  Lemma edge_bin_Ok nr (e : edge E) b : edge_bin nr e = Ok b -> 0 <= b < nr.
  Proof. unfold edge_bin. intros H. apply bind_Ok in H as (u & Ha & H). unfold assertb in Ha. destruct (_ && _) eqn:Eb; [|discriminate]. apply andb_true_iff in Eb as [? ?]. assert (Z.rem (e_src e - 1) nr = b) by congruence. lia. Qed.
  Definition row_of (nr p i : Z) : bool := (p * nr <=? i) && (i <? (p + 1) * nr).
  Lemma row_of_disj nr p q i : row_of nr p i = true -> row_of nr q i = true -> p = q.
  Proof. unfold row_of. rewrite !andb_true_iff, !Z.leb_le, !Z.ltb_lt. intros. destruct (Z.lt_trichotomy p q) as [L|[L|L]]; auto; nia. Qed.
  Lemma row_of_in nr p b : 0 <= b < nr -> row_of nr p (p * nr + b) = true.
  Proof. intros H. unfold row_of. rewrite andb_true_iff, Z.leb_le, Z.ltb_lt. nia. Qed.

  Lemma hist_any nt nr (el : elist E) h : 0 <= nt -> shuffle_hist nt nr el = Ok h ->
    any_schedule (hist_t nt nr el) (mkArrs (repeat 0 (Z.to_nat (nt * nr))) [] [] []) (mkArrs h [] [] []).
  Proof.
    intros Hnt Eh. unfold shuffle_hist in Eh. unfold hist_t. match goal with |- context [parfor nt ?t] => set (tb := t) end.
    destruct (par_forZ (fun p l => match l with L1 i => row_of nr p i | _ => false end) nt tb _ (fun _ st s => s = mkArrs st [] [] [])
      (mkArrs (repeat 0 (Z.to_nat (nt * nr))) [] [] [] : arrs Z unit unit unit) _ h Eh Hnt) as (s' & -> & H); auto.
    - intros p q l _ _. destruct l; try discriminate. apply row_of_disj.
    - clear Eh. intros p st st1 s Hp -> _ Eb. exists (mkArrs st1 [] [] []). split; auto. unfold tb. destruct (thread_edges nt (el_nnz el) p) as [a b].
      apply (fol_forZ (C := unit) (D := unit) _ _ _ (fun _ => tt) (fun st => mkArrs st [] [] [] : arrs Z unit unit unit) (fun _ _ => True) _ _ _ _ Eb I).
      clear Eb st st1. intros i st st1 Hi _ Eb. split; auto.
      apply bind_Ok in Eb as (e & Ee & Eb). apply bind_Ok in Eb as (bn & Ebn & Eb). apply bind_Ok in Eb as (c & Ec & Eb).
      pose proof (row_of_in nr p bn (edge_bin_Ok _ _ _ Ebn)) as O.
      do 2 (eapply fol_bind; [apply fol_lift; eauto|]). eapply fol_bind; [apply (fol_get1 _ (p * nr + bn)); [exact Ec|exact O]|].
      apply (fol_put1 _ (p * nr + bn) (mkArrs st [] [] [])); auto.
  Qed.

  Notation st3 := (list (option (edge E)) * list Z * list Z)%type.
  (** [slots] only grows *)
  Lemma scatter_grows (nr : Z) (el : elist E) o tid a b (st st' : st3) :
    forZ a b (fun i st =>
        let '(te, wo, slots) := st in
        do e <- rde el i ;;
        do bin <- edge_bin nr e ;;
        do a <- rd o (tid * nr + bin) ;;
        do b <- rd wo (tid * nr + bin) ;;
        do te <- wr te (a + b) (Some e) ;;
        do wo <- wr wo (tid * nr + bin) (b + 1) ;;
        Ok (te, wo, slots ++ [a + b])) st = Ok st' -> exists new, snd st' = snd st ++ new.
  Proof.
    intros H. apply (forZ_keeps (fun s => exists new, snd s = snd st ++ new) _ _ _ _ _ H); [exists []; rewrite app_nil_r; auto|].
    intros i [[te wo] sl] s' _ [new Hn] Eb. cbn [snd] in Hn.
    apply bind_Ok in Eb as (e & _ & Eb). apply bind_Ok in Eb as (bn & _ & Eb). apply bind_Ok in Eb as (x & _ & Eb). apply bind_Ok in Eb as (y & _ & Eb).
    apply bind_Ok in Eb as (te1 & _ & Eb). apply bind_Ok in Eb as (wo1 & _ & Eb). assert ((te1, wo1, sl ++ [x + y]) = s') as <- by congruence.
    cbn [snd]. exists (new ++ [x + y]). rewrite Hn, app_assoc. auto.
  Qed.

  Lemma scatter_any nt nr (el : elist E) o te wo slots : 0 <= nt -> shuffle_scatter nt nr el o = Ok (te, wo, slots) -> NoDup slots ->
    any_schedule (scatter_t nt nr el o) (mkArrs (repeat None (Z.to_nat (el_nnz el))) (repeat 0 (Z.to_nat (nt * nr))) [] []) (mkArrs te wo [] []).
  Proof.
    intros Hnt Es Nd. unfold shuffle_scatter in Es. set (st0 := (repeat None (Z.to_nat (el_nnz el)), repeat 0 (Z.to_nat (nt * nr)), []) : st3) in *.
    match type of Es with forZ 0 nt ?b _ = _ => set (body := b) in * end.
    (* the slots of a thread *)
    set (sl := fun p => match forZ 0 p body st0 with Ok st => snd st | Err _ => [] end).
    set (mine := fun p => skipn (length (sl p)) (sl (p + 1))).
    assert (forall p, 0 <= p <= nt -> exists st, forZ 0 p body st0 = Ok st) as Pre.
    { intros p Hp. rewrite (forZ_split _ p) in Es by lia. apply bind_Ok in Es as (st & -> & _). eauto. }
    assert (forall p, 0 <= p < nt -> sl (p + 1) = sl p ++ mine p) as Step.
    { intros p Hp. unfold mine, sl. destruct (Pre p ltac:(lia)) as [st E1]. destruct (Pre (p + 1) ltac:(lia)) as [st1 E2]. rewrite E1, E2.
      rewrite (forZ_split _ p) in E2 by lia. rewrite E1 in E2. cbn [bind] in E2. rewrite forZ_step in E2 by lia. apply bind_Ok in E2 as (st2 & E2 & E3).
      rewrite forZ_empty in E3 by lia. assert (st2 = st1) as -> by congruence. unfold body in E2. destruct (thread_edges nt (el_nnz el) p) as [a b].
      apply scatter_grows in E2 as [new E2]. rewrite E2. rewrite skipn_app, skipn_all, Nat.sub_diag. reflexivity. }
    assert (forall p q, 0 <= p <= q -> q <= nt -> exists r, sl q = sl p ++ r) as Chain.
    { intros p q Hpq Hq. replace q with (p + Z.of_nat (Z.to_nat (q - p))) in * by lia. revert Hq. generalize (Z.to_nat (q - p)) as k. clear Hpq. 
      induction k as [|k IH]; intros Hq; [exists []; rewrite Z.add_0_r, app_nil_r; auto|]. destruct (IH ltac:(lia)) as [r Hr].
      replace (p + Z.of_nat (S k)) with (p + Z.of_nat k + 1) by lia. destruct (Z_lt_dec p 0).
      - exists (sl (p + Z.of_nat k + 1)). assert (sl p = []) as ->; auto. unfold sl. rewrite forZ_empty by lia. reflexivity.
      - rewrite Step by lia. rewrite Hr, <- app_assoc. eauto. }
    assert (sl nt = slots) as Last by (unfold sl; rewrite Es; reflexivity).
    assert (forall p q x, 0 <= p < q -> q < nt -> In x (mine p) -> In x (mine q) -> False) as Apart.
    { intros p q x Hp Hq H1 H2. destruct (Chain (p + 1) q ltac:(lia) ltac:(lia)) as [r Hr]. destruct (Chain (q + 1) nt ltac:(lia) ltac:(lia)) as [r2 Hr2].
      rewrite Last, Step, Hr, Step in Hr2 by lia. rewrite Hr2 in Nd. rewrite <- !app_assoc in Nd. apply nodup_tail in Nd.
      apply in_split in H1 as (u & v & Hu). rewrite Hu in Nd. rewrite <- app_assoc in Nd. apply nodup_tail in Nd. simpl in Nd. inversion Nd as [|? ? Nx _]. apply Nx.
      rewrite !in_app_iff. auto. }
    set (own := fun p l => match l with L1 i => existsb (Z.eqb i) (mine p) | L2 i => row_of nr p i | _ => false end).
    unfold scatter_t. match goal with |- context [parfor nt ?t] => set (tb := t) end.
    destruct (par_forZ own nt tb body (fun _ st s => s = mkArrs (fst (fst st)) (snd (fst st)) [] [])
      (mkArrs (repeat None (Z.to_nat (el_nnz el))) (repeat 0 (Z.to_nat (nt * nr))) [] [] : arrs (option (edge E)) Z unit unit) _ _ Es Hnt) as (s' & -> & H); auto.
    - intros p q l Hp Hq. destruct l; try discriminate; [|apply row_of_disj]. simpl. rewrite !existsb_exists. intros (x & Hx & Ex) (y & Hy & Ey).
      apply Z.eqb_eq in Ex, Ey. subst x y. destruct (Z.lt_trichotomy p q) as [L|[L|L]]; auto; exfalso; [apply (Apart p q i)|apply (Apart q p i)]; auto; lia.
    - intros p st st1 s Hp -> Epre Eb. exists (mkArrs (fst (fst st1)) (snd (fst st1)) [] []). split; auto.
      assert (sl p = snd st) as Sp by (unfold sl; rewrite Epre; reflexivity).
      assert (sl (p + 1) = snd st1) as Sp1.
      { unfold sl. rewrite (forZ_split _ p) by lia. rewrite Epre. cbn [bind]. rewrite forZ_step by lia. rewrite Eb. cbn [bind]. rewrite forZ_empty by lia. reflexivity. }
      unfold body in Eb. unfold tb. destruct (thread_edges nt (el_nnz el) p) as [a b].
      set (start := snd st) in *. set (st_end := st1) in *.
      apply (fol_forZ (own p) (fun i (_ : unit) =>
        par e <- plift (rde el i) ;; par bin <- plift (edge_bin nr e) ;;
        par ov <- plift (rd o (p * nr + bin)) ;;
        par wv <- get2 (p * nr + bin) ;;
        par _ <- put1 (ov + wv) (Some e) ;;
        put2 (p * nr + bin) (wv + 1)) _ (fun _ => tt) (fun st : st3 => mkArrs (fst (fst st)) (snd (fst st)) [] [] : arrs (option (edge E)) Z unit unit)
        (fun i st => (exists d, snd st = start ++ d) /\ forZ i b (fun i st =>
          let '(te, wo, slots) := st in
          do e <- rde el i ;;
          do bin <- edge_bin nr e ;;
          do a <- rd o (p * nr + bin) ;;
          do b <- rd wo (p * nr + bin) ;;
          do te <- wr te (a + b) (Some e) ;;
          do wo <- wr wo (p * nr + bin) (b + 1) ;;
          Ok (te, wo, slots ++ [a + b])) st = Ok st_end) _ _ _ _ Eb).
      { split; [exists []; rewrite app_nil_r; auto|exact Eb]. }
      intros i [[te1 wo1] sl1] st2 Hi [[d Hd] Hs] E2. cbn [fst snd] in *. rewrite forZ_step in Hs by lia. apply bind_Ok in Hs as (st2' & E2' & Hs).
      rewrite E2 in E2'. assert (st2' = st2) as -> by congruence. clear E2'.
      apply bind_Ok in E2 as (e & Ee & E2). apply bind_Ok in E2 as (bn & Ebn & E2). apply bind_Ok in E2 as (x & Ex & E2). apply bind_Ok in E2 as (y & Ey & E2).
      apply bind_Ok in E2 as (te2 & Wt & E2). apply bind_Ok in E2 as (wo2 & Ww & E2). assert ((te2, wo2, sl1 ++ [x + y]) = st2) as <- by congruence. cbn [fst snd].
      split; [|split; [exists (d ++ [x + y]); rewrite Hd, app_assoc; auto|exact Hs]].
      pose proof (row_of_in nr p bn (edge_bin_Ok _ _ _ Ebn)) as O2.
      assert (own p (L1 (x + y)) = true) as O1.
      { simpl. apply existsb_exists. exists (x + y). split; [|apply Z.eqb_refl]. apply scatter_grows in Hs as [new Hs]. cbn [snd] in Hs.
        unfold mine. rewrite Sp1, Sp, Hs, Hd, <- !app_assoc. rewrite skipn_app, skipn_all, Nat.sub_diag. simpl. rewrite !in_app_iff. simpl. auto. }
      do 3 (eapply fol_bind; [apply fol_lift; eauto|]). eapply fol_bind; [apply (fol_get2 _ (p * nr + bn)); [exact Ey|exact O2]|].
      eapply fol_bind; [apply (fol_put1 _ (x + y)); [exact Wt|exact O1]|]. cbn [ar1 ar2 ar3 ar4].
      apply (fol_put2 (own p) (p * nr + bn) (mkArrs te2 wo1 [] [])); auto.
  Qed.
End Shuffle.

(** ** reduction clauses *)
Section Reduction.
  Context {A : Type}.
  Variables (op : A -> A -> A) (e : A).
  Hypothesis Assoc : forall x y z, op x (op y z) = op (op x y) z.
  Hypothesis Comm : forall x y, op x y = op y x.
  Hypothesis Unit : forall x, op x e = x.
  Lemma fold_out l : forall x, fold_left op l x = op x (fold_left op l e).
  Proof.
    induction l as [|y l IH]; intros x; simpl; [auto|]. rewrite IH, (IH (op e y)). rewrite (Comm e y), Unit, Assoc. auto.
  Qed.
  Lemma fold_perm l l' : Permutation l l' -> forall x, fold_left op l x = fold_left op l' x.
  Proof.
    induction 1 as [|a l l' P IH|a b l|l l' l'' P IH P' IH']; intros x; simpl; auto.
    - rewrite <- !Assoc, (Comm a b). auto.
    - rewrite IH. auto.
  Qed.
  Lemma reduction_any x l r : reduction_gives op e x l r -> r = fold_left op l x.
  Proof.
    intros (parts & sums & P1 & P2 & ->). rewrite (fold_perm _ _ P2), <- (fold_perm _ _ P1). clear - Assoc Comm Unit. revert x.
    induction parts as [|p parts IH]; intros x; simpl; auto. rewrite fold_left_app, IH. rewrite (fold_out p x). auto.
  Qed.
  (** one thread that takes every iteration gets there *)
  Lemma reduction_some x l : reduction_gives op e x l (fold_left op l x).
  Proof. exists [l], [fold_left op l e]. simpl. rewrite app_nil_r. split; auto. split; auto. apply fold_out. Qed.
End Reduction.
