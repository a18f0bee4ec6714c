(** Proofs about ParTiles.v, part 2: building a COOSIMD32 tile, and the loops of every format for the
    tiles that the constructors make. *)
From Coq Require Import Permutation.
From Verif Require Import BaseLemmas Segment SegmentProofs BucketProofs ListLemmas Conc Search SearchProofs DCSC EdgeList EdgeSpec MatSpec DCSCFinal Tiles TilesProofs DcsrProofs SimdProofs SimdFinal
  ParLoop ParLoopProofs ParLoopWords ParLoopWords3 ParLoopEdges ParLoopFinal ParTiles ParTilesProofs.

Section Simd.
  Context {E : Type}.
  Notation arr4 := (arrs (option E) (option Z) Z (option Z)).
  Variable P : loc4 -> bool.
  Variables (tmp : list (tedge E)) (start : Z).
  Definition owns (k : Z) : Prop := P (L1 k) = true /\ P (L2 k) = true /\ P (L3 k) = true.
  Definition owns_from (a b : Z) : Prop := forall k, a <= k < b -> owns (k + start).
  Definition held (s4 : list (option Z)) (f : @filling E) : arr4 := mkArrs (f_a f) (f_ja f) (f_ia f) s4.

  Lemma copy_fol eid s4 f f' : copy_edge tmp start eid f = Ok f' -> f_cnt f' = f_cnt f + 1 /\
    (owns_from (f_cnt f) (f_cnt f') -> fol P (copy_edge_t tmp start eid (f_cnt f)) (held s4 f) (f_cnt f') (held s4 f')).
  Proof.
    intros H. unfold copy_edge in H. apply bind_Ok in H as (e & Ee & H). apply bind_Ok in H as (ja & Wj & H). apply bind_Ok in H as (ia & Wi & H). apply bind_Ok in H as (a & Wa & H). injection H as <-.
    cbn [f_cnt f_a f_ja f_ia]. split; auto. intros Ow. destruct (Ow (f_cnt f) ltac:(lia)) as (O1 & O2 & O3). unfold held. cbn [f_a f_ja f_ia].
    eapply fol_bind; [apply fol_lift; eauto|].
    eapply fol_bind; [apply (fol_put2 P (f_cnt f + start) (mkArrs (f_a f) (f_ja f) (f_ia f) s4)); [exact Wj|exact O2]|]. cbn [ar1 ar2 ar3 ar4].
    eapply fol_bind; [apply (fol_put3 P (f_cnt f + start) (mkArrs (f_a f) ja (f_ia f) s4)); [exact Wi|exact O3]|]. cbn [ar1 ar2 ar3 ar4].
    eapply fol_bind; [apply (fol_put1 P (f_cnt f + start) (mkArrs (f_a f) ja ia s4)); [exact Wa|exact O1]|]. apply fol_ret.
  Qed.
  Lemma rotate_fol borders s4 : forall bins rot full f bins' full' f', rotate tmp borders start bins rot full f = Ok (bins', full', f') -> f_cnt f <= f_cnt f' /\
    (owns_from (f_cnt f) (f_cnt f') -> fol P (rotate_t tmp borders start bins rot full (f_cnt f)) (held s4 f) (bins', full', f_cnt f') (held s4 f')).
  Proof.
    induction bins as [|b rest IH]; intros rot full f bins' full' f' H; cbn [rotate rotate_t] in *.
    - injection H as <- <- <-. split; [lia|]. intros _. apply fol_ret.
    - apply bind_Ok in H as ([[[b1 rot1] full1] f1] & H1 & H).
      assert (f_cnt f <= f_cnt f1 /\ (owns_from (f_cnt f) (f_cnt f1) ->
        fol P (if 0 <? num_left b then
                  par lo <- plift (rd borders (p32 b)) ;;
                  par cnt <- copy_edge_t tmp start (lo + num_taken b) (f_cnt f) ;;
                  pret (mkBin (p32 b) (num_total b) (num_left b - 1) (num_taken b + 1), rot + 1, if num_left (mkBin (p32 b) (num_total b) (num_left b - 1) (num_taken b + 1)) =? 0 then full - 1 else full, cnt)
                else pret (b, rot, full, f_cnt f)) (held s4 f) (b1, rot1, full1, f_cnt f1) (held s4 f1))) as [M1 F1].
      { destruct (0 <? num_left b).
        - apply bind_Ok in H1 as (lo & El & H1). cbv zeta in H1. apply bind_Ok in H1 as (f2 & Ec & H1). injection H1 as <- <- <- <-.
          destruct (copy_fol _ s4 _ _ Ec) as [C1 C2]. split; [lia|]. intros Ow.
          eapply fol_bind; [apply fol_lift; eauto|]. eapply fol_bind; [apply C2; auto|]. apply fol_ret.
        - injection H1 as <- <- <- <-. split; [lia|]. intros _. apply fol_ret. }
      destruct (rot1 =? 32) eqn:Er.
      + injection H as <- <- <-. split; auto. intros Ow. eapply fol_bind; [apply F1; auto|]. cbn beta iota. rewrite Er. apply fol_ret.
      + apply bind_Ok in H as ([[rest1 full2] f2] & H2 & H). injection H as <- <- <-. destruct (IH _ _ _ _ _ _ H2) as [M2 F2]. split; [lia|].
        intros Ow. eapply fol_bind; [apply F1; intros k Hk; apply Ow; lia|]. cbn beta iota. rewrite Er.
        eapply fol_bind; [apply F2; intros k Hk; apply Ow; lia|]. apply fol_ret.
  Qed.
  Lemma rotations_fol borders s4 : forall k bins full f bins' f', rotations k tmp borders start bins full f = Ok (bins', f') -> f_cnt f <= f_cnt f' /\
    (owns_from (f_cnt f) (f_cnt f') -> fol P (rotations_t k tmp borders start bins full (f_cnt f)) (held s4 f) (bins', f_cnt f') (held s4 f')).
  Proof.
    induction k as [|k IH]; intros bins full f bins' f' H; cbn [rotations rotations_t] in *; destruct (32 <=? full).
    - discriminate.
    - injection H as <- <-. split; [lia|]. intros _. apply fol_ret.
    - apply bind_Ok in H as ([[bins1 full1] f1] & H1 & H). destruct (rotate_fol borders s4 _ _ _ _ _ _ _ H1) as [M1 F1]. destruct (IH _ _ _ _ _ H) as [M2 F2]. split; [lia|].
      intros Ow. eapply fol_bind; [apply F1; intros j Hj; apply Ow; lia|]. cbn beta iota. apply F2. intros j Hj. apply Ow. lia.
    - injection H as <- <-. split; [lia|]. intros _. apply fol_ret.
  Qed.
  Lemma leftover_fol borders b s4 : forall n i f f', forN n i (fun taken f => do x <- rd borders (p32 b) ;; copy_edge tmp start (x + taken) f) f = Ok f' -> f_cnt f <= f_cnt f' /\
    (owns_from (f_cnt f) (f_cnt f') -> fol P (ploopN n i (fun taken cnt => par x <- plift (rd borders (p32 b)) ;; copy_edge_t tmp start (x + taken) cnt) (f_cnt f)) (held s4 f) (f_cnt f') (held s4 f')).
  Proof.
    induction n as [|n IH]; intros i f f' H; cbn [forN ploopN] in *.
    - injection H as <-. split; [lia|]. intros _. apply fol_ret.
    - apply bind_Ok in H as (f1 & H1 & H). apply bind_Ok in H1 as (x & Ex & H1). destruct (copy_fol _ s4 _ _ H1) as [C1 C2]. destruct (IH _ _ _ H) as [M2 F2]. split; [lia|].
      intros Ow. eapply fol_bind; [|apply F2; intros j Hj; apply Ow; lia]. eapply fol_bind; [apply fol_lift; eauto|]. apply C2. intros j Hj; apply Ow; lia.
  Qed.
  Lemma leftovers_fol borders s4 : forall bins f f',
    foldR (fun f b => forZ (num_taken b) (num_total b) (fun taken f => do x <- rd borders (p32 b) ;; copy_edge tmp start (x + taken) f) f) bins f = Ok f' -> f_cnt f <= f_cnt f' /\
    (owns_from (f_cnt f) (f_cnt f') -> fol P (peach (fun cnt b => ploop (num_taken b) (num_total b) (fun taken cnt => par x <- plift (rd borders (p32 b)) ;; copy_edge_t tmp start (x + taken) cnt) cnt) bins (f_cnt f))
       (held s4 f) (f_cnt f') (held s4 f')).
  Proof.
    induction bins as [|b bins IH]; intros f f' H; cbn [foldR peach] in *.
    - injection H as <-. split; [lia|]. intros _. apply fol_ret.
    - apply bind_Ok in H as (f1 & H1 & H). destruct (leftover_fol borders b s4 _ _ _ _ H1) as [M1 F1]. destruct (IH _ _ H) as [M2 F2]. split; [lia|].
      intros Ow. eapply fol_bind; [|apply F2; intros j Hj; apply Ow; lia]. apply F1. intros j Hj; apply Ow; lia.
  Qed.
  Lemma borders_fol lo hi start_row nparts borders (s : arr4) : simd_borders (ar3 s) lo hi start_row nparts = Ok borders -> (forall k, lo <= k < hi -> P (L3 k) = true) ->
    fol P (borders_t lo hi start_row nparts) s borders s.
  Proof.
    intros H Ow. unfold simd_borders in H. cbv zeta in H. apply bind_Ok in H as (st1 & H1 & H). apply bind_Ok in H as (st2 & H2 & H). unfold borders_t. cbv zeta.
    destruct (fol_forZ P (fun eid (st : list (option Z) * Z) => par r <- get3 eid ;; plift (set_borders (Z.to_nat (nparts + 1)) (fst st) (snd st) (Z.quot (r - start_row - 1) 32) eid))
      _ (fun st => st) (fun _ => s) (fun _ _ => True) _ _ _ _ H1 I) as [F _].
    - intros i st st' Hi _ Eb. split; auto. apply bind_Ok in Eb as (r & Er & Eb). eapply fol_bind; [apply (fol_get3 _ i); [exact Er|apply Ow; lia]|]. apply fol_lift. exact Eb.
    - eapply fol_bind; [exact F|]. eapply fol_bind; [apply fol_lift; exact H2|]. apply fol_lift. exact H.
  Qed.
End Simd.

Section SimdLoop.
  Context {E : Type}.
  Definition ownS (ps : list Z) (p : Z) (l : loc4) : bool :=
    match l with L1 i | L2 i | L3 i => within ps p i | L4 i => p =? i end.
  Lemma simd_loop_any binsrt (tmp : list (tedge E)) ps m rpp np f f' simds s0 x : 0 <= np -> rises ps np -> zlen s0 = np ->
    forZ 0 np (fun p (st : filling (E:=E) * list Z) => do r <- simd_part binsrt tmp ps m rpp p (fst st) ;; Ok (fst r, snd st ++ [snd r])) (f, []) = Ok (f', simds) ->
    any_schedule (simd_arrays_t binsrt tmp ps m rpp np) (held (s0 ++ [x]) f) (held (map Some simds ++ [x]) f').
  Proof.
    intros Hn Ri L0 H. unfold simd_arrays_t. match goal with |- context [parfor _ ?t] => set (tb := t) end.
    destruct (par_forZ (ownS ps) np tb _ (fun p st s => zlen (snd st) = p /\ s = held (map Some (snd st) ++ skipn (Z.to_nat p) s0 ++ [x]) (fst st)) (held (s0 ++ [x]) f) _ _ H Hn) as (s' & [Ls ->] & G).
    - intros p q l Hp Hq. destruct l; simpl; try (eapply within_disj; eauto). rewrite !Z.eqb_eq. congruence.
    - split; reflexivity.
    - intros p st st1 s Hp [Lp ->] _ Eb. apply bind_Ok in Eb as ([f2 nsimd] & Ep & Eb). injection Eb as <-. cbn [fst snd].
      unfold simd_part in Ep. cbv zeta in Ep. apply bind_Ok in Ep as (lo & Elo & Ep). apply bind_Ok in Ep as (hi & Ehi & Ep). apply bind_Ok in Ep as (borders & Ebo & Ep). apply bind_Ok in Ep as (bins & Ebi & Ep).
      apply bind_Ok in Ep as ([bins1 f1] & Er & Ep). apply bind_Ok in Ep as (f3 & El & Ep). destruct (Z.eqb_spec (f_cnt f3) (hi - lo)) as [Ec|]; [|discriminate]. cbn [negb] in Ep. injection Ep as <- <-.
      set (s4 := map Some (snd st) ++ skipn (Z.to_nat p) s0 ++ [x]).
      destruct (rd_ok s0 p) as [y Hy]; [lia|].
      assert (s4 = map Some (snd st) ++ y :: skipn (Z.to_nat (p + 1)) s0 ++ [x]) as E4.
      { unfold s4. f_equal. replace (Z.to_nat (p + 1)) with (S (Z.to_nat p)) by lia. change (?a :: ?l ++ ?r) with ((a :: l) ++ r). f_equal.
        unfold rd in Hy. destruct (p <? 0); [discriminate|]. destruct (nth_error s0 (Z.to_nat p)) as [z|] eqn:Ey; [|discriminate]. injection Hy as ->.
        clear -Ey. revert s0 Ey. induction (Z.to_nat p) as [|k IH]; intros [|z c0] Ey; simpl in *; try discriminate; [congruence|]. rewrite (IH c0 Ey). reflexivity. }
      set (s5 := map Some (snd st ++ [f_cnt f1]) ++ skipn (Z.to_nat (p + 1)) s0 ++ [x]).
      assert (wr s4 p (Some (f_cnt f1)) = Ok s5) as W.
      { rewrite E4, (wr_mid (map Some (snd st)) y _ (Some (f_cnt f1))) by (rewrite zlen_map; auto). unfold s5. rewrite map_app, <- app_assoc. reflexivity. }
      assert (owns_from (ownS ps p) lo 0 (hi - lo)) as Ow.
      { intros k Hk. unfold owns. simpl. unfold within. rewrite Elo, Ehi. rewrite andb_true_iff, Z.leb_le, Z.ltb_lt. lia. }
      set (fa := mkFill (f_a (fst st)) (f_ja (fst st)) (f_ia (fst st)) 0) in *.
      destruct (rotations_fol (ownS ps p) tmp lo borders s4 _ _ _ _ _ _ Er) as [M1 F1]. destruct (leftovers_fol (ownS ps p) tmp lo borders s5 _ _ _ El) as [M2 F2]. change (f_cnt fa) with 0 in *.
      exists (held s5 f3). split; [|split; [rewrite zlen_app, Lp; reflexivity|reflexivity]].
      unfold tb. cbv zeta. do 2 (eapply fol_bind; [apply fol_lift; eauto|]).
      eapply fol_bind; [apply borders_fol; [exact Ebo|]|].
      { intros k Hk. destruct (Ow (k - lo) ltac:(lia)) as (_ & _ & O3). replace (k - lo + lo) with k in O3 by lia. exact O3. }
      eapply fol_bind; [apply fol_lift; exact Ebi|].
      eapply fol_bind; [apply (F1 ltac:(intros k Hk; apply Ow; lia))|]. cbn beta iota.
      eapply fol_bind; [apply (fol_put4 (ownS ps p) p (held s4 f1)); [exact W|apply Z.eqb_refl]|]. cbn [held ar1 ar2 ar3 ar4].
      eapply fol_bind; [apply (F2 ltac:(intros k Hk; apply Ow; lia))|]. cbv beta. rewrite Ec, Z.eqb_refl. apply fol_ret.
    - cbn [fst snd] in *. rewrite skipn_all2 in G by (unfold zlen in L0; lia). exact G.
  Qed.
End SimdLoop.

Section Claims.
  Context {E : Type}.
  Variables (threads : Z) (es : list (edge E)) (m n rs cs : Z).
  Hypothesis Hth : 1 <= threads.
  Hypothesis Hes : forall e, In e es -> in_rect m n rs cs e.
  Hypothesis Hne : es <> [].
  Lemma es_pos : 0 < zlen es /\ 0 < m.
  Proof using Hes Hne. clear Hth. destruct es as [|e l]; [congruence|]. rewrite zlen_cons. pose proof (zlen_nonneg l). destruct (Hes e (or_introl eq_refl)). lia. Qed.

  Lemma coo_loops srt past t : sorts_ends srt -> coo_new srt threads past es m n rs cs = Ok t ->
    (forall a0 b0 c0, zlen a0 = zlen es -> zlen b0 = zlen es -> zlen c0 = zlen es ->
       any_schedule (split_t rs cs (srt es)) (mkArrs a0 b0 c0 []) (mkArrs (map Some (o_a t)) (map Some (o_ja t)) (map Some (o_ia t)) [])) /\
    (exists rpp ps, rows_per m (o_np t) = Ok rpp /\ o_ps t = ps ++ [zlen es] /\ forall l0 x, zlen l0 = o_np t ->
       any_schedule (starts_t (l_binary_search 0 (zlen es) (match past with Some g => o_ia t ++ [g] | None => o_ia t end)) m rpp (o_np t)) (mkArrs (l0 ++ [x]) [] [] []) (mkArrs (map Some ps ++ [x]) [] [] [])) /\
    (forall r c out l0, coo_get_edges t r c = Ok out -> zlen l0 = zlen es ->
       any_schedule (export_t (o_nnz t) (o_a t) (o_ja t) (o_ia t) r c) (mkArrs l0 [] [] []) (mkArrs (map Some out) [] [] [])).
  Proof using Hth Hes Hne.
    intros Hs H. destruct es_pos as [Hz Hm]. unfold coo_new in H. destruct (Z.ltb_spec 0 (zlen es)); [|lia]. cbv zeta in H.
    apply bind_Ok in H as (rpp & Er & H). apply bind_Ok in H as (ps & Eps & H). injection H as <-. cbn [o_a o_ja o_ia o_np o_ps o_nnz].
    pose proof (s_len srt Hs es) as Ls. split; [|split].
    - intros a0 b0 c0 L1 L2 L3. apply split_any; lia.
    - exists rpp, ps. split; auto. split; auto. intros l0 x L0. apply starts_any; auto. lia.
    - intros r c out l0 Ho L0. apply export_any; auto. lia.
  Qed.

  Lemma csr_loops srt t : sorts_ends srt -> csr_new srt threads es m n rs cs = Ok t ->
    (forall a0 b0 c0, zlen a0 = zlen es -> zlen b0 = zlen es -> zlen c0 = zlen es ->
       any_schedule (split_t rs cs (srt es)) (mkArrs a0 b0 c0 []) (mkArrs (map Some (s_a t)) (map Some (s_ja t)) (map Some (map (fun e => e_src e - rs) (srt es))) [])) /\
    (forall r c out l0, csr_get_edges t r c = Ok out -> zlen l0 = zlen es ->
       any_schedule (csr_edges_t t r c) (mkArrs l0 [] [] []) (mkArrs (map Some out) [] [] [])).
  Proof using Hth Hes Hne.
    intros Hs H. destruct es_pos as [Hz Hm]. rewrite (csr_built srt Hs threads es m n rs cs Hth Hes Hne) in H. injection H as <-. cbn [s_a s_ja].
    pose proof (s_len srt Hs es) as Ls. split.
    - intros a0 b0 c0 L1 L2 L3. apply split_any; lia.
    - intros r c out l0 Ho L0. apply csr_edges_any; cbn [s_nnz s_m s_ia]; auto; try lia.
      intros p a b Hp Ha Hb. unfold row_ptrs in Ha, Hb. rewrite rd_map_list, rd_zrange in Ha, Hb by lia. injection Ha as <-. injection Hb as <-.
      pose proof (cross_mono (ia_of rs (srt es)) (p + 1) (p + 1 + 1) ltac:(lia)). lia.
  Qed.

  Lemma dcsr_loops srt past t : sorts_ends srt -> dcsr_new srt threads past es m n rs cs = Ok t ->
    forall r c out l0 c0, dcsr_get_edges t r c = Ok out -> zlen l0 = zlen es -> zlen c0 = d_num_rows t ->
      exists cnts, any_schedule (dcsr_edges_t t r c) (mkArrs l0 c0 [] []) (mkArrs (map Some out) (map Some cnts) [] []) /\
        forall k, reduction_gives Z.add 0 0 cnts k -> k = zlen es.
  Proof using Hth Hes Hne.
    intros Hs H r c out l0 c0 Ho L0 Lc. destruct es_pos as [Hz Hm]. rewrite (dcsr_unfold srt Hs threads es m n rs cs) in H by auto. apply bind_Ok in H as (pp & _ & H). injection H as <-.
    assert (0 < zlen (srt es)) as Sp by (rewrite (s_len srt Hs es); auto).
    pose proof (s_order srt Hs es) as So.
    apply dcsr_edges_any; cbn [d_nnz d_num_rows d_ia] in *; auto.
    - apply zlen_nonneg.
    - rewrite zlen_numbers. intros p a b Hp Ha Hb. destruct (bounds_next (srt es) Sp So p a b Hp Ha Hb) as (B & _). lia.
  Qed.

  Lemma simd_loops bsrt binsrt t : sorts bsrt -> (forall l, Permutation l (binsrt l)) -> simd_new bsrt binsrt threads es m n rs cs = Ok t ->
    let tag e := let src := e_src e - rs in (Z.quot (src - 1) 32, mkE src (e_dst e - cs) (e_val e)) in
    let tmp := bsrt (map tag es) in
    let ia := map (fun e => e_src (snd e)) tmp in
    (forall l0, zlen l0 = zlen es -> any_schedule (compute_t (fun e => Ok (tag e)) es) (mkArrs l0 [] [] []) (mkArrs (map Some (map tag es)) [] [] [])) /\
    (forall l0, zlen l0 = zlen es -> any_schedule (compute_t (fun e : tedge E => Ok (e_src (snd e))) tmp) (mkArrs l0 [] [] []) (mkArrs (map Some ia) [] [] [])) /\
    (exists rpp ps, rows_per m (i_np t) = Ok rpp /\ i_ps t = ps ++ [zlen es] /\
       (forall l0 x, zlen l0 = i_np t -> any_schedule (starts_t (l_linear_search 0 (zlen es) ia) m rpp (i_np t)) (mkArrs (l0 ++ [x]) [] [] []) (mkArrs (map Some ps ++ [x]) [] [] [])) /\
       (forall l0 x, zlen l0 = i_np t -> any_schedule (simd_arrays_t binsrt tmp (i_ps t) m rpp (i_np t))
          (mkArrs (repeat None (Z.to_nat (zlen es))) (repeat None (Z.to_nat (zlen es))) ia (l0 ++ [x]))
          (mkArrs (map Some (i_a t)) (map Some (i_ja t)) (i_ia t) (map Some (i_simd t) ++ [x])))) /\
    (forall r c out l0, simd_get_edges t r c = Ok out -> zlen l0 = zlen es ->
       any_schedule (export_t (i_nnz t) (i_a t) (i_ja t) (i_ia t) r c) (mkArrs l0 [] [] []) (mkArrs (map Some out) [] [] [])).
  Proof using Hth Hes Hne.
    intros Hb Hbin H tag tmp ia. destruct es_pos as [Hz Hm].
    destruct (simd_built bsrt Hb binsrt Hbin threads es m n rs cs Hth Hes Hne) as (rpp0 & ps0 & parts & _ & Lpa & _ & _ & Lps & R0 & Hps & Hnew). rewrite Hnew in H.
    assert (i_ps t = ps0) as Eps0 by (injection H as <-; reflexivity). rewrite <- Hnew in H. clear Hnew.
    unfold simd_new in H. destruct (Z.ltb_spec 0 (zlen es)); [|lia]. cbv zeta in H. fold (tag : edge E -> tedge E) in H. fold tmp ia in H.
    apply bind_Ok in H as (rpp & Er & H). apply bind_Ok in H as (ps & Eps & H). apply bind_Ok in H as ([f simds] & El & H). apply bind_Ok in H as (a & Ea & H). apply bind_Ok in H as (ja & Ej & H). injection H as <-.
    cbn [i_a i_ja i_ia i_np i_ps i_nnz i_simd fst snd] in *. apply mapR_need_inv in Ea, Ej.
    assert (zlen tmp = zlen es) as Lt. { unfold tmp. unfold zlen. f_equal. rewrite <- (Permutation_length (proj1 (Hb (map tag es)))). apply map_length. }
    split; [intros l0 L0; apply compute_any; auto; apply mapR_map; auto|].
    split; [intros l0 L0; apply compute_any; [unfold ia; apply mapR_map; auto|lia]|].
    split.
    - exists rpp, ps. split; auto. split; auto. split; [intros l0 x L0; apply starts_any; auto; lia|].
      intros l0 x L0. pose proof (simd_loop_any binsrt tmp (ps ++ [zlen es]) m rpp (threads * 4) (mkFill (repeat None (Z.to_nat (zlen es))) (repeat None (Z.to_nat (zlen es))) ia 0) f simds l0 x ltac:(lia)) as G. unfold held in G. cbn [f_a f_ja f_ia] in G. rewrite <- Ea, <- Ej. apply G; auto.
      intros p a' b' Hp Ha Hb'. rewrite Eps0 in *. destruct (rd_ok parts p) as [y Hy]; [lia|]. destruct (Hps p y a' Hy Ha) as [Hq _]. rewrite Hq in Hb'. injection Hb' as <-. pose proof (zlen_nonneg (chunk y)). lia.
    - intros r c out l0 Ho L0. apply export_any; auto. lia.
  Qed.
End Claims.

(** the three tiles a hybrid tile is made of *)
Section Hybrid.
  Context {E : Type}.
  Definition some_in (l : list (edge E)) (parts : list (option (edge E))) : Prop := forall x, In (Some x) parts -> In x l.
  Lemma wr_some_in (l : list (edge E)) o o' i e : some_in l o -> In e l -> wr o i (Some e) = Ok o' -> some_in l o'.
  Proof.
    intros H He W x Hx. apply In_rd in Hx as (j & _ & Hj). rewrite (rd_of_wr _ _ _ _ j W) in Hj. destruct (i =? j); [injection Hj as <-; auto|]. apply H. eapply rd_In; eauto.
  Qed.
  Lemma copy_some_in (l : list (edge E)) from to k o o' : some_in l o -> copy_row l from to k o = Ok o' -> some_in l o'.
  Proof.
    intros H C. unfold copy_row in C. apply (ParLoopWords4.forZ_keeps (some_in l) _ _ _ _ _ C); auto. clear. intros i s s' _ Hs Eb. apply bind_Ok in Eb as (e & Ee & Eb).
    eapply wr_some_in; [exact Hs| |exact Eb]. eapply rd_In; eauto.
  Qed.
  Lemma hybrid_parts srt bsrt binsrt threads past (es : list (edge E)) m n rs cs t : sorts_ends srt -> hybrid_new srt bsrt binsrt threads past es m n rs cs = Ok t ->
    exists t0 es1 es2, csr_new srt threads (srt es) m n rs cs = Ok t0 /\ dcsr_new srt threads past es1 m n rs cs = Ok (h_t1 t) /\ simd_new bsrt binsrt threads es2 m n rs cs = Ok (h_t2 t) /\
      forall e, In e (srt es) \/ In e es1 \/ In e es2 -> In e es.
  Proof.
    intros Hs H. unfold hybrid_new in H. cbv zeta in H. apply bind_Ok in H as (t0 & E0 & H). apply bind_Ok in H as (st & _ & H). apply bind_Ok in H as (n1 & _ & H). apply bind_Ok in H as (n2 & _ & H). apply bind_Ok in H as (u & _ & H).
    apply bind_Ok in H as (parts & Ep & H). apply bind_Ok in H as (e1 & Ee1 & H). apply bind_Ok in H as (e2 & Ee2 & H). apply bind_Ok in H as (t1 & Et1 & H). apply bind_Ok in H as (t2 & Et2 & H). injection H as <-. cbn [h_t1 h_t2].
    exists t0, e1, e2. split; auto. split; auto. split; auto.
    assert (forall e, In e (srt es) -> In e es) as Hin. { intros e He. eapply Permutation_in; [apply Hs|auto]. }
    set (l := if 0 <? zlen es then srt (srt es) else srt es) in *.
    assert (forall e, In e l -> In e es) as Hl. { unfold l. intros e He. destruct (0 <? zlen es); auto. apply Hin. eapply Permutation_in; [apply Hs|auto]. }
    assert (some_in l (fst parts) /\ some_in l (snd parts)) as [P1 P2].
    { apply (ParLoopWords4.forZ_keeps (fun parts => some_in l (fst parts) /\ some_in l (snd parts)) _ _ _ _ _ Ep).
      - split; intros x Hx; cbn [fst snd] in Hx; apply repeat_spec in Hx; discriminate.
      - clear. intros i s s' _ [H1 H2] Eb. apply bind_Ok in Eb as (x & _ & Eb). apply bind_Ok in Eb as (y & _ & Eb). destruct (y - x <? 16).
        + apply bind_Ok in Eb as (lt & _ & Eb). apply bind_Ok in Eb as (u & _ & Eb). apply bind_Ok in Eb as (o & C & Eb). injection Eb as <-. cbn [fst snd]. split; auto. exact (copy_some_in _ _ _ _ _ _ H2 C).
        + apply bind_Ok in Eb as (lt & _ & Eb). apply bind_Ok in Eb as (u & _ & Eb). apply bind_Ok in Eb as (o & C & Eb). injection Eb as <-. cbn [fst snd]. split; auto. exact (copy_some_in _ _ _ _ _ _ H1 C). }
    apply mapR_need_inv in Ee1, Ee2. rewrite Ee1 in P1. rewrite Ee2 in P2.
    intros e [He|[He|He]]; auto; apply Hl; [apply P1|apply P2]; apply in_map; auto.
  Qed.
End Hybrid.
