(** Proofs about ParLoop.v, part 3: the apply loop, map-reduce, and the loops of compress and decompress. *)
From Verif Require Import BaseLemmas Bits BitsProofs Segment TransferProofs Conc Runtime RunSegProofs GraphOps ParLoop ParLoopProofs ParLoopWords.

Section ApplyLoop.
  Context {A B : Type}.
  Notation arr4 := (arrs (option B) (option bool) Z (bool * list event)).
  Definition ownA (p : Z) (l : loc4) : bool := match l with L1 i | L2 i => i / 32 =? p | L3 i | L4 i => i =? p end.
  Lemma ownA_disj p q l : ownA p l = true -> ownA q l = true -> p = q.
  Proof. destruct l; simpl; rewrite ?Z.eqb_eq; congruence. Qed.

  Lemma apply_loop_any (ap : A -> B -> B) (neq : B -> B -> bool) st wy u n v av aw v' av' aw' conv ev cs0 :
    0 <= n ->
    forZ 0 n (fun i s =>
        do wd <- rd wy i ;;
        do bits <- scan_bits 32 (wd mod 2 ^ 32) ;;
        foldR (fun s b => apply_one ap neq st u (i * 32 + b) s) bits s) (v, av, aw, true, []) = Ok (v', av', aw', conv, ev) ->
    zlen cs0 = n ->
    exists cs, any_schedule (apply_loop_t ap neq st wy u n) (mkArrs v av aw cs0) (mkArrs v' av' aw' cs) /\
      conv = fold_left andb (map fst cs) true /\ ev = concat (map snd cs).
  Proof.
    intros Hn E L0.
    match type of E with forZ _ _ ?b _ = _ => set (body := b) in * end.
    unfold apply_loop_t. match goal with |- context [parfor n ?t] => set (tb := t) end.
    destruct (par_forZ ownA n tb body
      (fun p st s => let '(v, av, aw, conv, ev) := st in exists cs, s = mkArrs v av aw cs /\ zlen cs = n /\
         conv = fold_left andb (map fst (firstn (Z.to_nat p) cs)) true /\ ev = concat (map snd (firstn (Z.to_nat p) cs)))
      (mkArrs v av aw cs0 : arr4) (v, av, aw, true, []) (v', av', aw', conv, ev) E Hn) as (s' & (cs & -> & Lc & Hc & He) & H).
    - intros p q l _ _. apply ownA_disj.
    - exists cs0. auto.
    - clear E. intros p s0 s1 s Hp. destruct s0 as [[[[v0 av0] aw0] conv0] ev0]. intros (cs & -> & Lc & Hc & He) _ Eb. unfold body in Eb.
      apply bind_Ok in Eb as (wd & Ew & Eb). apply bind_Ok in Eb as (bits & Ebits & Eb).
      assert (forall b, In b bits -> 0 <= b < 32) as Hbits.
      { intros b Hb. rewrite scan_bits_word in Ebits. assert (Hq : filter (Z.testbit wd) (zrange 0 32) = bits) by congruence. rewrite <- Hq in Hb. apply filter_In in Hb as [Hb _]. apply in_zrange in Hb. lia. }
      destruct (fol_eachR (ownA p) (fun ce b => apply_one_t ap neq st u (p * 32 + b) ce) _
        (fun sq ce s => let '(v, av, aw, cq, eq) := sq in s = mkArrs v av aw cs /\ cq = conv0 && fst ce /\ eq = ev0 ++ snd ce) bits
        _ _ (true, []) (mkArrs v0 av0 aw0 cs : arr4) Eb) as ([c1 e1] & s1' & F & Q).
      { rewrite andb_true_r, app_nil_r. auto. }
      { clear - Hbits. intros b sq sq1 [ca ea] s Hb. destruct sq as [[[[v av] aw] cq] eq]. cbn [fst snd]. intros (-> & -> & ->) Eb.
        specialize (Hbits b Hb). assert (ownA p (L1 (p * 32 + b)) = true) as O1 by (simpl; rewrite (div32 (p * 32 + b) p) by lia; apply Z.eqb_refl).
        assert (Z.shiftr (p * 32 + b) 5 = p) as Sh by (rewrite shiftr5; apply div32; lia).
        unfold apply_one in Eb. apply bind_Ok in Eb as (old & Eo & Eb). apply bind_Ok in Eb as (m & Em & Eb). cbv zeta in Eb. apply bind_Ok in Eb as (v' & Ev & Eb).
        unfold apply_one_t. cbn [fst snd]. destruct (neq old (ap m old)) eqn:En.
        - apply bind_Ok in Eb as (av' & Eav & Eb). apply bind_Ok in Eb as (aw' & Eaw & Eb). oki Eb.
          unfold bv_set in Eaw. apply bind_Ok in Eaw as (w & Ew & Eaw). cbv zeta in Eaw.
          exists (false, ea ++ [Applied (st + (p * 32 + b) + 1)]), (mkArrs v' av' aw' cs). split.
          + eapply fol_bind; [apply (fol_get1 _ (p * 32 + b)); [apply rdi_split, Eo|exact O1]|].
            eapply fol_bind; [apply fol_lift; reflexivity|]. eapply fol_bind; [apply fol_lift; exact Em|]. cbv zeta.
            eapply fol_bind; [apply (fol_put1 _ (p * 32 + b)); [exact Ev|exact O1]|]. rewrite En. cbn [ar2 ar3 ar4].
            eapply fol_bind; [apply (fol_put2 _ (p * 32 + b)); [exact Eav|exact O1]|]. cbn [ar1 ar2 ar3 ar4].
            eapply fol_bind; [apply (fol_get3 _ (Z.shiftr (p * 32 + b) 5)); [exact Ew|simpl; rewrite Sh; apply Z.eqb_refl]|].
            destruct (Z.land w (Z.shiftl 1 (Z.land (p * 32 + b) 31)) =? 0).
            * eapply fol_bind; [apply (fol_put3 _ (Z.shiftr (p * 32 + b) 5)); [exact Eaw|simpl; rewrite Sh; apply Z.eqb_refl]|]. apply fol_ret.
            * oki Eaw. apply fol_ret.
          + cbn [fst snd]. rewrite andb_false_r, <- app_assoc. auto.
        - oki Eb. exists (ca, ea ++ [Applied (st + (p * 32 + b) + 1)]), (mkArrs v' av aw cs). split.
          + eapply fol_bind; [apply (fol_get1 _ (p * 32 + b)); [apply rdi_split, Eo|exact O1]|].
            eapply fol_bind; [apply fol_lift; reflexivity|]. eapply fol_bind; [apply fol_lift; exact Em|]. cbv zeta.
            eapply fol_bind; [apply (fol_put1 _ (p * 32 + b)); [exact Ev|exact O1]|]. rewrite En. apply fol_ret.
          + cbn [fst snd]. rewrite <- app_assoc. auto. }
      destruct s1 as [[[[v1 av1] aw1] conv1] ev1]. destruct Q as (-> & -> & ->). cbn [fst snd].
      destruct (wr cs p (c1, e1)) as [cs1|] eqn:W1; [|rewrite wr_ok in W1 by lia; discriminate].
      exists (mkArrs v1 av1 aw1 cs1). split.
      + unfold tb. eapply fol_bind; [apply fol_lift; eauto|]. eapply fol_bind; [apply fol_lift; eauto|]. eapply fol_bind; [exact F|].
        apply (fol_put4 (ownA p) p (mkArrs v1 av1 aw1 cs)); auto. apply Z.eqb_refl.
      + exists cs1. split; auto. split; [rewrite (wr_zlen _ _ _ _ W1); auto|]. rewrite (firstn_wr _ _ _ _ W1), !map_app, fold_left_app, concat_app. simpl.
        rewrite <- Hc, <- He, app_nil_r. auto.
    - exists cs. rewrite firstn_all_z in Hc, He by auto. auto.
  Qed.
End ApplyLoop.

Section MapReduce.
  Context {A B : Type}.
  Variables (threads : Z) (mp : A -> A * B) (op : B -> B -> B).
  Notation arr3 := (arrs (option A) (option B) (option bool) unit).
  Definition ownM (cap : Z) (p : Z) (l : loc4) : bool :=
    let per := Z.quot (cap + threads - 1) threads in
    match l with L1 i => (per * p <=? i) && (i <? per * (p + 1)) | L2 i => i =? p * 16 | L3 i => i =? p * 16 | L4 _ => false end.
  Lemma ownM_disj cap p q l : 0 <= cap -> 0 < threads -> ownM cap p l = true -> ownM cap q l = true -> p = q.
  Proof.
    intros Hc Ht. unfold ownM. assert (0 <= Z.quot (cap + threads - 1) threads) by (apply Z.quot_pos; lia).
    destruct l; simpl; try discriminate; rewrite ?andb_true_iff, ?Z.leb_le, ?Z.ltb_lt, ?Z.eqb_eq; intros; try lia.
    destruct (Z.lt_trichotomy p q) as [L|[L|L]]; auto; nia.
  Qed.

  (** what the two arrays of the threads hold for the parts done *)
  Definition locals (n : Z) (rs : list (option B)) (lr : list (option B)) (fs : list (option bool)) : Prop :=
    forall p, 0 <= p < n -> exists r, rd rs p = Ok r /\
      match r with None => rd fs (p * 16) = Ok (Some false) | Some x => rd fs (p * 16) = Ok (Some true) /\ rd lr (p * 16) = Ok (Some x) end.

  Lemma mapreduce_any w cap v v' rs lr0 fs0 :
    0 <= cap -> 0 <= threads ->
    forZ 0 threads (fun p st => do q <- mapreduce_part threads mp op w cap p (fst st) ;; Ok (fst q, snd st ++ [snd q])) (v, []) = Ok (v', rs) ->
    zlen lr0 = threads * 16 -> zlen fs0 = threads * 16 ->
    exists lr fs, any_schedule (mapreduce_t threads mp op w cap) (mkArrs v lr0 fs0 []) (mkArrs v' lr fs []) /\ zlen rs = threads /\ locals threads rs lr fs.
  Proof.
    intros Hcap Ht E Ll Lf.
    match type of E with forZ _ _ ?b _ = _ => set (body := b) in * end.
    unfold mapreduce_t. match goal with |- context [parfor threads ?t] => set (tb := t) end.
    destruct (par_forZ (ownM cap) threads tb body
      (fun p st s => exists lr fs, s = mkArrs (fst st) lr fs [] /\ zlen (snd st) = p /\ zlen lr = threads * 16 /\ zlen fs = threads * 16 /\ locals p (snd st) lr fs)
      (mkArrs v lr0 fs0 [] : arr3) (v, []) (v', rs) E Ht) as (s' & (lr & fs & -> & Lr & _ & _ & Lo) & H).
    - intros p q l Hp _. apply ownM_disj; lia.
    - exists lr0, fs0. split; auto. split; auto. split; auto. split; auto. intros p Hp. lia.
    - clear E. intros p st st1 s Hp (lr & fs & -> & Lr & Llr & Lfs & Lo) _ Eb. unfold body in Eb. destruct st as [va rs0]. cbn [fst snd] in *.
      apply bind_Ok in Eb as (q & Eq & Eb). oki Eb. cbn [fst snd].
      unfold mapreduce_part in Eq.
      set (per := Z.quot (cap + threads - 1) threads) in *.
      set (start := if per * p >? cap then cap else per * p) in *. set (end_ := if per * (p + 1) >? cap then cap else per * (p + 1)) in *.
      assert (0 <= per) as Hper by (apply Z.quot_pos; lia).
      destruct (wr fs (p * 16) (Some false)) as [fs1|] eqn:W1; [|rewrite wr_ok in W1 by lia; discriminate].
      destruct (fol_forR (C := option bool) (D := unit) (ownM cap p) (fun i (_ : unit) =>
        par g <- plift (bv_get w i) ;;
        if g : bool then
          par a0 <- get1 i ;; par a <- plift (need a0) ;;
          par _ <- put1 i (Some (fst (mp a))) ;;
          par s0 <- get3 (p * 16) ;; par s <- plift (need s0) ;;
          if s : bool then
            par t0 <- get2 (p * 16) ;; par t <- plift (need t0) ;;
            put2 (p * 16) (Some (op t (snd (mp a))))
          else
            par _ <- put2 (p * 16) (Some (snd (mp a))) ;;
            put3 (p * 16) (Some true)
        else pret tt) _
        (fun _ sq _ s => exists lr2 fs2, s = mkArrs (fst sq) lr2 fs2 [] /\ zlen lr2 = threads * 16 /\ zlen fs2 = threads * 16 /\
           (forall j, j <> p * 16 -> rd lr2 j = rd lr j /\ rd fs2 j = rd fs j) /\
           match snd sq with None => rd fs2 (p * 16) = Ok (Some false) | Some x => rd fs2 (p * 16) = Ok (Some true) /\ rd lr2 (p * 16) = Ok (Some x) end)
        start end_ _ _ tt (mkArrs va lr fs1 []) Eq) as ([] & s1 & F & (lr2 & fs2 & -> & Len2 & Len3 & O2 & R2)).
      { exists lr, fs1. cbn [fst snd]. split; auto. split; auto. split; [rewrite (wr_zlen _ _ _ _ W1); auto|]. split.
        - intros j Hj. split; auto. eapply wr_other_rd; eauto.
        - eapply wr_same_rd; eauto. }
      { clear - Hp Hper. intros i sq sq1 a s Hi (lr2 & fs2 & -> & Len2 & Len3 & O2 & R2) Eb. destruct sq as [va rq]. cbn [fst snd] in *.
        apply bind_Ok in Eb as (g & Eg & Eb). exists tt. destruct g.
        - apply bind_Ok in Eb as (x & Ex & Eb). apply bind_Ok in Eb as (v1 & Ev & Eb). oki Eb. cbn [fst snd].
          assert (ownM cap p (L1 i) = true) as O1.
          { simpl. fold per. apply andb_true_iff. rewrite Z.leb_le, Z.ltb_lt. unfold start, end_ in Hi.
            rewrite !Z.gtb_ltb in Hi. destruct (Z.ltb_spec cap (per * p)), (Z.ltb_spec cap (per * (p + 1))); nia. }
          assert (ownM cap p (L2 (p * 16)) = true) as O3 by apply Z.eqb_refl.
          assert (ownM cap p (L3 (p * 16)) = true) as O4 by apply Z.eqb_refl.
          destruct rq as [acc|].
          + destruct R2 as [R2 R3].
            destruct (wr lr2 (p * 16) (Some (op acc (snd (mp x))))) as [lr3|] eqn:W2; [|rewrite wr_ok in W2 by lia; discriminate].
            exists (mkArrs v1 lr3 fs2 []). split.
            * eapply fol_bind; [apply fol_lift; eauto|]. cbn iota.
              eapply fol_bind; [apply (fol_get1 _ i); [apply rdi_split, Ex|exact O1]|]. eapply fol_bind; [apply fol_lift; reflexivity|].
              eapply fol_bind; [apply (fol_put1 _ i); [exact Ev|exact O1]|]. cbn [ar1 ar2 ar3 ar4].
              eapply fol_bind; [apply (fol_get3 _ (p * 16)); [exact R2|exact O4]|]. eapply fol_bind; [apply fol_lift; reflexivity|]. cbn iota.
              eapply fol_bind; [apply (fol_get2 _ (p * 16)); [exact R3|exact O3]|]. eapply fol_bind; [apply fol_lift; reflexivity|].
              apply (fol_put2 _ (p * 16) (mkArrs v1 lr2 fs2 [])); auto.
            * exists lr3, fs2. split; auto. split; [rewrite (wr_zlen _ _ _ _ W2); auto|]. split; auto. split.
              -- intros j Hj. rewrite (wr_other_rd _ _ _ j _ W2) by auto. auto.
              -- split; auto. eapply wr_same_rd; eauto.
          + destruct (wr lr2 (p * 16) (Some (snd (mp x)))) as [lr3|] eqn:W2; [|rewrite wr_ok in W2 by lia; discriminate].
            destruct (wr fs2 (p * 16) (Some true)) as [fs3|] eqn:W3; [|rewrite wr_ok in W3 by lia; discriminate].
            exists (mkArrs v1 lr3 fs3 []). split.
            * eapply fol_bind; [apply fol_lift; eauto|]. cbn iota.
              eapply fol_bind; [apply (fol_get1 _ i); [apply rdi_split, Ex|exact O1]|]. eapply fol_bind; [apply fol_lift; reflexivity|].
              eapply fol_bind; [apply (fol_put1 _ i); [exact Ev|exact O1]|]. cbn [ar1 ar2 ar3 ar4].
              eapply fol_bind; [apply (fol_get3 _ (p * 16)); [exact R2|exact O4]|]. eapply fol_bind; [apply fol_lift; reflexivity|]. cbn iota.
              eapply fol_bind; [apply (fol_put2 _ (p * 16)); [exact W2|exact O3]|]. cbn [ar1 ar2 ar3 ar4].
              apply (fol_put3 _ (p * 16) (mkArrs v1 lr3 fs2 [])); auto.
            * exists lr3, fs3. split; auto. split; [rewrite (wr_zlen _ _ _ _ W2); auto|]. split; [rewrite (wr_zlen _ _ _ _ W3); auto|]. split.
              -- intros j Hj. rewrite (wr_other_rd _ _ _ j _ W2), (wr_other_rd _ _ _ j _ W3) by auto. auto.
              -- split; eapply wr_same_rd; eauto.
        - oki Eb. exists (mkArrs va lr2 fs2 []). split; [eapply fol_bind; [apply fol_lift; eauto|]; apply fol_ret|].
          exists lr2, fs2. auto. }
      exists (mkArrs (fst q) lr2 fs2 []). split.
      + unfold tb. eapply fol_bind; [apply (fol_put3 _ (p * 16) (mkArrs va lr fs [])); [exact W1|apply Z.eqb_refl]|]. exact F.
      + exists lr2, fs2. split; auto. split; [rewrite zlen_app; change (zlen [snd q]) with 1; lia|]. split; auto. split; auto.
        intros i Hi. destruct (Z.eq_dec i p) as [->|N].
        * exists (snd q). split; auto. replace p with (zlen rs0) at 1 by lia. rewrite rd_app2 by lia. rewrite Z.sub_diag. reflexivity.
        * destruct (Lo i ltac:(lia)) as (r & Er & Hr). exists r. split; [rewrite rd_app1 by (rewrite Lr; lia); auto|].
          destruct (O2 (i * 16) ltac:(lia)) as [-> ->]. auto.
    - exists lr, fs. cbn [fst snd] in *. auto.
  Qed.

  Lemma combine_locals rs lr fs res : zlen rs = threads -> locals threads rs lr fs ->
    mapreduce_combine threads op lr fs res = Ok (fold_left (fun acc l => match l with Some x => op acc x | None => acc end) rs res).
  Proof.
    intros L H. unfold mapreduce_combine.
    match goal with |- forZ ?lo ?hi ?f ?s = _ => destruct (forZ_inv (fun p r => r = fold_left (fun acc l => match l with Some x => op acc x | None => acc end) (firstn (Z.to_nat p) rs) res) lo hi f s) as (r & E & I) end.
    - rewrite <- L. apply zlen_nonneg.
    - reflexivity.
    - intros p r Hp ->. destruct (H p Hp) as (x & Ex & Hx).
      assert (firstn (Z.to_nat (p + 1)) rs = firstn (Z.to_nat p) rs ++ [x]) as ->.
      { apply rd_nth in Ex as [_ Ex]. replace (Z.to_nat (p + 1)) with (S (Z.to_nat p)) by lia. revert Ex. generalize (Z.to_nat p) as n. clear.
        induction rs as [|y rs IH]; intros [|n] Ex; try discriminate; simpl in *; [congruence|]. f_equal. auto. }
      rewrite fold_left_app. cbn [fold_left]. unfold rdi. destruct x as [x|].
      + destruct Hx as [-> ->]. simpl. eauto.
      + rewrite Hx. simpl. eauto.
    - rewrite E, I. rewrite firstn_all_z by auto. reflexivity.
  Qed.
End MapReduce.
