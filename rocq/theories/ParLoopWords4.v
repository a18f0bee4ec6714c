(** Proofs about ParLoop.v, part 5: the loops of compress and decompress. *)
From Verif Require Import BaseLemmas Bits BitsProofs Segment SegmentProofs TransferProofs Conc ParLoop ParLoopProofs ParLoopWords ParLoopWords3.

Lemma upd_upd {A} (l : list A) n a b : upd (upd l n a) n b = upd l n b.
Proof. revert n. induction l as [|x l IH]; intros [|n]; simpl; auto. f_equal. auto. Qed.
Lemma setbits_snoc w lo i : lo <= i -> setbits w lo (i + 1) = setbits w lo i ++ (if tb w i then [i] else []).
Proof.
  intros H. rewrite (setbits_app w lo i (i+1)) by lia. f_equal. unfold setbits. rewrite zrange_cons by lia. rewrite zrange_nil by lia. reflexivity.
Qed.
Lemma bv_get_tb w i g : bv_get w i = Ok g -> g = tb w i.
Proof. unfold tb. intros ->. reflexivity. Qed.
Lemma zlen_setbits_mono w lo i j : lo <= i <= j -> zlen (setbits w lo i) <= zlen (setbits w lo j).
Proof. intros H. rewrite (setbits_app w lo i j) by auto. rewrite zlen_app. pose proof (zlen_nonneg (setbits w i j)). lia. Qed.
Lemma setbits_word0 w ii wd lo : rd w ii = Ok wd -> (popcnt32 wd =? 0) = true -> lo <= 32 * ii -> setbits w lo (32 * (ii + 1)) = setbits w lo (32 * ii).
Proof.
  intros Hw P0 L. apply Z.eqb_eq in P0. rewrite (popcnt_setbits w ii wd Hw) in P0. replace (32 * (ii+1)) with (32*ii+32) by lia.
  rewrite (setbits_app w lo (32*ii) (32*ii+32)) by lia. destruct (setbits w (32*ii) (32*ii+32)); [apply app_nil_r|]. rewrite zlen_cons in P0. pose proof (zlen_nonneg l). lia.
Qed.

(** the ranges [scan[p], scan[p+1]) of a list of counts *)
Definition psum (l : list Z) (p : Z) : Z := fold_left Z.add (firstn (Z.to_nat p) l) 0.
Lemma fold_add_shift l : forall s, fold_left Z.add l s = s + fold_left Z.add l 0.
Proof. induction l as [|y l IH]; intros s; simpl; [lia|]. rewrite IH, (IH y). lia. Qed.
Lemma psum_step l p c : rd l p = Ok c -> psum l (p + 1) = psum l p + c.
Proof.
  intros H. unfold psum. rewrite (firstn_snoc _ _ _ H). rewrite fold_left_app. reflexivity.
Qed.
Lemma psum_mono l p q : (forall c, In c l -> 0 <= c) -> 0 <= p <= q -> psum l p <= psum l q.
Proof.
  intros H B. replace q with (p + Z.of_nat (Z.to_nat (q - p))) by lia. generalize (Z.to_nat (q - p)) as n. clear B. revert p.
  assert (forall p, psum l p <= psum l (p + 1)) as G.
  { intros p. destruct (Z_lt_dec p 0). { unfold psum. replace (Z.to_nat (p + 1)) with 0%nat by lia. replace (Z.to_nat p) with 0%nat by lia. lia. }
    destruct (Z_lt_dec p (zlen l)).
    - destruct (rd_ok l p) as [c Hc]; [lia|]. rewrite (psum_step _ _ _ Hc). pose proof (H c (rd_In _ _ _ Hc)). lia.
    - unfold psum. unfold zlen in *. rewrite !firstn_all2 by lia. lia. }
  intros p n. revert p. induction n as [|n IH]; intros p. { rewrite Z.add_0_r. lia. }
  specialize (IH (p + 1)). specialize (G p). replace (p + Z.of_nat (S n)) with (p + 1 + Z.of_nat n) by lia. lia.
Qed.
Definition ownS (counts : list Z) (p : Z) (l : loc4) : bool :=
  match l with L1 i | L2 i => (psum counts p <=? i) && (i <? psum counts (p + 1)) | _ => false end.
Lemma ownS_disj counts np p q l : (forall c, In c counts -> 0 <= c) -> 0 <= p < np -> 0 <= q < np -> ownS counts p l = true -> ownS counts q l = true -> p = q.
Proof.
  intros H Hp Hq. destruct l; simpl; try discriminate; rewrite !andb_true_iff, !Z.leb_le, !Z.ltb_lt; intros;
    destruct (Z.lt_trichotomy p q) as [L|[L|L]]; auto; exfalso;
    [pose proof (psum_mono counts (p + 1) q H ltac:(lia))|pose proof (psum_mono counts (q + 1) p H ltac:(lia))|
     pose proof (psum_mono counts (p + 1) q H ltac:(lia))|pose proof (psum_mono counts (q + 1) p H ltac:(lia))]; lia.
Qed.

Lemma part_disj n np p q j : 0 <= n -> 1 <= np -> part_start n np p <= j < part_end n np p -> part_start n np q <= j < part_end n np q -> p = q.
Proof.
  intros Hn Hnp. unfold part_start, part_end. pose proof (part_per_bounds n np Hn Hnp) as [B _].
  destruct (Z.ltb_spec n (part_per n np * (p + 1))), (Z.ltb_spec n (part_per n np * (q + 1))); intros;
  destruct (Z.lt_trichotomy p q) as [L|[L|L]]; auto; nia.
Qed.

Section Compress.
  Context {A : Type}.
  Notation arr2 := (arrs (option A) (option Z) unit unit).

  Lemma emit_parts_any w (value : list (option A)) n np counts d x dx : 0 <= n -> 1 <= np ->
    mapR (fun p => bv_count w (part_start n np p) (part_end n np p)) (zrange 0 np) = Ok counts ->
    forZ 0 np (fun p dx =>
        do c <- rd (prefix_sums 0 counts) p ;;
        do r <- emit_words w value (part_start n np p) (part_end n np p) (fst dx, snd dx, c) ;;
        Ok (fst (fst r), snd (fst r))) (d, x) = Ok dx ->
    any_schedule (emit_parts_t w value (prefix_sums 0 counts) n np) (mkArrs d x [] []) (mkArrs (fst dx) (snd dx) [] []).
  Proof.
    intros Hn Hnp Ec E. apply mapR_at in Ec as [Lc Hc]. rewrite zlen_zrange in Lc by lia. rewrite Z.sub_0_r in Lc.
    pose proof (part_per_bounds n np Hn Hnp) as [Pp _].
    assert (forall p, 0 <= p < np -> exists c, rd counts p = Ok c /\ c = zlen (setbits w (32 * part_start n np p) (32 * part_end n np p))) as Cnt.
    { intros p Hp. destruct (Hc p p) as (c & Ep & Rc); [rewrite rd_zrange by lia; f_equal|]. exists c. split; auto.
      assert (0 <= part_start n np p) by (unfold part_start; nia).
      destruct (Z_le_dec (part_end n np p) (part_start n np p)) as [L|L].
      - rewrite bv_count_empty in Ep by auto. rewrite setbits_nil by lia. change (zlen []) with 0. congruence.
      - assert (part_end n np p <= zlen w) as Lw.
        { destruct (Z_le_dec (part_end n np p) (zlen w)); auto. exfalso. unfold bv_count in Ep.
          rewrite (forZ_split _ (Z.max (part_start n np p) (zlen w))) in Ep by lia. apply bind_Ok in Ep as (k & _ & Ep).
          rewrite forZ_step in Ep by lia. rewrite rd_oob in Ep by lia. discriminate. }
        rewrite bv_count_ok in Ep by lia. congruence. }
    assert (forall c, In c counts -> 0 <= c) as Pos.
    { intros c Hin. apply In_rd in Hin as (p & Hp & Rp). destruct (Cnt p ltac:(lia)) as (c' & Rc & ->). assert (c = zlen (setbits w (32 * part_start n np p) (32 * part_end n np p))) as -> by congruence. apply zlen_nonneg. }
    match type of E with forZ _ _ ?b _ = _ => set (body := b) in * end.
    unfold emit_parts_t. match goal with |- context [parfor np ?t] => set (tb := t) end.
    destruct (par_forZ (ownS counts) np tb body (fun p st s => s = mkArrs (fst st) (snd st) [] []) (mkArrs d x [] [] : arr2) (d, x) dx E ltac:(lia)) as (s' & -> & H); auto.
    - intros p q l Hp Hq. apply (ownS_disj counts np); auto.
    - clear E. intros p st st1 s Hp -> _ Eb. unfold body in Eb. destruct st as [d0 x0]. cbn [fst snd] in *.
      apply bind_Ok in Eb as (c & Esc & Eb). apply bind_Ok in Eb as (r & Er & Eb). oki Eb. cbn [fst snd].
      pose proof Esc as Esc'. rewrite prefix_sums_rd in Esc' by lia. assert (Hps : psum counts p = c) by (unfold psum; injection Esc'; lia).
      destruct (Cnt p Hp) as (k & Rk & Ek).
      exists (mkArrs (fst (fst r)) (snd (fst r)) [] []). split; auto. unfold tb. eapply fol_bind; [apply fol_lift; eauto|].
      assert (0 <= part_start n np p) as Ps by (unfold part_start; nia).
      unfold emit_words in Er. set (S0 := part_start n np p) in *. set (F0 := part_end n np p) in *.
      pose proof (fol_forZ (ownS counts p) (fun ii c =>
        par wd <- plift (rd w ii) ;;
        if popcnt32 wd =? 0 then pret c else
        ploop (ii * 32) ((ii + 1) * 32) (fun i c =>
          par g <- plift (bv_get w i) ;;
          if g : bool then
            par val <- plift (rd value i) ;;
            par _ <- put1 c val ;; par _ <- put2 c (Some i) ;; pret (c + 1)
          else pret c) c) _ (fun st => snd st) (fun st => mkArrs (fst (fst st)) (snd (fst st)) [] [] : arr2)
        (fun ii st => snd st = psum counts p + zlen (setbits w (32 * S0) (32 * ii))) _ _ _ _ Er) as F.
      cbn [fst snd] in F. destruct F as [F _].
      { rewrite setbits_nil by lia. change (zlen []) with 0. lia. }
      { clear Er. intros ii st st1 Hii Hs Eb. destruct st as [[d1 x1] c1]. cbn [fst snd] in *. apply bind_Ok in Eb as (wd & Ew & Eb).
        destruct (popcnt32 wd =? 0) eqn:Ez.
        - oki Eb. cbn [fst snd]. split; [|rewrite (setbits_word0 w ii wd) by (auto; lia); auto]. eapply fol_bind; [apply fol_lift; eauto|]. rewrite Ez. apply fol_ret.
        - pose proof (fol_forZ (ownS counts p) (fun i c =>
          par g <- plift (bv_get w i) ;;
          if g : bool then
            par val <- plift (rd value i) ;;
            par _ <- put1 c val ;; par _ <- put2 c (Some i) ;; pret (c + 1)
          else pret c) _ (fun st => snd st) (fun st => mkArrs (fst (fst st)) (snd (fst st)) [] [] : arr2)
            (fun i st => snd st = psum counts p + zlen (setbits w (32 * S0) i)) _ _ _ _ Eb) as F.
          cbn [fst snd] in F. destruct F as [F Fi].
          { replace (ii * 32) with (32 * ii) by lia. auto. }
          { clear Eb d1 x1 Hs. clear c1. intros i st st1' Hi Hs Eb. destruct st as [[d1 x1] c1]. cbn [fst snd] in *. apply bind_Ok in Eb as (g & Eg & Eb).
            pose proof (bv_get_tb _ _ _ Eg) as Tg. rewrite setbits_snoc by lia. rewrite <- Tg. rewrite zlen_app. destruct g.
            - apply bind_Ok in Eb as (val & Ev & Eb). apply bind_Ok in Eb as (d2 & W1 & Eb). apply bind_Ok in Eb as (x2 & W2 & Eb). oki Eb. cbn [fst snd].
              change (zlen [i]) with 1. split; [|lia].
              assert (ownS counts p (L1 c1) = true) as O1.
              { simpl. apply andb_true_iff. rewrite Z.leb_le, Z.ltb_lt. rewrite (psum_step _ _ _ Rk).
                pose proof (zlen_nonneg (setbits w (32 * S0) i)). pose proof (zlen_setbits_mono w (32 * S0) (i + 1) (32 * F0) ltac:(lia)) as M.
                rewrite setbits_snoc in M by lia. rewrite <- Tg, zlen_app in M. change (zlen [i]) with 1 in M. lia. }
              eapply fol_bind; [apply fol_lift; eauto|]. cbn iota. eapply fol_bind; [apply fol_lift; eauto|].
              eapply fol_bind; [apply (fol_put1 _ c1); [exact W1|exact O1]|]. cbn [ar1 ar2 ar3 ar4].
              eapply fol_bind; [apply (fol_put2 _ c1); [exact W2|exact O1]|]. apply fol_ret.
            - oki Eb. cbn [fst snd]. change (zlen []) with 0. split; [|lia]. eapply fol_bind; [apply fol_lift; eauto|]. apply fol_ret. }
          split.
          + eapply fol_bind; [apply fol_lift; eauto|]. rewrite Ez. exact F.
          + rewrite Fi by lia. do 2 f_equal. f_equal. lia. }
      eapply fol_bind; [exact F|]. apply fol_ret.
  Qed.

  Lemma copy_fol P (bytes : list A) : forall pre l, zlen pre + zlen bytes <= zlen l -> starts l (map Some pre) ->
    (forall k, zlen pre <= k < zlen pre + zlen bytes -> P (L1 k) = true) ->
    exists l', fol P (peach (fun k x => par _ <- put1 k (Some x) ;; pret (k + 1)) bytes (zlen pre)) (mkArrs l [] [] [] : arrs (option A) unit unit unit) (zlen (pre ++ bytes)) (mkArrs l' [] [] []) /\
      starts l' (map Some (pre ++ bytes)) /\ zlen l' = zlen l.
  Proof.
    induction bytes as [|b bs IH]; intros pre l L St Own.
    - exists l. rewrite app_nil_r. split; [apply fol_ret|auto].
    - rewrite zlen_cons in *. pose proof (zlen_nonneg bs). pose proof (zlen_nonneg pre).
      destruct (IH (pre ++ [b]) (upd l (Z.to_nat (zlen pre)) (Some b))) as (l' & F & S' & L').
      + rewrite zlen_app, zlen_upd. change (zlen [b]) with 1. lia.
      + rewrite map_app. rewrite <- (zlen_map Some pre). apply starts_snoc; auto. rewrite zlen_map. lia.
      + intros k Hk. rewrite zlen_app in Hk. change (zlen [b]) with 1 in Hk. apply Own. lia.
      + exists l'. rewrite <- app_assoc in F, S'. cbn [app] in F, S'. rewrite zlen_upd in L'. split; auto. cbn [peach].
        eapply fol_bind; [eapply fol_bind; [apply (fol_put1 _ (zlen pre) (mkArrs l [] [] [])); [apply wr_ok; simpl; lia|apply Own; lia]|apply fol_ret]|].
        rewrite zlen_app in F. change (zlen [b]) with 1 in F. exact F.
  Qed.
  Lemma copy_parts_any (parts : list (list A)) l0 np : zlen parts = np -> zlen l0 = zlen (concat parts) ->
    any_schedule (copy_parts_t parts (prefix_sums 0 (map zlen parts)) np) (mkArrs l0 [] [] []) (mkArrs (map Some (concat parts)) [] [] []).
  Proof.
    intros Ln L0. unfold copy_parts_t. match goal with |- context [parfor np ?t] => set (tb := t) end.
    assert (forall p, 0 <= p <= np -> psum (map zlen parts) p = zlen (concat (firstn (Z.to_nat p) parts))) as Ps.
    { intros p Hp. unfold psum. rewrite firstn_map, sum_zlen_concat. reflexivity. }
    destruct (par_any (ownS (map zlen parts)) np tb (fun p s => exists l, s = mkArrs l [] [] [] /\ zlen l = zlen (concat parts) /\ starts l (map Some (concat (firstn (Z.to_nat p) parts))))
      (mkArrs l0 [] [] [] : arrs (option A) unit unit unit)) as (s' & (l & -> & Ll & Hl) & G).
    - pose proof (zlen_nonneg parts). lia.
    - intros p q l Hp Hq. apply (ownS_disj _ np); auto. intros c Hc. apply in_map_iff in Hc as (x & <- & _). apply zlen_nonneg.
    - exists l0. split; auto. split; auto. apply starts_nil.
    - intros p s Hp (l & -> & Ll & Hl). destruct (rd_ok parts p) as [x Hx]; [lia|].
      assert (firstn (Z.to_nat (p + 1)) parts = firstn (Z.to_nat p) parts ++ [x]) as Fs by (apply firstn_snoc; auto).
      assert (zlen (concat (firstn (Z.to_nat p) parts)) + zlen x <= zlen (concat parts)) as Le.
      { rewrite <- (firstn_skipn (Z.to_nat (p + 1)) parts) at 2. rewrite Fs, !concat_app, !zlen_app. cbn [concat]. rewrite app_nil_r. pose proof (zlen_nonneg (concat (skipn (Z.to_nat (p + 1)) parts))). lia. }
      destruct (copy_fol (ownS (map zlen parts) p) x (concat (firstn (Z.to_nat p) parts)) l) as (l' & F & S' & L'); [lia|auto| |].
      { intros k Hk. simpl. apply andb_true_iff. rewrite Z.leb_le, Z.ltb_lt. rewrite !Ps by lia. rewrite Fs, concat_app, zlen_app. cbn [concat]. rewrite app_nil_r. lia. }
      exists (mkArrs l' [] [] []). split.
      + unfold tb. eapply fol_bind; [apply fol_lift; apply prefix_sums_rd; rewrite zlen_map; lia|]. eapply fol_bind; [apply fol_lift; eauto|].
        eapply fol_bind; [|apply fol_ret]. fold (psum (map zlen parts) p). rewrite Ps, Z.add_0_l by lia. exact F.
      + exists l'. split; auto. split; [lia|]. rewrite Fs, concat_app. cbn [concat]. rewrite app_nil_r. auto.
    - assert (l = map Some (concat parts)) as <-; auto. rewrite firstn_all_z in Hl by auto. apply starts_full; auto. rewrite zlen_map. auto.
  Qed.
End Compress.

Section Archive.
  Context {A byte : Type}.
  Variables (enc : list (Z * A) -> list byte).
  Notation arr3 := (arrs (option (list byte)) (option Z) (option Z) unit).

  Lemma archive_parts_any w (value : list (option A)) n np parts l1 l2 l3 : 0 <= np ->
    mapR (fun p => collect_words w value (part_start n np p) (part_end n np p)) (zrange 0 np) = Ok parts ->
    zlen l1 = np -> zlen l2 = np -> zlen l3 = np ->
    any_schedule (archive_parts_t enc w value n np) (mkArrs l1 l2 l3 [])
      (mkArrs (map Some (map enc parts)) (map Some (map zlen parts)) (map Some (map zlen (map enc parts))) []).
  Proof.
    intros Hnp Ec Len1 Len2 Len3. apply mapR_at in Ec as [Lc Hc]. rewrite zlen_zrange in Lc by lia. rewrite Z.sub_0_r in Lc.
    unfold archive_parts_t. match goal with |- context [parfor np ?t] => set (tb := t) end.
    destruct (par_any own1 np tb (fun p s => exists a1 a2 a3, s = mkArrs a1 a2 a3 [] /\ zlen a1 = np /\ zlen a2 = np /\ zlen a3 = np /\
       forall j, 0 <= j < p -> rd a1 j = rd (map Some (map enc parts)) j /\ rd a2 j = rd (map Some (map zlen parts)) j /\ rd a3 j = rd (map Some (map zlen (map enc parts))) j)
      (mkArrs l1 l2 l3 [] : arr3) Hnp) as (s' & (a1 & a2 & a3 & -> & La1 & La2 & La3 & H) & G).
    - intros p q l _ _. apply own1_disj.
    - exists l1, l2, l3. split; auto. split; auto. split; auto. split; auto. intros; lia.
    - intros p s Hp (a1 & a2 & a3 & -> & La1 & La2 & La3 & H). destruct (Hc p p) as (x & Ex & Rx); [rewrite rd_zrange by lia; f_equal|].
      unfold collect_words in Ex.
      pose proof (fol_forZ (own1 p) (fun ii acc =>
        par wd <- plift (rd w ii) ;;
        if popcnt32 wd =? 0 then pret acc else
        ploop (ii * 32) ((ii + 1) * 32) (fun i acc =>
          par g <- plift (bv_get w i) ;;
          if g : bool then
            par val <- plift (rdi value i) ;;
            par c0 <- get2 p ;; par c <- plift (need c0) ;; par _ <- put2 p (Some (c + 1)) ;;
            pret (acc ++ [(i, val)])
          else pret acc) acc) _ (fun st => st) (fun st => mkArrs a1 (upd a2 (Z.to_nat p) (Some (zlen st))) a3 [] : arr3) (fun _ _ => True) _ _ _ _ Ex I) as F.
      cbn beta in F. destruct F as [F _].
      { intros ii st st1 Hii _ Eb. split; auto. apply bind_Ok in Eb as (wd & Ew & Eb). eapply fol_bind; [apply fol_lift; eauto|].
        destruct (popcnt32 wd =? 0); [oki Eb; apply fol_ret|].
        apply (fol_forZ (own1 p) _ _ (fun st => st) (fun st => mkArrs a1 (upd a2 (Z.to_nat p) (Some (zlen st))) a3 [] : arr3) (fun _ _ => True) _ _ _ _ Eb I).
        clear Eb st st1. intros i st st1 Hi _ Eb. split; auto. apply bind_Ok in Eb as (g & Eg & Eb). eapply fol_bind; [apply fol_lift; eauto|]. destruct g; cbn iota.
        - apply bind_Ok in Eb as (val & Ev & Eb). oki Eb. eapply fol_bind; [apply fol_lift; eauto|].
          eapply fol_bind; [apply (fol_get2 _ p); [apply rd_upd_same; lia|apply Z.eqb_refl]|]. eapply fol_bind; [apply fol_lift; reflexivity|].
          eapply fol_bind; [apply (fol_put2 _ p); [apply wr_ok; simpl; rewrite zlen_upd; lia|apply Z.eqb_refl]|]. cbn [ar1 ar2 ar3 ar4].
          rewrite upd_upd, zlen_app. change (zlen [(i, val)]) with 1. apply fol_ret.
        - oki Eb. apply fol_ret. }
      exists (mkArrs (upd a1 (Z.to_nat p) (Some (enc x))) (upd a2 (Z.to_nat p) (Some (zlen x))) (upd a3 (Z.to_nat p) (Some (zlen (enc x)))) []). split.
      + unfold tb. eapply fol_bind; [apply (fol_put2 _ p (mkArrs a1 a2 a3 [])); [apply wr_ok; simpl; lia|apply Z.eqb_refl]|]. cbn [ar1 ar2 ar3 ar4].
        eapply fol_bind; [exact F|]. eapply fol_bind; [apply (fol_put1 _ p); [apply wr_ok; simpl; lia|apply Z.eqb_refl]|]. cbn [ar1 ar2 ar3 ar4].
        apply (fol_put3 (own1 p) p (mkArrs _ _ a3 [])); [apply wr_ok; simpl; lia|apply Z.eqb_refl].
      + do 3 eexists. split; [reflexivity|]. rewrite !zlen_upd. split; auto. split; auto. split; auto. intros j Hj. destruct (Z.eq_dec j p) as [->|N].
        * rewrite !rd_upd_same by lia. repeat split; symmetry; repeat (apply rd_map); auto.
        * rewrite !rd_upd_other by lia. apply H. lia.
    - replace (map Some (map enc parts)) with a1; [replace (map Some (map zlen parts)) with a2; [replace (map Some (map zlen (map enc parts))) with a3; auto|]|];
        (apply rd_ext; [rewrite !zlen_map; lia|]; intros j Hj; apply H; lia).
  Qed.

  Lemma forZ_keeps {S} (I : S -> Prop) lo hi body (s s' : S) : forZ lo hi body s = Ok s' -> I s ->
    (forall i s s', lo <= i < hi -> I s -> body i s = Ok s' -> I s') -> I s'.
  Proof.
    unfold forZ. intros E H0 H. assert (forall m i s, lo <= i -> (m <> 0%nat -> i + Z.of_nat m <= hi) -> I s -> forN m i body s = Ok s' -> I s') as G.
    { clear E H0 s. induction m as [|m IH]; intros i s Lo Bd H0 E; cbn [forN] in E.
      - assert (s = s') as <- by congruence. exact H0.
      - apply bind_Ok in E as (s1 & E1 & E2). assert (i + Z.of_nat (Datatypes.S m) <= hi) by (apply Bd; discriminate). apply (IH (i + 1) s1); auto; try lia. apply (H i s); auto. lia. }
    eapply G; [| |exact H0|exact E]; lia.
  Qed.
  Lemma collect_range w (value : list (option A)) s f l : collect_words w value s f = Ok l -> forall e, In e l -> s <= fst e / 32 < f.
  Proof.
    unfold collect_words. intros E. apply (forZ_keeps (fun l => forall e, In e l -> s <= fst e / 32 < f) _ _ _ _ _ E); [intros e []|]. clear E l.
    intros ii acc acc1 Hii Ha E. apply bind_Ok in E as (wd & Ew & E). destruct (popcnt32 wd =? 0); [assert (acc = acc1) as <- by congruence; auto|].
    apply (forZ_keeps (fun l => forall e, In e l -> s <= fst e / 32 < f) _ _ _ _ _ E); auto. clear acc acc1 Ha E.
    intros i acc acc1 Hi Ha E. apply bind_Ok in E as (g & Eg & E). destruct g; [|assert (acc = acc1) as <- by congruence; auto].
    apply bind_Ok in E as (val & Ev & E). assert (acc ++ [(i, val)] = acc1) as <- by congruence.
    intros e He. apply in_app_iff in He as [He|[<-|[]]]; auto. cbn [fst]. rewrite (div32 i ii) by lia. lia.
  Qed.

  Variable dec : list byte -> Z -> R (list (Z * A)).
  Hypothesis dec_enc : forall l, dec (enc l) (zlen l) = Ok l.

  (** decoding a message packed from the words [w] and values [value] *)
  Lemma decode_parts_any w (value : list (option A)) n np parts sdata nbs nzs w0 v0 wv : 0 <= n -> 1 <= np ->
    mapR (fun p => collect_words w value (part_start n np p) (part_end n np p)) (zrange 0 np) = Ok parts ->
    sdata = concat (map enc parts) ->
    (forall p, 0 <= p <= np -> rdi nbs p = rdi (map Some (prefix_sums 0 (map zlen (map enc parts)))) p) ->
    (forall p, 0 <= p <= np -> rdi nzs p = rdi (map Some (prefix_sums 0 (map zlen parts))) p) ->
    forZ 0 np (fun p wv =>
        do b0 <- rdi nbs p ;; do b1 <- rdi nbs (p + 1) ;; do bytes <- slice sdata b0 (b1 - b0) ;;
        do z0 <- rdi nzs p ;; do z1 <- rdi nzs (p + 1) ;; do pairs <- dec bytes (z1 - z0) ;;
        foldR (fun wv (e : Z * A) => do v <- wr (snd wv) (fst e) (Some (snd e)) ;; do w <- bv_set (fst wv) (fst e) ;; Ok (w, v)) pairs wv) (w0, v0) = Ok wv ->
    any_schedule (decode_parts_t dec sdata nbs nzs np) (mkArrs w0 v0 [] []) (mkArrs (fst wv) (snd wv) [] []).
  Proof.
    intros Hn Hnp Ec -> Hnb Hnz E. apply mapR_at in Ec as [Lc Hc]. rewrite zlen_zrange in Lc by lia. rewrite Z.sub_0_r in Lc.
    match type of E with forZ _ _ ?b _ = _ => set (body := b) in * end.
    unfold decode_parts_t. match goal with |- context [parfor np ?t] => set (tb := t) end.
    set (own := fun p l => match l with L1 j => (part_start n np p <=? j) && (j <? part_end n np p) | L2 i => (part_start n np p <=? i / 32) && (i / 32 <? part_end n np p) | _ => false end).
    destruct (par_forZ own np tb body (fun p st s => s = mkArrs (fst st) (snd st) [] []) (mkArrs w0 v0 [] [] : arrs Z (option A) unit unit) (w0, v0) wv E ltac:(lia)) as (s' & -> & H); auto.
    - intros p q l Hp Hq. unfold own. destruct l; try discriminate; rewrite !andb_true_iff, !Z.leb_le, !Z.ltb_lt; intros; eapply part_disj; eauto.
    - intros p st st1 s Hp -> _ Eb. unfold body in Eb. exists (mkArrs (fst st1) (snd st1) [] []). split; auto.
      apply bind_Ok in Eb as (b0 & Eb0 & Eb). apply bind_Ok in Eb as (b1 & Eb1 & Eb). apply bind_Ok in Eb as (bytes & Ebs & Eb).
      apply bind_Ok in Eb as (z0 & Ez0 & Eb). apply bind_Ok in Eb as (z1 & Ez1 & Eb). apply bind_Ok in Eb as (pairs & Ep & Eb).
      destruct (Hc p p) as (x & Ex & Rx); [rewrite rd_zrange by lia; f_equal|].
      (* the pairs decoded are those of part p *)
      assert (pairs = x) as ->.
      { pose proof (rd_map enc parts p x Rx) as Hbx.
        assert (forall q, 0 <= q <= np -> 0 <= q <= zlen (map enc parts)) as LE by (intros; rewrite zlen_map; lia).
        rewrite Hnb in Eb0, Eb1 by lia. rewrite Hnz in Ez0, Ez1 by lia.
        rewrite (rd_scan (map enc parts) _ p eq_refl) in Eb0 by (apply LE; lia). rewrite (rd_scan (map enc parts) _ (p + 1) eq_refl) in Eb1 by (apply LE; lia).
        rewrite (firstn_snoc _ _ _ Hbx) in Eb1. rewrite concat_app, zlen_app in Eb1. simpl (concat [enc x]) in Eb1. rewrite app_nil_r in Eb1.
        rewrite (rd_scan parts _ p eq_refl) in Ez0 by lia. rewrite (rd_scan parts _ (p + 1) eq_refl) in Ez1 by lia.
        rewrite (firstn_snoc _ _ _ Rx) in Ez1. rewrite concat_app, zlen_app in Ez1. simpl (concat [x]) in Ez1. rewrite app_nil_r in Ez1.
        assert (b1 - b0 = zlen (enc x)) as Q1 by (injection Eb0; injection Eb1; lia). assert (z1 - z0 = zlen x) as Q2 by (injection Ez0; injection Ez1; lia).
        rewrite Q1 in Ebs. assert (b0 = zlen (concat (firstn (Z.to_nat p) (map enc parts)))) as -> by congruence.
        rewrite (slice_concat _ _ _ Hbx) in Ebs. assert (bytes = enc x) as -> by congruence. rewrite Q2, dec_enc in Ep. congruence. }
      unfold tb. eapply fol_bind; [apply fol_lift; eauto|]. eapply fol_bind; [apply fol_lift; eauto|]. eapply fol_bind; [apply fol_lift; eauto|].
      eapply fol_bind; [apply fol_lift; eauto|]. eapply fol_bind; [apply fol_lift; eauto|]. eapply fol_bind; [apply fol_lift; eauto|].
      pose proof (collect_range _ _ _ _ _ Ex) as Rg.
      apply (fol_each (own p) (fun (_ : unit) (e : Z * A) =>
        par _ <- put2 (fst e) (Some (snd e)) ;;
        par wd <- get1 (Z.shiftr (fst e) 5) ;;
        let b := Z.land (fst e) 31 in
        if Z.land wd (Z.shiftl 1 b) =? 0 then put1 (Z.shiftr (fst e) 5) (Z.lor wd (Z.shiftl 1 b)) else pret tt) _ (fun _ => tt)
        (fun st => mkArrs (fst st) (snd st) [] [] : arrs Z (option A) unit unit) (fun _ => True) x st st1 Eb I).
      clear Eb st st1. intros e st st1 He _ Eb. split; auto. destruct st as [w1 v1]. cbn [fst snd] in *.
      apply bind_Ok in Eb as (v2 & Ev & Eb). apply bind_Ok in Eb as (w2 & Ew & Eb). oki Eb. cbn [fst snd].
      unfold bv_set in Ew. apply bind_Ok in Ew as (wd & Er & Ew). cbv zeta in Ew |- *.
      assert (own p (L2 (fst e)) = true) as O2 by (simpl; apply andb_true_iff; rewrite Z.leb_le, Z.ltb_lt; auto).
      assert (own p (L1 (Z.shiftr (fst e) 5)) = true) as O1 by (simpl; rewrite shiftr5; apply andb_true_iff; rewrite Z.leb_le, Z.ltb_lt; auto).
      eapply fol_bind; [apply (fol_put2 _ (fst e)); [exact Ev|exact O2]|]. cbn [ar1 ar2 ar3 ar4].
      eapply fol_bind; [apply (fol_get1 _ (Z.shiftr (fst e) 5)); [exact Er|exact O1]|].
      destruct (Z.land wd (Z.shiftl 1 (Z.land (fst e) 31)) =? 0).
      + apply (fol_put1 (own p) (Z.shiftr (fst e) 5) (mkArrs w1 v2 [] [])); auto.
      + oki Ew. apply fol_ret.
  Qed.
End Archive.
