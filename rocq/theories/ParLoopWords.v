(** Proofs about ParLoop.v, part 2: loops over words and values. *)
From Verif Require Import BaseLemmas Bits Segment Conc Runtime GraphOps ParLoop ParLoopProofs.

Lemma need_Ok {A} (o : option A) a : need o = Ok a -> o = Some a.
Proof. destruct o; simpl; congruence. Qed.
Lemma rdi_split {A} (l : list (option A)) i a : rdi l i = Ok a -> rd l i = Ok (Some a).
Proof. unfold rdi. intros H. apply bind_Ok in H as (o & E & H). apply need_Ok in H. congruence. Qed.
Lemma firstn_wr {A} (l l' : list A) p c : wr l p c = Ok l' -> firstn (Z.to_nat (p + 1)) l' = firstn (Z.to_nat p) l ++ [c].
Proof.
  intros H. apply wr_Ok in H as [B ->]. unfold zlen in B. replace (Z.to_nat (p + 1)) with (S (Z.to_nat p)) by lia.
  assert (Z.to_nat p < length l)%nat as L by lia. clear B. generalize dependent (Z.to_nat p). clear p.
  induction l as [|a l IH]; intros n L; simpl in *; [lia|]. destruct n; simpl; auto. f_equal. apply IH. lia.
Qed.
Lemma firstn_all_z {A} (l : list A) n : zlen l = n -> firstn (Z.to_nat n) l = l.
Proof. intros <-. unfold zlen. rewrite Nat2Z.id. apply firstn_all. Qed.

Ltac fget := first [apply fol_get1|apply fol_get2|apply fol_get3|apply fol_get4]; [cbn; eassumption|].

Section Words.
  Context {A B C D : Type}.

  Definition own1 (p : Z) (l : loc4) : bool := match l with L1 i => i =? p | L2 i => i =? p | L3 i => i =? p | L4 i => i =? p end.
  Lemma own1_disj p q l : own1 p l = true -> own1 q l = true -> p = q.
  Proof. destruct l; simpl; rewrite !Z.eqb_eq; congruence. Qed.

  Lemma and_words_any w1 w2 w3 n w : 0 <= n -> and_words w1 w2 w3 n = Ok w ->
    any_schedule (and_words_t w1 w2 n) (mkArrs w3 [] [] []) (mkArrs w [] [] []).
  Proof.
    intros Hn E. unfold and_words in E.
    destruct (par_forZ own1 n (fun i => par a <- plift (rd w1 i) ;; par b <- plift (rd w2 i) ;; put1 i (Z.land a b)) _
      (fun _ st s => s = mkArrs st [] [] []) (mkArrs w3 [] [] [] : arrs Z unit unit unit) w3 w E Hn) as (s' & -> & H); auto.
    - intros p q l _ _. apply own1_disj.
    - intros p st st1 s Hp -> _ Eb. apply bind_Ok in Eb as (a & Ea & Eb). apply bind_Ok in Eb as (b & Eb1 & Eb).
      exists (mkArrs st1 [] [] []). split; auto. eapply fol_bind; [apply fol_lift; eauto|]. eapply fol_bind; [apply fol_lift; eauto|].
      apply (fol_put1 (own1 p) p (mkArrs st [] [] [])); auto. apply Z.eqb_refl.
  Qed.

  Lemma or_words_any w n w' : 0 <= n -> or_words w w n = Ok w' ->
    any_schedule (or_words_t n) (mkArrs w [] [] []) (mkArrs w' [] [] []).
  Proof.
    intros Hn E. unfold or_words in E.
    destruct (par_forZ own1 n (fun i => par b <- get1 i ;; par a <- get1 i ;; put1 i (Z.lor b a)) _
      (fun p st s => s = mkArrs st [] [] [] /\ forall i, p <= i -> rd st i = rd w i) (mkArrs w [] [] [] : arrs Z unit unit unit) w w' E Hn) as (s' & [-> _] & H); auto.
    - intros p q l _ _. apply own1_disj.
    - intros p st st1 s Hp [-> Hr] _ Eb. apply bind_Ok in Eb as (a & Ea & Eb). apply bind_Ok in Eb as (b & Eb1 & Eb).
      exists (mkArrs st1 [] [] []). split; [|split; auto].
      + eapply fol_bind; [apply (fol_get1 _ p); [exact Ea|apply Z.eqb_refl]|]. rewrite <- Hr in Eb1 by lia.
        eapply fol_bind; [apply (fol_get1 _ p); [exact Eb1|apply Z.eqb_refl]|].
        apply (fol_put1 (own1 p) p (mkArrs st [] [] [])); auto. apply Z.eqb_refl.
      + intros i Hi. rewrite <- Hr by lia. eapply wr_other_rd; eauto. lia.
  Qed.

  Lemma fill_any (v v' : list A) n a : 0 <= n -> forZ 0 n (fun i v => wr v i a) v = Ok v' ->
    any_schedule (fill_t n a) (mkArrs v [] [] []) (mkArrs v' [] [] []).
  Proof.
    intros Hn E.
    destruct (par_forZ own1 n (fun i => put1 i a) _
      (fun _ st s => s = mkArrs st [] [] []) (mkArrs v [] [] [] : arrs A unit unit unit) v v' E Hn) as (s' & -> & H); auto.
    - intros p q l _ _. apply own1_disj.
    - intros p st st1 s Hp -> _ Eb. exists (mkArrs st1 [] [] []). split; auto.
      apply (fol_put1 (own1 p) p (mkArrs st [] [] [])); auto. apply Z.eqb_refl.
  Qed.

  (** iteration [p] owns the elements [32p .. 32p+31] of array 1 and element [p] of array 2 *)
  Definition own32 (p : Z) (l : loc4) : bool := match l with L1 i => i / 32 =? p | L2 i => i =? p | _ => false end.
  Lemma own32_disj p q l : own32 p l = true -> own32 q l = true -> p = q.
  Proof. destruct l; simpl; rewrite ?Z.eqb_eq; congruence. Qed.
  Lemma div32 i p : p * 32 <= i < (p + 1) * 32 -> i / 32 = p.
  Proof. intros H. symmetry. apply (Z.div_unique i 32 p (i - 32 * p)); lia. Qed.

  Lemma intersect_values_any (op : Z -> A -> B -> C -> C * list event) v1 v2 w3 n v3 v cnt ev cs0 :
    0 <= n -> intersect_values op v1 v2 w3 n v3 = Ok (v, cnt, ev) -> zlen cs0 = n ->
    exists cs, any_schedule (intersect_values_t op v1 v2 w3 n) (mkArrs v3 cs0 [] []) (mkArrs v cs [] []) /\
      cnt = fold_left Z.add (map fst cs) 0 /\ ev = concat (map snd cs).
  Proof.
    intros Hn E L0. unfold intersect_values in E.
    match type of E with forZ _ _ ?b _ = _ => set (body := b) in * end.
    unfold intersect_values_t. match goal with |- context [parfor n ?t] => set (tb := t) end.
    destruct (par_forZ own32 n tb body
      (fun p st s => exists cs, s = mkArrs (fst (fst st)) cs [] [] /\ zlen cs = n /\
         snd (fst st) = fold_left Z.add (map fst (firstn (Z.to_nat p) cs)) 0 /\ snd st = concat (map snd (firstn (Z.to_nat p) cs)))
      (mkArrs v3 cs0 [] [] : arrs (option C) (Z * list event) unit unit) (v3, 0, []) (v, cnt, ev) E Hn) as (s' & (cs & -> & Lc & Hc & He) & H); auto.
    - intros p q l _ _. apply own32_disj.
    - exists cs0. auto.
    - intros p st st1 s Hp (cs & -> & Lc & Hc & He) _ Eb. unfold body in Eb. destruct st as [[va cn] es]. cbn [fst snd] in *.
      apply bind_Ok in Eb as (wd & Ew & Eb).
      assert (forall c0, exists cs1, wr cs p c0 = Ok cs1) as W by (intros; eexists; apply wr_ok; lia).
      destruct (popcnt32 wd =? 0) eqn:Ez.
      + injection Eb as <-. destruct (W (0, [])) as [cs1 W1]. exists (mkArrs va cs1 [] []). split.
        * unfold tb. eapply fol_bind; [apply fol_lift; eauto|]. rewrite Ez.
          apply (fol_put2 (own32 p) p (mkArrs va cs [] [])); auto. apply Z.eqb_refl.
        * exists cs1. split; auto. split; [rewrite (wr_zlen _ _ _ _ W1); auto|]. cbn [fst snd]. rewrite (firstn_wr _ _ _ _ W1), !map_app, fold_left_app, concat_app. simpl.
          rewrite <- Hc, <- He, app_nil_r. split; auto. lia.
      + pose proof (fol_forZ (C := unit) (D := unit) (own32 p) (fun i ev =>
          par g <- plift (bv_get w3 i) ;;
          if g : bool then
            par a <- plift (rdi v1 i) ;; par b <- plift (rdi v2 i) ;;
            par c0 <- get1 i ;; par c <- plift (need c0) ;;
            par _ <- put1 i (Some (fst (op i a b c))) ;;
            pret (ev ++ snd (op i a b c))
          else pret ev) _ (fun st => skipn (length es) (snd st)) (fun st => mkArrs (fst (fst st)) cs [] [] : arrs (option C) (Z * list event) unit unit)
          (fun _ st => snd (fst st) = cn + popcnt32 wd /\ exists e, snd st = es ++ e) (p * 32) ((p + 1) * 32) _ _ Eb) as F.
        cbn [fst snd] in F. destruct F as [F Fi].
        { split; auto. exists []. rewrite app_nil_r. auto. }
        { clear - Hp. intros i st st1 Hi [Hc (e & He)] Eb. destruct st as [[va cn'] es']. cbn [fst snd] in *. subst es'. rewrite skipn_app, skipn_all, Nat.sub_diag in *. cbn [app skipn] in *.
          apply bind_Ok in Eb as (g & Eg & Eb). destruct g.
          - apply bind_Ok in Eb as (a & Ea & Eb). apply bind_Ok in Eb as (b & Eb1 & Eb). apply bind_Ok in Eb as (c & Ec & Eb). apply bind_Ok in Eb as (v' & Ev & Eb).
            injection Eb as <-. cbn [fst snd]. split.
            + eapply fol_bind; [apply fol_lift; eauto|]. cbn iota. eapply fol_bind; [apply fol_lift; eauto|]. eapply fol_bind; [apply fol_lift; eauto|].
              eapply fol_bind; [apply (fol_get1 _ i); [apply rdi_split, Ec|simpl; rewrite (div32 i p) by lia; apply Z.eqb_refl]|].
              eapply fol_bind; [apply fol_lift; reflexivity|].
              eapply fol_bind; [apply (fol_put1 _ i); [exact Ev|simpl; rewrite (div32 i p) by lia; apply Z.eqb_refl]|]. cbn [ar2 ar3 ar4].
              rewrite <- app_assoc, skipn_app, skipn_all, Nat.sub_diag. cbn [app skipn]. apply fol_ret.
            + split; auto. eexists. rewrite <- app_assoc. eauto.
          - injection Eb as <-. cbn [fst snd]. split; [|eauto]. eapply fol_bind; [apply fol_lift; eauto|]. cbn iota.
            rewrite skipn_app, skipn_all, Nat.sub_diag. cbn [app skipn]. apply fol_ret. }
        destruct Fi as [Hc1 (e & He1)]; [lia|]. destruct st1 as [[va1 cn1] es1]. cbn [fst snd] in *. subst es1. rewrite skipn_app, !skipn_all, Nat.sub_diag in F. cbn [app skipn] in F.
        destruct (W (popcnt32 wd, e)) as [cs1 W1]. exists (mkArrs va1 cs1 [] []). split.
        * unfold tb. eapply fol_bind; [apply fol_lift; eauto|]. rewrite Ez. eapply fol_bind; [exact F|].
          apply (fol_put2 (own32 p) p (mkArrs va1 cs [] [])); auto. apply Z.eqb_refl.
        * exists cs1. split; auto. split; [rewrite (wr_zlen _ _ _ _ W1); auto|]. rewrite (firstn_wr _ _ _ _ W1), !map_app, fold_left_app, concat_app. simpl.
          rewrite <- Hc, <- He, app_nil_r. auto.
    - exists cs. cbn [fst snd] in *. rewrite firstn_all_z in Hc, He by auto. auto.
  Qed.

  Lemma apply_values_any (f : A -> A -> A) w n v v' cnt cs0 :
    0 <= n -> apply_values f w n v = Ok (v', cnt) -> zlen cs0 = n ->
    exists cs, any_schedule (apply_values_t f w n) (mkArrs v cs0 [] []) (mkArrs v' cs [] []) /\ cnt = fold_left Z.add cs 0.
  Proof.
    intros Hn E L0. unfold apply_values in E.
    match type of E with forZ _ _ ?b _ = _ => set (body := b) in * end.
    unfold apply_values_t. match goal with |- context [parfor n ?t] => set (tb := t) end.
    destruct (par_forZ own32 n tb body
      (fun p st s => exists cs, s = mkArrs (fst st) cs [] [] /\ zlen cs = n /\ snd st = fold_left Z.add (firstn (Z.to_nat p) cs) 0)
      (mkArrs v cs0 [] [] : arrs (option A) Z unit unit) (v, 0) (v', cnt) E Hn) as (s' & (cs & -> & Lc & Hc) & H); auto.
    - intros p q l _ _. apply own32_disj.
    - exists cs0. auto.
    - intros p st st1 s Hp (cs & -> & Lc & Hc) _ Eb. unfold body in Eb. destruct st as [va cn]. cbn [fst snd] in *.
      apply bind_Ok in Eb as (wd & Ew & Eb).
      assert (forall c0, exists cs1, wr cs p c0 = Ok cs1) as W by (intros; eexists; apply wr_ok; lia).
      destruct (popcnt32 wd =? 0) eqn:Ez.
      + injection Eb as <-. destruct (W 0) as [cs1 W1]. exists (mkArrs va cs1 [] []). split.
        * unfold tb. eapply fol_bind; [apply fol_lift; eauto|]. rewrite Ez.
          apply (fol_put2 (own32 p) p (mkArrs va cs [] [])); auto. apply Z.eqb_refl.
        * exists cs1. split; auto. split; [rewrite (wr_zlen _ _ _ _ W1); auto|]. cbn [fst snd]. rewrite (firstn_wr _ _ _ _ W1), fold_left_app. simpl. lia.
      + pose proof (fol_forZ (C := unit) (D := unit) (own32 p) (fun i (_ : unit) =>
          par g <- plift (bv_get w i) ;;
          if g : bool then
            par t0 <- get1 i ;; par tmp <- plift (need t0) ;;
            par o0 <- get1 i ;; par out <- plift (need o0) ;;
            put1 i (Some (f tmp out))
          else pret tt) _ (fun st => tt) (fun st => mkArrs (fst st) cs [] [] : arrs (option A) Z unit unit)
          (fun _ st => snd st = cn + popcnt32 wd) (p * 32) ((p + 1) * 32) _ _ Eb) as F.
        cbn [fst snd] in F. destruct F as [F Fi]; auto.
        { clear - Hp. intros i st st1 Hi Hc Eb. destruct st as [va cn']. cbn [fst snd] in *.
          apply bind_Ok in Eb as (g & Eg & Eb). destruct g.
          - apply bind_Ok in Eb as (a & Ea & Eb). apply bind_Ok in Eb as (b & Eb1 & Eb). apply bind_Ok in Eb as (v' & Ev & Eb).
            injection Eb as <-. cbn [fst snd]. split; auto.
            eapply fol_bind; [apply fol_lift; eauto|]. cbn iota.
            eapply fol_bind; [apply (fol_get1 _ i); [apply rdi_split, Ea|simpl; rewrite (div32 i p) by lia; apply Z.eqb_refl]|].
            eapply fol_bind; [apply fol_lift; reflexivity|].
            eapply fol_bind; [apply (fol_get1 _ i); [apply rdi_split, Eb1|simpl; rewrite (div32 i p) by lia; apply Z.eqb_refl]|].
            eapply fol_bind; [apply fol_lift; reflexivity|].
            apply (fol_put1 _ i (mkArrs va cs [] [])); [exact Ev|simpl; rewrite (div32 i p) by lia; apply Z.eqb_refl].
          - injection Eb as <-. cbn [fst snd]. split; auto. eapply fol_bind; [apply fol_lift; eauto|]. apply fol_ret. }
        specialize (Fi ltac:(lia)). destruct st1 as [va1 cn1]. cbn [fst snd] in *.
        destruct (W (popcnt32 wd)) as [cs1 W1]. exists (mkArrs va1 cs1 [] []). split.
        * unfold tb. eapply fol_bind; [apply fol_lift; eauto|]. rewrite Ez. eapply fol_bind; [exact F|].
          apply (fol_put2 (own32 p) p (mkArrs va1 cs [] [])); auto. apply Z.eqb_refl.
        * exists cs1. split; auto. split; [rewrite (wr_zlen _ _ _ _ W1); auto|]. rewrite (firstn_wr _ _ _ _ W1), fold_left_app. simpl. lia.
    - exists cs. cbn [fst snd] in *. rewrite firstn_all_z in Hc by auto. auto.
  Qed.
End Words.
