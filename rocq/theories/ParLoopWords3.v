(** Proofs about ParLoop.v, part 4: element-wise loops and the loops of compress and decompress. *)
From Verif Require Import BaseLemmas Bits BitsProofs Segment SegmentProofs TransferProofs Conc DCSC ParLoop ParLoopProofs ParLoopWords.

Lemma mapR_at {A B} (f : A -> R B) l bs : mapR f l = Ok bs -> zlen bs = zlen l /\ forall i a, rd l i = Ok a -> exists b, f a = Ok b /\ rd bs i = Ok b.
Proof.
  intros H. apply mapR_Ok in H. split; [induction H; auto; rewrite !zlen_cons; lia|].
  induction H as [|a b l bs Hab H IH]; intros i x Hx; [apply rd_bounds in Hx; unfold zlen in Hx; simpl in Hx; lia|].
  pose proof (rd_bounds _ _ _ Hx) as Bx. destruct (Z.eq_dec i 0) as [->|N].
  - rewrite rd_cons0 in Hx. injection Hx as <-. exists b. auto.
  - rewrite rd_consS in Hx by lia. destruct (IH _ _ Hx) as (y & Fy & Ry). exists y. rewrite rd_consS by lia. auto.
Qed.

Section Elements.
  Context {A B E : Type}.

  Lemma replace_any (f : Z -> A -> R A) n l l' : 0 <= n ->
    forZ 0 n (fun i l => do a <- rd l i ;; do b <- f i a ;; wr l i b) l = Ok l' ->
    any_schedule (replace_t f n) (mkArrs l [] [] []) (mkArrs l' [] [] []).
  Proof.
    intros Hn Eq.
    destruct (par_forZ own1 n (fun i => par a <- get1 i ;; par b <- plift (f i a) ;; put1 i b) _
      (fun _ st s => s = mkArrs st [] [] []) (mkArrs l [] [] [] : arrs A unit unit unit) l l' Eq Hn) as (s' & -> & H); auto.
    - intros p q x _ _. apply own1_disj.
    - intros p st st1 s Hp -> _ Eb. apply bind_Ok in Eb as (a & Ea & Eb). apply bind_Ok in Eb as (b & Eb1 & Eb).
      exists (mkArrs st1 [] [] []). split; auto. eapply fol_bind; [apply (fol_get1 _ p); [exact Ea|apply Z.eqb_refl]|].
      eapply fol_bind; [apply fol_lift; eauto|]. apply (fol_put1 (own1 p) p (mkArrs st [] [] [])); auto. apply Z.eqb_refl.
  Qed.
  (** replacing element by element is [mapR] *)
  Lemma mapR_in_place (f : A -> R A) l l' : mapR f l = Ok l' ->
    forZ 0 (zlen l) (fun i l => do a <- rd l i ;; do b <- f a ;; wr l i b) l = Ok l'.
  Proof.
    intros H. apply mapR_at in H as [L H].
    match goal with |- forZ ?lo ?hi ?g ?s = _ => destruct (forZ_inv (fun i st => zlen st = zlen l /\ forall j, 0 <= j < zlen l -> rd st j = if j <? i then rd l' j else rd l j) lo hi g s) as (st & Es & Ls & Hs) end.
    - apply zlen_nonneg.
    - split; auto. intros j Hj. destruct (Z.ltb_spec j 0); [lia|auto].
    - intros i st Hi [Ls Hs]. destruct (rd_ok l i Hi) as [a Ea]. rewrite Hs, Z.ltb_irrefl, Ea by lia. cbn [bind].
      destruct (H i a Ea) as (b & Eb & Rb). rewrite Eb. cbn [bind]. destruct (wr st i b) as [st1|] eqn:W; [|rewrite wr_ok in W by lia; discriminate].
      exists st1. split; auto. split; [rewrite (wr_zlen _ _ _ _ W); auto|]. intros j Hj. rewrite (rd_of_wr _ _ _ _ j W).
      destruct (Z.eqb_spec i j) as [<-|N]; [destruct (Z.ltb_spec i (i + 1)); [auto|lia]|]. rewrite Hs by auto.
      destruct (Z.ltb_spec j i), (Z.ltb_spec j (i + 1)); auto; lia.
    - rewrite Es. f_equal. apply rd_ext; [lia|]. intros j Hj. rewrite Hs by lia. destruct (Z.ltb_spec j (zlen l)); [auto|lia].
  Qed.

  (** every iteration writes element [i] of array 1 *)
  Lemma tabulate_any (tb : Z -> @prog (option B) unit unit unit unit) n l0 bs : 0 <= n -> zlen l0 = n -> zlen bs = n ->
    (forall i b l l1, 0 <= i < n -> rd bs i = Ok b -> wr l i (Some b) = Ok l1 -> fol (own1 i) (tb i) (mkArrs l [] [] []) tt (mkArrs l1 [] [] [])) ->
    any_schedule (parfor n tb) (mkArrs l0 [] [] []) (mkArrs (map Some bs) [] [] []).
  Proof.
    intros Hn L0 Lb H.
    destruct (par_any own1 n tb (fun p s => exists l, s = mkArrs l [] [] [] /\ zlen l = n /\ forall j, 0 <= j < p -> rd l j = rd (map Some bs) j) (mkArrs l0 [] [] []) Hn)
      as (s' & (l & -> & Ll & Hl) & G).
    - intros p q x _ _. apply own1_disj.
    - exists l0. split; auto. split; auto. intros; lia.
    - intros p s Hp (l & -> & Ll & Hl). destruct (rd_ok bs p) as [b Hb]; [lia|].
      destruct (wr l p (Some b)) as [l1|] eqn:W; [|rewrite wr_ok in W by lia; discriminate].
      exists (mkArrs l1 [] [] []). split; [eapply H; eauto|]. exists l1. split; auto. split; [rewrite (wr_zlen _ _ _ _ W); auto|].
      intros j Hj. rewrite (rd_of_wr _ _ _ _ j W). destruct (Z.eqb_spec p j) as [<-|N]; [symmetry; apply rd_map; auto|apply Hl; lia].
    - assert (l = map Some bs) as <-; auto. apply rd_ext; [rewrite zlen_map; lia|]. intros j Hj. apply Hl. lia.
  Qed.

  Lemma compute_any (f : A -> R B) src l0 bs : mapR f src = Ok bs -> zlen l0 = zlen src ->
    any_schedule (compute_t f src) (mkArrs l0 [] [] []) (mkArrs (map Some bs) [] [] []).
  Proof.
    intros H L. apply mapR_at in H as [Lb H]. apply tabulate_any; auto; [apply zlen_nonneg|].
    intros i b l l1 Hi Hb W. destruct (rd_ok src i Hi) as [a Ea]. destruct (H i a Ea) as (b' & Fb & Rb). assert (b' = b) by congruence. subst b'.
    eapply fol_bind; [apply fol_lift; eauto|]. eapply fol_bind; [apply fol_lift; eauto|]. apply (fol_put1 (own1 i) i (mkArrs l [] [] [])); auto. apply Z.eqb_refl.
  Qed.
  Lemma zrange_any (f : Z -> R B) n l0 bs : 0 <= n -> mapR f (zrange 0 n) = Ok bs -> zlen l0 = n ->
    any_schedule (parfor n (fun p => par b <- plift (f p) ;; put1 p (Some b))) (mkArrs l0 [] [] []) (mkArrs (map Some bs) [] [] [] : arrs (option B) unit unit unit).
  Proof.
    intros Hn H L. apply mapR_at in H as [Lb H]. rewrite zlen_zrange in Lb by lia. apply tabulate_any; auto; [lia|].
    intros i b l l1 Hi Hb W. destruct (H i i) as (b' & Fb & Rb). { rewrite rd_zrange by lia. f_equal. }
    assert (b' = b) by congruence. subst b'. eapply fol_bind; [apply fol_lift; eauto|]. apply (fol_put1 (own1 i) i (mkArrs l [] [] [])); auto. apply Z.eqb_refl.
  Qed.

  Lemma untag_any (tedges : list (tedge E)) l0 a0 : zlen l0 = zlen tedges -> zlen a0 = zlen tedges ->
    any_schedule (untag_t tedges) (mkArrs l0 a0 [] []) (mkArrs (map Some (map snd tedges)) (map Some (map fst tedges)) [] []).
  Proof.
    intros Ll La.
    destruct (par_any own1 (zlen tedges) (fun i => par e <- plift (rd tedges i) ;; par _ <- put1 i (Some (snd e)) ;; put2 i (Some (fst e)))
      (fun p s => exists l a, s = mkArrs l a [] [] /\ zlen l = zlen tedges /\ zlen a = zlen tedges /\
         forall j, 0 <= j < p -> rd l j = rd (map Some (map snd tedges)) j /\ rd a j = rd (map Some (map fst tedges)) j) (mkArrs l0 a0 [] [] : arrs _ _ unit unit))
      as (s' & (l & a & -> & Ll' & La' & H) & G).
    - apply zlen_nonneg.
    - intros p q x _ _. apply own1_disj.
    - exists l0, a0. split; auto. split; auto. split; auto. intros; lia.
    - intros p s Hp (l & a & -> & L1 & L2 & H). destruct (rd_ok tedges p Hp) as [e He].
      destruct (wr l p (Some (snd e))) as [l1|] eqn:W1; [|rewrite wr_ok in W1 by lia; discriminate].
      destruct (wr a p (Some (fst e))) as [a1|] eqn:W2; [|rewrite wr_ok in W2 by lia; discriminate].
      exists (mkArrs l1 a1 [] []). split.
      + eapply fol_bind; [apply fol_lift; eauto|]. eapply fol_bind; [apply (fol_put1 (own1 p) p); [exact W1|apply Z.eqb_refl]|].
        apply (fol_put2 (own1 p) p (mkArrs l1 a [] [])); auto. apply Z.eqb_refl.
      + exists l1, a1. split; auto. split; [rewrite (wr_zlen _ _ _ _ W1); auto|]. split; [rewrite (wr_zlen _ _ _ _ W2); auto|].
        intros j Hj. rewrite (rd_of_wr _ _ _ _ j W1), (rd_of_wr _ _ _ _ j W2). destruct (Z.eqb_spec p j) as [<-|N]; [|apply H; lia].
        split; symmetry; apply rd_map, rd_map; auto.
    - unfold untag_t. replace (map Some (map snd tedges)) with l; [replace (map Some (map fst tedges)) with a; auto|].
      + apply rd_ext; [rewrite !zlen_map; lia|]. intros j Hj. apply H. lia.
      + apply rd_ext; [rewrite !zlen_map; lia|]. intros j Hj. apply H. lia.
  Qed.

  Lemma check_any (ok : A -> bool) src : forallb ok src = true -> any_schedule (check_t ok src) (mkArrs [] [] [] []) (mkArrs [] [] [] []).
  Proof.
    intros H. destruct (par_any own1 (zlen src) (fun i => par a <- plift (rd src i) ;; plift (assertb (ok a))) (fun _ s => s = mkArrs [] [] [] []) (mkArrs [] [] [] [] : arrs unit unit unit unit))
      as (s' & -> & G); auto.
    - apply zlen_nonneg.
    - intros p q x _ _. apply own1_disj.
    - intros p s Hp ->. destruct (rd_ok src p Hp) as [a Ha]. exists (mkArrs [] [] [] []). split; auto.
      eapply fol_bind; [apply fol_lift; eauto|]. apply fol_lift. rewrite forallb_forall in H. rewrite (H a) by (eapply rd_In; eauto). reflexivity.
  Qed.

  Lemma union_values_any (op : A -> A -> A) cap w1 v1 v2 w2 v : 0 <= cap ->
    forZ 0 cap (fun ii v =>
        do s1 <- bv_get w1 ii ;; do s2 <- bv_get w2 ii ;;
        if s1 && negb s2 then do a <- rd v ii ;; wr v ii a
        else if negb s1 && s2 then do c <- rd v2 ii ;; wr v ii c
        else if s1 && s2 then do a <- rdi v ii ;; do c <- rdi v2 ii ;; wr v ii (Some (op a c))
        else Ok v) v1 = Ok v ->
    any_schedule (union_values_t op cap w1 v2 w2) (mkArrs v1 [] [] []) (mkArrs v [] [] []).
  Proof.
    intros Hn Eq. unfold union_values_t. match goal with |- context [parfor cap ?t] => set (tb := t) end.
    destruct (par_forZ own1 cap tb _ (fun _ st s => s = mkArrs st [] [] []) (mkArrs v1 [] [] [] : arrs (option A) unit unit unit) v1 v Eq Hn) as (s' & -> & H); auto.
    - intros p q x _ _. apply own1_disj.
    - intros p st st1 s Hp -> _ Eb. apply bind_Ok in Eb as (s1 & E1 & Eb). apply bind_Ok in Eb as (s2 & E2 & Eb).
      exists (mkArrs st1 [] [] []). split; auto. unfold tb. eapply fol_bind; [apply fol_lift; eauto|]. eapply fol_bind; [apply fol_lift; eauto|].
      destruct (s1 && negb s2); [|destruct (negb s1 && s2); [|destruct (s1 && s2)]].
      + apply bind_Ok in Eb as (a & Ea & Eb). eapply fol_bind; [apply (fol_get1 _ p); [exact Ea|apply Z.eqb_refl]|].
        apply (fol_put1 (own1 p) p (mkArrs st [] [] [])); auto. apply Z.eqb_refl.
      + apply bind_Ok in Eb as (a & Ea & Eb). eapply fol_bind; [apply fol_lift; eauto|].
        apply (fol_put1 (own1 p) p (mkArrs st [] [] [])); auto. apply Z.eqb_refl.
      + apply bind_Ok in Eb as (a & Ea & Eb). apply bind_Ok in Eb as (c & Ec & Eb). eapply fol_bind; [apply (fol_get1 _ p); [apply rdi_split; exact Ea|apply Z.eqb_refl]|].
        eapply fol_bind; [apply fol_lift; reflexivity|]. eapply fol_bind; [apply fol_lift; eauto|].
        apply (fol_put1 (own1 p) p (mkArrs st [] [] [])); auto. apply Z.eqb_refl.
      + oki Eb. apply fol_ret.
  Qed.
  Lemma union_words_any w1 w2 n w : 0 <= n ->
    forZ 0 n (fun i w => do a <- rd w i ;; do c <- rd w2 i ;; wr w i (Z.lor a c)) w1 = Ok w ->
    any_schedule (union_words_t w2 n) (mkArrs w1 [] [] []) (mkArrs w [] [] []).
  Proof.
    intros Hn Eq. unfold union_words_t. match goal with |- context [parfor n ?t] => set (tb := t) end.
    destruct (par_forZ own1 n tb _ (fun _ st s => s = mkArrs st [] [] []) (mkArrs w1 [] [] [] : arrs Z unit unit unit) w1 w Eq Hn) as (s' & -> & H); auto.
    - intros p q x _ _. apply own1_disj.
    - intros p st st1 s Hp -> _ Eb. apply bind_Ok in Eb as (a & Ea & Eb). apply bind_Ok in Eb as (c & Ec & Eb).
      exists (mkArrs st1 [] [] []). split; auto. unfold tb. eapply fol_bind; [apply (fol_get1 _ p); [exact Ea|apply Z.eqb_refl]|].
      eapply fol_bind; [apply fol_lift; eauto|]. apply (fol_put1 (own1 p) p (mkArrs st [] [] [])); auto. apply Z.eqb_refl.
  Qed.
End Elements.
