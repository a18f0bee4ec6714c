(** Proofs about ParTiles.v, part 1: the element-wise loops and reading the entries back. *)
From Coq Require Import Permutation.
From Verif Require Import BaseLemmas Segment SegmentProofs ListLemmas Conc Search SearchProofs DCSC EdgeList EdgeSpec MatSpec DCSCFinal Tiles TilesProofs DcsrProofs SimdProofs ParLoop ParLoopProofs ParLoopWords ParLoopWords3 ParLoopEdges ParLoopFinal ParTiles.

(** [o], once written everywhere, says what is in [l] *)
Definition covers {A} (o l : list (option A)) : Prop := zlen l = zlen o /\ forall j x, rd o j = Ok (Some x) -> rd l j = Ok (Some x).
Lemma covers_start {A} (l : list (option A)) n : zlen l = n -> covers (repeat None (Z.to_nat n)) l.
Proof.
  intros L. split; [rewrite zlen_repeat; pose proof (zlen_nonneg l); lia|]. intros j x H. apply rd_In, repeat_spec in H. discriminate.
Qed.
Lemma covers_wr {A} (o o' l : list (option A)) i x : covers o l -> wr o i (Some x) = Ok o' -> exists l', wr l i (Some x) = Ok l' /\ covers o' l'.
Proof.
  intros [L C] W. pose proof W as W0. apply wr_Ok in W0 as [Bi _]. destruct (wr l i (Some x)) as [l'|] eqn:W'; [|rewrite wr_ok in W' by lia; discriminate].
  exists l'. split; auto. split; [rewrite (wr_zlen _ _ _ _ W), (wr_zlen _ _ _ _ W'); auto|]. intros j y. rewrite (rd_of_wr _ _ _ _ j W), (rd_of_wr _ _ _ _ j W').
  destruct (i =? j); auto.
Qed.
Lemma covers_all {A} (out : list A) l : covers (map Some out) l -> l = map Some out.
Proof.
  intros [L C]. apply rd_ext; auto. rewrite zlen_map in L. intros j Hj. destruct (rd_ok out j) as [x Hx]; [lia|].
  rewrite (C j x); [symmetry|]; apply rd_map; auto.
Qed.

Section Simple.
  Context {B : Type}.
  (** [tabulate_any] for an array with elements that the loop does not write *)
  Lemma tabulate_more (tb : Z -> @prog (option B) unit unit unit unit) n l0 more bs : 0 <= n -> zlen l0 = n -> zlen bs = n ->
    (forall i b l l1, 0 <= i < n -> rd bs i = Ok b -> wr l i (Some b) = Ok l1 -> fol (own1 i) (tb i) (mkArrs l [] [] []) tt (mkArrs l1 [] [] [])) ->
    any_schedule (parfor n tb) (mkArrs (l0 ++ more) [] [] []) (mkArrs (map Some bs ++ more) [] [] []).
  Proof.
    intros Hn L0 Lb H.
    destruct (par_any own1 n tb (fun p s => exists l, s = mkArrs l [] [] [] /\ zlen l = n + zlen more /\ (forall j, 0 <= j < p -> rd l j = rd (map Some bs) j) /\ forall j, p <= j -> rd l j = rd (l0 ++ more) j) (mkArrs (l0 ++ more) [] [] []) Hn)
      as (s' & (l & -> & Ll & Hl & Hm) & G).
    - intros p q x _ _. apply own1_disj.
    - exists (l0 ++ more). split; auto. split; [rewrite zlen_app; lia|]. split; auto. intros; lia.
    - intros p s Hp (l & -> & Ll & Hl & Hm). destruct (rd_ok bs p) as [b Hb]; [lia|]. pose proof (zlen_nonneg more).
      destruct (wr l p (Some b)) as [l1|] eqn:W; [|rewrite wr_ok in W by lia; discriminate].
      exists (mkArrs l1 [] [] []). split; [eapply H; eauto|]. exists l1. split; auto. split; [rewrite (wr_zlen _ _ _ _ W); auto|].
      split; intros j Hj; rewrite (rd_of_wr _ _ _ _ j W); destruct (Z.eqb_spec p j) as [<-|N]; try lia; [symmetry; apply rd_map; auto|apply Hl; lia|apply Hm; lia].
    - assert (l = map Some bs ++ more) as <-; auto. apply rd_ext; [rewrite zlen_app, zlen_map; lia|]. intros j Hj.
      destruct (Z_lt_dec j n); [rewrite rd_app1 by (rewrite zlen_map; lia); apply Hl; lia|].
      rewrite Hm, !rd_app2 by (rewrite ?zlen_map; lia). rewrite zlen_map. f_equal. lia.
  Qed.
End Simple.

Section Formats.
  Context {E : Type}.

  Lemma split_any rs cs (edges : list (edge E)) a0 b0 c0 : zlen a0 = zlen edges -> zlen b0 = zlen edges -> zlen c0 = zlen edges ->
    any_schedule (split_t rs cs edges) (mkArrs a0 b0 c0 [])
      (mkArrs (map Some (map e_val edges)) (map Some (map (fun e => e_dst e - cs) edges)) (map Some (map (fun e => e_src e - rs) edges)) []).
  Proof.
    intros La Lb Lc. unfold split_t. match goal with |- context [parfor _ ?t] => set (tb := t) end.
    set (va := map Some (map e_val edges)). set (vb := map Some (map (fun e => e_dst e - cs) edges)). set (vc := map Some (map (fun e => e_src e - rs) edges)).
    destruct (par_any own1 (zlen edges) tb
      (fun p s => exists a b c, s = mkArrs a b c [] /\ zlen a = zlen edges /\ zlen b = zlen edges /\ zlen c = zlen edges /\
         forall j, 0 <= j < p -> rd a j = rd va j /\ rd b j = rd vb j /\ rd c j = rd vc j) (mkArrs a0 b0 c0 [] : arrs _ _ _ unit))
      as (s' & (a & b & c & -> & L1 & L2 & L3 & H) & G).
    - apply zlen_nonneg.
    - intros p q x _ _. apply own1_disj.
    - exists a0, b0, c0. repeat split; auto; lia.
    - intros p s Hp (a & b & c & -> & L1 & L2 & L3 & H). destruct (rd_ok edges p Hp) as [e He].
      destruct (wr a p (Some (e_val e))) as [a1|] eqn:W1; [|rewrite wr_ok in W1 by lia; discriminate].
      destruct (wr b p (Some (e_dst e - cs))) as [b1|] eqn:W2; [|rewrite wr_ok in W2 by lia; discriminate].
      destruct (wr c p (Some (e_src e - rs))) as [c1|] eqn:W3; [|rewrite wr_ok in W3 by lia; discriminate].
      exists (mkArrs a1 b1 c1 []). split.
      + unfold tb. eapply fol_bind; [apply fol_lift; eauto|]. eapply fol_bind; [apply (fol_put1 (own1 p) p); [exact W1|apply Z.eqb_refl]|].
        eapply fol_bind; [apply (fol_put2 (own1 p) p); [exact W2|apply Z.eqb_refl]|].
        apply (fol_put3 (own1 p) p (mkArrs a1 b1 c [])); auto. apply Z.eqb_refl.
      + exists a1, b1, c1. split; auto. rewrite (wr_zlen _ _ _ _ W1), (wr_zlen _ _ _ _ W2), (wr_zlen _ _ _ _ W3). repeat (split; auto).
        all: rewrite ?(rd_of_wr _ _ _ _ j W1), ?(rd_of_wr _ _ _ _ j W2), ?(rd_of_wr _ _ _ _ j W3).
        all: destruct (Z.eqb_spec p j) as [<-|N]; [|apply H; lia]; symmetry; unfold va, vb, vc; apply rd_map.
        * apply rd_map; auto.
        * apply (rd_map (fun e => e_dst e - cs)); auto.
        * apply (rd_map (fun e => e_src e - rs)); auto.
    - assert (a = va) as Ea by (apply rd_ext; [unfold va; rewrite !zlen_map; lia|intros j Hj; apply H; lia]).
      assert (b = vb) as Eb by (apply rd_ext; [unfold vb; rewrite !zlen_map; lia|intros j Hj; apply H; lia]).
      assert (c = vc) as Ec by (apply rd_ext; [unfold vc; rewrite !zlen_map; lia|intros j Hj; apply H; lia]).
      rewrite <- Ea, <- Eb, <- Ec. exact G.
  Qed.

  Lemma starts_any (search : Z -> R Z) m rpp np l0 more ps : 0 <= np -> zlen l0 = np ->
    mapR (fun p => let start_row := Z.min (p * rpp) m in let end_row := Z.min ((p + 1) * rpp) m in
       do s <- search (start_row + 1) ;; do _ <- search (end_row + 1) ;; Ok s) (zrange 0 np) = Ok ps ->
    any_schedule (starts_t search m rpp np) (mkArrs (l0 ++ more) [] [] []) (mkArrs (map Some ps ++ more) [] [] []).
  Proof.
    intros Hn L0 H. apply mapR_at in H as [Lb H]. rewrite zlen_zrange in Lb by lia. apply tabulate_more; auto; [lia|].
    intros i b l l1 Hi Hb W. destruct (H i i) as (b' & Fb & Rb). { rewrite rd_zrange by lia. f_equal. }
    assert (b' = b) by congruence. subst b'. cbv zeta in *. apply bind_Ok in Fb as (s & E1 & Fb). apply bind_Ok in Fb as (s' & E2 & Fb). assert (s = b) by congruence. subst s.
    eapply fol_bind; [apply fol_lift; eauto|]. eapply fol_bind; [apply fol_lift; eauto|]. apply (fol_put1 (own1 i) i (mkArrs l [] [] [])); auto. apply Z.eqb_refl.
  Qed.

  Lemma export_any nnz (a : list E) ja ia rs cs out l0 : 0 <= nnz -> coo_export nnz a ja ia rs cs = Ok out -> zlen l0 = nnz ->
    any_schedule (export_t nnz a ja ia rs cs) (mkArrs l0 [] [] []) (mkArrs (map Some out) [] [] []).
  Proof.
    intros Hn H L0. apply mapR_at in H as [Lb H]. rewrite zlen_zrange in Lb by lia. apply tabulate_any; auto; [lia|].
    intros i b l l1 Hi Hb W. destruct (H i i) as (b' & Fb & Rb). { rewrite rd_zrange by lia. f_equal. }
    assert (b' = b) by congruence. subst b'. apply bind_Ok in Fb as (v & E1 & Fb). apply bind_Ok in Fb as (d & E2 & Fb). apply bind_Ok in Fb as (s & E3 & Fb). injection Fb as <-.
    do 3 (eapply fol_bind; [apply fol_lift; eauto|]). apply (fol_put1 (own1 i) i (mkArrs l [] [] [])); auto. apply Z.eqb_refl.
  Qed.

  Lemma csr_edges_any (t : @csr E) rs cs out l0 : 0 < s_nnz t -> 0 <= s_m t -> rises (s_ia t) (s_m t) -> csr_get_edges t rs cs = Ok out -> zlen l0 = s_nnz t ->
    any_schedule (csr_edges_t t rs cs) (mkArrs l0 [] [] []) (mkArrs (map Some out) [] [] []).
  Proof.
    intros Hz Hm Ri H L0. unfold csr_get_edges in H. destruct (Z.ltb_spec 0 (s_nnz t)); [|lia]. apply bind_Ok in H as (o & Eo & H). apply mapR_need_inv in H. subst o.
    unfold csr_edges_t. match goal with |- context [parfor _ ?t] => set (tb := t) end.
    set (P := fun p (l : loc4) => match l with L1 i => within (s_ia t) p (i + 1) | _ => false end).
    destruct (par_forZ P (s_m t) tb _ (fun _ st s => exists l, s = mkArrs l [] [] [] /\ covers st l) (mkArrs l0 [] [] [] : arrs _ unit unit unit) _ _ Eo Hm) as (s' & (l & -> & C) & G).
    - intros p q l Hp Hq. destruct l; simpl; try discriminate. eapply within_disj; eauto.
    - exists l0. split; auto. apply covers_start; auto.
    - intros i st st1 s Hi (l & -> & C) _ Eb. apply bind_Ok in Eb as (lo & Elo & Eb). apply bind_Ok in Eb as (hi & Ehi & Eb).
      destruct (fol_forR (P i) (fun nz (_ : unit) =>
        par d <- plift (rd (s_ja t) (nz - 1)) ;; par v <- plift (rd (s_a t) (nz - 1)) ;;
        put1 (nz - 1) (Some (mkE (i + rs + 1) (d + cs) v))) _ (fun _ st (_ : unit) (s : arrs _ unit unit unit) => exists l, s = mkArrs l [] [] [] /\ covers st l) _ _ _ _ tt (mkArrs l [] [] [] : arrs _ unit unit unit) Eb) as (u & s1 & F & l' & -> & C').
      + exists l; auto.
      + clear l C Eb st st1. intros nz st st1 u s Hnz (l & -> & C) Eb. apply bind_Ok in Eb as (d & Ed & Eb). apply bind_Ok in Eb as (v & Ev & Eb).
        destruct (covers_wr _ _ _ _ _ C Eb) as (l' & W & C'). exists tt, (mkArrs l' [] [] []). split; [|exists l'; auto].
        do 2 (eapply fol_bind; [apply fol_lift; eauto|]). apply (fol_put1 (P i) (nz - 1) (mkArrs l [] [] [])); auto.
        simpl. unfold within. rewrite Elo, Ehi. apply andb_true_iff. rewrite Z.leb_le, Z.ltb_lt. lia.
      + exists (mkArrs l' [] [] []). split; [|exists l'; auto]. destruct u. unfold tb. do 2 (eapply fol_bind; [apply fol_lift; eauto|]). exact F.
    - apply covers_all in C. subst l. exact G.
  Qed.

  Lemma sum_app l x : fold_left Z.add (l ++ [x]) 0 = fold_left Z.add l 0 + x.
  Proof. rewrite fold_left_app. reflexivity. Qed.
  Lemma dcsr_edges_any (t : @dcsr E) rs cs out l0 c0 : 0 < d_nnz t -> 0 <= d_num_rows t -> rises (d_ia t) (d_num_rows t) -> dcsr_get_edges t rs cs = Ok out ->
    zlen l0 = d_nnz t -> zlen c0 = d_num_rows t ->
    exists cnts, any_schedule (dcsr_edges_t t rs cs) (mkArrs l0 c0 [] []) (mkArrs (map Some out) (map Some cnts) [] []) /\
      forall r, reduction_gives Z.add 0 0 cnts r -> r = d_nnz t.
  Proof.
    intros Hz Hm Ri H L0 Lc. unfold dcsr_get_edges in H. destruct (Z.ltb_spec 0 (d_nnz t)); [|lia]. apply bind_Ok in H as ([o tot] & Eo & H). cbn [fst snd] in H.
    apply bind_Ok in H as (u & Et & H). assert (tot = d_nnz t) as Ht. { unfold assertb in Et. destruct (Z.eqb_spec tot (d_nnz t)); [auto|discriminate]. } apply mapR_need_inv in H. subst o.
    unfold dcsr_edges_t. match goal with |- context [parfor _ ?t] => set (tb := t) end.
    set (P := fun p (l : loc4) => match l with L1 i => within (d_ia t) p i | L2 i => p =? i | _ => false end).
    destruct (par_forZ P (d_num_rows t) tb _ (fun p st s => exists l cn, s = mkArrs l (map Some cn ++ skipn (Z.to_nat p) c0) [] [] /\ zlen cn = p /\ covers (fst st) l /\ fold_left Z.add cn 0 = snd st)
      (mkArrs l0 c0 [] [] : arrs _ _ unit unit) _ _ Eo Hm) as (s' & (l & cn & -> & Lcn & C & Sm) & G).
    - intros p q l Hp Hq. destruct l; simpl; try discriminate; [eapply within_disj; eauto|]. rewrite !Z.eqb_eq. congruence.
    - exists l0, []. split; auto. split; auto. split; auto. apply covers_start; auto.
    - clear Et Ht. intros i st st1 s Hi (l & cn & -> & Lcn & C & Sm) _ Eb. apply bind_Ok in Eb as (lo & Elo & Eb). apply bind_Ok in Eb as (hi & Ehi & Eb).
      set (cs0 := map Some cn ++ skipn (Z.to_nat i) c0).
      destruct (fol_forR (P i) (fun nz cnt =>
        par r <- plift (rd (d_rows t) i) ;; par d <- plift (rd (d_ja t) nz) ;; par v <- plift (rd (d_a t) nz) ;;
        par _ <- put1 nz (Some (mkE (r + rs + 1) (d + cs + 1) v)) ;; pret (cnt + 1)) _
        (fun _ st' cnt (s : arrs _ _ unit unit) => snd st' = snd st + cnt /\ exists l, s = mkArrs l cs0 [] [] /\ covers (fst st') l) _ _ _ _ 0 (mkArrs l cs0 [] [] : arrs _ _ unit unit) Eb) as (cnt & s1 & F & Sc & l' & -> & C').
      + split; [lia|]. exists l; auto.
      + clear l C Eb st1. intros nz st' st1 cnt s Hnz (Sc & l & -> & C) Eb. apply bind_Ok in Eb as (r & Er & Eb). apply bind_Ok in Eb as (d & Ed & Eb). apply bind_Ok in Eb as (v & Ev & Eb).
        apply bind_Ok in Eb as (o1 & W1 & Eb). injection Eb as <-. cbn [fst snd].
        destruct (covers_wr _ _ _ _ _ C W1) as (l' & W & C'). exists (cnt + 1), (mkArrs l' cs0 [] []). split; [|split; [lia|exists l'; auto]].
        do 3 (eapply fol_bind; [apply fol_lift; eauto|]). eapply fol_bind; [apply (fol_put1 (P i) nz (mkArrs l cs0 [] [])); [exact W|]|apply fol_ret].
        simpl. unfold within. rewrite Elo, Ehi. apply andb_true_iff. rewrite Z.leb_le, Z.ltb_lt. lia.
      + destruct (rd_ok c0 i) as [x Hx]; [lia|].
        assert (cs0 = map Some cn ++ x :: skipn (Z.to_nat (i + 1)) c0) as Ec.
        { unfold cs0. f_equal. replace (Z.to_nat (i + 1)) with (S (Z.to_nat i)) by lia.
          unfold rd in Hx. destruct (i <? 0); [discriminate|]. destruct (nth_error c0 (Z.to_nat i)) as [y|] eqn:Ey; [|discriminate]. injection Hx as ->.
          clear -Ey. revert c0 Ey. induction (Z.to_nat i) as [|k IH]; intros [|z c0] Ey; simpl in *; try discriminate; [congruence|]. rewrite (IH c0 Ey). reflexivity. }
        exists (mkArrs l' (map Some (cn ++ [cnt]) ++ skipn (Z.to_nat (i + 1)) c0) [] []). split.
        * unfold tb. do 2 (eapply fol_bind; [apply fol_lift; eauto|]). eapply fol_bind; [exact F|].
          apply (fol_put2 (P i) i (mkArrs l' cs0 [] [])); [|apply Z.eqb_refl]. cbn [ar2]. rewrite Ec, (wr_mid (map Some cn) x _ (Some cnt)) by (rewrite zlen_map; auto).
          rewrite map_app, <- app_assoc. reflexivity.
        * exists l', (cn ++ [cnt]). split; auto. split; [rewrite zlen_app, Lcn; reflexivity|]. split; auto. rewrite sum_app. lia.
    - apply covers_all in C. subst l. exists cn. split.
      + rewrite skipn_all2, app_nil_r in G by (unfold zlen in Lc; lia). exact G.
      + intros r Hr. apply add_reduction in Hr. cbn [snd] in Sm. lia.
  Qed.
End Formats.
