From Coq Require Import QArith Qround Lia.
From Coq Require Import Sorting.Sorted Relation_Operators Operators_Properties.
From Verif Require Import BaseLemmas Segment SegmentProofs Bucket BucketProofs VecProofs2 ListLemmas DCSC EdgeList EdgeSpec.
Open Scope Z_scope.

Section EP.
  Context {E : Type}.
  Notation edge := (edge E).
  Implicit Types (el : elist E) (l : list edge).

  Lemma rdi_some (a : list (option edge)) l rest i : a = map Some l ++ rest -> 0 <= i < zlen l -> rdi a i = rd l i.
  Proof.
    intros -> H. unfold rdi. rewrite rd_app1 by (rewrite zlen_map; lia). rewrite rd_map_list.
    destruct (rd_ok l i H) as [e ->]. reflexivity.
  Qed.
  Lemma rde_holds el l i : holds el l -> 0 <= i < zlen l -> rde el i = rd l i.
  Proof. intros [_ [rest Ha]] H. unfold rde. eapply rdi_some; eauto. Qed.

  Lemma zlen_filter_le {A} (p : A -> bool) (l : list A) : zlen (filter p l) <= zlen l.
  Proof. induction l as [|a l IH]; simpl; [lia|]. destruct (p a); rewrite ?zlen_cons; lia. Qed.

  Lemma copy_if_spec keep el l : holds el l ->
    exists a rest, copy_if keep el = Ok (a, zlen (filter keep l)) /\ a = map Some (filter keep l) ++ rest.
  Proof.
    intros H. pose proof H as [Hn _]. unfold copy_if. rewrite Hn.
    destruct (for_slice (fun pre (st : list (option edge) * Z) => filled (zlen l) (fst st) (filter keep pre) /\ snd st = zlen (filter keep pre))
      l 0 l (fun i st => do e <- rde el i ;; if keep e then do a <- wr (fst st) (snd st) (Some e) ;; Ok (a, snd st + 1) else Ok st)
      (el_arr (new_elist (E:=E) (el_m el) (el_n el) (zlen l)), 0)) as ([a k] & Er & F & Ek).
    - intros i Hi. f_equal.
    - split; [|reflexivity]. apply filled_start. apply zlen_nonneg.
    - intros pre x post [a k] El Hx [F Ek]. cbn [fst snd] in *. pose proof (rd_bounds _ _ _ Hx).
      rewrite (rde_holds el l) by (auto; lia). rewrite Hx. cbn [bind]. rewrite filter_app. simpl.
      destruct (keep x).
      + destruct (filled_wr (zlen l) a (filter keep pre) k x F Ek) as (a' & -> & F').
        { rewrite El, zlen_app, zlen_cons. pose proof (zlen_filter_le keep pre). pose proof (zlen_nonneg post). lia. }
        cbn [bind]. eexists. split; [reflexivity|]. cbn [fst snd]. split; auto. rewrite zlen_app, zlen_cons. znil. lia.
      + eexists. split; [reflexivity|]. rewrite app_nil_r. auto.
    - cbn [fst snd] in *. destruct F as [_ Fa]. exists a. eexists. split; [|exact Fa].
      replace (0 + zlen l) with (zlen l) in Er by lia. rewrite Er. rewrite Ek. auto.
  Qed.

  Lemma remove_selfedges_spec el l : holds el l ->
    exists el', remove_selfedges el = Ok el' /\ holds el' (filter (fun e => negb (e_src e =? e_dst e)) l) /\ same_dims el' el.
  Proof.
    intros H. unfold remove_selfedges. destruct (copy_if_spec (fun e => negb (e_src e =? e_dst e)) el l H) as (a & rest & -> & Ea).
    cbn [bind]. eexists. split; [reflexivity|]. split; [|split; reflexivity]. split; [reflexivity|]. exists rest. exact Ea.
  Qed.
  Lemma filter_edges_spec f el l : holds el l ->
    exists el', filter_edges f el = Ok (el, el') /\ holds el' (filter f l) /\ same_dims el' el.
  Proof.
    intros H. unfold filter_edges. destruct (copy_if_spec f el l H) as (a & rest & -> & Ea).
    cbn [bind]. eexists. split; [reflexivity|]. split; [|split; reflexivity]. split; [reflexivity|]. exists rest. exact Ea.
  Qed.

  (** ** in-place rewriting *)
  Lemma rewrite_edges_spec (f : Z -> edge -> R edge) (g : Z -> edge -> edge) el l : holds el l ->
    (forall i e, rd l i = Ok e -> f i e = Ok (g i e)) ->
    exists el', rewrite_edges f el = Ok el' /\ holds el' (map (fun p => g (fst p) (snd p)) (combine (zrange 0 (zlen l)) l)) /\ same_dims el' el /\ el_nnz el' = el_nnz el.
  Proof.
    intros [Hn [rest Ha]] Hf. unfold rewrite_edges. rewrite Hn, Ha.
    set (G := fun l => map (fun p => g (fst p) (snd p)) (combine (zrange 0 (zlen l)) l)).
    assert (forall pre x, G (pre ++ [x]) = G pre ++ [g (zlen pre) x]) as Gs.
    { intros pre x. unfold G. rewrite zlen_app, zlen_cons. znil. replace (zlen pre + (1 + 0)) with (zlen pre + 1) by lia.
      rewrite zrange_snoc by apply zlen_nonneg.
      assert (forall (a b : list Z) (c d : list edge), length a = length c -> combine (a ++ b) (c ++ d) = combine a c ++ combine b d) as CA.
      { clear. induction a as [|x a IH]; intros b [|y c] d L; try discriminate; simpl; auto. f_equal. apply IH. injection L; auto. }
      rewrite CA. 2:{ unfold zrange. rewrite zseq_length. unfold zlen. lia. }
      rewrite map_app. reflexivity. }
    assert (forall pre, zlen (G pre) = zlen pre) as GL.
    { intros pre. unfold G. rewrite zlen_map. unfold zlen at 1. rewrite combine_length. unfold zrange. rewrite zseq_length. unfold zlen. lia. }
    destruct (for_slice (fun pre (a : list (option edge)) => a = map Some (G pre ++ skipn (length pre) l) ++ rest)
      l 0 l (fun i a => do e <- rdi a i ;; do e' <- f i e ;; wr a i (Some e')) (map Some l ++ rest)) as (a & Er & Fa).
    - intros; f_equal.
    - reflexivity.
    - intros pre x post a El Hx ->. replace (0 + zlen pre) with (zlen pre) in * by lia.
      assert (skipn (length pre) l = x :: post) as Sk by (rewrite El, skipn_app, Nat.sub_diag, skipn_all; reflexivity).
      rewrite Sk. erewrite rdi_some; [|reflexivity|]. 2:{ rewrite zlen_app, zlen_cons, GL. pose proof (zlen_nonneg post). pose proof (zlen_nonneg pre). lia. }
      rewrite rd_app2 by (rewrite GL; lia). rewrite GL, Z.sub_diag, rd_cons0. cbn [bind]. rewrite (Hf _ _ Hx). cbn [bind].
      rewrite wr_ok. 2:{ rewrite zlen_app, zlen_map, zlen_app, zlen_cons, GL. pose proof (zlen_nonneg post). pose proof (zlen_nonneg pre). pose proof (zlen_nonneg rest). lia. }
      eexists. split; [reflexivity|]. rewrite Gs.
      replace (Z.to_nat (zlen pre)) with (length (map (@Some edge) (G pre))).
      2:{ rewrite map_length. specialize (GL pre). unfold zlen in GL. unfold zlen. lia. }
      rewrite app_length. cbn [length]. replace (skipn (length pre + 1) l) with post.
      2:{ rewrite El. rewrite skipn_app. rewrite skipn_all2 by lia. replace (length pre + 1 - length pre)%nat with 1%nat by lia. reflexivity. }
      rewrite !map_app, <- !app_assoc. cbn [map app]. generalize (map (@Some edge) (G pre)). intros p.
      induction p as [|y p IH]; cbn [app length upd]; [reflexivity|]. f_equal. apply IH.
    - replace (0 + zlen l) with (zlen l) in Er by lia. rewrite Er. cbn [bind]. eexists. split; [reflexivity|].
      assert (skipn (length l) l = []) as Sk by apply skipn_all. rewrite Sk, app_nil_r in Fa.
      split; [|split; [split; reflexivity|cbn [el_nnz]; auto]]. split; cbn [el_nnz el_arr].
      + fold (G l). rewrite GL. auto.
      + exists rest. exact Fa.
  Qed.
  Lemma map_snd_combine {A B} (f : A -> B) : forall (l : list A) (z : list Z), length z = length l -> map (fun p => f (snd p)) (combine z l) = map f l.
  Proof. induction l as [|x l IH]; intros [|y z] L; try discriminate; simpl; auto. f_equal. apply IH. injection L; auto. Qed.
  Lemma rewrite_edges_map (f : Z -> edge -> R edge) (g : edge -> edge) el l : holds el l ->
    (forall i e, In e l -> f i e = Ok (g e)) ->
    exists el', rewrite_edges f el = Ok el' /\ holds el' (map g l) /\ same_dims el' el /\ el_nnz el' = el_nnz el.
  Proof.
    intros H Hf. destruct (rewrite_edges_spec f (fun _ => g) el l H) as (el' & Er & Hh & Hr).
    { intros i e Hi. apply Hf. eapply rd_In; eauto. }
    exists el'. split; auto. split; auto. rewrite map_snd_combine in Hh; auto.
    unfold zrange. rewrite zseq_length. unfold zlen. lia.
  Qed.

  Lemma convert_to_dag_spec el l : holds el l ->
    exists el', convert_to_dag el = Ok el' /\ holds el' (map (fun e => if e_dst e <? e_src e then swap e else e) l) /\ same_dims el' el.
  Proof.
    intros H. unfold convert_to_dag. destruct (rewrite_edges_map (fun _ e => Ok (if e_dst e <? e_src e then swap e else e)) _ el l H (fun i e _ => eq_refl)) as (el' & Er & Hh & Hd & _). eauto.
  Qed.
  Lemma dag_acyclic l : (forall e, In e l -> e_src e < e_dst e) -> forall v, ~ reach l v v.
  Proof.
    intros H v P. assert (forall u w, reach l u w -> u < w) as G.
    { intros u w R. induction R as [u w (e & He & <- & <-)|u x w _ IH1 _ IH2]; [auto|lia]. }
    apply G in P. lia.
  Qed.

  (** ** create_bidirectional_edges *)
  Lemma flat2_len l : zlen (flat_map (fun e : edge => [e; swap e]) l) = 2 * zlen l.
  Proof. induction l as [|e l IH]; [reflexivity|]. cbn [flat_map app]. rewrite !zlen_cons, IH. lia. Qed.
  Lemma create_bidirectional_spec el l : holds el l ->
    exists el', create_bidirectional_edges el = Ok el' /\ holds el' (flat_map (fun e => [e; swap e]) l) /\ same_dims el' el.
  Proof.
    intros H. pose proof H as [Hn _]. unfold create_bidirectional_edges. rewrite Hn. cbn [el_arr el_m el_n el_nnz new_elist].
    pose proof (zlen_nonneg l) as NN.
    destruct (for_slice (fun pre (a : list (option edge)) => filled (zlen l * 2) a (flat_map (fun e => [e; swap e]) pre))
      l 0 l (fun i a => do e <- rde el i ;; do a <- wr a (2 * i) (Some e) ;; do a <- wr a (2 * i + 1) (Some e) ;; do x <- rdi a (2 * i + 1) ;; wr a (2 * i + 1) (Some (swap x)))
      (repeat None (Z.to_nat (zlen l * 2)))) as (a & Er & F).
    - intros; f_equal.
    - apply filled_start. lia.
    - intros pre x post a El Hx F. replace (0 + zlen pre) with (zlen pre) in * by lia. pose proof (rd_bounds _ _ _ Hx).
      rewrite (rde_holds el l) by (auto; lia). rewrite Hx. cbn [bind].
      assert (zlen l = zlen pre + 1 + zlen post) as Ll by (rewrite El, zlen_app, zlen_cons; lia).
      pose proof (zlen_nonneg post).
      destruct (filled_wr _ a _ (2 * zlen pre) x F) as (a1 & -> & F1); [rewrite flat2_len; lia|rewrite flat2_len; lia|]. cbn [bind].
      destruct (filled_wr _ a1 _ (2 * zlen pre + 1) (swap x) F1) as (a3 & E3 & F3); [rewrite zlen_app, flat2_len, zlen_cons; znil; lia|rewrite zlen_app, flat2_len, zlen_cons; znil; lia|].
      apply wr_Ok in E3 as [B3 E3]. rewrite wr_ok by auto. cbn [bind].
      unfold rdi. rewrite rd_upd_same by auto. cbn [bind]. rewrite wr_ok by (rewrite zlen_upd; auto). eexists. split; [reflexivity|].
      rewrite upd_upd, <- E3. rewrite flat_map_app. cbn [flat_map app]. rewrite <- app_assoc in F3. exact F3.
    - replace (0 + zlen l) with (zlen l) in Er by lia. rewrite Er. cbn [bind]. eexists. split; [reflexivity|].
      split; [|split; reflexivity]. destruct F as [_ Fa]. split; cbn [el_nnz el_arr]; [rewrite flat2_len; lia|]. eexists. exact Fa.
  Qed.

  (** ** filter_edges_by_row: in place, the write position never passes the read position *)
  Lemma filter_by_row_spec s e el l : holds el l ->
    exists el', filter_edges_by_row s e el = Ok el' /\
      holds el' (map (fun x => mkE (e_src x - s) (e_dst x) (e_val x)) (filter (fun x => (s <? e_src x) && (e_src x <=? e)) l)) /\
      el_m el' = e - s /\ el_n el' = el_n el.
  Proof.
    intros [Hn [rest Ha]]. unfold filter_edges_by_row. rewrite Hn, Ha.
    set (keep := fun x : edge => (s <? e_src x) && (e_src x <=? e)).
    set (sh := fun x : edge => mkE (e_src x - s) (e_dst x) (e_val x)).
    destruct (for_slice (fun pre (st : list (option edge) * Z) => snd st = zlen (filter keep pre) /\
        exists junk, fst st = map Some (map sh (filter keep pre)) ++ junk ++ map Some (skipn (length pre) l) ++ rest /\
          zlen junk = zlen pre - zlen (filter keep pre))
      l 0 l (fun i st =>
        do x <- rdi (fst st) i ;;
        if (e_src x - 1 <? e) && (s <=? e_src x - 1) then
          do a <- wr (fst st) (snd st) (Some x) ;;
          do y <- rdi a (snd st) ;;
          do a <- wr a (snd st) (Some (mkE (e_src y - s) (e_dst y) (e_val y))) ;;
          Ok (a, snd st + 1)
        else Ok st) (map Some l ++ rest, 0)) as ([a k] & Er & Ek & junk & Fa & Lj).
    - intros; f_equal.
    - split; [reflexivity|]. exists []. split; [reflexivity|]. reflexivity.
    - intros pre x post [a k] El Hx (Ek & junk & Fa & Lj). cbn [fst snd] in *. replace (0 + zlen pre) with (zlen pre) in * by lia.
      assert (skipn (length pre) l = x :: post) as Sk by (rewrite El, skipn_app, Nat.sub_diag, skipn_all; reflexivity).
      assert (skipn (length (pre ++ [x])) l = post) as Sk'.
      { rewrite app_length. cbn [length]. rewrite El, skipn_app. rewrite skipn_all2 by lia. replace (length pre + 1 - length pre)%nat with 1%nat by lia. reflexivity. }
      rewrite Sk in Fa. rewrite Sk'. pose proof (zlen_filter_le keep pre) as KL.
      assert (rdi a (zlen pre) = Ok x) as ->.
      { unfold rdi. rewrite Fa. rewrite app_assoc, rd_app2 by (rewrite zlen_app, !zlen_map; lia).
        replace (zlen pre - _) with 0 by (rewrite zlen_app, !zlen_map; lia). cbn [map app]. rewrite rd_cons0. reflexivity. }
      cbn [bind]. rewrite filter_app. cbn [filter].
      assert ((e_src x - 1 <? e) && (s <=? e_src x - 1) = keep x) as -> by (unfold keep; lia).
      destruct (keep x) eqn:K.
      + rewrite wr_ok. 2:{ rewrite Fa, !zlen_app, !zlen_map, zlen_cons. pose proof (zlen_nonneg post). pose proof (zlen_nonneg rest). pose proof (zlen_nonneg (filter keep pre)). lia. }
        cbn [bind]. unfold rdi. rewrite rd_upd_same. 2:{ rewrite Fa, !zlen_app, !zlen_map, zlen_cons. pose proof (zlen_nonneg post). pose proof (zlen_nonneg rest). pose proof (zlen_nonneg (filter keep pre)). lia. }
        cbn [bind]. rewrite wr_ok. 2:{ rewrite zlen_upd, Fa, !zlen_app, !zlen_map, zlen_cons. pose proof (zlen_nonneg post). pose proof (zlen_nonneg rest). pose proof (zlen_nonneg (filter keep pre)). lia. }
        cbn [bind]. rewrite upd_upd. eexists. split; [reflexivity|]. cbn [fst snd]. split; [rewrite zlen_app, zlen_cons; znil; lia|].
        fold (sh x). rewrite map_app, map_app. cbn [map]. rewrite Fa, Ek.
        replace (Z.to_nat (zlen (filter keep pre))) with (length (map (@Some edge) (map sh (filter keep pre)))) by (rewrite !map_length; unfold zlen; lia).
        assert (forall (p q : list (option edge)) y z, upd (p ++ y :: q) (length p) z = (p ++ [z]) ++ q) as U.
        { clear. induction p as [|h p IH]; intros; cbn [app length upd]; [reflexivity|]. f_equal. apply IH. }
        destruct junk as [|j junk].
        * cbn [app map]. rewrite U. exists []. split; [reflexivity|]. rewrite !zlen_app, !zlen_cons. znil. lia.
        * cbn [app]. rewrite U. exists (junk ++ [Some x]). split; [rewrite <- !app_assoc; reflexivity|].
          rewrite zlen_cons in Lj. rewrite !zlen_app, !zlen_cons. znil. lia.
      + eexists. split; [reflexivity|]. cbn [fst snd]. rewrite app_nil_r. split; auto.
        exists (junk ++ [Some x]). split; [rewrite Fa, <- !app_assoc; reflexivity|]. rewrite !zlen_app, !zlen_cons. znil. lia.
    - cbn [fst snd] in *. replace (0 + zlen l) with (zlen l) in Er by lia. rewrite Er. cbn [bind]. eexists. split; [reflexivity|].
      cbn [fst snd el_m el_n]. split; [|split; reflexivity]. split; cbn [el_nnz el_arr]; [rewrite zlen_map; auto|]. eexists. exact Fa.
  Qed.
End EP.
