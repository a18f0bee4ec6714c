(** Tiles as matrices: what the kernels and the archive do, independent of the layout. *)
From Coq Require Import Sorting.Sorted.
From Verif Require Import BaseLemmas Bits BitsProofs Segment SegmentProofs UnionProofs Reduce ReduceProofs Bucket BucketProofs VecProofs2 ListLemmas DCSC DCSCProofs DCSCBuild Conc ConcProofs ParSeg ParSegProofs Kernel KernelProofs MatSpec DCSCFinal.

(** [t] is a finished [m] x [n] tile whose entries, 0-based and in storage order, are [es] *)
Definition tile_of {E} (m n : Z) (es : list (edge E)) (t : dcsc E) : Prop :=
  (es = [] /\ exists junk, t = dcsc_empty m n junk) \/
  (exists rp parts, t = encode rp m n parts /\ tile_ok rp m n parts /\ 0 < zlen (flat_map centries parts) /\ es = tile_edges parts).

Lemma zlen_tile_edges {E} (parts : list (list (column E))) : zlen (tile_edges parts) = zlen (flat_map centries parts).
Proof. unfold tile_edges. apply zlen_concat_eq. intros; apply zlen_cedges. Qed.

Lemma tile_edge_range {E} rp m n (parts : list (list (column E))) e : tile_ok rp m n parts -> In e (tile_edges parts) -> 0 <= e_src e < m /\ 0 <= e_dst e < n.
Proof.
  intros To He. unfold tile_edges in He. apply in_flat_map in He as (cs & Hcs & He). destruct (In_rd _ _ Hcs) as (p & _ & Hp).
  destruct (to_cols _ _ _ _ To p cs Hp) as (_ & Hc & Hr). unfold cedges in He. apply in_flat_map in He as (c & Hcin & He). apply in_map_iff in He as (x & <- & Hx). simpl. split; [|auto].
  destruct (Hr x) as (a & b & Ea & Eb & B); [unfold centries; apply in_flat_map; eauto|].
  pose proof (ro_range _ _ _ (to_rows _ _ _ _ To) _ _ Ea). pose proof (ro_range _ _ _ (to_rows _ _ _ _ To) _ _ Eb). lia.
Qed.

Section T.
  Context {E : Type}.
  Variables (m n : Z) (es : list (edge E)) (t : dcsc E).
  Hypothesis Ht : tile_of m n es t.

  Lemma tile_range e : In e es -> 0 <= e_src e < m /\ 0 <= e_dst e < n.
  Proof.
    destruct Ht as [[-> _]|(rp & parts & _ & To & _ & ->)]; [intros []|]. apply (tile_edge_range rp); auto.
  Qed.
  Lemma tile_nnz : t_nnz t = zlen es.
  Proof. destruct Ht as [[-> [junk ->]]|(rp & parts & -> & To & _ & ->)]; [reflexivity|]. simpl. symmetry. apply zlen_tile_edges. Qed.
  Lemma tile_shaped : shaped t.
  Proof.
    destruct Ht as [[-> [junk ->]]|(rp & parts & -> & To & Hp & ->)]; [|apply encode_shaped; auto].
    split; simpl; [auto 10|lia].
  Qed.
  Lemma tile_get_edges room rs cs : zlen es <= room -> dcsc_get_edges t room rs cs = Ok (map (unrel rs cs) es).
  Proof.
    destruct Ht as [[-> [junk ->]]|(rp & parts & -> & To & Hp & ->)]; [reflexivity|]. intros Hr. rewrite zlen_tile_edges in Hr.
    rewrite get_edges_encode; auto.
  Qed.

  (** *** multiplication *)
  Lemma row_products_cons {U} (G : edge E -> option U) e l k : row_products G (e :: l) k = (if e_src e =? k then olist (G e) else []) ++ row_products G l k.
  Proof. reflexivity. Qed.
  Lemma row_products_contribs {U} (G : edge E -> option U) (F : Z -> E -> Z -> U) xw l k :
    (forall e, In e l -> if tb xw (e_dst e) then G e = Some (F (e_dst e) (e_val e) (e_src e)) else G e = None) ->
    row_contribs F (selected xw l) k = row_products G l k.
  Proof.
    induction l as [|e l IH]; intros H; [reflexivity|]. rewrite row_products_cons. pose proof (H e (or_introl eq_refl)) as He.
    unfold selected. cbn [filter]. fold (selected xw l). destruct (tb xw (e_dst e)).
    - unfold row_contribs. cbn [filter]. rewrite He; destruct (e_src e =? k); cbn [map olist app]; rewrite <- IH by (intros; apply H; simpl; auto); reflexivity.
    - rewrite He. rewrite IH by (intros; apply H; simpl; auto). destruct (e_src e =? k); reflexivity.
  Qed.

  Section Mul.
    Context {U : Type}.
    Variable add : U -> U -> U.
    Variable xw : list Z.
    Hypothesis Xw : n <= 32 * zlen xw.
    Variable f : Z -> E -> Z -> R U.
    Lemma kernel_tile_interleavings w v w' v' : kernel add false t xw f (w, v) = Ok (w', v') ->
      forall ts' m', psteps sloc_eqb (kernel_pool add false t xw f, smem (w, v)) (ts', m') ->
      ~ bad (ts', m') /\ (finished ts' -> forall l, m' l = smem (w', v') l).
    Proof.
      destruct Ht as [[-> [junk ->]]|(rp & parts & -> & To & Hp & ->)].
      - intros Ek. injection Ek as <- <-. intros ts' m' Ps. change (kernel_pool add false (dcsc_empty m n junk) xw f) with (@nil (thread sloc (@scell U))) in Ps.
        assert (ts' = [] /\ m' = smem (w, v)) as [-> ->].
        { remember ([], smem (w, v)) as c0. remember (ts', m') as c1. revert ts' m' Heqc1. induction Ps as [c|c c' c'' Ps IH Hs]; intros ts' m' ->; [injection Heqc0; auto|].
          destruct c' as [ts1 m1]. destruct (IH Heqc0 ts1 m1 eq_refl) as [-> ->]. inversion Hs; destruct i; discriminate. }
        split; auto. intros (t0 & [] & _).
      - intros Ek. apply kernel_interleavings; auto.
    Qed.
    Variable G : edge E -> option U.
    Hypothesis HG : forall e, In e es -> if tb xw (e_dst e) then exists u, f (e_dst e) (e_val e) (e_src e) = Ok u /\ G e = Some u else G e = None.

    Lemma red_olist (o : option U) : red add (olist o) = o. Proof. destruct o; reflexivity. Qed.

    Lemma kernel_tile w v M : wwf m w -> zlen v = m -> dmap w v M ->
      exists w' v', kernel add false t xw f (w, v) = Ok (w', v') /\ wwf m w' /\ zlen v' = m /\
        dmap w' v' (fun k => red add (olist (M k) ++ row_products G es k)).
    Proof.
      intros W L D. pose proof tile_range as Tr. destruct Ht as [[-> [junk ->]]|(rp & parts & -> & To & Hp & ->)].
      - exists w, v. split; [reflexivity|]. split; auto. split; auto. intros k. rewrite D. unfold row_products. simpl. rewrite app_nil_r, red_olist. auto.
      - rewrite kernel_fold by auto. destruct (selected xw (tile_edges parts)) as [|e0 l] eqn:Es.
        + exists w, v. split; [reflexivity|]. split; auto. split; auto. intros k. rewrite D. f_equal.
          assert (row_products G (tile_edges parts) k = []) as ->; [|rewrite app_nil_r, red_olist; auto].
          assert (forall e, In e (tile_edges parts) -> G e = None) as Hn.
          { intros e He. specialize (HG e He). destruct (tb xw (e_dst e)) eqn:Te; auto. assert (In e (selected xw (tile_edges parts))) as Hs by (apply filter_In; auto).
            rewrite Es in Hs. destruct Hs. }
          clear - Hn. induction (tile_edges parts) as [|e l IH]; [reflexivity|]. rewrite row_products_cons, IH by (intros; apply Hn; simpl; auto).
          rewrite Hn by (simpl; auto). destruct (e_src e =? k); reflexivity.
        + assert (In e0 (selected xw (tile_edges parts))) as I0 by (rewrite Es; simpl; auto). apply filter_In in I0 as [I0 T0].
          pose proof (HG e0 I0) as G0. rewrite T0 in G0. destruct G0 as (u0 & _ & _).
          set (F := fun d a r => match f d a r with Ok u => u | Err _ => u0 end).
          rewrite <- Es. destruct (fold_spec add m f F (selected xw (tile_edges parts)) w v M W L D) as (w' & v' & Ef & W' & L' & D').
          { intros e He. apply filter_In in He as [He Te]. split; [apply Tr; auto|]. specialize (HG e He). rewrite Te in HG. destruct HG as (u & Eu & _). unfold F. rewrite Eu. auto. }
          exists w', v'. split; auto. split; auto. split; auto. intros k. rewrite D'. do 3 f_equal. apply row_products_contribs. intros e He. specialize (HG e He).
          destruct (tb xw (e_dst e)); auto. destruct HG as (u & Eu & ->). unfold F. rewrite Eu. auto.
    Qed.

  End Mul.
End T.

Lemma new_tile {E} srt threads (es : list (edge E)) m n rs cs junk : sorts srt -> 1 <= threads -> (forall e, In e es -> in_rect m n rs cs e) ->
  exists t es0, dcsc_new srt threads es m n rs cs junk = Ok t /\ tile_of m n es0 t /\ Permutation (map (rel rs cs) es) es0.
Proof.
  intros Srt Ht Hin. destruct (Z_le_gt_dec (zlen es) 0) as [L|L].
  - assert (es = []) as -> by (destruct es; auto; rewrite zlen_cons in L; pose proof (zlen_nonneg es); lia).
    exists (dcsc_empty m n junk), []. split; [reflexivity|]. split; [left; eauto|constructor].
  - destruct (dcsc_new_spec srt Srt threads es m n rs cs junk Ht ltac:(lia)) as (rp & parts & E1 & To & Np & Pm & Nz).
    { intros e He. destruct (Hin e He). lia. }
    exists (encode rp m n parts), (tile_edges parts). split; auto. split; auto. right. exists rp, parts. conjs; auto. lia.
Qed.
Lemma new_tile_np {E} srt threads (es : list (edge E)) m n rs cs junk t : sorts srt -> 1 <= threads -> (forall e, In e es -> in_rect m n rs cs e) -> es <> [] ->
  dcsc_new srt threads es m n rs cs junk = Ok t -> t_np t = 16 * threads.
Proof.
  intros Srt Ht Hin Ne En. destruct (dcsc_new_spec srt Srt threads es m n rs cs junk Ht) as (rp & parts & E1 & To & Np & _).
  { destruct es; [congruence|]. rewrite zlen_cons. pose proof (zlen_nonneg es). lia. } { intros e He. destruct (Hin e He). lia. }
  rewrite En in E1. injection E1 as ->. auto.
Qed.

Lemma row_products_perm {E U} (G : edge E -> option U) l l' k : Permutation l l' -> Permutation (row_products G l k) (row_products G l' k).
Proof.
  intros P. unfold row_products. induction P; simpl; auto.
  - apply Permutation_app_head. auto.
  - rewrite !app_assoc. apply Permutation_app_tail. apply Permutation_app_comm.
  - etransitivity; eauto.
Qed.
Lemma row_products_map {E E' U} (G : edge E' -> option U) (h : edge E -> edge E') l k k' :
  (forall e, In e l -> (e_src (h e) =? k) = (e_src e =? k')) -> row_products G (map h l) k = row_products (fun e => G (h e)) l k'.
Proof.
  intros H. unfold row_products. rewrite map_map. f_equal. apply map_ext_in. intros e He. rewrite H; auto.
Qed.

(** ** the kernels on segments *)
Definition live {T byte} (s : seg T byte) : Prop := exists b, s_prop s = Some b /\ b_uninit b = false.

Lemma live_words {T byte} thr ser (x : seg T byte) : swf ser thr x -> live x -> exists b w, prop x = Ok b /\ words b = Ok w /\ ready ser thr (s_cap x) b w.
Proof.
  intros (H0 & H1 & H2 & _) (b & Eb & Ub). rewrite Eb in H2. destruct H2 as [B0 B1]. destruct (B1 Ub) as (w & Ew & Ww).
  exists b, w. unfold prop, words, ready, bwf. rewrite Eb, Ew. conjs; eauto.
Qed.

Section SegK.
  Context {E T V U byte vbyte : Type}.
  Variable add : U -> U -> U.
  Variables (serx servp sery : bool) (thr threads : Z).
  Hypothesis Hth : thok sery thr threads.
  Variables (m n : Z) (es : list (edge E)) (t : dcsc E).
  Hypothesis Ht : tile_of m n es t.

  Lemma finish_mult (y : seg U byte) b w w' v' M : swf sery thr y -> s_cap y = m -> ready sery thr m b w -> wwf m w' -> zlen v' = m -> dmap w' v' M ->
    let y1 := set_prop (Some (set_value v' (set_bits w' b))) (set_prop (Some b) y) in
    exists y', (do k <- seg_compute_nnz y1 ;; do b <- prop y1 ;; Ok (set_prop (Some (set_nnz k b)) y1)) = Ok y' /\
      swf sery thr y' /\ s_cap y' = m /\ live y' /\ s_recv y' = s_recv y /\ s_qmd y' = s_qmd y /\
      forall k, sabs y' k = option_map Some (M k).
  Proof.
    intros W C Rd W' L' D. intros y1.
    assert (ready sery thr m (set_value v' (set_bits w' b)) w') as Rd'.
    { destruct Rd as ([(B0 & B1 & B2 & B3 & B4 & B5 & B6 & B8) B7] & U0 & Bb & Ww). unfold ready, bwf, bwf0; simpl. conjs; auto; try lia; try (destruct W'; auto; fail). eauto. }
    assert (swf sery thr y1) as Wy1. { unfold y1. apply swf_set_prop; [apply swf_set_prop; auto; rewrite C; apply Rd|]. simpl. rewrite C. apply Rd'. }
    rewrite seg_compute_nnz_spec with (ser := sery) (thr := thr) by auto. cbn [bind]. change (prop y1) with (Ok (set_value v' (set_bits w' b))). cbn [bind].
    eexists. split; [reflexivity|]. conjs.
    - apply swf_set_prop; auto. simpl. rewrite C. destruct Rd' as ([B ?] & U0 & Bb & Ww). split; auto.
    - auto.
    - eexists. split; [reflexivity|]. simpl. apply Rd.
    - reflexivity.
    - reflexivity.
    - intros k. unfold sabs, babs. simpl. destruct Rd as (_ & U0 & _). rewrite U0. apply D.
  Qed.

  Definition prod2 (mul : E -> T -> U) (X : Z -> option T) (e : edge E) : option U := option_map (mul (e_val e)) (X (e_dst e)).
  Definition prod3 (mul : E -> T -> V -> U) (X : Z -> option T) (P : Z -> option V) (e : edge E) : option U :=
    match X (e_dst e), P (e_src e) with Some x, Some p => Some (mul (e_val e) x p) | _, _ => None end.

  Lemma dmap_rdi {A} cap w v (M : Z -> option A) k a : wwf cap w -> zlen v = cap -> dmap w v M -> M k = Some a -> tb w k = true /\ rdi v k = Ok a.
  Proof.
    intros W L D Mk. pose proof (D k) as Dk. rewrite Mk in Dk. unfold wabs in Dk. destruct (tb w k) eqn:Tk; [|discriminate]. split; auto.
    unfold rdi. destruct (rd v k); [|discriminate]. injection Dk as ->. reflexivity.
  Qed.
  Lemma dmap_none {A} cap w v (M : Z -> option A) k : wwf cap w -> zlen v = cap -> dmap w v M -> M k = None -> tb w k = false.
  Proof.
    intros W L D Mk. pose proof (D k) as Dk. rewrite Mk in Dk. unfold wabs in Dk. destruct (tb w k) eqn:Tk; auto.
    destruct (wabs_ok cap w v k W L Tk) as (c & Rc & _). rewrite Rc in Dk. discriminate.
  Qed.
  Lemma sabs_dmap {A b} ser (x : seg A b) bx w M : ready ser thr (s_cap x) bx w -> prop x = Ok bx -> (forall k, sabs x k = option_map Some (M k)) -> dmap w (b_value bx) M.
  Proof.
    intros (_ & U0 & Bb & _) Px H k. rewrite <- H. unfold prop in Px. unfold sabs. destruct (s_prop x); [|discriminate]. injection Px as ->. unfold babs. rewrite U0, Bb. auto.
  Qed.

  Lemma mult_segment_spec mul (x : seg T byte) (y : seg U byte) X Y :
    swf serx thr x -> s_cap x = n -> live x -> (forall k, sabs x k = option_map Some (X k)) ->
    swf sery thr y -> s_cap y = m -> (forall k, sabs y k = option_map Some (Y k)) ->
    exists y', mult_segment add threads mul t x y = Ok y' /\ swf sery thr y' /\ s_cap y' = m /\ live y' /\ s_recv y' = s_recv y /\ s_qmd y' = s_qmd y /\
      forall k, sabs y' k = option_map Some (red add (olist (Y k) ++ row_products (prod2 mul X) es k)).
  Proof.
    intros Wx Cx Lx Ax Wy Cy Ay. unfold mult_segment.
    destruct (seg_init_spec sery thr threads y Hth Wy) as (b & w & E0 & Rd & A & _). rewrite E0. cbn [bind].
    destruct (live_words thr serx x Wx Lx) as (bx & xw & Px & Ew & Rx). rewrite Px. cbn [bind]. rewrite Ew. cbn [bind]. rewrite prop_set_prop. cbn [bind].
    pose proof Rd as (Bw & U0 & Bb & Ww). unfold words at 1. rewrite Bb. cbn [bind]. rewrite Cy in *. rewrite Cx in *.
    pose proof (sabs_dmap serx x bx xw X ltac:(rewrite Cx; auto) Px Ax) as Dx. pose proof Rx as (Bx & Ux & Bbx & Wwx).
    assert (zlen (b_value bx) = n) as Lvx by apply Bx.
    assert (dmap w (b_value b) Y) as Dy. { intros k. rewrite <- Ay, <- A. unfold babs. rewrite U0, Bb. reflexivity. }
    assert (n <= 32 * zlen xw) as Xw. { destruct Wwx as [-> _]. pose proof (num_ints_bounds n). destruct Bx as [[? _] _]. lia. }
    destruct (kernel_tile m n es t Ht add xw Xw (mul2 mul (b_value bx)) (prod2 mul X)) with (w := w) (v := b_value b) (M := Y) as (w' & v' & Ek & W' & L' & D'); auto.
    - intros e He. unfold prod2. destruct (X (e_dst e)) as [a|] eqn:Xe.
      + destruct (dmap_rdi n xw (b_value bx) X _ a Wwx Lvx Dx Xe) as [-> Ra]. unfold mul2. rewrite Ra. simpl. eauto.
      + rewrite (dmap_none n xw (b_value bx) X _ Wwx Lvx Dx Xe). reflexivity.
    - apply Bw.
    - rewrite Ek. cbn [bind fst snd]. eapply finish_mult; eauto.
  Qed.

  Lemma mult_segment3_spec mul (x : seg T byte) (vp : seg V vbyte) (y : seg U byte) X P Y :
    swf serx thr x -> s_cap x = n -> live x -> (forall k, sabs x k = option_map Some (X k)) ->
    swf servp thr vp -> s_cap vp = m -> live vp -> (forall k, sabs vp k = option_map Some (P k)) -> (forall k, 0 <= k < m -> P k <> None) ->
    swf sery thr y -> s_cap y = m -> (forall k, sabs y k = option_map Some (Y k)) ->
    exists y', mult_segment3 add threads mul t x vp y = Ok y' /\ swf sery thr y' /\ s_cap y' = m /\ live y' /\ s_recv y' = s_recv y /\ s_qmd y' = s_qmd y /\
      forall k, sabs y' k = option_map Some (red add (olist (Y k) ++ row_products (prod3 mul X P) es k)).
  Proof.
    intros Wx Cx Lx Ax Wp Cp Lp Ap Pp Wy Cy Ay. unfold mult_segment3.
    destruct (seg_init_spec sery thr threads y Hth Wy) as (b & w & E0 & Rd & A & _). rewrite E0. cbn [bind].
    destruct (live_words thr serx x Wx Lx) as (bx & xw & Px & Ew & Rx). rewrite Px. cbn [bind]. rewrite Ew. cbn [bind].
    assert (exists bv vw, prop vp = Ok bv /\ words bv = Ok vw /\ ready servp thr (s_cap vp) bv vw) as (bv & vw & Pv & Ewv & Rv).
    { apply (live_words thr servp vp Wp Lp). }
    rewrite Pv. cbn [bind]. rewrite Ewv. cbn [bind]. rewrite prop_set_prop. cbn [bind].
    pose proof Rd as (Bw & U0 & Bb & Ww). unfold words at 1. rewrite Bb. cbn [bind]. rewrite Cy in *. rewrite Cx in *. rewrite Cp in *.
    pose proof (sabs_dmap serx x bx xw X ltac:(rewrite Cx; auto) Px Ax) as Dx. pose proof Rx as (Bx & Ux & Bbx & Wwx).
    pose proof (sabs_dmap servp vp bv vw P ltac:(rewrite Cp; auto) Pv Ap) as Dp. pose proof Rv as (Bv & Uv & Bbv & Wwv).
    assert (zlen (b_value bx) = n) as Lvx by apply Bx. assert (zlen (b_value bv) = m) as Lvv by apply Bv.
    assert (dmap w (b_value b) Y) as Dy. { intros k. rewrite <- Ay, <- A. unfold babs. rewrite U0, Bb. reflexivity. }
    assert (n <= 32 * zlen xw) as Xw. { destruct Wwx as [-> _]. pose proof (num_ints_bounds n). destruct Bx as [[? _] _]. lia. }
    destruct (kernel_tile m n es t Ht add xw Xw (mul3 mul (b_value bx) vw (b_value bv)) (prod3 mul X P)) with (w := w) (v := b_value b) (M := Y) as (w' & v' & Ek & W' & L' & D'); auto.
    - intros e He. unfold prod3. destruct (X (e_dst e)) as [a|] eqn:Xe.
      + destruct (dmap_rdi n xw (b_value bx) X _ a Wwx Lvx Dx Xe) as [-> Ra]. unfold mul3.
        destruct (tile_range m n es t Ht e He) as [Hs _]. destruct (P (e_src e)) as [p|] eqn:Pe; [|exfalso; apply (Pp _ Hs); auto].
        destruct (dmap_rdi m vw (b_value bv) P _ p Wwv Lvv Dp Pe) as [Tp Rp]. rewrite bv_get_ok.
        * rewrite Tp. cbn [bind assertb]. rewrite Ra. cbn [bind]. rewrite Rp. cbn [bind]. eauto.
        * destruct Wwv as [-> _]. pose proof (num_ints_bounds m). lia.
      + rewrite (dmap_none n xw (b_value bx) X _ Wwx Lvx Dx Xe). reflexivity.
    - apply Bw.
    - rewrite Ek. cbn [bind fst snd]. eapply finish_mult; eauto.
  Qed.
End SegK.

Section SegAE.
  Context {E V byte : Type}.
  Variable op : E -> V -> V -> E.
  Variables (ser : bool) (thr : Z).
  Variables (m n : Z) (es : list (edge E)) (t : dcsc E).
  Hypothesis Ht : tile_of m n es t.
  Variables (s1 s2 : seg V byte) (X Y : Z -> V).
  Hypothesis W1 : swf ser thr s1.
  Hypothesis W2 : swf ser thr s2.
  Hypothesis C1 : s_cap s1 = n.
  Hypothesis C2 : s_cap s2 = m.
  Hypothesis L1 : live s1.
  Hypothesis L2 : live s2.
  Hypothesis A1 : forall k, 0 <= k < n -> sabs s1 k = Some (Some (X k)).
  Hypothesis A2 : forall k, 0 <= k < m -> sabs s2 k = Some (Some (Y k)).

  Lemma live_cell (s : seg V byte) F cap : swf ser thr s -> s_cap s = cap -> live s -> (forall k, 0 <= k < cap -> sabs s k = Some (Some (F k))) ->
    exists b w, prop s = Ok b /\ words b = Ok w /\ forall k, 0 <= k < cap -> bv_get w k = Ok true /\ rdi (b_value b) k = Ok (F k).
  Proof.
    intros W C L A. destruct (live_words thr ser s W L) as (b & w & P & Ew & Rd). exists b, w. split; auto. split; auto.
    intros k Hk. specialize (A k Hk). destruct L as (b0 & Eb & Ub). unfold prop in P. rewrite Eb in P. injection P as ->. unfold sabs, babs in A. rewrite Eb, Ub in A.
    destruct Rd as (_ & _ & Bb & Ww1 & _). rewrite Bb in A. unfold wabs in A. destruct (tb w k) eqn:Tk; [|discriminate]. rewrite bv_get_ok by (rewrite Ww1; pose proof (num_ints_bounds cap); rewrite C; lia).
    rewrite Tk. split; auto. unfold rdi. destruct (rd (b_value b) k); [|discriminate]. injection A as ->. reflexivity.
  Qed.

  Lemma apply_edges_spec : exists t', apply_edges false op t s1 s2 = Ok t' /\
    tile_of m n (map (fun e => mkE (e_src e) (e_dst e) (op (e_val e) (X (e_dst e)) (Y (e_src e)))) es) t'.
  Proof.
    unfold apply_edges. rewrite (tile_nnz m n es t Ht). pose proof (tile_range m n es t Ht) as Tr.
    destruct Ht as [[-> [junk ->]]|(rp & parts & -> & To & Hp & ->)].
    - exists (dcsc_empty m n junk). split; [reflexivity|]. left. split; auto. eauto.
    - rewrite (proj2 (Z.leb_gt _ 0)) by (rewrite zlen_tile_edges; auto).
      destruct (live_cell s1 X n W1 C1 L1 A1) as (b1 & w1 & P1 & Ew1 & H1). destruct (live_cell s2 Y m W2 C2 L2 A2) as (b2 & w2 & P2 & Ew2 & H2).
      rewrite P1. cbn [bind]. rewrite P2. cbn [bind]. rewrite Ew2. cbn [bind]. change (t_np (encode rp m n parts)) with (zlen parts).
      rewrite (apply_vals op rp m n parts (b_value b1) w2 (b_value b2) X Y).
      + cbn [bind]. eexists. split; [reflexivity|]. right. rewrite set_vals_new. exists rp, (newparts op parts X Y).
        split; auto. split; [apply newparts_ok; auto|]. pose proof (newparts_edges op parts X Y) as Ne. split; [|rewrite Ne; reflexivity].
        rewrite <- zlen_tile_edges, Ne, zlen_map, zlen_tile_edges. auto.
      + intros e He. apply H1. apply Tr. auto.
      + intros e He. apply H2. apply Tr. auto.
      + discriminate.
  Qed.
End SegAE.

(** ** look-ahead, layout-free *)
Lemma slot_bound {E} m n es (t : dcsc E) i c : tile_of m n es t -> slot t i c -> 0 <= i /\ i + 4 <= zlen (t_col_idx t) + 2.
Proof.
  intros [[_ [junk ->]]|(rp & parts & -> & To & Hp & _)] (p & a & b & Ea & Eb & B & Ec).
  - apply rd_bounds in Ea. unfold zlen in Ea. simpl in Ea. lia.
  - pose proof (rd_bounds _ _ _ Ea) as B1. pose proof (rd_bounds _ _ _ Eb) as B2.
    assert (zlen (t_col_starts (encode rp m n parts)) = zlen parts + 1) as Lc by (simpl; rewrite prefix_sums_len, zlen_map; auto).
    rewrite Lc in *. destruct (rd_ok parts p) as [cs Hcs]; [lia|]. rewrite enc_cs in Ea, Eb by lia. injection Ea as <-. injection Eb as <-.
    pose proof (offs_nonneg (part_idx n) parts p). pose proof (flat_room (part_idx n) parts p cs Hcs) as Fr. rewrite (coff_succ n parts p cs Hcs) in B. rewrite zlen_part_idx in Fr.
    simpl. lia.
Qed.

Section Strict.
  Context {E U V : Type}.
  Variables (m n : Z) (es : list (edge E)) (t : dcsc E).
  Hypothesis Ht : tile_of m n es t.
  Lemma kernel_ahead (add : U -> U -> U) xw f wv r : n <= 32 * zlen xw -> kernel add false t xw f wv = Ok r ->
    ((forall i c, slot t i c -> bv_get xw c = Ok true -> i + 4 < zlen (t_col_idx t)) -> kernel add true t xw f wv = Ok r) /\
    ((exists i c, slot t i c /\ bv_get xw c = Ok true /\ zlen (t_col_idx t) <= i + 4) -> kernel add true t xw f wv = Err OOB).
  Proof.
    intros Xw Hk. destruct Ht as [[_ [junk ->]]|(rp & parts & -> & To & Hp & _)].
    - split; [intros _; exact Hk|]. intros (i & c & Hs & _). pose proof Hs as (p & a & b & Ea & _). apply rd_bounds in Ea. unfold zlen in Ea. simpl in Ea. lia.
    - assert (forall i c, slot (encode rp m n parts) i c -> 0 <= c < n) as Hc.
      { intros i c (p & a & b & Ea & Eb & B & Ec). pose proof (rd_bounds _ _ _ Ea) as B1. pose proof (rd_bounds _ _ _ Eb) as B2.
        assert (zlen (t_col_starts (encode rp m n parts)) = zlen parts + 1) as Lc by (simpl; rewrite prefix_sums_len, zlen_map; auto).
        rewrite Lc in *. destruct (rd_ok parts p) as [cs Hcs]; [lia|]. rewrite enc_cs in Ea, Eb by lia. injection Ea as <-. injection Eb as <-.
        rewrite (coff_succ n parts p cs Hcs) in B. destruct (rd_ok cs (i - offs (part_idx n) parts p)) as [col Hcol]; [lia|].
        pose proof (enc_idx rp m n parts p cs _ col Hcs Hcol) as Ei. replace (offs (part_idx n) parts p + (i - offs (part_idx n) parts p)) with i in Ei by lia.
        rewrite Ec in Ei. injection Ei as ->. destruct (to_cols _ _ _ _ To p cs Hcs) as (_ & H & _). apply H. eapply rd_In; eauto. }
      rewrite (kernel_strict add rp m n parts To xw Xw f wv r Hk). pose proof (allsel_spec rp m n parts (tb xw)) as As. split.
      + intros H. rewrite (proj2 As); auto. intros i c Hs Tc. apply (H i c Hs). rewrite bv_get_ok by (pose proof (Hc i c Hs); lia). congruence.
      + intros (i & c & Hs & Tc & L). destruct (allsel rp m n parts (tb xw)) eqn:Ea; auto. rewrite bv_get_ok in Tc by (pose proof (Hc i c Hs); lia). injection Tc as Tc.
        pose proof (proj1 As eq_refl i c Hs Tc). lia.
  Qed.

  Lemma apply_ahead (op : E -> V -> V -> E) {byte} (s1 s2 : seg V byte) r : apply_edges false op t s1 s2 = Ok r ->
    ((forall i c, slot t i c -> i + 4 < zlen (t_col_idx t)) -> apply_edges true op t s1 s2 = Ok r) /\
    ((exists i c, slot t i c /\ zlen (t_col_idx t) <= i + 4) -> apply_edges true op t s1 s2 = Err OOB).
  Proof.
    intros Hk. destruct Ht as [[_ [junk ->]]|(rp & parts & -> & To & Hp & _)].
    - split; [intros _; exact Hk|]. intros (i & c & Hs & _). pose proof Hs as (p & a & b & Ea & _). apply rd_bounds in Ea. unfold zlen in Ea. simpl in Ea. lia.
    - assert (apply_edges true op (encode rp m n parts) s1 s2 = if allsel rp m n parts (fun _ => true) then Ok r else Err OOB) as ->.
      { unfold apply_edges in *. change (t_nnz (encode rp m n parts)) with (zlen (flat_map centries parts)) in *. rewrite (proj2 (Z.leb_gt _ 0)) in * by auto.
        apply bind_Ok in Hk as (b1 & -> & Hk). cbn [bind]. apply bind_Ok in Hk as (b2 & -> & Hk). cbn [bind]. apply bind_Ok in Hk as (w2 & -> & Hk). cbn [bind].
        apply bind_Ok in Hk as (vals & Hv & Hk). injection Hk as <-.
        rewrite (forZ_guard (applyedges_part false op (encode rp m n parts) (b_value b1) w2 (b_value b2)) (applyedges_part true op (encode rp m n parts) (b_value b1) w2 (b_value b2))
                   (fun p => forallb (colsel rp m n parts (fun _ => true) p) (zrange 0 (nslots n parts p))) 0 (t_np (encode rp m n parts)) (t_vals (encode rp m n parts)) vals).
        - change (t_np (encode rp m n parts)) with (zlen parts). unfold allsel. destruct (forallb _ _); reflexivity.
        - intros p s s' Hpp H. change (t_np (encode rp m n parts)) with (zlen parts) in Hpp. destruct (rd_ok parts p Hpp) as [cs Hcs].
          unfold applyedges_part in *. rewrite !enc_cs in * by lia. cbn [bind] in *. rewrite enc_ep in * by lia. cbn [bind] in *.
          unfold nslots. revert H. apply forZ_guard. intros j s3 s4 Hj H.
          rewrite (coff_succ n parts p cs Hcs) in Hj. destruct (rd_ok cs j) as [c Hjc]; [lia|].
          unfold colsel. rewrite (enc_idx rp m n parts p cs j c Hcs Hjc) in *. cbn [bind negb orb] in *. pose proof (offs_nonneg (part_idx n) parts p).
          rewrite (ahead_ok rp m n parts) by lia. destruct (_ <? _); [|reflexivity]. cbn [bind]. cbn [look_ahead bind] in H. auto.
        - exact Hv. }
      pose proof (allsel_spec rp m n parts (fun _ => true)) as As. split.
      + intros H. rewrite (proj2 As); [reflexivity|]. intros i c Hs _. exact (H i c Hs).
      + intros (i & c & Hs & L). destruct (allsel rp m n parts (fun _ => true)) eqn:Ea; auto. pose proof (proj1 As eq_refl i c Hs eq_refl). lia.
  Qed.
End Strict.

(** ** an actual sort, to show that [sorts] can be met *)
Section ISort.
  Context {E : Type}.
  Fixpoint insert (a : tedge E) (l : list (tedge E)) : list (tedge E) :=
    match l with [] => [a] | b :: r => if compare_dcsc b a then b :: insert a r else a :: b :: r end.
  Definition isort (l : list (tedge E)) : list (tedge E) := fold_right insert [] l.
  Lemma insert_perm a l : Permutation (a :: l) (insert a l).
  Proof. induction l as [|b l IH]; simpl; auto. destruct (compare_dcsc b a); auto. rewrite perm_swap. constructor. auto. Qed.
  Lemma compare_total (a b : tedge E) : compare_dcsc a b = true -> compare_dcsc b a = false.
  Proof. unfold compare_dcsc. repeat match goal with |- context [?x <? ?y] => destruct (Z.ltb_spec x y) end; intros; try discriminate; auto; lia. Qed.
  Lemma compare_trans (a b c : tedge E) : compare_dcsc b a = false -> compare_dcsc c b = false -> compare_dcsc c a = false.
  Proof. unfold compare_dcsc. repeat match goal with |- context [?x <? ?y] => destruct (Z.ltb_spec x y) end; intros; try discriminate; auto; lia. Qed.
  Lemma isort_sorts : sorts isort.
  Proof.
    intros l. induction l as [|a l [P S]]; simpl; [split; constructor|]. split.
    - transitivity (a :: isort l); [auto|apply insert_perm].
    - revert S. clear. generalize (isort l) as l'. intros l'. induction 1 as [|b l0 S IH F]; simpl; [repeat constructor|].
      destruct (compare_dcsc b a) eqn:C.
      + constructor; auto. rewrite Forall_forall. intros x Hx. apply (Permutation_in _ (Permutation_sym (insert_perm a l0))) in Hx as [<-|Hx]; [apply compare_total; auto|].
        rewrite Forall_forall in F. auto.
      + constructor; [constructor; auto|]. rewrite Forall_forall. intros x [<-|Hx]; auto. rewrite Forall_forall in F. eapply compare_trans; eauto.
  Qed.
End ISort.

(** ** the statements about freshly built tiles *)
Section Built.
  Context {E T V U : Type}.
  Variable srt : list (tedge E) -> list (tedge E).
  Hypothesis Srt : sorts srt.
  Variables (threads : Z) (es : list (edge E)) (m n rs cs junk : Z).
  Hypothesis Ht : 1 <= threads.
  Hypothesis Hin : forall e, In e es -> in_rect m n rs cs e.

  Lemma products_built (G : edge E -> option U) es0 k : Permutation (map (rel rs cs) es) es0 ->
    Permutation (row_products (fun e => G (rel rs cs e)) es (k + 1 + rs)) (row_products G es0 k).
  Proof.
    intros P. etransitivity; [|apply row_products_perm; exact P]. rewrite row_products_map with (k' := k + 1 + rs); [reflexivity|].
    intros e He. simpl. destruct (Z.eqb_spec (e_src e - 1 - rs) k), (Z.eqb_spec (e_src e) (k + 1 + rs)); auto; lia.
  Qed.
  Lemma unrel_products (G : edge E -> option U) es0 k : row_products G es0 k = row_products (fun e => G (rel rs cs e)) (map (unrel rs cs) es0) (k + 1 + rs).
  Proof.
    rewrite row_products_map with (k' := k).
    - unfold row_products. f_equal. apply map_ext. intros e. destruct (e_src e =? k); auto. do 2 f_equal. destruct e; unfold rel, unrel; simpl; f_equal; lia.
    - intros e He. simpl. destruct (Z.eqb_spec (rs + e_src e + 1) (k + 1 + rs)), (Z.eqb_spec (e_src e) k); auto; lia.
  Qed.
  Lemma perm_unrel es0 : Permutation (map (rel rs cs) es) es0 -> Permutation es (map (unrel rs cs) es0).
  Proof.
    intros P. apply (Permutation_map (unrel rs cs)) in P. rewrite map_map in P. rewrite (map_ext _ (fun e => e)) in P by (intros; apply unrel_rel). rewrite map_id in P. auto.
  Qed.

  (** products in terms of the original 1-based entries *)
  Definition product2 (mul : E -> T -> U) (X : Z -> option T) (e : edge E) : option U := option_map (mul (e_val e)) (X (e_dst e - 1 - cs)).
  Definition product3 (mul : E -> T -> V -> U) (X : Z -> option T) (P : Z -> option V) (e : edge E) : option U :=
    match X (e_dst e - 1 - cs), P (e_src e - 1 - rs) with Some x, Some p => Some (mul (e_val e) x p) | _, _ => None end.

  Lemma built_kernel (add : U -> U -> U) xw f G w (v : list (option U)) M : n <= 32 * zlen xw ->
    (forall e, In e es -> if tb xw (e_dst e - 1 - cs) then exists u, f (e_dst e - 1 - cs) (e_val e) (e_src e - 1 - rs) = Ok u /\ G e = Some u else G e = None) ->
    (forall e, G (unrel rs cs (rel rs cs e)) = G e) ->
    wwf m w -> zlen v = m -> dmap w v M ->
    exists t out w' v', dcsc_new srt threads es m n rs cs junk = Ok t /\ Permutation es out /\
      kernel add false t xw f (w, v) = Ok (w', v') /\ wwf m w' /\ zlen v' = m /\
      dmap w' v' (fun k => red add (olist (M k) ++ row_products G out (k + 1 + rs))) /\
      (commutative add -> associative add -> dmap w' v' (fun k => red add (olist (M k) ++ row_products G es (k + 1 + rs)))) /\
      forall ts' m', psteps sloc_eqb (kernel_pool add false t xw f, smem (w, v)) (ts', m') ->
        ~ bad (ts', m') /\ (finished ts' -> forall l, m' l = smem (w', v') l).
  Proof.
    intros Xw HG Hu W L D. destruct (new_tile srt threads es m n rs cs junk Srt Ht Hin) as (t & es0 & En & Tt & Pm).
    pose proof (perm_unrel es0 Pm) as Po.
    destruct (kernel_tile m n es0 t Tt add xw Xw f (fun e => G (unrel rs cs e))) with (w := w) (v := v) (M := M) as (w' & v' & Ek & W' & L' & D'); auto.
    { intros e He. apply (Permutation_in _ (Permutation_sym Pm)) in He. apply in_map_iff in He as (e' & <- & He). specialize (HG e' He). simpl. rewrite Hu. auto. }
    assert (forall k, row_products (fun e => G (unrel rs cs e)) es0 k = row_products G (map (unrel rs cs) es0) (k + 1 + rs)) as Ep.
    { intros k. symmetry. apply (row_products_map G (unrel rs cs)). intros e He. simpl. destruct (Z.eqb_spec (rs + e_src e + 1) (k + 1 + rs)), (Z.eqb_spec (e_src e) k); auto; lia. }
    exists t, (map (unrel rs cs) es0), w', v'. split; auto. split; auto. split; auto. split; auto. split; auto. split; [|split].
    - intros k. rewrite <- Ep. apply D'.
    - intros Cm As k. rewrite D'. f_equal. rewrite Ep. apply red_perm; auto. apply Permutation_app_head. apply row_products_perm. symmetry. auto.
    - apply (kernel_tile_interleavings m n es0 t Tt add xw Xw f); auto.
  Qed.
End Built.

Definition inside {T} (n : Z) (M : Z -> option T) (k : Z) : option T := if (0 <=? k) && (k <? n) then M k else None.
Lemma represents_dmap {T} n w v (M : Z -> option T) : 0 <= n -> represents n w v M -> wwf n w /\ zlen v = n /\ dmap w v (inside n M).
Proof.
  intros Hn (Lw & Lv & Tw & H). split; [split; auto|]. split; auto. intros k. unfold inside, wabs.
  destruct (Z.leb_spec 0 k); cbn [andb].
  - destruct (Z.ltb_spec k n).
    + destruct (H k) as [Hb Hv]; [lia|]. rewrite bv_get_ok in Hb by (rewrite Lw; pose proof (num_ints_bounds n Hn); lia). injection Hb as ->.
      destruct (M k) as [a|]; auto. rewrite (Hv a eq_refl). reflexivity.
    + rewrite Tw by lia. reflexivity.
  - rewrite tb_out by lia. reflexivity.
Qed.
Lemma dmap_represents {T} n w v (M M' : Z -> option T) : 0 <= n -> wwf n w -> zlen v = n -> dmap w v M -> (forall k, 0 <= k < n -> M k = M' k) -> represents n w v M'.
Proof.
  intros Hn [Lw Tw] Lv D HM. split; auto. split; auto. split; auto. intros k Hk. rewrite <- HM by auto. pose proof (D k) as Dk. unfold wabs in Dk.
  rewrite bv_get_ok by (rewrite Lw; pose proof (num_ints_bounds n Hn); lia). destruct (rd_ok v k) as [c Hc]; [lia|]. rewrite Hc in Dk.
  destruct (tb w k); destruct (M k); try discriminate; split; auto; try discriminate. intros a0 Ha. injection Ha as <-. injection Dk as ->. auto.
Qed.

Section Final.
  Context {E T V U : Type}.
  Variable srt : list (tedge E) -> list (tedge E).
  Hypothesis Srt : sorts srt.
  Variables (threads : Z) (es : list (edge E)) (m n rs cs junk : Z).
  Hypothesis Ht : 1 <= threads.
  Hypothesis Hm : 0 <= m.
  Hypothesis Hn : 0 <= n.
  Hypothesis Hin : forall e, In e es -> in_rect m n rs cs e.
  Variable add : U -> U -> U.

  Definition multiplied (f : Z -> E -> Z -> R U) (G : edge E -> option U) xw w (v : list (option U)) (M : Z -> option U) : Prop :=
    exists t out w' v', dcsc_new srt threads es m n rs cs junk = Ok t /\ Permutation es out /\
      kernel add false t xw f (w, v) = Ok (w', v') /\
      represents m w' v' (fun k => red add (olist (M k) ++ row_products G out (k + 1 + rs))) /\
      (commutative add -> associative add -> represents m w' v' (fun k => red add (olist (M k) ++ row_products G es (k + 1 + rs)))) /\
      forall ts' m', psteps sloc_eqb (kernel_pool add false t xw f, smem (w, v)) (ts', m') ->
        ~ bad (ts', m') /\ (finished ts' -> forall l, m' l = smem (w', v') l).

  Lemma multiplied_intro f G xw w v M : represents m w v M -> n <= 32 * zlen xw ->
    (forall e, In e es -> if tb xw (e_dst e - 1 - cs) then exists u, f (e_dst e - 1 - cs) (e_val e) (e_src e - 1 - rs) = Ok u /\ G e = Some u else G e = None) ->
    multiplied f G xw w v M.
  Proof.
    intros Rw Xw HG. destruct (represents_dmap m w v M Hm Rw) as (W & L & D).
    destruct (built_kernel srt Srt threads es m n rs cs junk Ht Hin add xw f G w v (inside m M) Xw HG (fun e => f_equal G (unrel_rel rs cs e)) W L D)
      as (t & out & w' & v' & En & Po & Ek & W' & L' & D1 & D2 & Hs).
    assert (forall k, 0 <= k < m -> inside m M k = M k) as Hi.
    { intros k Hk. unfold inside. destruct (Z.leb_spec 0 k), (Z.ltb_spec k m); simpl; auto; lia. }
    exists t, out, w', v'. split; auto. split; auto. split; auto. split; [|split; auto].
    - eapply dmap_represents; eauto. simpl. intros k Hk. rewrite Hi; auto.
    - intros C A. eapply dmap_represents; [auto|auto|auto|apply (D2 C A)|]. simpl. intros k Hk. rewrite Hi; auto.
  Qed.

  Lemma in_cols e : In e es -> 0 <= e_dst e - 1 - cs < n /\ 0 <= e_src e - 1 - rs < m.
  Proof. intros He. destruct (Hin e He). lia. Qed.

  Lemma multiplied2 (mul : E -> T -> U) xw xv X w v M : represents n xw xv X -> represents m w v M ->
    multiplied (mul2 mul xv) (fun e => option_map (mul (e_val e)) (X (e_dst e - 1 - cs))) xw w v M.
  Proof.
    intros Rx Rw. apply multiplied_intro; auto; destruct Rx as (Lx & Lv & _ & H); pose proof (num_ints_bounds n Hn); [lia|].
    intros e He. destruct (H (e_dst e - 1 - cs)) as [Hb Hv]; [apply in_cols; auto|]. rewrite bv_get_ok in Hb by (pose proof (in_cols e He); lia). injection Hb as ->.
    destruct (X (e_dst e - 1 - cs)) as [a|]; simpl; auto. unfold mul2, rdi. rewrite (Hv a eq_refl). simpl. eauto.
  Qed.
  Lemma multiplied3 (mul : E -> T -> V -> U) xw xv X vw vv P w v M : represents n xw xv X -> represents m vw vv (fun k => Some (P k)) -> represents m w v M ->
    multiplied (mul3 mul xv vw vv) (fun e => option_map (fun x => mul (e_val e) x (P (e_src e - 1 - rs))) (X (e_dst e - 1 - cs))) xw w v M.
  Proof.
    intros Rx Rp Rw. apply multiplied_intro; auto; destruct Rx as (Lx & Lv & _ & H); pose proof (num_ints_bounds n Hn); [lia|].
    intros e He. destruct (H (e_dst e - 1 - cs)) as [Hb Hv]; [apply in_cols; auto|]. rewrite bv_get_ok in Hb by (pose proof (in_cols e He); lia). injection Hb as ->.
    destruct (X (e_dst e - 1 - cs)) as [a|]; simpl; auto. destruct Rp as (_ & _ & _ & Hp). destruct (Hp (e_src e - 1 - rs)) as [Gp Vp]; [apply in_cols; auto|].
    unfold mul3. rewrite Gp. cbn [bind assertb]. unfold rdi. rewrite (Hv a eq_refl). cbn [bind]. rewrite (Vp _ eq_refl). simpl. eauto.
  Qed.

  Lemma built_save_load t rest : dcsc_new srt threads es m n rs cs junk = Ok t -> exists ar, dcsc_save t = Ok ar /\ dcsc_load (ar ++ rest) = Ok (t, rest).
  Proof.
    intros En. destruct (new_tile srt threads es m n rs cs junk Srt Ht Hin) as (t' & es0 & En' & Tt & _). rewrite En in En'. injection En' as <-.
    apply save_load. eapply tile_shaped; eauto.
  Qed.
  Lemma built_ahead t xw f wv r : dcsc_new srt threads es m n rs cs junk = Ok t -> n <= 32 * zlen xw -> kernel add false t xw f wv = Ok r ->
    ((forall i c, slot t i c -> bv_get xw c = Ok true -> i + 4 < zlen (t_col_idx t)) -> kernel add true t xw f wv = Ok r) /\
    ((exists i c, slot t i c /\ bv_get xw c = Ok true /\ zlen (t_col_idx t) <= i + 4) -> kernel add true t xw f wv = Err OOB) /\
    (forall i c, slot t i c -> i + 4 <= zlen (t_col_idx t) + 2).
  Proof.
    intros En Xw Ek. destruct (new_tile srt threads es m n rs cs junk Srt Ht Hin) as (t' & es0 & En' & Tt & _). rewrite En in En'. injection En' as <-.
    destruct (kernel_ahead m n es0 t Tt add xw f wv r Xw Ek). split; auto. split; auto. intros i c Hs. apply (slot_bound m n es0 t i c Tt Hs).
  Qed.
  Lemma built_apply_ahead {byte} (op : E -> V -> V -> E) t (s1 s2 : seg V byte) r : dcsc_new srt threads es m n rs cs junk = Ok t -> apply_edges false op t s1 s2 = Ok r ->
    ((forall i c, slot t i c -> i + 4 < zlen (t_col_idx t)) -> apply_edges true op t s1 s2 = Ok r) /\
    ((exists i c, slot t i c /\ zlen (t_col_idx t) <= i + 4) -> apply_edges true op t s1 s2 = Err OOB).
  Proof.
    intros En Ek. destruct (new_tile srt threads es m n rs cs junk Srt Ht Hin) as (t' & es0 & En' & Tt & _). rewrite En in En'. injection En' as <-.
    apply (apply_ahead m n es0 t Tt op s1 s2 r Ek).
  Qed.
End Final.

(** deciding [represents] on integers, for the examples *)
Lemma represents_check n w v M : zlen w = num_ints_of n -> zlen v = n ->
  forallb (fun k => negb (tb w k)) (zrange n (32 * zlen w)) &&
  forallb (fun k => match bv_get w k, M k, rd v k with Ok true, Some a, Ok (Some b) => a =? b | Ok false, None, _ => true | _, _, _ => false end) (zrange 0 n) = true ->
  represents n w v M.
Proof.
  intros L1 L2 H. apply andb_prop in H as [H1 H2]. rewrite forallb_forall in H1, H2. split; auto. split; auto. split.
  - intros k Hk. destruct (Z_lt_dec k (32 * zlen w)); [|apply tb_out; lia]. assert (In k (zrange n (32 * zlen w))) as Hin by (apply in_zrange; lia).
    specialize (H1 k Hin). destruct (tb w k); auto; discriminate.
  - intros k Hk. assert (In k (zrange 0 n)) as Hin by (apply in_zrange; lia). specialize (H2 k Hin).
    destruct (bv_get w k) as [[]|]; try discriminate; destruct (M k) as [a|]; try discriminate.
    + destruct (rd v k) as [[b|]|]; try discriminate. apply Z.eqb_eq in H2. subst. split; auto. intros ? E; injection E as <-; auto.
    + split; auto. discriminate.
Qed.
