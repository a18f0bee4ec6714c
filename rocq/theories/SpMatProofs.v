From Coq Require Import Sorting.Sorted.
From Verif Require Import BaseLemmas Layout LayoutProofs Search SearchProofs Bits Segment SegmentProofs UnionProofs BucketProofs Vec VecProofs VecProofs2 ListLemmas DCSC DCSCFinal DCSCBuild MatSpec TileProofs GraphVertProofs SpMat.

Lemma forallb_filter_id {A} (p : A -> bool) l : forallb p l = true -> filter p l = l.
Proof. induction l as [|a l IH]; simpl; auto. destruct (p a); simpl; [intros H; rewrite IH; auto|discriminate]. Qed.

(** *** stretches of equal keys in a sorted array *)
Lemma sorted_split {A} (k : Z) (l : list (Z * A)) : StronglySorted (fun a b => fst a <= fst b) l ->
  exists pre post, l = pre ++ filter (fun a => fst a =? k) l ++ post /\
    (forall a, In a pre -> fst a < k) /\ (forall a, In a post -> k < fst a).
Proof.
  induction 1 as [|a l S (pre & post & E & H1 & H2) F]; [exists [], []; simpl; intuition|].
  rewrite Forall_forall in F. cbn [filter]. destruct (Z.eqb_spec (fst a) k) as [Ek|Ek].
  - exists [], post. cbn [app]. assert (pre = []) as ->.
    { destruct pre as [|x pre]; auto. exfalso. pose proof (H1 x (or_introl eq_refl)). assert (In x l) as Hx by (rewrite E; simpl; auto). pose proof (F x Hx). lia. }
    split; [f_equal; exact E|]. split; [intros ? []|auto].
  - destruct (Z_lt_dec (fst a) k).
    + exists (a :: pre), post. cbn [app]. split; [f_equal; exact E|]. split; auto. intros x [<-|Hx]; auto.
    + exists [], (a :: l). rewrite filter_all_false; [split; auto; split; [intros ? []|]|].
      * intros x [<-|Hx]; [lia|]. pose proof (F x Hx). lia.
      * intros x Hx. pose proof (F x Hx). apply Z.eqb_neq. lia.
Qed.

Lemma sorted_keys {A} (l : list (Z * A)) : StronglySorted (fun a b => fst a <= fst b) l -> isorted (map fst l).
Proof.
  intros S. apply sorted_isorted. induction S as [|a l S IH F]; simpl; constructor; auto.
  rewrite Forall_forall in *. intros x Hx. apply in_map_iff in Hx as (y & <- & Hy). auto.
Qed.

Lemma slice_mid {A} (pre x post : list A) a c : a = zlen pre -> c = zlen x -> slice (pre ++ x ++ post) a c = Ok x.
Proof.
  intros -> ->. unfold slice. rewrite !zlen_app. pose proof (zlen_nonneg pre). pose proof (zlen_nonneg x). pose proof (zlen_nonneg post).
  destruct (Z.ltb_spec (zlen pre) 0); [lia|]. destruct (Z.ltb_spec (zlen x) 0); [lia|]. destruct (Z.ltb_spec (zlen pre + (zlen x + zlen post)) (zlen pre + zlen x)); [lia|]. cbn [orb].
  f_equal. unfold zlen. rewrite !Nat2Z.id, skipn_app, skipn_all, Nat.sub_diag. simpl. rewrite firstn_app, firstn_all, Nat.sub_diag. simpl. apply app_nil_r.
Qed.

Lemma border_stretch {A} (k : Z) (l pre x post : list (Z * A)) : StronglySorted (fun a b => fst a <= fst b) l ->
  l = pre ++ x ++ post -> (forall a, In a x -> fst a = k) -> (forall a, In a pre -> fst a < k) -> (forall a, In a post -> k < fst a) ->
  (x = [] -> left_border_all (map fst l) k = Ok (-1) /\ right_border_all (map fst l) k = Ok (-1)) /\
  (x <> [] -> left_border_all (map fst l) k = Ok (zlen pre) /\ right_border_all (map fst l) k = Ok (zlen pre + zlen x - 1)).
Proof.
  intros S E Hx H1 H2. pose proof (sorted_keys l S) as Si.
  assert (forall i, zlen pre <= i < zlen pre + zlen x -> rd (map fst l) i = Ok k) as Rx.
  { intros i Hi. rewrite rd_map_list, E, rd_app2, rd_app1 by lia. destruct (rd_ok x (i - zlen pre)) as [a Ha]; [lia|]. rewrite Ha. f_equal. apply Hx. eapply rd_In; eauto. }
  assert (forall i, rd (map fst l) i = Ok k -> zlen pre <= i < zlen pre + zlen x) as Ri.
  { intros i Hi. pose proof (rd_bounds _ _ _ Hi) as B. rewrite zlen_map in B. rewrite rd_map_list in Hi. destruct (rd l i) as [a|] eqn:Ea; [|discriminate]. injection Hi as Hk. subst l.
    rewrite !zlen_app in B. destruct (Z_lt_dec i (zlen pre)) as [L|L].
    - rewrite rd_app1 in Ea by lia. apply rd_In in Ea. specialize (H1 _ Ea). lia.
    - destruct (Z_lt_dec i (zlen pre + zlen x)); [lia|]. rewrite rd_app2, rd_app2 in Ea by lia. apply rd_In in Ea. specialize (H2 _ Ea). lia. }
  destruct (left_border_all_spec _ Si k) as (a & Ea & Ha). destruct (right_border_all_spec _ Si k) as (b & Eb & Hb). rewrite Ea, Eb.
  split; intros Hn.
  - subst x. znil. destruct Ha as [[-> _]|[Ha _]]; [|specialize (Ri _ Ha); lia]. destruct Hb as [[-> _]|[Hb _]]; [|specialize (Ri _ Hb); lia]. auto.
  - assert (0 < zlen x) as Lx by (destruct x; [congruence|]; rewrite zlen_cons; pose proof (zlen_nonneg x); lia).
    destruct Ha as [[_ Ha]|[Ha Ha']]; [exfalso; apply (Ha (zlen pre)); apply Rx; lia|].
    destruct Hb as [[_ Hb]|[Hb Hb']]; [exfalso; apply (Hb (zlen pre)); apply Rx; lia|].
    pose proof (Ri _ Ha). pose proof (Ri _ Hb). split; f_equal.
    + destruct (Z_lt_dec (zlen pre) a); [|lia]. exfalso. apply (Ha' (zlen pre)); auto. apply Rx; lia.
    + destruct (Z_lt_dec b (zlen pre + zlen x - 1)); [|lia]. exfalso. apply (Hb' (zlen pre + zlen x - 1)); [lia|]. apply Rx; lia.
Qed.

Lemma keyed_split {A} k (l pre x post : list (Z * A)) : l = pre ++ x ++ post -> (forall a, In a x -> fst a = k) -> (forall a, In a pre -> fst a < k) -> (forall a, In a post -> k < fst a) ->
  map snd x = keyed k l.
Proof.
  intros -> Hx H1 H2. unfold keyed. rewrite !filter_app.
  rewrite (filter_all_false _ pre) by (intros a Ha; apply Z.eqb_neq; specialize (H1 a Ha); lia).
  rewrite (filter_all_false _ post) by (intros a Ha; apply Z.eqb_neq; specialize (H2 a Ha); lia). rewrite app_nil_r. simpl. f_equal.
  symmetry. apply forallb_filter_id. rewrite forallb_forall. intros a Ha. apply Z.eqb_eq; auto.
Qed.

Lemma map_snd_split {A} (pre x post l : list (Z * A)) : l = pre ++ x ++ post -> map snd l = map snd pre ++ map snd x ++ map snd post.
Proof. intros ->. rewrite !map_app. auto. Qed.

(** SpMat.h:148-168 finds exactly the stretch of every rank *)
Lemma stretches_spec {A} nr (l : list (Z * A)) : 0 <= nr -> StronglySorted (fun a b => fst a <= fst b) l -> (forall a, In a l -> 0 <= fst a < nr) ->
  exists ps, stretches nr (map fst l) = Ok ps /\ mapR (fun pc => slice (map snd l) (fst pc) (snd pc)) ps = Ok (map (fun k => keyed k l) (zrange 0 nr)).
Proof.
  intros Hn S Hr. unfold stretches.
  match goal with |- context [forZ 0 nr ?b ?s] => destruct (forZ_inv (fun i (st : list (Z * Z) * Z) =>
    mapR (fun pc => slice (map snd l) (fst pc) (snd pc)) (fst st) = Ok (map (fun k => keyed k l) (zrange 0 i)) /\
    exists pre post, l = pre ++ post /\ snd st = zlen pre /\ (forall a, In a pre -> fst a < i) /\ (forall a, In a post -> i <= fst a)) 0 nr b s) as (st' & Es & Hm & _) end; auto.
  - split; [reflexivity|]. exists [], l. split; auto. split; auto. split; [intros ? []|]. intros a Ha. apply Hr; auto.
  - intros i st Hi (Hm & pre & post & El & Ep & H1 & H2).
    destruct (sorted_split i l S) as (pre' & post' & El' & H1' & H2'). set (x := filter (fun a => fst a =? i) l) in *.
    assert (forall a, In a x -> fst a = i) as Hx by (intros a Ha; apply filter_In in Ha as [_ Ha]; apply Z.eqb_eq; auto).
    assert (pre' = pre /\ post = x ++ post') as [-> ->].
    { assert (pre' = filter (fun a => fst a <? i) l) as ->.
      { rewrite El'. rewrite !filter_app. rewrite (forallb_filter_id _ pre') by (rewrite forallb_forall; intros a Ha; apply Z.ltb_lt; auto).
        rewrite (filter_all_false _ x) by (intros a Ha; apply Z.ltb_ge; rewrite Hx by auto; lia).
        rewrite (filter_all_false _ post') by (intros a Ha; apply Z.ltb_ge; specialize (H2' a Ha); lia). rewrite app_nil_r; auto. }
      assert (filter (fun a => fst a <? i) l = pre) as Q.
      { rewrite El, filter_app. rewrite (forallb_filter_id _ pre) by (rewrite forallb_forall; intros a Ha; apply Z.ltb_lt; auto).
        rewrite (filter_all_false _ post) by (intros a Ha; apply Z.ltb_ge; specialize (H2 a Ha); lia). apply app_nil_r. }
      split; auto. rewrite Q in El'. rewrite El' in El. apply app_inv_head in El. auto. }
    destruct (border_stretch i l pre x post' S El' Hx H1' H2') as [B1 B2].
    assert (forall c, c = zlen x -> mapR (fun pc => slice (map snd l) (fst pc) (snd pc)) (fst st ++ [(snd st, c)]) = Ok (map (fun k => keyed k l) (zrange 0 (i + 1)))) as Hnew.
    { intros c ->. rewrite mapR_app, Hm. cbn [bind mapR fst snd]. rewrite Ep, (map_snd_split pre x post' l El'), (slice_mid (map snd pre) (map snd x) (map snd post')) by (rewrite zlen_map; auto). cbn [bind].
      rewrite zrange_snoc, map_app by lia. cbn [map]. rewrite (keyed_split i l pre x post' El' Hx H1' H2'). reflexivity. }
    assert (forall a, In a (pre ++ x) -> fst a < i + 1) as Hp1 by (intros a Ha; apply in_app_or in Ha as [Ha|Ha]; [specialize (H1 a Ha); lia|rewrite Hx by auto; lia]).
    assert (forall a, In a post' -> i + 1 <= fst a) as Hp2 by (intros a Ha; specialize (H2' a Ha); lia).
    destruct x as [|x0 x1] eqn:Ex.
    + destruct (B1 eq_refl) as [_ ->]. cbn [bind]. rewrite Z.eqb_refl. eexists. split; [reflexivity|]. cbn [fst snd]. split; [apply Hnew; auto|].
      exists pre, post'. rewrite app_nil_r in Hp1. auto.
    + rewrite <- Ex in *. destruct B2 as [_ ->]; [congruence|]. cbn [bind]. assert (0 < zlen x) as Lx by (rewrite Ex, zlen_cons; pose proof (zlen_nonneg x1); lia). pose proof (zlen_nonneg pre).
      destruct (Z.eqb_spec (zlen pre + zlen x - 1) (-1)); [lia|]. eexists. split; [reflexivity|]. cbn [fst snd]. split; [apply Hnew; lia|].
      exists (pre ++ x), post'. rewrite <- app_assoc, zlen_app. split; auto. split; [lia|]. auto.
  - rewrite Es. cbn [bind]. eauto.
Qed.

(** *** the contents of a distributed matrix *)
Section Mat.
  Context {E : Type}.
  Variables (nr m n ntx nty : Z).
  Hypothesis Hnr : 1 <= nr.
  Hypothesis Hm : 0 <= m.
  Hypothesis Hn : 0 <= n.
  Hypothesis Hx : 1 <= ntx.
  Hypothesis Hy : 1 <= nty.

  (** tile row and column of an edge *)
  Definition trow (e : edge E) : Z := vpart m nty (e_src e).
  Definition tcol (e : edge E) : Z := vpart n ntx (e_dst e).
  Definition in_tile (i j : Z) (e : edge E) : bool := (trow e =? i) && (tcol e =? j).
  Definition in_mat (e : edge E) : Prop := in_rect m n 0 0 e.
  Definition tid (e : edge E) : Z := trow e + tcol e * nty.

  Definition si i := start_at m nty i.
  Definition sj j := start_at n ntx j.

  Lemma tile_ranges e : in_mat e -> 0 <= trow e < nty /\ 0 <= tcol e < ntx /\ mat_getPartition m n ntx nty (e_src e) (e_dst e) = Ok (trow e, tcol e, tid e).
  Proof.
    intros [H1 H2]. destruct (vpart_range m nty (e_src e)) as [A1 A2]; auto; try lia. destruct (vpart_range n ntx (e_dst e)) as [B1 B2]; auto; try lia.
    unfold trow, tcol. split; auto. split; auto. unfold mat_getPartition. change (find_block (mat_starts m nty) (e_src e) (Z.to_nat nty) 0) with (vec_getPartition m nty (e_src e)).
    change (find_block (mat_starts n ntx) (e_dst e) (Z.to_nat ntx) 0) with (vec_getPartition n ntx (e_dst e)). rewrite !vpart_ok by auto. cbn [bind].
    destruct (Z.eqb_spec (vpart m nty (e_src e)) (-1)); [lia|]. destruct (Z.eqb_spec (vpart n ntx (e_dst e)) (-1)); [lia|]. reflexivity.
  Qed.
  Lemma tile_rect e i j : in_mat e -> trow e = i -> tcol e = j -> in_rect (si (i + 1) - si i) (sj (j + 1) - sj j) (si i) (sj j) e.
  Proof.
    intros [H1 H2] <- <-. destruct (vpart_range m nty (e_src e)) as [A1 A2]; auto; try lia. destruct (vpart_range n ntx (e_dst e)) as [B1 B2]; auto; try lia.
    unfold in_rect, si, sj, trow, tcol. lia.
  Qed.
  Lemma tid_eq e i j : in_mat e -> 0 <= i < nty -> 0 <= j < ntx -> (tid e =? i + j * nty) = in_tile i j e.
  Proof.
    intros He Hi Hj. destruct (tile_ranges e He) as (A & B & _). unfold in_tile, tid. apply Bool.eq_true_iff_eq. rewrite andb_true_iff, !Z.eqb_eq. split; [|lia].
    intros Q. assert (tcol e = j) as Ej; [|split; auto; subst j; lia]. nia.
  Qed.

  (** what the tables of all ranks must contain when the matrix is the edge list [es] *)
  Record mat_holds (ids : list Z) (a : spmat E) (es : list (edge E)) : Prop := {
    mh_m : mt_m a = m; mh_n : mt_n a = n; mh_ntx : mt_ntx a = ntx; mh_nty : mt_nty a = nty; mh_ids : mt_ids a = ids;
    mh_len : zlen ids = ntx * nty;
    mh_own : forall k o, rd ids k = Ok o -> 0 <= o < nr;
    mh_in : forall e, In e es -> in_mat e;
    mh_tile : forall r i j, 0 <= r < nr -> 0 <= i < nty -> 0 <= j < ntx ->
      exists t, mat_tile a r i j = Ok t /\
        forall o, rd ids (i + j * nty) = Ok o ->
          if o =? r then exists t' T, t = Some t' /\ tile_of (si (i + 1) - si i) (sj (j + 1) - sj j) (map (rel (si i) (sj j)) T) t' /\ Permutation T (filter (in_tile i j) es)
          else t = None;
    mh_dims : zlen (mt_tiles a) = nr /\ forall r tab, rd (mt_tiles a) r = Ok tab -> dims nty ntx tab }.

  Lemma ids_rd (ids : list Z) i j : zlen ids = ntx * nty -> 0 <= i < nty -> 0 <= j < ntx -> exists o, rd ids (i + j * nty) = Ok o.
  Proof. intros L Hi Hj. apply rd_ok. rewrite L. nia. Qed.

  Variables srt tsrt : list (tedge E) -> list (tedge E).
  Variable threads : Z.
  Hypothesis Hsrt : sorts srt.
  Hypothesis Htsrt : sorts_by_key tsrt.
  Hypothesis Hth : 1 <= threads.
  Variable ids : list Z.
  Hypothesis Lids : zlen ids = ntx * nty.
  Hypothesis Oids : forall k o, rd ids k = Ok o -> 0 <= o < nr.

  Definition owner (e : edge E) : Z := match rd ids (tid e) with Ok o => o | Err _ => -1 end.
  Lemma owner_ok e : in_mat e -> rd ids (tid e) = Ok (owner e) /\ 0 <= owner e < nr.
  Proof.
    intros He. destruct (tile_ranges e He) as (A & B & _). destruct (ids_rd ids (trow e) (tcol e) Lids A B) as [o Eo]. unfold owner. fold (tid e) in Eo. rewrite Eo. split; auto. eapply Oids; eauto.
  Qed.

  Lemma perm_filter {A} (p : A -> bool) l l' : Permutation l l' -> Permutation (filter p l) (filter p l').
  Proof. induction 1; simpl; auto; repeat match goal with |- context [p ?x] => destruct (p x) end; auto; try apply perm_swap. etransitivity; eauto. Qed.
  Lemma perm_keyed {A} k (l l' : list (Z * A)) : Permutation l l' -> Permutation (keyed k l) (keyed k l').
  Proof. intros P. unfold keyed. apply Permutation_map. apply perm_filter; auto. Qed.

  Lemma ingest_recv_spec junk r es : 0 <= r < nr -> (forall e, In e es -> in_mat e) ->
    exists tab, ingest_recv srt tsrt threads m n ntx nty ids junk r es = Ok tab /\ forall i j, 0 <= i < nty -> 0 <= j < ntx -> exists t, rd2 tab i j = Ok t /\
        forall o, rd ids (i + j * nty) = Ok o ->
          if o =? r then exists t' T, t = Some t' /\ tile_of (si (i + 1) - si i) (sj (j + 1) - sj j) (map (rel (si i) (sj j)) T) t' /\ Permutation T (filter (in_tile i j) es)
          else t = None.
  Proof.
    intros Hr Hes. unfold ingest_recv.
    rewrite (mapR_map _ (fun e => (tid e, e))).
    2:{ intros e He. unfold tag_tile. destruct (tile_ranges e (Hes e He)) as (A & B & ->). cbn [bind]. assert (0 <= tid e) by (unfold tid; nia). destruct (Z.eqb_spec (tid e) (-1)); [lia|]. reflexivity. }
    cbn [bind]. destruct (Htsrt (map (fun e => (tid e, e)) es)) as [P S]. set (l := tsrt _) in *.
    assert (forall a, In a l -> in_mat (snd a) /\ fst a = tid (snd a)) as Hl.
    { intros a Ha. apply (Permutation_in _ (Permutation_sym P)) in Ha. apply in_map_iff in Ha as (e & <- & He). simpl; auto. }
    assert (forall i j, 0 <= i < nty -> 0 <= j < ntx -> Permutation (keyed (i + j * nty) l) (filter (in_tile i j) es)) as Hk.
    { intros i j Hi Hj. etransitivity; [apply perm_keyed; symmetry; exact P|]. rewrite keyed_map. erewrite filter_ext_in; [reflexivity|]. intros e He. apply tid_eq; auto. }
    match goal with |- exists tab, mapR ?f _ = _ /\ _ => destruct (mapR_zrange f (fun i row => forall j, 0 <= j < ntx -> exists t, rd row j = Ok t /\
        forall o, rd ids (i + j * nty) = Ok o ->
          if o =? r then exists t' T, t = Some t' /\ tile_of (si (i + 1) - si i) (sj (j + 1) - sj j) (map (rel (si i) (sj j)) T) t' /\ Permutation T (filter (in_tile i j) es)
          else t = None) nty) as (tab & Et & Lt & It) end; [lia| |].
    - intros i Hi. match goal with |- exists a, mapR ?f _ = _ /\ _ => destruct (mapR_zrange f (fun j t => 
        forall o, rd ids (i + j * nty) = Ok o ->
          if o =? r then exists t' T, t = Some t' /\ tile_of (si (i + 1) - si i) (sj (j + 1) - sj j) (map (rel (si i) (sj j)) T) t' /\ Permutation T (filter (in_tile i j) es)
          else t = None) ntx) as (row & Er & Lr & Ir) end; [lia| |].
      + intros j Hj. destruct (ids_rd ids i j Lids Hi Hj) as [o Eo]. rewrite Eo. cbn [bind]. destruct (Z.eqb_spec o r) as [->|No].
        2:{ exists None. split; auto. intros o' Eo'. injection Eo' as <-. destruct (Z.eqb_spec o r); [contradiction|auto]. }
        rewrite !mat_starts_eq, !rd_starts by lia. cbn [bind]. fold (start_at m nty i) (start_at m nty (i + 1)) (start_at n ntx j) (start_at n ntx (j + 1)).
        fold (si i) (si (i + 1)) (sj j) (sj (j + 1)).
        destruct (sorted_split (i + j * nty) l S) as (pre & post & El & H1 & H2). set (x := filter (fun a => fst a =? i + j * nty) l) in *.
        assert (forall a, In a x -> fst a = i + j * nty) as Hxk by (intros a Ha; apply filter_In in Ha as [_ Ha]; apply Z.eqb_eq; auto).
        destruct (border_stretch (i + j * nty) l pre x post S El Hxk H1 H2) as [B1 B2].
        specialize (Hk i j Hi Hj). change (keyed (i + j * nty) l) with (map snd x) in Hk.
        destruct x as [|x0 x1] eqn:Ex.
        * destruct (B1 eq_refl) as [-> ->]. cbn. eexists. split; [reflexivity|]. intros o' Eo'. injection Eo' as <-. rewrite Z.eqb_refl. exists (dcsc_empty (si (i+1) - si i) (sj (j+1) - sj j) (junk i j)), []. split; auto. split; [|auto]. left. eauto.
        * rewrite <- Ex in *. destruct B2 as [-> ->]; [congruence|]. cbn [bind]. assert (0 < zlen x) as Lx by (rewrite Ex, zlen_cons; pose proof (zlen_nonneg x1); lia). pose proof (zlen_nonneg pre).
          destruct (Z.eqb_spec (zlen pre) (-1)); [lia|]. destruct (Z.eqb_spec (zlen pre + zlen x - 1) (-1)); [lia|]. cbn [negb andb].
          destruct (Z.leb_spec (zlen pre + zlen x - 1 + 1 - zlen pre) 0); [lia|].
          rewrite (map_snd_split pre x post l El), (slice_mid (map snd pre) (map snd x) (map snd post)) by (rewrite zlen_map; lia). cbn [bind].
          destruct (new_tile srt threads (map snd x) (si (i + 1) - si i) (sj (j + 1) - sj j) (si i) (sj j) (junk i j) Hsrt Hth) as (t & es0 & En & Tt & Pt).
          { intros e He. apply (Permutation_in _ Hk) in He. apply filter_In in He as [He Hp]. apply andb_prop in Hp as [Hp1 Hp2]. apply Z.eqb_eq in Hp1, Hp2. apply tile_rect; auto. }
          rewrite En. cbn [bind]. eexists. split; [reflexivity|]. intros o' Eo'. injection Eo' as <-. rewrite Z.eqb_refl. exists t, (map (unrel (si i) (sj j)) es0).
          split; auto. split; [|transitivity (map snd x); auto; symmetry; apply perm_unrel; auto].
          rewrite map_map, (map_ext _ (fun e => e)), map_id; auto. intros e. destruct e; unfold rel, unrel; simpl; f_equal; lia.
      + exists row. split; auto. intros j Hj. destruct (Ir j Hj) as (t & Et & _ & It). eauto.
    - exists tab. split; auto. intros i j Hi Hj. destruct (It i Hi) as (row & Er & _ & Ir). destruct (Ir j Hj) as (t & Et' & It'). exists t. split; auto. eapply rd2_ok; eauto.
  Qed.

  Lemma keyed_perm_filter (p : edge E -> Z) (es : list (edge E)) l k : Permutation (map (fun e => (p e, e)) es) l -> Permutation (keyed k l) (filter (fun e => p e =? k) es).
  Proof. intros P. rewrite <- keyed_map. symmetry. apply perm_keyed. auto. Qed.

  Lemma ingest_send_spec es : (forall e, In e es -> in_mat e) ->
    exists es' msgs, ingest_send tsrt nr m n ntx nty ids es = Ok (es', msgs) /\ Permutation es es' /\
      zlen msgs = nr /\ forall r, 0 <= r < nr -> exists msg, rd msgs r = Ok msg /\ Permutation msg (filter (fun e => owner e =? r) es).
  Proof.
    intros Hes. unfold ingest_send. rewrite (mapR_map _ (fun e => (owner e, e))).
    2:{ intros e He. unfold tag_owner. destruct (tile_ranges e (Hes e He)) as (A & B & ->). cbn [bind]. assert (0 <= tid e) by (unfold tid; nia). destruct (Z.eqb_spec (tid e) (-1)); [lia|]. cbn [negb assertb bind].
        destruct (owner_ok e (Hes e He)) as [Eo _]. fold (tid e). rewrite Eo. reflexivity. }
    cbn [bind]. destruct (Htsrt (map (fun e => (owner e, e)) es)) as [P S]. set (l := tsrt _) in *.
    destruct (stretches_spec nr l) as (ps & -> & Em); auto; [lia| |].
    { intros a Ha. apply (Permutation_in _ (Permutation_sym P)) in Ha. apply in_map_iff in Ha as (e & <- & He). apply owner_ok; auto. }
    cbn [bind]. rewrite Em. cbn [bind]. eexists _, _. split; [reflexivity|]. split.
    { apply (Permutation_map snd) in P. rewrite map_map, map_id in P. exact P. }
    split; [rewrite zlen_map, zlen_zrange; lia|]. intros r Hr. rewrite rd_map_list, rd_zrange by lia. eexists. split; [reflexivity|].
    rewrite Z.add_0_l. apply keyed_perm_filter; auto.
  Qed.

  Lemma perm_concat {A} (ls ls' : list (list A)) : Forall2 (@Permutation A) ls ls' -> Permutation (concat ls) (concat ls').
  Proof. induction 1; simpl; auto. apply Permutation_app; auto. Qed.

  Lemma filter_rank r i j es : (forall e, In e es -> in_mat e) -> 0 <= i < nty -> 0 <= j < ntx -> rd ids (i + j * nty) = Ok r ->
    filter (in_tile i j) (filter (fun e => owner e =? r) es) = filter (in_tile i j) es.
  Proof.
    intros Hes Hi Hj Ho. rewrite filter_filter. apply filter_ext_in. intros e He. rewrite <- (tid_eq e i j) by auto.
    destruct (Z.eqb_spec (tid e) (i + j * nty)) as [Q|]; [|apply andb_false_r]. destruct (owner_ok e (Hes e He)) as [Eo _]. rewrite Q, Ho in Eo. injection Eo as Eo. rewrite <- Eo, Z.eqb_refl. reflexivity.
  Qed.
End Mat.

Lemma nodeIds_spec ntx nty nrank : 1 <= ntx -> 1 <= nty -> 1 <= nrank ->
  exists ids, mat_nodeIds ntx nty nrank = Ok ids /\ zlen ids = ntx * nty /\ (forall k r, rd ids k = Ok r -> 0 <= r < nrank).
Proof.
  intros Hx Hy Hn. unfold mat_nodeIds.
  destruct (mapR_zrange (fun k => partition_fn_2d (Z.quot k nty) (Z.rem k nty) ntx nty nrank) (fun _ r => 0 <= r < nrank) (ntx * nty)) as (l & E & L & I); [nia| |].
  - intros k Hk. apply partition_fn_2d_range; auto; [apply Z.quot_pos; lia|apply Z.rem_nonneg; lia].
  - exists l. split; auto. split; auto. intros k r Hk. destruct (I k) as (a & Ea & _ & B); [rewrite <- L; eapply rd_bounds; eauto|]. rewrite Hk in Ea. injection Ea as <-. auto.
Qed.

Lemma mapR_rd_inv {A B} (f : A -> R B) l bs j b : mapR f l = Ok bs -> rd bs j = Ok b -> exists a, rd l j = Ok a /\ f a = Ok b.
Proof.
  intros H. apply mapR_Ok in H. revert j. induction H as [|a b' l bs' Hf F IH]; intros j Hj.
  - apply rd_bounds in Hj. unfold zlen in Hj. simpl in Hj. lia.
  - destruct (Z.eq_dec j 0) as [->|N]; [rewrite rd_cons0 in *; injection Hj as <-; eauto|]. pose proof (rd_bounds _ _ _ Hj). rewrite rd_consS in Hj by lia. rewrite rd_consS by lia. auto.
Qed.
Lemma ingest_recv_dims {E} (srt tsrt : list (tedge E) -> list (tedge E)) threads m n ntx nty ids junk r es tab : 0 <= ntx -> 0 <= nty ->
  ingest_recv srt tsrt threads m n ntx nty ids junk r es = Ok tab -> dims nty ntx tab.
Proof.
  intros Hx Hy. unfold ingest_recv. destruct (mapR (tag_tile m n ntx nty) es) as [te|]; cbn [bind]; [|discriminate]. intros H. split.
  - apply mapR_length in H. unfold zlen. rewrite H. fold (zlen (zrange 0 nty)). rewrite zlen_zrange by lia. lia.
  - intros i row Hi. destruct (mapR_rd_inv _ _ _ _ _ H Hi) as (k & _ & Ek). apply mapR_length in Ek. unfold zlen. rewrite Ek. fold (zlen (zrange 0 ntx)). rewrite zlen_zrange by lia. lia.
Qed.

Section New.
  Context {E : Type}.
  Variables srt tsrt : list (tedge E) -> list (tedge E).
  Variables (nr threads : Z).
  Hypothesis Hsrt : sorts srt.
  Hypothesis Htsrt : sorts_by_key tsrt.
  Hypothesis Hth : 1 <= threads.
  Hypothesis Hnr : 1 <= nr.

  Lemma mat_new_spec junk m n ntx nty (blobs : list (list (edge E))) : 0 <= m -> 0 <= n -> 1 <= ntx -> 1 <= nty -> zlen blobs = nr ->
    (forall e, In e (concat blobs) -> in_mat m n e) ->
    exists a blobs' ids, mat_new srt tsrt nr threads junk m n ntx nty blobs = Ok (a, blobs') /\ mat_nodeIds ntx nty nr = Ok ids /\
      mat_holds nr m n ntx nty ids a (concat blobs) /\ Forall2 (@Permutation (edge E)) blobs blobs'.
  Proof.
    intros Hm Hn Hx Hy Lb Hin. unfold mat_new. destruct (Z.ltb_spec 0 ntx); [|lia]. destruct (Z.ltb_spec 0 nty); [|lia]. cbn [assertb bind].
    destruct (nodeIds_spec ntx nty nr Hx Hy Hnr) as (ids & Ei & Li & Oi). rewrite Ei. cbn [bind].
    assert (forall tiles, zlen tiles = nr -> (forall r, 0 <= r < nr -> exists tab es, rd tiles r = Ok tab /\ ingest_recv srt tsrt threads m n ntx nty ids (junk r) r es = Ok tab /\
        (forall e, In e es -> in_mat m n e) /\ (forall i j, 0 <= i < nty -> 0 <= j < ntx -> rd ids (i + j * nty) = Ok r -> Permutation (filter (in_tile m n ntx nty i j) es) (filter (in_tile m n ntx nty i j) (concat blobs)))) ->
        mat_holds nr m n ntx nty ids (mkM m n ntx nty ids tiles) (concat blobs)) as Fin.
    { intros tiles Lt Htt. constructor; auto; [|split; [exact Lt|]; cbn [mt_tiles]; intros r tab Et; destruct (Htt r) as (tab' & es & Et' & Er & _); [apply rd_bounds in Et; lia|]; rewrite Et in Et'; injection Et' as <-; eapply ingest_recv_dims; [| |exact Er]; lia]. intros r i j Hr Hi Hj. destruct (Htt r Hr) as (tab & es & Et & Er & Hes & Pf).
      destruct (ingest_recv_spec nr m n ntx nty Hm Hn Hx Hy srt tsrt threads Hsrt Htsrt Hth ids Li Oi (junk r) r es Hr Hes) as (tab' & Er' & Ht). rewrite Er in Er'. injection Er' as <-.
      destruct (Ht i j Hi Hj) as (t & E2 & Q). exists t. unfold mat_tile. cbn [mt_tiles]. rewrite Et. cbn [bind]. split; auto.
      intros o Eo. specialize (Q o Eo). destruct (Z.eqb_spec o r) as [Eor|Nor]; [|exact Q]. rewrite Eor in Eo. destruct Q as (t' & T & -> & Tt & Pt). exists t', T. split; auto. split; auto. rewrite Pt. auto. }
    destruct (Z.eqb_spec nr 1) as [E1|N1].
    - destruct (mapR_zrange (fun r => do received <- rd blobs r ;; ingest_recv srt tsrt threads m n ntx nty ids (junk r) r received)
         (fun r tab => ingest_recv srt tsrt threads m n ntx nty ids (junk r) r (concat blobs) = Ok tab) nr) as (tiles & Et & Lt & It); [lia| |].
      + intros r Hr. assert (exists b, rd blobs r = Ok b /\ concat blobs = b) as (b & Eb & Ec).
        { destruct blobs as [|b1 [|c bl]]; [unfold zlen in Lb; simpl in Lb; lia| |rewrite !zlen_cons in Lb; pose proof (zlen_nonneg bl); lia].
          assert (r = 0) as -> by lia. exists b1. simpl. rewrite app_nil_r. auto. }
        rewrite Eb. cbn [bind]. destruct (ingest_recv_spec nr m n ntx nty Hm Hn Hx Hy srt tsrt threads Hsrt Htsrt Hth ids Li Oi (junk r) r b Hr) as (tab' & Er' & _); [rewrite <- Ec; auto|]. rewrite Ec. eauto.
      + rewrite Et. cbn [bind]. eexists _, _, ids. split; [reflexivity|]. split; auto. split.
        * apply Fin; auto. intros r Hr. destruct (It r Hr) as (tab & Etab & _ & Er). exists tab, (concat blobs). auto.
        * clear. induction blobs; constructor; auto.
    - destruct (DCSCBuild.mapR_total (ingest_send tsrt nr m n ntx nty ids) (fun es s => Permutation es (fst s) /\ zlen (snd s) = nr /\
          forall r, 0 <= r < nr -> exists msg, rd (snd s) r = Ok msg /\ Permutation msg (filter (fun e => owner m n ntx nty ids e =? r) es)) blobs) as (sent & Es & Fs).
      { intros es He. destruct (ingest_send_spec nr m n ntx nty Hnr Hm Hn Hx Hy tsrt threads Htsrt ids Li Oi es) as (es' & msgs & E2 & Q); [|eexists; split; [exact E2|auto]].
        intros e Hin'. apply Hin. apply in_concat. eauto. }
      rewrite Es. cbn [bind].
      assert (zlen sent = nr) as Ls by (apply mapR_length in Es; unfold zlen in *; lia).
      assert (forall r, 0 <= r < nr -> exists msgs, mapR (fun q => do s <- rd sent q ;; rd (snd s) r) (zrange 0 nr) = Ok msgs /\
         Permutation (concat msgs) (filter (fun e => owner m n ntx nty ids e =? r) (concat blobs))) as Hmsgs.
      { intros r Hr. replace (mapR (fun q => do s <- rd sent q ;; rd (snd s) r) (zrange 0 nr)) with (mapR (fun s : list (edge E) * list (list (edge E)) => rd (snd s) r) sent).
        2:{ rewrite <- (mapR_bind (rd sent) (fun s => rd (snd s) r) (zrange 0 nr) sent); auto. apply mapR_rd_len. lia. }
        clear Es Ls Lb Hin Fin. induction Fs as [|b s bl sl (P & L & Hms) F IH]; [exists []; simpl; auto|]. destruct IH as (msgs & Em & Pm).
        destruct (Hms r Hr) as (msg & Eq & Pq). exists (msg :: msgs). cbn [mapR]. rewrite Eq. cbn [bind]. rewrite Em. split; auto. simpl. rewrite filter_app. apply Permutation_app; auto. }
      destruct (mapR_zrange (fun r => do msgs <- mapR (fun q => do s <- rd sent q ;; rd (snd s) r) (zrange 0 nr) ;; ingest_recv srt tsrt threads m n ntx nty ids (junk r) r (concat msgs))
        (fun r tab => exists es, ingest_recv srt tsrt threads m n ntx nty ids (junk r) r es = Ok tab /\ Permutation es (filter (fun e => owner m n ntx nty ids e =? r) (concat blobs))) nr) as (tiles & Et & Lt & It); [lia| |].
      + intros r Hr. destruct (Hmsgs r Hr) as (msgs & Em & Pm). rewrite Em. cbn [bind].
        destruct (ingest_recv_spec nr m n ntx nty Hm Hn Hx Hy srt tsrt threads Hsrt Htsrt Hth ids Li Oi (junk r) r (concat msgs) Hr) as (tab' & Er' & _); [|eauto].
        intros e He. apply (Permutation_in _ Pm) in He. apply filter_In in He as [He _]. auto.
      + rewrite Et. cbn [bind]. eexists _, _, ids. split; [reflexivity|]. split; auto. split.
        * apply Fin; auto. intros r Hr. destruct (It r Hr) as (tab & Etab & _ & es & Er & Pe). exists tab, es. split; auto. split; auto. split.
          -- intros e He. apply (Permutation_in _ Pe) in He. apply filter_In in He as [He _]. auto.
          -- intros i j Hi Hj Ho. etransitivity; [apply perm_filter; exact Pe|]. rewrite (filter_rank nr m n ntx nty Hm Hn Hx Hy ids Li Oi); auto.
        * clear - Fs. induction Fs as [|b s bl sl (P & _) F IH]; constructor; auto.
  Qed.
End New.

Lemma by_key_perm {A} (key : A -> Z) l N : (forall a, In a l -> 0 <= key a < N) ->
  Permutation (flat_map (fun k => filter (fun a => key a =? k) l) (zrange 0 N)) l.
Proof.
  induction l as [|a l IH]; intros H; [simpl; rewrite flat_map_nil; auto|].
  rewrite (flat_map_ext_in _ (fun k => (if key a =? k then [a] else []) ++ filter (fun b => key b =? k) l)) by (intros k _; simpl; destruct (key a =? k); auto).
  rewrite flat_map_perm_app. rewrite flat_map_pick by (apply H; simpl; auto). simpl. constructor. apply IH. intros; apply H; simpl; auto.
Qed.

Lemma foldR_app_list {A B} (f : A -> R (list B)) (g : A -> list B) l acc : (forall a, In a l -> f a = Ok (g a)) ->
  foldR (fun s a => do x <- f a ;; Ok (s ++ x)) l acc = Ok (acc ++ flat_map g l).
Proof.
  revert acc; induction l as [|a l IH]; intros acc H; simpl; [rewrite app_nil_r; auto|]. rewrite H by (simpl; auto). cbn [bind]. rewrite IH by (intros; apply H; simpl; auto). rewrite <- app_assoc. auto.
Qed.

Section Held.
  Context {E : Type}.
  Variables (nr m n ntx nty : Z).
  Hypothesis Hnr : 1 <= nr.
  Hypothesis Hm : 0 <= m.
  Hypothesis Hn : 0 <= n.
  Hypothesis Hx : 1 <= ntx.
  Hypothesis Hy : 1 <= nty.
  Variables (ids : list Z) (a : spmat E) (es : list (edge E)).
  Hypothesis Ha : mat_holds nr m n ntx nty ids a es.
  Notation si := (si m nty). Notation sj := (sj n ntx).

  Definition own (i j : Z) : Z := match rd ids (i + j * nty) with Ok o => o | Err _ => -1 end.
  Lemma own_ok i j : 0 <= i < nty -> 0 <= j < ntx -> rd ids (i + j * nty) = Ok (own i j) /\ 0 <= own i j < nr.
  Proof.
    intros Hi Hj. destruct (ids_rd ntx nty Hx Hy ids i j (mh_len _ _ _ _ _ _ _ _ Ha) Hi Hj) as [o Eo]. unfold own. rewrite Eo. split; auto. eapply mh_own; eauto.
  Qed.
  (** entries of tile (i,j) in the order they are exported *)
  Definition stored (i j : Z) : list (edge E) :=
    match mat_tile a (own i j) i j with
    | Ok (Some t) => match dcsc_get_edges t (t_nnz t) (si i) (sj j) with Ok l => l | Err _ => [] end
    | _ => [] end.

  Lemma unrel_rel_id (e : edge E) rs cs : unrel rs cs (rel rs cs e) = e.
  Proof. apply unrel_rel. Qed.
  Lemma map_unrel_rel (l : list (edge E)) rs cs : map (unrel rs cs) (map (rel rs cs) l) = l.
  Proof. rewrite map_map, (map_ext _ (fun e => e)), map_id; auto. intros; apply unrel_rel. Qed.

  Lemma held_tile i j : 0 <= i < nty -> 0 <= j < ntx -> exists t,
    mat_tile_ptr a (own i j) i j = Ok t /\ tile_of (si (i + 1) - si i) (sj (j + 1) - sj j) (map (rel (si i) (sj j)) (stored i j)) t /\
    Permutation (stored i j) (filter (in_tile m n ntx nty i j) es).
  Proof.
    intros Hi Hj. destruct (own_ok i j Hi Hj) as [Eo Bo]. destruct (mh_tile _ _ _ _ _ _ _ _ Ha (own i j) i j Bo Hi Hj) as (t & Et & Q).
    specialize (Q _ Eo). rewrite Z.eqb_refl in Q. destruct Q as (t' & T & -> & Tt & Pt). exists t'. unfold mat_tile_ptr, stored. rewrite Et. cbn [bind]. split; auto.
    pose proof (tile_nnz _ _ _ _ Tt) as Nz. rewrite Nz, (tile_get_edges _ _ _ _ Tt) by lia. rewrite map_unrel_rel. auto.
  Qed.

  Lemma each_tile_spec {S} r (body : Z -> Z -> dcsc E -> S -> R S) (I : list (edge E) -> S -> Prop) s : 0 <= r < nr -> I [] s ->
    (forall i j t pre s, 0 <= i < nty -> 0 <= j < ntx -> own i j = r -> I pre s ->
       tile_of (si (i + 1) - si i) (sj (j + 1) - sj j) (map (rel (si i) (sj j)) (stored i j)) t ->
       exists s', body i j t s = Ok s' /\ I (pre ++ stored i j) s') ->
    exists s', each_tile a r body s = Ok s' /\ I (flat_map (fun i => flat_map (fun j => if own i j =? r then stored i j else []) (zrange 0 ntx)) (zrange 0 nty)) s'.
  Proof.
    intros Hr H0 Hs. unfold each_tile. rewrite (mh_nty _ _ _ _ _ _ _ _ Ha), (mh_ntx _ _ _ _ _ _ _ _ Ha), (mh_ids _ _ _ _ _ _ _ _ Ha).
    apply (forZ_inv (fun i s => I (flat_map (fun i => flat_map (fun j => if own i j =? r then stored i j else []) (zrange 0 ntx)) (zrange 0 i)) s)); auto; [lia|].
    intros i s1 Hi H1.
    destruct (forZ_inv (fun j s => I (flat_map (fun i => flat_map (fun j => if own i j =? r then stored i j else []) (zrange 0 ntx)) (zrange 0 i) ++ flat_map (fun j => if own i j =? r then stored i j else []) (zrange 0 j)) s)
       0 ntx (fun j s => do o <- rd ids (i + j * nty) ;; if o =? r then do t <- mat_tile_ptr a r i j ;; body i j t s else Ok s) s1) as (s2 & E2 & I2); [lia| | |].
    - simpl. rewrite app_nil_r. auto.
    - intros j s3 Hj H3. destruct (own_ok i j Hi Hj) as [Eo Bo]. rewrite Eo. cbn [bind]. rewrite (zrange_snoc 0 j), flat_map_app by lia. simpl. rewrite app_nil_r. rewrite app_assoc.
      destruct (Z.eqb_spec (own i j) r) as [Er|Nr].
      + destruct (held_tile i j Hi Hj) as (t & Et & Tt & _). rewrite Er in Et. rewrite Et. cbn [bind]. eapply Hs; eauto.
      + exists s3. rewrite app_nil_r. auto.
    - exists s2. split; auto. rewrite (zrange_snoc 0 i), flat_map_app by lia. simpl. rewrite app_nil_r. auto.
  Qed.

  Definition rank_entries (r : Z) : list (edge E) :=
    flat_map (fun i => flat_map (fun j => if own i j =? r then stored i j else []) (zrange 0 ntx)) (zrange 0 nty).

  Lemma local_nnz_eq r : 0 <= r < nr -> mat_local_nnz a r = Ok (zlen (rank_entries r)).
  Proof.
    intros Hr. destruct (each_tile_spec r (fun _ _ t acc => Ok (acc + t_nnz t)) (fun pre acc => acc = zlen pre) 0 Hr eq_refl) as (s & Es & ->); auto.
    intros i j t pre s Hi Hj _ -> Tt. eexists. split; [reflexivity|]. rewrite (tile_nnz _ _ _ _ Tt), zlen_map, zlen_app. auto.
  Qed.

  Lemma mat_get_edges_spec r : 0 <= r < nr -> mat_get_edges a r = Ok (rank_entries r).
  Proof.
    intros Hr. unfold mat_get_edges. rewrite local_nnz_eq by auto. cbn [bind].
    destruct (Z.ltb_spec 0 (zlen (rank_entries r))) as [L|L].
    2:{ destruct (rank_entries r) as [|e l]; auto. rewrite zlen_cons in L. pose proof (zlen_nonneg l). lia. }
    (* the running total never exceeds the final one: use prefixes *)
    rewrite (mh_m _ _ _ _ _ _ _ _ Ha), (mh_n _ _ _ _ _ _ _ _ Ha), (mh_nty _ _ _ _ _ _ _ _ Ha), (mh_ntx _ _ _ _ _ _ _ _ Ha).
    unfold each_tile. rewrite (mh_nty _ _ _ _ _ _ _ _ Ha), (mh_ntx _ _ _ _ _ _ _ _ Ha), (mh_ids _ _ _ _ _ _ _ _ Ha).
    set (row := fun i => flat_map (fun j => if own i j =? r then stored i j else []) (zrange 0 ntx)).
    set (nnz := zlen (rank_entries r)).
    assert (forall i j, 0 <= i < nty -> 0 <= j < ntx -> zlen (flat_map row (zrange 0 i) ++ flat_map (fun j => if own i j =? r then stored i j else []) (zrange 0 (j + 1))) <= nnz) as Hle.
    { intros i j Hi Hj. unfold nnz, rank_entries. rewrite (zrange_app 0 i nty), (zrange_cons i nty), flat_map_app by lia. fold row. cbn [flat_map]. unfold row at 3. rewrite (zrange_app 0 (j+1) ntx) by lia.
      rewrite (flat_map_app (fun j0 => if own i j0 =? r then stored i j0 else [])). rewrite !zlen_app.
      match goal with |- context [_ + (_ + ?x + ?y)] => assert (0 <= x) by apply zlen_nonneg; assert (0 <= y) by apply zlen_nonneg end. lia. }
    match goal with |- bind (forZ 0 nty ?b ?s) _ = _ => destruct (forZ_inv (fun i (st : list (edge E) * Z) => fst st = flat_map row (zrange 0 i) /\ snd st = zlen (fst st)) 0 nty b s) as (st & Est & F1 & F2) end; [lia| | |].
    - split; reflexivity.
    - intros i st Hi [F1 F2].
      match goal with |- exists s', forZ 0 ntx ?b _ = _ /\ _ => destruct (forZ_inv (fun j (st : list (edge E) * Z) => fst st = flat_map row (zrange 0 i) ++ flat_map (fun j => if own i j =? r then stored i j else []) (zrange 0 j) /\ snd st = zlen (fst st)) 0 ntx b st) as (st' & Est' & G1 & G2) end; [lia| | |].
      + simpl. rewrite app_nil_r. auto.
      + intros j st2 Hj [G1 G2]. destruct (own_ok i j Hi Hj) as [Eo Bo]. rewrite Eo. cbn [bind]. specialize (Hle i j Hi Hj). rewrite (zrange_snoc 0 j), flat_map_app in * by lia. simpl in Hle |- *. rewrite app_nil_r in *. rewrite app_assoc in *.
        destruct (Z.eqb_spec (own i j) r) as [Er|Nr].
        * destruct (held_tile i j Hi Hj) as (t & Et & Tt & _). rewrite Er in Et. rewrite Et. cbn [bind]. rewrite !mat_starts_eq, !rd_starts by lia. cbn [bind].
          fold (start_at m nty i) (start_at n ntx j). fold (si i) (sj j). rewrite zlen_app, <- G1, <- G2 in Hle.
          rewrite (tile_get_edges _ _ _ _ Tt) by (rewrite zlen_map; lia). cbn [bind]. rewrite map_unrel_rel, (tile_nnz _ _ _ _ Tt), zlen_map, Z.eqb_refl.
          eexists. split; [reflexivity|]. cbn [fst snd]. rewrite G1. split; auto. rewrite zlen_app. rewrite G2, G1. lia.
        * exists st2. rewrite app_nil_r. auto.
      + exists st'. split; auto. rewrite (zrange_snoc 0 i), flat_map_app by lia. simpl. rewrite app_nil_r. auto.
    - rewrite Est. cbn [bind]. rewrite F2, F1. change (flat_map row (zrange 0 nty)) with (rank_entries r). fold nnz. rewrite Z.eqb_refl. auto.
  Qed.

  Lemma all_entries : Permutation (flat_map rank_entries (zrange 0 nr)) es.
  Proof.
    unfold rank_entries. rewrite flat_map_swap.
    transitivity (flat_map (fun i => flat_map (fun j => filter (in_tile m n ntx nty i j) es) (zrange 0 ntx)) (zrange 0 nty)).
    - assert (forall i, 0 <= i < nty -> Permutation (flat_map (fun r => flat_map (fun j => if own i j =? r then stored i j else []) (zrange 0 ntx)) (zrange 0 nr)) (flat_map (fun j => filter (in_tile m n ntx nty i j) es) (zrange 0 ntx))) as H.
      { intros i Hi. rewrite by_owner_perm by (intros j Hj; apply in_zrange in Hj; apply own_ok; auto).
        assert (forall js, (forall j, In j js -> 0 <= j < ntx) -> Permutation (flat_map (stored i) js) (flat_map (fun j => filter (in_tile m n ntx nty i j) es) js)) as G.
        { induction js as [|j js IH]; intros Hjs; simpl; auto. apply Permutation_app; [|apply IH; intros; apply Hjs; simpl; auto]. destruct (held_tile i j) as (t & _ & _ & P); auto. apply Hjs; simpl; auto. }
        apply G. intros j Hj. apply in_zrange in Hj. lia. }
      assert (forall is, (forall i, In i is -> 0 <= i < nty) -> Permutation (flat_map (fun i => flat_map (fun r => flat_map (fun j => if own i j =? r then stored i j else []) (zrange 0 ntx)) (zrange 0 nr)) is) (flat_map (fun i => flat_map (fun j => filter (in_tile m n ntx nty i j) es) (zrange 0 ntx)) is)) as G.
      { induction is as [|i is IH]; intros Hjs; simpl; auto. apply Permutation_app; [|apply IH; intros; apply Hjs; simpl; auto]. apply H. apply Hjs; simpl; auto. }
      apply G. intros i Hi. apply in_zrange in Hi. lia.
    - pose proof (mh_in _ _ _ _ _ _ _ _ Ha) as Hin.
      etransitivity; [|apply (by_key_perm (trow m nty) es nty); intros e He; apply (tile_ranges m n ntx nty Hm Hn Hx Hy e); auto].
      assert (forall is, Permutation (flat_map (fun i => flat_map (fun j => filter (in_tile m n ntx nty i j) es) (zrange 0 ntx)) is) (flat_map (fun k => filter (fun a0 => trow m nty a0 =? k) es) is)) as G; [|apply G].
      induction is as [|i is IH]; simpl; auto. apply Permutation_app; auto.
      rewrite <- (by_key_perm (tcol n ntx) (filter (fun e => trow m nty e =? i) es) ntx).
      + erewrite flat_map_ext_in; [reflexivity|]. intros j _. cbv beta. rewrite filter_filter. reflexivity.
      + intros e He. apply filter_In in He as [He _]. apply (tile_ranges m n ntx nty Hm Hn Hx Hy e); auto.
  Qed.

  Lemma rank_entries_owner r e : 0 <= r < nr -> In e (rank_entries r) -> owner m n ntx nty ids e = r.
  Proof.
    intros Hr He. unfold rank_entries in He. apply in_flat_map in He as (i & Hi & He). apply in_flat_map in He as (j & Hj & He). apply in_zrange in Hi, Hj.
    destruct (Z.eqb_spec (own i j) r) as [Eo|]; [|destruct He]. destruct (held_tile i j Hi Hj) as (t & _ & _ & P). apply (Permutation_in _ P) in He. apply filter_In in He as [He Hp].
    apply andb_prop in Hp as [Hp1 Hp2]. apply Z.eqb_eq in Hp1, Hp2. unfold owner, tid. rewrite Hp1, Hp2. exact Eo.
  Qed.
  Lemma rank_entries_perm r : 0 <= r < nr -> Permutation (rank_entries r) (filter (fun e => owner m n ntx nty ids e =? r) es).
  Proof.
    intros Hr. rewrite <- (perm_filter (fun e => owner m n ntx nty ids e =? r) _ _ all_entries).
    rewrite (zrange_app 0 r nr), (zrange_cons r nr), flat_map_app by lia. cbn [flat_map]. rewrite !filter_app.
    assert (forall l, (forall q, In q l -> 0 <= q < nr /\ q <> r) -> filter (fun e => owner m n ntx nty ids e =? r) (flat_map rank_entries l) = []) as G.
    { intros l Hl. apply filter_all_false. intros e He. apply in_flat_map in He as (q & Hq & He). destruct (Hl q Hq). rewrite (rank_entries_owner q e) by auto. apply Z.eqb_neq; auto. }
    rewrite !G by (intros q Hq; apply in_zrange in Hq; lia). rewrite app_nil_r. simpl. rewrite forallb_filter_id; auto.
    rewrite forallb_forall. intros e He. apply Z.eqb_eq. apply rank_entries_owner; auto.
  Qed.
End Held.
