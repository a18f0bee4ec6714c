(** The distributed products: what they compute from the edge list. *)
From Coq Require Import Sorting.Sorted.
From Verif Require Import BaseLemmas Layout LayoutProofs Bits BitsProofs Segment SegmentProofs TransferProofs MergeProofs UnionProofs SegHistory SegHistoryProofs Reduce ReduceProofs SegFinal Bucket BucketProofs Vec VecProofs VecProofs2 GraphVertProofs ListLemmas DCSC DCSCProofs DCSCBuild Kernel KernelProofs MatSpec DCSCFinal TileProofs SpMat SpMatProofs SpMSpV DistProofs Tree TreeProofs.

Lemma row_products_app {E U} (G : edge E -> option U) l l' k : row_products G (l ++ l') k = row_products G l k ++ row_products G l' k.
Proof. unfold row_products. rewrite map_app, concat_app. auto. Qed.
Lemma row_products_ext {E U} (G G' : edge E -> option U) l k : (forall e, In e l -> G e = G' e) -> row_products G l k = row_products G' l k.
Proof. intros H. unfold row_products. f_equal. apply map_ext_in. intros e He. rewrite H; auto. Qed.
Lemma row_products_none {E U} (G : edge E -> option U) l k : (forall e, In e l -> e_src e <> k) -> row_products G l k = [].
Proof. induction l as [|e l IH]; intros H; [reflexivity|]. rewrite row_products_cons. destruct (Z.eqb_spec (e_src e) k) as [Q|]; [destruct (H e (or_introl eq_refl) Q)|]. simpl. apply IH. intros; apply H; simpl; auto. Qed.
Lemma row_products_filter {E U} (G : edge E -> option U) p l k : (forall e, In e l -> e_src e = k -> p e = true) -> row_products G (filter p l) k = row_products G l k.
Proof.
  induction l as [|e l IH]; intros H; [reflexivity|]. cbn [filter]. rewrite (row_products_cons G e l). destruct (p e) eqn:Pe; [rewrite row_products_cons|].
  - f_equal. apply IH. intros; apply H; simpl; auto.
  - destruct (Z.eqb_spec (e_src e) k) as [Q|]; [rewrite H in Pe by (simpl; auto); discriminate|]. simpl. apply IH. intros; apply H; simpl; auto.
Qed.
Lemma row_products_flat {A E U} (G : edge E -> option U) (f : A -> list (edge E)) l k : row_products G (flat_map f l) k = flat_map (fun a => row_products G (f a) k) l.
Proof. induction l as [|a l IH]; [reflexivity|]. simpl. rewrite row_products_app, IH. auto. Qed.

Lemma filter_permutes {A} (f : A -> bool) l l' : Permutation l l' -> Permutation (filter f l) (filter f l').
Proof. induction 1; cbn [filter]; repeat (destruct (f _)); auto; [constructor|]. etransitivity; eauto. Qed.

Section Red.
  Context {U : Type}.
  Variable op : U -> U -> U.
  Lemma red_red l l' : red op (olist (red op l) ++ l') = red op (l ++ l').
  Proof. destruct l as [|a l]; [reflexivity|]. simpl. rewrite fold_left_app. auto. Qed.
  Hypothesis Ha : associative op.
  Lemma red_reds {A} (f : A -> list U) ls : red op (flat_map (fun a => olist (red op (f a))) ls) = red op (flat_map f ls).
  Proof.
    induction ls as [|a ls IH]; [reflexivity|]. simpl. rewrite !red_app by auto. rewrite IH. f_equal. destruct (red op (f a)); reflexivity.
  Qed.
End Red.

Lemma flat_map_sub {A} (f : Z -> list A) l nr : NoDup l -> (forall r, In r l -> 0 <= r < nr) -> (forall r, 0 <= r < nr -> ~ In r l -> f r = []) ->
  Permutation (flat_map f l) (flat_map f (zrange 0 nr)).
Proof.
  intros Nd Hin Hf.
  assert (flat_map f (zrange 0 nr) = flat_map f (filter (fun r => memz r l) (zrange 0 nr))) as ->.
  { assert (forall q, (forall r, In r q -> 0 <= r < nr) -> flat_map f q = flat_map f (filter (fun r => memz r l) q)) as G; [|apply G; intros r Hr; apply in_zrange in Hr; auto].
    induction q as [|r q IH]; intros Hq; [reflexivity|]. cbn [filter flat_map]. rewrite IH by (intros; apply Hq; simpl; auto). destruct (memz r l) eqn:M; [reflexivity|]. rewrite Hf; auto; [apply Hq; simpl; auto|].
    intros Hi. apply memz_in in Hi. congruence. }
  apply Permutation_flat_map. apply NoDup_Permutation; auto.
  - apply NoDup_filter. apply NoDup_zrange.
  - intros r. rewrite filter_In, memz_in, in_zrange. split; [intros H; split; auto; apply Hin; auto|intuition].
Qed.

Section Mult.
  Context {E T V U byte : Type}.
  Variables (nr m n ntx nty : Z).
  Hypothesis Hnr : 1 <= nr.
  Hypothesis Hm : 0 <= m.
  Hypothesis Hn : 0 <= n.
  Hypothesis Hx : 1 <= ntx.
  Hypothesis Hy : 1 <= nty.
  Variables (ids : list Z) (a : spmat E) (es : list (edge E)).
  Hypothesis Ha : mat_holds nr m n ntx nty ids a es.
  Notation si := (SpMatProofs.si m nty). Notation sj := (SpMatProofs.sj n ntx).
  Notation own := (SpMatProofs.own nty ids).
  Notation stored := (SpMatProofs.stored m n ntx nty ids a).
  Notation ow := (ow nr).

  Definition part (r i : Z) : list (edge E) := flat_map (fun j => if own i j =? r then stored i j else []) (zrange 0 ntx).

  Lemma own_ok' i j : 0 <= i < nty -> 0 <= j < ntx -> rd ids (i + j * nty) = Ok (own i j) /\ 0 <= own i j < nr.
  Proof. exact (own_ok nr m n ntx nty Hx Hy ids a es Ha i j). Qed.
  Lemma stored_in i j e : 0 <= i < nty -> 0 <= j < ntx -> In e (stored i j) -> In e es /\ si i < e_src e <= si (i + 1) /\ sj j < e_dst e <= sj (j + 1).
  Proof.
    intros Hi Hj He. destruct (held_tile nr m n ntx nty Hx Hy ids a es Ha i j Hi Hj) as (t & _ & _ & P). apply (Permutation_in _ P) in He. apply filter_In in He as [He Hp].
    split; auto. apply andb_prop in Hp as [Hp1 Hp2]. apply Z.eqb_eq in Hp1, Hp2. pose proof (tile_rect m n ntx nty Hm Hn Hx Hy e i j (mh_in _ _ _ _ _ _ _ _ Ha e He) Hp1 Hp2) as [A B]. lia.
  Qed.
  Lemma part_in r i e : 0 <= i < nty -> In e (part r i) -> In e es /\ si i < e_src e <= si (i + 1).
  Proof.
    intros Hi He. apply in_flat_map in He as (j & Hj & He). apply in_zrange in Hj. destruct (own i j =? r); [|destruct He]. destruct (stored_in i j e Hi Hj He) as (? & ? & _). auto.
  Qed.
  Lemma parts_perm i : 0 <= i < nty -> Permutation (flat_map (fun r => part r i) (zrange 0 nr)) (filter (fun e => trow m nty e =? i) es).
  Proof.
    intros Hi. unfold part. rewrite by_owner_perm by (intros j Hj; apply in_zrange in Hj; apply own_ok'; auto).
    assert (forall js, (forall j, In j js -> 0 <= j < ntx) -> Permutation (flat_map (stored i) js) (flat_map (fun j => filter (in_tile m n ntx nty i j) es) js)) as G.
    { induction js as [|j js IH]; intros Hjs; simpl; auto. apply Permutation_app; [|apply IH; intros; apply Hjs; simpl; auto]. destruct (held_tile nr m n ntx nty Hx Hy ids a es Ha i j) as (t & _ & _ & P); auto. apply Hjs; simpl; auto. }
    rewrite G by (intros j Hj; apply in_zrange in Hj; lia). pose proof (mh_in _ _ _ _ _ _ _ _ Ha) as Hin.
    rewrite <- (by_key_perm (tcol n ntx) (filter (fun e => trow m nty e =? i) es) ntx).
    - erewrite flat_map_ext_in; [reflexivity|]. intros j _. cbv beta. rewrite filter_filter. reflexivity.
    - intros e He. apply filter_In in He as [He _]. apply (tile_ranges m n ntx nty Hm Hn Hx Hy e); auto.
  Qed.

  (** the ranks of a tile row and of a tile column *)
  Definition rrk (i : Z) : list Z := set_of (map (fun j => own i j) (zrange 0 ntx)).
  Definition crk (j : Z) : list Z := set_of (map (fun i => own i j) (zrange 0 nty)).
  Lemma row_ranks_ok i : 0 <= i < nty -> row_ranks a i = Ok (rrk i).
  Proof.
    intros Hi. unfold row_ranks. rewrite (mh_ids _ _ _ _ _ _ _ _ Ha), (mh_nty _ _ _ _ _ _ _ _ Ha), (mh_ntx _ _ _ _ _ _ _ _ Ha).
    rewrite (mapR_map _ (fun j => own i j)); [reflexivity|]. intros j Hj. apply in_zrange in Hj. apply own_ok'; auto.
  Qed.
  Lemma col_ranks_ok j : 0 <= j < ntx -> col_ranks a j = Ok (crk j).
  Proof.
    intros Hj. unfold col_ranks. rewrite (mh_ids _ _ _ _ _ _ _ _ Ha), (mh_nty _ _ _ _ _ _ _ _ Ha).
    rewrite (mapR_map _ (fun i => own i j)); [reflexivity|]. intros i Hi. apply in_zrange in Hi. apply own_ok'; auto.
  Qed.
  Lemma in_rrk r i : In r (rrk i) <-> exists j, 0 <= j < ntx /\ own i j = r.
  Proof. unfold rrk. rewrite set_of_in, in_map_iff. split; intros (j & A & B); exists j; rewrite in_zrange in *; auto. Qed.
  Lemma in_crk r j : In r (crk j) <-> exists i, 0 <= i < nty /\ own i j = r.
  Proof. unfold crk. rewrite set_of_in, in_map_iff. split; intros (i & A & B); exists i; rewrite in_zrange in *; auto. Qed.
  Lemma part_out r i : ~ In r (rrk i) -> part r i = [].
  Proof.
    intros H. unfold part. rewrite (flat_map_ext_in _ (fun _ => [])); [apply flat_map_nil|]. intros j Hj. apply in_zrange in Hj. destruct (Z.eqb_spec (own i j) r); auto. destruct H. apply in_rrk. eauto.
  Qed.

  Variable add : U -> U -> U.
  Variables (seru : bool) (thr threads : Z).
  Hypothesis Hth : thok seru thr threads.
  Variable G : edge E -> option U.
  Notation fineu := (@fine U byte seru thr m nty).
  Definition upd (M : Z -> option U) (l : list (edge E)) (i k : Z) : option U := red add (olist (M k) ++ row_products G l (si i + k)).

  Lemma upd_nil M i k : upd M [] i k = M k.
  Proof. unfold upd. change (row_products G [] (si i + k)) with (@nil U). rewrite app_nil_r. destruct (M k); reflexivity. Qed.
  Lemma upd_upd M l l' i k : upd (upd M l i) l' i k = upd M (l ++ l') i k.
  Proof. unfold upd. rewrite red_red, row_products_app, app_assoc. auto. Qed.

  Lemma mult_tiles_spec (f : Z -> Z -> Z -> dcsc E -> seg U byte -> R (seg U byte)) y (Y : Z -> Z -> Z -> option U) :
    dims nr nty y -> (forall r i s, rd2 y r i = Ok s -> fineu i s (Y r i)) ->
    (forall r i j t s M, 0 <= r < nr -> 0 <= i < nty -> 0 <= j < ntx -> own i j = r -> tile_of (si (i + 1) - si i) (sj (j + 1) - sj j) (map (rel (si i) (sj j)) (stored i j)) t ->
       fineu i s M -> exists s', f r i j t s = Ok s' /\ fineu i s' (upd M (stored i j) i)) ->
    exists y', mult_tiles nr a f y = Ok y' /\ dims nr nty y' /\ forall r i s', rd2 y' r i = Ok s' -> fineu i s' (upd (Y r i) (part r i) i).
  Proof.
    intros D Fy Hf. unfold mult_tiles. rewrite (mh_nty _ _ _ _ _ _ _ _ Ha), (mh_ntx _ _ _ _ _ _ _ _ Ha), (mh_ids _ _ _ _ _ _ _ _ Ha).
    tabs (fun r i (s' : seg U byte) => fineu i s' (upd (Y r i) (part r i) i)) as y' Ey D' Iy; [|exists y'; auto].
    intros r i Br Bi. cbv beta. destruct (dims_rd2 _ _ _ r i D Br Bi) as [s Es]. rewrite Es. cbn [bind].
    apply (forZ_inv (fun j s => fineu i s (upd (Y r i) (flat_map (fun j => if own i j =? r then stored i j else []) (zrange 0 j)) i))); [lia| |].
    - destruct (Fy r i s Es) as (W & C & Q & A). split; [auto|]. split; [auto|]. split; [auto|]. eapply segM_ext; [|exact A]. intros k. symmetry. apply upd_nil.
    - intros j s1 Hj F1. destruct (own_ok nr m n ntx nty Hx Hy ids a es Ha i j Bi Hj) as [Eo Bo]. rewrite Eo. cbn [bind]. rewrite (zrange_snoc 0 j), flat_map_app by lia. cbn [flat_map]. rewrite app_nil_r.
      destruct (Z.eqb_spec (own i j) r) as [Er|Nr].
      + destruct (held_tile nr m n ntx nty Hx Hy ids a es Ha i j Bi Hj) as (t & Et & Tt & _). rewrite Er in Et. rewrite Et. cbn [bind].
        destruct (Hf r i j t s1 _ Br Bi Hj Er Tt F1) as (s2 & E2 & W & C & Q & A). exists s2. split; auto. split; [auto|]. split; [auto|]. split; [auto|]. eapply segM_ext; [|exact A]. intros k. apply upd_upd.
      + exists s1. split; auto. rewrite app_nil_r. auto.
  Qed.

  Variable encu : list (Z * U) -> list byte.
  Variable decu : list byte -> Z -> R (list (Z * U)).
  Hypothesis dec_enc : forall l, decu (encu l) (zlen l) = Ok l.

  (** what the owner of row segment [i] has after merging the contributions of the other ranks *)
  Definition others (i : Z) : list Z := filter (fun src => negb (src =? ow i)) (rrk i).
  Definition merged (Y : Z -> option U) (i k : Z) : option U :=
    red add (contribs (upd (restr m nty Y i) (part (ow i) i) i :: map (fun q => upd (fun _ => None) (part q i) i) (others i)) k).
  Lemma rrk_range i q : 0 <= i < nty -> In q (rrk i) -> 0 <= q < nr.
  Proof. intros Bi Hq. apply in_rrk in Hq as (j & Hj & <-). apply own_ok'; auto. Qed.
  Lemma others_in i q : 0 <= i < nty -> In q (others i) -> 0 <= q < nr /\ q <> ow i.
  Proof. intros Bi Hq. apply filter_In in Hq as [Hq Ne]. split; [eapply rrk_range; eauto|]. intros ->. rewrite Z.eqb_refl in Ne. discriminate. Qed.
  Lemma merged_parts Y i k : 0 <= i < nty -> combined_of add (olist (restr m nty Y i k) ++ row_products G (filter (fun e => trow m nty e =? i) es) (si i + k)) (merged Y i k).
  Proof.
    intros Bi. assert (0 <= ow i < nr) as Bo by (apply ow_range; auto). unfold merged.
    apply (combined_of_perm add (concat ((olist (restr m nty Y i k) ++ row_products G (part (ow i) i) (si i + k)) :: map (fun q => row_products G (part q i) (si i + k)) (others i)))).
    - replace (contribs (upd (restr m nty Y i) (part (ow i) i) i :: map (fun q => upd (fun _ => None) (part q i) i) (others i)) k)
        with (flat_map olist (upd (restr m nty Y i) (part (ow i) i) i k :: map (fun q => upd (fun _ => None) (part q i) i k) (others i))).
      2: { unfold contribs. cbn [flat_map map concat]. rewrite flat_map_concat_map, !map_map. reflexivity. }
      apply combined_of_parts. constructor; [apply combined_of_red|].
      generalize (others i) as l. induction l as [|q l IH]; cbn [map]; constructor; auto. apply combined_of_red.
    - cbn [concat]. rewrite <- app_assoc. apply Permutation_app_head.
      change (row_products G (part (ow i) i) (si i + k) ++ concat (map (fun q => row_products G (part q i) (si i + k)) (others i))) with (concat (map (fun q => row_products G (part q i) (si i + k)) (ow i :: others i))).
      rewrite <- flat_map_concat_map, <- row_products_flat. apply row_products_perm.
      refine (Permutation_trans _ (parts_perm i Bi)). apply flat_map_sub.
      + constructor; [intros Hin; apply (others_in i) in Hin as [_ Hin]; auto|]. apply NoDup_filter. apply sorted_lt_nodup. apply set_of_sorted.
      + intros q [<-|Hq]; auto. apply (others_in i); auto.
      + intros q Bq Hq. apply part_out. intros Hin. apply Hq. destruct (Z.eq_dec q (ow i)); [subst; simpl; auto|]. right. apply filter_In. split; auto. apply negb_true_iff, Z.eqb_neq. congruence.
  Qed.
  Definition mergedv (Y : Z -> option U) (id : Z) : option U := merged Y (vpart m nty id) (id - si (vpart m nty id)).
  Lemma mergedv_at Y i k : 0 <= i < nty -> 1 <= k <= cap m nty i -> mergedv Y (si i + k) = merged Y i k /\ vpart m nty (si i + k) = i.
  Proof.
    intros Bi Bk. unfold mergedv. assert (vpart m nty (si i + k) = i) as ->. { apply (vpart_iff m nty); auto. unfold cap, st in *. unfold SpMatProofs.si in *. lia. }
    split; auto. f_equal. lia.
  Qed.
  Lemma mergedv_restr Y i k : 0 <= i < nty -> merged Y i k = restr m nty (mergedv Y) i k.
  Proof.
    intros Bi. unfold restr. destruct (Z.leb_spec 1 k); destruct (Z.leb_spec k (cap m nty i)); cbn [andb].
    1: { change (st m nty i) with (si i). rewrite (proj1 (mergedv_at Y i k Bi ltac:(lia))). reflexivity. }
    all: apply (combined_of_nil add); pose proof (merged_parts Y i k Bi) as H1; rewrite row_products_none in H1;
      [unfold restr in H1; destruct (Z.leb_spec 1 k); destruct (Z.leb_spec k (cap m nty i)); try lia; exact H1|];
      intros e He Ek; apply (Permutation_in _ (Permutation_sym (parts_perm i Bi))) in He; apply in_flat_map in He as (q & _ & He); apply part_in in He; auto; unfold cap, st in *; unfold SpMatProofs.si in *; lia.
  Qed.
  Lemma mergedv_parts Y id : 1 <= id <= m -> combined_of add (olist (Y id) ++ row_products G es id) (mergedv Y id).
  Proof.
    intros Bi. destruct (vpart_range m nty id Hm Hy Bi) as [B1 _]. pose proof (proj2 (vpart_iff m nty id _ Hm Hy B1) (conj Bi eq_refl)) as B2. set (i := vpart m nty id) in *.
    assert (1 <= id - si i <= cap m nty i) as Bk by (unfold cap, st, SpMatProofs.si; lia).
    pose proof (merged_parts Y i (id - si i) B1) as H. replace (si i + (id - si i)) with id in H by lia.
    unfold mergedv. fold i. unfold restr in H. destruct (Z.leb_spec 1 (id - si i)); [|lia]. destruct (Z.leb_spec (id - si i) (cap m nty i)); [|lia]. cbn [andb] in H.
    change (st m nty i) with (si i) in H. replace (si i + (id - si i)) with id in H by lia.
    rewrite row_products_filter in H; auto. intros e He Ek. apply Z.eqb_eq. unfold trow. rewrite Ek. reflexivity.
  Qed.

  (** in which order the entries of row [id] are combined, after what the orders [t0] gave *)
  Definition cell_tree (t0 : list (tree (edge E))) (id : Z) : tree (edge E) :=
    let i := vpart m nty id in
    let mine q := map Leaf (filter (fun e => e_src e =? id) (part q i)) in
    Node (Node (t0 ++ mine (ow i)) :: map (fun q => Node (mine q)) (others i)).
  Lemma row_leaves l id : row_products G l id = flat_map (fun t => olist (eval add G t)) (map Leaf (filter (fun e => e_src e =? id) l)).
  Proof using.
    unfold row_products. induction l as [|e l IH]; [reflexivity|]. cbn [map concat filter]. rewrite IH. destruct (e_src e =? id); cbn [map flat_map eval]; [|reflexivity]. destruct (G e); reflexivity.
  Qed.
  Lemma mergedv_tree Y t0 id : 1 <= id <= m -> Y id = red add (flat_map (fun t => olist (eval add G t)) t0) -> mergedv Y id = eval add G (cell_tree t0 id).
  Proof using Hm Hy.
    intros Bi E0. destruct (vpart_range m nty id Hm Hy Bi) as [B1 _]. pose proof (proj2 (vpart_iff m nty id _ Hm Hy B1) (conj Bi eq_refl)) as B2. unfold mergedv, cell_tree. set (i := vpart m nty id) in *.
    assert (1 <= id - si i <= cap m nty i) as Bk by (unfold cap, st, SpMatProofs.si; lia).
    unfold merged, contribs. cbn [map concat eval flat_map]. f_equal. f_equal.
    - unfold upd, restr. destruct (Z.leb_spec 1 (id - si i)); [|lia]. destruct (Z.leb_spec (id - si i) (cap m nty i)); [|lia]. cbn [andb].
      change (st m nty i) with (si i). replace (si i + (id - si i)) with id by lia. rewrite E0, red_red, flat_map_app, <- row_leaves. reflexivity.
    - rewrite map_map, !flat_map_concat_map, map_map. f_equal. apply map_ext. intros q. unfold upd. cbn [olist app eval]. replace (si i + (id - si i)) with id by lia. rewrite row_leaves. reflexivity.
  Qed.
  Lemma cell_tree_leaves t0 id : 1 <= id <= m -> Permutation (leaves (cell_tree t0 id)) (flat_map leaves t0 ++ filter (fun e => e_src e =? id) es).
  Proof using Ha Hm Hn Hnr Hx Hy.
    intros Bi. destruct (vpart_range m nty id Hm Hy Bi) as [B1 _]. unfold cell_tree. set (i := vpart m nty id) in *. assert (0 <= ow i < nr) as Bo by (apply ow_range; auto).
    change (leaves _) with (flat_map leaves (t0 ++ map Leaf (filter (fun e => e_src e =? id) (part (ow i) i))) ++ flat_map leaves (map (fun q => Node (map Leaf (filter (fun e => e_src e =? id) (part q i)))) (others i))).
    rewrite flat_map_app, <- app_assoc. apply Permutation_app_head.
    set (f := fun q => filter (fun e => e_src e =? id) (part q i)).
    change (filter (fun e => e_src e =? id) (part (ow i) i)) with (f (ow i)).
    change (map (fun q => Node (map Leaf (filter (fun e => e_src e =? id) (part q i)))) (others i)) with (map (fun q => Node (map Leaf (f q))) (others i)).
    assert (flat_map leaves (map Leaf (f (ow i))) ++ flat_map leaves (map (fun q => Node (map Leaf (f q))) (others i)) = flat_map f (ow i :: others i)) as ->.
    { cbn [flat_map]. f_equal; [apply (leaves_leaves (f (ow i)))|]. rewrite flat_map_concat_map, map_map, <- flat_map_concat_map. apply flat_map_ext_in. intros q _. apply leaves_leaves. }
    transitivity (flat_map f (zrange 0 nr)).
    - apply flat_map_sub.
      + constructor; [intros Hin; apply (others_in i) in Hin as [_ Hin]; auto|]. apply NoDup_filter. apply sorted_lt_nodup. apply set_of_sorted.
      + intros q [<-|Hq]; auto. apply (others_in i); auto.
      + intros q Bq Hq. unfold f. rewrite part_out; [reflexivity|]. intros Hin. apply Hq. destruct (Z.eq_dec q (ow i)); [subst; simpl; auto|]. right. apply filter_In. split; auto. apply negb_true_iff, Z.eqb_neq. congruence.
    - assert (flat_map f (zrange 0 nr) = filter (fun e => e_src e =? id) (flat_map (fun r => part r i) (zrange 0 nr))) as ->.
      { unfold f. induction (zrange 0 nr) as [|q l IH]; [reflexivity|]. cbn [flat_map]. rewrite filter_app, IH. reflexivity. }
      rewrite (filter_permutes _ _ _ (parts_perm i B1)). rewrite filter_filter. rewrite (filter_ext_in _ (fun e => e_src e =? id)); [reflexivity|].
      intros e He. unfold trow. destruct (Z.eqb_spec (e_src e) id) as [->|]; rewrite ?andb_true_r, ?andb_false_r; auto. apply Z.eqb_refl.
  Qed.

  Lemma reduce_rows_spec y Y : dims nr nty y ->
    (forall r i s, rd2 y r i = Ok s -> fineu i s (upd (if ow i =? r then restr m nty Y i else fun _ => None) (part r i) i)) ->
    exists y', reduce_rows seru encu decu nr nty threads add (row_ranks a) y = Ok y' /\
      held seru thr m nty nr y' (mergedv Y) /\ hlive nr y'.
  Proof.
    intros D Fy. unfold reduce_rows.
    tabs (fun r i (s' : seg U byte) => fineu i s' (if ow i =? r then restr m nty (mergedv Y) i else fun _ => None) /\ (ow i = r -> live s')) as y' Ey D' Iy.
    2: { exists y'. split; auto. split; [split; auto; intros; apply Iy; auto|]. intros i s Es. eapply Iy; eauto. }
    intros r i Br Bi. cbv beta. rewrite vown_ok, row_ranks_ok by lia. cbn [bind]. destruct (dims_rd2 _ _ _ r i D Br Bi) as [s Es]. rewrite Es. cbn [bind]. rewrite (Z.eqb_sym r).
    pose proof (Fy r i s Es) as Fs. destruct (Z.eqb_spec (ow i) r) as [Eo|No].
    - fold (others i). pose proof (fun q => others_in i q Bi) as Hot.
      assert (exists cs, mapR (fun src => do c <- rd2 y src i ;; Ok (threads, c)) (others i) = Ok cs /\
         Forall2 (fun c M => thok seru thr (fst c) /\ swf seru thr (snd c) /\ s_cap (snd c) = cap m nty i /\ forall k, sabs (snd c) k = option_map Some (M (k + 1))) cs
           (map (fun q => upd (fun _ => None) (part q i) i) (others i))) as (cs & Ecs & Fcs).
      { revert Hot. generalize (others i) as ot. clear - D Fy Bi Hth. intros ot Hot. induction ot as [|q l IH]; [exists []; split; [reflexivity|constructor]|].
        destruct IH as (cs & Ecs & Fcs); [intros; apply Hot; simpl; auto|]. destruct (Hot q (or_introl eq_refl)) as [Bq Nq]. destruct (dims_rd2 _ _ _ q i D Bq Bi) as [c Ec].
        exists ((threads, c) :: cs). cbn [mapR map]. rewrite Ec. cbn [bind]. rewrite Ecs. cbn [bind]. split; auto. constructor; auto. cbn [fst snd].
        destruct (Fy q i c Ec) as (W & C & _ & A). destruct (Z.eqb_spec (ow i) q); [congruence|]. auto. }
      rewrite Ecs. cbn [bind]. destruct Fs as (W & C & [Q1 Q2] & A).
      destruct (gather_spec seru thr encu decu dec_enc add threads (cap m nty i) s _ cs _ Hth W C Q1 Q2 A Fcs) as (o' & Eg & W' & C' & R' & Q' & A' & Lv).
      exists o'. split; auto. split; [|intros _; exact Lv]. split; [auto|]. split; [auto|]. split; [split; auto|].
      apply (segM_ext o' (merged Y i)); [intros k; apply mergedv_restr; auto|]. unfold merged. rewrite Eo. exact A'.
    - assert (exists s1, (if memz r (rrk i) then seg_compress seru encu threads s else Ok s) = Ok s1 /\ swf seru thr s1 /\ s_cap s1 = cap m nty i /\ quiet s1) as (s1 & E1 & W1 & C1 & Q1).
      { destruct Fs as (W & C & Q & A). destruct (memz r (rrk i)); [|exists s; auto].
        destruct (seg_compress_spec seru thr encu threads s Hth W (fun _ => determinate_map _ _ A)) as (s' & md & pl & E0 & W' & C' & A' & (b' & Eb') & _). exists s'. split; auto. split; auto. split; [congruence|]. subst s'. exact Q. }
      rewrite E1. cbn [bind]. destruct (seg_set_uninitialized_spec seru thr s1 W1) as (W' & A' & C' & _ & R'). eexists. split; [reflexivity|]. split; [|congruence].
      split; [auto|]. split; [congruence|]. split; [|apply segM_none_not; auto]. split; auto. unfold seg_set_uninitialized, seg_set_uninitialized_received. simpl. destruct (s_prop s1); apply Q1.
  Qed.
End Mult.

Section EndToEnd.
  Context {E T V U byte : Type}.
  Variables (nr m n ntx nty : Z).
  Hypothesis Hnr : 1 <= nr.
  Hypothesis Hm : 0 <= m.
  Hypothesis Hn : 0 <= n.
  Hypothesis Hx : 1 <= ntx.
  Hypothesis Hy : 1 <= nty.
  Variables (ids : list Z) (a : spmat E) (es : list (edge E)).
  Hypothesis Ha : mat_holds nr m n ntx nty ids a es.
  Variables (sert serv seru : bool).
  Variables (enct : list (Z * T) -> list byte) (dect : list byte -> Z -> R (list (Z * T))).
  Variables (encv : list (Z * V) -> list byte) (decv : list byte -> Z -> R (list (Z * V))).
  Variables (encu : list (Z * U) -> list byte) (decu : list byte -> Z -> R (list (Z * U))).
  Hypothesis DEt : forall l, dect (enct l) (zlen l) = Ok l.
  Hypothesis DEv : forall l, decv (encv l) (zlen l) = Ok l.
  Hypothesis DEu : forall l, decu (encu l) (zlen l) = Ok l.
  Variables (thr threads : Z).
  Hypothesis Tt : thok sert thr threads.
  Hypothesis Tv : thok serv thr threads.
  Hypothesis Tu : thok seru thr threads.
  Variable add : U -> U -> U.
  Notation si := (SpMatProofs.si m nty). Notation sj := (SpMatProofs.sj n ntx).
  Notation own := (SpMatProofs.own nty ids).
  Notation stored := (SpMatProofs.stored m n ntx nty ids a).

  Lemma restr_in {A} N ns (M : Z -> option A) j id : start_at N ns j < id <= start_at N ns (j + 1) -> restr N ns M j (id - start_at N ns j) = M id.
  Proof.
    intros H. unfold restr, cap, st. destruct (Z.leb_spec 1 (id - start_at N ns j)); [|lia]. destruct (Z.leb_spec (id - start_at N ns j) (start_at N ns (j + 1) - start_at N ns j)); [|lia].
    simpl. f_equal. lia.
  Qed.

  Lemma local_products (G G' : edge E -> option U) i j k : 0 <= i < nty -> 0 <= j < ntx ->
    (forall e, In e (stored i j) -> G' (rel (si i) (sj j) e) = G e) ->
    row_products G' (map (rel (si i) (sj j)) (stored i j)) k = row_products G (stored i j) (si i + (k + 1)).
  Proof.
    intros Hi Hj H. rewrite (row_products_map G' (rel (si i) (sj j)) _ k (si i + (k + 1))).
    - apply row_products_ext. auto.
    - intros e He. unfold rel. simpl. apply Bool.eq_true_iff_eq. rewrite !Z.eqb_eq. lia.
  Qed.

  Lemma spmspv_spec mul x y X Y : held sert thr n ntx nr x X -> hlive nr x -> held seru thr m nty nr y Y ->
    exists x' y', spmspv sert seru enct dect encu decu nr threads add mul a x y = Ok (x', y') /\
      held sert thr n ntx nr x' X /\ hlive nr x' /\ (forall C, hcells n ntx nr x C -> hcells n ntx nr x' C) /\
      exists Y', held seru thr m nty nr y' Y' /\ hlive nr y' /\
        (forall id, 1 <= id <= m -> combined_of add (olist (Y id) ++ row_products (fun e => option_map (mul (e_val e)) (X (e_dst e))) es id) (Y' id)) /\
        forall t0 id, 1 <= id <= m -> Y id = red add (flat_map (fun t => olist (eval add (fun e => option_map (mul (e_val e)) (X (e_dst e))) t)) t0) -> Y' id = eval add (fun e => option_map (mul (e_val e)) (X (e_dst e))) (cell_tree nr m n ntx nty ids a t0 id).
  Proof.
    intros Hxx Lx Hyy. unfold spmspv. rewrite (mh_nty _ _ _ _ _ _ _ _ Ha), (mh_ntx _ _ _ _ _ _ _ _ Ha).
    destruct (bcast_spec sert thr n ntx nr ltac:(lia) ltac:(lia) enct dect DEt threads Tt (col_ranks a) (crk nty ids) x X Hxx) as (x1 & E1 & C1).
    { intros j Hj. apply (col_ranks_ok nr m n ntx nty Hx Hy ids a es Ha j Hj). }
    rewrite E1. cbn [bind]. set (G := fun e : edge E => option_map (mul (e_val e)) (X (e_dst e))).
    destruct (mult_tiles_spec nr m n ntx nty Hnr Hx Hy ids a es Ha add seru thr threads G (fun r i j t s => do xs <- rd2 x1 r j ;; mult_segment add threads mul t xs s) y
      (fun r i => if ow nr i =? r then restr m nty Y i else fun _ => None)) as (y1 & Ey & D1 & F1).
    { apply Hyy. } { apply Hyy. }
    { intros r i j t s M Br Bi Bj Eo Tile (W & C & Q & A). destruct C1 as [Dx1 I1]. destruct (dims_rd2 _ _ _ r j Dx1 Br Bj) as [xs Ex]. rewrite Ex. cbn [bind].
      destruct (I1 r j xs Ex) as ((Wx & Cx & Qx & Ax) & L1 & O1).
      assert (memz r (crk nty ids j) = true) as Mr. { apply memz_in. eapply in_crk; eauto. }
      assert (live xs) as Lxs. { destruct (Z.eq_dec (ow nr j) r) as [Eq|Ne]; [|auto]. destruct (dims_rd2 _ _ _ r j (proj1 Hxx) Br Bj) as [x0 Ex0]. destruct (O1 Eq x0 Ex0) as [Ol _]. apply Ol. rewrite <- Eq in Ex0. exact (Lx _ _ Ex0). }
      rewrite Mr, orb_true_r in Ax.
      destruct (mult_segment_spec add sert seru thr threads Tu _ _ _ t Tile mul xs s (fun k => restr n ntx X j (k + 1)) (fun k => M (k + 1)) Wx Cx Lxs Ax W C A) as (y' & Em & W' & C' & L' & R' & Q' & A').
      exists y'. split; auto. split; [auto|]. split; [auto|]. split; [destruct Q; split; congruence|]. intros k. rewrite A'. unfold upd. do 3 f_equal.
      apply local_products; auto. intros e He. unfold prod2, G, rel. simpl. f_equal.
      replace (e_dst e - 1 - sj j + 1) with (e_dst e - sj j) by lia. apply restr_in. apply (stored_in nr m n ntx nty Hm Hn Hx Hy ids a es Ha i j e Bi Bj He). }
    rewrite Ey. cbn [bind].
    destruct (drop_spec sert thr n ntx nr ltac:(lia) ltac:(lia) threads (crk nty ids) x x1 X Hxx C1) as (x2 & E2 & H2 & L2 & K2). rewrite E2. cbn [bind].
    destruct (reduce_rows_spec nr m n ntx nty Hnr Hm Hn Hx Hy ids a es Ha add seru thr threads Tu G encu decu DEu y1 Y D1 F1) as (y2 & E3 & H3 & L3).
    rewrite E3. cbn [bind]. exists x2, y2. conjs; auto. eexists. split; [exact H3|]. split; [auto|]. split.
    - intros id Hid. apply (mergedv_parts nr m n ntx nty Hnr Hm Hn Hx Hy ids a es Ha add G Y id Hid).
    - intros t0 id Hid E0. apply (mergedv_tree nr m n ntx nty Hm Hy ids a add G Y t0 id Hid E0).
  Qed.

  Lemma spmspv3_spec mul x vp y X P Y : held sert thr n ntx nr x X -> hlive nr x -> held seru thr m nty nr y Y ->
    held serv thr m nty nr vp P -> hlive nr vp -> (forall id, 1 <= id <= m -> P id <> None) ->
    exists x' vp' y', spmspv3 sert serv seru enct dect encv decv encu decu nr threads add mul a x vp y = Ok (x', vp', y') /\
      held sert thr n ntx nr x' X /\ hlive nr x' /\ (forall C, hcells n ntx nr x C -> hcells n ntx nr x' C) /\
      held serv thr m nty nr vp' P /\ hlive nr vp' /\
      exists Y', held seru thr m nty nr y' Y' /\ hlive nr y' /\
        (forall id, 1 <= id <= m -> combined_of add (olist (Y id) ++ row_products (prod3 mul X P) es id) (Y' id)) /\
        forall t0 id, 1 <= id <= m -> Y id = red add (flat_map (fun t => olist (eval add (prod3 mul X P) t)) t0) -> Y' id = eval add (prod3 mul X P) (cell_tree nr m n ntx nty ids a t0 id).
  Proof.
    intros Hxx Lx Hyy Hvv Lv Tot. unfold spmspv3. rewrite (mh_nty _ _ _ _ _ _ _ _ Ha), (mh_ntx _ _ _ _ _ _ _ _ Ha).
    destruct (bcast_spec sert thr n ntx nr ltac:(lia) ltac:(lia) enct dect DEt threads Tt (col_ranks a) (crk nty ids) x X Hxx) as (x1 & E1 & C1).
    { intros j Hj. apply (col_ranks_ok nr m n ntx nty Hx Hy ids a es Ha j Hj). }
    rewrite E1. cbn [bind].
    destruct (bcast_spec serv thr m nty nr ltac:(lia) ltac:(lia) encv decv DEv threads Tv (row_ranks a) (rrk ntx nty ids) vp P Hvv) as (v1 & Ev1 & Cv1).
    { intros j Hj. apply (row_ranks_ok nr m n ntx nty Hx Hy ids a es Ha j Hj). }
    rewrite Ev1. cbn [bind]. set (G := prod3 mul X P).
    destruct (mult_tiles_spec nr m n ntx nty Hnr Hx Hy ids a es Ha add seru thr threads G (fun r i j t s => do xs <- rd2 x1 r j ;; do vs <- rd2 v1 r i ;; mult_segment3 add threads mul t xs vs s) y
      (fun r i => if ow nr i =? r then restr m nty Y i else fun _ => None)) as (y1 & Ey & D1 & F1).
    { apply Hyy. } { apply Hyy. }
    { intros r i j t s M Br Bi Bj Eo Tile (W & C & Q & A). destruct C1 as [Dx1 I1]. destruct (dims_rd2 _ _ _ r j Dx1 Br Bj) as [xs Ex]. rewrite Ex. cbn [bind].
      destruct (I1 r j xs Ex) as ((Wx & Cx & Qx & Ax) & L1 & O1).
      assert (memz r (crk nty ids j) = true) as Mr. { apply memz_in. eapply in_crk; eauto. }
      assert (live xs) as Lxs. { destruct (Z.eq_dec (ow nr j) r) as [Eq|Ne]; [|auto]. destruct (dims_rd2 _ _ _ r j (proj1 Hxx) Br Bj) as [x0 Ex0]. destruct (O1 Eq x0 Ex0) as [Ol _]. apply Ol. rewrite <- Eq in Ex0. exact (Lx _ _ Ex0). }
      rewrite Mr, orb_true_r in Ax.
      destruct Cv1 as [Dv1 J1]. destruct (dims_rd2 _ _ _ r i Dv1 Br Bi) as [vs Evs]. rewrite Evs. cbn [bind].
      destruct (J1 r i vs Evs) as ((Wv & Cv & Qv & Av) & L2 & O2).
      assert (memz r (rrk ntx nty ids i) = true) as Mv. { apply memz_in. eapply in_rrk; eauto. }
      assert (live vs) as Lvs. { destruct (Z.eq_dec (ow nr i) r) as [Eq|Ne]; [|auto]. destruct (dims_rd2 _ _ _ r i (proj1 Hvv) Br Bi) as [x0 Ex0]. destruct (O2 Eq x0 Ex0) as [Ol _]. apply Ol. rewrite <- Eq in Ex0. exact (Lv _ _ Ex0). }
      rewrite Mv, orb_true_r in Av.
      destruct (mult_segment3_spec add sert serv seru thr threads Tu _ _ _ t Tile mul xs vs s (fun k => restr n ntx X j (k + 1)) (fun k => restr m nty P i (k + 1)) (fun k => M (k + 1)) Wx Cx Lxs Ax Wv Cv Lvs Av) as (y' & Em & W' & C' & L' & R' & Q' & A'); auto.
      { intros k Hk. replace (k + 1) with ((start_at m nty i + k + 1) - start_at m nty i) by lia. unfold SpMatProofs.si in Hk. rewrite restr_in by lia. apply Tot.
        pose proof (st_bounds m nty Hm Hy i ltac:(lia)). pose proof (st_bounds m nty Hm Hy (i + 1) ltac:(lia)). unfold st in *. lia. }
      exists y'. split; auto. split; [auto|]. split; [auto|]. split; [destruct Q; split; congruence|]. intros k. rewrite A'. unfold upd. do 3 f_equal.
      apply local_products; auto. intros e He. destruct (stored_in nr m n ntx nty Hm Hn Hx Hy ids a es Ha i j e Bi Bj He) as (_ & B1 & B2). unfold prod3, G, prod3, rel. simpl.
      replace (e_dst e - 1 - sj j + 1) with (e_dst e - sj j) by lia. replace (e_src e - 1 - si i + 1) with (e_src e - si i) by lia.
      unfold SpMatProofs.si, SpMatProofs.sj in *. rewrite !restr_in by lia. auto. }
    rewrite Ey. cbn [bind].
    destruct (drop_spec sert thr n ntx nr ltac:(lia) ltac:(lia) threads (crk nty ids) x x1 X Hxx C1) as (x2 & E2 & H2 & L2 & K2). rewrite E2. cbn [bind].
    destruct (drop_spec serv thr m nty nr ltac:(lia) ltac:(lia) threads (rrk ntx nty ids) vp v1 P Hvv Cv1) as (v2 & Ev2 & Hv2 & Lv2 & Kv2). rewrite Ev2. cbn [bind].
    destruct (reduce_rows_spec nr m n ntx nty Hnr Hm Hn Hx Hy ids a es Ha add seru thr threads Tu G encu decu DEu y1 Y D1 F1) as (y2 & E3 & H3 & L3).
    rewrite E3. cbn [bind]. exists x2, v2, y2. conjs; auto. eexists. split; [exact H3|]. split; [auto|]. split.
    - intros id Hid. apply (mergedv_parts nr m n ntx nty Hnr Hm Hn Hx Hy ids a es Ha add G Y id Hid).
    - intros t0 id Hid E0. apply (mergedv_tree nr m n ntx nty Hm Hy ids a add G Y t0 id Hid E0).
  Qed.
End EndToEnd.
