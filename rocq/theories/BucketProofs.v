From Verif Require Import BaseLemmas Segment SegmentProofs Bucket.

Ltac znil := repeat match goal with
  | |- context [zlen (@nil ?A)] => change (zlen (@nil A)) with 0
  | H : context [zlen (@nil ?A)] |- _ => change (zlen (@nil A)) with 0 in H
  end.

Lemma rd_repeat {A} (a : A) n i : 0 <= i < Z.of_nat n -> rd (repeat a n) i = Ok a.
Proof.
  intros H. destruct (rd_ok (repeat a n) i) as [b Hb]; [rewrite zlen_repeat; lia|].
  rewrite Hb. apply rd_In in Hb. apply repeat_spec in Hb. subst; auto.
Qed.

(** number of items with key [k] *)
Definition keyed {A} (k : Z) (items : list (Z * A)) : list A := map snd (filter (fun it => fst it =? k) items).

Lemma keyed_app {A} k (l l' : list (Z * A)) : keyed k (l ++ l') = keyed k l ++ keyed k l'.
Proof. unfold keyed. rewrite filter_app, map_app. auto. Qed.
Lemma keyed_cons {A} k (it : Z * A) l : keyed k (it :: l) = (if fst it =? k then [snd it] else []) ++ keyed k l.
Proof. unfold keyed. simpl. destruct (fst it =? k); auto. Qed.

(** generic left-to-right induction over a list being folded *)
Lemma foldR_prefix {A S} (I : list A -> S -> Prop) (f : S -> A -> R S) l s :
  I [] s -> (forall pre a post s, l = pre ++ a :: post -> I pre s -> exists s', f s a = Ok s' /\ I (pre ++ [a]) s') ->
  exists s', foldR f l s = Ok s' /\ I l s'.
Proof.
  intros H0 HS.
  assert (forall post pre s, l = pre ++ post -> I pre s -> exists s', foldR f post s = Ok s' /\ I l s') as G.
  { induction post as [|a post IH]; intros pre s0 E HI.
    - rewrite app_nil_r in E. subst. exists s0. auto.
    - destruct (HS pre a post s0 E HI) as (s1 & E1 & I1). simpl. rewrite E1. simpl.
      apply (IH (pre ++ [a])); auto. rewrite <- app_assoc. auto. }
  apply (G l []); auto.
Qed.

Lemma count_keys_spec nb keys : 0 <= nb -> (forall k, In k keys -> 0 <= k < nb) ->
  exists c, count_keys nb keys = Ok c /\ zlen c = nb /\
    (forall k, 0 <= k < nb -> rd c k = Ok (zlen (filter (fun x => x =? k) keys))).
Proof.
  intros Hn Hk. unfold count_keys.
  apply (foldR_prefix (fun pre c => zlen c = nb /\ forall k, 0 <= k < nb -> rd c k = Ok (zlen (filter (fun x => x =? k) pre)))).
  - split; [rewrite zlen_repeat; lia|]. intros k H. rewrite rd_repeat by lia. reflexivity.
  - intros pre a post c E [L C]. assert (0 <= a < nb) as Ha by (apply Hk; rewrite E; apply in_or_app; simpl; auto).
    rewrite C by auto. cbn [bind]. rewrite wr_ok by lia. eexists. split; [reflexivity|]. rewrite zlen_upd. split; auto.
    intros k H. rewrite filter_app, zlen_app. simpl. destruct (Z.eqb_spec a k) as [->|N].
    + rewrite rd_upd_same by lia. f_equal.
    + rewrite rd_upd_other by lia. rewrite C by auto. znil. f_equal. lia.
Qed.

Lemma filter_fst_len {A} k (items : list (Z * A)) : zlen (filter (fun x => x =? k) (map fst items)) = zlen (keyed k items).
Proof.
  induction items as [|it l IH]; simpl; auto. rewrite keyed_cons. destruct (fst it =? k); simpl; rewrite ?zlen_cons; lia.
Qed.

Lemma rd_map_list {A B} (f : A -> B) l i : rd (map f l) i = match rd l i with Ok a => Ok (f a) | Err e => Err e end.
Proof.
  unfold rd. destruct (i <? 0); auto. rewrite nth_error_map. destruct (nth_error l (Z.to_nat i)); auto.
Qed.

Lemma upd_repeat_none {A} (l : list (option A)) n a : 
  upd (l ++ repeat None (S n)) (length l) a = (l ++ [a]) ++ repeat None n.
Proof. induction l as [|x l IH]; [reflexivity|]. cbn [app length upd]. f_equal. apply IH. Qed.

Lemma pack_msgs_spec {A} nb (items : list (Z * A)) : 0 <= nb -> (forall it, In it items -> 0 <= fst it < nb) ->
  pack_msgs nb items = Ok (map (fun k => map Some (keyed k items)) (zrange 0 nb)).
Proof.
  intros Hn Hk. unfold pack_msgs.
  destruct (count_keys_spec nb (map fst items) Hn) as (c & E & L & C).
  { intros k H. apply in_map_iff in H as (it & <- & H). auto. }
  rewrite E. cbn [bind].
  edestruct (foldR_prefix (fun pre (st : list (list (option A)) * list Z) =>
     zlen (fst st) = nb /\ zlen (snd st) = nb /\
     forall k, 0 <= k < nb -> rd (snd st) k = Ok (zlen (keyed k pre)) /\
       rd (fst st) k = Ok (map Some (keyed k pre) ++ repeat None (Z.to_nat (zlen (keyed k items) - zlen (keyed k pre)))))) as (st & Est & L1 & L2 & I).
  3:{ rewrite Est. simpl. f_equal. apply rd_ext; [rewrite zlen_map, zlen_zrange; lia|].
      intros i Hi. destruct (I i) as [_ ->]; [lia|]. rewrite rd_map_list, rd_zrange by lia. f_equal.
      replace (zlen (keyed i items) - zlen (keyed i items)) with 0 by lia. simpl. rewrite app_nil_r. do 2 f_equal. }
  - simpl. rewrite zlen_map, zlen_repeat. split; [auto|]. split; [lia|]. intros k H. rewrite rd_repeat by lia.
    split; auto. rewrite rd_map_list, C by auto. rewrite filter_fst_len. change (keyed k (@nil (Z * A))) with (@nil A). znil. cbn [map app]. rewrite Z.sub_0_r. reflexivity.
  - intros pre it post [ms os] Ei (L1 & L2 & I). simpl in *.
    assert (0 <= fst it < nb) as Ha by (apply Hk; rewrite Ei; apply in_or_app; simpl; auto).
    destruct (I _ Ha) as [Io Im]. rewrite Im, Io. cbn [bind].
    set (k := fst it) in *. 
    assert (zlen (keyed k items) = zlen (keyed k pre) + 1 + zlen (keyed k post)) as Lk.
    { rewrite Ei, keyed_app, keyed_cons. rewrite !zlen_app. unfold k. rewrite Z.eqb_refl. rewrite zlen_cons. znil. lia. }
    pose proof (zlen_nonneg (keyed k post)). pose proof (zlen_nonneg (keyed k pre)).
    rewrite wr_ok by (rewrite zlen_app, zlen_map, zlen_repeat; lia). cbn [bind].
    rewrite wr_ok by lia. cbn [bind]. rewrite wr_ok by lia. cbn [bind]. eexists. split; [reflexivity|].
    simpl. rewrite !zlen_upd. split; auto. split; auto. intros k' Hk'.
    rewrite keyed_app, keyed_cons. change (keyed k' (@nil (Z * A))) with (@nil A). rewrite app_nil_r.
    fold k. destruct (Z.eqb_spec k k') as [<-|N].
    + rewrite !rd_upd_same by lia. rewrite zlen_app, zlen_cons. znil. split; auto. f_equal.
      replace (Z.to_nat (zlen (keyed k items) - zlen (keyed k pre))) with (S (Z.to_nat (zlen (keyed k items) - (zlen (keyed k pre) + (1 + 0))))) by lia.
      replace (Z.to_nat (zlen (keyed k pre))) with (length (map (@Some A) (keyed k pre))) by (rewrite map_length; unfold zlen; lia).
      rewrite upd_repeat_none. rewrite map_app. reflexivity.
    + rewrite !rd_upd_other by lia. rewrite app_nil_r. apply I. auto.
Qed.

Lemma mapR_need {A} (l : list A) : mapR need (map Some l) = Ok l.
Proof. induction l as [|a l IH]; simpl; auto. rewrite IH. auto. Qed.

Lemma receive_all_spec {A} (ms : list (list A)) : receive_all (map (map Some) ms) = Ok (concat ms).
Proof.
  unfold receive_all. replace (mapR (mapR need) (map (map Some) ms)) with (Ok ms : R (list (list A))); auto.
  induction ms as [|m ms IH]; simpl; auto. rewrite mapR_need. simpl. rewrite <- IH. auto.
Qed.

(** ** counting sort *)
Lemma prefix_sums_len a l : zlen (prefix_sums a l) = zlen l + 1.
Proof. revert a; induction l as [|x l IH]; intros a; [reflexivity|]. cbn [prefix_sums]. rewrite !zlen_cons, IH. lia. Qed.

Fixpoint zsum (l : list Z) : Z := match l with [] => 0 | x :: t => x + zsum t end.
Lemma zsum_app l l' : zsum (l ++ l') = zsum l + zsum l'.
Proof. induction l; simpl; lia. Qed.

Lemma rd_prefix_sums l : forall a i, 0 <= i <= zlen l -> rd (prefix_sums a l) i = Ok (a + zsum (firstn (Z.to_nat i) l)).
Proof.
  induction l as [|x l IH]; intros a i H.
  - change (zlen (@nil Z)) with 0 in H. assert (i = 0) as -> by lia. simpl. rewrite rd_cons0. f_equal. lia.
  - rewrite zlen_cons in H. simpl. destruct (Z.eq_dec i 0) as [->|N].
    + rewrite rd_cons0. simpl. f_equal. lia.
    + rewrite rd_consS by lia. rewrite IH by lia. replace (Z.to_nat i) with (S (Z.to_nat (i - 1))) by lia. simpl. f_equal. lia.
Qed.

(** start of bucket [k]: items with smaller keys *)
Definition kstart {A} (items : list (Z * A)) (k : Z) : Z := zsum (map (fun i => zlen (keyed i items)) (zrange 0 k)).

Lemma kstart_succ {A} (items : list (Z * A)) k : 0 <= k -> kstart items (k + 1) = kstart items k + zlen (keyed k items).
Proof. intros H. unfold kstart. rewrite zrange_snoc, map_app, zsum_app by lia. simpl. lia. Qed.
Lemma kstart_mono {A} (items : list (Z * A)) i j : 0 <= i <= j -> kstart items i <= kstart items j.
Proof.
  intros H. replace j with (i + Z.of_nat (Z.to_nat (j - i))) by lia. generalize (Z.to_nat (j - i)) as d.
  induction d as [|d IH]; [replace (i + Z.of_nat 0) with i by lia; lia|].
  replace (i + Z.of_nat (S d)) with (i + Z.of_nat d + 1) by lia. rewrite kstart_succ by lia.
  pose proof (zlen_nonneg (keyed (i + Z.of_nat d) items)). lia.
Qed.
Lemma kstart_nonneg {A} (items : list (Z * A)) k : 0 <= k -> 0 <= kstart items k.
Proof. intros H. pose proof (kstart_mono items 0 k ltac:(lia)). unfold kstart in *. simpl in *. lia. Qed.
Lemma kstart_total {A} (items : list (Z * A)) nb : 0 <= nb -> (forall it, In it items -> 0 <= fst it < nb) -> kstart items nb = zlen items.
Proof.
  intros Hn. induction items as [|it l IH]; intros H.
  - unfold kstart. znil. induction (zrange 0 nb); simpl; auto.
  - rewrite zlen_cons. rewrite <- IH by (intros; apply H; simpl; auto).
    assert (0 <= fst it < nb) as Hit by (apply H; simpl; auto).
    unfold kstart. rewrite (zrange_app 0 (fst it) nb) by lia. rewrite (zrange_cons (fst it)) by lia.
    rewrite !map_app, !zsum_app. cbn [map zsum]. rewrite keyed_cons, Z.eqb_refl, zlen_app, zlen_cons. znil.
    assert (forall lo hi, (forall i, In i (zrange lo hi) -> i <> fst it) ->
       zsum (map (fun i => zlen (keyed i (it :: l))) (zrange lo hi)) = zsum (map (fun i => zlen (keyed i l)) (zrange lo hi))) as E.
    { intros lo hi Hi. f_equal. apply map_ext_in. intros i Hi'. rewrite keyed_cons. destruct (Z.eqb_spec (fst it) i); auto. exfalso. apply (Hi i); auto. }
    rewrite (E 0 (fst it)), (E (fst it + 1) nb); [cbn [zsum]; lia| |]; intros i Hi; apply in_zrange in Hi; lia.
Qed.

Lemma counting_sort_spec {A} nb (items : list (Z * A)) : 0 <= nb -> (forall it, In it items -> 0 <= fst it < nb) ->
  exists edges starts counts, counting_sort nb items = Ok (edges, starts, counts) /\
    zlen edges = zlen items /\ zlen counts = nb /\
    forall k, 0 <= k < nb -> rd counts k = Ok (zlen (keyed k items)) /\ rd starts k = Ok (kstart items k) /\
      kstart items k + zlen (keyed k items) <= zlen items /\
      slice edges (kstart items k) (zlen (keyed k items)) = Ok (map Some (keyed k items)).
Proof.
  intros Hn Hk. unfold counting_sort.
  destruct (count_keys_spec nb (map fst items) Hn) as (c & E & L & C).
  { intros k H. apply in_map_iff in H as (it & <- & H). auto. }
  rewrite E. cbn [bind].
  assert (forall k, 0 <= k <= nb -> rd (prefix_sums 0 c) k = Ok (kstart items k)) as PS.
  { intros k H. rewrite rd_prefix_sums by lia. f_equal. unfold kstart. simpl. f_equal.
    apply rd_ext.
    - rewrite zlen_map, zlen_zrange by lia. unfold zlen in *. rewrite firstn_length. lia.
    - intros i Hi. assert (i < k) by (unfold zlen in Hi; rewrite firstn_length in Hi; lia).
      rewrite rd_map_list, rd_zrange by lia. rewrite <- filter_fst_len. simpl. rewrite <- C by lia.
      assert (rd (firstn (Z.to_nat k) c) i = rd c i) as ->; [|reflexivity].
      rewrite <- (firstn_skipn (Z.to_nat k) c) at 2. rewrite rd_app1; auto. }
  assert (forall k, 0 <= k < nb -> kstart items k + zlen (keyed k items) <= zlen items) as KB.
  { intros k H. rewrite <- kstart_succ by lia. rewrite <- (kstart_total items nb) by auto. apply kstart_mono; lia. }
  edestruct (foldR_prefix (fun pre (st : list (option A) * list Z) =>
     zlen (fst st) = zlen items /\ zlen (snd st) = nb /\
     forall k, 0 <= k < nb -> rd (snd st) k = Ok (zlen (keyed k pre)) /\
       forall i, 0 <= i < zlen (keyed k pre) -> rd (fst st) (kstart items k + i) = rd (map Some (keyed k pre)) i)) as (st & Est & L1 & L2 & I).
  3:{ rewrite Est. cbn [bind]. do 3 eexists. split; [reflexivity|]. split; auto. split; auto.
      intros k H. destruct (I k H) as [Ic Ie]. split; auto. split; [apply PS; lia|]. split; [auto|].
      pose proof (kstart_nonneg items k ltac:(lia)). pose proof (KB k H). pose proof (zlen_nonneg (keyed k items)).
      unfold slice. destruct (Z.ltb_spec (kstart items k) 0); [lia|]. destruct (Z.ltb_spec (zlen (keyed k items)) 0); [lia|].
      destruct (Z.ltb_spec (zlen (fst st)) (kstart items k + zlen (keyed k items))); [lia|]. simpl. f_equal.
      apply rd_ext.
      - rewrite zlen_map. unfold zlen in *. rewrite firstn_length, skipn_length. lia.
      - intros i Hi. assert (i < zlen (keyed k items)) by (unfold zlen in Hi; rewrite firstn_length in Hi; unfold zlen; lia).
        rewrite <- Ie by lia. 
        set (s := Z.to_nat (kstart items k)). set (m := Z.to_nat (zlen (keyed k items))).
        rewrite <- (rd_app1 _ (skipn m (skipn s (fst st)))) by exact Hi. rewrite firstn_skipn.
        rewrite <- (firstn_skipn s (fst st)) at 2.
        assert (zlen (firstn s (fst st)) = kstart items k) as Ls by (unfold zlen in *; rewrite firstn_length; lia).
        rewrite rd_app2 by lia. f_equal. lia. }
  - simpl. rewrite !zlen_repeat. split; [auto|]. split; [lia|]. intros k H. rewrite rd_repeat by lia. split; auto.
    intros i Hi. unfold keyed in Hi. simpl in Hi. znil. lia.
  - intros pre it post [ed cs] Ei (L1 & L2 & I). simpl in *.
    assert (0 <= fst it < nb) as Ha by (apply Hk; rewrite Ei; apply in_or_app; simpl; auto).
    set (k := fst it) in *. destruct (I _ Ha) as [Ic Ie]. rewrite PS, Ic by lia. cbn [bind].
    assert (zlen (keyed k items) = zlen (keyed k pre) + 1 + zlen (keyed k post)) as Lk.
    { rewrite Ei, keyed_app, keyed_cons. rewrite !zlen_app. unfold k. rewrite Z.eqb_refl. rewrite zlen_cons. znil. lia. }
    pose proof (zlen_nonneg (keyed k post)). pose proof (zlen_nonneg (keyed k pre)).
    pose proof (kstart_nonneg items k ltac:(lia)). pose proof (KB k Ha).
    destruct (Z.ltb_spec (kstart items k + zlen (keyed k pre)) (zlen items)); [|lia]. simpl.
    destruct (Z.leb_spec 0 (kstart items k + zlen (keyed k pre))); [|lia]. simpl.
    destruct (Z.ltb_spec k nb); [|lia]. simpl. destruct (Z.leb_spec 0 k); [|lia]. simpl.
    rewrite wr_ok by lia. cbn [bind]. rewrite wr_ok by lia. cbn [bind]. eexists. split; [reflexivity|].
    simpl. rewrite !zlen_upd. split; auto. split; auto. intros k' Hk'.
    rewrite keyed_app, keyed_cons. change (keyed k' (@nil (Z * A))) with (@nil A). rewrite app_nil_r.
    fold k. destruct (Z.eqb_spec k k') as [<-|N].
    + rewrite rd_upd_same by lia. rewrite zlen_app, zlen_cons. znil. split; auto. intros i Hi.
      rewrite map_app. destruct (Z.eq_dec i (zlen (keyed k pre))) as [->|Ni].
      * rewrite rd_upd_same by lia. rewrite rd_app2 by (rewrite zlen_map; lia). rewrite zlen_map, Z.sub_diag. reflexivity.
      * rewrite rd_upd_other by lia. rewrite rd_app1 by (rewrite zlen_map; lia). apply Ie. lia.
    + rewrite rd_upd_other by lia. rewrite app_nil_r. destruct (I k' Hk') as [Ic' Ie']. split; auto.
      intros i Hi. rewrite rd_upd_other; [apply Ie'; auto|lia|].
      assert (zlen (keyed k' items) = zlen (keyed k' pre) + zlen (keyed k' post)) as Lk'.
      { rewrite Ei, keyed_app, keyed_cons. rewrite !zlen_app. fold k. destruct (Z.eqb_spec k k'); [lia|]. znil. lia. }
      pose proof (zlen_nonneg (keyed k' post)).
      destruct (Z_lt_dec k k').
      * pose proof (kstart_mono items (k+1) k' ltac:(lia)). rewrite kstart_succ in * by lia. lia.
      * pose proof (kstart_mono items (k'+1) k ltac:(lia)). rewrite kstart_succ in * by lia. lia.
Qed.
