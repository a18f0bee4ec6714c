From Coq Require Import Sorting.Sorted.
From Verif Require Import BaseLemmas Bits BitsProofs Segment SegmentProofs Bucket BucketProofs VecProofs2 ListLemmas DCSC.

(** ** row ranges *)
Record rows_ok (rp : list Z) (m np : Z) : Prop := {
  ro_len : zlen rp = np + 1;
  ro_first : rd rp 0 = Ok 0;
  ro_last : rd rp np = Ok m;
  ro_mono : forall p a b, rd rp p = Ok a -> rd rp (p + 1) = Ok b -> a <= b;
  ro_align : forall p a, rd rp p = Ok a -> a mod 32 = 0 \/ a = m;
  ro_range : forall p a, rd rp p = Ok a -> 0 <= a <= m }.

Lemma static_partition_spec m np : 0 <= m -> 1 <= np -> exists rp, static_partition m np 32 = Ok rp /\ rows_ok rp m np.
Proof.
  intros Hm Hp. unfold static_partition. destruct (Z.eqb_spec np 0); [lia|]. cbn [orb]. change (32 =? 0) with false. change (32 =? 1) with false. cbn iota.
  rewrite (quot_div m 32) by lia. rewrite (quot_div (m / 32) np) by lia.
  assert (0 <= m / 32 / np) as H0 by (apply Z.div_pos; [apply Z.div_pos|]; lia).
  set (n512 := Z.max (m / 32 / np) 1) in *. assert (1 <= n512) as H1 by lia.
  set (nr := Z.max 0 (m / 32 - n512 * np)) in *.
  assert (nr <? np = true) as ->.
  { apply Z.ltb_lt. pose proof (Z.div_mod (m / 32) np ltac:(lia)) as D. pose proof (Z.mod_pos_bound (m / 32) np ltac:(lia)).
    unfold nr, n512. destruct (Z_le_dec 1 (m / 32 / np)) as [L|L].
    - rewrite (Z.max_l (m/32/np) 1) by lia. nia.
    - rewrite (Z.max_r (m/32/np) 1) by lia. nia. }
  assert (0 <= nr) as H2 by lia. clearbody nr. clearbody n512. cbn [assertb bind].
  rewrite wr_ok by (rewrite zlen_repeat; lia). cbn [bind].
  set (good := fun (arr : list (option Z)) k => zlen arr = np + 1 /\ rd arr 0 = Ok (Some 0) /\
     (forall i, 0 <= i < k -> exists x, rd arr i = Ok (Some x) /\ 0 <= x <= m /\ (x mod 32 = 0 \/ x = m)) /\
     (forall i x y, 0 <= i -> i + 1 < k -> rd arr i = Ok (Some x) -> rd arr (i + 1) = Ok (Some y) -> x <= y)).
  match goal with |- context [forZ 1 np ?f ?s] => destruct (forZ_inv (fun p (st : list (option Z) * Z) => good (fst st) p /\ 0 <= snd st) 1 np f s) as ([arr k] & E & G & _) end; [lia| | |].
  - cbn [fst snd]. split; auto. split; [rewrite zlen_upd, zlen_repeat; lia|]. change (Z.to_nat 0) with (Z.to_nat 0).
    assert (rd (upd (repeat (@None Z) (Z.to_nat (np + 1))) (Z.to_nat 0) (Some 0)) 0 = Ok (Some 0)) as Q by (apply rd_upd_same; rewrite zlen_repeat; lia).
    split; auto. split.
    + intros i Hi. assert (i = 0) as -> by lia. exists 0. split; auto. split; [lia|left; reflexivity].
    + intros; lia.
  - intros p [arr k] Hpp ((L & Z0 & Al & Mo) & Hk). cbn [fst snd] in *.
    destruct (Al (p - 1) ltac:(lia)) as (x & Ex & Bx & Ax). rewrite Ex. cbn [bind need].
    set (y := x + (if 0 <? k then (n512 + 1) * 32 else n512 * 32)).
    assert (x <= y /\ (x mod 32 = 0 -> y mod 32 = 0)) as [Xy Ya].
    { unfold y. destruct (0 <? k); split; try lia; intros Q; rewrite Z.mod_add; auto; lia. }
    rewrite wr_ok by lia. cbn [bind]. rewrite rd_upd_same by lia. cbn [bind need]. rewrite wr_ok by (rewrite zlen_upd; lia). cbn [bind].
    eexists. split; [reflexivity|]. cbn [fst snd]. rewrite upd_upd. split; [|destruct (Z.ltb_spec 0 k); lia].
    assert (rd (upd arr (Z.to_nat p) (Some (Z.min y m))) p = Ok (Some (Z.min y m))) as Rp by (apply rd_upd_same; lia).
    assert (forall i, i <> p -> rd (upd arr (Z.to_nat p) (Some (Z.min y m))) i = rd arr i) as Ro by (intros; apply rd_upd_other; lia).
    split; [rewrite zlen_upd; auto|]. split; [rewrite Ro by lia; auto|]. split.
    + intros i Hi. destruct (Z.eq_dec i p) as [->|Ni].
      * exists (Z.min y m). split; auto. split; [lia|]. destruct (Z_le_dec y m); [|right; lia]. rewrite Z.min_l by lia. destruct Ax as [Ax| ->]; auto. right; lia.
      * rewrite Ro by auto. apply Al. lia.
    + intros i a b H0' H1' Ra Rb. rewrite Ro in Ra by lia. destruct (Z.eq_dec (i + 1) p) as [Q|Ni].
      * rewrite Q, Rp in Rb. injection Rb as <-. replace i with (p - 1) in Ra by lia. rewrite Ex in Ra. injection Ra as <-. lia.
      * rewrite Ro in Rb by auto. apply (Mo i a b); auto; lia.
  - rewrite E. cbn [bind fst]. destruct G as (L & Z0 & Al & Mo). cbn [fst] in *. rewrite wr_ok by lia. cbn [bind].
    set (fin := upd arr (Z.to_nat np) (Some m)).
    assert (rd fin np = Ok (Some m)) as Rn by (apply rd_upd_same; lia).
    assert (forall i, i <> np -> rd fin i = rd arr i) as Ro by (intros; apply rd_upd_other; lia).
    assert (zlen fin = np + 1) as Lf by (unfold fin; rewrite zlen_upd; auto).
    assert (forall i, 0 <= i < np + 1 -> exists x, rd fin i = Ok (Some x) /\ 0 <= x <= m /\ (x mod 32 = 0 \/ x = m)) as AlF.
    { intros i Hi. destruct (Z.eq_dec i np) as [->|Ni]; [exists m; split; auto; split; [lia|auto]|]. rewrite Ro by auto. apply Al. lia. }
    set (val := fun o : option Z => match o with Some x => x | None => 0 end).
    rewrite (mapR_map need val).
    2:{ intros o Ho. apply In_rd in Ho as (i & Hi & Ei). destruct (AlF i ltac:(lia)) as (x & Ex & _). rewrite Ei in Ex. inv Ex. reflexivity. }
    eexists. split; [reflexivity|].
    assert (forall i a, rd (map val fin) i = Ok a -> rd fin i = Ok (Some a) /\ 0 <= i < np + 1) as Bk.
    { intros i a Q. pose proof (rd_bounds _ _ _ Q) as B. rewrite zlen_map in B. destruct (AlF i ltac:(lia)) as (x & Ex & _).
      rewrite rd_map_list, Ex in Q. simpl in Q. inv Q. split; auto. lia. }
    constructor.
    + rewrite zlen_map; auto.
    + rewrite rd_map_list. destruct (Z.eq_dec 0 np); [lia|]. rewrite Ro, Z0 by lia. reflexivity.
    + rewrite rd_map_list, Rn. reflexivity.
    + intros p a b Ra Rb. apply Bk in Ra as [Ra Ba]. apply Bk in Rb as [Rb Bb]. destruct (Z.eq_dec (p + 1) np) as [Q|Nq].
      * rewrite Q, Rn in Rb. inv Rb. destruct (AlF p Ba) as (x & Ex & B & _). rewrite Ra in Ex. inv Ex. lia.
      * rewrite Ro in Ra, Rb by lia. apply (Mo p a b); auto; lia.
    + intros p a Ra. apply Bk in Ra as [Ra Ba]. destruct (AlF p Ba) as (x & Ex & _ & A). rewrite Ra in Ex. inv Ex. auto.
    + intros p a Ra. apply Bk in Ra as [Ra Ba]. destruct (AlF p Ba) as (x & Ex & B & _). rewrite Ra in Ex. inv Ex. auto.
Qed.

Section Rows.
  Variables (rp : list Z) (m np : Z).
  Hypothesis Ro : rows_ok rp m np.
  Hypothesis Hp : 1 <= np.

  Lemma rows_mono i j a b : i <= j -> rd rp i = Ok a -> rd rp j = Ok b -> a <= b.
  Proof.
    intros H. revert a b. replace j with (i + Z.of_nat (Z.to_nat (j - i))) by lia. generalize (Z.to_nat (j - i)) as d.
    induction d as [|d IH]; intros a b Ha Hb.
    - replace (i + Z.of_nat 0) with i in Hb by lia. rewrite Ha in Hb. inv Hb. lia.
    - pose proof (rd_bounds _ _ _ Ha). pose proof (rd_bounds _ _ _ Hb). destruct (rd_ok rp (i + Z.of_nat d)) as [c Hc]; [lia|].
      specialize (IH a c Ha Hc). pose proof (ro_mono _ _ _ Ro (i + Z.of_nat d) c b Hc).
      replace (i + Z.of_nat d + 1) with (i + Z.of_nat (S d)) in H2 by lia. specialize (H2 Hb). lia.
  Qed.

  Definition row_in (p src : Z) : Prop := exists a b, rd rp p = Ok a /\ rd rp (p + 1) = Ok b /\ a <= src < b.

  Lemma row_in_range p src : row_in p src -> 0 <= p < np.
  Proof. intros (a & b & Ha & Hb & _). pose proof (rd_bounds _ _ _ Ha). pose proof (rd_bounds _ _ _ Hb). rewrite (ro_len _ _ _ Ro) in *. lia. Qed.

  Lemma find_partition_spec src : 0 <= src < m -> forall fuel p_start p_end b, (Z.to_nat p_end < fuel)%nat -> 0 <= p_end < np ->
    rd rp (p_end + 1) = Ok b -> src < b -> exists p, find_partition fuel rp src p_start p_end = Ok p /\ row_in p src.
  Proof.
    intros Hs. induction fuel as [|fuel IH]; intros p_start p_end b Hf Hb Eb Lb; [lia|].
    cbn [find_partition]. replace (p_start + (p_end - p_start)) with p_end by lia.
    destruct (rd_ok rp p_end) as [a Ea]; [rewrite (ro_len _ _ _ Ro); lia|]. rewrite Ea. cbn [bind]. rewrite Eb.
    destruct (Z.leb_spec a src); cbn [bind].
    - destruct (Z.ltb_spec src b); [|lia]. exists p_end. split; auto. exists a, b. auto.
    - destruct (Z.leb_spec b src); [lia|]. assert (p_end <> 0).
      { intros ->. rewrite (ro_first _ _ _ Ro) in Ea. inv Ea. lia. }
      apply (IH p_start (p_end - 1) a); try lia. replace (p_end - 1 + 1) with p_end by lia. auto.
  Qed.
  Lemma find_partition_ok src : 0 <= src < m -> exists p, find_partition (Z.to_nat (np + 1)) rp src 0 (np - 1) = Ok p /\ row_in p src.
  Proof.
    intros H. apply (find_partition_spec src H (Z.to_nat (np + 1)) 0 (np - 1) m); try lia.
    replace (np - 1 + 1) with np by lia. apply (ro_last _ _ _ Ro).
  Qed.

  Lemma row_in_unique p q src : row_in p src -> row_in q src -> p = q.
  Proof.
    intros (a & b & Ha & Hb & H) (a' & b' & Ha' & Hb' & H').
    destruct (Z.lt_trichotomy p q) as [L|[E|L]]; auto.
    - pose proof (rows_mono (p+1) q b a' ltac:(lia) Hb Ha'). lia.
    - pose proof (rows_mono (q+1) p b' a ltac:(lia) Hb' Ha). lia.
  Qed.
End Rows.

(** ** sorting *)
Definition is_sort {E} (srt : list (tedge E) -> list (tedge E)) : Prop :=
  forall l, Permutation l (srt l) /\ StronglySorted (fun a b => compare_dcsc b a = false) (srt l).

Lemma compare_dcsc_le {E} (a b : tedge E) : compare_dcsc b a = false ->
  fst a <= fst b /\ (fst a = fst b -> e_dst (snd a) <= e_dst (snd b) /\ (e_dst (snd a) = e_dst (snd b) -> e_src (snd a) <= e_src (snd b))).
Proof.
  unfold compare_dcsc. destruct (Z.ltb_spec (fst b) (fst a)); [discriminate|]. destruct (Z.ltb_spec (fst a) (fst b)); [intros _; split; [lia|]; intros; lia|].
  destruct (Z.ltb_spec (e_dst (snd b)) (e_dst (snd a))); [discriminate|]. destruct (Z.ltb_spec (e_dst (snd a)) (e_dst (snd b))); [intros _; split; [lia|]; intros; lia|].
  destruct (Z.ltb_spec (e_src (snd b)) (e_src (snd a))); [discriminate|]. intros _; split; [lia|]; intros; lia.
Qed.

Lemma SS_weaken {A} (P Q : A -> A -> Prop) l : (forall a b, P a b -> Q a b) -> StronglySorted P l -> StronglySorted Q l.
Proof. intros H. induction 1 as [|a l S IH F]; constructor; auto. eapply Forall_impl; [|exact F]. auto. Qed.
Lemma SS_filter {A} (P : A -> A -> Prop) p l : StronglySorted P l -> StronglySorted P (filter p l).
Proof.
  induction 1 as [|a l S IH F]; simpl; [constructor|]. destruct (p a); auto. constructor; auto.
  rewrite Forall_forall in *. intros x Hx. apply filter_In in Hx as [Hx _]. auto.
Qed.
Lemma SS_map {A B} (f : A -> B) (P : B -> B -> Prop) l : StronglySorted (fun a b => P (f a) (f b)) l -> StronglySorted P (map f l).
Proof. induction 1 as [|a l S IH F]; simpl; constructor; auto. rewrite Forall_map. auto. Qed.

(** ** edge pointers *)
Lemma kstart_filter {A} (items : list (Z * A)) q : 0 <= q -> (forall it, In it items -> 0 <= fst it) ->
  kstart items q = zlen (filter (fun it => fst it <? q) items).
Proof.
  intros Hq H. replace q with (Z.of_nat (Z.to_nat q)) by lia. generalize (Z.to_nat q) as k. clear Hq.
  induction k as [|k IH].
  - rewrite filter_all_false; [reflexivity|]. intros it Hit. apply H in Hit. destruct (Z.ltb_spec (fst it) (Z.of_nat 0)); auto. lia.
  - replace (Z.of_nat (S k)) with (Z.of_nat k + 1) by lia. rewrite kstart_succ, IH by lia. clear IH H.
    unfold keyed. rewrite zlen_map. induction items as [|it items IH]; auto. simpl.
    destruct (Z.ltb_spec (fst it) (Z.of_nat k)); destruct (Z.eqb_spec (fst it) (Z.of_nat k)); destruct (Z.ltb_spec (fst it) (Z.of_nat k + 1)); try lia; rewrite ?zlen_cons; lia.
Qed.
Lemma kstart_split {A} (pre post : list (Z * A)) q : 0 <= q -> (forall it, In it (pre ++ post) -> 0 <= fst it) ->
  (forall it, In it pre -> fst it < q) -> (forall it, In it post -> q <= fst it) -> kstart (pre ++ post) q = zlen pre.
Proof.
  intros Hq H H1 H2. rewrite kstart_filter by auto. rewrite filter_app, zlen_app.
  replace (filter (fun it => fst it <? q) pre) with pre.
  - rewrite filter_all_false; [znil; lia|]. intros it Hit. apply H2 in Hit. destruct (Z.ltb_spec (fst it) q); auto; lia.
  - clear H. induction pre as [|it pre IH]; auto. simpl. assert (fst it < q) as L by (apply H1; simpl; auto). apply Z.ltb_lt in L. rewrite L.
    f_equal. apply IH. intros; apply H1; simpl; auto.
Qed.

Section EP.
  Context {E : Type}.
  Variables (rp : list Z) (m np : Z).
  Hypothesis Ro : rows_ok rp m np.
  Hypothesis Hp : 1 <= np.

  Lemma advance_spec src t edge_id (G : Z -> Z) : row_in rp t src -> forall fuel ep p, zlen ep = np + 1 -> 0 <= p <= t + 1 -> (Z.to_nat (t + 1 - p) < fuel)%nat ->
    (forall q, 0 <= q < p -> rd ep q = Ok (Some (G q))) -> (forall q, p <= q <= t -> G q = edge_id) ->
    exists ep', advance fuel rp src edge_id (ep, p) = Ok (ep', t + 1) /\ zlen ep' = np + 1 /\ (forall q, 0 <= q < t + 1 -> rd ep' q = Ok (Some (G q))).
  Proof.
    intros Rt. pose proof (row_in_range rp m np Ro t src Rt) as Bt. destruct Rt as (a & b & Ea & Eb & B).
    induction fuel as [|fuel IH]; intros ep p L Bp Hf Hd Hg; [lia|]. cbn [advance].
    destruct (rd_ok rp p) as [c Ec]; [rewrite (ro_len _ _ _ Ro); lia|]. rewrite Ec. cbn [bind].
    destruct (Z.eq_dec p (t + 1)) as [->|N].
    - rewrite Eb in Ec. inv Ec. destruct (Z.leb_spec c src); [lia|]. exists ep. auto.
    - pose proof (rows_mono rp m np Ro p t c a ltac:(lia) Ec Ea). destruct (Z.leb_spec c src); [|lia].
      rewrite wr_ok by lia. cbn [bind]. apply IH; try lia; [rewrite zlen_upd; auto| |].
      + intros q Hq. destruct (Z.eq_dec q p) as [->|Nq]; [rewrite rd_upd_same by lia; rewrite Hg by lia; auto|]. rewrite rd_upd_other by lia. apply Hd. lia.
      + intros q Hq. apply Hg. lia.
  Qed.

  Lemma set_edge_pointers_spec (sorted : list (tedge E)) :
    StronglySorted (fun a b => fst a <= fst b) sorted -> (forall e, In e sorted -> row_in rp (fst e) (e_src (snd e))) ->
    exists ep, set_edge_pointers sorted rp (zlen sorted) np = Ok ep /\ zlen ep = np + 1 /\ forall q, 0 <= q <= np -> rd ep q = Ok (kstart sorted q).
  Proof.
    intros S Hrow. unfold set_edge_pointers.
    assert (forall e, In e sorted -> 0 <= fst e < np) as Hk by (intros e He; eapply row_in_range; eauto).
    destruct (for_slice (fun pre (st : list (option Z) * Z) => zlen (fst st) = np + 1 /\ 0 <= snd st <= np /\
        (forall it, In it pre -> fst it < snd st) /\ (forall x, (exists post, sorted = pre ++ x :: post) -> snd st <= fst x + 1) /\ (forall q, 0 <= q < snd st -> rd (fst st) q = Ok (Some (kstart sorted q))))
      sorted 0 sorted (fun edge_id st => do e <- rd sorted edge_id ;; advance (Z.to_nat (np + 2)) rp (e_src (snd e)) edge_id st) (repeat None (Z.to_nat (np + 1)), 0)) as ([ep p] & E1 & L & B & Pr & _ & Hd).
    - intros i Hi. f_equal.
    - cbn [fst snd]. rewrite zlen_repeat. conjs; try lia; try (intros; simpl in *; tauto).
      intros x (post & ->). pose proof (Hk x ltac:(simpl; auto)). lia.
    - intros pre x post [ep p] Ed Rx (L & B & Pr & Po & Hd). cbn [fst snd] in *. change (0 + zlen pre) with (zlen pre) in *. rewrite Rx. cbn [bind].
      assert (In x sorted) as Hx by (rewrite Ed; apply in_or_app; simpl; auto).
      pose proof (Hk x Hx) as Kx. pose proof (Po x ltac:(eauto)) as Px.
      assert (forall it, In it pre -> fst it <= fst x) as Lp.
      { intros it Hit. clear -S Ed Hit. rewrite Ed in S. clear Ed. induction pre as [|y pre IH]; [destruct Hit|]. inversion S as [|? ? S' F]; subst.
        destruct Hit as [->|Hit]; auto. rewrite Forall_forall in F. apply F. apply in_or_app; simpl; auto. }
      assert (forall it, In it (x :: post) -> fst x <= fst it) as Lq.
      { intros it Hit. clear -S Ed Hit. rewrite Ed in S. clear Ed. induction pre as [|y pre IH]; simpl in *.
        - inversion S as [|? ? S' F]; subst. rewrite Forall_forall in F. destruct Hit as [->|Hit]; [lia|auto].
        - inversion S; subst. auto. }
      destruct (advance_spec (e_src (snd x)) (fst x) (0 + zlen pre) (kstart sorted) (Hrow x Hx) (Z.to_nat (np + 2)) ep p L ltac:(lia) ltac:(lia) Hd) as (ep' & E' & L' & Hd').
      + intros q Hq. rewrite Ed. rewrite kstart_split; [lia|lia| | |].
        * rewrite <- Ed. intros it Hit. apply Hk in Hit. lia.
        * intros it Hit. apply Pr in Hit. lia.
        * intros it Hit. apply Lq in Hit. lia.
      + exists (ep', fst x + 1). split; [exact E'|]. cbn [fst snd]. conjs; auto; try lia.
        * intros it Hit. apply in_app_iff in Hit as [Hit|[<-|[]]]; [apply Lp in Hit|]; lia.
        * intros y (post' & Ed'). rewrite <- app_assoc in Ed'. simpl in Ed'. rewrite Ed in Ed'. apply app_inv_head in Ed'. inversion Ed'. subst post.
          pose proof (Lq y ltac:(simpl; auto)). lia.
    - cbn [fst snd] in *. replace (0 + zlen sorted) with (zlen sorted) in E1 by lia. rewrite E1. cbn [bind fst snd].
      rewrite wr_ok by lia. cbn [bind].
      assert (forall q, p <= q -> kstart sorted q = zlen sorted) as Tail.
      { intros q Hq. rewrite <- (app_nil_r sorted) at 1. apply kstart_split; [lia| | |intros it []].
        - rewrite app_nil_r. intros it Hit. apply Hk in Hit. lia.
        - intros it Hit. apply Pr in Hit. lia. }
      match goal with |- context [forZ (p + 1) (np + 1) ?f ?s] => destruct (forZ_inv (fun k (ep : list (option Z)) => zlen ep = np + 1 /\ forall q, 0 <= q < k -> rd ep q = Ok (Some (kstart sorted q))) (p + 1) (np + 1) f s) as (ep' & E' & L' & Hd') end; [lia| | |].
      + split; [rewrite zlen_upd; auto|]. intros q Hq. destruct (Z.eq_dec q p) as [->|]; [rewrite rd_upd_same by lia; rewrite Tail by lia; auto|]. rewrite rd_upd_other by lia. apply Hd. lia.
      + intros k ep0 Hk0 [L0 H0]. rewrite wr_ok by lia. eexists. split; [reflexivity|]. split; [rewrite zlen_upd; auto|].
        intros q Hq. destruct (Z.eq_dec q k) as [->|]; [rewrite rd_upd_same by lia; rewrite Tail by lia; auto|]. rewrite rd_upd_other by lia. apply H0. lia.
      + rewrite E'. cbn [bind]. exists (map (fun q => kstart sorted q) (zrange 0 (np + 1))). split; [|split].
        * replace ep' with (map (@Some Z) (map (fun q => kstart sorted q) (zrange 0 (np + 1)))); [apply mapR_need|].
          apply rd_ext; rewrite !zlen_map, zlen_zrange by lia; [lia|]. intros i Hi. rewrite !rd_map_list, rd_zrange by lia. simpl. rewrite Hd' by lia. reflexivity.
        * rewrite zlen_map, zlen_zrange; lia.
        * intros q Hq. rewrite rd_map_list, rd_zrange by lia. reflexivity.
  Qed.
End EP.
