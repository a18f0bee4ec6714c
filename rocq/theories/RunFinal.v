(** Consequences of the refinement of call histories, in the form the property files quote. *)
From Coq Require Import Sorting.Sorted.
From Verif Require Import BaseLemmas Layout LayoutProofs Reduce ReduceProofs Segment DCSC MatSpec Vec VecProofs SpMat GraphVert GraphVertProofs Graph GraphProofs Runtime RunSpec RuntimeProofs GraphOps GraphHist GraphHistProofs.

Lemma nodup_count {A} (dec : forall a b : A, {a = b} + {a <> b}) l a : NoDup l -> count_occ dec l a = if in_dec dec a l then 1%nat else 0%nat.
Proof. intros N. destruct (in_dec dec a l) as [H|H]; [apply (NoDup_count_occ' dec) ; auto|apply count_occ_not_In; auto]. Qed.
Lemma count_inj {A} (dec : forall a b : A, {a = b} + {a <> b}) (f : Z -> A) l v : (forall x y, f x = f y -> x = y) -> count_occ dec (map f l) (f v) = count_occ Z.eq_dec l v.
Proof. intros I. induction l as [|x l IH]; simpl; auto. destruct (dec (f x) (f v)) as [Q|Q]; destruct (Z.eq_dec x v) as [Q'|Q']; rewrite IH; auto; [exfalso; auto|congruence]. Qed.
Lemma list_sum_one {A} (f : A -> nat) l k a : rd l k = Ok a -> (forall j b, rd l j = Ok b -> j <> k -> f b = 0%nat) -> list_sum (map f l) = f a.
Proof.
  revert k. induction l as [|x l IH]; intros k Hk Ho; [pose proof (rd_bounds _ _ _ Hk) as B; change (zlen (@nil A)) with 0 in B; lia|]. pose proof (rd_bounds _ _ _ Hk) as B. rewrite zlen_cons in B.
  simpl. destruct (Z.eq_dec k 0) as [->|N].
  - rewrite rd_cons0 in Hk. injection Hk as ->. assert (list_sum (map f l) = 0%nat) as ->; [|lia].
    assert (forall b, In b l -> f b = 0%nat) as Z0. { intros b Hb. apply In_rd in Hb as (j & _ & Hj). pose proof (rd_bounds _ _ _ Hj). apply (Ho (j + 1)); [rewrite rd_consS by lia; rewrite Z.add_simpl_r; auto|lia]. }
    clear - Z0. induction l as [|b l IH]; simpl; auto. rewrite (Z0 b), IH; simpl; auto. intros; apply Z0; simpl; auto.
  - rewrite rd_consS in Hk by lia. rewrite (Ho 0 x); [|apply rd_cons0|lia]. apply IH with (k := k - 1); auto.
    intros j b Hj Nj. pose proof (rd_bounds _ _ _ Hj). apply (Ho (j + 1)); [rewrite rd_consS by lia; rewrite Z.add_simpl_r; auto|lia].
Qed.
Lemma list_sum_zero {A} (f : A -> nat) l : (forall b, In b l -> f b = 0%nat) -> list_sum (map f l) = 0%nat.
Proof. intros Z0. induction l as [|b l IH]; simpl; auto. rewrite (Z0 b), IH; simpl; auto. intros; apply Z0; simpl; auto. Qed.

Lemma rd_Forall2 {A B} (Q : A -> B -> Prop) l l' : zlen l = zlen l' -> (forall k a b, rd l k = Ok a -> rd l' k = Ok b -> Q a b) -> Forall2 Q l l'.
Proof.
  revert l'. induction l as [|a l IH]; intros [|b l'] L H; [apply Forall2_nil|exfalso; rewrite zlen_cons in L; pose proof (zlen_nonneg l'); change (zlen (@nil A)) with 0 in L; lia|exfalso; rewrite zlen_cons in L; pose proof (zlen_nonneg l); change (zlen (@nil B)) with 0 in L; lia|]. apply Forall2_cons.
  - apply (H 0); apply rd_cons0.
  - rewrite !zlen_cons in L. apply IH; [lia|]. intros k x y Hx Hy. pose proof (rd_bounds _ _ _ Hx). apply (H (k + 1)); rewrite rd_consS by lia; rewrite Z.add_simpl_r; auto.
Qed.

Lemma in1_iff n v : in1 n v = true <-> 1 <= v <= n.
Proof. unfold in1. rewrite andb_true_iff, !Z.leb_le. tauto. Qed.
Section Count.
  Context {V E byte : Type}.
  Variable neq : V -> V -> bool.
  Variable m : machine V E byte.
  Variable n : Z.
  Hypothesis Hm : machine_ok m.
  Hypothesis Hn : 0 <= n.
  Notation gr := (graph V E byte).
  Notation isq := (is m n).

  (** *** counting calls *)
  Lemma calls_counted {S T U} (jb : job S T U V E) C q K (g : gr) q' log : isq g q' -> logs neq m n jb C q K log ->
    exists bs, split_log m g log K bs /\ calls_match neq n jb C q K bs.
  Proof.
    intros Hg Hl. destruct (is_calls neq m Hm n Hn jb C q K log g q' Hg Hl) as (owner & Ow & Ll & Hc).
    assert (exists bs, zlen bs = m_nr m /\ forall r, 0 <= r < m_nr m -> exists b, rd bs r = Ok b /\ (do l <- rd log r ;; mapR (event_vertex m g) l) = Ok (concat b) /\ length b = K /\
      forall i, (i < K)%nat -> exists l, nth_error b i = Some l /\ calls n (gs_es q) (j_pg jb) (j_dv jb) (fun v => v) owner r (Z.of_nat i) (job_after neq jb C q i) l) as (bs & Lb & Hb).
    { clear - Hc Hm. assert (1 <= m_nr m) as Hr by apply Hm. revert Hc. assert (forall k, (k <= Z.to_nat (m_nr m))%nat -> (forall r, 0 <= r < m_nr m -> exists ls, (do l <- rd log r ;; mapR (event_vertex m g) l) = Ok (concat ls) /\ length ls = K /\
         forall i, (i < K)%nat -> exists l, nth_error ls i = Some l /\ calls n (gs_es q) (j_pg jb) (j_dv jb) (fun v => v) owner r (Z.of_nat i) (job_after neq jb C q i) l) ->
         exists bs, zlen bs = Z.of_nat k /\ forall r, 0 <= r < Z.of_nat k -> exists b, rd bs r = Ok b /\ (do l <- rd log r ;; mapR (event_vertex m g) l) = Ok (concat b) /\ length b = K /\
      forall i, (i < K)%nat -> exists l, nth_error b i = Some l /\ calls n (gs_es q) (j_pg jb) (j_dv jb) (fun v => v) owner r (Z.of_nat i) (job_after neq jb C q i) l) as X.
      { induction k as [|k IH]; intros Bk Hc; [exists []; split; [reflexivity|intros; lia]|]. destruct (IH ltac:(lia) Hc) as (bs & Lb & Hb). destruct (Hc (Z.of_nat k) ltac:(lia)) as (b & Hb').
        exists (bs ++ [b]). split; [rewrite zlen_app; change (zlen [b]) with 1; lia|]. intros r Br. destruct (Z.eq_dec r (Z.of_nat k)) as [->|N].
        - exists b. split; auto. rewrite rd_app2 by lia. replace (Z.of_nat k - zlen bs) with 0 by lia. reflexivity.
        - destruct (Hb r ltac:(lia)) as (b' & Eb' & Hb''). exists b'. split; auto. rewrite rd_app1 by lia. auto. }
      intros Hc. destruct (X (Z.to_nat (m_nr m)) ltac:(lia) Hc) as (bs & Lb & Hb). exists bs. rewrite !(Z2Nat.id (m_nr m)) in Lb by lia. rewrite (Z2Nat.id (m_nr m)) in Hb by lia. auto. }
    assert (1 <= m_nr m) as Hr by apply Hm.
    assert (forall r b i, rd bs r = Ok b -> (i < K)%nat -> 0 <= r < m_nr m /\ calls n (gs_es q) (j_pg jb) (j_dv jb) (fun v => v) owner r (Z.of_nat i) (job_after neq jb C q i) (nth i b [])) as Hcall.
    { intros r b i Eb Bi. pose proof (rd_bounds _ _ _ Eb) as Br. rewrite Lb in Br. destruct (Hb r Br) as (b' & Eb' & _ & Lk & Hi). rewrite Eb in Eb'. injection Eb' as <-.
      destruct (Hi i Bi) as (l & El & Cl). split; auto. rewrite (nth_error_nth _ _ _ El). auto. }
    exists bs. split.
    - split; auto. apply rd_Forall2; [lia|]. intros r l b El Eb. pose proof (rd_bounds _ _ _ Eb) as Br. rewrite Lb in Br. destruct (Hb r Br) as (b' & Eb' & E' & Lk & Hi). rewrite Eb in Eb'. injection Eb' as <-.
      rewrite El in E'. cbn [bind] in E'. split; auto. split; auto. intros i l' Ei. assert (i < K)%nat as Bi by (rewrite <- Lk; apply nth_error_Some; congruence).
      destruct (Hi i Bi) as (l2 & E2 & vs & ws & -> & _). rewrite Ei in E2. injection E2 as ->. exists (map Sent vs), (map Applied ws). split; auto.
      split; intros e He; apply in_map_iff in He as (v & <- & _); eauto.
    - intros i v Bi. unfold times. split.
      + destruct (in1 n v) eqn:Iv; cbn [andb].
        * apply in1_iff in Iv. assert (0 <= owner v < m_nr m) as Bo.
          { destruct (is_properties neq m Hm n Hn g q' Hg v Iv) as (o & Bo & Eo & _). specialize (Ow v o Iv). rewrite Eo in Ow. rewrite Z.eqb_refl in Ow. injection Ow as Ow. symmetry in Ow. apply Z.eqb_eq in Ow. lia. }
          destruct (rd_ok bs (owner v)) as [b Eb]; [lia|]. rewrite (list_sum_one _ bs (owner v) b Eb).
          -- destruct (Hcall _ _ i Eb Bi) as (_ & vs & ws & -> & N1 & I1 & N2 & I2). rewrite !count_occ_app. rewrite (count_inj event_eq_dec Sent) by congruence.
             assert (count_occ event_eq_dec (map (fun v0 => Applied v0) ws) (Sent v) = 0%nat) as -> by (apply count_occ_not_In; intros H; apply in_map_iff in H as (? & ? & _); discriminate).
             assert (count_occ event_eq_dec [Every (Z.of_nat i)] (Sent v) = 0%nat) as -> by (apply count_occ_not_In; intros [H|[]]; discriminate).
             rewrite (nodup_count Z.eq_dec) by auto. rewrite !Nat.add_0_r. specialize (I1 v). destruct (in_dec Z.eq_dec v vs) as [H|H]; [apply I1 in H as (_ & _ & ->); reflexivity|].
             destruct (v_A _ v) as [[|]|] eqn:Ea; auto. exfalso. apply H, I1. auto.
          -- intros j b' Ej Nj. destruct (Hcall _ _ i Ej Bi) as (_ & vs & ws & -> & N1 & I1 & N2 & I2). apply count_occ_not_In. rewrite !in_app_iff, !in_map_iff. intros [(x & Q & Hx)|[(x & Q & Hx)|[Q|[]]]]; try discriminate.
             injection Q as ->. apply I1 in Hx as (_ & Hx & _). lia.
        * apply list_sum_zero. intros b Hbs. apply In_rd in Hbs as (r & _ & Eb). destruct (Hcall _ _ i Eb Bi) as (_ & vs & ws & -> & N1 & I1 & N2 & I2). apply count_occ_not_In. rewrite !in_app_iff, !in_map_iff. intros [(x & Q & Hx)|[(x & Q & Hx)|[Q|[]]]]; try discriminate.
          injection Q as ->. apply I1 in Hx as (Hx & _). apply in1_iff in Hx. congruence.
      + destruct (in1 n v) eqn:Iv; cbn [andb].
        * apply in1_iff in Iv. assert (0 <= owner v < m_nr m) as Bo.
          { destruct (is_properties neq m Hm n Hn g q' Hg v Iv) as (o & Bo & Eo & _). specialize (Ow v o Iv). rewrite Eo in Ow. rewrite Z.eqb_refl in Ow. injection Ow as Ow. symmetry in Ow. apply Z.eqb_eq in Ow. lia. }
          destruct (rd_ok bs (owner v)) as [b Eb]; [lia|]. rewrite (list_sum_one _ bs (owner v) b Eb).
          -- destruct (Hcall _ _ i Eb Bi) as (_ & vs & ws & -> & N1 & I1 & N2 & I2). rewrite !count_occ_app. rewrite (count_inj event_eq_dec Applied) by congruence.
             assert (count_occ event_eq_dec (map (fun v0 => Sent v0) vs) (Applied v) = 0%nat) as -> by (apply count_occ_not_In; intros H; apply in_map_iff in H as (? & ? & _); discriminate).
             assert (count_occ event_eq_dec [Every (Z.of_nat i)] (Applied v) = 0%nat) as -> by (apply count_occ_not_In; intros [H|[]]; discriminate).
             rewrite (nodup_count Z.eq_dec) by auto. rewrite Nat.add_0_r, Nat.add_0_l. specialize (I2 v). destruct (in_dec Z.eq_dec v ws) as [H|H]; [apply I2 in H as (_ & _ & H); destruct (received _ _ _ _ v); [congruence|reflexivity]|].
             destruct (received _ _ _ _ v) eqn:Ea; auto. exfalso. apply H, I2. split; auto. split; auto. discriminate.
          -- intros j b' Ej Nj. destruct (Hcall _ _ i Ej Bi) as (_ & vs & ws & -> & N1 & I1 & N2 & I2). apply count_occ_not_In. rewrite !in_app_iff, !in_map_iff. intros [(x & Q & Hx)|[(x & Q & Hx)|[Q|[]]]]; try discriminate.
             injection Q as ->. apply I2 in Hx as (_ & Hx & _). lia.
        * apply list_sum_zero. intros b Hbs. apply In_rd in Hbs as (r & _ & Eb). destruct (Hcall _ _ i Eb Bi) as (_ & vs & ws & -> & N1 & I1 & N2 & I2). apply count_occ_not_In. rewrite !in_app_iff, !in_map_iff. intros [(x & Q & Hx)|[(x & Q & Hx)|[Q|[]]]]; try discriminate.
          injection Q as ->. apply I2 in Hx as (Hx & _). apply in1_iff in Hx. congruence.
  Qed.
End Count.

Section Final.
  Context {V E byte : Type}.
  Variable neq : V -> V -> bool.
  Variable m : machine V E byte.
  Variables (dv : V) (n : Z) (blobs : list (list (edge E))).
  Hypothesis Hset : setting m n blobs.
  Notation gr := (graph V E byte).
  Notation isq := (is m n).

  Let Hm : machine_ok m. Proof. apply Hset. Qed.
  Let Hn : 0 <= n. Proof. apply Hset. Qed.

  (** a history means at most one thing *)
  Lemma takes_unique {S T U} (jb : job S T U V E) C q K K' : job_takes neq n jb C q K -> job_takes neq n jb C q K' -> K = K'.
  Proof.
    intros (B & H & L) (B' & H' & L'). destruct (Nat.lt_trichotomy K K') as [?|[?|?]]; auto; [destruct (L' K)|destruct (L K')]; auto; lia.
  Qed.
  Lemma takes_endless {S T U} (jb : job S T U V E) C q K : job_takes neq n jb C q K -> job_endless neq n jb C q -> False.
  Proof. intros (B & H & _) L. apply (L K); auto. Qed.
  Lemma spec_call_det (c : gcall V E byte) q o o' : spec_call neq n c q o -> spec_call neq n c q o' -> o = o'.
  Proof.
    destruct c; cbn [spec_call]; try congruence. intros [(K & H & ->)|[H ->]] [(K' & H' & ->)|[H' ->]]; auto.
    - rewrite (takes_unique _ _ _ _ _ H H'). reflexivity.
    - exfalso. eapply takes_endless; eauto.
    - exfalso. eapply takes_endless; eauto.
  Qed.
  Lemma spec_calls_det (h : list (Z * gcall V E byte)) : forall q o o', spec_calls neq n h q o -> spec_calls neq n h q o' -> o = o'.
  Proof.
    induction h as [|c h IH]; intros q o o'; cbn [spec_calls]; [congruence|]. intros (o1 & S1 & R1) (o2 & S2 & R2). rewrite <- (spec_call_det _ _ _ _ S1 S2) in R2.
    destruct o1; [eauto|congruence].
  Qed.
  Lemma spec_calls_app (h h' : list (Z * gcall V E byte)) : forall q o, spec_calls neq n (h ++ h') q o <->
    exists o1, spec_calls neq n h q o1 /\ match o1 with Some q1 => spec_calls neq n h' q1 o | None => o = None end.
  Proof.
    induction h as [|c h IH]; intros q o; cbn [app spec_calls].
    - split; [intros H; exists (Some q); auto|]. intros (o1 & -> & H). auto.
    - split.
      + intros (o1 & S1 & H). destruct o1 as [q1|]; [|exists None; split; auto; exists None; auto]. apply IH in H as (o2 & S2 & H). exists o2. split; auto. exists (Some q1). auto.
      + intros (o2 & (o1 & S1 & H1) & H2). exists o1. split; auto. destruct o1 as [q1|]; [apply IH; exists o2; auto|]. subst o2. auto.
  Qed.
  Lemma run_calls_app (h h' : list (Z * gcall V E byte)) : forall g, run_calls neq m (h ++ h') g = do g <- run_calls neq m h g ;; run_calls neq m h' g.
  Proof. induction h as [|c h IH]; intros g; cbn [app run_calls]; [reflexivity|]. destruct (run_call neq m (fst c) (snd c) g); cbn [bind]; auto. Qed.

  Lemma load_ok : exists g0, load m dv n blobs = Ok g0 /\ isq g0 (loaded dv (concat blobs)).
  Proof. destruct Hset as (_ & _ & Lb & Hin). apply load_is; auto. Qed.

  Lemma reach_is h (g : gr) q : calls_ok n m h -> reached neq m dv n blobs h g -> means neq dv n blobs h q -> isq g q.
  Proof.
    intros Hok (g0 & El & Er) Hq. destruct load_ok as (g0' & El' & H0). rewrite El in El'. injection El' as <-.
    destruct (calls_spec neq m Hm n Hn h g0 _ Hok H0) as (o & So & R). rewrite (spec_calls_det _ _ _ _ So Hq) in R. destruct R as (g' & E' & Hg). rewrite Er in E'. injection E' as <-. auto.
  Qed.

  (** *** histories *)
  Lemma history_refines h : calls_ok n m h -> exists g0, load m dv n blobs = Ok g0 /\
    ((exists g q, run_calls neq m h g0 = Ok g /\ means neq dv n blobs h q /\ shows_properties n m g (gs_P q) /\ shows_edges m g (gs_es q)) \/
     (run_calls neq m h g0 = Err NoFuel /\ spec_calls neq n h (loaded dv (concat blobs)) None)).
  Proof.
    intros Hok. destruct load_ok as (g0 & El & H0). exists g0. split; auto.
    destruct (calls_spec neq m Hm n Hn h g0 _ Hok H0) as ([q|] & So & R).
    - left. destruct R as (g & Eg & Hg). exists g, q. split; auto. split; [exact So|]. split; [apply is_properties; auto|eapply is_edges; eauto].
    - right. auto.
  Qed.
  Lemma history_any h : calls_fit n m h -> exists g0, load m dv n blobs = Ok g0 /\
    ((exists g q, run_calls neq m h g0 = Ok g /\ can_mean neq dv n blobs h q /\ shows_properties n m g (gs_P q) /\ shows_edges m g (gs_es q)) \/
     (run_calls neq m h g0 = Err NoFuel /\ can_calls neq n h (loaded dv (concat blobs)) None)).
  Proof.
    intros Hok. destruct load_ok as (g0 & El & H0). exists g0. split; auto.
    destruct (calls_any neq m Hm n Hn h g0 _ Hok H0) as ([q|] & So & R).
    - left. destruct R as (g & Eg & Hg). exists g, q. split; auto. split; [exact So|]. split; [apply is_properties; auto|eapply is_edges; eauto].
    - right. auto.
  Qed.
End Final.
