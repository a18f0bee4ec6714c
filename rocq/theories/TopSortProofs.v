From Verif Require Import BaseLemmas Layout LayoutProofs Reduce ReduceProofs Segment SegmentProofs Vec VecProofs VecProofs2 GraphVertProofs DCSC MatSpec SpMat GraphVert Graph Runtime RunSpec RuntimeProofs GraphOps GraphHist GraphHistProofs Apps AppSpec AppBase DegreeProofs.

Section TopSort.
  Variables (n : Z) (es : list (edge Z)).
  Hypothesis Hn : 0 <= n < 2 ^ 31.
  Hypothesis Hl : zlen es < 2 ^ 31.
  Hypothesis Hin : forall e, In e es -> 1 <= e_src e <= n /\ 1 <= e_dst e <= n.
  Variable dv : top_vertex.
  Notation walk := (walk es).

  Lemma walk_trans u v w h : walk u v w h -> forall z w' h', walk v z w' h' -> walk u z (w + w') (h + h').
  Proof.
    intros H1. induction 1 as [|w0 h0 e W IH He]; [rewrite Z.add_0_r, Nat.add_0_r; exact H1|].
    rewrite Z.add_assoc, Nat.add_succ_r. constructor; auto.
  Qed.

  (** the edges into [v] from vertices whose property satisfies [b] *)
  Definition into (P : Z -> top_vertex) (b : top_vertex -> bool) (v : Z) : Z := zlen (filter (fun e => (e_dst e =? v) && b (P (e_src e))) es).
  (** no order yet, or the newest one *)
  Definition pend (k : nat) (p : top_vertex) : bool := (t_order p =? MAX_DIST) || (Z.of_nat k <=? t_order p).
  Definition newest (k : nat) (p : top_vertex) : bool := t_order p =? Z.of_nat k.
  Definition unset (p : top_vertex) : bool := t_order p =? MAX_DIST.

  (** the state after [k] supersteps *)
  Definition tinv (k : nat) (S : @vstate Z bool top_vertex) : Prop :=
    v_s S = Z.of_nat k + 1 /\
    forall v, 1 <= v <= n -> let p := v_P S v in
      t_failed p = false /\
      v_A S v = (if t_order p =? Z.of_nat k then Some true else None) /\
      t_deg p = into (v_P S) (pend k) v /\
      ((t_order p = MAX_DIST /\ 0 < t_deg p) \/
       (0 <= t_order p <= Z.of_nat k /\ (forall e, In e es -> e_dst e = v -> 0 <= t_order (v_P S (e_src e)) < t_order p) /\
          (0 < t_order p -> exists e, In e es /\ e_dst e = v /\ t_order (v_P S (e_src e)) = t_order p - 1))).

  Lemma zlen_filter_nil {A} (f : A -> bool) l : (forall x, In x l -> f x = false) -> zlen (filter f l) = 0.
  Proof. induction l as [|x l IH]; intros H; [reflexivity|]. cbn [filter]. rewrite (H x) by (simpl; auto). apply IH. intros; apply H; simpl; auto. Qed.
  Lemma zlen_filter_pos {A} (f : A -> bool) l : 0 < zlen (filter f l) -> exists x, In x l /\ f x = true.
  Proof. destruct (filter f l) as [|x r] eqn:Ef; [cbn; lia|]. intros _. exists x. apply filter_In. rewrite Ef. simpl; auto. Qed.
  Lemma zlen_filter_has {A} (f : A -> bool) l x : In x l -> f x = true -> 0 < zlen (filter f l).
  Proof. intros Hx Hf. assert (In x (filter f l)) as H by (apply filter_In; auto). destruct (filter f l); [destruct H|]. rewrite zlen_cons. pose proof (zlen_nonneg l0). lia. Qed.
  Lemma zlen_filter_ext {A} (f f' : A -> bool) l : (forall x, In x l -> f x = f' x) -> zlen (filter f l) = zlen (filter f' l).
  Proof. intros H. rewrite (filter_ext_in f f') by auto. reflexivity. Qed.
  Lemma zlen_filter_split {A} (f a b : A -> bool) l : (forall x, In x l -> f x = a x || b x) -> (forall x, In x l -> a x = true -> b x = true -> False) -> zlen (filter f l) = zlen (filter a l) + zlen (filter b l).
  Proof.
    induction l as [|x l IH]; intros H Hd; [reflexivity|]. cbn [filter]. specialize (IH ltac:(intros; apply H; simpl; auto) ltac:(intros y Hy; apply Hd; simpl; auto)).
    rewrite (H x) by (simpl; auto). specialize (Hd x ltac:(simpl; auto)). destruct (a x), (b x); cbn [orb]; rewrite ?zlen_cons; try lia; exfalso; auto.
  Qed.

  Lemma tinv_range k S v : tinv k S -> 1 <= v <= n -> t_order (v_P S v) = MAX_DIST \/ 0 <= t_order (v_P S v) <= Z.of_nat k.
  Proof. intros [_ H] Bv. destruct (H v Bv) as (_ & _ & _ & [[A _]|[A _]]); auto. Qed.

  (** what arrives: one from every vertex with the newest order *)
  Lemma tinv_arrives k S v : tinv k S -> Z.of_nat k <= n -> 1 <= v <= n -> received es topsort dv S v = map (fun _ => 1) (filter (fun e => (e_dst e =? v) && newest k (v_P S (e_src e))) es).
  Proof.
    intros HI Hk Bv. pose proof HI as [_ HV]. unfold received. cbn [pr_order topsort]. unfold arriving. cbn [along fst snd].
    assert (forall e, In e es -> message topsort S (e_src e) = if newest k (v_P S (e_src e)) then Some true else None) as Hm.
    { intros e He. destruct (Hin e He) as [Bs _]. destruct (HV _ Bs) as (_ & HA & HD & HO). unfold message, newest. rewrite HA.
      destruct (Z.eqb_spec (t_order (v_P S (e_src e))) (Z.of_nat k)) as [Eo|]; [|reflexivity]. cbn [pr_send topsort fst]. repeat f_equal. apply Z.eqb_eq. rewrite HD. apply zlen_filter_nil.
      intros e' He'. destruct (Z.eqb_spec (e_dst e') (e_src e)) as [Ed|]; [|reflexivity]. cbn [andb]. unfold pend.
      destruct HO as [[HO _]|[_ [HO _]]]; [unfold MAX_DIST in *; lia|]. specialize (HO e' He' Ed). unfold MAX_DIST. apply orb_false_iff. split; [apply Z.eqb_neq|apply Z.leb_gt]; lia. }
    clear HV HI Hl. induction es as [|e l IH]; [reflexivity|]. cbn [flat_map filter]. rewrite IH; [|intros; apply Hin; simpl; auto|intros; apply Hm; simpl; auto]. rewrite (Hm e) by (simpl; auto).
    destruct (e_dst e =? v); [|reflexivity]. cbn [andb]. destruct (newest k (v_P S (e_src e))); reflexivity.
  Qed.

  Lemma tinv_step k S Yk : tinv k S -> Z.of_nat k <= n -> (forall v, 1 <= v <= n -> combined_of (pr_reduce topsort (v_s S)) (received es topsort dv S v) (Yk v)) ->
    tinv (Datatypes.S k) (step_with topsort top_neq Yk (Z.of_nat k) S).
  Proof.
    intros HI Hk HY. pose proof HI as [Hsv HV].
    (* what one vertex becomes *)
    assert (forall v, 1 <= v <= n -> let p := v_P S v in let c := into (v_P S) (newest k) v in
      (Yk v = None /\ c = 0 /\ updated_with topsort Yk S v = p) \/
      (Yk v = Some c /\ 0 < c /\ t_order p = MAX_DIST /\ t_deg p = into (v_P S) unset v + c /\
       updated_with topsort Yk S v = mkT (if into (v_P S) unset v =? 0 then Z.of_nat k + 1 else MAX_DIST) (into (v_P S) unset v) false)) as Hup.
    { intros v Bv p c. specialize (HY v Bv). rewrite (tinv_arrives k S v HI Hk Bv) in HY. cbn [pr_reduce topsort] in HY. apply counted in HY.
      2:{ pose proof (zlen_filter_le (fun e => (e_dst e =? v) && newest k (v_P S (e_src e))) es). lia. }
      fold (into (v_P S) (newest k) v) in HY. fold c in HY. destruct HY as [[EY El]|[EY Nl]].
      - left. split; auto. split; [unfold c, into; rewrite El; reflexivity|]. unfold updated_with. rewrite EY. reflexivity.
      - right. split; auto. assert (0 < c) as Pc.
        { unfold c, into. destruct (filter _ es) as [|x l]; [congruence|]. rewrite zlen_cons. pose proof (zlen_nonneg l). lia. }
        split; auto. destruct (HV v Bv) as (Hf & HA & HD & HO). fold p in Hf, HA, HD, HO.
        assert (t_order p = MAX_DIST) as Em.
        { destruct HO as [[HO _]|[B [HO _]]]; auto. exfalso. destruct (zlen_filter_pos _ _ Pc) as (e & He & Hb). apply andb_true_iff in Hb as [Hd Hb]. apply Z.eqb_eq in Hd. apply Z.eqb_eq in Hb.
          specialize (HO e He Hd). lia. }
        assert (t_deg p = into (v_P S) unset v + c) as Ed.
        { rewrite HD. unfold c, into. apply zlen_filter_split.
          - intros e He. destruct (e_dst e =? v); [|reflexivity]. cbn [andb]. unfold pend, unset, newest. destruct (Hin e He) as [Bs _].
            pose proof (tinv_range k S _ HI Bs) as HR. destruct (Z.eqb_spec (t_order (v_P S (e_src e))) MAX_DIST); [reflexivity|]. cbn [orb].
            destruct (Z.leb_spec (Z.of_nat k) (t_order (v_P S (e_src e)))), (Z.eqb_spec (t_order (v_P S (e_src e))) (Z.of_nat k)); auto; lia.
          - intros e He H1 H2. apply andb_true_iff in H1 as [_ H1], H2 as [_ H2]. unfold unset, newest in *. apply Z.eqb_eq in H1, H2. unfold MAX_DIST in *. lia. }
        split; auto. split; auto. unfold updated_with. rewrite EY. fold p. cbn [pr_apply topsort]. rewrite Ed, Hsv, Em, Hf. replace (into (v_P S) unset v + c - c) with (into (v_P S) unset v) by lia.
        assert (0 <= into (v_P S) unset v) as P0 by (unfold into; apply zlen_nonneg). assert (into (v_P S) unset v <= zlen es) as P1 by (unfold into; apply zlen_filter_le).
        rewrite i32_id by lia. cbn [orb negb]. destruct (Z.ltb_spec 0 c); [|lia]. destruct (Z.ltb_spec 0 (into (v_P S) unset v + c)); [|lia]. destruct (Z.leb_spec 0 (into (v_P S) unset v)); [|lia]. reflexivity. }
    set (P' := updated_with topsort Yk S) in *.
    (* orders only become defined, and then are the next one *)
    assert (forall v, 1 <= v <= n -> (t_order (v_P S v) <> MAX_DIST /\ P' v = v_P S v) \/ (t_order (v_P S v) = MAX_DIST /\ (t_order (P' v) = MAX_DIST \/ t_order (P' v) = Z.of_nat k + 1))) as Hord.
    { intros v Bv. destruct (Hup v Bv) as [(EY & Ec & Eu)|(EY & Pc & Em & Ed & Eu)].
      - destruct (Z.eq_dec (t_order (v_P S v)) MAX_DIST) as [Em|]; [right|left]; auto. rewrite Eu. auto.
      - right. split; auto. rewrite Eu. cbn [t_order]. destruct (into (v_P S) unset v =? 0); auto. }
    assert (forall v, into P' (pend (Datatypes.S k)) v = into (v_P S) unset v) as Hpend.
    { intros v. apply zlen_filter_ext. intros e He. destruct (e_dst e =? v); auto. cbn [andb]. destruct (Hin e He) as [Bs _]. pose proof (tinv_range k S _ HI Bs) as HR. unfold pend, unset.
      destruct (Hord _ Bs) as [[N ->]|[Em [->| ->]]].
      - destruct (Z.eqb_spec (t_order (v_P S (e_src e))) MAX_DIST); [contradiction|]. cbn [orb]. apply Z.leb_gt. lia.
      - rewrite Em. reflexivity.
      - rewrite Em, Z.eqb_refl. destruct (Z.leb_spec (Z.of_nat (Datatypes.S k)) (Z.of_nat k + 1)); [apply orb_true_r|lia]. }
    assert (Z.of_nat k + 1 <> MAX_DIST) as Nk by (unfold MAX_DIST; lia).
    split.
    - cbn [step_with v_s pr_every topsort]. rewrite Hsv. unfold u32. rewrite Z.mod_small by lia. lia.
    - intros v Bv p. cbn [step_with v_P] in p. fold P' in p. destruct (HV v Bv) as (Hf & HA & HD & HO). pose proof (tinv_range k S v HI Bv) as HR.
      cbn [step_with v_P v_A topsort pr_all_vertices orb]. fold P' topsort. rewrite Hpend. unfold changed_with.
      destruct (Hup v Bv) as [(EY & Ec & Eu)|(EY & Pc & Em & Ed & Eu)]; fold P' in Eu; fold p in Eu; rewrite EY.
      + rewrite Eu. split; auto. split; [|split].
        * destruct (Z.eqb_spec (t_order (v_P S v)) (Z.of_nat (Datatypes.S k))); [|reflexivity]. unfold MAX_DIST in *. lia.
        * rewrite HD. rewrite <- (Z.add_0_r (into (v_P S) unset v)), <- Ec. apply zlen_filter_split.
          -- intros e He. destruct (e_dst e =? v); [|reflexivity]. cbn [andb]. unfold pend, unset, newest. destruct (Hin e He) as [Bs _].
             pose proof (tinv_range k S _ HI Bs) as HR'. destruct (Z.eqb_spec (t_order (v_P S (e_src e))) MAX_DIST); [reflexivity|]. cbn [orb].
             destruct (Z.leb_spec (Z.of_nat k) (t_order (v_P S (e_src e)))), (Z.eqb_spec (t_order (v_P S (e_src e))) (Z.of_nat k)); auto; lia.
          -- intros e He H1 H2. apply andb_true_iff in H1 as [_ H1], H2 as [_ H2]. unfold unset, newest in *. apply Z.eqb_eq in H1, H2. unfold MAX_DIST in *. lia.
        * destruct HO as [[Em Pd]|(B & HO & HX)]; [left; auto|]. right. split; [lia|]. split.
          -- intros e He Hd. destruct (Hin e He) as [Bs _]. specialize (HO e He Hd). destruct (Hord _ Bs) as [[_ ->]|[Es _]]; [exact HO|]. unfold MAX_DIST in *. lia.
          -- intros Pp. destruct (HX Pp) as (e & He & Hd & Ho). exists e. split; auto. split; auto. destruct (Hin e He) as [Bs _]. destruct (Hord _ Bs) as [[_ ->]|[Es _]]; [exact Ho|]. unfold MAX_DIST in *. lia.
      + assert (pr_apply topsort (v_s S) (into (v_P S) (newest k) v) (v_P S v) = p) as ->. { unfold p, P', updated_with. rewrite EY. reflexivity. }
        unfold top_neq. rewrite Eu, Em. cbn [t_order t_deg t_failed].
        assert (0 <= into (v_P S) unset v) as P0 by (unfold into; apply zlen_nonneg).
        split; auto. destruct (Z.eqb_spec (into (v_P S) unset v) 0) as [E0|N0].
        * destruct (Z.eqb_spec MAX_DIST (Z.of_nat k + 1)); [congruence|]. cbn [negb]. destruct (Z.eqb_spec (Z.of_nat k + 1) (Z.of_nat (Datatypes.S k))) as [_|]; [|lia]. split; auto. split; auto.
          right. split; [lia|]. split.
          -- intros e He Hd. destruct (Hin e He) as [Bs _]. pose proof (tinv_range k S _ HI Bs) as HR'. destruct (Hord _ Bs) as [[N ->]|[Es _]]; [lia|]. exfalso.
             enough (0 < into (v_P S) unset v) by lia. apply (zlen_filter_has _ _ e He). rewrite Hd, Z.eqb_refl. unfold unset. rewrite Es. reflexivity.
          -- intros _. destruct (zlen_filter_pos _ _ Pc) as (e & He & Hb). apply andb_true_iff in Hb as [Hd Hb]. apply Z.eqb_eq in Hd. apply Z.eqb_eq in Hb. exists e. split; auto. split; auto.
             destruct (Hin e He) as [Bs _]. destruct (Hord _ Bs) as [[_ ->]|[Es _]]; [lia|]. unfold MAX_DIST in *. lia.
        * rewrite Z.eqb_refl. cbn [negb]. destruct (Z.eqb_spec MAX_DIST (Z.of_nat (Datatypes.S k))) as [X|]; [unfold MAX_DIST in X; lia|]. split; auto. split; auto. left. split; auto. lia.
  Qed.

  (** *** the orders when no vertex has the newest one *)
  Section Final.
    Variables (k : nat) (S : @vstate Z bool top_vertex).
    Hypothesis HI : tinv k S.
    Hypothesis Hk : Z.of_nat k <= n.
    Notation ord v := (t_order (v_P S v)).

    Lemma level_walk v : 1 <= v <= n -> ord v <> MAX_DIST -> exists x w, walk x v w (Z.to_nat (ord v)).
    Proof.
      intros Bv Nm. remember (Z.to_nat (ord v)) as h eqn:Eh. revert v Bv Nm Eh. induction h as [|h IH]; intros v Bv Nm Eh; [exists v, 0; constructor|].
      destruct HI as [_ HV]. destruct (HV v Bv) as (_ & _ & _ & [[Em _]|(B & _ & HX)]); [contradiction|]. destruct (HX ltac:(lia)) as (e & He & Hd & Ho).
      destruct (Hin e He) as [Bs _]. destruct (IH (e_src e) Bs) as (x & w & W); [unfold MAX_DIST; lia|lia|]. exists x, (w + e_val e). rewrite <- Hd. constructor; auto.
    Qed.
    Lemma level_bound x v w h : walk x v w h -> 1 <= v <= n -> ord v <> MAX_DIST -> 1 <= x <= n /\ 0 <= ord x /\ ord x + Z.of_nat h <= ord v.
    Proof.
      induction 1 as [|w h e W IH He]; intros Bv Nm.
      - split; auto. pose proof (tinv_range k S x HI Bv) as [H|H]; [contradiction|]. lia.
      - destruct HI as [_ HV]. destruct (HV _ Bv) as (_ & _ & _ & [[Em _]|(B & HO & _)]); [contradiction|]. specialize (HO e He eq_refl). destruct (Hin e He) as [Bs _].
        destruct (IH Bs) as (Bx & P & L); [unfold MAX_DIST; lia|]. split; auto. split; [auto|lia].
    Qed.
    Lemma level_longest v : 1 <= v <= n -> ord v <> MAX_DIST -> longest_walk_to es v (Z.to_nat (ord v)) /\ 0 <= ord v.
    Proof.
      intros Bv Nm. split; [|pose proof (tinv_range k S v HI Bv) as [H|H]; [contradiction|lia]]. split; [apply level_walk; auto|]. intros x w h W. destruct (level_bound x v w h W Bv Nm) as (_ & P & L). lia.
    Qed.
    Lemma level_no_cycle v : 1 <= v <= n -> ord v <> MAX_DIST -> ~ behind_cycle es v.
    Proof.
      intros Bv Nm (x & w & h & w' & h' & W & W'). destruct (level_bound x v w' h' W' Bv Nm) as (Bx & P & L). pose proof (tinv_range k S v HI Bv) as R.
      assert (ord x <> MAX_DIST) as Nx by (unfold MAX_DIST in *; lia). destruct (level_bound x x w _ W Bx Nx) as (_ & _ & L'). lia.
    Qed.

    Hypothesis Hno : forall v, 1 <= v <= n -> ord v <> Z.of_nat k.
    Lemma unset_back v : 1 <= v <= n -> ord v = MAX_DIST -> exists e, In e es /\ e_dst e = v /\ ord (e_src e) = MAX_DIST.
    Proof.
      intros Bv Em. destruct HI as [_ HV]. destruct (HV v Bv) as (_ & _ & HD & [[_ Pd]|(B & _)]); [|unfold MAX_DIST in *; lia]. rewrite HD in Pd.
      destruct (zlen_filter_pos _ _ Pd) as (e & He & Hb). apply andb_true_iff in Hb as [Hd Hb]. apply Z.eqb_eq in Hd. exists e. split; auto. split; auto.
      destruct (Hin e He) as [Bs _]. unfold pend in Hb. apply orb_true_iff in Hb as [Hb|Hb]; [apply Z.eqb_eq; auto|]. apply Z.leb_le in Hb. pose proof (tinv_range k S _ HI Bs) as R. specialize (Hno _ Bs). lia.
    Qed.
    Lemma unset_cycle v : 1 <= v <= n -> ord v = MAX_DIST -> behind_cycle es v.
    Proof.
      intros Bv Em.
      assert (forall d x l, (d = Z.to_nat n - length l)%nat -> 1 <= x <= n -> ord x = MAX_DIST -> NoDup l -> In x l -> In v l -> (forall y, In y l -> 1 <= y <= n /\ exists w h, walk x y w h) -> behind_cycle es v) as G.
      { induction d as [|d IH]; intros x l Ed Bx Ex Nd Hx Hv Hall; destruct (unset_back x Bx Ex) as (e & He & Hd & Es); destruct (Hin e He) as [Bs _];
          destruct (in_dec Z.eq_dec (e_src e) l) as [Hi|Hi].
        1,3: destruct (Hall _ Hi) as (_ & w & h & W); destruct (Hall v Hv) as (_ & w' & h' & W'); exists x, (w + e_val e), h, w', h'; split; [|exact W']; rewrite <- Hd at 2; constructor; auto.
        - exfalso. assert (length (e_src e :: l) <= length (zrange 1 (n + 1)))%nat as B.
          { apply NoDup_incl_length; [constructor; auto|]. intros y [<-|Hy]; apply in_zrange; [lia|]. destruct (Hall y Hy). lia. }
          pose proof (zlen_zrange 1 (n + 1)) as Z0. unfold zlen in Z0. cbn [length] in B. lia.
        - apply (IH (e_src e) (e_src e :: l)); auto; [cbn [length]; lia|constructor; auto|simpl; auto|simpl; auto|].
          intros y [<-|Hy]; [split; auto; exists 0, O; constructor|]. destruct (Hall y Hy) as (By & w & h & W). split; auto. exists (0 + e_val e + w), (1 + h)%nat.
          assert (walk (e_src e) (e_dst e) (0 + e_val e) 1) as We by (constructor; auto; constructor). rewrite Hd in We. eapply walk_trans; eauto. }
      apply (G _ v [v] eq_refl); auto.
      - constructor; [simpl; tauto|constructor].
      - simpl; auto.
      - simpl; auto.
      - intros y [<-|[]]. split; auto. exists 0, O. constructor.
    Qed.
  End Final.

  (** every level up to a vertex's is inhabited *)
  Lemma tinv_levels k S v : tinv k S -> 1 <= v <= n -> t_order (v_P S v) = Z.of_nat k -> Z.of_nat k <= n -> Z.of_nat k < n.
  Proof.
    intros HI Bv Eo Hk. pose proof (levels_bound (fun i x => t_order (v_P S x) = Z.of_nat i) n (Datatypes.S k) ltac:(lia)) as B.
    assert (Z.of_nat (Datatypes.S k) <= n); [|lia]. apply B; [intros i j x; lia|]. clear B. intros i Hi.
    assert (forall d u, 1 <= u <= n -> t_order (v_P S u) = Z.of_nat i + Z.of_nat d -> Z.of_nat i + Z.of_nat d <= Z.of_nat k -> exists x, 1 <= x <= n /\ t_order (v_P S x) = Z.of_nat i) as G.
    { induction d as [|d IH]; intros u Bu Eu Bd; [exists u; split; auto; lia|]. pose proof HI as [_ HV]. destruct (HV u Bu) as (_ & _ & _ & [[Em _]|(B & _ & HX)]); [unfold MAX_DIST in *; lia|].
      destruct (HX ltac:(lia)) as (e & He & Hd & Ho). destruct (Hin e He) as [Bs _]. apply (IH (e_src e)); auto; lia. }
    apply (G (k - i)%nat v); auto; lia.
  Qed.

  Variables (dt : bool) (fuel : nat) (Y : nat -> Z -> option Z) (C : Z -> bool) (q : gspec top_vertex Z).
  Notation jb := (mkJ topsort 1 (-1) dt dv fuel).
  Notation st k := (job_after_with top_neq jb Y C q k).
  Hypothesis Qe : gs_es q = es.
  Hypothesis QP : forall v, 1 <= v <= n -> gs_P q v = mkT (if in_degree es v =? 0 then 0 else MAX_DIST) (in_degree es v) false.
  Hypothesis QA : forall v, 1 <= v <= n -> gs_A q v = if in_degree es v =? 0 then Some true else None.

  Lemma tinv_0 : tinv 0 (st 0).
  Proof.
    split; [reflexivity|]. intros v Bv. unfold job_after_with, after_with, begin, start. cbn [v_P v_A j_pg topsort pr_all_vertices]. rewrite (QP v Bv), (QA v Bv). cbn [t_order t_deg t_failed].
    split; auto. split; [|split].
    - destruct (in_degree es v =? 0); reflexivity.
    - unfold in_degree, into. apply zlen_filter_ext. intros e He. destruct (Hin e He) as [Bs _]. rewrite (QP _ Bs). unfold pend. cbn [t_order]. destruct (e_dst e =? v); [|reflexivity]. cbn [andb].
      destruct (in_degree es (e_src e) =? 0); reflexivity.
    - assert (0 <= in_degree es v) as P by apply zlen_nonneg. destruct (Z.eqb_spec (in_degree es v) 0) as [E0|N0].
      + right. split; [lia|]. split; [|lia]. intros e He Hd. exfalso. enough (0 < in_degree es v) by lia. apply (zlen_filter_has _ es e He). rewrite Hd. apply Z.eqb_refl.
      + left. split; auto. lia.
  Qed.
  Lemma tinv_at K : job_reduces top_neq n jb Y C q K -> Z.of_nat K <= n + 1 -> forall k, (k <= K)%nat -> tinv k (st k).
  Proof.
    intros Hr HK. apply (job_inv top_neq n jb Y C q K tinv Hr); [apply tinv_0|]. intros k Hk HI HY. unfold job_received in HY. cbn [j_pg j_dv] in HY. rewrite Qe in HY.
    change (st (S k)) with (step_with topsort top_neq (Y k) (Z.of_nat k) (st k)). apply tinv_step; auto. lia.
  Qed.
  Lemma top_not_end k : tinv (S k) (st (S k)) -> Z.of_nat (S k) <= n -> ~ job_ends_with top_neq n jb Y C q (S k) -> Z.of_nat (S k) < n.
  Proof.
    intros HI Hk He. unfold job_ends_with, ends_with in He. cbn [j_iterations j_pg] in He.
    destruct (not_converged top_neq n topsort (Y k) (st k)) as (v & Bv & Hc).
    - intros Hc. apply He. right. split; [lia|]. replace (S k - 1)%nat with k by lia. exact Hc.
    - apply (tinv_levels (S k) (st (S k)) v); auto. destruct HI as [_ HI]. destruct (HI v Bv) as (_ & HA & _).
      change (st (S k)) with (step_with topsort top_neq (Y k) (Z.of_nat k) (st k)) in HA at 1. cbn [step_with v_A topsort pr_all_vertices orb] in HA. fold topsort in HA. rewrite Hc in HA.
      destruct (Z.eqb_spec (t_order (v_P (st (S k)) v)) (Z.of_nat (S k))); [auto|discriminate].
  Qed.
  Lemma top_last K : job_reduces top_neq n jb Y C q K -> (forall k, (1 <= k < K)%nat -> ~ job_ends_with top_neq n jb Y C q k) -> forall k, (1 <= k <= K)%nat -> Z.of_nat k <= Z.max n 1.
  Proof.
    intros Hr Hne. induction k as [|k IH]; intros Bk; [lia|]. destruct k as [|k]; [lia|]. specialize (IH ltac:(lia)).
    assert (tinv (S k) (st (S k))) as HI. { apply (tinv_at (S k)); auto; [intros k' v Hk'; apply Hr; lia|lia]. }
    destruct (Z.le_gt_cases 1 n) as [H1|H1].
    - pose proof (top_not_end k HI ltac:(lia) (Hne (S k) ltac:(lia))). lia.
    - exfalso. apply (Hne 1%nat); [lia|]. right. split; [cbn; lia|]. unfold converged_with. rewrite zrange_nil by lia. reflexivity.
  Qed.
  Lemma top_not_endless : (Z.to_nat (Z.max n 1) <= fuel)%nat -> ~ job_endless_with top_neq n jb Y C q.
  Proof.
    intros Hf [Hr He]. cbn [j_fuel] in *. destruct (Z.le_gt_cases 1 n) as [H1|H1].
    - set (k := (Z.to_nat n - 1)%nat). assert (tinv (S k) (st (S k))) as HI. { apply (tinv_at (S k)); auto; [intros k' v Hk'; apply Hr; lia|lia]. }
      pose proof (top_not_end k HI ltac:(lia) (He (S k) ltac:(lia))). lia.
    - apply (He 1%nat); [lia|]. right. split; [cbn; lia|]. unfold converged_with. rewrite zrange_nil by lia. reflexivity.
  Qed.
  Definition top_result (v : Z) (p : top_vertex) : Prop :=
    t_failed p = false /\
    ((t_order p = MAX_DIST /\ behind_cycle es v) \/ (exists h, longest_walk_to es v h /\ t_order p = Z.of_nat h /\ Z.of_nat h < n /\ ~ behind_cycle es v)).
  Lemma top_done K : job_takes_with top_neq n jb Y C q K -> forall v, 1 <= v <= n -> top_result v (v_P (st K) v).
  Proof.
    intros (BK & Hr & He & Hne) v0 Bv0. pose proof (top_last K Hr Hne K ltac:(lia)) as HK. assert (Z.of_nat K <= n) as HK' by lia.
    assert (tinv K (st K)) as HI by (apply (tinv_at K); auto; lia).
    assert (forall v, 1 <= v <= n -> t_order (v_P (st K) v) <> Z.of_nat K) as Hno.
    { intros v Bv Eo. destruct He as [He|[_ He]]; [cbn in He; lia|]. destruct HI as [_ HI]. destruct (HI v Bv) as (_ & HA & _). rewrite Eo, Z.eqb_refl in HA.
      destruct K as [|k]; [lia|]. replace (S k - 1)%nat with k in He by lia.
      change (st (S k)) with (step_with topsort top_neq (Y k) (Z.of_nat k) (st k)) in HA. cbn [step_with v_A] in HA.
      pose proof (converged_changed top_neq n topsort (Y k) (st k) v He Bv) as Hcc. rewrite Hcc in HA. cbn in HA. discriminate. }
    split; [destruct HI as [_ HI]; apply (HI v0 Bv0)|]. destruct (Z.eq_dec (t_order (v_P (st K) v0)) MAX_DIST) as [Em|Nm].
    - left. split; auto. apply (unset_cycle K (st K)); auto.
    - right. destruct (level_longest K (st K) HI HK' v0 Bv0 Nm) as [L P]. exists (Z.to_nat (t_order (v_P (st K) v0))). split; auto. split; [lia|]. split; [|apply (level_no_cycle K (st K)); auto].
      pose proof (tinv_range K (st K) v0 HI Bv0) as [X|X]; [contradiction|]. specialize (Hno v0 Bv0). lia.
  Qed.
End TopSort.

Section RunTopSort.
  Context {byte : Type}.
  Variable m : machine top_vertex Z byte.
  Variables (n : Z) (blobs : list (list (edge Z))).
  Hypothesis Hset : setting m n blobs.
  Hypothesis Hn : n < 2 ^ 31.
  Hypothesis Hl : zlen (concat blobs) < 2 ^ 31.
  Variables (th : Z) (fr1 : frame Z Z byte) (fr2 : frame bool Z byte) (dt1 : Z) (dt2 : bool) (dv : top_vertex) (fuel : nat).
  Hypothesis Ht : threads_ok m (m_serv m) th.
  Hypothesis Hfr1 : frame_ok m th fr1.
  Hypothesis Hfr2 : frame_ok m th fr2.
  Notation nr := (m_nr m).
  Notation nt := (m_nt m).
  Let Hm : machine_ok m. Proof. apply Hset. Qed.
  Let Hn0 : 0 <= n. Proof. apply Hset. Qed.
  Let Hr : 1 <= nr. Proof. apply Hm. Qed.
  Let Hnt : 1 <= nt. Proof. apply Hm. Qed.

  Lemma vec_set_other {A} r v (a : A) (segs : list (seg A byte)) : 1 <= v <= n -> owner n nr nt v <> r ->
    (do w <- vertexToNative nt nr n v ;; vec_set n nr nr th r w (Some a) segs) = Ok segs.
  Proof.
    intros Bv Ne. destruct (v2n_ok nt nr n v Hnt Hr Bv) as [-> B]. cbn [bind]. unfold vec_set, at_owner.
    rewrite vpart_ok by auto. cbn [bind]. pose proof (vpart_range n nr (v2n nt nr n v) Hn0 Hr B) as [B1 B2]. destruct (Z.leb_spec 0 (vpart n nr (v2n nt nr n v))); [|lia]. cbn [assertb bind].
    rewrite (vown_ok nr nr Hr) by lia. cbn [bind]. destruct (Z.eqb_spec (ow nr (vpart n nr (v2n nt nr n v))) r); [contradiction|]. reflexivity.
  Qed.

  Lemma top_source_is i g q : 1 <= i <= n -> is m n g q ->
    exists g', top_source m th i g = Ok g' /\
      is m n g' (mkGS (gs_es q) (fun u => if (u =? i) && (t_deg (gs_P q i) =? 0) then mkT 0 (t_deg (gs_P q i)) (t_failed (gs_P q i)) else gs_P q u)
                                (fun u => if (u =? i) && (t_deg (gs_P q i) =? 0) then Some true else gs_A q u)).
  Proof.
    intros Bi Hg. pose proof Hg as (_ & (Gn & Gt & _) & _). destruct (is_rows m n g q Hg) as [Lv La]. unfold top_source. rewrite Gn, Gt.
    destruct (Z.eqb_spec (t_deg (gs_P q i)) 0) as [E0|N0].
    - destruct (vp_op top_neq m Hm n Hn0 th (GSet i (mkT 0 (t_deg (gs_P q i)) (t_failed (gs_P q i)))) g q Ht Bi Hg) as (g1 & E1 & H1). unfold g_vp_all in E1. rewrite Gn, Gt in E1.
      apply bind_Ok in E1 as (vp & Evp & E1). injection E1 as <-.
      destruct (act_op m Hm n Hn0 (m_serv m) th (AActive i) _ _ Ht Bi H1) as (g2 & E2 & H2). unfold g_act_all in E2. cbn [set_vp g_n g_nt g_act] in E2. rewrite Gn, Gt in E2.
      apply bind_Ok in E2 as (act & Eact & E2). injection E2 as <-. unfold on_ranks in Evp, Eact.
      destruct (mapR_pair (fun r => do o <- g_vertexNodeOwner n nr nt r i ;; do vp <- rd (g_vp g) r ;; do act <- rd (g_act g) r ;;
        if o : bool then do a <- g_getVertexproperty n nr nt r i top_new vp ;; do a <- need a ;;
          if t_deg a =? 0 then do act <- run_aop n nr nt th r act (AActive i) ;; do vp <- g_setVertexproperty n nr nt th r i (mkT 0 (t_deg a) (t_failed a)) vp ;; Ok (vp, act) else Ok (vp, act)
        else Ok (vp, act)) _ _ _ _ _ Evp Eact) as (lr & -> & <- & <-).
      + intros r vp' act' Hi Ev Ea. apply in_zrange in Hi. apply bind_Ok in Ev as (segs & Es & Ev). apply bind_Ok in Ea as (asegs & Eas & Ea). rewrite Es, Eas.
        rewrite (owner_spec n nr nt Hn0 Hr Hnt) by auto. cbn [bind]. fold (owner n nr nt i). rewrite (get_is m Hm n Hn0 g q r i _ segs Hg Es Bi Hi).
        destruct (Z.eqb_spec (owner n nr nt i) r) as [Eo|Ne].
        * cbn [bind need]. rewrite (proj2 (Z.eqb_eq _ _) E0). rewrite Ea. cbn [bind]. cbn [run_gop] in Ev. rewrite Ev. reflexivity.
        * cbn [run_gop run_aop] in Ev, Ea. unfold g_setVertexproperty in Ev. rewrite (vec_set_other r i _ segs Bi Ne) in Ev. rewrite (vec_set_other r i _ asegs Bi Ne) in Ea. congruence.
      + cbn [bind]. eexists. split; [reflexivity|]. eapply (is_ext m Hm n Hn0); [| |exact H2]; auto. intros v Bv. cbn [gs_P gs_A]. rewrite andb_true_r. auto.
    - destruct (mapR_pair (fun r => do o <- g_vertexNodeOwner n nr nt r i ;; do vp <- rd (g_vp g) r ;; do act <- rd (g_act g) r ;;
        if o : bool then do a <- g_getVertexproperty n nr nt r i top_new vp ;; do a <- need a ;;
          if t_deg a =? 0 then do act <- run_aop n nr nt th r act (AActive i) ;; do vp <- g_setVertexproperty n nr nt th r i (mkT 0 (t_deg a) (t_failed a)) vp ;; Ok (vp, act) else Ok (vp, act)
        else Ok (vp, act)) (rd (g_vp g)) (rd (g_act g)) (zrange 0 nr) (g_vp g) (g_act g)) as (lr & -> & E1 & E2).
      + rewrite <- Lv. apply mapR_rd_self.
      + rewrite <- La. apply mapR_rd_self.
      + intros r segs asegs Hi Es Eas. apply in_zrange in Hi. rewrite Es, Eas.
        rewrite (owner_spec n nr nt Hn0 Hr Hnt) by auto. cbn [bind]. fold (owner n nr nt i). rewrite (get_is m Hm n Hn0 g q r i _ segs Hg Es Bi Hi).
        destruct (Z.eqb_spec (owner n nr nt i) r) as [Eo|Ne]; cbn [bind need]; [|reflexivity]. destruct (Z.eqb_spec (t_deg (gs_P q i)) 0); [contradiction|reflexivity].
      + cbn [bind]. rewrite E1, E2. eexists. split; [reflexivity|]. replace (set_act (g_act g) (set_vp (g_vp g) g)) with g by (destruct g; reflexivity). eapply (is_ext m Hm n Hn0); [| |exact Hg]; auto. intros v Bv. cbn [gs_P gs_A]. rewrite andb_false_r. auto.
  Qed.

  Lemma sources_is g q : is m n g q -> (forall v, 1 <= v <= n -> gs_A q v = None) ->
    exists g', forZ 1 (n + 1) (top_source m th) g = Ok g' /\
      is m n g' (mkGS (gs_es q) (fun u => if t_deg (gs_P q u) =? 0 then mkT 0 (t_deg (gs_P q u)) (t_failed (gs_P q u)) else gs_P q u) (fun u => if t_deg (gs_P q u) =? 0 then Some true else None)).
  Proof.
    intros Hg HA.
    destruct (forZ_inv (fun i g => is m n g (mkGS (gs_es q) (fun u => if (u <? i) && (t_deg (gs_P q u) =? 0) then mkT 0 (t_deg (gs_P q u)) (t_failed (gs_P q u)) else gs_P q u)
      (fun u => if (u <? i) && (t_deg (gs_P q u) =? 0) then Some true else None))) 1 (n + 1) (top_source m th) g) as (g' & E' & Hg').
    - lia.
    - eapply (is_ext m Hm n Hn0); [| |exact Hg]; auto. intros v Hv. cbn [gs_P gs_A]. destruct (Z.ltb_spec v 1); [lia|]. auto.
    - intros i g1 Hi Hg1. destruct (top_source_is i g1 _ ltac:(lia) Hg1) as (g2 & E2 & Hg2). exists g2. split; [exact E2|]. eapply (is_ext m Hm n Hn0); [| |exact Hg2]; auto.
      intros v Hv. cbn [gs_P gs_A]. rewrite Z.ltb_irrefl. cbn [andb]. destruct (Z.eqb_spec v i) as [->|Ne].
      + destruct (Z.ltb_spec i (i + 1)); [|lia]. rewrite Z.ltb_irrefl. cbn [andb]. destruct (t_deg (gs_P q i) =? 0); auto.
      + cbn [andb]. destruct (Z.ltb_spec v i), (Z.ltb_spec v (i + 1)); try lia; auto.
    - exists g'. split; [exact E'|]. eapply (is_ext m Hm n Hn0); [| |exact Hg']; auto. intros v Hv. cbn [gs_P gs_A]. destruct (Z.ltb_spec v (n + 1)); [|lia]. auto.
  Qed.

  Lemma run_topsort_spec : (Z.to_nat (Z.max n 1) <= fuel)%nat -> exists g k P, run_topsort m th fr1 fr2 dt1 dt2 dv fuel n blobs = Ok (g, map (fun _ => k) (zrange 0 nr)) /\
    shows_properties n m g P /\ (forall v, 1 <= v <= n -> top_result n (concat blobs) v (P v)) /\ counts n (behind_cycle (concat blobs)) k.
  Proof.
    intros Hf. pose proof Hset as (_ & _ & Lb & Hin). unfold run_topsort. destruct (load_is m Hm n Hn0 top_new blobs Lb Hin) as (g0 & -> & H0). cbn [bind].
    destruct (init_is m Hm n Hn0 th fr1 dt1 g0 _ Hfr1 H0) as (xy & -> & Hxy). cbn [bind].
    destruct (init_is m Hm n Hn0 th fr2 dt2 g0 _ Hfr2 H0) as (xy2 & -> & Hxy2). cbn [bind].
    destruct (indegree_is m Hm n Hn0 th dt1 dv 1 fr1 (Some xy) (fun _ => dt1) g0 _ Ht Hfr1 H0 Hxy) as (r1 & P1 & A1 & -> & H1 & HP1); [lia|exact Hl|]. cbn [bind fst run_call].
    destruct (act_op m Hm n Hn0 (m_serv m) th AAllInactive (r_g r1) _ Ht I H1) as (g2 & -> & H2). cbn [bind].
    destruct (sources_is g2 _ H2) as (g3 & -> & H3); [reflexivity|]. cbn [bind gs_es gs_P gs_A loaded] in *.
    set (q3 := mkGS _ _ _) in H3.
    assert (forall v, 1 <= v <= n -> t_deg (P1 v) = in_degree (concat blobs) v /\ t_order (P1 v) = MAX_DIST /\ t_failed (P1 v) = false) as HP.
    { intros v Bv. rewrite HP1 by auto. unfold in_degree. cbn. split; auto. destruct (Z.eqb_spec (zlen (filter (fun e => e_dst e =? v) (concat blobs))) 0) as [->|]; reflexivity. }
    assert (forall v, 1 <= v <= n -> gs_P q3 v = mkT (if in_degree (concat blobs) v =? 0 then 0 else MAX_DIST) (in_degree (concat blobs) v) false) as QP.
    { intros v Bv. cbn [q3 gs_P]. destruct (HP v Bv) as (E1 & E2 & E3). rewrite E1, E3. destruct (in_degree (concat blobs) v =? 0); [reflexivity|]. destruct (P1 v); cbn in *; congruence. }
    assert (forall v, 1 <= v <= n -> gs_A q3 v = if in_degree (concat blobs) v =? 0 then Some true else None) as QA.
    { intros v Bv. cbn [q3 gs_A]. destruct (HP v Bv) as (-> & _). reflexivity. }
    destruct (run_op_any top_neq m Hm n Hn0 th (mkJ topsort 1 (-1) dt2 dv fuel) fr2 (Some xy2) (fun _ => dt2) g3 q3 Ht Hfr2 H3 Hxy2) as (Y & [(K & r & HK & -> & _ & Hg & _)|[He _]]).
    2:{ exfalso. eapply (top_not_endless n (concat blobs) (conj Hn0 Hn) Hl Hin dv dt2 fuel Y _ q3); eauto. }
    cbn [bind fst]. set (q5 := mkGS _ _ _) in Hg.
    assert (forall v, 1 <= v <= n -> top_result n (concat blobs) v (gs_P q5 v)) as Hres.
    { intros v Bv. cbn [q5 gs_P]. eapply top_done; eauto. }
    destruct (count_is m Hm n Hn0 th top_unreachable (fun v => t_order (gs_P q5 v) =? MAX_DIST) (behind_cycle (concat blobs)) (r_g r) q5 Ht Hn Hg) as (g6 & k & E6 & H6 & Ck).
    - reflexivity.
    - intros v Bv. destruct (Hres v Bv) as [_ [[Em Nr]|(h & _ & Ed & Bh & Nb)]].
      + rewrite Em. split; auto.
      + rewrite Ed. split; [|contradiction]. intros X. apply Z.eqb_eq in X. unfold MAX_DIST in X. lia.
    - exists g6, k, (gs_P q5). split; [exact E6|]. split; [apply (is_properties top_neq m Hm n Hn0 _ _ H6)|]. auto.
  Qed.
End RunTopSort.
