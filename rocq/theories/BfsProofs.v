From Verif Require Import BaseLemmas Layout Reduce ReduceProofs DCSC MatSpec Segment Vec SpMat GraphVert Graph Runtime RunSpec RuntimeProofs GraphOps GraphHist GraphHistProofs Apps AppSpec AppBase.

Section BFS.
  Variables (n s : Z) (es : list (edge Z)).
  Hypothesis Hn : n < 2 ^ 31.
  Hypothesis Hs : 1 <= s <= n.
  Hypothesis Hin : forall e, In e es -> 1 <= e_src e <= n /\ 1 <= e_dst e <= n.
  Variable dv : bfs_vertex.
  Notation walk := (walk es). Notation hop := (hop_distance es s).

  Lemma hop_unique v h h' : hop v h -> hop v h' -> h = h'.
  Proof. intros [(w & W) M] [(w' & W') M']. pose proof (M _ _ W'). pose proof (M' _ _ W). lia. Qed.
  Lemma hop_range v h : hop v h -> 1 <= v <= n.
  Proof. intros [(w & W) _]. inversion W; subst; auto. apply Hin; auto. Qed.
  Lemma hop_source : hop s 0.
  Proof. split; [exists 0; constructor|intros; lia]. Qed.
  Lemma hop_zero v : hop v 0 -> v = s.
  Proof. intros [(w & W) _]. inversion W; auto. Qed.
  (** a vertex at distance [h + 1] has an in-neighbour at distance [h] *)
  Lemma hop_back v h : hop v (S h) -> exists e, In e es /\ e_dst e = v /\ hop (e_src e) h.
  Proof.
    intros [(w & W) M]. inversion W as [|w0 h0 e W0 He]; subst. exists e. split; auto. split; auto. split; [eauto|]. intros w' h' W'.
    pose proof (M _ _ (walk_edge es s _ _ e W' He)). lia.
  Qed.
  Lemma hop_levels v h : hop v h -> forall i, (i <= h)%nat -> exists x, 1 <= x <= n /\ hop x i.
  Proof.
    revert v. induction h as [|h IH]; intros v H i Hi.
    - replace i with O by lia. exists v. split; auto. eapply hop_range; eauto.
    - destruct (Nat.eq_dec i (S h)) as [->|]; [exists v; split; auto; eapply hop_range; eauto|]. destruct (hop_back v h H) as (e & _ & _ & He). apply (IH _ He). lia.
  Qed.
  Lemma hop_lt v h : hop v h -> Z.of_nat h < n.
  Proof.
    intros H. pose proof (levels_bound (fun i x => hop x i) n (S h)) as B. specialize (B ltac:(lia)). specialize (B (fun i j x => hop_unique x i j)).
    specialize (B ltac:(intros i Hi; apply (hop_levels v h H); lia)). lia.
  Qed.

  (** the state after [k] supersteps *)
  Definition binv (k : nat) (S : @vstate Z Z bfs_vertex) : Prop :=
    v_s S = u32 (Z.of_nat k + 1) /\
    forall v, 1 <= v <= n -> (b_id (v_P S v) = v /\ (b_depth (v_P S v) = MAX_DIST \/ v = s -> b_parent (v_P S v) = 2 ^ 64 - 1)) /\
      (b_depth (v_P S v) = MAX_DIST -> forall w h, walk s v w h -> (k < h)%nat) /\
      (b_depth (v_P S v) <> MAX_DIST -> exists h, (h <= k)%nat /\ hop v h /\ b_depth (v_P S v) = Z.of_nat h /\
         (v <> s -> exists e, In e es /\ e_dst e = v /\ b_parent (v_P S v) = e_src e /\ exists h', h = Datatypes.S h' /\ hop (e_src e) h')) /\
      (v_A S v = Some true <-> hop v k) /\ (v_A S v <> Some true -> v_A S v = None).

  Lemma msg S x t k : binv k S -> 1 <= x <= n -> message bfs S x = Some t -> t = x /\ hop x k.
  Proof.
    intros [_ H] Bx Hm. destruct (H x Bx) as ([I _] & _ & _ & A1 & A2). unfold message in Hm. destruct (v_A S x) as [[]|] eqn:EA; try discriminate.
    - injection Hm as <-. cbn. rewrite I. split; auto. apply A1; auto.
    - specialize (A2 ltac:(congruence)). discriminate.
  Qed.
  Lemma msg_hop S x k : binv k S -> hop x k -> message bfs S x = Some x.
  Proof.
    intros [_ H] Hx. pose proof (hop_range x k Hx) as Bx. destruct (H x Bx) as ([I _] & _ & _ & A1 & A2). unfold message. rewrite (proj2 A1 Hx). cbn. rewrite I. reflexivity.
  Qed.

  Lemma binv_step k S Yk : binv k S -> Z.of_nat k < n -> (forall v, 1 <= v <= n -> combined_of (pr_reduce bfs (v_s S)) (received es bfs dv S v) (Yk v)) ->
    binv (Datatypes.S k) (step_with bfs bfs_neq Yk (Z.of_nat k) S).
  Proof.
    intros HI Hk HY. pose proof HI as [Hsv HV]. split.
    - cbn [step_with v_s pr_every bfs]. rewrite Hsv. unfold u32. rewrite Z.add_mod_idemp_l by lia. f_equal. lia.
    - intros v Bv. destruct (HV v Bv) as (I & D0 & D1 & A1 & A2). specialize (HY v Bv).
      assert (v_s S = Z.of_nat k + 1) as Es by (rewrite Hsv; unfold u32; apply Z.mod_small; lia).
      (* an unreached vertex at distance k + 1 hears from a vertex at distance k *)
      assert (b_depth (v_P S v) = MAX_DIST -> forall w, walk s v w (Datatypes.S k) -> received es bfs dv S v <> []) as Hear.
      { intros Hmax w W. inversion W as [|w0 h0 e W0 He Hd]; subst. assert (hop (e_src e) k) as He'.
        { split; [eauto|]. intros w' h' W'. pose proof (D0 Hmax _ _ (walk_edge es s _ _ e W' He)). lia. }
        intros Hnil. assert (In (e_src e) []) as []. rewrite <- Hnil. apply received_out; auto. exists e, (e_src e). repeat (split; auto). apply (msg_hop S _ k HI He'). }
      cbn [step_with v_P v_A]. unfold updated_with, changed_with. destruct (Yk v) as [u|] eqn:EY; cbn [combined_of] in HY.
      + apply combination_in in HY; [|intros a b; right; reflexivity]. apply received_out in HY as (e & t & He & Hd & Ht & Eu); auto. cbn in Eu. subst t.
        destruct (msg S _ _ k HI (proj1 (Hin e He)) Ht) as [Eu Hh]. subst u. cbn [pr_apply bfs pr_all_vertices orb].
        destruct (Z.eqb_spec (b_depth (v_P S v)) MAX_DIST) as [Em|Nm].
        * assert (hop v (Datatypes.S k)) as Hv.
          { destruct Hh as [(w & W) _]. split; [exists (w + e_val e); rewrite <- Hd; constructor; auto|]. intros w' h' W'. pose proof (D0 Em _ _ W'). lia. }
          cbn [b_id b_depth b_parent]. assert (v_s S <> MAX_DIST) as Ns by (unfold MAX_DIST; lia). split; [split; [tauto|]|].
          { intros [Q|Q]; [contradiction|]. subst v. rewrite Q in *. pose proof (D0 Em 0 O (walk_here es s)). lia. }
          split; [|split; [|split]].
          -- intros; contradiction.
          -- intros _. exists (Datatypes.S k). split; [lia|]. split; auto. split; [lia|]. intros _. exists e. split; auto. split; auto. split; auto. exists k. auto.
          -- unfold bfs_neq. cbn [b_depth]. rewrite Em. destruct (Z.eqb_spec MAX_DIST (v_s S)); [congruence|]. cbn [negb]. split; auto.
          -- unfold bfs_neq. cbn [b_depth]. rewrite Em. destruct (Z.eqb_spec MAX_DIST (v_s S)); [congruence|]. cbn [negb]. congruence.
        * unfold bfs_neq. rewrite Z.eqb_refl. cbn [negb]. destruct (D1 Nm) as (h & B & R). split; [auto|]. split; [intros; contradiction|]. split; [|split].
          -- intros _. exists h. split; [lia|exact R].
          -- split; [discriminate|]. intros Hv. destruct R as [R _]. pose proof (hop_unique _ _ _ Hv R). lia.
          -- reflexivity.
      + split; [exact I|]. split; [|split; [|split]].
        * intros Hmax w h W. pose proof (D0 Hmax w h W). destruct (Nat.eq_dec h (Datatypes.S k)) as [->|]; [|lia]. exfalso. apply (Hear Hmax w W). exact HY.
        * intros Hne. destruct (D1 Hne) as (h & B & R). exists h. split; [lia|exact R].
        * split; [discriminate|]. intros Hh. exfalso. destruct (Z.eq_dec (b_depth (v_P S v)) MAX_DIST) as [Em|Nm].
          -- destruct Hh as [(w & W) _]. exact (Hear Em w W HY).
          -- destruct (D1 Nm) as (h & B & R & _). pose proof (hop_unique _ _ _ Hh R). lia.
        * reflexivity.
  Qed.

  Variables (dt : Z) (fuel : nat) (Y : nat -> Z -> option Z) (C : Z -> Z) (q : gspec bfs_vertex Z).
  Notation jb := (mkJ bfs 1 (-1) dt dv fuel).
  Notation st k := (job_after_with bfs_neq jb Y C q k).
  Hypothesis Qe : gs_es q = es.
  Hypothesis QP : forall v, 1 <= v <= n -> gs_P q v = mkB (if v =? s then 0 else MAX_DIST) (2 ^ 64 - 1) v.
  Hypothesis QA : forall v, 1 <= v <= n -> gs_A q v = if v =? s then Some true else None.


  Lemma binv_0 : binv 0 (st 0).
  Proof.
    split; [reflexivity|]. intros v Bv. unfold job_after_with, after_with, begin, start. cbn [v_P v_A j_pg bfs pr_all_vertices]. rewrite (QP v Bv), (QA v Bv). cbn [b_id b_depth b_parent].
    split; [split; auto|]. destruct (Z.eqb_spec v s) as [->|Ne].
    - split; [intros H; discriminate H|]. split; [|split; [|congruence]].
      + intros _. exists O. split; auto. split; [apply hop_source|]. split; auto. congruence.
      + split; auto. intros _. apply hop_source.
    - split; [|split; [congruence|]].
      + intros _ w h W. destruct h; [|lia]. inversion W. congruence.
      + split; [|reflexivity]. split; [discriminate|]. intros H. exfalso. apply Ne, hop_zero; auto.
  Qed.
  Lemma binv_at K : job_reduces bfs_neq n jb Y C q K -> Z.of_nat K <= n -> forall k, (k <= K)%nat -> binv k (st k).
  Proof.
    intros Hr HK. apply (job_inv bfs_neq n jb Y C q K binv Hr); [apply binv_0|]. intros k Hk HI HY. unfold job_received in HY. cbn [j_pg j_dv] in HY. rewrite Qe in HY.
    change (st (S k)) with (step_with bfs bfs_neq (Y k) (Z.of_nat k) (st k)). apply binv_step; auto. lia.
  Qed.
  (** a superstep that changes a vertex reaches a new level *)
  Lemma not_end k : binv (S k) (st (S k)) -> ~ job_ends_with bfs_neq n jb Y C q (S k) -> exists v, 1 <= v <= n /\ hop v (S k).
  Proof.
    intros HI He. unfold job_ends_with, ends_with in He. cbn [j_iterations j_pg] in He.
    destruct (not_converged bfs_neq n bfs (Y k) (st k)) as (v & Bv & Hc).
    - intros Hc. apply He. right. split; [lia|]. replace (S k - 1)%nat with k by lia. exact Hc.
    - exists v. split; auto. destruct HI as [_ HI]. destruct (HI v Bv) as (_ & _ & _ & A1 & _). apply A1.
      change (st (S k)) with (step_with bfs bfs_neq (Y k) (Z.of_nat k) (st k)). cbn [step_with v_A bfs pr_all_vertices orb]. fold bfs. rewrite Hc. reflexivity.
  Qed.
  Lemma bfs_not_endless : (Z.to_nat n <= fuel)%nat -> ~ job_endless_with bfs_neq n jb Y C q.
  Proof.
    intros Hf [Hr He]. cbn [j_fuel] in *.
    assert (job_reduces bfs_neq n jb Y C q (Z.to_nat n)) as Hr' by (intros k v Hk; apply Hr; lia).
    destruct (not_end (Z.to_nat n - 1)) as (v & Bv & Hv).
    - replace (S (Z.to_nat n - 1)) with (Z.to_nat n) by lia. apply (binv_at (Z.to_nat n)); auto; lia.
    - replace (S (Z.to_nat n - 1)) with (Z.to_nat n) by lia. apply He. lia.
    - pose proof (hop_lt v _ Hv). lia.
  Qed.

  (** what is in the graph when the run ends *)
  Definition bfs_result (v : Z) (p : bfs_vertex) : Prop :=
    (b_depth p = MAX_DIST /\ b_parent p = 2 ^ 64 - 1 /\ ~ reachable es s v) \/
    (exists h, hop v h /\ b_depth p = Z.of_nat h /\ Z.of_nat h < n /\ (v = s -> b_parent p = 2 ^ 64 - 1) /\
       (v <> s -> exists e h', In e es /\ e_dst e = v /\ b_parent p = e_src e /\ hop (e_src e) h' /\ h = S h')).
  Lemma bfs_done K : job_takes_with bfs_neq n jb Y C q K -> forall v, 1 <= v <= n -> bfs_result v (v_P (st K) v).
  Proof.
    intros (BK & Hr & He & Hne).
    assert (forall k, (1 <= k <= K)%nat -> Z.of_nat k <= n) as HK.
    { induction k as [|k IH]; intros Bk; [lia|]. destruct k as [|k]; [lia|]. specialize (IH ltac:(lia)).
      assert (binv (S k) (st (S k))) as HI. { apply (binv_at (S k)); auto. intros k' v Hk'. apply Hr. lia. }
      destruct (not_end k HI (Hne (S k) ltac:(lia))) as (v & Bv & Hv). pose proof (hop_lt v _ Hv). lia. }
    assert (binv K (st K)) as HI by (apply (binv_at K); auto; apply HK; lia).
    assert (forall v, 1 <= v <= n -> ~ hop v K) as Hno.
    { intros v Bv Hv. destruct He as [He|[_ He]]; [cbn in He; lia|]. destruct HI as [_ HI]. destruct (HI v Bv) as (_ & _ & _ & A1 & _). apply A1 in Hv.
      destruct K as [|k]; [lia|]. replace (S k - 1)%nat with k in He by lia.
      change (st (S k)) with (step_with bfs bfs_neq (Y k) (Z.of_nat k) (st k)) in Hv. cbn [step_with v_A] in Hv.
      pose proof (converged_changed bfs_neq n bfs (Y k) (st k) v He Bv) as Hcc. rewrite Hcc in Hv. cbn in Hv. discriminate. }
    destruct HI as [_ HI]. assert (forall v w h, walk s v w h -> 1 <= v <= n /\ b_depth (v_P (st K) v) <> MAX_DIST) as Hreach.
    { induction 1 as [|w h e W IH He'].
      - split; auto. intros Hm. destruct (HI s Hs) as (_ & D0 & _). pose proof (D0 Hm 0 O (walk_here es s)). lia.
      - destruct IH as [Bx Nx]. destruct (Hin e He') as [_ Bd]. split; auto. intros Hm. destruct (HI _ Bx) as (_ & _ & D1 & _). destruct (D1 Nx) as (h1 & B1 & R1 & _).
        destruct (Nat.eq_dec h1 K) as [->|]; [exact (Hno _ Bx R1)|]. destruct (HI _ Bd) as (_ & D0 & _). destruct R1 as [(w1 & W1) _].
        pose proof (D0 Hm _ _ (walk_edge es s _ _ e W1 He')). lia. }
    intros v Bv. destruct (HI v Bv) as ([_ Hpar] & D0 & D1 & _). destruct (Z.eq_dec (b_depth (v_P (st K) v)) MAX_DIST) as [Em|Nm].
    - left. split; auto. split; auto. intros (w & h & W). destruct (Hreach v w h W) as [_ N]. contradiction.
    - right. destruct (D1 Nm) as (h & B & Hh & Ed & Hp). exists h. split; auto. split; auto. split; [eapply hop_lt; eauto|]. split; [auto|].
      intros Nv. destruct (Hp Nv) as (e & He' & Hd & Hpa & h' & -> & Hh'). exists e, h'. auto.
  Qed.
End BFS.

Section RunBFS.
  Context {byte : Type}.
  Variable m : machine bfs_vertex Z byte.
  Variables (n s : Z) (blobs : list (list (edge Z))).
  Hypothesis Hset : setting m n blobs.
  Hypothesis Hn : n < 2 ^ 31.
  Hypothesis Hs : 1 <= s <= n.
  Variables (th : Z) (fr : frame Z Z byte) (dt : Z) (dv : bfs_vertex) (fuel : nat).
  Hypothesis Ht : threads_ok m (m_serv m) th.
  Hypothesis Hfr : frame_ok m th fr.

  Lemma run_bfs_spec : (Z.to_nat n <= fuel)%nat -> exists g k P, run_bfs m th fr dt dv fuel n blobs s = Ok (g, map (fun _ => k) (zrange 0 (m_nr m))) /\
    shows_properties n m g P /\ (forall v, 1 <= v <= n -> bfs_result n s (concat blobs) v (P v)) /\ counts n (reachable (concat blobs) s) k.
  Proof.
    intros Hf. destruct Hset as (Hm & Hn0 & Lb & Hin). unfold run_bfs. destruct (load_is m Hm n Hn0 bfs_new blobs Lb Hin) as (g0 & -> & H0). cbn [bind].
    unfold forZ at 1. rewrite Z.sub_0_r.
    destruct (each_is m Hm n Hn0 (fun i g => modify m th i bfs_new (fun p => mkB (b_depth p) (b_parent p) i) g) (fun i p => mkB (b_depth p) (b_parent p) i) g0 _ H0) as (g1 & E1 & H1).
    { intros i g q Bi Hg. apply (modify_is bfs_neq m Hm n Hn0 th i bfs_new (fun p => mkB (b_depth p) (b_parent p) i) g q Ht Bi Hg). }
    rewrite (forZ_shift (fun i g => modify m th i bfs_new (fun p => mkB (b_depth p) (b_parent p) i) g)).
    unfold forZ in E1. replace (n + 1 - 1) with n in E1 by lia. change (0 + 1) with 1. rewrite E1. cbn [bind].
    destruct (init_is m Hm n Hn0 th fr dt g1 _ Hfr H1) as (xy & -> & Hxy). cbn [bind run_call].
    destruct (act_op m Hm n Hn0 (m_serv m) th AAllInactive g1 _ Ht I H1) as (g2 & -> & H2). cbn [bind].
    destruct (modify_is bfs_neq m Hm n Hn0 th s bfs_new (fun p => mkB 0 (b_parent p) (b_id p)) g2 _ Ht Hs H2) as (g3 & -> & H3). cbn [bind].
    destruct (act_op m Hm n Hn0 (m_serv m) th (AActive s) g3 _ Ht Hs H3) as (g4 & -> & H4). cbn [bind gs_es gs_P gs_A loaded] in *.
    set (q4 := mkGS _ _ _) in H4.
    assert (forall v, 1 <= v <= n -> gs_P q4 v = mkB (if v =? s then 0 else MAX_DIST) (2 ^ 64 - 1) v) as QP.
    { intros v _. cbn [q4 gs_P]. destruct (Z.eqb_spec v s) as [->|]; reflexivity. }
    assert (forall v, 1 <= v <= n -> gs_A q4 v = if v =? s then Some true else None) as QA by (intros; reflexivity).
    destruct (run_op_any bfs_neq m Hm n Hn0 th (mkJ bfs 1 (-1) dt dv fuel) fr (Some xy) (fun _ => dt) g4 q4 Ht Hfr H4 Hxy) as (Y & [(K & r & HK & -> & _ & Hr & _)|[He _]]).
    2:{ exfalso. eapply (bfs_not_endless n s (concat blobs) Hn Hs Hin dv dt fuel Y _ q4); eauto. }
    cbn [bind fst]. set (q5 := mkGS _ _ _) in Hr.
    assert (forall v, 1 <= v <= n -> bfs_result n s (concat blobs) v (gs_P q5 v)) as Hres.
    { intros v Bv. cbn [q5 gs_P]. eapply bfs_done; eauto. }
    destruct (count_is m Hm n Hn0 th bfs_reachable (fun v => b_depth (gs_P q5 v) <? MAX_DIST) (reachable (concat blobs) s) (r_g r) q5 Ht Hn Hr) as (g6 & k & E6 & H6 & Ck).
    - reflexivity.
    - intros v Bv. destruct (Hres v Bv) as [(Em & _ & Nr)|(h & [(w & W) _] & Ed & Bh & _)].
      + rewrite Em. split; [discriminate|contradiction].
      + rewrite Ed. split; [intros _; exists w, h; auto|]. intros _. apply Z.ltb_lt. unfold MAX_DIST. lia.
    - exists g6, k, (gs_P q5). split; [exact E6|]. split; [apply (is_properties bfs_neq m Hm n Hn0 _ _ H6)|]. auto.
  Qed.
End RunBFS.
