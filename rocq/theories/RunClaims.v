(** The claims about running vertex programs, proved from the refinement. *)
From Verif Require Import BaseLemmas Layout LayoutProofs Reduce ReduceProofs Segment DCSC MatSpec Vec VecProofs SpMat GraphVert GraphVertProofs Graph GraphProofs Runtime RunSpec RuntimeProofs GraphOps GraphHist GraphHistProofs RunFinal RunCong.

Section Claims.
  Context {V E byte : Type}.
  Variable neq : V -> V -> bool.
  Variable m : machine V E byte.
  Variable n : Z.
  Notation gr := (graph V E byte).
  Notation isq := (is m n).

  Lemma is_observed (Hm : machine_ok m) (Hn : 0 <= n) (g : gr) q : isq g q -> observed_as neq m n g q.
  Proof.
    intros Hg. split; [apply is_properties; auto|]. split; [eapply is_edges; eauto|].
    intros S T U th jb fr r k [Ht [Hj Hf]] Er.
    destruct (run_op neq m Hm n Hn th jb fr None (fun _ => j_dt jb) g q Ht Hj Hf Hg eq_refl) as [(K & r' & Tk & Er' & _ & Hg' & _ & Lg)|[_ Er']]; rewrite Er in Er'; [|discriminate].
    injection Er' as <- ->. destruct (calls_counted neq m n Hm Hn jb _ q K (r_g r) _ (r_log r) Hg' Lg) as (bs & Hb & Hc).
    exists K, bs. auto.
  Qed.

  (** a finished run, with or without temporaries *)
  Lemma temps_rep (Hm : machine_ok m) (Hn : 0 <= n) {T U} sert seru (xy : list (list (seg T byte)) * list (list (seg U byte))) : temporaries neq m n sert seru xy ->
    exists C, trep sert seru n (m_nr m) (m_nt m) (fst xy) (snd xy) C.
  Proof.
    induction 1 as [th fr dt xy Hf <- <- En|S dv blobs h g q th jb fr xy r k Hs <- <- Ht IH Er].
    - destruct Hf as (Ft & Fu & _ & _). destruct Hm as (Hr & Hnt & _).
      destruct (@new_temps_spec T U unit byte (f_sert fr) (f_seru fr) n (m_nr m) (m_nt m) th Hn Hr Ft Fu (f_tjunk fr) (f_ujunk fr) (f_tfresh fr) (f_ufresh fr) dt (f_du fr) tt (fun _ _ => true)) as (x & y & Exy & Rp).
      rewrite Exy in En. injection En as <-. eexists. exact Rp.
    - destruct IH as (C & Rp). destruct Hs as (Hset & Hok & Hre & Hme & Hc). destruct Hc as [Ht' [Hj Hf]].
      pose proof (reach_is neq m dv n blobs Hset h g q Hok Hre Hme) as Hg.
      destruct (run_op neq m Hm n Hn th jb fr (Some xy) C g q Ht' Hj Hf Hg Rp) as [(K & r' & _ & Er' & _ & _ & Rp' & _)|[_ Er']]; rewrite Er in Er'; [|discriminate].
      injection Er' as <- ->. eexists. exact Rp'.
  Qed.

  Section Situation.
    Context {S T U : Type}.
    Variables (dv : V) (blobs : list (list (edge E))) (h : list (Z * gcall V E byte)) (g : gr) (q : gspec V E) (th : Z) (jb : job S T U V E) (fr : frame T U byte).
    Hypothesis Hsit : situation neq m dv n blobs h g q th jb fr.
    Let Hm : machine_ok m. Proof. apply Hsit. Qed.
    Let Hn : 0 <= n. Proof. apply Hsit. Qed.
    Notation C0 := (fun _ : Z => j_dt jb).
    Notation st := (job_after neq jb C0 q).
    Notation ended K := (mkGS (gs_es q) (v_P (st K)) (v_A (st K))).

    Lemma sit_is : isq g q.
    Proof. destruct Hsit as (Hset & Hok & Hre & Hme & _). eapply reach_is; eauto. Qed.

    Lemma sit_run : (exists K r bs, job_takes neq n jb C0 q K /\ run_job neq m th jb fr None g = Ok (r, Z.of_nat K) /\ r_s r = v_s (st K) /\
        isq (r_g r) (ended K) /\ split_log m (r_g r) (r_log r) K bs /\ calls_match neq n jb C0 q K bs) \/
      (job_endless neq n jb C0 q /\ run_job neq m th jb fr None g = Err NoFuel).
    Proof.
      pose proof Hsit as (_ & _ & _ & _ & [Ht [Hj Hf]]).
      destruct (run_op neq m Hm n Hn th jb fr None C0 g q Ht Hj Hf sit_is eq_refl) as [(K & r & Tk & Er & Es & Hg' & _ & Lg)|X]; [left|right; exact X].
      destruct (calls_counted neq m n Hm Hn jb _ q K (r_g r) _ (r_log r) Hg' Lg) as (bs & Hb & Hc). exists K, r, bs. auto 10.
    Qed.
    Lemma sit_ran r k : run_job neq m th jb fr None g = Ok (r, k) -> exists K bs, k = Z.of_nat K /\ job_takes neq n jb C0 q K /\ r_s r = v_s (st K) /\
        isq (r_g r) (ended K) /\ split_log m (r_g r) (r_log r) K bs /\ calls_match neq n jb C0 q K bs.
    Proof.
      intros Er. destruct sit_run as [(K & r' & bs & Tk & Er' & H)|[_ Er']]; rewrite Er in Er'; [|discriminate]. injection Er' as <- ->. exists K, bs. auto.
    Qed.

    (** C05 *)
    Lemma run_observed r k : run_job neq m th jb fr None g = Ok (r, k) ->
      exists K bs, k = Z.of_nat K /\ (1 <= K)%nat /\ observed_as neq m n (r_g r) (ended K) /\ r_s r = v_s (st K) /\
        split_log m (r_g r) (r_log r) K bs /\ calls_match neq n jb C0 q K bs /\
        (forall v, v_P (st 0) v = gs_P q v) /\
        forall i v, (i < K)%nat -> v_P (st (Datatypes.S i)) v =
          match red (pr_reduce (j_pg jb) (v_s (st i))) (received (gs_es q) (j_pg jb) (j_dv jb) (st i) v) with
          | Some u => pr_apply (j_pg jb) (v_s (st i)) u (v_P (st i) v)
          | None => v_P (st i) v
          end.
    Proof.
      intros Er. destruct (sit_ran r k Er) as (K & bs & -> & Tk & Es & Hg & Sl & Cm). exists K, bs. split; [auto|]. split; [apply Tk|]. split; [apply is_observed; auto|]. split; [auto|].
      split; [auto|]. split; [auto|]. split; reflexivity.
    Qed.

    Lemma received_nil (q0 : @vstate S T V) es v : received es (j_pg jb) (j_dv jb) q0 v <> [] <-> exists u, edge_to (pr_order (j_pg jb)) es u v /\ v_A q0 u <> None.
    Proof.
      assert (forall f, arriving es (j_pg jb) (j_dv jb) q0 f v <> [] <-> exists e, In e es /\ snd (f e) = v /\ v_A q0 (fst (f e)) <> None) as Arr.
      { intros f. unfold arriving. split.
        - intros H. destruct (flat_map _ es) as [|x l] eqn:Ef in H; [congruence|]. assert (In x (flat_map (fun e => if snd (f e) =? v then
                match message (j_pg jb) q0 (fst (f e)) with Some t => [pr_process (j_pg jb) (v_s q0) t (e_val e) (seen (j_pg jb) (j_dv jb) q0 v)] | None => [] end else []) es)) as Hx by (rewrite Ef; simpl; auto).
          apply in_flat_map in Hx as (e & He & Hx). exists e. split; auto. destruct (Z.eqb_spec (snd (f e)) v); [|destruct Hx]. split; auto. unfold message in Hx. destruct (v_A q0 (fst (f e))); [discriminate|destruct Hx].
        - intros (e & He & Ev & Ea). intros X. destruct (message (j_pg jb) q0 (fst (f e))) as [t|] eqn:Em; [|unfold message in Em; destruct (v_A q0 (fst (f e))) as [[|]|]; congruence].
          assert (In (pr_process (j_pg jb) (v_s q0) t (e_val e) (seen (j_pg jb) (j_dv jb) q0 v)) []) as []. rewrite <- X. apply in_flat_map. exists e. split; auto. rewrite Ev, Z.eqb_refl, Em. simpl. auto. }
      unfold received, edge_to. destruct (pr_order (j_pg jb)).
      - rewrite Arr. split; [intros (e & He & Ev & Ea); exists (e_src e); split; auto; exists e; auto|]. intros (u & (e & He & <- & <-) & Ha). exists e. auto.
      - rewrite Arr. split; [intros (e & He & Ev & Ea); exists (e_dst e); split; auto; exists e; auto|]. intros (u & (e & He & <- & <-) & Ha). exists e. auto.
      - assert (forall a b : list U, a ++ b <> [] <-> a <> [] \/ b <> []) as App.
        { intros a b. split; [intros H; destruct a; [right; auto|left; discriminate]|intros [H|H] X; apply app_eq_nil in X; tauto]. }
        rewrite App, !Arr. split.
        + intros [(e & He & Ev & Ea)|(e & He & Ev & Ea)]; [exists (e_src e)|exists (e_dst e)]; split; auto; exists e; auto.
        + intros (u & (e & He & [[<- <-]|[<- <-]]) & Ha); [left|right]; exists e; auto.
    Qed.
    Lemma nil_count (q0 : @vstate S T V) es v (a : nat) : a = (if in1 n v && negb (is_nil (received es (j_pg jb) (j_dv jb) q0 v)) then 1 else 0)%nat -> 1 <= v <= n ->
      (a = 1%nat <-> exists u, edge_to (pr_order (j_pg jb)) es u v /\ v_A q0 u <> None) /\ (a <> 1%nat -> a = 0%nat).
    Proof.
      intros -> Bv. rewrite (proj2 (in1_iff n v) Bv). cbn [andb]. rewrite <- received_nil. destruct (received es (j_pg jb) (j_dv jb) q0 v); cbn [is_nil negb]; split; try tauto; split; intros; try congruence; try lia.
    Qed.

    Lemma run_one : j_iterations jb = 1 -> (1 <= j_fuel jb)%nat -> (forall v, gs_A q v <> Some false) ->
      exists r bs P' A', run_job neq m th jb fr None g = Ok (r, 1) /\ split_log m (r_g r) (r_log r) 1 bs /\ observed_as neq m n (r_g r) (mkGS (gs_es q) P' A') /\
        r_s r = pr_every (j_pg jb) 0 (j_s jb) /\
        forall w, 1 <= w <= n -> times bs 0 (Sent w) = (if sends jb q w then 1 else 0)%nat /\
          match red (pr_reduce (j_pg jb) (j_s jb)) (inbox jb q w) with
          | Some u => times bs 0 (Applied w) = 1%nat /\ P' w = pr_apply (j_pg jb) (j_s jb) u (gs_P q w)
          | None => inbox jb q w = [] /\ times bs 0 (Applied w) = 0%nat /\ P' w = gs_P q w
          end.
    Proof.
      intros Hi Hf HA. assert (job_takes neq n jb C0 q 1) as T1. { split; [lia|]. split; [left; rewrite Hi; reflexivity|lia]. }
      destruct sit_run as [(K & r & bs & Tk & Er & Es & Hg & Sl & Cm)|[Ed _]]; [|exfalso; eapply takes_endless; eauto].
      assert (K = 1%nat) as -> by (eapply takes_unique; eauto). exists r, bs, (v_P (st 1)), (v_A (st 1)). split; [exact Er|]. split; [auto|]. split; [apply is_observed; auto|]. split; [exact Es|].
      assert (forall u, message (j_pg jb) (st 0) u = if sends jb q u then Some (fst (pr_send (j_pg jb) (j_s jb) (gs_P q u) (j_dt jb))) else None) as Msg.
      { intros u. unfold message, sends, job_after. cbn. destruct (pr_all_vertices (j_pg jb)); cbn [orb]; [reflexivity|]. destruct (gs_A q u) as [[|]|] eqn:Ea; cbn; auto. exfalso. eapply HA; eauto. }
      assert (forall w, received (gs_es q) (j_pg jb) (j_dv jb) (st 0) w = inbox jb q w) as Rec.
      { intros w. assert (forall f, arriving (gs_es q) (j_pg jb) (j_dv jb) (st 0) f w = flat_map (fun e => if (snd (f e) =? w) && sends jb q (fst (f e)) then [processed jb q (fst (f e)) w (e_val e)] else []) (gs_es q)) as Arr.
        { intros f. unfold arriving. apply flat_map_ext. intros e. destruct (snd (f e) =? w); cbn [andb]; auto. rewrite Msg. destruct (sends jb q (fst (f e))); auto. }
        unfold received, inbox. rewrite !Arr. reflexivity. }
      intros w Bw. destruct (Cm 0%nat w ltac:(lia)) as [Cs Ca]. rewrite (proj2 (in1_iff n w) Bw) in *. cbn [andb] in *. rewrite Rec in Ca. split.
      - rewrite Cs. unfold sends, job_after. cbn. destruct (pr_all_vertices (j_pg jb)); auto.
      - change (v_P (st 1) w) with (match red (pr_reduce (j_pg jb) (j_s jb)) (received (gs_es q) (j_pg jb) (j_dv jb) (st 0) w) with Some u => pr_apply (j_pg jb) (j_s jb) u (gs_P q w) | None => gs_P q w end).
        rewrite Rec. destruct (inbox jb q w) as [|x l]; cbn [red]; auto.
    Qed.

    Lemma run_fresh : j_iterations jb = 1 -> (1 <= j_fuel jb)%nat -> pr_all_vertices (j_pg jb) = false -> (forall v, gs_A q v = Some false) ->
      exists r bs P' A', run_job neq m th jb fr None g = Ok (r, 1) /\ split_log m (r_g r) (r_log r) 1 bs /\ observed_as neq m n (r_g r) (mkGS (gs_es q) P' A') /\
        r_s r = pr_every (j_pg jb) 0 (j_s jb) /\
        forall w, 1 <= w <= n -> times bs 0 (Sent w) = 0%nat /\
          match red (pr_reduce (j_pg jb) (j_s jb)) (fresh_inbox jb q w) with
          | Some u => times bs 0 (Applied w) = 1%nat /\ P' w = pr_apply (j_pg jb) (j_s jb) u (gs_P q w)
          | None => fresh_inbox jb q w = [] /\ times bs 0 (Applied w) = 0%nat /\ P' w = gs_P q w
          end.
    Proof.
      intros Hi Hf Hna HA. assert (job_takes neq n jb C0 q 1) as T1. { split; [lia|]. split; [left; rewrite Hi; reflexivity|lia]. }
      destruct sit_run as [(K & r & bs & Tk & Er & Es & Hg & Sl & Cm)|[Ed _]]; [|exfalso; eapply takes_endless; eauto].
      assert (K = 1%nat) as -> by (eapply takes_unique; eauto). exists r, bs, (v_P (st 1)), (v_A (st 1)). split; [exact Er|]. split; [auto|]. split; [apply is_observed; auto|]. split; [exact Es|].
      assert (forall w, received (gs_es q) (j_pg jb) (j_dv jb) (st 0) w = fresh_inbox jb q w) as Rec.
      { intros w. assert (forall f, arriving (gs_es q) (j_pg jb) (j_dv jb) (st 0) f w = flat_map (fun e => if snd (f e) =? w then [fresh_processed jb q w (e_val e)] else []) (gs_es q)) as Arr.
        { intros f. unfold arriving. apply flat_map_ext. intros e. destruct (snd (f e) =? w); auto. unfold message, job_after. cbn. rewrite Hna, HA. reflexivity. }
        unfold received, fresh_inbox. rewrite !Arr. reflexivity. }
      intros w Bw. destruct (Cm 0%nat w ltac:(lia)) as [Cs Ca]. rewrite (proj2 (in1_iff n w) Bw) in *. cbn [andb] in *. rewrite Rec in Ca. split.
      - rewrite Cs. unfold job_after. cbn. rewrite Hna, HA. reflexivity.
      - change (v_P (st 1) w) with (match red (pr_reduce (j_pg jb) (j_s jb)) (received (gs_es q) (j_pg jb) (j_dv jb) (st 0) w) with Some u => pr_apply (j_pg jb) (j_s jb) u (gs_P q w) | None => gs_P q w end).
        rewrite Rec. destruct (fresh_inbox jb q w) as [|x l]; cbn [red]; auto.
    Qed.

    (** C06 *)
    Lemma run_count_pos N : j_iterations jb = Z.of_nat N -> (1 <= N <= j_fuel jb)%nat -> exists r, run_job neq m th jb fr None g = Ok (r, Z.of_nat N).
    Proof.
      intros En BN. assert (forall K, job_ends neq n jb C0 q K <-> K = N) as He.
      { intros K. unfold job_ends, ends. rewrite En. split; [intros [H|[H _]]; lia|intros ->; left; auto]. }
      destruct sit_run as [(K & r & bs & Tk & Er & _)|[Ed _]].
      - destruct Tk as (_ & H & _). apply He in H as ->. eauto.
      - exfalso. apply (Ed N BN). apply He. auto.
    Qed.
    Notation changes := (changes neq jb q).
    Lemma changes_iff i v : changes i v <-> changed (gs_es q) (j_pg jb) neq (j_dv jb) (st i) v = true.
    Proof.
      unfold GraphHist.changes, changed. change (v_P (st (Datatypes.S i)) v) with (updated (gs_es q) (j_pg jb) (j_dv jb) (st i) v). unfold updated, combined.
      destruct (received (gs_es q) (j_pg jb) (j_dv jb) (st i) v) as [|u us]; cbn [red]; [split; [intros [H _]; congruence|discriminate]|]. split; [tauto|]. intros ->. split; [discriminate|auto].
    Qed.
    Lemma quiet_iff i : converged n (gs_es q) (j_pg jb) neq (j_dv jb) (st i) = true <-> forall v, 1 <= v <= n -> ~ changes i v.
    Proof.
      unfold converged. rewrite forallb_forall. split.
      - intros H v Bv X. apply changes_iff in X. specialize (H v ltac:(apply in_zrange; lia)). rewrite X in H. discriminate.
      - intros H v Hv. apply in_zrange in Hv. destruct (changed _ _ _ _ _ v) eqn:Ec; auto. apply changes_iff in Ec. exfalso. eapply H; [|exact Ec]. lia.
    Qed.
    Lemma not_quiet i : converged n (gs_es q) (j_pg jb) neq (j_dv jb) (st i) = false -> exists v, 1 <= v <= n /\ changes i v.
    Proof.
      unfold converged. intros H. assert (exists v, In v (zrange 1 (n + 1)) /\ changed (gs_es q) (j_pg jb) neq (j_dv jb) (st i) v = true) as (v & Hv & Hc).
      { induction (zrange 1 (n + 1)) as [|v l IH]; [discriminate|]. cbn [forallb] in H. destruct (changed _ _ _ _ _ v) eqn:Ec; [exists v; simpl; auto|]. destruct (IH H) as (u & Hu & Hcu). exists u. simpl. auto. }
      exists v. apply in_zrange in Hv. split; [lia|]. apply changes_iff; auto.
    Qed.
    Lemma run_count_conv r k : j_iterations jb <= 0 -> run_job neq m th jb fr None g = Ok (r, k) ->
      exists K, k = Z.of_nat (Datatypes.S K) /\ (forall v, 1 <= v <= n -> ~ changes K v) /\ forall i, (i < K)%nat -> exists v, 1 <= v <= n /\ changes i v.
    Proof.
      intros Hi Er. destruct (sit_ran r k Er) as (K & bs & -> & (BK & HE & HL) & _). exists (K - 1)%nat. replace (Datatypes.S (K - 1)) with K by lia. split; auto. split.
      - apply quiet_iff. destruct HE as [HE|[_ HE]]; [lia|]. exact HE.
      - intros i Bi. apply not_quiet. destruct (converged _ _ _ _ _ (st i)) eqn:Ec; auto. exfalso. apply (HL (Datatypes.S i) ltac:(lia)). right. split; auto. replace (Datatypes.S i - 1)%nat with i by lia. exact Ec.
    Qed.
    Lemma run_stops K : j_iterations jb <= 0 -> (K < j_fuel jb)%nat -> (forall v, 1 <= v <= n -> ~ changes K v) -> exists r k, run_job neq m th jb fr None g = Ok (r, k) /\ k <= Z.of_nat (Datatypes.S K).
    Proof.
      intros Hi BK Hq. assert (job_ends neq n jb C0 q (Datatypes.S K)) as HE. { right. split; auto. replace (Datatypes.S K - 1)%nat with K by lia. apply quiet_iff. auto. }
      destruct sit_run as [(K' & r & bs & (BK' & HE' & HL) & Er & _)|[Ed _]].
      - exists r, (Z.of_nat K'). split; auto. destruct (Nat.le_gt_cases K' (Datatypes.S K)); [lia|]. exfalso. apply (HL (Datatypes.S K)); auto. lia.
      - exfalso. apply (Ed (Datatypes.S K)); auto. lia.
    Qed.

    (** C08 *)
    Notation changes_dec := (changes_dec neq jb q).
    Lemma next_active i v : pr_all_vertices (j_pg jb) = false -> v_A (st (Datatypes.S i)) v = if changes_dec i v then Some true else None.
    Proof.
      intros Ha. change (v_A (st (Datatypes.S i)) v) with (if pr_all_vertices (j_pg jb) || changed (gs_es q) (j_pg jb) neq (j_dv jb) (st i) v then Some true else None). rewrite Ha. cbn [orb].
      destruct (changes_dec i v) as [H|H]; rewrite changes_iff in H; [rewrite H; auto|]. destruct (changed _ _ _ _ _ v); congruence.
    Qed.
    Lemma run_next_active r k : pr_all_vertices (j_pg jb) = false -> run_job neq m th jb fr None g = Ok (r, k) ->
      exists K bs A, k = Z.of_nat (Datatypes.S K) /\ split_log m (r_g r) (r_log r) (Datatypes.S K) bs /\
        (forall i v, (i < K)%nat -> 1 <= v <= n -> (times bs (Datatypes.S i) (Sent v) = 1%nat <-> changes i v) /\ (times bs (Datatypes.S i) (Sent v) = 0%nat <-> ~ changes i v)) /\
        observed_as neq m n (r_g r) (mkGS (gs_es q) (v_P (st (Datatypes.S K))) A) /\ forall v, A v = if changes_dec K v then Some true else None.
    Proof.
      intros Ha Er. destruct (sit_ran r k Er) as (K & bs & -> & (BK & _) & _ & Hg & Sl & Cm). exists (K - 1)%nat, bs, (v_A (st K)). replace (Datatypes.S (K - 1)) with K by lia.
      split; [auto|]. split; [auto|]. split; [|split; [apply is_observed; auto|]].
      - intros i v Bi Bv. destruct (Cm (Datatypes.S i) v ltac:(lia)) as [-> _]. rewrite next_active, (proj2 (in1_iff n v) Bv) by auto. destruct (changes_dec i v); cbn; split; split; auto; try tauto; discriminate.
      - intros v. rewrite <- next_active by auto. replace (Datatypes.S (K - 1)) with K by lia. reflexivity.
    Qed.

    (** C11 *)
    Lemma all_vertices_active i : pr_all_vertices (j_pg jb) = true -> v_A (st i) = fun _ => Some true.
    Proof. intros Ha. destruct i as [|i]; cbn; [unfold job_after; cbn; rewrite Ha; reflexivity|]. unfold job_after. cbn [after step v_A]. rewrite Ha. reflexivity. Qed.
    Lemma run_all_vertices r k : pr_all_vertices (j_pg jb) = true -> run_job neq m th jb fr None g = Ok (r, k) ->
      exists K bs P, k = Z.of_nat K /\ split_log m (r_g r) (r_log r) K bs /\ (forall i v, (i < K)%nat -> 1 <= v <= n -> times bs i (Sent v) = 1%nat) /\
        observed_as neq m n (r_g r) (mkGS (gs_es q) P (fun _ => Some true)).
    Proof.
      intros Ha Er. destruct (sit_ran r k Er) as (K & bs & -> & (BK & _) & _ & Hg & Sl & Cm). exists K, bs, (v_P (st K)). split; [auto|]. split; [auto|]. split.
      - intros i v Bi Bv. destruct (Cm i v Bi) as [-> _]. rewrite all_vertices_active, (proj2 (in1_iff n v) Bv) by auto. reflexivity.
      - apply is_observed; auto. rewrite all_vertices_active in Hg by auto. exact Hg.
    Qed.

    (** first superstep *)
    Lemma first_active : pr_all_vertices (j_pg jb) = false -> v_A (st 0) = gs_A q.
    Proof. intros Ha. unfold job_after. cbn. rewrite Ha. reflexivity. Qed.
    Lemma first_superstep r k : pr_all_vertices (j_pg jb) = false -> run_job neq m th jb fr None g = Ok (r, k) ->
      exists K bs, k = Z.of_nat K /\ (1 <= K)%nat /\ split_log m (r_g r) (r_log r) K bs /\
        forall v, 1 <= v <= n -> times bs 0 (Sent v) = (if is_true (gs_A q v) then 1 else 0)%nat /\
          (times bs 0 (Applied v) = 1%nat <-> exists u, edge_to (pr_order (j_pg jb)) (gs_es q) u v /\ gs_A q u <> None) /\
          (times bs 0 (Applied v) <> 1%nat -> times bs 0 (Applied v) = 0%nat).
    Proof.
      intros Ha Er. destruct (sit_ran r k Er) as (K & bs & -> & (BK & _) & _ & Hg & Sl & Cm). exists K, bs. split; [auto|]. split; [lia|]. split; [auto|].
      intros v Bv. destruct (Cm 0%nat v ltac:(lia)) as [Cs Ca]. pose proof (nil_count (st 0) (gs_es q) v _ Ca Bv) as Na. rewrite first_active in * by auto.
      rewrite (proj2 (in1_iff n v) Bv) in Cs. auto.
    Qed.
  End Situation.

  (** C04: meaning of activity histories *)
  Lemma activity_meaning (ops : list (Z * (Z * bool))) : forall (q q' : gspec V E) all, (forall v, gs_A q v = if all v : bool then Some true else None) ->
    spec_calls (byte:=byte) neq n (activity_calls ops) q (Some q') -> forall v, gs_A q' v = if member (all v) ops v then Some true else None.
  Proof.
    induction ops as [|[t [u b]] ops IH]; intros q q' all Ha; cbn [activity_calls map spec_calls].
    - intros [= ->]. exact Ha.
    - intros (o1 & S1 & R). cbn [fst snd] in S1.
      assert (exists q1, o1 = Some q1 /\ forall v, gs_A q1 v = if (if u =? v then b else all v) then Some true else None) as (q1 & -> & H1).
      { destruct b; cbn [spec_call] in S1; subst o1; eexists; (split; [reflexivity|]); intros v; cbn [gs_A]; rewrite (Z.eqb_sym v u); destruct (Z.eqb_spec u v); auto. }
      intros v. unfold member. cbn [fold_left fst snd]. exact (IH q1 q' (fun v => if u =? v then b else all v) H1 R v).
  Qed.
  Lemma activity_after {dv blobs} (pre : list (Z * gcall V E byte)) t0 (all : bool) ops q :
    means neq dv n blobs (pre ++ (t0, if all then CAllActive else CAllInactive) :: activity_calls ops) q -> forall v, gs_A q v = if member all ops v then Some true else None.
  Proof.
    intros Hq. apply spec_calls_app in Hq as ([q1|] & _ & Hq); [|discriminate]. cbn [spec_calls snd] in Hq. destruct Hq as (o2 & S2 & Hq).
    assert (exists q2, o2 = Some q2 /\ forall v, gs_A q2 v = if all then Some true else None) as (q2 & -> & H2) by (destruct all; cbn [spec_call] in S2; subst o2; eexists; split; reflexivity).
    exact (activity_meaning ops q2 q (fun _ => all) H2 Hq).
  Qed.
  Lemma fresh_meaning {dv blobs} (h : list (Z * gcall V E byte)) q : Forall (fun c => no_activity (snd c)) h -> means neq dv n blobs h q -> forall v, gs_A q v = Some false.
  Proof.
    unfold means. intros Hh. assert (forall v, gs_A (loaded dv (concat blobs)) v = Some false) as H0 by reflexivity. revert H0. generalize (loaded dv (concat blobs)) as q0.
    induction Hh as [|c h Hc _ IH]; intros q0 H0; cbn [spec_calls]; [intros [= ->]; auto|]. intros (o1 & S1 & R). destruct c as [t c]; cbn [fst snd] in *.
    destruct c; try contradiction; cbn [spec_call] in S1; subst o1; revert R; apply IH; exact H0.
  Qed.

  (** C13-C16 *)
  Section Reached.
    Variables (dv : V) (blobs : list (list (edge E))) (h : list (Z * gcall V E byte)) (g : gr) (q : gspec V E).
    Hypothesis Hset : setting m n blobs.
    Hypothesis Hok : calls_ok n m h.
    Hypothesis Hre : reached neq m dv n blobs h g.
    Hypothesis Hme : means neq dv n blobs h q.
    Let Hm : machine_ok m. Proof. apply Hset. Qed.
    Let Hn : 0 <= n. Proof. apply Hset. Qed.
    Lemma rq : isq g q.
    Proof. eapply reach_is; eauto. Qed.

    Lemma apply_all th f : threads_ok m (m_serv m) th ->
      exists g', g_applyToAllVertices (m_nr m) th f g = Ok g' /\ observed_as neq m n g' (mkGS (gs_es q) (fun v => f (gs_P q v) (gs_P q v)) (gs_A q)).
    Proof. intros Ht. destruct (apply_op m Hm n Hn th f g q Ht rq) as (g' & Eg & Hg). exists g'. split; auto. apply is_observed; auto. Qed.
    Lemma reduce_all {W} th (mp : V -> V * W) op init : threads_ok m (m_serv m) th -> associative op -> commutative op ->
      exists g' res, g_applyReduceAllVertices (m_nr m) th mp op init g = Ok (g', map (fun _ => res) (zrange 0 (m_nr m))) /\
        Some res = red op (map init (zrange 0 (m_nr m)) ++ map (fun v => snd (mp (gs_P q v))) (zrange 1 (n + 1))) /\
        observed_as neq m n g' (mkGS (gs_es q) (fun v => fst (mp (gs_P q v))) (gs_A q)).
    Proof. intros Ht Ha Hc. destruct (reduce_op m Hm n Hn th mp op init g q Ht Ha rq) as (g' & res & Eg & Hg & Er). exists g', res. split; auto. split; auto. apply is_observed; auto. Qed.
    Lemma edges_all th f : threads_ok m (m_serv m) th ->
      exists g', g_applyToAllEdges (m_serv m) (m_encv m) (m_decv m) (m_nr m) th f g = Ok g' /\
        observed_as neq m n g' (mkGS (map (fun e => mkE (e_src e) (e_dst e) (f (e_val e) (gs_P q (e_src e)) (gs_P q (e_dst e)))) (gs_es q)) (gs_P q) (gs_A q)).
    Proof. intros Ht. destruct (edges_op m Hm n Hn th f g q Ht rq) as (g' & Eg & Hg). exists g'. split; auto. apply is_observed; auto. Qed.
    Lemma both_directions : exists fwd bwd, read_edges m g = Ok fwd /\ read_transposed m g = Ok bwd /\
      Permutation (concat fwd) (gs_es q) /\ Permutation (concat bwd) (map (fun e => mkE (e_dst e) (e_src e) (e_val e)) (concat fwd)).
    Proof.
      destruct (is_edges m Hm n Hn g q rq) as (fwd & bwd & E1 & P1 & E2 & P2). exists fwd, bwd. split; auto. split; auto. split; auto. rewrite P2. apply Permutation_map. symmetry. auto.
    Qed.
  End Reached.
End Claims.

(** C07, C09, C62 *)
Section Two.
  Context {V E byte : Type}.
  Variable neq : V -> V -> bool.
  Variable n : Z.
  Variables m1 m2 : machine V E byte.

  Lemma tmp_start {T U} (m : machine V E byte) (Hm : machine_ok m) (Hn : 0 <= n) (fr : frame T U byte) tmp dt : temporaries_ok neq m n fr tmp ->
    exists C, match tmp with None => C = (fun _ => dt) | Some xy => trep (f_sert fr) (f_seru fr) n (m_nr m) (m_nt m) (fst xy) (snd xy) C end.
  Proof. destruct tmp as [xy|]; intros H; [apply temps_rep with (neq := neq); auto|eexists; reflexivity]. Qed.

  Lemma two_runs {S T U} dv1 dv2 blobs1 blobs2 h1 h2 (g1 g2 : graph V E byte) q1 q2 th1 th2 (jb jb' : job S T U V E) fr1 fr2 tmp1 tmp2 :
    situation neq m1 dv1 n blobs1 h1 g1 q1 th1 jb fr1 -> situation neq m2 dv2 n blobs2 h2 g2 q2 th2 jb' fr2 ->
    same_job jb jb' -> same_graph n q1 q2 -> temporaries_ok neq m1 n fr1 tmp1 -> temporaries_ok neq m2 n fr2 tmp2 ->
    ((tmp1 = None /\ tmp2 = None) \/ (ignores_old (j_pg jb) /\ (pr_all_vertices (j_pg jb) = true \/ forall v, 1 <= v <= n -> gs_A q1 v <> Some false))) ->
    (exists k r1 r2 K bs1 bs2 q, run_job neq m1 th1 jb fr1 tmp1 g1 = Ok (r1, k) /\ run_job neq m2 th2 jb' fr2 tmp2 g2 = Ok (r2, k) /\
       r_s r1 = r_s r2 /\ observed_as neq m1 n (r_g r1) q /\ observed_as neq m2 n (r_g r2) q /\ k = Z.of_nat K /\
       split_log m1 (r_g r1) (r_log r1) K bs1 /\ split_log m2 (r_g r2) (r_log r2) K bs2 /\
       forall i v, (i < K)%nat -> times bs1 i (Sent v) = times bs2 i (Sent v) /\ times bs1 i (Applied v) = times bs2 i (Applied v)) \/
    (run_job neq m1 th1 jb fr1 tmp1 g1 = Err NoFuel /\ run_job neq m2 th2 jb' fr2 tmp2 g2 = Err NoFuel).
  Proof.
    intros S1 S2 Sj Sg T1 T2 HC.
    assert (machine_ok m1 /\ 0 <= n) as [M1 Hn] by (destruct S1 as [(A & B & _) _]; auto).
    assert (machine_ok m2) as M2 by (destruct S2 as [(A & _) _]; auto).
    pose proof (sit_is neq m1 n dv1 blobs1 h1 g1 q1 th1 jb fr1 S1) as G1. pose proof (sit_is neq m2 n dv2 blobs2 h2 g2 q2 th2 jb' fr2 S2) as G2.
    destruct (tmp_start m1 M1 Hn fr1 tmp1 (j_dt jb) T1) as (C1 & Q1). destruct (tmp_start m2 M2 Hn fr2 tmp2 (j_dt jb') T2) as (C2 & Q2).
    pose proof S1 as (_ & _ & _ & _ & [Ht1 [Hj1 Hf1]]). pose proof S2 as (_ & _ & _ & _ & [Ht2 [Hj2 Hf2]]).
    pose proof Sj as (Sp & Es & Ei & Et & Ed & Ef).
    destruct (job_sim neq n jb jb' C1 C2 q1 q2 Sj Hj1 (proj1 G1) Sg) as [Af En].
    { destruct HC as [[-> ->]|HC]; [left; subst C1 C2; rewrite Et; auto|right; auto]. }
    assert (forall K, job_takes neq n jb C1 q1 K <-> job_takes neq n jb' C2 q2 K) as Tk.
    { intros K. unfold job_takes. rewrite Ef, En. split; intros (A & B & D); (split; [auto|split; [auto|]]); intros k Bk X; [apply En in X|apply En in X]; eapply D; eauto. }
    destruct (run_op neq m1 M1 n Hn th1 jb fr1 tmp1 C1 g1 q1 Ht1 Hj1 Hf1 G1 Q1) as [(K & r1 & Tk1 & Er1 & Es1 & Hg1 & _ & Lg1)|[Ed1 Er1]];
    destruct (run_op neq m2 M2 n Hn th2 jb' fr2 tmp2 C2 g2 q2 Ht2 Hj2 Hf2 G2 Q2) as [(K2 & r2 & Tk2 & Er2 & Es2 & Hg2 & _ & Lg2)|[Ed2 Er2]].
    - apply Tk in Tk1 as Tk1'. rewrite (takes_unique neq n _ _ _ _ _ Tk2 Tk1') in *. left.
      destruct (calls_counted neq m1 n M1 Hn jb C1 q1 K (r_g r1) _ (r_log r1) Hg1 Lg1) as (bs1 & Sl1 & Cm1). destruct (calls_counted neq m2 n M2 Hn jb' C2 q2 K (r_g r2) _ (r_log r2) Hg2 Lg2) as (bs2 & Sl2 & Cm2).
      exists (Z.of_nat K), r1, r2, K, bs1, bs2, (mkGS (gs_es q1) (v_P (job_after neq jb C1 q1 K)) (v_A (job_after neq jb C1 q1 K))).
      split; [auto|]. split; [auto|]. split; [rewrite Es1, Es2; apply (Af K)|]. split; [apply is_observed; auto|]. split.
      { apply is_observed; auto. eapply is_sim; [exact M2|exact Hn| |exact Hg2]. apply gsim_sym. split; [apply Sg|]. apply (Af K). }
      split; [auto|]. split; [auto|]. split; [auto|]. intros i v Bi. destruct (Cm1 i v Bi) as [-> ->]. destruct (Cm2 i v Bi) as [-> ->].
      destruct (in1 n v) eqn:Iv; cbn [andb]; auto. apply in1_iff in Iv. destruct (Af i) as (A1 & A2 & A3). destruct (A2 v Iv) as [_ ->]. split; auto.
      pose proof (received_sim neq n (j_pg jb) (j_pg jb') Sp (gs_es q1) (gs_es q2) (proj1 Sg) (proj1 G1) (j_dv jb) _ _ v (Af i) Iv) as Pr. rewrite Ed in Pr at 2.
      assert (is_nil (received (gs_es q1) (j_pg jb) (j_dv jb) (job_after neq jb C1 q1 i) v) = is_nil (received (gs_es q2) (j_pg jb') (j_dv jb') (job_after neq jb' C2 q2 i) v)) as ->; auto.
      destruct (received (gs_es q1) _ _ _ v) as [|a l]; destruct (received (gs_es q2) _ _ _ v) as [|b l']; auto; [apply Permutation_nil_cons in Pr|apply Permutation_sym, Permutation_nil_cons in Pr]; contradiction.
    - exfalso. apply Tk in Tk1. eapply takes_endless; eauto.
    - exfalso. apply Tk in Tk2. eapply takes_endless; eauto.
    - right. auto.
  Qed.

  Lemma two_histories dv blobs1 blobs2 h1 h2 : setting m1 n blobs1 -> setting m2 n blobs2 -> Permutation (concat blobs1) (concat blobs2) ->
    calls_ok n m1 h1 -> calls_ok n m2 h2 -> Forall2 (fun c c' => same_call (snd c) (snd c')) h1 h2 ->
    (exists g1 g2 q1 q2, reached neq m1 dv n blobs1 h1 g1 /\ reached neq m2 dv n blobs2 h2 g2 /\ means neq dv n blobs1 h1 q1 /\ means neq dv n blobs2 h2 q2 /\
       same_graph n q1 q2 /\ observed_as neq m1 n g1 q1 /\ observed_as neq m2 n g2 q1) \/
    (exists g1 g2, load m1 dv n blobs1 = Ok g1 /\ load m2 dv n blobs2 = Ok g2 /\ run_calls neq m1 h1 g1 = Err NoFuel /\ run_calls neq m2 h2 g2 = Err NoFuel).
  Proof.
    intros S1 S2 Pb O1 O2 Sc. assert (machine_ok m1 /\ 0 <= n) as [M1 Hn] by (destruct S1 as (A & B & _); auto). assert (machine_ok m2) as M2 by (destruct S2 as (A & _); auto).
    destruct (load_ok m1 dv n blobs1 S1) as (a1 & L1 & I1). destruct (load_ok m2 dv n blobs2 S2) as (a2 & L2 & I2).
    destruct (calls_spec neq m1 M1 n Hn h1 a1 _ O1 I1) as (o1 & Sp1 & R1). destruct (calls_spec neq m2 M2 n Hn h2 a2 _ O2 I2) as (o2 & Sp2 & R2).
    destruct (calls_sim neq n h1 h2 Sc (loaded dv (concat blobs1)) (loaded dv (concat blobs2)) o1) as (o2' & Sp2' & Sim).
    - eapply Forall_impl; [|exact O1]. intros [t c] [_ H]. cbn [snd fst] in *. destruct c; auto. apply H.
    - exact (proj1 I1).
    - split; [exact Pb|auto].
    - exact Sp1.
    - rewrite (spec_calls_det neq n _ _ _ _ Sp2' Sp2) in Sim. destruct o1 as [q1|], o2 as [q2|]; try contradiction.
      + left. destruct R1 as (g1 & E1 & G1). destruct R2 as (g2 & E2 & G2). exists g1, g2, q1, q2. split; [exists a1; auto|]. split; [exists a2; auto|]. split; [exact Sp1|]. split; [exact Sp2|]. destruct Sim as [Sg _].
        split; [exact Sg|]. split; apply is_observed; auto. eapply is_sim; [exact M2|exact Hn| |exact G2]. apply gsim_sym. exact Sg.
      + right. exists a1, a2. auto.
  Qed.
End Two.

Lemma red_plus c l k : 1 <= k -> red Z.add (map (fun _ => c) (zrange 0 k) ++ l) = Some (k * c + fold_right Z.add 0 l).
Proof.
  assert (forall l a, fold_left Z.add l a = a + fold_right Z.add 0 l) as F. { induction l0 as [|x l0 IH]; intros a; cbn; [lia|]. rewrite IH. lia. }
  assert (forall l l', fold_right Z.add 0 (l ++ l') = fold_right Z.add 0 l + fold_right Z.add 0 l') as FA. { induction l0 as [|x l0 IH]; intros; cbn; [lia|]. rewrite IH. lia. }
  assert (forall lo k, 0 <= k -> fold_right Z.add 0 (map (fun _ => c) (zrange lo (lo + k))) = k * c) as FM.
  { intros lo j Hj. revert lo. pattern j. apply natlike_ind; auto; [intros lo; rewrite zrange_nil by lia; reflexivity|]. intros x Hx IH lo. rewrite zrange_cons by lia. cbn [map fold_right].
    replace (lo + Z.succ x) with (lo + 1 + x) by lia. rewrite IH. lia. }
  intros Hk. assert (red Z.add (map (fun _ => c) (zrange 0 k) ++ l) = Some (fold_right Z.add 0 (map (fun _ => c) (zrange 0 k) ++ l))) as ->.
  { rewrite zrange_cons by lia. cbn [map app red fold_right]. rewrite F. reflexivity. }
  f_equal. rewrite FA. replace k with (0 + k) at 1 by lia. rewrite FM by lia. reflexivity.
Qed.

(** neutral values do not count *)
Lemma red_neutral {W} (op : W -> W -> W) a is l : associative op -> commutative op -> (forall i, In i is -> forall x, op i x = x) ->
  red op (a :: is ++ l) = red op (a :: l).
Proof.
  intros A C H. cbn. f_equal. rewrite fold_left_app. f_equal. induction is as [|i is IH]; [reflexivity|]. cbn.
  rewrite (C a i), H by (left; reflexivity). apply IH. intros j Hj. apply H. right. exact Hj.
Qed.

Section Final.
  Context {V E byte : Type}.
  Variable neq : V -> V -> bool.
  Variable m : machine V E byte.
  Variable n : Z.

  Lemma active_set_claim {S T U} dv blobs pre t0 (all : bool) ops g q th (jb : job S T U V E) fr r k :
    situation neq m dv n blobs (pre ++ (t0, if all then CAllActive else CAllInactive) :: activity_calls ops) g q th jb fr ->
    pr_all_vertices (j_pg jb) = false -> run_job neq m th jb fr None g = Ok (r, k) ->
    exists K bs, k = Z.of_nat K /\ (1 <= K)%nat /\ split_log m (r_g r) (r_log r) K bs /\
      forall v, 1 <= v <= n ->
        times bs 0 (Sent v) = (if member all ops v then 1 else 0)%nat /\
        (times bs 0 (Applied v) = 1%nat <-> exists u, edge_to (pr_order (j_pg jb)) (gs_es q) u v /\ member all ops u = true) /\
        (times bs 0 (Applied v) <> 1%nat -> times bs 0 (Applied v) = 0%nat).
  Proof.
    intros Hs Ha Er. destruct (first_superstep neq m n dv blobs _ g q th jb fr Hs r k Ha Er) as (K & bs & Ek & BK & Sl & H). exists K, bs. split; [auto|]. split; [auto|]. split; [auto|].
    pose proof (activity_after neq n pre t0 all ops q (proj1 (proj2 (proj2 (proj2 Hs))))) as HA. intros v Bv. destruct (H v Bv) as (H1 & H2 & H3). split; [|split; [|exact H3]].
    - rewrite H1, HA. destruct (member all ops v); reflexivity.
    - rewrite H2. split; intros (u & Hu & Hm); exists u; (split; [exact Hu|]); rewrite HA in *; destruct (member all ops u); congruence.
  Qed.
  Lemma fresh_claim {S T U} (dv : V) blobs h g q th (jb : job S T U V E) fr :
    situation neq m dv n blobs h g q th jb fr -> Forall (fun c => no_activity (snd c)) h ->
    j_iterations jb = 1 -> (1 <= j_fuel jb)%nat -> pr_all_vertices (j_pg jb) = false ->
    exists r bs P' A', run_job neq m th jb fr None g = Ok (r, 1) /\ split_log m (r_g r) (r_log r) 1 bs /\ observed_as neq m n (r_g r) (mkGS (gs_es q) P' A') /\
      r_s r = pr_every (j_pg jb) 0 (j_s jb) /\
      forall w, 1 <= w <= n -> times bs 0 (Sent w) = 0%nat /\
        match red (pr_reduce (j_pg jb) (j_s jb)) (fresh_inbox jb q w) with
        | Some u => times bs 0 (Applied w) = 1%nat /\ P' w = pr_apply (j_pg jb) (j_s jb) u (gs_P q w)
        | None => fresh_inbox jb q w = [] /\ times bs 0 (Applied w) = 0%nat /\ P' w = gs_P q w
        end.
  Proof.
    intros Hs Hh Hi Hf Ha. eapply run_fresh; eauto. eapply fresh_meaning; [exact Hh|]. apply (proj1 (proj2 (proj2 (proj2 Hs)))).
  Qed.
  Lemma every_claim {S T U} (dv : V) blobs h g q th (jb : job S T U V E) fr r k :
    situation neq m dv n blobs h g q th jb fr -> run_job neq m th jb fr None g = Ok (r, k) ->
    zlen (r_log r) = m_nr m /\ forall l, In l (r_log r) -> exists b, mapR (event_vertex m (r_g r)) l = Ok (concat b) /\ Z.of_nat (length b) = k /\
      forall i l', nth_error b i = Some l' -> superstep_block i l'.
  Proof.
    intros Hs Er. destruct (run_observed neq m n dv blobs h g q th jb fr Hs r k Er) as (K & bs & -> & _ & _ & _ & [Ll F] & _). split; [auto|].
    clear Ll. intros l Hl. induction F as [|x b log bs (H1 & H2 & H3) _ IH]; [destruct Hl|]. destruct Hl as [<-|Hl]; auto. exists b. split; [auto|]. split; [lia|auto].
  Qed.
  Lemma reduce_excess (dv : V) blobs h g q th (mp : V -> V * Z) c :
    setting m n blobs -> calls_ok n m h -> reached neq m dv n blobs h g -> means neq dv n blobs h q -> threads_ok m (m_serv m) th ->
    exists g', g_applyReduceAllVertices (m_nr m) th mp Z.add (fun _ => c) g = Ok (g', map (fun _ =>
      c + fold_right Z.add 0 (map (fun v => snd (mp (gs_P q v))) (zrange 1 (n + 1))) + (m_nr m - 1) * c) (zrange 0 (m_nr m))).
  Proof.
    intros H1 H2 H3 H4 Ht. destruct (reduce_all neq m n dv blobs h g q H1 H2 H3 H4 th mp Z.add (fun _ => c) Ht) as (g' & res & Eg & Er & _).
    - intros a b d. lia.
    - intros a b. lia.
    - exists g'. rewrite Eg. do 2 f_equal. rewrite red_plus in Er by apply H1. injection Er as ->. apply map_ext. intros _. lia.
  Qed.
  Lemma reduce_neutral {W} (dv : V) blobs h g q th (mp : V -> V * W) op init :
    setting m n blobs -> calls_ok n m h -> reached neq m dv n blobs h g -> means neq dv n blobs h q -> threads_ok m (m_serv m) th -> associative op -> commutative op ->
    (forall r, 1 <= r < m_nr m -> forall x, op (init r) x = x) ->
    exists g' res, g_applyReduceAllVertices (m_nr m) th mp op init g = Ok (g', map (fun _ => res) (zrange 0 (m_nr m))) /\
      Some res = red op (init 0 :: map (fun v => snd (mp (gs_P q v))) (zrange 1 (n + 1))).
  Proof.
    intros H1 H2 H3 H4 Ht A C Hn. destruct (reduce_all neq m n dv blobs h g q H1 H2 H3 H4 th mp op init Ht A C) as (g' & res & Eg & Er & _).
    exists g', res. split; [exact Eg|]. pose proof (proj1 (proj1 H1)) as Hnr. rewrite Er, (zrange_cons 0 (m_nr m)) by lia. cbn [map app].
    apply red_neutral; auto. intros i Hi. apply in_map_iff in Hi as (r & <- & Hr). apply in_zrange in Hr. apply Hn. lia.
  Qed.
  Lemma rerun_claim {S T U} dv1 dv2 blobs1 blobs2 h1 h2 (g1 g2 : graph V E byte) q1 q2 th1 th2 (jb : job S T U V E) fr1 fr2 tmp1 tmp2 :
    situation neq m dv1 n blobs1 h1 g1 q1 th1 jb fr1 -> situation neq m dv2 n blobs2 h2 g2 q2 th2 jb fr2 -> same_graph n q1 q2 ->
    temporaries_ok neq m n fr1 tmp1 -> temporaries_ok neq m n fr2 tmp2 ->
    ((tmp1 = None /\ tmp2 = None) \/ (ignores_old (j_pg jb) /\ (pr_all_vertices (j_pg jb) = true \/ forall v, 1 <= v <= n -> gs_A q1 v <> Some false))) ->
    (exists k r1 r2 K bs1 bs2 q, run_job neq m th1 jb fr1 tmp1 g1 = Ok (r1, k) /\ run_job neq m th2 jb fr2 tmp2 g2 = Ok (r2, k) /\
       r_s r1 = r_s r2 /\ observed_as neq m n (r_g r1) q /\ observed_as neq m n (r_g r2) q /\ k = Z.of_nat K /\
       split_log m (r_g r1) (r_log r1) K bs1 /\ split_log m (r_g r2) (r_log r2) K bs2 /\
       forall i v, (i < K)%nat -> times bs1 i (Sent v) = times bs2 i (Sent v) /\ times bs1 i (Applied v) = times bs2 i (Applied v)) \/
    (run_job neq m th1 jb fr1 tmp1 g1 = Err NoFuel /\ run_job neq m th2 jb fr2 tmp2 g2 = Err NoFuel).
  Proof. intros A B C D F G. eapply two_runs; eauto. apply same_job_refl. Qed.
  Lemma send_ignored_claim {S T U} dv blobs h (g : graph V E byte) q th (jb jb' : job S T U V E) fr :
    situation neq m dv n blobs h g q th jb fr -> same_job jb jb' ->
    (exists k r1 r2 K bs1 bs2 q', run_job neq m th jb fr None g = Ok (r1, k) /\ run_job neq m th jb' fr None g = Ok (r2, k) /\
       r_s r1 = r_s r2 /\ observed_as neq m n (r_g r1) q' /\ observed_as neq m n (r_g r2) q' /\ k = Z.of_nat K /\
       split_log m (r_g r1) (r_log r1) K bs1 /\ split_log m (r_g r2) (r_log r2) K bs2 /\
       forall i v, (i < K)%nat -> times bs1 i (Sent v) = times bs2 i (Sent v) /\ times bs1 i (Applied v) = times bs2 i (Applied v)) \/
    (run_job neq m th jb fr None g = Err NoFuel /\ run_job neq m th jb' fr None g = Err NoFuel).
  Proof.
    intros A B. eapply two_runs; eauto; try exact I.
    - destruct A as (A1 & A2 & A3 & A4 & A5 & Hj & Hf). refine (conj A1 (conj A2 (conj A3 (conj A4 (conj A5 (conj _ Hf)))))).
      destruct B as ((_ & _ & _ & _ & _ & Er & _) & _). intros s. rewrite <- Er. apply Hj.
    - split; [apply Permutation_refl|auto].
  Qed.
End Final.
Lemma same_run_claim {V E byte S T U} neq n (m1 m2 : machine V E byte) dv1 dv2 blobs1 blobs2 h1 h2 (g1 g2 : graph V E byte) q1 q2 th1 th2 (jb : job S T U V E) fr1 fr2 :
  situation neq m1 dv1 n blobs1 h1 g1 q1 th1 jb fr1 -> situation neq m2 dv2 n blobs2 h2 g2 q2 th2 jb fr2 -> same_graph n q1 q2 ->
  (exists k r1 r2 K bs1 bs2 q, run_job neq m1 th1 jb fr1 None g1 = Ok (r1, k) /\ run_job neq m2 th2 jb fr2 None g2 = Ok (r2, k) /\
     r_s r1 = r_s r2 /\ observed_as neq m1 n (r_g r1) q /\ observed_as neq m2 n (r_g r2) q /\ k = Z.of_nat K /\
     split_log m1 (r_g r1) (r_log r1) K bs1 /\ split_log m2 (r_g r2) (r_log r2) K bs2 /\
     forall i v, (i < K)%nat -> times bs1 i (Sent v) = times bs2 i (Sent v) /\ times bs1 i (Applied v) = times bs2 i (Applied v)) \/
  (run_job neq m1 th1 jb fr1 None g1 = Err NoFuel /\ run_job neq m2 th2 jb fr2 None g2 = Err NoFuel).
Proof. intros A B C. eapply two_runs; eauto; try exact I. apply same_job_refl. Qed.
