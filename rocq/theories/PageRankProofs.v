From Verif Require Import BaseLemmas Layout Reduce ReduceProofs DCSC MatSpec Segment Vec SpMat GraphVert Graph Runtime RunSpec RuntimeProofs GraphOps GraphHist GraphHistProofs Apps AppSpec AppBase RankSpec DegreeProofs.

Section PageRank.
  Context {F E byte : Type}.
  Variable fl : floats F.
  Variable m : machine (pr_vertex F) E byte.
  Variables (n : Z) (blobs : list (list (edge E))).
  Hypothesis Hset : setting m n blobs.
  Hypothesis Hl : zlen (concat blobs) < 2 ^ 31.
  Notation es := (concat blobs).
  Variables (th : Z) (fr1 : frame Z Z byte) (fr2 : frame F F byte) (dt1 : Z) (dt2 : F) (dv : pr_vertex F) (fuel : nat).
  Hypothesis Ht : threads_ok m (m_serv m) th.
  Hypothesis Hfr1 : frame_ok m th fr1.
  Hypothesis Hfr2 : frame_ok m th fr2.

  Section Run.
    Variables (Y : nat -> Z -> option F) (C : Z -> F) (q : gspec (pr_vertex F) E).
    Hypothesis Qe : gs_es q = es.
    Hypothesis QP : forall v, 1 <= v <= n -> gs_P q v = mkPR (fl_start fl) (out_degree es v).
    Notation jb := (mkJ (@pagerank F fl E) tt (-1) dt2 dv fuel).
    Notation st k := (job_after_with (pr_neq fl) jb Y C q k).
    Notation rk k := (fun v => p_rank (v_P (st k) v)).

    Lemma all_active k v : v_A (st k) v = Some true.
    Proof. destruct k; reflexivity. Qed.
    Lemma degrees k v : 1 <= v <= n -> p_degree (v_P (st k) v) = out_degree es v.
    Proof.
      intros Bv. induction k as [|k IH]; [cbn [job_after_with after_with begin start v_P]; unfold job_after_with; cbn [after_with begin start v_P]; rewrite QP by auto; reflexivity|].
      change (st (S k)) with (step_with (@pagerank F fl E) (pr_neq fl) (Y k) (Z.of_nat k) (st k)). cbn [step_with v_P]. unfold updated_with. destruct (Y k v); auto.
    Qed.
    Lemma arrives k v : received es (@pagerank F fl E) dv (st k) v = map (fun e => fl_share fl (rk k (e_src e)) (out_degree es (e_src e))) (filter (fun e => e_dst e =? v) es).
    Proof.
      rewrite (received_all_out (@pagerank F fl E) _ dv _ (fun x => fl_share fl (rk k x) (out_degree es x))); [reflexivity|reflexivity|].
      intros e He. unfold message. rewrite all_active. cbn [pr_send pagerank fst]. destruct Hset as (_ & _ & _ & Hin). rewrite degrees by apply Hin, He.
      destruct (Z.eqb_spec (out_degree es (e_src e)) 0) as [E0|]; [|reflexivity]. exfalso. unfold out_degree in E0.
      assert (In e (filter (fun e0 => e_src e0 =? e_src e) es)) as Hi by (apply filter_In; split; [auto|apply Z.eqb_refl]).
      destruct (filter _ es) as [|x l]; [destruct Hi|]. rewrite zlen_cons in E0. pose proof (zlen_nonneg l). lia.
    Qed.
    Lemma rank_stepped K : job_reduces (pr_neq fl) n jb Y C q K -> forall k v, (k < K)%nat -> 1 <= v <= n -> rank_step fl es (rk k) v (rk (S k) v).
    Proof.
      intros Hr k v Hk Bv. specialize (Hr k v Hk Bv). unfold job_received in Hr. cbn [j_pg j_dv] in Hr. rewrite Qe, arrives in Hr.
      change (st (S k)) with (step_with (@pagerank F fl E) (pr_neq fl) (Y k) (Z.of_nat k) (st k)). cbn [step_with v_P]. unfold updated_with, rank_step. destruct (Y k v) as [u|]; cbn [combined_of] in Hr.
      - right. exists u. split; [exact Hr|reflexivity].
      - left. auto.
    Qed.
    Lemma settled_iff k : (forall v, 1 <= v <= n -> combined_of (pr_reduce (@pagerank F fl E) (v_s (st k))) (received es (@pagerank F fl E) dv (st k) v) (Y k v)) ->
      converged_with n (@pagerank F fl E) (pr_neq fl) (Y k) (st k) = true <-> settled fl n es (rk k) (rk (S k)).
    Proof.
      intros HY. unfold converged_with. rewrite forallb_forall. unfold settled.
      assert (forall v, 1 <= v <= n -> changed_with (@pagerank F fl E) (pr_neq fl) (Y k) (st k) v = false <-> (in_degree es v <> 0 -> fl_far fl (rk (S k) v) (rk k v) = false)) as Hc.
      { intros v Bv. specialize (HY v Bv). rewrite arrives in HY. change (st (S k)) with (step_with (@pagerank F fl E) (pr_neq fl) (Y k) (Z.of_nat k) (st k)). cbn [step_with v_P]. unfold updated_with, changed_with, in_degree.
        destruct (Y k v) as [u|]; cbn [combined_of] in HY.
        - apply combination_some in HY. unfold pr_neq. split; [auto|]. intros H. apply H. intros E0. apply HY. destruct (filter _ es) as [|x l]; [reflexivity|]. rewrite zlen_cons in E0. pose proof (zlen_nonneg l). lia.
        - split; [|auto]. intros _ H. exfalso. apply H. destruct (filter _ es); [reflexivity|discriminate]. }
      split.
      - intros H v Bv. apply Hc; auto. apply negb_true_iff, H, in_zrange. lia.
      - intros H v Bv. apply in_zrange in Bv. apply negb_true_iff, Hc; [lia|]. apply H. lia.
    Qed.
    (** [k]-th superstep is the last one *)
    Lemma ends_iff K k : job_reduces (pr_neq fl) n jb Y C q K -> (S k <= K)%nat -> job_ends_with (pr_neq fl) n jb Y C q (S k) <-> settled fl n es (rk k) (rk (S k)).
    Proof.
      intros Hr Bk. rewrite <- settled_iff.
      - unfold job_ends_with, ends_with. replace (S k - 1)%nat with k by lia. split; [intros [H|[_ H]]; [cbn in H; lia|exact H]|]. intros H. right. split; [cbn; lia|exact H].
      - intros v Bv. specialize (Hr k v ltac:(lia) Bv). unfold job_received in Hr. cbn [j_pg j_dv] in Hr. rewrite Qe in Hr. exact Hr.
    Qed.
  End Run.

  Lemma run_pagerank_spec : exists rank : nat -> Z -> F, (forall v, 1 <= v <= n -> rank O v = fl_start fl) /\
    ((exists g K P, run_pagerank fl m th fr1 fr2 dt1 dt2 dv fuel n blobs = Ok (g, Z.of_nat K) /\ (1 <= K <= fuel)%nat /\ shows_properties n m g P /\
        (forall v, 1 <= v <= n -> P v = mkPR (rank K v) (out_degree es v)) /\
        (forall k v, (k < K)%nat -> 1 <= v <= n -> rank_step fl es (rank k) v (rank (S k) v)) /\
        settled fl n es (rank (K - 1)%nat) (rank K) /\ forall k, (S k < K)%nat -> ~ settled fl n es (rank k) (rank (S k))) \/
     (run_pagerank fl m th fr1 fr2 dt1 dt2 dv fuel n blobs = Err NoFuel /\
        (forall k v, (k < fuel)%nat -> 1 <= v <= n -> rank_step fl es (rank k) v (rank (S k) v)) /\
        forall k, (k < fuel)%nat -> ~ settled fl n es (rank k) (rank (S k)))).
  Proof.
    pose proof Hset as (Hm & Hn & Lb & Hin). unfold run_pagerank. destruct (load_is m Hm n Hn (pr_new fl) blobs Lb Hin) as (g0 & -> & H0). cbn [bind].
    destruct (init_is m Hm n Hn th fr1 dt1 g0 _ Hfr1 H0) as (xy & -> & Hxy). cbn [bind run_call].
    destruct (act_op m Hm n Hn (m_serv m) th AAllActive g0 _ Ht I H0) as (g1 & -> & H1). cbn [bind].
    destruct (degree_is fl m Hm n Hn th dt1 dv 1 fr1 (Some xy) (fun _ => dt1) g1 _ Ht Hfr1 H1 Hxy) as (r1 & P1 & A1 & -> & H2 & HP1); [lia|reflexivity|exact Hl|]. cbn [bind fst].
    destruct (init_is m Hm n Hn th fr2 dt2 (r_g r1) _ Hfr2 H2) as (xy2 & -> & Hxy2). cbn [bind run_call].
    destruct (act_op m Hm n Hn (m_serv m) th AAllActive (r_g r1) _ Ht I H2) as (g3 & -> & H3). cbn [bind gs_es gs_P gs_A loaded] in *.
    set (q3 := mkGS _ _ _) in H3.
    assert (forall v, 1 <= v <= n -> gs_P q3 v = mkPR (fl_start fl) (out_degree es v)) as QP.
    { intros v Bv. cbn [q3 gs_P]. rewrite HP1 by auto. cbn [p_rank p_degree pr_new]. unfold out_degree. destruct (Z.eqb_spec (zlen (filter (fun e => e_src e =? v) es)) 0) as [->|]; reflexivity. }
    destruct (run_op_any (pr_neq fl) m Hm n Hn th (mkJ (@pagerank F fl E) tt (-1) dt2 dv fuel) fr2 (Some xy2) (fun _ => dt2) g3 q3 Ht Hfr2 H3 Hxy2) as (Y & HX).
    exists (fun k v => p_rank (v_P (job_after_with (pr_neq fl) (mkJ (@pagerank F fl E) tt (-1) dt2 dv fuel) Y (fun _ => dt2) q3 k) v)). split.
    - intros v Bv. unfold job_after_with. cbn [after_with begin start v_P]. rewrite QP by auto. reflexivity.
    - destruct HX as [(K & r & (BK & Hr & He & Hne) & -> & _ & Hg & _)|[[Hr He] ->]]; cbn [bind fst snd].
      + left. eexists _, K, _. split; [reflexivity|]. cbn [j_fuel] in BK. split; [lia|]. split; [apply (is_properties (pr_neq fl) m Hm n Hn _ _ Hg)|]. cbn [gs_P]. split.
        * intros v Bv. rewrite <- (degrees Y (fun _ => dt2) q3 QP K v Bv). destruct (v_P _ v); reflexivity.
        * split; [exact (rank_stepped Y _ q3 eq_refl QP K Hr)|]. destruct K as [|K]; [lia|]. replace (S K - 1)%nat with K by lia. split.
          -- apply (ends_iff Y _ q3 eq_refl QP (S K) K Hr); [lia|exact He].
          -- intros k Hk Hc. apply (Hne (S k)); [lia|]. apply (ends_iff Y _ q3 eq_refl QP (S K) k Hr); [lia|exact Hc].
      + right. cbn [j_fuel] in *. split; [reflexivity|]. split; [exact (rank_stepped Y _ q3 eq_refl QP fuel Hr)|]. intros k Hk Hc. apply (He (S k)); [lia|]. apply (ends_iff Y _ q3 eq_refl QP fuel k Hr); [lia|exact Hc].
  Qed.
End PageRank.

(** with exact arithmetic the order of the additions does not matter *)
From Coq Require Import QArith Qcanon.
Local Open Scope Z_scope.
Lemma combination_qsum l u : combination Qcplus l u -> u = qsum l.
Proof.
  assert (forall l l', Permutation l l' -> qsum l = qsum l') as Hp.
  { induction 1 as [|x a b _ IH|x y a|a b c _ IH1 _ IH2]; cbn; [reflexivity|f_equal; exact IH| |congruence]. rewrite !Qcplus_assoc, (Qcplus_comm y x). reflexivity. }
  assert (forall a b, qsum (a ++ b) = qsum a + qsum b)%Qc as Ha.
  { induction a as [|x a IH]; intros b; cbn; [unfold qsum; rewrite Qcplus_0_l; reflexivity|]. unfold qsum in IH. rewrite IH. rewrite Qcplus_assoc. reflexivity. }
  induction 1 as [a|l l1 l2 a b H1 IH1 H2 IH2 P]; [cbn; rewrite Qcplus_0_r; reflexivity|]. rewrite (Hp _ _ P), Ha. congruence.
Qed.
Lemma rank_step_exact {E} alpha start far (es : list (edge E)) R v x : rank_step (qfloats alpha start far) es R v x ->
  x = if in_degree es v =? 0 then R v else (alpha + (1 - alpha) * qsum (map (fun e => R (e_src e) / Q2Qc (inject_Z (out_degree es (e_src e)))) (filter (fun e => e_dst e =? v)%Z es)))%Qc.
Proof.
  unfold rank_step, in_degree. cbn [fl_share fl_add fl_mix qfloats]. set (l := filter _ es). intros [[Hl ->]|(u & Hu & ->)].
  - destruct l; [reflexivity|discriminate].
  - destruct l as [|e l]; [destruct (combination_nil _ _ Hu)|]. rewrite (proj2 (Z.eqb_neq (zlen (e :: l)) 0)) by (rewrite zlen_cons; pose proof (zlen_nonneg l); lia).
    apply combination_qsum in Hu. rewrite Hu. reflexivity.
Qed.
