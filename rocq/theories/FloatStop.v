(** The run of src/PageRank.cpp follows one order of additions, and stops: lemmas behind PropsFloat.v. *)
From Coq Require Import QArith Qabs Qpower Lqa.
From Verif Require Import Base BaseLemmas Layout Reduce ReduceProofs DCSC MatSpec Segment Vec SpMat GraphVert Graph Runtime RunSpec RuntimeProofs GraphOps GraphHist GraphHistProofs Apps AppSpec AppBase RankSpec DegreeProofs PageRankProofs FlowSpec FloatSpec FloatProofs FloatRun Tree TreeProofs OrderSpec OrderHist OrderProofs OrderFinal FloatOrder FloatMono.
Local Open Scope Z_scope.

Section InOrder.
  Context {F E byte : Type}.
  Variable fl : floats F.
  Variable m : machine (pr_vertex F) E byte.
  Variables (n : Z) (blobs : list (list (edge E))).
  Hypothesis Hset : setting m n blobs.
  Hypothesis Hl : zlen (concat blobs) < 2 ^ 31.
  Notation es := (concat blobs).
  Variables (th : Z) (fr1 : frame Z Z byte) (fr2 : frame F F byte) (dt1 : Z) (dt2 : F) (dv : pr_vertex F) (fuel : nat).
  Hypothesis Ht : threads_ok m (m_serv m) th.
  Hypothesis Hfr1 : frame_ok m th fr1.
  Hypothesis Hfr2 : frame_ok m th fr2.

  Section Run.
    Variables (ord : order E) (q : gspec (pr_vertex F) E).
    Hypothesis QP : forall v, 1 <= v <= n -> gs_P q v = mkPR (fl_start fl) (out_degree es v).
    Hypothesis Ho : order_of n es ord.
    Notation jb := (mkJ (@pagerank F fl E) tt (-1) dt2 dv fuel).
    Notation C := (fun _ : Z => dt2).
    Notation Y := (fun k => reduced_in (@pagerank F fl E) dv ord (job_after_in (pr_neq fl) ord jb C q k)).
    Notation st k := (job_after_in (pr_neq fl) ord jb C q k).
    Notation rk k := (fun v => p_rank (v_P (st k) v)).

    Lemma after_is k : job_after_with (pr_neq fl) jb Y C q k = st k.
    Proof. unfold job_after_with, job_after_in. induction k as [|k IH]; [reflexivity|]. cbn [after_with after_in]. rewrite IH. reflexivity. Qed.
    Lemma degrees_in k v : 1 <= v <= n -> p_degree (v_P (st k) v) = out_degree es v.
    Proof. intros Bv. rewrite <- after_is. apply (degrees fl n blobs dt2 dv fuel Y C q QP k v Bv). Qed.
    Lemma adds_of : adds n es (ord OUT_EDGES).
    Proof using Ho. intros v Bv. apply (Ho OUT_EDGES v Bv). Qed.
    Lemma reduced_is k v : 1 <= v <= n -> Y k v = eval (fl_add fl) (fun e => Some (fl_share fl (rk k (e_src e)) (out_degree es (e_src e)))) (ord OUT_EDGES v).
    Proof using Hset QP Ho.
      intros Bv. unfold reduced_in. change (pr_order (@pagerank F fl E)) with OUT_EDGES. change (pr_reduce (@pagerank F fl E) (v_s (st k))) with (fl_add fl). apply eval_ext. intros e He. apply (Permutation_in e (adds_of v Bv)) in He. apply filter_In in He as [He _].
      unfold delivered, message. rewrite <- after_is. rewrite all_active. cbn [pr_send pagerank fst]. destruct Hset as (_ & _ & _ & Hin). rewrite (degrees fl n blobs dt2 dv fuel Y C q QP k (e_src e)) by apply Hin, He.
      destruct (Z.eqb_spec (out_degree es (e_src e)) 0) as [E0|]; [|reflexivity]. exfalso. unfold out_degree in E0.
      assert (In e (filter (fun e0 => e_src e0 =? e_src e) es)) as Hi by (apply filter_In; split; [auto|apply Z.eqb_refl]).
      destruct (filter _ es) as [|x l]; [destruct Hi|]. rewrite zlen_cons in E0. pose proof (zlen_nonneg l). lia.
    Qed.
    Lemma rank_follows k v : 1 <= v <= n -> rk (S k) v = rank_in fl es (ord OUT_EDGES) (rk k) v.
    Proof using Hset QP Ho.
      intros Bv. unfold rank_in. rewrite <- reduced_is by auto. change (st (S k)) with (step_with (@pagerank F fl E) (pr_neq fl) (Y k) (Z.of_nat k) (st k)). cbn [step_with v_P]. unfold updated_with. destruct (Y k v); reflexivity.
    Qed.
    Lemma ends_in_iff k : job_ends_in (pr_neq fl) n ord jb C q (S k) <-> settled fl n es (rk k) (rk (S k)).
    Proof.
      rewrite <- !after_is. rewrite <- (settled_iff fl m n blobs Hset dt2 dv fuel Y C q QP k).
      - unfold job_ends_in, ends_in. replace (S k - 1)%nat with k by lia. rewrite after_is. split; [intros [H|[_ H]]; [cbn in H; lia|exact H]|]. intros H. right. split; [cbn; lia|exact H].
      - intros v Bv. rewrite after_is. apply (reduced_received n es ord (@pagerank F fl E) dv (st k) v Ho Bv).
    Qed.
  End Run.

  (** PageRank follows one order of additions in all supersteps *)
  Lemma run_pagerank_in : exists (ord : Z -> tree (edge E)) (rank : nat -> Z -> F), adds n es ord /\ (forall v, 1 <= v <= n -> rank O v = fl_start fl) /\
    (forall k v, 1 <= v <= n -> rank (S k) v = rank_in fl es ord (rank k) v) /\
    ((exists g K P, run_pagerank fl m th fr1 fr2 dt1 dt2 dv fuel n blobs = Ok (g, Z.of_nat K) /\ (1 <= K <= fuel)%nat /\ shows_properties n m g P /\
        (forall v, 1 <= v <= n -> P v = mkPR (rank K v) (out_degree es v)) /\
        settled fl n es (rank (K - 1)%nat) (rank K) /\ forall k, (S k < K)%nat -> ~ settled fl n es (rank k) (rank (S k))) \/
     (run_pagerank fl m th fr1 fr2 dt1 dt2 dv fuel n blobs = Err NoFuel /\ forall k, (k < fuel)%nat -> ~ settled fl n es (rank k) (rank (S k)))).
  Proof using Hset Hl Ht Hfr1 Hfr2.
    pose proof Hset as (Hm & Hn & Lb & Hin). unfold run_pagerank. destruct (load_is m Hm n Hn (pr_new fl) blobs Lb Hin) as (g0 & -> & H0). cbn [bind].
    destruct (init_is m Hm n Hn th fr1 dt1 g0 _ Hfr1 H0) as (xy & -> & Hxy). cbn [bind run_call].
    destruct (act_op m Hm n Hn (m_serv m) th AAllActive g0 _ Ht I H0) as (g1 & -> & H1). cbn [bind].
    destruct (degree_is fl m Hm n Hn th dt1 dv 1 fr1 (Some xy) (fun _ => dt1) g1 _ Ht Hfr1 H1 Hxy) as (r1 & P1 & A1 & -> & H2 & HP1); [lia|reflexivity|exact Hl|]. cbn [bind fst].
    destruct (init_is m Hm n Hn th fr2 dt2 (r_g r1) _ Hfr2 H2) as (xy2 & -> & Hxy2). cbn [bind run_call].
    destruct (act_op m Hm n Hn (m_serv m) th AAllActive (r_g r1) _ Ht I H2) as (g3 & -> & H3). cbn [bind gs_es gs_P gs_A loaded] in *.
    set (q3 := mkGS _ _ _) in H3.
    assert (forall v, 1 <= v <= n -> gs_P q3 v = mkPR (fl_start fl) (out_degree es v)) as QP.
    { intros v Bv. cbn [q3 gs_P]. rewrite HP1 by auto. cbn [p_rank p_degree pr_new]. unfold out_degree. destruct (Z.eqb_spec (zlen (filter (fun e => e_src e =? v) es)) 0) as [->|]; reflexivity. }
    pose proof (gorder_of m Hm n Hn g3 q3 H3) as Ho. cbn [gs_es q3] in Ho. set (ord := gorder m n g3) in *.
    exists (ord OUT_EDGES), (fun k v => p_rank (v_P (job_after_in (pr_neq fl) ord (mkJ (@pagerank F fl E) tt (-1) dt2 dv fuel) (fun _ => dt2) q3 k) v)).
    split; [exact (adds_of ord Ho)|]. split; [intros v Bv; unfold job_after_in; cbn [after_in begin start v_P]; rewrite QP by auto; reflexivity|].
    split; [intros k v Bv; apply (rank_follows ord q3 QP Ho); auto|].
    destruct (run_op_fixed (pr_neq fl) m Hm n Hn th (mkJ (@pagerank F fl E) tt (-1) dt2 dv fuel) fr2 (Some xy2) (fun _ => dt2) g3 q3 Ht Hfr2 H3 Hxy2) as [(K & r & (BK & He & Hne) & -> & _ & Hg & _)|[He ->]]; cbn [bind fst snd]; fold ord in He.
    - left. fold ord in Hne, Hg. eexists _, K, _. split; [reflexivity|]. cbn [j_fuel] in BK. split; [lia|]. split; [apply (is_properties (pr_neq fl) m Hm n Hn _ _ Hg)|]. cbn [gs_P]. split.
      + intros v Bv. pose proof (degrees_in ord q3 QP K v Bv) as Ed. rewrite <- Ed. destruct (v_P _ v); reflexivity.
      + destruct K as [|K]; [lia|]. replace (S K - 1)%nat with K by lia. split; [apply (ends_in_iff ord q3 QP Ho); exact He|].
        intros k Bk Hc. apply (Hne (S k)); [lia|]. apply (ends_in_iff ord q3 QP Ho), Hc.
    - right. split; [reflexivity|]. intros k Bk Hc. apply (He (S k)); [cbn; lia|]. apply (ends_in_iff ord q3 QP Ho), Hc.
  Qed.
End InOrder.

Section Stop.
  Context {F E byte : Type}.
  Variables (fl : floats F) (val : F -> Q) (fin : F -> Prop) (alpha p top tol least : Q).
  Variables (m : machine (pr_vertex F) E byte) (n D : Z) (blobs : list (list (edge E))) (th : Z) (fr1 : frame Z Z byte) (fr2 : frame F F byte) (dt1 : Z) (dt2 : F) (dv : pr_vertex F) (fuel : nat).
  Notation es := (concat blobs).
  Hypothesis Hr : rounds fl val fin alpha p top tol least.
  Hypothesis Hmo : monotone fl val fin alpha top.
  Hypothesis Hp : (1 <= p)%Q.
  Hypothesis Ha : (0 < alpha)%Q /\ (alpha <= 1)%Q.
  Hypothesis Ht : (0 <= tol)%Q.
  Hypothesis Hset : setting m n blobs.
  Hypothesis Hl : zlen es < 2 ^ 31.
  Hypothesis Hth : threads_ok m (m_serv m) th.
  Hypothesis H1 : frame_ok m th fr1.
  Hypothesis H2 : frame_ok m th fr2.
  Hypothesis HD : forall v, 1 <= v <= n -> in_degree es v <= D.
  Hypothesis HD0 : 0 <= D.
  Hypothesis HP : (p ^ (D + 3) <= 1 + alpha / 4)%Q.
  Hypothesis Htop : (inject_Z (3 * n) <= top)%Q.
  Hypothesis Hfuel : ((2 - alpha) * inject_Z n < inject_Z (Z.of_nat fuel) * least)%Q.

  Lemma pagerank_stops : exists g K P, run_pagerank fl m th fr1 fr2 dt1 dt2 dv fuel n blobs = Ok (g, Z.of_nat K) /\ (1 <= K)%nat /\
    (inject_Z (Z.of_nat (K - 1)) * least <= (2 - alpha) * inject_Z n)%Q /\ shows_properties n m g P /\
    (forall v, 1 <= v <= n -> p_degree (P v) = out_degree es v /\ fin (p_rank (P v)) /\ (alpha <= val (p_rank (P v)))%Q) /\
    forall e x, solves_within n es alpha alpha e x -> (alpha * apart n (fun v => val (p_rank (P v))) x <= inject_Z n * ((1 - alpha) * tol + e + 2 * (p ^ (D + 3) - 1)))%Q.
  Proof using Hr Hmo Hp Ha Ht Hset Hl Hth H1 H2 HD HD0 HP Htop Hfuel.
    pose proof Hset as (_ & Hn & _ & Hin).
    destruct (run_pagerank_in fl m n blobs Hset Hl th fr1 fr2 dt1 dt2 dv fuel Hth H1 H2) as (ord & rank & Hord & H0 & Hk & X).
    pose proof (fun K => unsettled_few fl val fin alpha p top tol least n D es Hr Hmo Hp Ha Hn Hin Hl HD HD0 HP Htop ord Hord rank K H0 (fun k v _ => Hk k v) K (le_n K)) as U.
    destruct X as [(g & K & P & Er & BK & HPr & HR & Hs & Hu)|[Er Hu]].
    2:{ exfalso. specialize (U fuel Hu). lra. }
    pose proof (in_step fl n es ord Hord rank K (fun k v _ => Hk k v)) as Hst.
    exists g, K, P. split; [exact Er|]. split; [lia|]. split; [apply U; intros i Hi; apply Hu; lia|]. split; [exact HPr|]. split.
    - intros v Bv. rewrite HR by auto. split; [reflexivity|].
      destruct (fine_all fl val fin alpha p top tol least n D es Hr Hp Ha Hn Hin Hl HD HD0 HP Htop rank K H0 Hst K (le_n K)) as [HF _]. split; [apply HF, Bv|].
      apply (rank_least fl val fin alpha p top tol least n D es Hr Hmo Hp Ha Hn Hin Hl HD HD0 HP Htop ord Hord rank K H0 (fun k v _ => Hk k v) K v (le_n K) Bv).
    - intros e x Hx. eapply Qle_trans; [|apply (settled_close fl val fin alpha p top tol least n D es Hr Hp Ha Hn Hin Hl HD HD0 HP Htop rank K H0 Hst x e ltac:(lia) Ht Hs Hx)].
      apply Qle_lteq. right. apply Qmult_comp; [reflexivity|]. apply FlowProofs.qt_ext. intros v Hv. apply in_zrange in Hv. rewrite HR by lia. reflexivity.
  Qed.
End Stop.
