(** PageRank with rounding, as a program run: lemmas behind PropsFloat.v. *)
From Coq Require Import QArith Qabs Qpower Lqa.
From Verif Require Import Base BaseLemmas Reduce DCSC Segment Vec Graph Runtime RunSpec RuntimeProofs GraphOps GraphHist Apps AppSpec RankSpec PageRankProofs FlowSpec FlowProofs FloatSpec FloatProofs.
Local Open Scope Z_scope.

Section FloatRun.
  Context {F E byte : Type}.
  Variables (fl : floats F) (val : F -> Q) (fin : F -> Prop) (alpha p top tol least : Q).
  Variables (m : machine (pr_vertex F) E byte) (n D : Z) (blobs : list (list (edge E))) (th : Z) (fr1 : frame Z Z byte) (fr2 : frame F F byte) (dt1 : Z) (dt2 : F) (dv : pr_vertex F) (fuel : nat).
  Notation es := (concat blobs).
  Hypothesis Hr : rounds fl val fin alpha p top tol least.
  Hypothesis Hp : (1 <= p)%Q.
  Hypothesis Ha : (0 < alpha)%Q /\ (alpha <= 1)%Q.
  Hypothesis Ht : (0 <= tol)%Q.
  Hypothesis Hset : setting m n blobs.
  Hypothesis Hl : zlen es < 2 ^ 31.
  Hypothesis Hth : threads_ok m (m_serv m) th.
  Hypothesis H1 : frame_ok m th fr1.
  Hypothesis H2 : frame_ok m th fr2.
  Hypothesis HD : forall v, 1 <= v <= n -> in_degree es v <= D.
  Hypothesis HD0 : 0 <= D.
  Hypothesis HP : (p ^ (D + 3) <= 1 + alpha / 4)%Q.
  Hypothesis Htop : (inject_Z (3 * n) <= top)%Q.

  Lemma pagerank_rounded :
    (exists g K P, run_pagerank fl m th fr1 fr2 dt1 dt2 dv fuel n blobs = Ok (g, Z.of_nat K) /\ (1 <= K <= fuel)%nat /\ shows_properties n m g P /\
      (forall v, 1 <= v <= n -> p_degree (P v) = out_degree es v /\ fin (p_rank (P v)) /\ (alpha / 2 <= val (p_rank (P v)))%Q) /\
      forall e x, solves_within n es alpha alpha e x -> (alpha * apart n (fun v => val (p_rank (P v))) x <= inject_Z n * ((1 - alpha) * tol + e + 2 * (p ^ (D + 3) - 1)))%Q) \/
    (run_pagerank fl m th fr1 fr2 dt1 dt2 dv fuel n blobs = Err NoFuel /\
      forall k, (k < fuel)%nat -> (alpha * least < (1 - alpha) ^ Z.of_nat k * (2 * inject_Z n) + 4 * inject_Z n * (p ^ (D + 3) - 1))%Q).
  Proof using Hr Hp Ha Ht Hset Hl Hth H1 H2 HD HD0 HP Htop.
    pose proof Hset as (_ & Hn & _ & Hin).
    destruct (run_pagerank_spec fl m n blobs Hset Hl th fr1 fr2 dt1 dt2 dv fuel Hth H1 H2) as (rank & H0 & [(g & K & P & -> & BK & HPr & HR & Hk & Hs & _)|(-> & Hk & Hs)]).
    - left. exists g, K, P. split; [reflexivity|]. split; [exact BK|]. split; [exact HPr|]. split.
      + intros v Bv. rewrite HR by auto. cbn [p_degree p_rank]. split; [reflexivity|].
        destruct (fine_all fl val fin alpha p top tol least n D es Hr Hp Ha Hn Hin Hl HD HD0 HP Htop rank K H0 Hk K (le_n K)) as [HF _]. destruct (HF v Bv) as (A1 & A2 & _). auto.
      + intros e x Hx. eapply Qle_trans; [|apply (settled_close fl val fin alpha p top tol least n D es Hr Hp Ha Hn Hin Hl HD HD0 HP Htop rank K H0 Hk x e ltac:(lia) Ht Hs Hx)].
        apply Qle_lteq. right. apply Qmult_comp; [reflexivity|]. apply qt_ext. intros v Hv. apply in_zrange in Hv. rewrite HR by lia. reflexivity.
    - right. split; [reflexivity|]. intros k Bk. apply (run_moved_far fl val fin alpha p top tol least n D es Hr Hp Ha Hn Hin Hl HD HD0 HP Htop rank fuel H0 Hk k Bk (Hs k Bk)).
  Qed.
End FloatRun.

(** (1+u)^k is at most 1 + 9/8 ku while ku is at most 1/9 *)
Lemma pow_linear u k : (0 <= u)%Q -> 0 <= k -> (9 * (inject_Z k * u) <= 1)%Q -> ((1 + u) ^ k <= 1 + (9 # 8) * (inject_Z k * u))%Q.
Proof.
  intros Hu Hk H. rewrite <- (Z2Nat.id k) in * by lia. induction (Z.to_nat k) as [|j IH]; [change ((1 + u) ^ Z.of_nat 0)%Q with 1%Q; change (inject_Z (Z.of_nat 0)) with 0%Q; lra|].
  rewrite Nat2Z.inj_succ, <- Z.add_1_r in *. rewrite inject_Z_plus in *. change (inject_Z 1) with 1%Q in *. rewrite Qpower_plus by lra. change ((1 + u) ^ 1)%Q with (1 + u)%Q.
  set (x := inject_Z (Z.of_nat j)) in *. assert (Hx : (0 <= x)%Q) by (unfold x; change 0%Q with (inject_Z 0); rewrite <- Zle_Qle; lia).
  assert (X : (0 <= x * u)%Q) by (apply Qmult_le_0_compat; auto). assert (I : ((1 + u) ^ Z.of_nat j <= 1 + (9 # 8) * (x * u))%Q) by (apply IH; [lia|lra]).
  assert (((1 + u) ^ Z.of_nat j * (1 + u) <= (1 + (9 # 8) * (x * u)) * (1 + u))%Q) by (apply Qmult_le_compat_r; [exact I|lra]).
  assert ((0 <= u * (1 - 9 * (x * u)))%Q) by (apply Qmult_le_0_compat; lra). lra.
Qed.
