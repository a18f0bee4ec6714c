(** PageRank in single precision, as a program run: lemmas behind PropsFloat.v. *)
From Coq Require Import SpecFloat QArith Qabs Qpower Lqa.
From Verif Require Import Base BaseLemmas Reduce DCSC Segment Vec Graph Runtime RunSpec RuntimeProofs GraphOps GraphHist Apps AppSpec RankSpec PageRankProofs FlowSpec FlowProofs FloatSpec FloatProofs FloatRun Float32 Float32Proofs.
Local Open Scope Z_scope.

Lemma pagerank_float32 {E byte} (m : machine (pr_vertex spec_float) E byte) n D blobs th fr1 fr2 dt1 dt2 dv fuel g K :
  setting m n blobs -> n < 2 ^ 31 -> zlen (concat blobs) < 2 ^ 31 -> threads_ok m (m_serv m) th -> frame_ok m th fr1 -> frame_ok m th fr2 ->
  (forall v, 1 <= v <= n -> in_degree (concat blobs) v <= D) -> 0 <= D <= 2 ^ 20 ->
  run_pagerank float32 m th fr1 fr2 dt1 dt2 dv fuel n blobs = Ok (g, K) ->
  exists P, shows_properties n m g P /\
    (forall v, 1 <= v <= n -> p_degree (P v) = out_degree (concat blobs) v /\ finite32 (p_rank (P v)) /\ (0 < fval (p_rank (P v)))%Q) /\
    forall e x, solves_within n (concat blobs) alphaQ alphaQ e x ->
      (alphaQ * apart n (fun v => fval (p_rank (P v))) x <= inject_Z n * ((1 - alphaQ) * (100001 # 10000000000) + e + inject_Z (D + 3) * (9 # 67108864)))%Q.
Proof.
  intros Hs Hn31 Hl Hth H1 H2 HD [HD0 HD1] Hrun. pose proof Hs as (_ & Hn & _).
  assert (Dq : (inject_Z (D + 3) <= inject_Z (2 ^ 20 + 3))%Q) by (rewrite <- Zle_Qle; lia). change (inject_Z (2 ^ 20 + 3)) with (1048579 # 1) in Dq.
  assert (A : (0 < alphaQ)%Q /\ (alphaQ <= 1)%Q /\ ((75 # 1000) <= alphaQ / 4)%Q) by (split; [reflexivity|split; vm_compute; discriminate]).
  assert (Hlin : (p24 ^ (D + 3) <= 1 + (9 # 8) * (inject_Z (D + 3) * (1 # 16777216)))%Q).
  { assert (Ep : (p24 == 1 + (1 # 16777216))%Q) by reflexivity. rewrite Ep. apply pow_linear; [discriminate|lia|]. lra. }
  destruct (pagerank_rounded float32 fval finite32 alphaQ p24 top32 (100001 # 10000000000) (99999 # 10000000000) m n D blobs th fr1 fr2 dt1 dt2 dv fuel) as [(g' & K' & P & E' & _ & HP & HR & HX)|[E' _]]; auto.
  - exact float32_rounds.
  - exact p24_ge.
  - tauto.
  - discriminate.
  - lra.
  - unfold top32. rewrite <- Zle_Qle. lia.
  - rewrite Hrun in E'. injection E' as -> _. exists P. split; [exact HP|]. split.
    + intros v Bv. destruct (HR v Bv) as (D1 & D2 & D3). split; [exact D1|]. split; [exact D2|]. eapply Qlt_le_trans; [|exact D3]. reflexivity.
    + intros e x Hx. eapply Qle_trans; [apply (HX e x Hx)|]. rewrite !(Qmult_comm (inject_Z n)). apply Qmult_le_compat_r; [lra|]. change 0%Q with (inject_Z 0). rewrite <- Zle_Qle. lia.
  - rewrite Hrun in E'. discriminate.
Qed.
