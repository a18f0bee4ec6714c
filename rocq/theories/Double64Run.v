(** IncrementalPageRank in double precision: DoubleProofs.v for the arithmetic of Double64.v. *)
From Coq Require Import SpecFloat QArith Qabs Qpower Lqa.
From Verif Require Import Base BaseLemmas Reduce DCSC Segment Vec Graph Runtime RunSpec RuntimeProofs GraphOps GraphHist AppBase AppSpec RankSpec FlowSpec FloatSpec FloatProofs FloatRun.
From Verif Require Import IncRank DoubleSpec DoubleProofs Float32 Float32Proofs Double64 Double64Proofs.
Local Open Scope Z_scope.

Lemma in_degree_most {E} (es : list (edge E)) v : in_degree es v <= zlen es.
Proof. unfold in_degree. apply zlen_filter_le. Qed.
Lemma increment64 {E byte} (m : machine (ip_vertex spec_float) E byte) n D blobs th fr1 fr2 dt1 dt2 dv fuel :
  setting m n blobs -> n < 2 ^ 31 -> zlen (concat blobs) < 2 ^ 31 -> threads_ok m (m_serv m) th -> frame_ok m th fr1 -> frame_ok m th fr2 ->
  (forall v, 1 <= v <= n -> in_degree (concat blobs) v <= D) -> 0 <= D < 2 ^ 31 -> 400000005 * n + 1 <= Z.of_nat fuel ->
  exists g K P drops, run_increment float64 m th fr1 fr2 dt1 dt2 dv fuel n blobs = Ok (g, K) /\ 1 <= K <= 400000005 * n + 1 /\ shows_properties n m g P /\
    (forall v, 1 <= v <= n -> ip_degree (P v) = out_degree (concat blobs) v /\ finite64 (ip_rank (P v)) /\ (startQ64 <= fval (ip_rank (P v)))%Q /\
      (in_degree (concat blobs) v = 0 -> ip_rank (P v) = lit_03)) /\
    (forall v, 1 <= v <= n -> zlen (drops v) <= K /\ forall x, In x (drops v) -> (litQ64 < x)%Q /\ (x <= p53 * (100000001 # 10000000000000000) + (p53 - 1) * fval (ip_rank (P v)))%Q) /\
    forall v, 1 <= v <= n -> let T := (startQ64 + (1 - startQ64) * inflow (concat blobs) (fun u => fval (ip_rank (P u))) v)%Q in
      (fval (ip_rank (P v)) <= p53 ^ (D + 4 + 3 * K) * T)%Q /\
      (T <= p53 ^ (D + 4 + 3 * K) * (fval (ip_rank (P v)) + litQ64 + (1 - startQ64) * inflow (concat blobs) (fun u => qtotal (drops u)) v))%Q.
Proof.
  intros Hs Hn31 Hl Hth H1 H2 HD [HD0 HD1] Hf. pose proof Hs as (_ & Hn & _).
  assert (Nq : (0 <= inject_Z n)%Q) by (change 0%Q with (inject_Z 0); rewrite <- Zle_Qle; lia).
  assert (Nq2 : (inject_Z n <= inject_Z (2 ^ 31))%Q) by (rewrite <- Zle_Qle; lia). change (inject_Z (2 ^ 31)) with (2147483648 # 1) in Nq2.
  assert (Ec : forall z, (inject_Z (400000005 * n + z) == (400000005 # 1) * inject_Z n + inject_Z z)%Q) by (intros z; rewrite inject_Z_plus, inject_Z_mult; reflexivity).
  set (c := (startQ64 * (99999999 # 10000000000000000))%Q).
  assert (Cp : (0 < c)%Q) by reflexivity.
  assert (C4 : (4 * startQ64 <= (400000005 # 1) * c)%Q) by (vm_compute; discriminate).
  assert (B : (4 * (inject_Z n * startQ64) <= (400000005 # 1) * inject_Z n * c)%Q) by (pose proof (Qmult_le_compat_r _ _ _ C4 Nq); lra).
  destruct (increment_rounded float64 fval finite64 startQ64 startQ64 p53 litQ64 (99999999 # 10000000000000000) (100000001 # 10000000000000000) top64 m n D blobs th fr1 fr2 dt1 dt2 dv fuel float64_rounds p53_ge) as (g & K & P & dr & Er & K1 & K2 & HP & HR & Hd & HX).
  - split; [reflexivity|vm_compute; discriminate].
  - reflexivity.
  - reflexivity.
  - discriminate.
  - exact Hs.
  - exact Hl.
  - exact Hth.
  - exact H1.
  - exact H2.
  - exact HD.
  - exact HD0.
  - assert (Dq : (inject_Z (D + 3) <= inject_Z (2 ^ 31 + 2))%Q) by (rewrite <- Zle_Qle; lia). change (inject_Z (2 ^ 31 + 2)) with (2147483650 # 1) in Dq.
    assert (Hlin : (p53 ^ (D + 3) <= 1 + (9 # 8) * (inject_Z (D + 3) * (1 # 9007199254740992)))%Q).
    { assert (Ep : (p53 == 1 + (1 # 9007199254740992))%Q) by reflexivity. rewrite Ep. apply pow_linear; [discriminate|lia|]. lra. }
    assert (Hlin2 : (p53 ^ (D + 3) <= 1001 # 1000)%Q) by lra.
    assert (P0 : (0 <= p53 + (p53 - 1) * (17179869184 # 1))%Q) by (vm_compute; discriminate).
    assert (P1 : ((p53 + (p53 - 1) * (17179869184 # 1)) * (1001 # 1000) <= 1 + startQ64 / 2)%Q) by (vm_compute; discriminate).
    eapply Qle_trans; [|exact P1]. rewrite !(Qmult_comm (p53 + _)). apply Qmult_le_compat_r; assumption.
  - assert (X : (16 * (2147483648 * startQ64) <= startQ64 * top64)%Q) by (vm_compute; discriminate). eapply Qle_trans; [|exact X].
    assert (0 < startQ64)%Q by reflexivity. assert (0 <= ((2147483648 # 1) - inject_Z n) * startQ64)%Q by (apply Qmult_le_0_compat; lra). lra.
  - change (startQ64 * (99999999 # 10000000000000000))%Q with c. rewrite Zle_Qle, Ec in Hf. change (inject_Z 1) with 1%Q in Hf.
    assert ((((400000005 # 1) * inject_Z n + 1) * c <= inject_Z (Z.of_nat fuel) * c)%Q) by (apply Qmult_le_compat_r; [exact Hf|lra]). lra.
  - exists g, (Z.of_nat K), P, dr. split; [exact Er|]. split; [|auto].
    split; [lia|]. change (startQ64 * (99999999 # 10000000000000000))%Q with c in K2. assert (Z.of_nat K - 1 <= 400000005 * n + 0) as X; [|lia]. rewrite Zle_Qle, Ec. change (inject_Z 0) with 0%Q.
    apply (Qmult_le_r _ _ c); [reflexivity|]. lra.
Qed.
