(** IEEE-754 single precision is monotone: rounding to nearest does not reverse the order of two
    numbers.  PageRank in single precision stops: lemmas behind PropsFloat.v. *)
From Verif Require Import Base Apps FlowSpec FloatSpec Float32 Float32Proofs FloatOrder.
From Coq Require Import ZArith SpecFloat QArith Qreals Qpower Lqa Reals RMicromega Lra.
From Flocq Require Import Core BinarySingleNaN.
Local Open Scope Q_scope.

Lemma fval_le x y : fval x <= fval y <-> (sv x <= sv y)%R.
Proof. rewrite <- !fval_sv. split; [apply Qle_Rle|apply Rle_Qle]. Qed.
Lemma rnd24_le a b : (a <= b)%R -> (rnd24 a <= rnd24 b)%R.
Proof. intros H. apply round_le; [apply fexp_correct; reflexivity|apply valid_rnd_round_mode|exact H]. Qed.
Lemma rnd53_le a b : (a <= b)%R -> (rnd53 a <= rnd53 b)%R.
Proof. intros H. apply round_le; [apply fexp_correct; reflexivity|apply valid_rnd_round_mode|exact H]. Qed.

Lemma mix_mono x y : finite32 x -> finite32 y -> 0 <= fval x -> fval x <= fval y -> fval y <= top32 -> fval (fl_mix float32 x) <= fval (fl_mix float32 y).
Proof.
  intros Hx Hy B1 B2 B3. destruct (mix_ok x Hx) as (_ & _ & Ex); [Lqa.lra|]. destruct (mix_ok y Hy) as (_ & _ & Ey); [Lqa.lra|].
  apply fval_le. rewrite Ex, Ey. apply rnd24_le, rnd53_le, Rplus_le_compat_l, rnd53_le, Rmult_le_compat_l.
  - rewrite <- RMicromega.Q2R_0. apply Qle_Rle. vm_compute. discriminate.
  - apply rnd53_le, fval_le, B2.
Qed.
Lemma float32_monotone : monotone float32 fval finite32 alphaQ top32.
Proof.
  split.
  - intros r r' d Hr Hr' B1 B2 B3 Hd. destruct (share_ok r d Hr) as (_ & _ & E1); [Lqa.lra|exact Hd|]. destruct (share_ok r' d Hr') as (_ & _ & E2); [Lqa.lra|exact Hd|].
    apply fval_le. rewrite E1, E2. apply rnd24_le. unfold Rdiv. apply Rmult_le_compat_r; [|apply fval_le, B2].
    left. apply Rinv_0_lt_compat. rewrite <- fval_sv, <- RMicromega.Q2R_0. apply Qlt_Rlt. destruct (of_int_ok d Hd) as [_ [W _]].
    assert (1 <= inject_Z d) by (change 1 with (inject_Z 1); rewrite <- Zle_Qle; lia). change (p24 ^ 1) with (16777217 # 16777216) in W. Lqa.lra.
  - intros a b a' b' Ha Hb Ha' Hb' N1 N2 L1 L2 T. destruct (add32_ok a b Ha Hb) as (_ & _ & E1); try Lqa.lra. destruct (add32_ok a' b' Ha' Hb') as (_ & _ & E2); try Lqa.lra.
    apply fval_le. rewrite E1, E2. apply rnd24_le, Rplus_le_compat; apply fval_le; assumption.
  - exact mix_mono.
  - intros x Hx B1 B2. assert (E : fval (fl_mix float32 (S754_zero false)) == alphaQ) by (vm_compute; reflexivity). rewrite <- E.
    apply mix_mono; auto; [split; [reflexivity|exact I]|apply Qle_refl].
Qed.

From Verif Require Import BaseLemmas Reduce DCSC Segment Vec Graph Runtime RunSpec RuntimeProofs GraphOps GraphHist AppSpec RankSpec FloatProofs FloatRun FloatStop.
Local Open Scope Z_scope.
Lemma pagerank_stops32 {E byte} (m : machine (pr_vertex spec_float) E byte) n D blobs th fr1 fr2 dt1 dt2 dv fuel :
  setting m n blobs -> n < 2 ^ 31 -> zlen (concat blobs) < 2 ^ 31 -> threads_ok m (m_serv m) th -> frame_ok m th fr1 -> frame_ok m th fr2 ->
  (forall v, 1 <= v <= n -> in_degree (concat blobs) v <= D) -> 0 <= D <= 2 ^ 20 -> 170002 * n + 1 <= Z.of_nat fuel ->
  exists g K P, run_pagerank float32 m th fr1 fr2 dt1 dt2 dv fuel n blobs = Ok (g, K) /\ 1 <= K <= 170002 * n + 1 /\ shows_properties n m g P /\
    (forall v, 1 <= v <= n -> p_degree (P v) = out_degree (concat blobs) v /\ finite32 (p_rank (P v)) /\ (alphaQ <= fval (p_rank (P v)))%Q) /\
    forall e x, solves_within n (concat blobs) alphaQ alphaQ e x ->
      (alphaQ * apart n (fun v => fval (p_rank (P v))) x <= inject_Z n * ((1 - alphaQ) * (100001 # 10000000000) + e + inject_Z (D + 3) * (9 # 67108864)))%Q.
Proof.
  intros Hs Hn31 Hl Hth H1 H2 HD [HD0 HD1] Hf. pose proof Hs as (_ & Hn & _).
  assert (Dq : (inject_Z (D + 3) <= inject_Z (2 ^ 20 + 3))%Q) by (rewrite <- Zle_Qle; lia). change (inject_Z (2 ^ 20 + 3)) with (1048579 # 1) in Dq.
  assert (A : (0 < alphaQ)%Q /\ (alphaQ <= 1)%Q /\ ((75 # 1000) <= alphaQ / 4)%Q) by (split; [reflexivity|split; vm_compute; discriminate]).
  assert (Hlin : (p24 ^ (D + 3) <= 1 + (9 # 8) * (inject_Z (D + 3) * (1 # 16777216)))%Q).
  { assert (Ep : (p24 == 1 + (1 # 16777216))%Q) by reflexivity. rewrite Ep. apply pow_linear; [discriminate|lia|]. Lqa.lra. }
  assert (Nq : (0 <= inject_Z n)%Q) by (change 0%Q with (inject_Z 0); rewrite <- Zle_Qle; lia).
  assert (B : ((2 - alphaQ) * inject_Z n <= (170002 # 1) * inject_Z n * (99999 # 10000000000))%Q).
  { assert (((2 - alphaQ) <= (170002 # 1) * (99999 # 10000000000))%Q) as L by (vm_compute; discriminate). pose proof (Qmult_le_compat_r _ _ _ L Nq). Lqa.lra. }
  assert (Ec : forall z, (inject_Z (170002 * n + z) == (170002 # 1) * inject_Z n + inject_Z z)%Q) by (intros z; rewrite inject_Z_plus, inject_Z_mult; reflexivity).
  destruct (pagerank_stops float32 fval finite32 alphaQ p24 top32 (100001 # 10000000000) (99999 # 10000000000) m n D blobs th fr1 fr2 dt1 dt2 dv fuel) as (g & K & P & Er & K1 & K2 & HP & HR & HX); auto.
  - exact float32_rounds.
  - exact float32_monotone.
  - exact p24_ge.
  - tauto.
  - discriminate.
  - Lqa.lra.
  - unfold top32. rewrite <- Zle_Qle. lia.
  - rewrite Zle_Qle, Ec in Hf. change (inject_Z 1) with 1%Q in Hf. assert ((((170002 # 1) * inject_Z n + 1) * (99999 # 10000000000) <= inject_Z (Z.of_nat fuel) * (99999 # 10000000000))%Q) by (apply Qmult_le_compat_r; [exact Hf|discriminate]). Lqa.lra.
  - exists g, (Z.of_nat K), P. split; [exact Er|]. split; [|split; [exact HP|split; [exact HR|]]].
    + split; [lia|]. assert (Z.of_nat (K - 1) <= 170002 * n + 0) as X; [|lia]. rewrite Zle_Qle, Ec. change (inject_Z 0) with 0%Q.
      apply (Qmult_le_r _ _ (99999 # 10000000000)); [reflexivity|]. Lqa.lra.
    + intros e x Hx. eapply Qle_trans; [apply (HX e x Hx)|]. rewrite !(Qmult_comm (inject_Z n)). apply Qmult_le_compat_r; [Lqa.lra|exact Nq].
Qed.
