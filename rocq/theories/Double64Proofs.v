(** Proofs about Double64.v: double precision rounds as DoubleSpec.v asks. *)
From Coq Require Import ZArith QArith Qabs Qpower Lqa Reals Qreals SpecFloat.
From Coq Require Import Lia.
From Flocq Require Import Core BinarySingleNaN.
From Verif Require Import Base FloatSpec FloatProofs IncRank Float32 Float32Proofs Float32Mono DoubleSpec Double64.
Local Open Scope Q_scope.

(** the double nearest to 0.3 *)
Definition startQ64 : Q := 5404319552844595 # 18014398509481984.
Definition top64 : Q := inject_Z (2 ^ 100).
Definition litQ64 : Q := fval lit_1em8.
Lemma finite64_fok x : finite64 x <-> fok 53 1024 x. Proof. reflexivity. Qed.
Lemma start64 : finite64 lit_03 /\ fval lit_03 == startQ64.
Proof. split; [split; [vm_compute; reflexivity|exact I]|vm_compute; reflexivity]. Qed.
Lemma lit64 : finite64 lit_1em8 /\ p53 * fval lit_1em8 <= (100000001 # 10000000000000000) /\ p53 * (99999999 # 10000000000000000) < fval lit_1em8.
Proof. split; [split; [vm_compute; reflexivity|exact I]|]. split; [vm_compute; discriminate|vm_compute; reflexivity]. Qed.
Lemma damp64 : finite64 (SFsub 53 1024 (of_int 53 1024 1) lit_03) /\ within p53 1 (fval (SFsub 53 1024 (of_int 53 1024 1) lit_03)) (1 - startQ64).
Proof. split; [split; [vm_compute; reflexivity|exact I]|]. split; vm_compute; discriminate. Qed.
Lemma top_100d : top64 <= (2 # 1) ^ 100. Proof. vm_compute. discriminate. Qed.

Lemma of_int64_ok d : (1 <= d < 2 ^ 31)%Z -> finite64 (of_int 53 1024 d) /\ within p53 1 (fval (of_int 53 1024 d)) (inject_Z d).
Proof.
  intros H. assert (E : F2R (Float radix2 d 0) = Q2R (inject_Z d)) by (unfold F2R, Q2R, inject_Z; cbn; rewrite RMicromega.Rinv_1; Lra.lra).
  assert (D1 : 1 <= inject_Z d) by (change 1 with (inject_Z 1); rewrite <- Zle_Qle; lia). assert (D2 : inject_Z d <= inject_Z (2 ^ 31)) by (rewrite <- Zle_Qle; lia).
  destruct (normalize_ok 53 1024 _ _ d 0 false) as (F1 & F2 & _).
  - right. rewrite E. apply low_q. rewrite Qabs_pos by lra. eapply Qle_trans; [|exact D1]. vm_compute. discriminate.
  - rewrite E. apply high_q. rewrite Qabs_pos by lra. eapply Qle_trans; [exact D2|]. vm_compute. discriminate.
  - split; [exact F1|]. rewrite E in F2. apply (close_q 53 p53 _ _ uu53) in F2. apply qclose_within; [lra|exact F2].
Qed.
Lemma share64_ok r d : finite64 r -> litQ64 < fval r <= top64 -> (1 <= d < 2 ^ 31)%Z ->
  finite64 (db_share float64 r d) /\ within p53 2 (fval (db_share float64 r d)) (fval r / inject_Z d).
Proof.
  intros Hr [B1 B2] Hd. cbn [db_share float64]. destruct (of_int64_ok d Hd) as [Hf [W1 W2]]. change (p53 ^ 1) with p53 in *. set (x := of_int 53 1024 d) in *.
  assert (D1 : 1 <= inject_Z d) by (change 1 with (inject_Z 1); rewrite <- Zle_Qle; lia). assert (D2 : inject_Z d <= inject_Z (2 ^ 31)) by (rewrite <- Zle_Qle; lia).
  set (D := inject_Z d) in *. set (X := fval x) in *. change (inject_Z (2 ^ 31)) with (2147483648 # 1) in D2. unfold top64 in B2. change (inject_Z (2 ^ 100)) with (1267650600228229401496703205376 # 1) in B2.
  unfold p53 in W1, W2. assert (X1 : (1 # 2) <= X) by lra. assert (X2 : X <= (4294967296 # 1)) by lra.
  assert (A0 : (1 # 134217728) <= litQ64) by (vm_compute; discriminate).
  assert (Q0 : 0 <= fval r) by lra.
  assert (I0 : 0 < / X) by (apply Qinv_lt_0_compat; lra). assert (IX : X * / X == 1) by (apply Qmult_inv_r; lra). assert (ID : D * / D == 1) by (apply Qmult_inv_r; lra). assert (J0 : 0 < / D) by (apply Qinv_lt_0_compat; lra).
  assert (L : (1 # 4294967296) <= / X) by (assert (0 <= ((4294967296 # 1) - X) * / X) by (apply Qmult_le_0_compat; lra); lra).
  assert (U : / X <= 2) by (assert (0 <= (X - (1 # 2)) * / X) by (apply Qmult_le_0_compat; lra); lra).
  assert (Ll : (1 # 576460752303423488) <= fval r / X).
  { unfold Qdiv. assert (0 <= (fval r - (1 # 134217728)) * / X) by (apply Qmult_le_0_compat; lra). lra. }
  assert (Uu : fval r / X <= (2535301200456458802993406410752 # 1)).
  { unfold Qdiv. assert (0 <= fval r * (2 - / X)) by (apply Qmult_le_0_compat; lra). lra. }
  assert (E : (sv r / sv x)%R = Q2R (fval r / X)) by (unfold X; rewrite Q2R_div, !fval_sv; [reflexivity|fold X; lra]).
  destruct (div_ok 53 1024 _ _ r x Hr Hf) as (F1 & F2 & _).
  - intros C. rewrite <- fval_sv in C. fold X in C. assert (HX : (0 < Q2R X)%R) by (rewrite <- RMicromega.Q2R_0; apply Qlt_Rlt; lra). Lra.lra.
  - right. rewrite E. apply low_q. rewrite Qabs_pos by lra. eapply Qle_trans; [|exact Ll]. vm_compute. discriminate.
  - rewrite E. apply high_q. rewrite Qabs_pos by lra. eapply Qle_trans; [exact Uu|]. vm_compute. discriminate.
  - split; [exact F1|]. rewrite E in F2. apply (close_q 53 p53 _ _ uu53) in F2. apply qclose_within in F2; [|lra].
    change 2%Z with (1 + 1)%Z. apply (within_trans p53 p53_ge 1 1 _ (fval r / X)); [lia|lia|exact F2|]. unfold within, Qdiv. change (p53 ^ 1) with p53. unfold p53.
    set (c := 9007199254740993 # 9007199254740992) in *.
    assert (G1 : / D <= c * / X).
    { assert (0 <= (c * D - X) * (/ D * / X)) by (apply Qmult_le_0_compat; [lra|apply Qmult_le_0_compat; lra]).
      assert (D * / D * / X == / X) by (rewrite ID; ring). assert (X * / X * / D == / D) by (rewrite IX; ring).
      assert (c * (D * / D * / X) == c * / X) by (rewrite H0; reflexivity). lra. }
    assert (G2 : / X <= c * / D).
    { assert (0 <= (c * X - D) * (/ D * / X)) by (apply Qmult_le_0_compat; [lra|apply Qmult_le_0_compat; lra]).
      assert (D * / D * / X == / X) by (rewrite ID; ring). assert (X * / X * / D == / D) by (rewrite IX; ring).
      assert (c * (X * / X * / D) == c * / D) by (rewrite H1; reflexivity). lra. }
    split.
    + assert (0 <= fval r * (c * / X - / D)) by (apply Qmult_le_0_compat; lra). lra.
    + assert (0 <= fval r * (c * / D - / X)) by (apply Qmult_le_0_compat; lra). lra.
Qed.
Lemma add64_ok a b : finite64 a -> finite64 b -> 0 <= fval a -> 0 <= fval b -> fval a + fval b <= top64 ->
  finite64 (db_add float64 a b) /\ within p53 1 (fval (db_add float64 a b)) (fval a + fval b) /\ sv (db_add float64 a b) = rnd53 (sv a + sv b).
Proof.
  intros Ha Hb Na Nb T. cbn [db_add float64]. assert (E : (sv a + sv b)%R = Q2R (fval a + fval b)) by (rewrite Q2R_plus, !fval_sv; reflexivity).
  destruct (add_ok 53 1024 _ _ a b Ha Hb) as (F1 & F2 & F3).
  - rewrite E. apply high_q. rewrite Qabs_pos by lra. apply (pow_le 100); [vm_compute; discriminate|]. eapply Qle_trans; [exact T|apply top_100d].
  - split; [exact F1|]. split; [|exact F3]. rewrite E in F2. apply (close_q 53 p53 _ _ uu53) in F2. apply qclose_within; [lra|exact F2].
Qed.
(** a number that has a double of its own is not rounded, and rounding goes to the nearest one *)
Lemma format64 x : finite64 x -> generic_format radix2 (SpecFloat.fexp 53 1024) (sv x).
Proof. intros H. destruct (fok_B 53 1024 x H) as (b & _ & _ & <-). apply (fmt 53 1024). Qed.
Lemma grow64 a b : finite64 a -> finite64 b -> 0 <= fval a -> 0 <= fval b -> fval a + fval b <= top64 ->
  fval a <= fval (db_add float64 a b) <= fval a + 2 * fval b.
Proof.
  intros Ha Hb Na Nb T. destruct (add64_ok a b Ha Hb Na Nb T) as (_ & _ & E).
  assert (Nb' : (0 <= sv b)%R) by (rewrite <- fval_sv, <- RMicromega.Q2R_0; apply Qle_Rle, Nb).
  pose proof (format64 a Ha) as Fa.
  assert (V : Valid_exp (SpecFloat.fexp 53 1024)) by (apply fexp_correct; reflexivity).
  destruct (round_N_pt radix2 (SpecFloat.fexp 53 1024) (fun z => negb (Z.even z)) (sv a + sv b)%R) as [_ N]. specialize (N (sv a) Fa).
  change (Znearest (fun z => negb (Z.even z))) with (round_mode mode_NE) in N. rewrite <- E in N.
  replace (sv a - (sv a + sv b))%R with (- sv b)%R in N by ring. rewrite Rabs_Ropp, (Rabs_pos_eq _ Nb') in N. apply Rabs_def2_le in N || apply Rabs_le_inv in N.
  split.
  - apply fval_le. Lra.lra.
  - apply Rle_Qle. rewrite Q2R_plus, Q2R_mult, !fval_sv. replace (Q2R 2) with 2%R by (unfold Q2R; cbn; Lra.lra). Lra.lra.
Qed.
Lemma damp64_ok x : finite64 x -> litQ64 / inject_Z (2 ^ 33) <= fval x <= top64 ->
  finite64 (db_damp float64 x) /\ within p53 2 (fval (db_damp float64 x)) ((1 - startQ64) * fval x).
Proof.
  intros Hx [B1 B2]. cbn [db_damp float64]. destruct damp64 as [Fb Wb]. set (bt := SFsub 53 1024 _ _) in *.
  assert (A0 : (1 # 2305843009213693952) <= litQ64 / inject_Z (2 ^ 33)) by (vm_compute; discriminate).
  assert (A1 : (1 # 2) <= fval bt /\ fval bt <= 1) by (split; vm_compute; discriminate).
  assert (E : (sv bt * sv x)%R = Q2R (fval bt * fval x)) by (rewrite Q2R_mult, !fval_sv; reflexivity).
  assert (X0 : (1 # 2305843009213693952) <= fval x) by lra.
  assert (P1 : (1 # 4611686018427387904) <= fval bt * fval x) by (assert (0 <= (fval bt - (1 # 2)) * fval x) by (apply Qmult_le_0_compat; lra); lra).
  assert (P2 : fval bt * fval x <= fval x) by (assert (0 <= (1 - fval bt) * fval x) by (apply Qmult_le_0_compat; lra); lra).
  destruct (mul_ok 53 1024 _ _ bt x Fb Hx) as (F1 & C1 & _).
  - right. rewrite E. apply low_q. rewrite Qabs_pos by lra. eapply Qle_trans; [|exact P1]. vm_compute. discriminate.
  - rewrite E. apply high_q. rewrite Qabs_pos by lra. apply (pow_le 100); [vm_compute; discriminate|]. eapply Qle_trans; [exact P2|]. eapply Qle_trans; [exact B2|apply top_100d].
  - split; [exact F1|]. rewrite E in C1. apply (close_q 53 p53 _ _ uu53) in C1. apply qclose_within in C1; [|lra].
    change 2%Z with (1 + 1)%Z. apply (within_trans p53 p53_ge 1 1 _ (fval bt * fval x)); [lia|lia|exact C1|]. pose proof (within_scale p53 1 (fval x) _ _ ltac:(lra) Wb) as [W1 W2]. rewrite !(Qmult_comm (fval x)) in W1, W2. split; assumption.
Qed.
Lemma big64 x : finite64 x -> 0 <= fval x -> (db_big float64 x = true <-> litQ64 < fval x).
Proof.
  intros Hx X0. cbn [db_big float64]. destruct lit64 as [Ft _]. destruct (abs_ok 53 1024 x Hx) as [F1 E1]. rewrite (ltb_is 53 1024 _ _ Ft F1), E1, <- !fval_sv, <- Q2R_abs, (Qeq_eqR _ _ (Qabs_pos _ X0)). unfold litQ64.
  destruct (Rlt_bool_spec (Q2R (fval lit_1em8)) (Q2R (fval x))) as [L|L].
  - split; [intros _; apply Rlt_Qlt, L|reflexivity].
  - split; [discriminate|]. intros C. apply Qlt_Rlt in C. Lra.lra.
Qed.
Lemma far64 x y : finite64 x -> finite64 y -> 0 <= fval x <= top64 -> 0 <= fval y <= top64 ->
  exists z, (db_far float64 x y = true <-> litQ64 < z) /\ 0 <= z /\ Qabs (fval x - fval y) <= p53 * z /\ z <= p53 * Qabs (fval x - fval y).
Proof.
  intros Hx Hy [X0 X1] [Y0 Y1]. cbn [db_far float64]. pose proof top_100d as T.
  assert (E : (sv x - sv y)%R = Q2R (fval x - fval y)) by (rewrite Q2R_minus, !fval_sv; reflexivity).
  assert (B : Qabs (fval x - fval y) <= (2 # 1) ^ 100) by (apply Qabs_case; intros _; lra).
  destruct (sub_ok 53 1024 _ _ x y Hx Hy) as (F1 & C1 & _); [rewrite E; apply high_q, (pow_le 100); [vm_compute; discriminate|exact B]|].
  rewrite E in C1. apply (close_q 53 p53 _ _ uu53) in C1. destruct C1 as (G1 & G2 & _). set (d := SFsub 53 1024 x y) in *. destruct (abs_ok 53 1024 d F1) as [F2 E2].
  exists (Qabs (fval d)). split; [|split; [apply Qabs_nonneg|split; assumption]].
  destruct lit64 as [Ft _]. rewrite (ltb_is 53 1024 _ _ Ft F2), E2, <- !fval_sv, <- Q2R_abs. unfold litQ64. destruct (Rlt_bool_spec (Q2R (fval lit_1em8)) (Q2R (Qabs (fval d)))) as [L|L].
  - split; [intros _; apply Rlt_Qlt, L|reflexivity].
  - split; [discriminate|]. intros C. apply Qlt_Rlt in C. Lra.lra.
Qed.
Lemma float64_rounds : rounds_db float64 fval finite64 startQ64 startQ64 p53 litQ64 (99999999 # 10000000000000000) (100000001 # 10000000000000000) top64.
Proof.
  destruct lit64 as (_ & T1 & T2). change (fval lit_1em8) with litQ64 in *.
  split.
  - exact start64.
  - split; [split; [reflexivity|exact I]|reflexivity].
  - exact share64_ok.
  - intros a b H1 H2 H3 H4 H5. destruct (add64_ok a b H1 H2 H3 H4 H5) as (A & B & _). auto.
  - exact grow64.
  - exact damp64_ok.
  - exact big64.
  - intros x y Hx Hy Bx By Hf. destruct (far64 x y Hx Hy Bx By) as (z & Hz & Z0 & L1 & L2). eapply Qle_trans; [exact L1|]. eapply Qle_trans; [|exact T1].
    assert (L : z <= litQ64) by (apply Qnot_lt_le; intros C; apply Hz in C; congruence).
    assert (0 <= p53 * (litQ64 - z)) by (apply Qmult_le_0_compat; [vm_compute; discriminate|lra]). lra.
  - intros x y Hx Hy Bx By Hf. destruct (far64 x y Hx Hy Bx By) as (z & Hz & Z0 & L1 & L2). apply Hz in Hf. apply Qnot_le_lt. intros C.
    assert (0 <= p53 * ((99999999 # 10000000000000000) - Qabs (fval x - fval y))) by (apply Qmult_le_0_compat; [vm_compute; discriminate|lra]). lra.
Qed.
