(** Incremental PageRank with rounding: lemmas behind PropsDouble.v. *)
From Coq Require Import QArith Qabs Qpower Lqa.
From Verif Require Import Base BaseLemmas Layout Reduce ReduceProofs DCSC MatSpec Segment Vec SpMat GraphVert Graph Runtime RunSpec RuntimeProofs GraphOps GraphHist GraphHistProofs Apps AppSpec AppBase RankSpec DegreeProofs PageRankProofs IncRank IncRankProofs FlowSpec FlowProofs FloatSpec FloatProofs DoubleSpec.
Local Open Scope Z_scope.

Section Step.
  Context {F E : Type}.
  Variables (db : doubles F) (val : F -> Q) (fin : F -> Prop) (alpha s0 p lit least most top : Q).
  Variables (n D : Z) (es : list (edge E)) (dv : ip_vertex F).
  Hypothesis Hr : rounds_db db val fin alpha s0 p lit least most top.
  Hypothesis Hp : (1 <= p)%Q.
  Hypothesis Ha : (0 < alpha)%Q /\ (alpha <= 1 # 2)%Q.
  Hypothesis He : (0 < lit)%Q.
  Hypothesis Hs : (lit < s0)%Q.
  Hypothesis Hle : (0 <= least)%Q.
  Hypothesis Hn : 0 <= n.
  Hypothesis Hin : forall e, In e es -> (1 <= e_src e <= n) /\ (1 <= e_dst e <= n).
  Hypothesis Hl : zlen es < 2 ^ 31.
  Hypothesis HD : forall v, 1 <= v <= n -> in_degree es v <= D.
  Hypothesis HD0 : 0 <= D.
  Notation c0 := (p + (p - 1) * (17179869184 # 1))%Q.
  Hypothesis HP : (c0 * p ^ (D + 3) <= 1 + alpha / 2)%Q.
  Notation T0 := (inject_Z n * s0)%Q.
  Hypothesis Htop : (16 * T0 <= alpha * top)%Q.
  Notation pg := (@delta_rank F db E).
  Notation vst := (@vstate Z F (ip_vertex F)).
  Notation vs := (zrange 1 (n + 1)).

  Definition dl (S : vst) v : Q := val (ip_delta (v_P S v)).
  Definition rk (S : vst) v : Q := val (ip_rank (v_P S v)).
  Definition pnd (S : vst) v : Q := match v_A S v with Some true => dl S v | _ => 0%Q end.
  Definition sml (S : vst) v : Q := if Qle_bool (dl S v) lit then dl S v else 0%Q.
  Definition dfine (S : vst) v : Prop :=
    ip_degree (v_P S v) = out_degree es v /\ fin (ip_delta (v_P S v)) /\ fin (ip_rank (v_P S v)) /\ (0 <= dl S v)%Q /\ (s0 <= rk S v)%Q /\
    ((v_A S v = Some true /\ (lit < dl S v)%Q) \/ v_A S v = None) /\ (in_degree es v = 0 -> ip_rank (v_P S v) = db_start db).
  Definition weight (S : vst) v : Q := (alpha * rk S v + 4 * pnd S v + (2 * alpha + 4) * sml S v)%Q.
  Definition weigh (S : vst) : Q := qtotal (map (weight S) vs).
  Definition light (S : vst) : Prop := (forall v, 1 <= v <= n -> dfine S v) /\ (weigh S <= T0 * (alpha + 4))%Q.

  Lemma pD : (1 <= p ^ (D + 3))%Q /\ (p ^ (D + 3) <= 5 # 4)%Q /\ (p <= p ^ (D + 3))%Q /\ (1 <= c0)%Q /\ (c0 <= 5 # 4)%Q.
  Proof using Hr Hp Ha He Hs Hle Hn Hin Hl HD HD0 HP Htop.
    pose proof (pow_ge1 p Hp (D + 3) ltac:(lia)) as G. assert (C : (1 <= c0)%Q).
    { assert (0 <= (p - 1) * (17179869184 # 1))%Q by (apply Qmult_le_0_compat; [lra|discriminate]). lra. }
    assert (X1 : (0 <= (c0 - 1) * (p ^ (D + 3)))%Q) by (apply Qmult_le_0_compat; lra). assert (X2 : (0 <= c0 * (p ^ (D + 3) - 1))%Q) by (apply Qmult_le_0_compat; lra).
    set (c := c0) in *. set (P := (p ^ (D + 3))%Q) in *. assert (Pp : (p <= P)%Q).
    { unfold P. replace (D + 3) with (1 + (D + 2)) by lia. rewrite pow_add by (auto; lia). change (p ^ 1)%Q with p. pose proof (pow_ge1 p Hp (D + 2) ltac:(lia)). assert (0 <= p * (p ^ (D + 2) - 1))%Q by (apply Qmult_le_0_compat; lra). lra. }
    unfold Qdiv in HP. change (/ 2)%Q with (1 # 2) in HP. assert (HH : (c * P <= 5 # 4)%Q) by lra. clearbody c P. split; [lra|]. split; [lra|]. split; [exact Pp|]. split; lra.
  Qed.
  Lemma pw j : 0 <= j <= D + 3 -> (1 <= p ^ j)%Q /\ (p ^ j <= 5 # 4)%Q.
  Proof using Hr Hp Ha He Hs Hle Hn Hin Hl HD HD0 HP Htop.
    intros Hj. pose proof (pow_ge1 p Hp j ltac:(lia)) as G. split; [exact G|]. pose proof pD as (_ & H & _). eapply Qle_trans; [|exact H].
    replace (D + 3) with (j + (D + 3 - j)) by lia. rewrite pow_add by (auto; lia). pose proof (pow_ge1 p Hp (D + 3 - j) ltac:(lia)).
    assert (0 <= p ^ j * (p ^ (D + 3 - j) - 1))%Q by (apply Qmult_le_0_compat; lra). lra.
  Qed.
  Lemma sml_range S v : dfine S v -> (0 <= sml S v)%Q /\ (sml S v <= lit)%Q.
  Proof using Hr Hp Ha He Hs Hle Hn Hin Hl HD HD0 HP Htop. intros (_ & _ & _ & H & _). unfold sml. destruct (Qle_bool (dl S v) lit) eqn:L; [apply Qle_bool_iff in L; lra|lra]. Qed.
  Lemma pnd_range S v : dfine S v -> (0 <= pnd S v)%Q.
  Proof using Hr Hp Ha He Hs Hle Hn Hin Hl HD HD0 HP Htop. intros (_ & _ & _ & H & _). unfold pnd. destruct (v_A S v) as [[]|]; lra. Qed.
  Lemma weight_range S v : dfine S v -> (alpha * rk S v <= weight S v)%Q /\ (4 * pnd S v <= weight S v)%Q.
  Proof using Hr Hp Ha He Hs Hle Hn Hin Hl HD HD0 HP Htop.
    intros H. pose proof (sml_range S v H). pose proof (pnd_range S v H). destruct H as (_ & _ & _ & _ & H & _). unfold weight.
    assert (0 <= alpha * rk S v)%Q by (apply Qmult_le_0_compat; lra). assert (0 <= (2 * alpha + 4) * sml S v)%Q by (apply Qmult_le_0_compat; lra). lra.
  Qed.
  Lemma T0_small v : 1 <= v <= n -> (s0 <= T0)%Q /\ (32 * T0 <= top)%Q /\ (0 <= top)%Q.
  Proof using Hr Hp Ha He Hs Hle Hn Hin Hl HD HD0 HP Htop.
    intros Bv. assert (N : (1 <= inject_Z n)%Q) by (change 1%Q with (inject_Z 1); rewrite <- Zle_Qle; lia).
    assert (G : (0 <= (inject_Z n - 1) * s0)%Q) by (apply Qmult_le_0_compat; lra). assert (G1 : (s0 <= T0)%Q) by lra. clear G. set (t := T0) in *. clearbody t. assert (0 <= top)%Q.
    { apply Qnot_lt_le. intros C. assert (0 <= alpha * - top)%Q by (apply Qmult_le_0_compat; lra). lra. }
    assert (0 <= ((1 # 2) - alpha) * top)%Q by (apply Qmult_le_0_compat; lra). split; [exact G1|]. split; lra.
  Qed.
  Lemma ranges S v : light S -> 1 <= v <= n -> (16 * rk S v <= 5 * top)%Q /\ (4 * qtotal (map (pnd S) vs) <= 5 * T0)%Q /\ (pnd S v <= qtotal (map (pnd S) vs))%Q.
  Proof using Hr Hp Ha He Hs Hle Hn Hin Hl HD HD0 HP Htop.
    intros [HF HW] Bv. destruct (T0_small v Bv) as (T1 & T2 & T3). set (t := T0) in *.
    assert (HW5 : (weigh S <= 5 * t)%Q) by (assert (0 <= t * (1 - alpha))%Q by (apply Qmult_le_0_compat; lra); lra).
    assert (W0 : forall u, In u vs -> (0 <= weight S u)%Q).
    { intros u Hu. apply in_zrange in Hu. pose proof (HF u ltac:(lia)) as Hf. pose proof (weight_range S u Hf). pose proof (pnd_range S u Hf). lra. }
    assert (R1 : (weight S v <= weigh S)%Q) by (apply (qt_one (weight S) vs v W0); apply in_zrange; lia).
    split; [|split].
    - pose proof (weight_range S v (HF v Bv)) as [X _]. assert (Y : (alpha * (16 * rk S v) <= alpha * (5 * top))%Q) by lra. exact (proj1 (Qmult_le_l _ _ alpha (proj1 Ha)) Y).
    - rewrite <- qt_scale. eapply Qle_trans; [|exact HW5]. apply qt_le. intros u Hu. apply in_zrange in Hu. apply weight_range, HF. lia.
    - apply (qt_one (pnd S) vs v); [|apply in_zrange; lia]. intros u Hu. apply in_zrange in Hu. apply pnd_range, HF. lia.
  Qed.

  (** what arrives at [v] *)
  Lemma came S v : light S -> 1 <= v <= n -> let l := received es pg dv S v in
    (forall x, In x l -> fin x /\ (0 <= val x)%Q /\ (lit <= p ^ 2 * inject_Z (2 ^ 31) * val x)%Q) /\
    within p 2 (qtotal (map val l)) (inflow es (pnd S) v) /\ zlen l <= in_degree es v.
  Proof using Hr Hp Ha He Hs Hle Hn Hin Hl HD HD0 HP Htop.
    intros HL Bv. cbv zeta. unfold received, inflow, in_degree. cbn [pr_order delta_rank]. unfold arriving.
    assert (H : forall l, incl l es -> let r := flat_map (fun e => if snd (along e) =? v then match message pg S (fst (along e)) with Some t => [pr_process pg (v_s S) t (e_val e) (seen pg dv S v)] | None => [] end else []) l in
      (forall x, In x r -> fin x /\ (0 <= val x)%Q /\ (lit <= p ^ 2 * inject_Z (2 ^ 31) * val x)%Q) /\
      within p 2 (qtotal (map val r)) (qtotal (map (fun e => pnd S (e_src e) / inject_Z (out_degree es (e_src e))) (filter (fun e => (e_dst e =? v)%Z) l)))%Q /\ zlen r <= zlen (filter (fun e => e_dst e =? v) l)).
    { induction l as [|e l IH]; intros Hsub; cbv zeta.
      - split; [intros x []|]. split; [split; cbn; ring_simplify; apply Qle_refl|reflexivity].
      - cbn [flat_map filter along fst snd]. destruct (IH (fun z Hz => Hsub z (or_intror Hz))) as (I1 & I2 & I3). clear IH. set (r := flat_map _ l) in *.
        destruct (e_dst e =? v); [|exact (conj I1 (conj I2 I3))].
        pose proof (Hsub e (or_introl eq_refl)) as Hee. pose proof (deg_pos es e Hee) as Dp. pose proof (out_small es Hl (e_src e)) as Ds.
        pose proof (proj1 HL (e_src e) (proj1 (Hin e Hee))) as Hf. destruct Hf as (Hd & Hf1 & _ & H0 & _ & HA & _). destruct (ranges S (e_src e) HL (proj1 (Hin e Hee))) as (_ & R2 & R3). destruct (T0_small v Bv) as (T1 & T2 & T3).
        cbn [map]. unfold message. destruct HA as [[EA Hb]|EA]; rewrite EA.
        + cbn [pr_process delta_rank pr_send fst app]. rewrite Hd. destruct (Z.eqb_spec (out_degree es (e_src e)) 0); [lia|].
          assert (Pd : pnd S (e_src e) = val (ip_delta (v_P S (e_src e)))) by (unfold pnd; rewrite EA; reflexivity). rewrite Pd in R3. unfold dl in Hb, H0. set (d := ip_delta (v_P S (e_src e))) in *.
          destruct (d_share _ _ _ _ _ _ _ _ _ _ Hr d (out_degree es (e_src e)) Hf1) as [Fs Ws]; [lra|lia|]. set (x := db_share db d (out_degree es (e_src e))) in *.
          assert (Dq : (1 <= inject_Z (out_degree es (e_src e)))%Q) by (change 1%Q with (inject_Z 1); rewrite <- Zle_Qle; lia). assert (Dr : (inject_Z (out_degree es (e_src e)) <= inject_Z (2 ^ 31))%Q) by (rewrite <- Zle_Qle; lia). set (g := inject_Z (out_degree es (e_src e))) in *.
          assert (Q0 : (0 <= val d / g)%Q) by (apply Qmult_le_0_compat; [lra|apply Qinv_le_0_compat; lra]).
          assert (X0 : (0 <= val x)%Q) by (apply (within_nonneg p Hp 2 _ (val d / g)); [lia|exact Q0|exact Ws]).
          split; [|split].
          * intros y [<-|Hy]; [|apply I1, Hy]. split; [exact Fs|]. split; [exact X0|]. destruct Ws as [W1 _].
            assert (Dv : (val d <= p ^ 2 * val x * g)%Q). { assert (val d == val d / g * g)%Q as -> by (field; lra). apply Qmult_le_compat_r; [exact W1|lra]. }
            assert (0 <= (p ^ 2 * val x) * (inject_Z (2 ^ 31) - g))%Q. { apply Qmult_le_0_compat; [|lra]. apply Qmult_le_0_compat; [|exact X0]. pose proof (pow_ge1 p Hp 2 ltac:(lia)). lra. } lra.
          * cbn [map]. apply (within_wd p 2 (val x + qtotal (map val r)) (val d / g + qtotal (map (fun e => pnd S (e_src e) / inject_Z (out_degree es (e_src e))) (filter (fun e => (e_dst e =? v)%Z) l)))%Q).
            -- rewrite qtotal_cons. reflexivity.
            -- rewrite Pd, qtotal_cons. reflexivity.
            -- apply within_plus; [exact Ws|exact I2].
          * rewrite !zlen_cons. lia.
        + cbn [app]. split; [exact I1|]. split; [|rewrite zlen_cons; lia].
          apply (within_wd p 2 (qtotal (map val r)) (qtotal (map (fun e => pnd S (e_src e) / inject_Z (out_degree es (e_src e))) (filter (fun e => (e_dst e =? v)%Z) l)))%Q); [reflexivity| |exact I2].
          assert (pnd S (e_src e) = 0%Q) as -> by (unfold pnd; rewrite EA; reflexivity). rewrite qtotal_cons. unfold Qdiv. ring. }
    apply H, incl_refl.
  Qed.
  Lemma inflow_le_total S v : light S -> 1 <= v <= n -> (0 <= inflow es (pnd S) v)%Q /\ (inflow es (pnd S) v <= qtotal (map (pnd S) vs))%Q.
  Proof using Hr Hp Ha He Hs Hle Hn Hin Hl HD HD0 HP Htop.
    intros [HF _] Bv. assert (P0 : forall u, 1 <= u <= n -> (0 <= pnd S u)%Q) by (intros u Bu; apply pnd_range, HF, Bu).
    assert (I0 : forall u, 1 <= u <= n -> (0 <= inflow es (pnd S) u)%Q) by (intros u Bu; apply (inflow_nonneg n es Hin); exact P0).
    split; [apply I0, Bv|]. eapply Qle_trans; [|apply (inflow_total n es Hin (pnd S) P0)]. apply (qt_one (inflow es (pnd S)) vs v); [|apply in_zrange; lia]. intros u Hu. apply in_zrange in Hu. apply I0. lia.
  Qed.
  Lemma given S Y v : light S -> 1 <= v <= n -> combined_of (pr_reduce pg (v_s S)) (received es pg dv S v) (Y v) ->
    match Y v with
    | Some u => fin (db_damp db u) /\ within p (D + 3) (val (db_damp db u)) ((1 - alpha) * inflow es (pnd S) v) /\ (lit <= (17179869184 # 1) * val (db_damp db u))%Q /\ in_degree es v <> 0
    | None => (inflow es (pnd S) v == 0)%Q
    end.
  Proof using Hr Hp Ha He Hs Hle Hn Hin Hl HD HD0 HP Htop.
    intros HL Bv HY. destruct (came S v HL Bv) as (C1 & C2 & C3). cbv zeta in *. set (l := received es pg dv S v) in *. destruct (inflow_le_total S v HL Bv) as [I0 I1]. destruct (ranges S v HL Bv) as (_ & R2 & _). destruct (T0_small v Bv) as (T1 & T2 & T3).
    set (X := inflow es (pnd S) v) in *. destruct (Y v) as [u|]; cbn [combined_of] in HY.
    - cbn [pr_reduce delta_rank] in HY. assert (L1 : 1 <= zlen l) by (destruct l as [|y l0]; [destruct (combination_nil _ _ HY)|rewrite zlen_cons; pose proof (zlen_nonneg l0); lia]). pose proof (HD v Bv) as HDv.
      set (s := qtotal (map val l)) in *. assert (S0 : (0 <= s)%Q) by (apply qt_nonneg; intros x Hx; apply C1, Hx).
      destruct (pw (zlen l) ltac:(lia)) as [P1 P2]. destruct (pw 2 ltac:(lia)) as [P3 P4].
      assert (Ss : (s <= (5 # 4) * X)%Q) by (destruct C2 as [_ C2]; assert (0 <= ((5 # 4) - p ^ 2) * X)%Q by (apply Qmult_le_0_compat; lra); lra).
      destruct (sum_within (db_add db) val fin p top (d_add _ _ _ _ _ _ _ _ _ _ Hr) Hp l u HY) as [Fu Wu].
      { intros x Hx. destruct (C1 x Hx) as (A1 & A2 & _). auto. }
      { fold s. assert (0 <= ((5 # 4) - p ^ zlen l) * s)%Q by (apply Qmult_le_0_compat; lra). lra. }
      fold s in Wu. pose proof (within_nonneg p Hp (zlen l - 1) _ _ ltac:(lia) S0 Wu) as U0.
      pose proof (within_trans p Hp (zlen l - 1) 2 _ _ _ ltac:(lia) ltac:(lia) Wu C2) as Wux. apply (within_mono p Hp _ (D + 1)) in Wux; [|lia|exact U0|exact I0].
      destruct (pw (D + 1) ltac:(lia)) as [P5 P6].
      assert (Ux : (val u <= (5 # 4) * X)%Q) by (destruct Wux as [_ G]; assert (0 <= ((5 # 4) - p ^ (D + 1)) * X)%Q by (apply Qmult_le_0_compat; lra); lra).
      assert (Ul : (lit <= inject_Z (2 ^ 32) * val u)%Q).
      { destruct l as [|y l0]; [change (zlen (@nil F)) with 0 in L1; lia|]. destruct (C1 y (or_introl eq_refl)) as (_ & Y0 & Y1).
        assert (Ys : (val y <= s)%Q) by (apply (qt_one val (y :: l0) y); [intros x Hx; apply C1, Hx|cbn; auto]).
        destruct Wu as [W1 _]. destruct (pw (zlen (y :: l0) - 1) ltac:(lia)) as [P7 P8]. assert (0 <= ((5 # 4) - p ^ (zlen (y :: l0) - 1)) * val u)%Q by (apply Qmult_le_0_compat; lra).
        assert (0 <= ((5 # 4) - p ^ 2) * (inject_Z (2 ^ 31) * val y))%Q by (apply Qmult_le_0_compat; [lra|apply Qmult_le_0_compat; [discriminate|exact Y0]]).
        assert (val y <= (5 # 4) * val u)%Q by lra. change (inject_Z (2 ^ 31)) with (2147483648 # 1) in *. change (inject_Z (2 ^ 32)) with (4294967296 # 1). lra. }
      destruct (d_damp _ _ _ _ _ _ _ _ _ _ Hr u Fu) as [Fx Wx].
      { split; [|lra]. change (inject_Z (2 ^ 32)) with (4294967296 # 1) in Ul. unfold Qdiv. change (/ inject_Z (2 ^ 33))%Q with (1 # 8589934592). lra. }
      set (x := db_damp db u) in *. assert (B0 : (0 <= (1 - alpha) * val u)%Q) by (apply Qmult_le_0_compat; lra).
      pose proof (within_nonneg p Hp 2 _ _ ltac:(lia) B0 Wx) as X0.
      split; [exact Fx|]. split; [|split].
      + replace (D + 3) with (2 + (D + 1)) by lia. apply (within_trans p Hp 2 (D + 1) _ ((1 - alpha) * val u)%Q); [lia|lia|exact Wx|]. apply within_scale; [lra|exact Wux].
      + destruct Wx as [W1 _]. assert (0 <= ((5 # 4) - p ^ 2) * val x)%Q by (apply Qmult_le_0_compat; lra). assert (0 <= ((1 # 2) - alpha) * val u)%Q by (apply Qmult_le_0_compat; lra).
        change (inject_Z (2 ^ 32)) with (4294967296 # 1) in Ul. lra.
      + intros Hz. rewrite Hz in C3. lia.
    - rewrite HY in C2. destruct C2 as [C2 _]. cbn in C2. lra.
  Qed.

  Section One.
    Variables (S : vst) (Y : Z -> option F) (it : Z).
    Hypothesis HL : light S.
    Hypothesis HY : forall v, 1 <= v <= n -> combined_of (pr_reduce pg (v_s S)) (received es pg dv S v) (Y v).
    Notation S' := (step_with pg (ip_neq db) Y it S).
    (** what [v] gets, after damping; by how much its rank is raised *)
    Definition gets v : Q := match Y v with Some u => val (db_damp db u) | None => 0%Q end.
    Definition gain v : Q := match Y v with Some u => if Qle_bool (dl S' v) lit then 0%Q else dl S' v | None => 0%Q end.

    Lemma same j a b : 0 <= j -> (0 <= a)%Q -> (a == b)%Q -> within p j a b.
    Proof using Hr Hp Ha He Hs Hle Hn Hin Hl HD HD0 HP Htop. intros Hj H Eq. apply (within_wd p j a a); [reflexivity|exact Eq|]. pose proof (pow_ge1 p Hp j Hj). assert (0 <= (p ^ j - 1) * a)%Q by (apply Qmult_le_0_compat; lra). split; lra. Qed.
    Lemma dmoved v : 1 <= v <= n ->
      dfine S' v /\ within p (D + 3) (gets v) ((1 - alpha) * inflow es (pnd S) v) /\ (0 <= gets v)%Q /\ (0 <= gain v)%Q /\
      within p 1 (gain v + sml S' v) (sml S v + gets v) /\ (gain v + sml S' v <= sml S v + c0 * gets v)%Q /\
      within p 1 (rk S' v) (rk S v + gain v) /\ (rk S v <= rk S' v)%Q /\ (rk S' v <= rk S v + 2 * gain v)%Q /\
      (v_A S' v = Some true -> (pnd S' v == gain v)%Q /\ (least < rk S' v - rk S v)%Q) /\
      (v_A S' v <> Some true -> (pnd S' v == 0)%Q /\ ((0 < gain v)%Q -> (lit < gain v)%Q /\ (gain v <= p * most + (p - 1) * rk S' v)%Q)) /\
      (v_A S' v = Some true <-> changed_with pg (ip_neq db) Y S v = true).
    Proof using Hr Hp Ha He Hs Hle Hn Hin Hl HD HD0 HP Htop HL HY.
      intros Bv. pose proof (proj1 HL v Bv) as Hf. pose proof (sml_range S v Hf) as [M0 M1]. destruct Hf as (Hd & Hf1 & Hf2 & H0 & Hr0 & HA & Hi). pose proof (given S Y v HL Bv (HY v Bv)) as HG.
      destruct (ranges S v HL Bv) as (R1 & R2 & _). destruct (T0_small v Bv) as (T1 & T2 & T3). destruct (inflow_le_total S v HL Bv) as [I0 I1]. set (X := inflow es (pnd S) v) in *.
      unfold gets, gain. unfold dfine, pnd, sml, dl, rk in *. cbn [step_with v_P v_A pr_all_vertices delta_rank orb] in *. unfold changed_with, updated_with in *. destruct (Y v) as [u|].
      - destruct HG as (Fx & Wx & Lx & Ni). cbn [pr_apply delta_rank] in *. set (w := v_P S v) in *. set (x := db_damp db u) in *.
        assert (B0 : (0 <= (1 - alpha) * X)%Q) by (apply Qmult_le_0_compat; lra). pose proof (within_nonneg p Hp (D + 3) _ _ ltac:(lia) B0 Wx) as X0. pose proof pD as (PD1 & PD2 & PD3 & PD4 & PD5).
        assert (Xu : (val x <= (5 # 4) * X)%Q). { destruct Wx as [_ G]. assert (0 <= ((5 # 4) - p ^ (D + 3)) * ((1 - alpha) * X))%Q by (apply Qmult_le_0_compat; lra). assert (0 <= alpha * X)%Q by (apply Qmult_le_0_compat; lra). lra. }
        set (o := if db_big db (ip_delta w) then db_zero db else ip_delta w).
        assert (Ho : fin o /\ (val o == (if Qle_bool (val (ip_delta w)) lit then val (ip_delta w) else 0))%Q).
        { unfold o. pose proof (d_big _ _ _ _ _ _ _ _ _ _ Hr (ip_delta w) Hf1 H0) as Hb. destruct (d_zero _ _ _ _ _ _ _ _ _ _ Hr) as [Z1 Z2]. destruct (Qle_bool (val (ip_delta w)) lit) eqn:L.
          - apply Qle_bool_iff in L. destruct (db_big db (ip_delta w)); [exfalso; pose proof (proj1 Hb eq_refl); lra|]. split; [exact Hf1|reflexivity].
          - assert (lit < val (ip_delta w))%Q as G by (apply Qnot_le_lt; intros C; apply Qle_bool_iff in C; congruence). apply Hb in G. rewrite G. auto. }
        destruct Ho as [Fo Eo]. fold (dl S v) in *. set (sm := if Qle_bool (val (ip_delta w)) lit then val (ip_delta w) else 0%Q) in *.
        destruct (d_add _ _ _ _ _ _ _ _ _ _ Hr o x Fo Fx) as [Fd Wd]; [lra|exact X0|lra|]. set (d := db_add db o x) in *.
        apply (within_wd p 1 (val d) _ (val d) (sm + val x)%Q (Qeq_refl _)) in Wd; [|rewrite Eo; reflexivity].
        pose proof (within_nonneg p Hp 1 (val d) (sm + val x)%Q ltac:(lia) ltac:(lra) Wd) as D0.
        assert (Du : (val d <= sm + c0 * val x)%Q).
        { destruct Wd as [_ G]. change (p ^ 1)%Q with p in G. assert (0 <= (p - 1) * ((17179869184 # 1) * val x - sm))%Q by (apply Qmult_le_0_compat; lra). lra. }
        assert (Dt : (32 * val d <= 9 * top)%Q). { assert (0 <= ((5 # 4) - c0) * val x)%Q by (apply Qmult_le_0_compat; lra). set (c := c0) in *. lra. }
        assert (Ea : ip_apply db u w = mkIP d (if db_big db d then db_add db (ip_rank w) d else ip_rank w) (ip_degree w)) by reflexivity. rewrite Ea. clear Ea. cbn [ip_delta ip_rank ip_degree].
        unfold ip_neq. cbn [ip_rank]. pose proof (d_big _ _ _ _ _ _ _ _ _ _ Hr d Fd D0) as Hb.
        destruct (db_big db d) eqn:Bd.
        + assert (Hd' : (lit < val d)%Q) by (apply Hb; reflexivity). assert (Qle_bool (val d) lit = false) as ->. { destruct (Qle_bool (val d) lit) eqn:L; [|reflexivity]. apply Qle_bool_iff in L. lra. }
          destruct (d_add _ _ _ _ _ _ _ _ _ _ Hr (ip_rank w) d Hf2 Fd) as [Fr Wr]; [lra|exact D0|lra|].
          destruct (d_grow _ _ _ _ _ _ _ _ _ _ Hr (ip_rank w) d Hf2 Fd) as [G1 G2]; [lra|exact D0|lra|]. set (r := db_add db (ip_rank w) d) in *.
          assert (Rt : (val r <= top)%Q) by lra.
          destruct (db_far db r (ip_rank w)) eqn:Bf.
          * pose proof (d_far _ _ _ _ _ _ _ _ _ _ Hr r (ip_rank w) Fr Hf2 ltac:(lra) ltac:(lra) Bf) as Gf. rewrite Qabs_pos in Gf by lra.
            split; [refine (conj Hd (conj Fd (conj Fr (conj D0 (conj _ (conj (or_introl (conj eq_refl Hd')) (fun Hz => False_ind _ (Ni Hz))))))));lra|]. split; [exact Wx|]. split; [exact X0|]. split; [lra|].
            split; [apply (within_wd p 1 (val d) (sm + val x)%Q); [ring|reflexivity|exact Wd]|]. split; [set (c := c0) in *; lra|]. split; [exact Wr|]. split; [exact G1|]. split; [exact G2|]. split; [intros _; split; [reflexivity|lra]|]. split; [intros C; congruence|]. tauto.
          * pose proof (d_near _ _ _ _ _ _ _ _ _ _ Hr r (ip_rank w) Fr Hf2 ltac:(lra) ltac:(lra) Bf) as Gf. rewrite Qabs_pos in Gf by lra.
            split; [refine (conj Hd (conj Fd (conj Fr (conj D0 (conj _ (conj (or_intror eq_refl) (fun Hz => False_ind _ (Ni Hz))))))));lra|]. split; [exact Wx|]. split; [exact X0|]. split; [lra|].
            split; [apply (within_wd p 1 (val d) (sm + val x)%Q); [ring|reflexivity|exact Wd]|]. split; [set (c := c0) in *; lra|]. split; [exact Wr|]. split; [exact G1|]. split; [exact G2|]. split; [discriminate|].
            split; [|split; discriminate]. intros _. split; [reflexivity|]. intros _. split; [exact Hd'|]. destruct Wr as [Wr _]. change (p ^ 1)%Q with p in Wr.
            assert (0 <= p * (most - (val r - val (ip_rank w))))%Q by (apply Qmult_le_0_compat; lra). assert (0 <= (p - 1) * (val r - val (ip_rank w)))%Q by (apply Qmult_le_0_compat; lra). lra.
        + assert (Hd' : (val d <= lit)%Q) by (apply Qnot_lt_le; intros C; apply Hb in C; congruence). assert (Qle_bool (val d) lit = true) as -> by (apply Qle_bool_iff; exact Hd').
          assert (db_far db (ip_rank w) (ip_rank w) = false) as ->.
          { destruct (db_far db (ip_rank w) (ip_rank w)) eqn:Bf; [|reflexivity]. pose proof (d_far _ _ _ _ _ _ _ _ _ _ Hr (ip_rank w) (ip_rank w) Hf2 Hf2 ltac:(lra) ltac:(lra) Bf) as Gf. rewrite Qabs_pos in Gf by lra. lra. }
          split; [refine (conj Hd (conj Fd (conj Hf2 (conj D0 (conj Hr0 (conj (or_intror eq_refl) (fun Hz => False_ind _ (Ni Hz))))))))|]. split; [exact Wx|]. split; [exact X0|]. split; [lra|].
          split; [apply (within_wd p 1 (val d) (sm + val x)%Q); [ring|reflexivity|exact Wd]|]. split; [set (c := c0) in *; lra|].
          split; [apply same; [lia|lra|lra]|]. split; [lra|]. split; [lra|]. split; [discriminate|]. split; [|split; discriminate]. intros _. split; [reflexivity|]. intros C. lra.
      - fold (dl S v) in *. split; [exact (conj Hd (conj Hf1 (conj Hf2 (conj H0 (conj Hr0 (conj (or_intror eq_refl) Hi))))))|]. split; [apply same; [lia|lra|rewrite HG; ring]|]. split; [lra|]. split; [lra|]. split; [apply same; [lia|lra|ring]|]. split; [set (c := c0); lra|]. split; [apply same; [lia|lra|ring]|]. split; [lra|]. split; [lra|].
        split; [discriminate|]. split; [|split; discriminate]. intros _. split; [reflexivity|]. intros C. lra.
    Qed.
    Lemma light_step : light S'.
    Proof using Hr Hp Ha He Hs Hle Hn Hin Hl HD HD0 HP Htop HL HY.
      split; [intros v Bv; apply (dmoved v Bv)|]. pose proof (proj2 HL) as HW. eapply Qle_trans; [|exact HW].
      assert (A : (weigh S' <= qtotal (map (fun v => (alpha * rk S v + (2 * alpha + 4) * sml S v) + ((2 * alpha + 4) * (c0 * p ^ (D + 3) * (1 - alpha))) * inflow es (pnd S) v) vs))%Q).
      { apply qt_le. intros v Hv. apply in_zrange in Hv. assert (Bv : 1 <= v <= n) by lia. destruct (dmoved v Bv) as (Hf & Wg & G0 & C0 & _ & Hc & _ & _ & Hk & HA1 & HA2 & _). pose proof (sml_range S' v Hf) as [M0 _].
        assert (Pl : (pnd S' v <= gain v)%Q). { destruct (v_A S' v) as [[|]|] eqn:EA; [destruct (HA1 eq_refl); lra|destruct (HA2 ltac:(discriminate)); lra|destruct (HA2 ltac:(discriminate)); lra]. }
        destruct Wg as [_ Wg]. pose proof pD as (_ & _ & _ & PD4 & _). destruct (inflow_le_total S v HL Bv) as [I0 _]. set (X := inflow es (pnd S) v) in *. set (c := c0) in *.
        unfold weight. set (g := gets v) in *. set (y := gain v) in *. set (s' := sml S' v) in *. set (P := (p ^ (D + 3))%Q) in *. set (r' := rk S' v) in *. set (z := pnd S' v) in *.
        assert (K1 : (alpha * r' <= alpha * (rk S v + 2 * y))%Q) by (rewrite !(Qmult_comm alpha); apply Qmult_le_compat_r; [exact Hk|lra]).
        assert (K2 : ((2 * alpha + 4) * (y + s') <= (2 * alpha + 4) * (sml S v + c * g))%Q) by (rewrite !(Qmult_comm (2 * alpha + 4)); apply Qmult_le_compat_r; [exact Hc|lra]).
        assert (K3 : ((2 * alpha + 4) * c * g <= (2 * alpha + 4) * c * (P * ((1 - alpha) * X)))%Q). { rewrite !(Qmult_comm ((2 * alpha + 4) * c)). apply Qmult_le_compat_r; [exact Wg|]. apply Qmult_le_0_compat; lra. }
        lra. }
      eapply Qle_trans; [exact A|]. rewrite qt_plus, qt_scale.
      assert (B : (weigh S == qtotal (map (fun v => alpha * rk S v + (2 * alpha + 4) * sml S v) vs) + 4 * qtotal (map (pnd S) vs))%Q).
      { unfold weigh. rewrite <- qt_scale, <- qt_plus. apply qt_ext. intros v _. unfold weight. ring. }
      rewrite B. apply Qplus_le_r.
      assert (P0 : forall u, 1 <= u <= n -> (0 <= pnd S u)%Q) by (intros u Bu; apply pnd_range, (proj1 HL), Bu).
      pose proof (inflow_total n es Hin (pnd S) P0) as IT. set (t := qtotal (map (pnd S) vs)) in *. set (i := qtotal (map (inflow es (pnd S)) vs)) in *.
      assert (I0 : (0 <= i)%Q) by (apply qt_nonneg; intros u Hu; apply in_zrange in Hu; apply (inflow_nonneg n es Hin); exact P0).
      assert (HPh : (c0 * p ^ (D + 3) <= 1 + alpha * (1 # 2))%Q) by (eapply Qle_trans; [exact HP|]; unfold Qdiv; change (/ 2)%Q with (1 # 2); apply Qle_refl). set (cc := (c0 * p ^ (D + 3))%Q) in *. clearbody cc.
      assert (K : ((2 * alpha + 4) * (cc * (1 - alpha)) <= 4)%Q).
      { assert (K1 : (0 <= ((2 * alpha + 4) * (1 - alpha)) * (1 + alpha * (1 # 2) - cc))%Q) by (apply Qmult_le_0_compat; [apply Qmult_le_0_compat; lra|lra]).
        assert (0 <= alpha * alpha)%Q by (apply Qmult_le_0_compat; lra). assert (0 <= alpha * (alpha * alpha))%Q by (apply Qmult_le_0_compat; lra). lra. }
      assert (0 <= (4 - (2 * alpha + 4) * (cc * (1 - alpha))) * i)%Q by (apply Qmult_le_0_compat; lra). lra.
    Qed.
    Definition ranked (S : vst) : Q := qtotal (map (rk S) vs).
    Lemma ranked_step : (ranked S <= ranked S')%Q /\ (converged_with n pg (ip_neq db) Y S <> true -> (ranked S + least <= ranked S')%Q).
    Proof using Hr Hp Ha He Hs Hle Hn Hin Hl HD HD0 HP Htop HL HY.
      assert (M : forall v, In v vs -> (rk S v <= rk S' v)%Q) by (intros v Hv; apply in_zrange in Hv; apply (dmoved v); lia).
      split; [apply qt_le, M|]. intros Hc. apply not_converged in Hc as (v & Bv & Hc). destruct (dmoved v Bv) as (_ & _ & _ & _ & _ & _ & _ & _ & _ & HA & _ & HC). apply HC in Hc. destruct (HA Hc) as [_ G].
      assert (T : (qtotal (map (fun u => rk S' u - rk S u) vs) == ranked S' - ranked S)%Q).
      { unfold ranked. rewrite (qt_ext (fun u => rk S' u - rk S u)%Q (fun u => rk S' u + (-1) * rk S u)%Q) by (intros; ring). rewrite qt_plus, qt_scale. ring. }
      pose proof (qt_one (fun u => rk S' u - rk S u)%Q vs v) as Q1. cbv beta in Q1. rewrite T in Q1. assert (rk S' v - rk S v <= ranked S' - ranked S)%Q; [|lra]. apply Q1; [|apply in_zrange; lia]. intros u Hu. specialize (M u Hu). lra.
    Qed.

    (** what each vertex has sent, by how much its rank was raised, and the raises that were not sent on *)
    Definition acc (k : Z) (S : vst) (sent C : Z -> Q) (drops : Z -> list Q) : Prop := forall v, 1 <= v <= n ->
      (0 <= sent v)%Q /\ (0 <= C v)%Q /\ (sent v + pnd S v + qtotal (drops v) == s0 + C v)%Q /\ within p k (rk S v) (s0 + C v) /\
      within p (D + 4 + k) (C v + sml S v) ((1 - alpha) * inflow es sent v) /\
      (forall x, In x (drops v) -> (lit < x)%Q /\ (x <= p * most + (p - 1) * rk S v)%Q) /\ zlen (drops v) <= k.
    Lemma acc_step k sent C drops : 0 <= k -> acc k S sent C drops -> exists sent' C' drops', acc (k + 1) S' sent' C' drops'.
    Proof using Hr Hp Ha He Hs Hle Hn Hin Hl HD HD0 HP Htop HL HY.
      intros Hk HA. exists (fun v => (sent v + pnd S v)%Q), (fun v => (C v + gain v)%Q), (fun v => match v_A S' v with Some true => drops v | _ => if Qle_bool (gain v) 0 then drops v else gain v :: drops v end).
      intros v Bv. destruct (HA v Bv) as (A1 & A2 & A3 & A4 & A5 & A6 & A7). pose proof (proj1 HL v Bv) as Hf. pose proof (pnd_range S v Hf) as P0. pose proof (sml_range S v Hf) as [M0 _].
      destruct (dmoved v Bv) as (Hf' & Wg & G0 & C0 & Wc & _ & Wr & Hrk & _ & HA1 & HA2 & _). destruct (inflow_le_total S v HL Bv) as [I0 _].
      pose proof (sml_range S' v Hf') as [M0' _]. destruct Hf as (_ & _ & _ & _ & R0 & _). assert (R0' : (s0 <= rk S' v)%Q) by lra.
      assert (J0 : (0 <= inflow es sent v)%Q) by (apply (inflow_nonneg n es Hin); intros u Bu; apply (HA u Bu)).
      split; [lra|]. split; [lra|]. split; [|split; [|split; [|split]]].
      - destruct (v_A S' v) as [[|]|] eqn:EA.
        + destruct (HA1 eq_refl) as [-> _]. lra.
        + destruct (HA2 ltac:(discriminate)) as [-> _]. destruct (Qle_bool (gain v) 0) eqn:L; [apply Qle_bool_iff in L; lra|rewrite qtotal_cons; lra].
        + destruct (HA2 ltac:(discriminate)) as [-> _]. destruct (Qle_bool (gain v) 0) eqn:L; [apply Qle_bool_iff in L; lra|rewrite qtotal_cons; lra].
      - replace (k + 1) with (1 + k) by lia. apply (within_trans p Hp 1 k _ (rk S v + gain v)%Q); [lia|exact Hk|exact Wr|].
        apply (within_wd p k (gain v + rk S v)%Q (gain v + (s0 + C v))%Q); [ring|ring|]. apply (within_shift p Hp k); [exact Hk|exact C0|exact A4].
      - replace (D + 4 + (k + 1)) with (1 + (D + 4 + k)) by lia. apply (within_trans p Hp 1 (D + 4 + k) _ (C v + (sml S v + gets v))%Q); [lia|lia| |].
        + apply (within_wd p 1 (C v + (gain v + sml S' v))%Q (C v + (sml S v + gets v))%Q); [ring|reflexivity|]. apply (within_shift p Hp 1); [lia|exact A2|exact Wc].
        + apply (within_wd p (D + 4 + k) ((C v + sml S v) + gets v)%Q ((1 - alpha) * inflow es sent v + (1 - alpha) * inflow es (pnd S) v)%Q); [ring|rewrite inflow_plus; ring|].
          apply within_plus; [exact A5|]. apply (within_mono p Hp (D + 3)); [lia|exact G0|apply Qmult_le_0_compat; lra|exact Wg].
      - assert (Old : forall x, In x (drops v) -> (lit < x)%Q /\ (x <= p * most + (p - 1) * rk S' v)%Q).
        { intros x Hx. destruct (A6 x Hx) as [B1 B2]. split; [exact B1|]. assert (0 <= (p - 1) * (rk S' v - rk S v))%Q by (apply Qmult_le_0_compat; lra). lra. }
        destruct (v_A S' v) as [[|]|] eqn:EA; [exact Old| |].
        + destruct (HA2 ltac:(discriminate)) as [_ Hd]. destruct (Qle_bool (gain v) 0) eqn:L; [exact Old|]. intros x [<-|Hx]; [|apply Old, Hx]. apply Hd. apply Qnot_le_lt. intros Z0. apply Qle_bool_iff in Z0. congruence.
        + destruct (HA2 ltac:(discriminate)) as [_ Hd]. destruct (Qle_bool (gain v) 0) eqn:L; [exact Old|]. intros x [<-|Hx]; [|apply Old, Hx]. apply Hd. apply Qnot_le_lt. intros Z0. apply Qle_bool_iff in Z0. congruence.
      - destruct (v_A S' v) as [[|]|]; [lia| |]; (destruct (Qle_bool (gain v) 0); [|rewrite zlen_cons]; lia).
    Qed.
    (** the last superstep *)
    Lemma settled k sent C drops : 0 <= k -> converged_with n pg (ip_neq db) Y S = true -> acc k S' sent C drops -> forall v, 1 <= v <= n ->
      let T := (s0 + (1 - alpha) * inflow es (rk S') v)%Q in
      (rk S' v <= p ^ (D + 4 + 3 * k) * T)%Q /\ (T <= p ^ (D + 4 + 3 * k) * (rk S' v + lit + (1 - alpha) * inflow es (fun u => qtotal (drops u)) v))%Q.
    Proof using Hr Hp Ha He Hs Hle Hn Hin Hl HD HD0 HP Htop HL HY.
      intros Hk Hc HA v Bv. cbv zeta.
      assert (Pz : forall u, 1 <= u <= n -> (pnd S' u == 0)%Q).
      { intros u Bu. destruct (dmoved u Bu) as (_ & _ & _ & _ & _ & _ & _ & _ & _ & _ & HA2 & HC). apply HA2. intros EA. apply HC in EA. rewrite (converged_changed _ _ _ _ _ u Hc Bu) in EA. discriminate. }
      assert (D0 : forall u, 1 <= u <= n -> (0 <= qtotal (drops u))%Q).
      { intros u Bu. destruct (HA u Bu) as (_ & _ & _ & _ & _ & A6 & _). rewrite <- (map_id (drops u)). apply qt_nonneg. intros x Hx. destruct (A6 x Hx) as [B _]. lra. }
      assert (WX : within p k (inflow es (rk S') v) (inflow es (fun u => s0 + C u)%Q v)).
      { unfold inflow. apply within_total. intros e Hee. apply filter_In in Hee as [Hee _]. pose proof (deg_posQ es e Hee) as Dq. destruct (HA (e_src e) (proj1 (Hin e Hee))) as (_ & _ & _ & A4 & _).
        set (g := inject_Z (out_degree es (e_src e))) in *. apply (within_wd p k (/ g * rk S' (e_src e))%Q (/ g * (s0 + C (e_src e)))%Q); [unfold Qdiv; ring|unfold Qdiv; ring|]. apply within_scale; [|exact A4]. apply Qinv_le_0_compat. lra. }
      assert (EX : (inflow es (fun u => s0 + C u)%Q v == inflow es sent v + inflow es (fun u => qtotal (drops u)) v)%Q).
      { rewrite <- inflow_plus. apply (inflow_ext n es Hin). intros u Bu. destruct (HA u Bu) as (_ & _ & A3 & _). rewrite (Pz u Bu) in A3. rewrite <- A3. ring. }
      assert (L0 : (0 <= inflow es (fun u => qtotal (drops u)) v)%Q) by (apply (inflow_nonneg n es Hin); exact D0).
      assert (J0 : (0 <= inflow es sent v)%Q) by (apply (inflow_nonneg n es Hin); intros u Bu; apply (HA u Bu)).
      assert (Hf' : forall u, 1 <= u <= n -> dfine S' u) by (intros u Bu; apply (dmoved u Bu)).
      assert (R0 : (0 <= inflow es (rk S') v)%Q) by (apply (inflow_nonneg n es Hin); intros u Bu; destruct (Hf' u Bu) as (_ & _ & _ & _ & B & _); lra).
      pose proof (sml_range S' v (Hf' v Bv)) as [M0 M1]. destruct (Hf' v Bv) as (_ & _ & _ & _ & Rv & _).
      destruct (HA v Bv) as (A1 & A2 & _ & [A4a A4b] & A5 & _).
      set (I := inflow es (rk S') v) in *. set (X := inflow es (fun u => s0 + C u)%Q v) in *. set (L := inflow es (fun u => qtotal (drops u)) v) in *. set (J := inflow es sent v) in *. set (r := rk S' v) in *. set (m0 := sml S' v) in *. set (cv := C v) in *.
      set (pk := (p ^ k)%Q) in *. pose proof (pow_ge1 p Hp k Hk) as G1. fold pk in G1. pose proof (pow_ge1 p Hp (D + 4 + k) ltac:(lia)) as G2. set (q := (p ^ (D + 4 + k))%Q) in *.
      assert (EQ : (p ^ (D + 4 + 3 * k) == pk * (q * pk))%Q). { unfold pk, q. rewrite <- !pow_add by (auto; lia). replace (D + 4 + 3 * k) with (k + (D + 4 + k + k)) by lia. reflexivity. }
      rewrite EQ. clear EQ. destruct WX as [W1 W2]. fold pk in W1, W2.
      pose proof (within_shift p Hp (D + 4 + k) s0 _ _ ltac:(lia) ltac:(lra) A5) as [B1 B2]. fold q in B1, B2. clear A5.
      set (b := (1 - alpha)%Q) in *. assert (Hb : (0 <= b)%Q) by (unfold b; lra). clearbody b.
      assert (bX : (b * X == b * J + b * L)%Q) by (rewrite EX; ring). assert (bL : (0 <= b * L)%Q) by (apply Qmult_le_0_compat; lra). assert (bI : (0 <= b * I)%Q) by (apply Qmult_le_0_compat; lra). assert (bJ : (0 <= b * J)%Q) by (apply Qmult_le_0_compat; lra).
      assert (bW1 : (b * X <= pk * (b * I))%Q). { assert (pk * (b * I) == b * (pk * I))%Q as -> by ring. rewrite !(Qmult_comm b). apply Qmult_le_compat_r; auto. }
      assert (bW2 : (b * I <= pk * (b * X))%Q). { assert (pk * (b * X) == b * (pk * X))%Q as -> by ring. rewrite !(Qmult_comm b). apply Qmult_le_compat_r; auto. }
      set (bx := (b * X)%Q) in *. set (bi := (b * I)%Q) in *. set (bj := (b * J)%Q) in *. set (bl := (b * L)%Q) in *. clearbody bx bi bj bl pk q r m0 cv. clear - A2 A4a A4b B1 B2 bX bL bI bJ bW1 bW2 G1 G2 M0 M1 Rv He Hs.
      split.
      - assert (K1 : (0 <= pk * (q * (s0 + bj) - (s0 + (cv + m0))))%Q) by (apply Qmult_le_0_compat; lra).
        assert (K2 : (0 <= (pk * q) * bl)%Q) by (apply Qmult_le_0_compat; [apply Qmult_le_0_compat; lra|lra]).
        assert (K3 : (0 <= (pk * q) * (pk * bi - bx))%Q) by (apply Qmult_le_0_compat; [apply Qmult_le_0_compat; lra|lra]).
        assert (K4 : (0 <= (pk * q * s0) * (pk - 1))%Q) by (repeat apply Qmult_le_0_compat; lra). assert (K5 : (0 <= pk * m0)%Q) by (apply Qmult_le_0_compat; lra).
        assert (K6 : (pk * q * bx == pk * q * bj + pk * q * bl)%Q) by (rewrite bX; ring). lra.
      - assert (K1 : (0 <= pk * (q * (s0 + (cv + m0)) - (s0 + bj)))%Q) by (apply Qmult_le_0_compat; lra).
        assert (K2 : (0 <= (pk * q) * (pk * r - (s0 + cv)))%Q) by (apply Qmult_le_0_compat; [apply Qmult_le_0_compat; lra|lra]).
        assert (K3 : (0 <= (pk * q) * (lit - m0))%Q) by (apply Qmult_le_0_compat; [apply Qmult_le_0_compat; lra|lra]).
        assert (K4 : (0 <= (pk * q * lit) * (pk - 1))%Q) by (repeat apply Qmult_le_0_compat; lra).
        assert (K5 : (0 <= s0 * (pk - 1))%Q) by (apply Qmult_le_0_compat; lra).
        assert (K6 : (0 <= (pk * bl) * (q - 1))%Q) by (repeat apply Qmult_le_0_compat; lra). assert (K7 : (0 <= (pk * bl * q) * (pk - 1))%Q) by (repeat apply Qmult_le_0_compat; lra).
        assert (K8 : (pk * bx == pk * bj + pk * bl)%Q) by (rewrite bX; ring). lra.
    Qed.
  End One.
  Lemma ranked_most S : light S -> (alpha * ranked S <= T0 * (alpha + 4))%Q.
  Proof using Hr Hp Ha He Hs Hle Hn Hin Hl HD HD0 HP Htop. intros [HF HW]. eapply Qle_trans; [|exact HW]. unfold ranked. rewrite <- qt_scale. apply qt_le. intros v Hv. apply in_zrange in Hv. apply weight_range, HF. lia. Qed.
  Section Run.
    Variables (Y : nat -> Z -> option F) (C : Z -> F) (q : gspec (ip_vertex F) E) (dt : F) (fuel : nat).
    Hypothesis Qe : gs_es q = es.
    Hypothesis QP : forall v, 1 <= v <= n -> gs_P q v = mkIP (db_start db) (db_start db) (out_degree es v).
    Hypothesis QA : forall v, gs_A q v = Some true.
    Notation jb := (mkJ pg 0 (-1) dt dv fuel).
    Notation st k := (job_after_with (ip_neq db) jb Y C q k).

    Lemma dfirst v : 1 <= v <= n -> v_P (st O) v = mkIP (db_start db) (db_start db) (out_degree es v) /\ v_A (st O) v = Some true.
    Proof using Hr Hp Ha He Hs Hle Hn Hin Hl HD HD0 HP Htop QP QA. intros Bv. unfold job_after_with. cbn [after_with begin start j_pg pr_all_vertices delta_rank v_P v_A]. rewrite QP by auto. split; [reflexivity|apply QA]. Qed.
    Lemma start_big : Qle_bool (val (db_start db)) lit = false.
    Proof using Hr Hp Ha He Hs Hle Hn Hin Hl HD HD0 HP Htop. destruct (d_start _ _ _ _ _ _ _ _ _ _ Hr) as [_ E0]. destruct (Qle_bool (val (db_start db)) lit) eqn:L; [|reflexivity]. apply Qle_bool_iff in L. lra. Qed.
    Lemma light_first : light (st O) /\ (ranked (st O) == T0)%Q.
    Proof using Hr Hp Ha He Hs Hle Hn Hin Hl HD HD0 HP Htop QP QA.
      destruct (d_start _ _ _ _ _ _ _ _ _ _ Hr) as [F0 E0]. pose proof start_big as L0. split; [split|].
      - intros v Bv. destruct (dfirst v Bv) as [HP0 HA0]. unfold dfine, dl, rk. rewrite HP0. cbn [ip_degree ip_delta ip_rank]. split; [reflexivity|]. split; [exact F0|]. split; [exact F0|]. split; [lra|]. split; [lra|]. split; [left; split; [exact HA0|lra]|auto].
      - unfold weigh. rewrite (qt_ext _ (fun _ => s0 * (alpha + 4))%Q).
        + rewrite qt_const, zlen_zrange by lia. replace (n + 1 - 1) with n by lia. lra.
        + intros v Hv. apply in_zrange in Hv. destruct (dfirst v ltac:(lia)) as [HP0 HA0]. unfold weight, rk, pnd, sml, dl. rewrite HP0, HA0. cbn [ip_rank ip_delta]. rewrite L0, E0. ring.
      - unfold ranked. rewrite (qt_ext _ (fun _ => s0)).
        + rewrite qt_const, zlen_zrange by lia. replace (n + 1 - 1) with n by lia. reflexivity.
        + intros v Hv. apply in_zrange in Hv. destruct (dfirst v ltac:(lia)) as [HP0 HA0]. unfold rk. rewrite HP0. exact E0.
    Qed.
    Lemma acc_first : acc 0 (st O) (fun _ => 0%Q) (fun _ => 0%Q) (fun _ => []).
    Proof using Hr Hp Ha He Hs Hle Hn Hin Hl HD HD0 HP Htop QP QA.
      intros v Bv. destruct (dfirst v Bv) as [HP0 HA0]. destruct (d_start _ _ _ _ _ _ _ _ _ _ Hr) as [F0 E0]. pose proof start_big as L0. unfold pnd, rk, sml, dl. rewrite HP0, HA0. cbn [ip_rank ip_delta]. rewrite L0.
      split; [lra|]. split; [lra|]. split; [change (qtotal []) with 0%Q; rewrite E0; ring|]. split; [apply same; [lia|lra|lra]|].
      split; [apply same; [lia|lra|]; assert (inflow es (fun _ => 0%Q) v == 0)%Q as ->; [unfold inflow; rewrite (qt_ext _ (fun _ => 0%Q)) by (intros; unfold Qdiv; ring); apply qt_zero|ring]|].
      split; [intros x []|reflexivity].
    Qed.
    Lemma doutcome K k : job_reduces (ip_neq db) n jb Y C q K -> (k < K)%nat -> forall v, 1 <= v <= n -> combined_of (pr_reduce pg (v_s (st k))) (received es pg dv (st k) v) (Y k v).
    Proof using Hr Hp Ha He Hs Hle Hn Hin Hl HD HD0 HP Htop Qe. intros Hred Hk v Bv. specialize (Hred k v Hk Bv). unfold job_received in Hred. cbn [j_pg j_dv] in Hred. rewrite Qe in Hred. exact Hred. Qed.
    Lemma drun K : job_reduces (ip_neq db) n jb Y C q K -> forall k, (k <= K)%nat -> light (st k) /\ exists sent Cr drops, acc (Z.of_nat k) (st k) sent Cr drops.
    Proof using Hr Hp Ha He Hs Hle Hn Hin Hl HD HD0 HP Htop Qe QP QA.
      intros Hred. induction k as [|k IH]; intros Hk.
      - split; [apply light_first|]. exists (fun _ => 0%Q), (fun _ => 0%Q), (fun _ => []). exact acc_first.
      - destruct (IH ltac:(lia)) as [L (se & Cr & dr & HA)]. change (st (Datatypes.S k)) with (step_with pg (ip_neq db) (Y k) (Z.of_nat k) (st k)). pose proof (doutcome K k Hred ltac:(lia)) as HY.
        split; [apply light_step; [exact L|exact HY]|]. replace (Z.of_nat (Datatypes.S k)) with (Z.of_nat k + 1) by lia. apply (acc_step (st k) (Y k) (Z.of_nat k) L HY (Z.of_nat k) se Cr dr); [lia|exact HA].
    Qed.
    Lemma dends k : job_ends_with (ip_neq db) n jb Y C q (Datatypes.S k) <-> converged_with n pg (ip_neq db) (Y k) (st k) = true.
    Proof using Hr Hp Ha He Hs Hle Hn Hin Hl HD HD0 HP Htop. clear QP QA Qe. unfold job_ends_with, ends_with. replace (Datatypes.S k - 1)%nat with k by lia. split; [intros [H|[_ H]]; [cbn in H; lia|exact H]|]. intros H. right. split; [cbn; lia|exact H]. Qed.
    (** the total of the ranks after [k] supersteps, none of which was the last *)
    Lemma ranked_after K : job_reduces (ip_neq db) n jb Y C q K -> forall k, (k <= K)%nat -> (forall j, (1 <= j <= k)%nat -> ~ job_ends_with (ip_neq db) n jb Y C q j) ->
      (T0 + inject_Z (Z.of_nat k) * least <= ranked (st k))%Q.
    Proof using Hr Hp Ha He Hs Hle Hn Hin Hl HD HD0 HP Htop Qe QP QA.
      intros Hred. induction k as [|k IH]; intros Hk Hne; [rewrite (proj2 light_first); change (inject_Z (Z.of_nat 0)) with 0%Q; lra|].
      specialize (IH ltac:(lia) (fun j Hj => Hne j ltac:(lia))). destruct (drun K Hred k ltac:(lia)) as [L _].
      change (st (Datatypes.S k)) with (step_with pg (ip_neq db) (Y k) (Z.of_nat k) (st k)).
      destruct (ranked_step (st k) (Y k) (Z.of_nat k) L (doutcome K k Hred ltac:(lia))) as [_ R1].
      assert (R2 : converged_with n pg (ip_neq db) (Y k) (st k) <> true) by (intros Hc; apply (Hne (Datatypes.S k)); [lia|]; apply dends; exact Hc). specialize (R1 R2).
      rewrite Nat2Z.inj_succ. unfold Z.succ. rewrite inject_Z_plus. change (inject_Z 1) with 1%Q. lra.
    Qed.
    Lemma drun_short K : job_reduces (ip_neq db) n jb Y C q K -> forall k, (k <= K)%nat -> (forall j, (1 <= j <= k)%nat -> ~ job_ends_with (ip_neq db) n jb Y C q j) ->
      (inject_Z (Z.of_nat k) * (alpha * least) <= 4 * T0)%Q.
    Proof using Hr Hp Ha He Hs Hle Hn Hin Hl HD HD0 HP Htop Qe QP QA.
      intros Hred k Hk Hne. pose proof (ranked_after K Hred k Hk Hne) as R1. pose proof (ranked_most (st k) (proj1 (drun K Hred k Hk))) as R2.
      assert (alpha * (T0 + inject_Z (Z.of_nat k) * least) <= alpha * ranked (st k))%Q by (rewrite !(Qmult_comm alpha); apply Qmult_le_compat_r; [exact R1|lra]). lra.
    Qed.
  End Run.
End Step.

Section Program.
  Context {F E byte : Type}.
  Variables (db : doubles F) (val : F -> Q) (fin : F -> Prop) (alpha s0 p lit least most top : Q).
  Variables (m : machine (ip_vertex F) E byte) (n D : Z) (blobs : list (list (edge E))).
  Notation es := (concat blobs).
  Variables (th : Z) (fr1 : frame Z Z byte) (fr2 : frame F F byte) (dt1 : Z) (dt2 : F) (dv : ip_vertex F) (fuel : nat).
  Hypothesis Hr : rounds_db db val fin alpha s0 p lit least most top.
  Hypothesis Hp : (1 <= p)%Q.
  Hypothesis Ha : (0 < alpha)%Q /\ (alpha <= 1 # 2)%Q.
  Hypothesis He : (0 < lit)%Q.
  Hypothesis Hs : (lit < s0)%Q.
  Hypothesis Hle : (0 <= least)%Q.
  Hypothesis Hset : setting m n blobs.
  Hypothesis Hl : zlen es < 2 ^ 31.
  Hypothesis Ht : threads_ok m (m_serv m) th.
  Hypothesis Hfr1 : frame_ok m th fr1.
  Hypothesis Hfr2 : frame_ok m th fr2.
  Hypothesis HD : forall v, 1 <= v <= n -> in_degree es v <= D.
  Hypothesis HD0 : 0 <= D.
  Hypothesis HP : ((p + (p - 1) * (17179869184 # 1)) * p ^ (D + 3) <= 1 + alpha / 2)%Q.
  Hypothesis Htop : (16 * (inject_Z n * s0) <= alpha * top)%Q.
  Hypothesis Hf : (4 * (inject_Z n * s0) < inject_Z (Z.of_nat fuel) * (alpha * least))%Q.

  Lemma increment_rounded : exists g K P drops, run_increment db m th fr1 fr2 dt1 dt2 dv fuel n blobs = Ok (g, Z.of_nat K) /\ (1 <= K)%nat /\
    (inject_Z (Z.of_nat K - 1) * (alpha * least) <= 4 * (inject_Z n * s0))%Q /\ shows_properties n m g P /\
    (forall v, 1 <= v <= n -> ip_degree (P v) = out_degree es v /\ fin (ip_rank (P v)) /\ (s0 <= val (ip_rank (P v)))%Q /\ (in_degree es v = 0 -> ip_rank (P v) = db_start db)) /\
    (forall v, 1 <= v <= n -> zlen (drops v) <= Z.of_nat K /\ forall x, In x (drops v) -> (lit < x)%Q /\ (x <= p * most + (p - 1) * val (ip_rank (P v)))%Q) /\
    forall v, 1 <= v <= n -> let T := (s0 + (1 - alpha) * inflow es (fun u => val (ip_rank (P u))) v)%Q in
      (val (ip_rank (P v)) <= p ^ (D + 4 + 3 * Z.of_nat K) * T)%Q /\
      (T <= p ^ (D + 4 + 3 * Z.of_nat K) * (val (ip_rank (P v)) + lit + (1 - alpha) * inflow es (fun u => qtotal (drops u)) v))%Q.
  Proof.
    pose proof Hset as (Hm & Hn & Lb & Hin). unfold run_increment. destruct (load_is m Hm n Hn (ip_new db) blobs Lb Hin) as (g0 & -> & H0). cbn [bind].
    destruct (init_is m Hm n Hn th fr1 dt1 g0 _ Hfr1 H0) as (xy & -> & Hxy). cbn [bind run_call].
    destruct (act_op m Hm n Hn (m_serv m) th AAllActive g0 _ Ht I H0) as (g1 & -> & H1). cbn [bind].
    destruct (ip_degree_is db m Hm n Hn th dt1 dv 1 fr1 (Some xy) (fun _ => dt1) g1 _ Ht Hfr1 H1 Hxy) as (r1 & P1 & A1 & -> & H2 & HP1); [lia|reflexivity|exact Hl|]. cbn [bind fst].
    destruct (init_is m Hm n Hn th fr2 dt2 (r_g r1) _ Hfr2 H2) as (xy2 & -> & Hxy2). cbn [bind run_call].
    destruct (act_op m Hm n Hn (m_serv m) th AAllActive (r_g r1) _ Ht I H2) as (g3 & -> & H3). cbn [bind gs_es gs_P gs_A loaded] in *.
    set (q3 := mkGS _ _ _) in H3.
    assert (QP : forall v, 1 <= v <= n -> gs_P q3 v = mkIP (db_start db) (db_start db) (out_degree es v)).
    { intros v Bv. cbn [q3 gs_P]. rewrite HP1 by auto. cbn [ip_rank ip_delta ip_degree ip_new]. destruct (Z.eqb_spec (out_degree es v) 0) as [->|]; reflexivity. }
    assert (QA : forall v, gs_A q3 v = Some true) by reflexivity.
    assert (Qe : gs_es q3 = es) by reflexivity. clearbody q3.
    destruct (run_op_any (ip_neq db) m Hm n Hn th (mkJ (@delta_rank F db E) 0 (-1) dt2 dv fuel) fr2 (Some xy2) (fun _ => dt2) g3 q3 Ht Hfr2 H3 Hxy2) as (Y & HX).
    pose proof (drun_short db val fin alpha s0 p lit least most top n D es dv Hr Hp Ha He Hs Hle Hn Hin Hl HD HD0 HP Htop Y (fun _ => dt2) q3 dt2 fuel Qe QP QA) as Hshort.
    pose proof (drun db val fin alpha s0 p lit least most top n D es dv Hr Hp Ha He Hs Hle Hn Hin Hl HD HD0 HP Htop Y (fun _ => dt2) q3 dt2 fuel Qe QP QA) as Hrun.
    destruct HX as [(K & r & (BK & Hred & Hend & Hne) & -> & _ & Hg & _)|[[Hred Hne] _]]; cbn [bind fst snd].
    - destruct K as [|K]; [lia|]. destruct (Hrun (S K) Hred (S K) (le_n _)) as [L' (se & Cr & dr & HA)].
      eexists _, (S K), _, dr. split; [reflexivity|]. split; [lia|]. replace (Z.of_nat (S K) - 1) with (Z.of_nat K) by lia.
      split; [apply (Hshort (S K) Hred K ltac:(lia)); intros j Hj; apply Hne; lia|]. split; [apply (is_properties (ip_neq db) m Hm n Hn _ _ Hg)|]. cbn [gs_P].
      split; [intros v Bv; destruct (proj1 L' v Bv) as (B1 & _ & B3 & _ & B5 & _ & B7); auto|].
      split; [intros v Bv; destruct (HA v Bv) as (_ & _ & _ & _ & _ & B6 & B7); split; [exact B7|exact B6]|].
      intros v Bv. destruct (Hrun (S K) Hred K ltac:(lia)) as [L _]. apply (dends db val fin alpha s0 p lit least most top n D es dv Hr Hp Ha He Hs Hle Hn Hin Hl HD HD0 HP Htop Y (fun _ => dt2) q3 dt2 fuel K) in Hend.
      exact (settled db val fin alpha s0 p lit least most top n D es dv Hr Hp Ha He Hs Hle Hn Hin Hl HD HD0 HP Htop _ (Y K) (Z.of_nat K) L (doutcome db val fin alpha s0 p lit least most top n D es dv Hr Hp Ha He Hs Hle Hn Hin Hl HD HD0 HP Htop Y (fun _ => dt2) q3 dt2 fuel Qe (S K) K Hred ltac:(lia)) (Z.of_nat (S K)) se Cr dr ltac:(lia) Hend HA v Bv).
    - exfalso. cbn [j_fuel] in *. specialize (Hshort fuel Hred fuel (le_n _) (fun j Hj => Hne j ltac:(lia))). lra.
  Qed.
End Program.
