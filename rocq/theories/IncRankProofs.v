From Coq Require Import QArith Qabs Qcanon Lqa.
From Verif Require Import BaseLemmas Layout Reduce ReduceProofs DCSC MatSpec Segment Vec SpMat GraphVert Graph Runtime RunSpec RuntimeProofs GraphOps GraphHist GraphHistProofs Apps AppSpec AppBase RankSpec DegreeProofs PageRankProofs IncRank FlowSpec FlowProofs.
Local Open Scope Z_scope.

(** *** the degree program *)
Section Degree.
  Context {E byte F : Type}.
  Variable db : doubles F.
  Variable m : machine (ip_vertex F) E byte.
  Hypothesis Hm : machine_ok m.
  Variable n : Z.
  Hypothesis Hn : 0 <= n.
  Lemma ip_degree_is th dt dv fuel (fr : frame Z Z byte) tmp C (g : graph (ip_vertex F) E byte) q : threads_ok m (m_serv m) th -> frame_ok m th fr -> is m n g q ->
    match tmp with None => C = (fun _ => dt) | Some xy => trep (f_sert fr) (f_seru fr) n (m_nr m) (m_nt m) (fst xy) (snd xy) C end -> (1 <= fuel)%nat ->
    (forall v, 1 <= v <= n -> gs_A q v = Some true) -> zlen (gs_es q) < 2 ^ 31 ->
    exists r P A, run_job (ip_neq db) m th (mkJ ip_degrees tt 1 dt dv fuel) fr tmp g = Ok (r, 1) /\ is m n (r_g r) (mkGS (gs_es q) P A) /\
      forall v, 1 <= v <= n -> P v = mkIP (ip_delta (gs_P q v)) (ip_rank (gs_P q v)) (let d := out_degree (gs_es q) v in if d =? 0 then ip_degree (gs_P q v) else d).
  Proof.
    intros Ht Hfr Hg Htmp Hf HA Hl. destruct (run_once (ip_neq db) m Hm n Hn th ip_degrees tt dt dv fuel fr tmp C g q Ht Hfr Hg Htmp Hf) as (Y & r & Er & HY & Hr & _).
    exists r. eexists _, _. split; [exact Er|]. split; [exact Hr|]. intros v Bv. specialize (HY v Bv). cbn [gs_P]. unfold updated_with, out_degree. cbn [v_P begin v_s pr_apply ip_degrees].
    rewrite (received_all_in ip_degrees _ dv _ (fun _ => 1)) in HY; [|reflexivity|].
    - cbn [pr_process ip_degrees pr_reduce] in HY. apply counted in HY; [|pose proof (zlen_filter_le (fun e => e_src e =? v) (gs_es q)); lia].
      destruct HY as [[-> El]|[-> Nl]].
      + rewrite El. cbn. destruct (gs_P q v); reflexivity.
      + destruct (Z.eqb_spec (zlen (filter (fun e => e_src e =? v) (gs_es q))) 0) as [E0|]; [|reflexivity]. destruct (filter _ _) as [|x l]; [congruence|]. rewrite zlen_cons in E0. pose proof (zlen_nonneg l). lia.
    - intros e He. destruct Hg as (Hin & _). specialize (Hin e He). unfold message. cbn [begin v_A pr_all_vertices ip_degrees]. rewrite HA by apply Hin. reflexivity.
  Qed.
End Degree.

(** *** rational numbers in lowest terms *)
Lemma this_plus a b : (this (a + b)%Qc == a + b)%Q. Proof. apply Qred_correct. Qed.
Lemma this_mult a b : (this (a * b)%Qc == a * b)%Q. Proof. apply Qred_correct. Qed.
Lemma this_q q : (this (Q2Qc q) == q)%Q. Proof. apply Qred_correct. Qed.
Lemma this_opp a : (this (- a)%Qc == - a)%Q. Proof. apply Qred_correct. Qed.
Lemma this_inv a : (this (/ a)%Qc == / a)%Q. Proof. apply Qred_correct. Qed.
Lemma this_minus a b : (this (a - b)%Qc == a - b)%Q.
Proof. unfold Qcminus. rewrite this_plus, this_opp. reflexivity. Qed.
Lemma this_share r d : (this (r / Q2Qc (inject_Z d))%Qc == r / inject_Z d)%Q.
Proof. unfold Qcdiv, Qdiv. rewrite this_mult, this_inv, this_q. reflexivity. Qed.
Lemma this_qsum l : (this (qsum l) == qtotal (map this l))%Q.
Proof. induction l as [|x l IH]; [reflexivity|]. cbn [qsum fold_right map]. rewrite this_plus. fold (qsum l). rewrite IH. reflexivity. Qed.

Section Step.
  Context {E : Type}.
  Variables (n : Z) (es : list (edge E)) (alpha s0 eps : Qc) (dv : ip_vertex Qc).
  Hypothesis Hn : 0 <= n.
  Hypothesis Hin : forall e, In e es -> (1 <= e_src e <= n) /\ (1 <= e_dst e <= n).
  Hypothesis Ha : (0 < alpha)%Q /\ (alpha <= 1)%Q.
  Hypothesis He : (0 < eps)%Q.
  Hypothesis Hs : (eps < Qabs s0)%Q.
  Notation db := (qdoubles alpha s0 eps).
  Notation pg := (@delta_rank Qc db E).
  Notation vst := (@vstate Z Qc (ip_vertex Qc)).
  Notation vs := (zrange 1 (n + 1)).
  Definition dlt (S : vst) v : Q := ip_delta (v_P S v).
  Definition rnk (S : vst) v : Q := ip_rank (v_P S v).
  (** what [v] will send, and what it holds back *)
  Definition pend (S : vst) v : Q := match v_A S v with Some true => dlt S v | _ => 0%Q end.
  Definition small (S : vst) v : Q := if Qle_bool (Qabs (dlt S v)) eps then dlt S v else 0%Q.
  Definition iinv (S : vst) : Prop := forall v, 1 <= v <= n ->
    ip_degree (v_P S v) = out_degree es v /\
    ((v_A S v = Some true /\ (eps < Qabs (dlt S v))%Q) \/ v_A S v = None) /\
    (rnk S v + small S v == s0 + (1 - alpha) * inflow es (fun u => rnk S u - pend S u) v)%Q /\
    (in_degree es v = 0 -> ip_rank (v_P S v) = s0).

  Lemma big_spec x : negb (Qle_bool x eps) = true <-> (eps < x)%Q.
  Proof using. rewrite negb_true_iff. destruct (Qle_bool x eps) eqn:L; [apply Qle_bool_iff in L; split; [discriminate|lra]|]. split; [|auto]. intros _. apply Qnot_le_lt. intros H. apply Qle_bool_iff in H. congruence. Qed.
  Lemma small_le S v : (Qabs (small S v) <= eps)%Q.
  Proof using He. unfold small. destruct (Qle_bool (Qabs (dlt S v)) eps) eqn:L; [apply Qle_bool_iff, L|]. cbn. lra. Qed.
  Lemma apart_abs S v : iinv S -> 1 <= v <= n -> (Qabs (pend S v + small S v) == Qabs (pend S v) + Qabs (small S v))%Q.
  Proof using.
    intros HI Bv. destruct (HI v Bv) as (_ & [[HA Hb]|HA] & _); unfold pend; rewrite HA.
    - assert (small S v = 0%Q) as ->; [|rewrite Qplus_0_r; cbn; ring]. unfold small. apply big_spec in Hb. apply negb_true_iff in Hb. rewrite Hb. reflexivity.
    - rewrite Qplus_0_l. cbn. ring.
  Qed.

  (** what arrives adds up to the flow of what is sent *)
  Lemma arrives S v : iinv S -> (qtotal (map this (received es pg dv S v)) == inflow es (pend S) v)%Q.
  Proof using Hin.
    intros HI. unfold received, inflow. cbn [pr_order delta_rank]. unfold arriving.
    assert (H : forall l, incl l es -> (qtotal (map this (flat_map (fun e => if snd (along e) =? v then match message pg S (fst (along e)) with Some t => [pr_process pg (v_s S) t (e_val e) (seen pg dv S v)] | None => [] end else []) l)) ==
      qtotal (map (fun e => pend S (e_src e) / inject_Z (out_degree es (e_src e))) (filter (fun e => (e_dst e =? v)%Z) l)))%Q).
    { induction l as [|e l IH]; intros Hl; [reflexivity|]. cbn [flat_map filter along fst snd]. rewrite map_app, qtotal_app, IH by (intros z Hz; apply Hl; cbn; auto).
      destruct (e_dst e =? v); [|change (qtotal (map this [])) with 0%Q; apply Qplus_0_l]. cbn [map]. rewrite qtotal_cons. apply Qplus_inj_r.
      pose proof (Hl e (or_introl eq_refl)) as Hee. destruct (HI (e_src e) (proj1 (Hin e Hee))) as (Hd & HA & _). pose proof (deg_pos es e Hee) as Dp.
      unfold message, pend. destruct HA as [[-> _]| ->].
      - cbn [map]. rewrite qtotal_cons. cbn [pr_process delta_rank pr_send fst]. rewrite Hd. destruct (Z.eqb_spec (out_degree es (e_src e)) 0); [lia|]. cbn [db_share qdoubles].
        rewrite this_share. change (qtotal []) with 0%Q. rewrite Qplus_0_r. reflexivity.
      - cbn. reflexivity. }
    apply H, incl_refl.
  Qed.
  Lemma given S Y v : iinv S -> combined_of (pr_reduce pg (v_s S)) (received es pg dv S v) (Y v) ->
    match Y v with Some u => (this u == inflow es (pend S) v)%Q | None => (inflow es (pend S) v == 0)%Q end.
  Proof using Hin.
    intros HI HY. pose proof (arrives S v HI) as HR. destruct (Y v) as [u|]; cbn [combined_of] in HY; rewrite <- HR.
    - cbn [pr_reduce delta_rank db_add qdoubles] in HY. apply combination_qsum in HY. rewrite HY. apply this_qsum.
    - rewrite HY. reflexivity.
  Qed.

  Section One.
    Variables (S : vst) (Y : Z -> option Qc) (it : Z).
    Hypothesis HI : iinv S.
    Hypothesis HY : forall v, 1 <= v <= n -> combined_of (pr_reduce pg (v_s S)) (received es pg dv S v) (Y v).
    Notation S' := (step_with pg (ip_neq db) Y it S).

    (** one vertex *)
    Lemma moved v : 1 <= v <= n ->
      ip_degree (v_P S' v) = out_degree es v /\
      ((v_A S' v = Some true /\ (eps < Qabs (dlt S' v))%Q) \/ v_A S' v = None) /\
      (rnk S' v == rnk S v + pend S' v)%Q /\
      (pend S' v + small S' v == small S v + (1 - alpha) * inflow es (pend S) v)%Q /\
      (v_A S' v = Some true <-> changed_with pg (ip_neq db) Y S v = true) /\
      (in_degree es v = 0 -> ip_rank (v_P S' v) = s0).
    Proof using HI HY Hin He.
      intros Bv. destruct (HI v Bv) as (Hd & HA & _ & H0). pose proof (given S Y v HI (HY v Bv)) as HG.
      assert (HN : in_degree es v = 0 -> Y v = None).
      { intros Hz. specialize (HY v Bv). destruct (Y v) as [u|]; [|reflexivity]. exfalso. cbn [combined_of] in HY. unfold received in HY. cbn [pr_order delta_rank] in HY. unfold arriving in HY.
        assert (flat_map (fun e : edge E => if snd (along e) =? v then match message pg S (fst (along e)) with Some t => [pr_process pg (v_s S) t (e_val e) (seen pg dv S v)] | None => [] end else []) es = []) as Hz'.
        { unfold in_degree in Hz. clear - Hz. induction es as [|e l IH]; [reflexivity|]. cbn [filter flat_map along snd] in *. destruct (e_dst e =? v); [rewrite zlen_cons in Hz; pose proof (zlen_nonneg (filter (fun e => e_dst e =? v) l)); lia|]. auto. }
        rewrite Hz' in HY. exact (combination_nil _ _ HY). }
      unfold pend, small, dlt, rnk. cbn [step_with v_P v_A pr_all_vertices delta_rank orb]. unfold changed_with, updated_with. destruct (Y v) as [u|].
      - cbn [pr_apply delta_rank]. set (w := v_P S v) in *.
        set (d := db_add db (if db_big db (ip_delta w) then db_zero db else ip_delta w) (db_damp db u)).
        assert (Ed : (this d == (if Qle_bool (Qabs (ip_delta w)) eps then ip_delta w else 0) + (1 - alpha) * inflow es (pend S) v)%Q).
        { unfold d. cbn [db_add db_big db_damp db_zero qdoubles]. rewrite this_plus, this_mult, this_minus, HG. destruct (Qle_bool (Qabs (ip_delta w)) eps); reflexivity. }
        assert (Ea : ip_apply db u w = mkIP d (if db_big db d then db_add db (ip_rank w) d else ip_rank w) (ip_degree w)) by reflexivity. rewrite Ea. clearbody d. cbn [ip_delta ip_rank ip_degree].
        unfold ip_neq. cbn [db_far db_big db_add qdoubles ip_rank]. fold w in Hd. split; [exact Hd|].
        destruct (Qle_bool (Qabs d) eps) eqn:Ld; cbn [negb].
        + assert (Qle_bool (Qabs (ip_rank w - ip_rank w)%Qc) eps = true) as ->. { apply Qle_bool_iff. rewrite this_minus. setoid_replace (ip_rank w - ip_rank w)%Q with 0%Q by ring. cbn. lra. }
          cbn [negb]. split; [auto|]. split; [ring|]. split; [rewrite Qplus_0_l; exact Ed|]. split; [split; discriminate|]. intros Hz. specialize (HN Hz). discriminate.
        + assert (Qle_bool (Qabs (ip_rank w + d - ip_rank w)%Qc) eps = false) as ->.
          { destruct (Qle_bool (Qabs (ip_rank w + d - ip_rank w)%Qc) eps) eqn:L; [|reflexivity]. rewrite <- Ld. symmetry. apply Qle_bool_iff. apply Qle_bool_iff in L.
            rewrite this_minus, this_plus in L. setoid_replace (ip_rank w + d - ip_rank w)%Q with (this d) in L by ring. exact L. }
          cbn [negb]. split; [left; split; [reflexivity|]; apply big_spec; rewrite Ld; reflexivity|]. split; [apply this_plus|]. split; [rewrite Qplus_0_r; exact Ed|]. split; [split; reflexivity|]. intros Hz. specialize (HN Hz). discriminate.
      - split; [exact Hd|]. split; [auto|]. split; [ring|]. split; [unfold pend in HG; fold (pend S) in HG; fold (dlt S v) in *; rewrite HG; ring|]. split; [split; discriminate|exact H0].
    Qed.

    Lemma iinv_step : iinv S'.
    Proof using HI HY Hin He.
      intros v Bv. destruct (moved v Bv) as (Hd & HA & Hr & Hu & _ & H0). split; [exact Hd|]. split; [exact HA|]. split; [|exact H0].
      rewrite (inflow_ext n es Hin _ (fun u => (rnk S u - pend S u) + pend S u)%Q).
      - rewrite (inflow_plus es (fun u => rnk S u - pend S u)%Q (pend S)). destruct (HI v Bv) as (_ & _ & HE & _). rewrite Hr. rewrite <- Qplus_assoc, Hu. rewrite Qplus_assoc, HE. ring.
      - intros u Bu. destruct (moved u Bu) as (_ & _ & -> & _). ring.
    Qed.

    Definition held (S : vst) : Q := qtotal (map (fun v => Qabs (pend S v + small S v)) vs).
    Definition sent (S : vst) : Q := qtotal (map (fun v => Qabs (pend S v)) vs).
    Lemma held_step : (held S' <= held S - alpha * sent S)%Q.
    Proof using HI HY Hin He Ha.
      unfold held. rewrite (qt_ext (fun v => Qabs (pend S v + small S v))%Q (fun v => Qabs (pend S v) + Qabs (small S v))%Q) by (intros v Hv; apply in_zrange in Hv; apply apart_abs; [exact HI|lia]).
      rewrite qt_plus. fold (sent S).
      assert (H : (qtotal (map (fun v => Qabs (pend S' v + small S' v)) vs) <= qtotal (map (fun v => Qabs (small S v) + (1 - alpha) * Qabs (inflow es (pend S) v)) vs))%Q).
      { apply qt_le. intros v Hv. apply in_zrange in Hv. destruct (moved v ltac:(lia)) as (_ & _ & _ & -> & _). eapply Qle_trans; [apply Qabs_triangle|]. rewrite Qabs_Qmult, (Qabs_pos (1 - alpha)) by lra. apply Qle_refl. }
      rewrite qt_plus, qt_scale in H. pose proof (inflow_contracts n es Hin (pend S)) as Hc. fold (sent S) in Hc.
      assert ((1 - alpha) * qtotal (map (fun v => Qabs (inflow es (pend S) v)) vs) <= (1 - alpha) * sent S)%Q by (rewrite !(Qmult_comm (1 - alpha)); apply Qmult_le_compat_r; [exact Hc|lra]). lra.
    Qed.
    Lemma sent_step : converged_with n pg (ip_neq db) Y S <> true -> (eps <= sent S')%Q.
    Proof using HI HY Hin He.
      intros Hc. apply not_converged in Hc as (v & Bv & Hc). destruct (moved v Bv) as (_ & HA & _ & _ & HC & _). apply HC in Hc. destruct HA as [[HA Hb]|HA]; [|congruence].
      eapply Qle_trans; [|apply (qt_one (fun v => Qabs (pend S' v)) vs v); [intros; apply Qabs_nonneg|apply in_zrange; lia]]. unfold pend. rewrite HA. lra.
    Qed.
    Lemma solved : converged_with n pg (ip_neq db) Y S = true -> solves_within n es alpha s0 eps (rnk S').
    Proof using HI HY Hin He.
      intros Hc v Bv. destruct (iinv_step v Bv) as (_ & _ & HE & _). rewrite (inflow_ext n es Hin _ (rnk S')) in HE.
      - pose proof (small_le S' v) as Hb. setoid_replace (rnk S' v - (s0 + (1 - alpha) * inflow es (rnk S') v))%Q with (- small S' v)%Q; [rewrite Qabs_opp; exact Hb|]. rewrite <- HE. ring.
      - intros u Bu. destruct (moved u Bu) as (_ & HA & _ & _ & HC & _). rewrite (converged_changed _ _ _ _ _ u Hc Bu) in HC. unfold pend. destruct HA as [[HA _]| ->]; [apply HC in HA; discriminate|]. ring.
    Qed.
  End One.

  Section Run.
    Variables (Y : nat -> Z -> option Qc) (C : Z -> Qc) (q : gspec (ip_vertex Qc) E) (dt : Qc) (fuel : nat).
    Hypothesis Qe : gs_es q = es.
    Hypothesis QP : forall v, 1 <= v <= n -> gs_P q v = mkIP s0 s0 (out_degree es v).
    Hypothesis QA : forall v, gs_A q v = Some true.
    Notation jb := (mkJ pg 0 (-1) dt dv fuel).
    Notation st k := (job_after_with (ip_neq db) jb Y C q k).

    Lemma first v : 1 <= v <= n -> v_P (st O) v = mkIP s0 s0 (out_degree es v) /\ v_A (st O) v = Some true.
    Proof using QP QA. intros Bv. unfold job_after_with. cbn [after_with begin start j_pg pr_all_vertices delta_rank v_P v_A]. rewrite QP by auto. split; [reflexivity|apply QA]. Qed.
    Lemma iinv_first : iinv (st O).
    Proof using QP QA Hs Hin.
      intros v Bv. destruct (first v Bv) as [HP HA]. unfold rnk, small, dlt. rewrite HP. cbn [ip_degree ip_delta ip_rank]. split; [reflexivity|]. split; [left; split; [exact HA|exact Hs]|]. split; [|auto].
      rewrite (inflow_ext n es Hin _ (fun u => 0 * 0)%Q).
      - rewrite inflow_scale. destruct (Qle_bool (Qabs s0) eps) eqn:L; [apply Qle_bool_iff in L; lra|]. ring.
      - intros u Bu. destruct (first u Bu) as [HP' HA']. unfold pend, dlt. rewrite HP', HA'. cbn. ring.
    Qed.
    Lemma held_first : (held (st O) == inject_Z n * Qabs s0)%Q /\ (1 <= n -> (eps <= sent (st O))%Q).
    Proof using QP QA Hs Hin Hn.
      split.
      - unfold held. rewrite (qt_ext _ (fun _ => Qabs s0)); [rewrite qt_const, zlen_zrange by lia; replace (n + 1 - 1) with n by lia; reflexivity|].
        intros v Hv. apply in_zrange in Hv. destruct (first v ltac:(lia)) as [HP HA]. unfold pend, small, dlt. rewrite HP, HA. cbn [ip_delta]. destruct (Qle_bool (Qabs s0) eps) eqn:L; [apply Qle_bool_iff in L; lra|]. rewrite Qplus_0_r. reflexivity.
      - intros H1. destruct (first 1 ltac:(lia)) as [HP HA]. eapply Qle_trans; [|apply (qt_one (fun v => Qabs (pend (st O) v)) vs 1); [intros; apply Qabs_nonneg|apply in_zrange; lia]].
        unfold pend, dlt. rewrite HA, HP. cbn [ip_delta]. lra.
    Qed.
    Lemma run_inv K : job_reduces (ip_neq db) n jb Y C q K -> forall k, (k <= K)%nat -> iinv (st k).
    Proof using QP QA Qe Hs Hin He.
      intros Hr. apply (job_inv (ip_neq db) n jb Y C q K (fun _ S => iinv S) Hr); [exact iinv_first|].
      intros k Hk HI HY. change (st (Datatypes.S k)) with (step_with pg (ip_neq db) (Y k) (Z.of_nat k) (st k)). apply iinv_step; [exact HI|]. unfold job_received in HY. cbn [j_pg j_dv] in HY. rewrite Qe in HY. exact HY.
    Qed.
    Lemma outcome_at K k : job_reduces (ip_neq db) n jb Y C q K -> (k < K)%nat -> forall v, 1 <= v <= n -> combined_of (pr_reduce pg (v_s (st k))) (received es pg dv (st k) v) (Y k v).
    Proof using Qe. intros Hr Hk v Bv. specialize (Hr k v Hk Bv). unfold job_received in Hr. cbn [j_pg j_dv] in Hr. rewrite Qe in Hr. exact Hr. Qed.
    Lemma ends_is k : job_ends_with (ip_neq db) n jb Y C q (Datatypes.S k) <-> converged_with n pg (ip_neq db) (Y k) (st k) = true.
    Proof using.
      clear QP QA Qe. unfold job_ends_with, ends_with. replace (Datatypes.S k - 1)%nat with k by lia. split; [intros [H|[_ H]]; [cbn in H; lia|exact H]|]. intros H. right. split; [cbn; lia|exact H].
    Qed.
    (** the potential after [k] supersteps, none of them but perhaps the last converged *)
    Lemma held_after K : job_reduces (ip_neq db) n jb Y C q K -> 1 <= n -> forall k, (k <= K)%nat -> (forall j, (1 <= j < k)%nat -> ~ job_ends_with (ip_neq db) n jb Y C q j) ->
      (held (st k) <= inject_Z n * Qabs s0 - inject_Z (Z.of_nat k) * (alpha * eps))%Q.
    Proof using QP QA Qe Hs Hin He Ha Hn.
      intros Hr H1. induction k as [|k IH]; intros Hk Hne; [rewrite (proj1 held_first); change (inject_Z (Z.of_nat 0)) with 0%Q; lra|].
      specialize (IH ltac:(lia) (fun j Hj => Hne j ltac:(lia))). pose proof (run_inv K Hr k ltac:(lia)) as HI.
      pose proof (held_step (st k) (Y k) (Z.of_nat k) HI (outcome_at K k Hr ltac:(lia))) as Hstep.
      change (st (Datatypes.S k)) with (step_with pg (ip_neq db) (Y k) (Z.of_nat k) (st k)).
      assert (Hsent : (eps <= sent (st k))%Q).
      { destruct k as [|k]; [apply held_first, H1|]. change (st (Datatypes.S k)) with (step_with pg (ip_neq db) (Y k) (Z.of_nat k) (st k)).
        apply sent_step; [apply (run_inv K Hr k ltac:(lia))|apply (outcome_at K k Hr ltac:(lia))|]. intros Hc. apply (Hne (Datatypes.S k)); [lia|]. apply ends_is. exact Hc. }
      rewrite Nat2Z.inj_succ. unfold Z.succ. rewrite inject_Z_plus.
      assert (alpha * eps <= alpha * sent (st k))%Q by (rewrite !(Qmult_comm alpha); apply Qmult_le_compat_r; [exact Hsent|lra]).
      change (inject_Z 1) with 1%Q. lra.
    Qed.
    Lemma held_nonneg S : (0 <= held S)%Q.
    Proof using. apply qt_nonneg. intros; apply Qabs_nonneg. Qed.
  End Run.
End Step.

Section Program.
  Context {E byte : Type}.
  Variables (alpha s0 eps : Qc).
  Notation db := (qdoubles alpha s0 eps).
  Variable m : machine (ip_vertex Qc) E byte.
  Variables (n : Z) (blobs : list (list (edge E))).
  Hypothesis Hset : setting m n blobs.
  Notation es := (concat blobs).
  Hypothesis Hl : zlen es < 2 ^ 31.
  Variables (th : Z) (fr1 : frame Z Z byte) (fr2 : frame Qc Qc byte) (dt1 : Z) (dt2 : Qc) (dv : ip_vertex Qc) (fuel : nat).
  Hypothesis Ht : threads_ok m (m_serv m) th.
  Hypothesis Hfr1 : frame_ok m th fr1.
  Hypothesis Hfr2 : frame_ok m th fr2.
  Hypothesis Ha : (0 < alpha)%Q /\ (alpha <= 1)%Q.
  Hypothesis He : (0 < eps)%Q.
  Hypothesis Hs : (eps < Qabs s0)%Q.
  Hypothesis Hf : (inject_Z n * Qabs s0 < inject_Z (Z.of_nat fuel) * (alpha * eps))%Q.

  Lemma run_increment_spec : exists g K P, run_increment db m th fr1 fr2 dt1 dt2 dv fuel n blobs = Ok (g, Z.of_nat K) /\ (1 <= K)%nat /\
    (inject_Z (Z.of_nat K - 1) * (alpha * eps) <= inject_Z n * Qabs s0)%Q /\ shows_properties n m g P /\
    (forall v, 1 <= v <= n -> ip_degree (P v) = out_degree es v) /\
    (forall v, 1 <= v <= n -> in_degree es v = 0 -> ip_rank (P v) = s0) /\
    solves_within n es alpha s0 eps (fun v => ip_rank (P v)).
  Proof.
    pose proof Hset as (Hm & Hn & Lb & Hin). unfold run_increment. destruct (load_is m Hm n Hn (ip_new db) blobs Lb Hin) as (g0 & -> & H0). cbn [bind].
    destruct (init_is m Hm n Hn th fr1 dt1 g0 _ Hfr1 H0) as (xy & -> & Hxy). cbn [bind run_call].
    destruct (act_op m Hm n Hn (m_serv m) th AAllActive g0 _ Ht I H0) as (g1 & -> & H1). cbn [bind].
    destruct (ip_degree_is db m Hm n Hn th dt1 dv 1 fr1 (Some xy) (fun _ => dt1) g1 _ Ht Hfr1 H1 Hxy) as (r1 & P1 & A1 & -> & H2 & HP1); [lia|reflexivity|exact Hl|]. cbn [bind fst].
    destruct (init_is m Hm n Hn th fr2 dt2 (r_g r1) _ Hfr2 H2) as (xy2 & -> & Hxy2). cbn [bind run_call].
    destruct (act_op m Hm n Hn (m_serv m) th AAllActive (r_g r1) _ Ht I H2) as (g3 & -> & H3). cbn [bind gs_es gs_P gs_A loaded] in *.
    set (q3 := mkGS _ _ _) in H3.
    assert (QP : forall v, 1 <= v <= n -> gs_P q3 v = mkIP s0 s0 (out_degree es v)).
    { intros v Bv. cbn [q3 gs_P]. rewrite HP1 by auto. cbn [ip_rank ip_delta ip_degree ip_new db_start qdoubles]. destruct (Z.eqb_spec (out_degree es v) 0) as [->|]; reflexivity. }
    assert (QA : forall v, gs_A q3 v = Some true) by reflexivity.
    assert (Qe : gs_es q3 = es) by reflexivity. clearbody q3.
    destruct (run_op_any (ip_neq db) m Hm n Hn th (mkJ (@delta_rank Qc db E) 0 (-1) dt2 dv fuel) fr2 (Some xy2) (fun _ => dt2) g3 q3 Ht Hfr2 H3 Hxy2) as (Y & HX).
    assert (Hn1 : n = 0 \/ 1 <= n) by lia.
    pose proof (held_after n es alpha s0 eps dv Hn Hin Ha He Hs Y (fun _ => dt2) q3 dt2 fuel Qe QP QA) as Hheld.
    destruct HX as [(K & r & (BK & Hr & Hend & Hne) & -> & _ & Hg & _)|[[Hr Hne] _]]; cbn [bind fst snd].
    - eexists _, K, _. split; [reflexivity|]. split; [lia|]. destruct K as [|K]; [lia|]. replace (Z.of_nat (S K) - 1) with (Z.of_nat K) by lia.
      split; [|split; [apply (is_properties (ip_neq db) m Hm n Hn _ _ Hg)|]].
      + destruct Hn1 as [H0'|H1'].
        * destruct K as [|K]; [rewrite H0'; cbn [inject_Z]; change (inject_Z (Z.of_nat 0)) with 0%Q; change (inject_Z 0) with 0%Q; lra|]. exfalso. apply (Hne 1%nat); [lia|]. apply ends_is. rewrite H0'. reflexivity.
        * specialize (Hheld (S K) Hr H1' K ltac:(lia) (fun j Hj => Hne j ltac:(lia))). pose proof (held_nonneg n eps (job_after_with (ip_neq db) (mkJ (@delta_rank Qc db E) 0 (-1) dt2 dv fuel) Y (fun _ => dt2) q3 K)). lra.
      + cbn [gs_P]. pose proof (run_inv n es alpha s0 eps dv Hin He Hs Y (fun _ => dt2) q3 dt2 fuel Qe QP QA (S K) Hr) as HI.
        split; [intros v Bv; apply (HI (S K) ltac:(lia) v Bv)|]. split; [intros v Bv; apply (HI (S K) ltac:(lia) v Bv)|].
        apply ends_is in Hend. exact (solved n es alpha s0 eps dv Hin He _ (Y K) (Z.of_nat K) (HI K ltac:(lia)) (outcome_at n es alpha s0 eps dv Y (fun _ => dt2) q3 dt2 fuel Qe (S K) K Hr ltac:(lia)) Hend).
    - exfalso. cbn [j_fuel] in *. destruct Hn1 as [H0'|H1'].
      + destruct fuel as [|f]; [rewrite H0' in Hf; change (inject_Z (Z.of_nat 0)) with 0%Q in Hf; change (inject_Z 0) with 0%Q in Hf; lra|]. apply (Hne 1%nat); [lia|]. apply ends_is. rewrite H0'. reflexivity.
      + specialize (Hheld fuel Hr H1' fuel ltac:(lia) (fun j Hj => Hne j ltac:(lia))). pose proof (held_nonneg n eps (job_after_with (ip_neq db) (mkJ (@delta_rank Qc db E) 0 (-1) dt2 dv fuel) Y (fun _ => dt2) q3 fuel)). lra.
  Qed.
End Program.
