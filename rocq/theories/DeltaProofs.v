From Verif Require Import BaseLemmas Layout Reduce ReduceProofs DCSC MatSpec Segment Vec SpMat GraphVert Graph Runtime RunSpec RuntimeProofs GraphOps GraphHist GraphHistProofs Apps AppSpec AppBase LabelProofs DegreeProofs.

Section Delta.
  Variables (n s : Z) (es : list (edge Z)) (delta W : Z).
  Hypothesis Hs : 1 <= s <= n.
  Hypothesis Hin : forall e, In e es -> 1 <= e_src e <= n /\ 1 <= e_dst e <= n.
  Hypothesis Hpos : forall e, In e es -> 0 <= e_val e.
  Hypothesis Hfit : sums_below es W s.
  Hypothesis HW : 1 <= W <= 2 ^ 32 - 1.
  Hypothesis HWd : W <= delta * INT_MAX.
  Hypothesis Hdelta : 1 <= delta < 2 ^ 31.
  Variable dv : ds_vertex.
  Notation trace := (trace n s es).
  Notation D P := (fun v => d_dist (P v)).

  (** labels are weights of paths and buckets fit the labels *)
  Definition dsok (P : Z -> ds_vertex) : Prop :=
    d_dist (P s) = 0 /\
    forall v, 1 <= v <= n -> (d_dist (P v) = MAX_DIST /\ d_bucket (P v) = INT_MAX) \/
      (0 <= d_dist (P v) < W /\ d_bucket (P v) = d_dist (P v) / delta /\ exists vs, trace (D P) v vs).
  (** all edges that leave vertices in buckets before [b] are relaxed *)
  Definition before (b : Z) (P : Z -> ds_vertex) : Prop :=
    forall e, In e es -> d_dist (P (e_src e)) <> MAX_DIST -> d_bucket (P (e_src e)) < b -> d_dist (P (e_dst e)) <= d_dist (P (e_src e)) + e_val e.

  Lemma sums P v vs e : trace (D P) v vs -> In e es -> e_src e = v -> 0 <= d_dist (P v) + e_val e < W.
  Proof.
    intros (Pa & Nd & H) He <-. pose proof (path_nonneg n s es Hin Hpos _ _ _ Pa). pose proof (Hpos e He). pose proof (Hfit _ _ _ Pa Nd He). lia.
  Qed.

  (** one superstep of bucket [b] along some of the edges *)
  Section Step.
    Variables (b : Z) (ess : list (edge Z)) (S : @vstate (Z * Z) Z ds_vertex) (Yk : Z -> option Z) (it : Z).
    Hypothesis Hb : 0 <= b < INT_MAX.
    Hypothesis Hsub : forall e, In e ess -> In e es.
    Hypothesis Hvs : v_s S = (delta, b).
    Notation P := (v_P S).
    Notation S' := (step_with delta_step ds_neq Yk it S).
    Notation P' := (v_P S').
    Hypothesis HP : dsok P.
    Hypothesis HA : forall v, 1 <= v <= n -> v_A S v = Some true \/ v_A S v = None.
    Hypothesis HY : forall v, 1 <= v <= n -> combined_of (pr_reduce delta_step (v_s S)) (received ess delta_step dv S v) (Yk v).

    (** senders that matter *)
    Definition sends (e : edge Z) : Prop := In e ess /\ v_A S (e_src e) = Some true /\ d_bucket (P (e_src e)) = b.
    Lemma sends_ok e : sends e -> In e es /\ 1 <= e_src e <= n /\ 1 <= e_dst e <= n /\ d_dist (P (e_src e)) <> MAX_DIST /\ 0 <= d_dist (P (e_src e)) + e_val e < W /\
      b * delta <= d_dist (P (e_src e)) < (b + 1) * delta /\ exists vs, trace (D P) (e_src e) vs.
    Proof.
      intros (He & _ & Eb). apply Hsub in He as He'. destruct (Hin e He') as [B1 B2]. split; auto. split; auto. split; auto. destruct HP as [_ HV].
      destruct (HV _ B1) as [[_ Em]|(Bd & Ebu & vs & T)]; [lia|]. pose proof (sums P _ vs e T He' eq_refl). split; [unfold MAX_DIST; lia|]. split; auto. split; [|eauto].
      rewrite Ebu in Eb. pose proof (Z.div_mod (d_dist (P (e_src e))) delta ltac:(lia)). pose proof (Z.mod_pos_bound (d_dist (P (e_src e))) delta ltac:(lia)). nia.
    Qed.
    Lemma arrives v u : In u (received ess delta_step dv S v) -> u = MAX_DIST \/ exists e, sends e /\ e_dst e = v /\ u = d_dist (P (e_src e)) + e_val e.
    Proof.
      intros Hu. apply received_out in Hu as (e & t & He & Hd & Ht & ->); [|reflexivity]. rewrite Hvs. cbn [pr_process delta_step]. destruct (Z.ltb_spec t MAX_DIST); [|auto]. right. exists e.
      unfold message in Ht. destruct (HA (e_src e)) as [EA|EA]; [apply Hin, Hsub, He| |]; rewrite EA in Ht; [|discriminate]. injection Ht as Ht. rewrite Hvs in Ht. cbn [pr_send delta_step fst snd] in Ht.
      destruct (Z.eqb_spec (d_bucket (P (e_src e))) b) as [Eb|]; [|lia]. subst t. assert (sends e) as Se by (split; auto). split; auto. split; auto.
      destruct (sends_ok e Se) as (_ & _ & _ & _ & B & _). unfold u32. apply Z.mod_small. lia.
    Qed.
    Lemma sent e : sends e -> In (d_dist (P (e_src e)) + e_val e) (received ess delta_step dv S (e_dst e)).
    Proof.
      intros Se. destruct (sends_ok e Se) as (He & B1 & _ & Nm & B & _). destruct Se as (Hes & EA & Eb). apply received_out; [reflexivity|]. exists e, (d_dist (P (e_src e))). split; auto. split; auto. split.
      - unfold message. rewrite EA, Hvs. cbn [pr_send delta_step fst snd]. rewrite Eb, Z.eqb_refl. reflexivity.
      - rewrite Hvs. cbn [pr_process delta_step]. pose proof (Hpos e He). destruct (Z.ltb_spec (d_dist (P (e_src e))) MAX_DIST); [|unfold MAX_DIST in *; lia]. unfold u32. symmetry. apply Z.mod_small. lia.
    Qed.

    Lemma step_one v : 1 <= v <= n -> (P' v = P v \/ exists e, sends e /\ e_dst e = v /\ P' v = mkD (d_dist (P (e_src e)) + e_val e) ((d_dist (P (e_src e)) + e_val e) / delta) /\ d_dist (P' v) < d_dist (P v)).
    Proof.
      intros Bv. pose proof (HY v Bv) as HYv. cbn [step_with v_P]. unfold updated_with. destruct (Yk v) as [u|] eqn:EY; cbn [combined_of] in HYv; [|auto]. apply combination_min in HYv as [Hu _].
      rewrite Hvs. cbn [pr_apply delta_step fst]. destruct (Z.ltb_spec u (d_dist (P v))) as [Lt|]; [|auto]. right. apply arrives in Hu as [->|(e & Se & Hd & ->)].
      - exfalso. destruct HP as [_ HV]. destruct (HV v Bv) as [[Em _]|(Bd & _)]; unfold MAX_DIST in *; lia.
      - exists e. split; auto. split; auto. cbn [d_dist]. split; auto. f_equal. destruct (sends_ok e Se) as (_ & _ & _ & _ & B & _).
        replace (u32 delta) with delta by (unfold u32; rewrite Z.mod_small; lia). rewrite Z.quot_div_nonneg by lia. apply i32_id.
        assert ((d_dist (P (e_src e)) + e_val e) / delta < INT_MAX) by (apply Z.div_lt_upper_bound; lia). pose proof (Z.div_pos (d_dist (P (e_src e)) + e_val e) delta). unfold INT_MAX in *. lia.
    Qed.
    Lemma step_relaxes e : sends e -> d_dist (P' (e_dst e)) <= d_dist (P (e_src e)) + e_val e.
    Proof.
      intros Se. destruct (sends_ok e Se) as (_ & _ & Bv & _). pose proof (HY _ Bv) as HYv. cbn [step_with v_P]. unfold updated_with. pose proof (sent e Se) as Hi. destruct (Yk (e_dst e)) as [u|]; cbn [combined_of] in HYv.
      - apply combination_min in HYv as [_ Hmin]. specialize (Hmin _ Hi). cbn [pr_apply delta_step]. destruct (Z.ltb_spec u (d_dist (P (e_dst e)))); cbn [d_dist]; lia.
      - rewrite HYv in Hi. destruct Hi.
    Qed.
    Lemma step_le v : 1 <= v <= n -> d_dist (P' v) <= d_dist (P v).
    Proof. intros Bv. destruct (step_one v Bv) as [->|(e & _ & _ & _ & L)]; lia. Qed.
    Lemma step_active v : v_A S' v = if d_dist (P v) =? d_dist (P' v) then None else Some true.
    Proof.
      cbn [step_with v_A v_P delta_step pr_all_vertices orb]. unfold changed_with, updated_with, ds_neq. destruct (Yk v) as [u|]; [|rewrite Z.eqb_refl; reflexivity]. destruct (_ =? _); reflexivity.
    Qed.
    (** a trace for a vertex whose label was lowered *)
    Lemma step_trace e vs : sends e -> d_dist (P' (e_dst e)) = d_dist (P (e_src e)) + e_val e -> d_dist (P' (e_dst e)) < d_dist (P (e_dst e)) -> trace (D P) (e_src e) vs -> trace (D P') (e_dst e) (e_dst e :: vs).
    Proof.
      intros Se E L T. destruct (sends_ok e Se) as (He & _). apply (trace_extend n s es Hs Hin Hpos (D P)); auto. intros x Bx. apply step_le; auto.
    Qed.
    Lemma step_ok : dsok P'.
    Proof.
      pose proof HP as [H0 HV]. split.
      - destruct (step_one s Hs) as [->|(e & Se & _ & Ep & L)]; [auto|]. destruct (sends_ok e Se) as (_ & _ & _ & _ & B & _). rewrite Ep in L. cbn [d_dist] in L. lia.
      - intros v Bv. destruct (step_one v Bv) as [Ep|(e & Se & Hd & Ep & L)].
        + rewrite Ep. destruct (HV v Bv) as [H|(B & Eb & vs & T)]; [left; auto|]. right. split; auto. split; auto. exists vs. apply (trace_keep n s es (D P)); [intros x Bx; apply step_le; auto|rewrite Ep; reflexivity|exact T].
        + right. destruct (sends_ok e Se) as (He & _ & _ & _ & B & _ & vs & T). assert (trace (D P') v (v :: vs)) as T'.
          { rewrite <- Hd. apply step_trace; auto; rewrite Hd; [rewrite Ep; reflexivity|exact L]. }
          rewrite Ep in *. cbn [d_dist d_bucket] in *. split; auto. split; auto. exists (v :: vs). exact T'.
    Qed.
    (** vertices in earlier buckets keep their labels *)
    Lemma step_early v : 1 <= v <= n -> d_bucket (P' v) < b -> P' v = P v.
    Proof.
      intros Bv Lb. destruct (step_one v Bv) as [Ep|(e & Se & Hd & Ep & L)]; auto. exfalso. destruct (sends_ok e Se) as (He & _ & _ & _ & B & Bb & _). rewrite Ep in Lb. cbn [d_bucket] in Lb.
      pose proof (Hpos e He). assert (b <= (d_dist (P (e_src e)) + e_val e) / delta) by (apply Z.div_le_lower_bound; lia). lia.
    Qed.
    (** vertices in this or a later bucket do not fall behind it *)
    Lemma step_held v : 1 <= v <= n -> b <= d_bucket (P v) < INT_MAX -> b <= d_bucket (P' v) < INT_MAX.
    Proof.
      intros Bv B0. split.
      - destruct (Z.lt_ge_cases (d_bucket (P' v)) b) as [L|L]; [|exact L]. rewrite (step_early v Bv L) in L. lia.
      - destruct (step_one v Bv) as [->|(e & Se & Hd & -> & L)]; [lia|]. cbn [d_bucket]. destruct (sends_ok e Se) as (_ & _ & _ & _ & B & _). apply Z.div_lt_upper_bound; lia.
    Qed.
    Lemma step_before : before b P -> before b P'.
    Proof.
      intros Hbe e He Nm Lb. destruct (Hin e He) as [B1 B2]. pose proof (step_le _ B2). pose proof (step_early _ B1 Lb) as Ep. rewrite Ep in *. specialize (Hbe e He Nm Lb). lia.
    Qed.
  End Step.

  (** *** the light edges of bucket [b] *)
  Section Light.
    Variables (b : Z) (ess : list (edge Z)).
    Hypothesis Hb : 0 <= b < INT_MAX.
    Hypothesis Hsub : forall e, In e ess -> In e es.
    Definition linv (k : nat) (S : @vstate (Z * Z) Z ds_vertex) : Prop :=
      v_s S = (delta, b) /\ dsok (v_P S) /\ before b (v_P S) /\
      (forall v, 1 <= v <= n -> v_A S v = Some true \/
         (v_A S v = None /\ (d_bucket (v_P S v) = b -> forall e, In e ess -> e_src e = v -> d_dist (v_P S (e_dst e)) <= d_dist (v_P S v) + e_val e))) /\
      (forall v, 1 <= v <= n -> v_A S v = Some true -> d_dist (v_P S v) <> MAX_DIST -> exists vs, trace (D (v_P S)) v vs /\ (k < length vs)%nat) /\
      ((0 < k)%nat -> forall v, 1 <= v <= n -> v_A S v = Some true -> d_dist (v_P S v) <> MAX_DIST).
    Lemma linv_step k S Yk it : linv k S -> (forall v, 1 <= v <= n -> combined_of (pr_reduce delta_step (v_s S)) (received ess delta_step dv S v) (Yk v)) ->
      linv (Datatypes.S k) (step_with delta_step ds_neq Yk it S).
    Proof.
      intros (Hvs & HP & Hbe & HA & HT & _) HY.
      assert (forall v, 1 <= v <= n -> v_A S v = Some true \/ v_A S v = None) as HA0 by (intros v Bv; destruct (HA v Bv) as [H|[H _]]; auto).
      set (S' := step_with delta_step ds_neq Yk it S).
      assert (forall v, 1 <= v <= n -> v_A S' v = Some true -> exists vs, trace (D (v_P S')) v vs /\ (Datatypes.S k < length vs)%nat /\ d_dist (v_P S' v) <> MAX_DIST) as Hact.
      { intros v Bv Av. unfold S' in Av. rewrite step_active in Av. fold S' in Av. destruct (step_one b ess S Yk it Hb Hsub Hvs HP HA0 HY v Bv) as [Ep|(e & Se & Hd & Ep & L)]; fold S' in Ep; [|fold S' in L].
        - rewrite Ep, Z.eqb_refl in Av. discriminate.
        - destruct (sends_ok b ess S Yk it Hb Hsub HP HA0 HY e Se) as (He & B1 & _ & Nm & B & _). pose proof Se as (_ & EA & _). destruct (HT _ B1 EA Nm) as (vs & T & Lk). exists (v :: vs). split.
          + rewrite <- Hd. apply (step_trace b ess S Yk it Hb Hsub Hvs HP HA0 HY e vs Se); auto; fold S'; rewrite Hd; [rewrite Ep; reflexivity|exact L].
          + cbn [length]. split; [lia|]. rewrite Ep. cbn [d_dist]. unfold MAX_DIST. lia. }
      split; [exact Hvs|]. split; [apply (step_ok b ess S Yk it Hb Hsub Hvs HP HA0 HY)|]. split; [apply (step_before b ess S Yk it Hb Hsub Hvs HP HA0 HY); exact Hbe|]. split; [|split].
      - intros v Bv. destruct (Z.eqb_spec (d_dist (v_P S v)) (d_dist (v_P S' v))) as [Ed|Nd].
        + right. unfold S' at 1. rewrite step_active. fold S'. rewrite (proj2 (Z.eqb_eq _ _) Ed). split; auto. intros Eb e He Hsrc. destruct (Hin e (Hsub e He)) as [B1 B2].
          assert (v_P S' v = v_P S v) as Ep. { destruct (step_one b ess S Yk it Hb Hsub Hvs HP HA0 HY v Bv) as [Ep|(e' & _ & _ & _ & L)]; auto. fold S' in L. lia. }
          rewrite Ep in *. destruct (HA v Bv) as [Av|[_ Hr]].
          * subst v. apply (step_relaxes b ess S Yk it Hb Hsub Hvs HP HA0 HY e). split; auto.
          * pose proof (Hr Eb e He Hsrc). pose proof (step_le b ess S Yk it Hb Hsub Hvs HP HA0 HY _ B2) as Lle. fold S' in Lle. lia.
        + left. unfold S'. rewrite step_active. fold S'. destruct (Z.eqb_spec (d_dist (v_P S v)) (d_dist (v_P S' v))); [contradiction|reflexivity].
      - intros v Bv Av _. destruct (Hact v Bv Av) as (vs & T & L & _). eauto.
      - intros _ v Bv Av. destruct (Hact v Bv Av) as (vs & T & L & N). exact N.
    Qed.

    Variables (dt : Z) (fuel : nat) (Y : nat -> Z -> option Z) (C : Z -> Z) (q : gspec ds_vertex Z).
    Notation jb := (mkJ delta_step (delta, b) (-1) dt dv fuel).
    Notation st k := (job_after_with ds_neq jb Y C q k).
    Hypothesis Qe : gs_es q = ess.
    Hypothesis QP : dsok (gs_P q).
    Hypothesis QB : before b (gs_P q).
    Hypothesis QA : forall v, 1 <= v <= n -> gs_A q v = Some true.
    Lemma linv_0 : linv 0 (st 0).
    Proof.
      split; [reflexivity|]. split; [exact QP|]. split; [exact QB|]. split; [intros v Bv; left; apply QA; auto|]. split; [|lia].
      intros v Bv _ Nm. change (v_P (st 0)) with (gs_P q) in *. destruct QP as [_ HV]. destruct (HV v Bv) as [[Em _]|(_ & _ & vs & T)]; [contradiction|]. exists vs. split; auto.
      destruct T as (Pa & _). inversion Pa; cbn [length]; lia.
    Qed.
    Lemma linv_at K : job_reduces ds_neq n jb Y C q K -> forall k, (k <= K)%nat -> linv k (st k).
    Proof.
      intros Hr. apply (job_inv ds_neq n jb Y C q K linv Hr); [apply linv_0|]. intros k Hk HI HY. unfold job_received in HY. cbn [j_pg j_dv] in HY. rewrite Qe in HY.
      change (st (S k)) with (step_with delta_step ds_neq (Y k) (Z.of_nat k) (st k)). apply linv_step; auto.
    Qed.
    Lemma light_held K : job_reduces ds_neq n jb Y C q K -> forall v, 1 <= v <= n -> b <= d_bucket (gs_P q v) < INT_MAX -> b <= d_bucket (v_P (st K) v) < INT_MAX.
    Proof.
      intros Hr v Bv B0. assert (forall k, (k <= K)%nat -> linv k (st k) /\ b <= d_bucket (v_P (st k) v) < INT_MAX) as H; [|apply (H K); lia].
      apply (job_inv ds_neq n jb Y C q K (fun k S => linv k S /\ b <= d_bucket (v_P S v) < INT_MAX) Hr); [split; [apply linv_0|exact B0]|]. intros k Hk [HI HB] HY. unfold job_received in HY. cbn [j_pg j_dv] in HY. rewrite Qe in HY.
      change (st (S k)) with (step_with delta_step ds_neq (Y k) (Z.of_nat k) (st k)). split; [apply linv_step; auto|]. destruct HI as (Hvs & HP & _ & HA & _).
      apply (step_held b ess (st k) (Y k) (Z.of_nat k) Hb Hsub Hvs HP); auto. intros u Bu. destruct (HA u Bu) as [H|[H _]]; auto.
    Qed.
    Lemma light_not_endless : (Z.to_nat n <= fuel)%nat -> ~ job_endless_with ds_neq n jb Y C q.
    Proof.
      intros Hf [Hr He]. cbn [j_fuel] in *. set (k := (Z.to_nat n - 1)%nat).
      assert (job_reduces ds_neq n jb Y C q (S k)) as Hr' by (intros i v Hi; apply Hr; lia).
      destruct (linv_at (S k) Hr' (S k) ltac:(lia)) as (_ & _ & _ & _ & HT & HN). specialize (He (S k) ltac:(lia)).
      destruct (not_converged ds_neq n delta_step (Y k) (st k)) as (v & Bv & Hc).
      - intros Hc. apply He. right. split; [cbn; lia|]. replace (S k - 1)%nat with k by lia. exact Hc.
      - assert (v_A (st (S k)) v = Some true) as Av. { change (st (S k)) with (step_with delta_step ds_neq (Y k) (Z.of_nat k) (st k)). cbn [step_with v_A]. rewrite Hc. reflexivity. }
        destruct (HT v Bv Av (HN ltac:(lia) v Bv Av)) as (vs & T & L). pose proof (trace_short n s es Hs _ _ _ T). unfold zlen in *. lia.
    Qed.
    Lemma light_done K : job_takes_with ds_neq n jb Y C q K -> let P := v_P (st K) in
      dsok P /\ before b P /\ forall e, In e ess -> d_bucket (P (e_src e)) = b -> d_dist (P (e_dst e)) <= d_dist (P (e_src e)) + e_val e.
    Proof.
      intros (BK & Hr & He & _) P. destruct (linv_at K Hr K ltac:(lia)) as (_ & H1 & H2 & H3 & _). fold P in H1, H2, H3. split; auto. split; auto. intros e Hes Eb. destruct (Hin e (Hsub e Hes)) as [B1 _].
      destruct (H3 _ B1) as [Av|[_ Hrel]]; [|auto]. exfalso. destruct He as [He|[_ He]]; [cbn in He; lia|]. destruct K as [|k]; [lia|]. replace (S k - 1)%nat with k in He by lia.
      change (st (S k)) with (step_with delta_step ds_neq (Y k) (Z.of_nat k) (st k)) in Av. cbn [step_with v_A] in Av.
      pose proof (converged_changed ds_neq n delta_step (Y k) (st k) _ He B1) as Hcc. rewrite Hcc in Av. discriminate.
    Qed.
  End Light.

  (** *** one superstep along the heavy edges finishes bucket [b] *)
  Lemma heavy_done b ess P A C Yk it (S : vstate) : 0 <= b < INT_MAX -> (forall e, In e ess -> In e es /\ delta < e_val e) -> S = mkV (delta, b) P A C -> dsok P -> before b P ->
    (forall e, In e es -> In e ess \/ (d_bucket (P (e_src e)) = b -> d_dist (P (e_dst e)) <= d_dist (P (e_src e)) + e_val e)) ->
    (forall v, 1 <= v <= n -> A v = Some true) -> (forall v, 1 <= v <= n -> combined_of (pr_reduce delta_step (v_s S)) (received ess delta_step dv S v) (Yk v)) ->
    let P' := v_P (step_with delta_step ds_neq Yk it S) in dsok P' /\ before (b + 1) P' /\ forall v, 1 <= v <= n -> b <= d_bucket (P v) < INT_MAX -> b <= d_bucket (P' v) < INT_MAX.
  Proof.
    intros Hb Hess ES HP Hbe Hrel HA HY P'. assert (forall e, In e ess -> In e es) as Hsub by (intros; apply Hess; auto).
    assert (v_s S = (delta, b)) as Hvs by (subst; reflexivity). assert (v_P S = P) as EP by (subst; reflexivity). assert (v_A S = A) as EA by (subst; reflexivity).
    assert (dsok (v_P S)) as HPS by (rewrite EP; auto).
    assert (forall v, 1 <= v <= n -> v_A S v = Some true \/ v_A S v = None) as HA0 by (intros v Bv; left; rewrite EA; auto).
    split; [apply (step_ok b ess S Yk it Hb Hsub Hvs HPS HA0 HY)|]. split; [|intros v Bv; rewrite <- EP; apply (step_held b ess S Yk it Hb Hsub Hvs HPS HA0 HY v Bv)]. intros e He Nm Lb. destruct (Hin e He) as [B1 B2].
    pose proof (step_le b ess S Yk it Hb Hsub Hvs HPS HA0 HY _ B2) as Lle. fold P' in Lle. rewrite EP in Lle.
    assert (P' (e_src e) = P (e_src e)) as Ep.
    { destruct (step_one b ess S Yk it Hb Hsub Hvs HPS HA0 HY _ B1) as [X|(e' & Se & Hd & X & L)]; fold P' in X; rewrite EP in X; auto. exfalso.
      destruct (sends_ok b ess S Yk it Hb Hsub HPS HA0 HY e' Se) as (_ & _ & _ & _ & B & Bb & _). destruct Se as (Hes & _). destruct (Hess e' Hes) as [_ Hh]. rewrite EP in *. rewrite X in Lb. cbn [d_bucket] in Lb.
      assert (b + 1 <= (d_dist (P (e_src e')) + e_val e') / delta) by (apply Z.div_le_lower_bound; lia). lia. }
    rewrite Ep in *. destruct (Z.eq_dec (d_bucket (P (e_src e))) b) as [Eb|Nb].
    - destruct (Hrel e He) as [Hes|Hr]; [|specialize (Hr Eb); lia].
      pose proof (step_relaxes b ess S Yk it Hb Hsub Hvs HPS HA0 HY e) as X. rewrite EP in X. apply X. split; auto. rewrite EA, EP. auto.
    - assert (d_dist (P (e_dst e)) <= d_dist (P (e_src e)) + e_val e) by (apply Hbe; auto; lia). lia.
  Qed.
End Delta.

Section RunDelta.
  Context {byte : Type}.
  Variable m : machine ds_vertex Z byte.
  Variables (n s : Z) (blobs : list (list (edge Z))).
  Hypothesis Hset : setting m n blobs.
  Hypothesis Hn : n < 2 ^ 31.
  Hypothesis Hs : 1 <= s <= n.
  Variables (th : Z) (fr : frame Z Z byte) (dt : Z) (dv : ds_vertex) (fuel : nat) (delta W : Z).
  Hypothesis Ht : threads_ok m (m_serv m) th.
  Hypothesis Hfr : frame_ok m th fr.
  Notation es := (concat blobs).
  Hypothesis Hpos : forall e, In e es -> 0 <= e_val e.
  Hypothesis Hfit : sums_below es W s.
  Hypothesis HW : 1 <= W <= 2 ^ 32 - 1.
  Hypothesis HWd : W <= delta * INT_MAX.
  Hypothesis Hdelta : 1 <= delta < 2 ^ 31.
  Hypothesis Hfuel : (Z.to_nat n <= fuel)%nat.
  Notation ok := (dsok n s es delta W).
  Notation bef := (before es).
  Notation tr xy C := (trep (f_sert fr) (f_seru fr) n (m_nr m) (m_nt m) (fst xy) (snd xy) C).
  Notation light := (filter (fun e => e_val e <=? delta) es).
  Notation heavy := (filter (fun e => e_val e >? delta) es).

  Lemma is_set_vp (g g2 : graph ds_vertex Z byte) q q2 : is m n g q -> is m n g2 q2 -> is m n (set_vp (g_vp g) g2) (mkGS (gs_es q2) (gs_P q) (gs_A q2)).
  Proof.
    intros (_ & _ & Hv & Lv & _) (Hi & He & _ & _ & Ha & La). split; [exact Hi|]. split; [exact He|]. split; [exact Hv|]. split; [exact Lv|]. split; [exact Ha|exact La].
  Qed.

  Lemma round_is b g g2 xy C q q2 : 0 <= b < INT_MAX -> is m n g q -> is m n g2 q2 -> tr xy C -> gs_es q = light -> gs_es q2 = heavy -> gs_P q2 = gs_P q -> ok (gs_P q) -> bef b (gs_P q) ->
    exists g' g2' xy' C' q' q2' k, ds_round m th fr dt dv fuel delta b (g, g2, xy) = Ok (g', g2', xy', k) /\ is m n g' q' /\ is m n g2' q2' /\ tr xy' C' /\
      gs_es q' = light /\ gs_es q2' = heavy /\ gs_P q2' = gs_P q' /\ ok (gs_P q') /\ bef (b + 1) (gs_P q') /\ counts n (fun v => b + 1 <= d_bucket (gs_P q' v) < INT_MAX) k /\
      forall v, 1 <= v <= n -> b <= d_bucket (gs_P q v) < INT_MAX -> b <= d_bucket (gs_P q' v) < INT_MAX.
  Proof.
    intros Hb Hg Hg2 Hxy Qe Qe2 QP2 QP QB. destruct Hset as (Hm & Hn0 & Lb & Hin). unfold ds_round. cbn [run_call].
    destruct (act_op m Hm n Hn0 (m_serv m) th AAllActive g _ Ht I Hg) as (g1 & -> & H1). cbn [bind].
    set (q1 := mkGS _ _ _) in H1. assert (gs_es q1 = light) as Q1e by exact Qe. assert (forall e, In e light -> In e es) as Hl by (intros e He; apply filter_In in He; tauto).
    destruct (run_op_any ds_neq m Hm n Hn0 th (mkJ delta_step (delta, b) (-1) dt dv fuel) fr (Some xy) C g1 q1 Ht Hfr H1 Hxy) as (Y & [(K & r & HK & -> & _ & Hr & Hx)|[He _]]).
    2:{ exfalso. eapply (light_not_endless n s es delta W Hs Hin Hpos Hfit HW HWd Hdelta dv b light Hb Hl dt fuel Y C q1); eauto. }
    destruct (light_done n s es delta W Hs Hin Hpos Hfit HW HWd Hdelta dv b light Hb Hl dt fuel Y C q1 Q1e QP QB ltac:(auto) K HK) as (P1 & B1 & R1).
    pose proof (light_held n s es delta W Hs Hin Hpos Hfit HW HWd Hdelta dv b light Hb Hl dt fuel Y C q1 Q1e QP QB ltac:(auto) K (proj1 (proj2 HK))) as L1.
    set (Q := v_P _) in *. cbn [bind fst].
    pose proof (is_set_vp _ g2 _ q2 Hr Hg2) as H2. cbn [gs_P] in H2.
    destruct (act_op m Hm n Hn0 (m_serv m) th AAllActive _ _ Ht I H2) as (g3 & -> & H3). cbn [bind gs_es gs_P gs_A] in *.
    set (q3 := mkGS _ _ _) in H3.
    destruct (run_once ds_neq m Hm n Hn0 th delta_step (delta, b) dt dv fuel fr (Some (r_x r, r_y r)) _ g3 q3 Ht Hfr H3 Hx ltac:(lia)) as (Y2 & r2 & -> & HY2 & Hr2 & Hx2).
    cbn [bind fst]. set (S := begin _ _) in *. cbn [q3 gs_es] in HY2. rewrite Qe2 in HY2.
    destruct (heavy_done n s es delta W Hs Hin Hpos Hfit HW HWd Hdelta dv b heavy Q (fun _ => Some true) (v_C S) Y2 0 S Hb) as (P2 & B2 & L2); auto.
    { intros e He. apply filter_In in He as [He Hh]. split; auto. apply Z.gtb_lt in Hh. lia. }
    { intros e He. destruct (Z.leb_spec (e_val e) delta) as [L|L].
      - right. intros Eb. apply R1; auto. apply filter_In. split; auto. apply Z.leb_le. auto.
      - left. apply filter_In. split; auto. apply Z.gtb_lt. auto. }
    pose proof (is_set_vp _ (r_g r) _ _ Hr2 Hr) as H4. cbn [gs_P gs_es gs_A] in H4. set (q4 := mkGS _ _ _) in H4.
    change (v_P (step_with delta_step ds_neq Y2 0 S)) with (gs_P q4) in P2, B2, L2.
    destruct (count_is m Hm n Hn0 th (bucket_not_empty (b + 1)) (fun v => (b + 1 <=? d_bucket (gs_P q4 v)) && (d_bucket (gs_P q4 v) <? INT_MAX)) (fun v => b + 1 <= d_bucket (gs_P q4 v) < INT_MAX) _ q4 Ht Hn H4) as (g5 & k & E5 & H5 & Ck).
    - reflexivity.
    - intros v Bv. rewrite andb_true_iff, Z.leb_le, Z.ltb_lt. tauto.
    - rewrite E5. cbn [bind snd fst]. assert (rd (map (fun _ => k) (zrange 0 (m_nr m))) 0 = Ok k) as ->.
      { pose proof (proj1 (proj2 Hm)) as X. destruct Hm as (Hr0 & _). rewrite zrange_cons by lia. reflexivity. }
      cbn [bind]. pose proof (is_set_vp _ (r_g r2) _ _ H5 Hr2) as H6. eexists g5, _, (r_x r2, r_y r2), _, q4, _, k. split; [reflexivity|]. split; [exact H5|]. split; [exact H6|]. split; [exact Hx2|].
      split; [exact Qe|]. split; [exact Qe2|]. split; [reflexivity|]. split; [exact P2|]. split; [exact B2|]. split; [exact Ck|]. intros v Bv B0. apply L2; auto.
  Qed.

  Lemma loop_is rounds : forall b g g2 xy C q q2, 0 <= b < INT_MAX -> W / delta < b + Z.of_nat rounds -> (1 <= rounds)%nat -> is m n g q -> is m n g2 q2 -> tr xy C -> gs_es q = light -> gs_es q2 = heavy -> gs_P q2 = gs_P q -> ok (gs_P q) -> bef b (gs_P q) ->
    (exists v, 1 <= v <= n /\ b <= d_bucket (gs_P q v) < INT_MAX) ->
    exists g' q' c, ds_loop m th fr dt dv fuel delta rounds b (g, g2, xy) = Ok (g', c) /\ is m n g' q' /\ ok (gs_P q') /\ bef c (gs_P q') /\ (forall v, 1 <= v <= n -> d_bucket (gs_P q' v) < INT_MAX -> d_bucket (gs_P q' v) < c) /\
      exists v, 1 <= v <= n /\ d_bucket (gs_P q' v) < INT_MAX /\ d_bucket (gs_P q' v) = c - 1.
  Proof.
    induction rounds as [|f IH]; intros b g g2 xy C q q2 Hb Hrd R1 Hg Hg2 Hxy Qe Qe2 QP2 QP QB (v0 & Bv0 & Lv0); [lia|]. cbn [ds_loop].
    destruct (round_is b g g2 xy C q q2 Hb Hg Hg2 Hxy Qe Qe2 QP2 QP QB) as (g' & g2' & xy' & C' & q' & q2' & k & -> & Hg' & Hg2' & Hxy' & Qe' & Qe2' & QP2' & QP' & QB' & (l & Nd & Hl & Ek) & Held). cbn [bind].
    destruct (Z.eqb_spec k 0) as [Z0|N0].
    - assert (forall v, 1 <= v <= n -> d_bucket (gs_P q' v) < INT_MAX -> d_bucket (gs_P q' v) < b + 1) as Hend.
      { intros v Bv Lt. destruct (Z.lt_ge_cases (d_bucket (gs_P q' v)) (b + 1)); auto. exfalso.
        assert (In v l) as Hv by (apply Hl; split; auto). destruct l; [destruct Hv|]. rewrite zlen_cons in Ek. pose proof (zlen_nonneg l). lia. }
      exists g', q', (b + 1). split; [reflexivity|]. split; auto. split; auto. split; auto. split; [exact Hend|]. exists v0. specialize (Held v0 Bv0 Lv0). specialize (Hend v0 Bv0 ltac:(lia)). lia.
    - destruct l as [|v l]; [exfalso; apply N0; rewrite Ek; reflexivity|]. destruct (proj1 (Hl v) (or_introl eq_refl)) as [Bv Lv].
      destruct (proj2 QP' v Bv) as [[_ E]|(Bd & Eb & _)]; [lia|]. assert (d_dist (gs_P q' v) / delta <= W / delta) by (apply Z.div_le_mono; lia).
      eapply IH; eauto; try lia.
  Qed.

  (** the runs over the buckets; [c]: the number of buckets *)
  Lemma delta_run_spec rounds g0 g2 : W / delta < Z.of_nat rounds -> is m n g0 (loaded ds_new light) -> is m n g2 (loaded ds_new heavy) ->
    exists g q c, delta_run m th fr dt dv fuel delta rounds s g0 g2 = Ok (g, c) /\ is m n g q /\
      (forall v, 1 <= v <= n -> (d_dist (gs_P q v) = MAX_DIST /\ ~ reachable es s v) \/ (0 <= d_dist (gs_P q v) < W /\ distance es s v (d_dist (gs_P q v)) /\ d_dist (gs_P q v) / delta < c)) /\
      exists v, 1 <= v <= n /\ d_dist (gs_P q v) < MAX_DIST /\ c = d_dist (gs_P q v) / delta + 1.
  Proof.
    intros Hrd H0 H2. pose proof Hset as (Hm & Hn0 & Lb & Hin). unfold delta_run. cbn [run_call].
    destruct (init_is m Hm n Hn0 th fr dt g0 _ Hfr H0) as (xy & -> & Hxy). cbn [bind].
    destruct (act_op m Hm n Hn0 (m_serv m) th AAllInactive g0 _ Ht I H0) as (g3 & -> & H3). cbn [bind].
    destruct (vp_op ds_neq m Hm n Hn0 th (GSet s (mkD 0 0)) g3 _ Ht Hs H3) as (g4 & -> & H4). cbn [bind].
    destruct (act_op m Hm n Hn0 (m_serv m) th (AActive s) g4 _ Ht Hs H4) as (g5 & -> & H5). cbn [bind gs_es gs_P gs_A loaded] in *. set (q5 := mkGS _ _ _) in H5.
    pose proof (is_set_vp _ _ _ _ H5 (is_set_vp _ _ _ _ H0 H2)) as H6. set (q6 := mkGS _ _ _) in H6.
    assert (0 <= W / delta) as Wd by (apply Z.div_pos; lia).
    destruct (loop_is rounds 0 g5 _ xy _ q5 q6 ltac:(unfold INT_MAX; lia) ltac:(lia) ltac:(lia) H5 H6 Hxy) as (g' & q' & c & -> & Hg' & [D0 DV] & Bc & Hall & (v1 & Bv1 & Lv1 & Ec)); try reflexivity.
    { split; cbn [q5 gs_P]; [rewrite Z.eqb_refl; reflexivity|]. intros v Bv. destruct (Z.eqb_spec v s) as [->|]; [|left; split; reflexivity]. right. cbn [d_dist d_bucket]. split; [lia|]. split; [rewrite Z.div_0_l; lia|]. exists [s]. apply trace_source; auto. rewrite Z.eqb_refl. reflexivity. }
    { intros e He. cbn [q5 gs_P]. destruct (Z.eqb_spec (e_src e) s); cbn [d_dist d_bucket]; [|unfold ds_new; cbn; lia]. lia. }
    { exists s. split; [exact Hs|]. cbn [q5 gs_P]. rewrite Z.eqb_refl. cbn [d_bucket]. unfold INT_MAX. lia. }
    assert (forall v, 1 <= v <= n -> d_dist (gs_P q' v) <> MAX_DIST -> d_bucket (gs_P q' v) < c) as Hc.
    { intros v Bv Nm. apply Hall; auto. destruct (DV v Bv) as [[E _]|(Bd & -> & _)]; [contradiction|]. apply Z.div_lt_upper_bound; lia. }
    exists g', q', c. split; [reflexivity|]. split; [exact Hg'|]. split.
    - intros v Bv. destruct (relaxed_distance n s es Hs Hin Hpos (fun v => d_dist (gs_P q' v))) with (v := v) as [X|[X1 X2]]; auto.
      + intros u Bu Nm. destruct (DV u Bu) as [[E _]|(_ & _ & T)]; [contradiction|exact T].
      + intros e He Nm. cbn beta in *. destruct (Hin e He) as [B1 B2]. pose proof (Bc e He Nm (Hc _ B1 Nm)) as L. split; auto.
        destruct (DV _ B1) as [[E _]|(Bd & _ & vs & T)]; [contradiction|]. pose proof (sums n s es W Hin Hpos Hfit (gs_P q') _ vs e T He eq_refl). unfold MAX_DIST. lia.
      + right. pose proof (Hc v Bv X1) as Lc. destruct (DV v Bv) as [[E _]|(Bd & Eb & _)]; [contradiction|]. split; [lia|]. split; [exact X2|]. rewrite <- Eb. exact Lc.
    - exists v1. split; [exact Bv1|]. destruct (DV v1 Bv1) as [[_ E]|(Bd & Eb & _)]; [lia|]. split; [unfold MAX_DIST; lia|]. rewrite <- Eb. lia.
  Qed.
  Lemma delta_count_spec g q : is m n g q ->
    (forall v, 1 <= v <= n -> (d_dist (gs_P q v) = MAX_DIST /\ ~ reachable es s v) \/ (d_dist (gs_P q v) < MAX_DIST /\ distance es s v (d_dist (gs_P q v)))) ->
    exists g' k, delta_count m th g = Ok (g', map (fun _ => k) (zrange 0 (m_nr m))) /\ shows_properties n m g' (gs_P q) /\ counts n (reachable es s) k.
  Proof.
    intros Hg' Hres. pose proof Hset as (Hm & Hn0 & Lb & Hin). unfold delta_count.
    destruct (count_is m Hm n Hn0 th ds_reachable (fun v => d_dist (gs_P q v) <? MAX_DIST) (reachable es s) g q Ht Hn Hg') as (g7 & k & E7 & H7 & Ck).
    - reflexivity.
    - intros v Bv. destruct (Hres v Bv) as [[Em Nr]|[Lt [(h & Wk) _]]].
      + rewrite Em. split; [discriminate|contradiction].
      + split; [intros _; exists (d_dist (gs_P q v)), h; auto|]. intros _. apply Z.ltb_lt. auto.
    - exists g7, k. split; [exact E7|]. split; [apply (is_properties ds_neq m Hm n Hn0 _ _ H7)|]. auto.
  Qed.
  Lemma run_delta_spec rounds : W / delta < Z.of_nat rounds ->
    exists g k P, run_delta m th fr dt dv fuel delta rounds n blobs s = Ok (g, map (fun _ => k) (zrange 0 (m_nr m))) /\ shows_properties n m g P /\
      (forall v, 1 <= v <= n -> (d_dist (P v) = MAX_DIST /\ ~ reachable es s v) \/ (d_dist (P v) < MAX_DIST /\ distance es s v (d_dist (P v)))) /\ counts n (reachable es s) k.
  Proof.
    intros Hrd. pose proof Hset as (Hm & Hn0 & Lb & Hin). unfold run_delta.
    destruct (load_is m Hm n Hn0 ds_new (map (filter (fun e => e_val e <=? delta)) blobs)) as (g0 & -> & H0). { unfold zlen in *. rewrite map_length. exact Lb. } { intros e He. rewrite concat_filter_map in He. apply filter_In in He. apply Hin. tauto. }
    destruct (load_is m Hm n Hn0 ds_new (map (filter (fun e => e_val e >? delta)) blobs)) as (g2 & -> & H2). { unfold zlen in *. rewrite map_length. exact Lb. } { intros e He. rewrite concat_filter_map in He. apply filter_In in He. apply Hin. tauto. }
    cbn [bind]. rewrite concat_filter_map in H0, H2. destruct (delta_run_spec rounds g0 g2 Hrd H0 H2) as (g & q & c & -> & Hg & Hv & _). cbn [bind fst].
    assert (forall v, 1 <= v <= n -> (d_dist (gs_P q v) = MAX_DIST /\ ~ reachable es s v) \/ (d_dist (gs_P q v) < MAX_DIST /\ distance es s v (d_dist (gs_P q v)))) as Hv'.
    { intros v Bv. destruct (Hv v Bv) as [H|(A & B & _)]; [left; exact H|right; split; [unfold MAX_DIST; lia|exact B]]. }
    destruct (delta_count_spec g q Hg Hv') as (g' & k & -> & Hs' & Ck). exists g', k, (gs_P q). auto.
  Qed.
End RunDelta.
