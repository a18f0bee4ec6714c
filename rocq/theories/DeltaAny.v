(** What src/DeltaStepping.cpp computes for any weights and any [delta] but 0 (C58) *)
From Verif Require Import BaseLemmas Layout Reduce ReduceProofs DCSC MatSpec Segment Vec SpMat GraphVert Graph Runtime RunSpec RuntimeProofs GraphOps GraphHist GraphHistProofs Apps AppSpec AppBase LabelProofs DegreeProofs SsspProofs DeltaProofs.

Lemma i32_range z : - 2 ^ 31 <= i32 z < 2 ^ 31.
Proof. unfold i32. pose proof (Z.mod_pos_bound (z + 2 ^ 31) (2 ^ 32) ltac:(lia)). lia. Qed.

Section Any.
  Variables (n s : Z) (es : list (edge Z)) (delta : Z).
  Hypothesis Hs : 1 <= s <= n.
  Hypothesis Hin : forall e, In e es -> 1 <= e_src e <= n /\ 1 <= e_dst e <= n.
  Variable dv : ds_vertex.

  (** labels are weights of walks modulo 2^32 and buckets fit the labels *)
  Definition anyok (P : Z -> ds_vertex) : Prop :=
    d_dist (P s) = 0 /\
    forall v, 1 <= v <= n -> (d_dist (P v) = MAX_DIST /\ d_bucket (P v) = INT_MAX) \/
      (0 <= d_dist (P v) < MAX_DIST /\ d_bucket (P v) = i32 (Z.quot (d_dist (P v)) (u32 delta)) /\ exists w h, walk es s v w h /\ d_dist (P v) = w mod 2 ^ 32).
  Definition ainv (b : Z) (S : @vstate (Z * Z) Z ds_vertex) : Prop :=
    v_s S = (delta, b) /\ anyok (v_P S) /\ forall v, 1 <= v <= n -> v_A S v = Some true \/ v_A S v = None.

  Section Step.
    Variables (b : Z) (ess : list (edge Z)) (S : @vstate (Z * Z) Z ds_vertex) (Yk : Z -> option Z) (it : Z).
    Hypothesis Hb : b < INT_MAX.
    Hypothesis Hsub : forall e, In e ess -> In e es.
    Hypothesis HI : ainv b S.
    Hypothesis HY : forall v, 1 <= v <= n -> combined_of (pr_reduce delta_step (v_s S)) (received ess delta_step dv S v) (Yk v).
    Notation S' := (step_with delta_step ds_neq Yk it S).

    Lemma any_arrives v u : In u (received ess delta_step dv S v) -> u = MAX_DIST \/ (0 <= u <= MAX_DIST /\ exists w h, walk es s v w h /\ u = w mod 2 ^ 32).
    Proof.
      destruct HI as (Hvs & [_ HV] & HA). intros Hu. apply received_out in Hu as (e & t & He & Hd & Ht & ->); [|reflexivity]. rewrite Hvs. cbn [pr_process delta_step]. destruct (Z.ltb_spec t MAX_DIST) as [Lt|]; [|auto]. right.
      pose proof (Hin e (Hsub e He)) as [B1 B2]. unfold message in Ht. destruct (HA _ B1) as [EA|EA]; rewrite EA in Ht; [|discriminate]. injection Ht as Ht. rewrite Hvs in Ht. cbn [pr_send delta_step fst snd] in Ht.
      destruct (Z.eqb_spec (d_bucket (v_P S (e_src e))) b) as [Eb|]; [|lia]. subst t. unfold u32. split; [pose proof (Z.mod_pos_bound (d_dist (v_P S (e_src e)) + e_val e) (2 ^ 32) ltac:(lia)); unfold MAX_DIST; lia|].
      destruct (HV _ B1) as [[Em _]|(_ & _ & w & h & Wk & Ew)]; [lia|]. exists (w + e_val e), (Datatypes.S h). split; [rewrite <- Hd; apply walk_edge; auto|]. rewrite Ew, Zplus_mod_idemp_l. reflexivity.
    Qed.
    Lemma any_one v : 1 <= v <= n -> v_P S' v = v_P S v \/
      (d_dist (v_P S' v) < d_dist (v_P S v) /\ 0 <= d_dist (v_P S' v) /\ d_bucket (v_P S' v) = i32 (Z.quot (d_dist (v_P S' v)) (u32 delta)) /\ exists w h, walk es s v w h /\ d_dist (v_P S' v) = w mod 2 ^ 32).
    Proof.
      destruct HI as (Hvs & [_ HV] & HA). intros Bv. pose proof (HY v Bv) as HYv. cbn [step_with v_P]. unfold updated_with. destruct (Yk v) as [u|] eqn:EY; cbn [combined_of] in HYv; [|auto]. apply combination_min in HYv as [Hu _].
      rewrite Hvs. cbn [pr_apply delta_step fst]. destruct (Z.ltb_spec u (d_dist (v_P S v))) as [Lt|]; [|auto]. right. cbn [d_dist d_bucket].
      destruct (any_arrives v u Hu) as [->|[B Hw]]; [destruct (HV v Bv) as [[E _]|[Bd _]]; lia|]. split; auto. split; [lia|]. split; auto.
    Qed.
    Lemma any_step : ainv b S'.
    Proof.
      pose proof HI as (Hvs & [H0 HV] & HA). split; [exact Hvs|]. split.
      - split.
        + destruct (any_one s Hs) as [->|(L & B & _)]; [auto|]. lia.
        + intros v Bv. destruct (any_one v Bv) as [->|(L & B & Eb & Hw)]; [auto|]. right. split; [destruct (HV v Bv) as [[E _]|[Bd _]]; lia|]. split; auto.
      - intros v Bv. rewrite step_active. destruct (_ =? _); auto.
    Qed.
  End Step.

  (** *** the light edges: every superstep but the last lowers some label *)
  Section Light.
    Variables (b : Z) (ess : list (edge Z)).
    Hypothesis Hb : b < INT_MAX.
    Hypothesis Hsub : forall e, In e ess -> In e es.
    Variables (dt : Z) (fuel : nat) (Y : nat -> Z -> option Z) (C : Z -> Z) (q : gspec ds_vertex Z).
    Notation jb := (mkJ delta_step (delta, b) (-1) dt dv fuel).
    Notation st k := (job_after_with ds_neq jb Y C q k).
    Hypothesis Qe : gs_es q = ess.
    Hypothesis QP : anyok (gs_P q).
    Hypothesis QA : forall v, 1 <= v <= n -> gs_A q v = Some true.
    Lemma ainv_at K : job_reduces ds_neq n jb Y C q K -> forall k, (k <= K)%nat -> ainv b (st k).
    Proof.
      intros Hr. apply (job_inv ds_neq n jb Y C q K (fun _ => ainv b) Hr); [split; [reflexivity|split; [exact QP|intros v Bv; left; apply QA; auto]]|].
      intros k Hk HI HY. unfold job_received in HY. cbn [j_pg j_dv] in HY. rewrite Qe in HY.
      change (st (S k)) with (step_with delta_step ds_neq (Y k) (Z.of_nat k) (st k)). apply (any_step b ess); auto.
    Qed.
    Definition dtotal (k : nat) : Z := sum (map (fun v => d_dist (v_P (st k) v)) (zrange 1 (n + 1))).
    Lemma dtotal_drops K k : job_reduces ds_neq n jb Y C q K -> (k < K)%nat -> ~ job_ends_with ds_neq n jb Y C q (S k) -> dtotal (S k) + 1 <= dtotal k.
    Proof.
      intros Hr Hk He. destruct (not_converged ds_neq n delta_step (Y k) (st k)) as (v & Bv & Hc).
      - intros Hc. apply He. right. split; [cbn; lia|]. replace (S k - 1)%nat with k by lia. exact Hc.
      - assert (forall x, d_dist (v_P (st (S k)) x) <= d_dist (v_P (st k) x)) as Hle.
        { intros x. change (st (S k)) with (step_with delta_step ds_neq (Y k) (Z.of_nat k) (st k)). cbn [step_with v_P]. unfold updated_with. destruct (Y k x) as [u|]; [|lia]. cbn [pr_apply delta_step]. destruct (Z.ltb_spec u (d_dist (v_P (st k) x))); cbn [d_dist]; lia. }
        apply (sum_lt _ _ _ v); auto; [apply in_zrange; lia|]. unfold changed_with in Hc.
        change (st (S k)) with (step_with delta_step ds_neq (Y k) (Z.of_nat k) (st k)). cbn [step_with v_P]. unfold updated_with. destruct (Y k v) as [u|]; [|discriminate].
        cbn [pr_apply delta_step] in *. unfold ds_neq at 1 in Hc. apply negb_true_iff, Z.eqb_neq in Hc. destruct (Z.ltb_spec u (d_dist (v_P (st k) v))); cbn [d_dist] in *; lia.
    Qed.
    Lemma any_light_ends : (Z.to_nat (n * 2 ^ 32) < fuel)%nat -> ~ job_endless_with ds_neq n jb Y C q.
    Proof.
      intros Hf [Hr He]. cbn [j_fuel] in *.
      assert (forall k, (k <= fuel)%nat -> 0 <= dtotal k <= n * MAX_DIST) as Hrange.
      { intros k Hk. destruct (ainv_at fuel Hr k Hk) as (_ & [_ HV] & _). assert (forall v, In v (zrange 1 (n + 1)) -> 0 <= d_dist (v_P (st k) v) <= MAX_DIST) as Hv.
        { intros v Hv. apply in_zrange in Hv. destruct (HV v ltac:(lia)) as [[E _]|[B _]]; unfold MAX_DIST in *; lia. }
        split.
        - pose proof (sum_le (fun _ => 0) (fun v => d_dist (v_P (st k) v)) (zrange 1 (n + 1)) ltac:(intros; apply Hv; auto)) as L. rewrite sum_const in L. unfold dtotal. lia.
        - pose proof (sum_le (fun v => d_dist (v_P (st k) v)) (fun _ => MAX_DIST) (zrange 1 (n + 1)) ltac:(intros; apply Hv; auto)) as L. rewrite sum_const, zlen_zrange in L by lia. unfold dtotal. replace (n + 1 - 1) with n in L by lia. exact L. }
      assert (forall k, (k <= fuel)%nat -> dtotal k + Z.of_nat k <= dtotal 0) as Hdrop.
      { induction k as [|k IH]; intros Hk; [lia|]. pose proof (dtotal_drops fuel k Hr ltac:(lia) (He (S k) ltac:(lia))). specialize (IH ltac:(lia)). lia. }
      pose proof (Hrange O ltac:(lia)). pose proof (Hrange fuel ltac:(lia)). pose proof (Hdrop fuel ltac:(lia)). unfold MAX_DIST in *. lia.
    Qed.
    Lemma any_light_done K : job_takes_with ds_neq n jb Y C q K -> anyok (v_P (st K)).
    Proof. intros (BK & Hr & _). destruct (ainv_at K Hr K ltac:(lia)) as (_ & H & _). exact H. Qed.
  End Light.
End Any.

Section RunAny.
  Context {byte : Type}.
  Variable m : machine ds_vertex Z byte.
  Variables (n s : Z) (blobs : list (list (edge Z))).
  Hypothesis Hset : setting m n blobs.
  Hypothesis Hn : n < 2 ^ 31.
  Hypothesis Hs : 1 <= s <= n.
  Variables (th : Z) (fr : frame Z Z byte) (dt : Z) (dv : ds_vertex) (fuel : nat) (delta : Z).
  Hypothesis Ht : threads_ok m (m_serv m) th.
  Hypothesis Hfr : frame_ok m th fr.
  Notation es := (concat blobs).
  Hypothesis Hfuel : (Z.to_nat (n * 2 ^ 32) < fuel)%nat.
  Notation ok := (anyok n s es delta).
  Notation tr xy C := (trep (f_sert fr) (f_seru fr) n (m_nr m) (m_nt m) (fst xy) (snd xy) C).
  Notation light := (filter (fun e => e_val e <=? delta) es).
  Notation heavy := (filter (fun e => e_val e >? delta) es).

  Lemma any_round_is b g g2 xy C q q2 : b < INT_MAX -> is m n g q -> is m n g2 q2 -> tr xy C -> gs_es q = light -> gs_es q2 = heavy -> ok (gs_P q) ->
    exists g' g2' xy' C' q' q2' k, ds_round m th fr dt dv fuel delta b (g, g2, xy) = Ok (g', g2', xy', k) /\ is m n g' q' /\ is m n g2' q2' /\ tr xy' C' /\
      gs_es q' = light /\ gs_es q2' = heavy /\ ok (gs_P q') /\ counts n (fun v => b + 1 <= d_bucket (gs_P q' v) < INT_MAX) k.
  Proof.
    intros Hb Hg Hg2 Hxy Qe Qe2 QP. destruct Hset as (Hm & Hn0 & Lb & Hin). unfold ds_round. cbn [run_call].
    destruct (act_op m Hm n Hn0 (m_serv m) th AAllActive g _ Ht I Hg) as (g1 & -> & H1). cbn [bind].
    set (q1 := mkGS _ _ _) in H1. assert (gs_es q1 = light) as Q1e by exact Qe. assert (forall e, In e light -> In e es) as Hl by (intros e He; apply filter_In in He; tauto).
    assert (forall e, In e heavy -> In e es) as Hh by (intros e He; apply filter_In in He; tauto).
    destruct (run_op_any ds_neq m Hm n Hn0 th (mkJ delta_step (delta, b) (-1) dt dv fuel) fr (Some xy) C g1 q1 Ht Hfr H1 Hxy) as (Y & [(K & r & HK & -> & _ & Hr & Hx)|[He _]]).
    2:{ exfalso. eapply (any_light_ends n s es delta Hs Hin dv b light Hl dt fuel Y C q1); eauto. }
    pose proof (any_light_done n s es delta Hs Hin dv b light Hl dt fuel Y C q1 Q1e QP ltac:(auto) K HK) as P1.
    set (Q := v_P _) in *. cbn [bind fst].
    pose proof (is_set_vp m n _ g2 _ q2 Hr Hg2) as H2. cbn [gs_P] in H2.
    destruct (act_op m Hm n Hn0 (m_serv m) th AAllActive _ _ Ht I H2) as (g3 & -> & H3). cbn [bind gs_es gs_P gs_A] in *.
    set (q3 := mkGS _ _ _) in H3.
    destruct (run_once ds_neq m Hm n Hn0 th delta_step (delta, b) dt dv fuel fr (Some (r_x r, r_y r)) _ g3 q3 Ht Hfr H3 Hx ltac:(lia)) as (Y2 & r2 & -> & HY2 & Hr2 & Hx2).
    cbn [bind fst]. set (S := begin _ _) in *. cbn [q3 gs_es] in HY2. rewrite Qe2 in HY2.
    destruct (any_step n s es delta Hs Hin dv b heavy S Y2 0 Hh) as (_ & P2 & _); [split; [reflexivity|split; [exact P1|auto]]|exact HY2|].
    pose proof (is_set_vp m n _ (r_g r) _ _ Hr2 Hr) as H4. cbn [gs_P gs_es gs_A] in H4. set (q4 := mkGS _ _ _) in H4.
    change (v_P (step_with delta_step ds_neq Y2 0 S)) with (gs_P q4) in P2.
    destruct (count_is m Hm n Hn0 th (bucket_not_empty (b + 1)) (fun v => (b + 1 <=? d_bucket (gs_P q4 v)) && (d_bucket (gs_P q4 v) <? INT_MAX)) (fun v => b + 1 <= d_bucket (gs_P q4 v) < INT_MAX) _ q4 Ht Hn H4) as (g5 & k & E5 & H5 & Ck).
    - reflexivity.
    - intros v Bv. rewrite andb_true_iff, Z.leb_le, Z.ltb_lt. tauto.
    - rewrite E5. cbn [bind snd fst]. assert (rd (map (fun _ => k) (zrange 0 (m_nr m))) 0 = Ok k) as ->.
      { pose proof (proj1 (proj2 Hm)) as X. destruct Hm as (Hr0 & _). rewrite zrange_cons by lia. reflexivity. }
      cbn [bind]. pose proof (is_set_vp m n _ (r_g r2) _ _ H5 Hr2) as H6. eexists g5, _, (r_x r2, r_y r2), _, q4, _, k. split; [reflexivity|]. split; [exact H5|]. split; [exact H6|]. split; [exact Hx2|].
      split; [exact Qe|]. split; [exact Qe2|]. split; [exact P2|exact Ck].
  Qed.

  (** no bucket lies beyond this one *)
  Definition last_bucket : Z := Z.min (INT_MAX - 1) (MAX_DIST / u32 delta).
  Hypothesis Hdelta : - 2 ^ 31 <= delta < 2 ^ 31 /\ delta <> 0.
  Lemma delta_u32 : 1 <= u32 delta < 2 ^ 32.
  Proof.
    unfold u32. pose proof (Z.mod_pos_bound delta (2 ^ 32) ltac:(lia)). assert (delta mod 2 ^ 32 <> 0); [|lia]. intros E. apply Z.mod_divide in E as [k E]; lia.
  Qed.
  Lemma bucket_last P v : ok P -> 1 <= v <= n -> 0 <= d_bucket (P v) < INT_MAX -> d_bucket (P v) <= last_bucket.
  Proof.
    intros [_ HV] Bv B. unfold last_bucket. destruct (HV v Bv) as [[_ E]|(Bd & E & _)]; [lia|]. apply Z.min_glb; [lia|]. pose proof delta_u32.
    assert (0 <= Z.quot (d_dist (P v)) (u32 delta) <= MAX_DIST / u32 delta) as Bq.
    { rewrite Z.quot_div_nonneg by lia. split; [apply Z.div_pos; lia|apply Z.div_le_mono; lia]. }
    rewrite E in *. set (z := Z.quot _ _) in *. assert (z <= MAX_DIST) as Lz. { transitivity (MAX_DIST / u32 delta); [lia|]. apply Z.div_le_upper_bound; [lia|]. unfold MAX_DIST. nia. }
    destruct (Z.lt_ge_cases z (2 ^ 31)) as [L|L]; [rewrite i32_id by lia; lia|]. exfalso. unfold i32 in B. replace (z + 2 ^ 31) with (z - 2 ^ 31 + 1 * 2 ^ 32) in B by lia. rewrite Z_mod_plus_full, Z.mod_small in B by (unfold MAX_DIST in *; lia). unfold MAX_DIST in *. lia.
  Qed.

  Lemma any_loop_is rounds : forall b g g2 xy C q q2, 0 <= b <= last_bucket -> last_bucket < b + Z.of_nat rounds -> is m n g q -> is m n g2 q2 -> tr xy C -> gs_es q = light -> gs_es q2 = heavy -> ok (gs_P q) ->
    exists g' q' c, ds_loop m th fr dt dv fuel delta rounds b (g, g2, xy) = Ok (g', c) /\ is m n g' q' /\ ok (gs_P q') /\ c <= last_bucket + 1 /\ forall v, 1 <= v <= n -> d_bucket (gs_P q' v) < INT_MAX -> d_bucket (gs_P q' v) < c.
  Proof.
    induction rounds as [|f IH]; intros b g g2 xy C q q2 Hb Hrd Hg Hg2 Hxy Qe Qe2 QP; [lia|]. cbn [ds_loop].
    destruct (any_round_is b g g2 xy C q q2 ltac:(unfold last_bucket in *; lia) Hg Hg2 Hxy Qe Qe2 QP) as (g' & g2' & xy' & C' & q' & q2' & k & -> & Hg' & Hg2' & Hxy' & Qe' & Qe2' & QP' & (l & Nd & Hl & Ek)). cbn [bind].
    destruct (Z.eqb_spec k 0) as [Z0|N0].
    - exists g', q', (b + 1). split; [reflexivity|]. split; auto. split; auto. split; [lia|]. intros v Bv Lt. destruct (Z.lt_ge_cases (d_bucket (gs_P q' v)) (b + 1)); auto. exfalso.
      assert (In v l) as Hv by (apply Hl; split; auto). destruct l; [destruct Hv|]. rewrite zlen_cons in Ek. pose proof (zlen_nonneg l). lia.
    - destruct l as [|v l]; [exfalso; apply N0; rewrite Ek; reflexivity|]. destruct (proj1 (Hl v) (or_introl eq_refl)) as [Bv Lv].
      pose proof (bucket_last _ v QP' Bv ltac:(lia)). eapply IH; eauto; lia.
  Qed.

  Lemma run_delta_any rounds : last_bucket < Z.of_nat rounds ->
    exists g k P, run_delta m th fr dt dv fuel delta rounds n blobs s = Ok (g, map (fun _ => k) (zrange 0 (m_nr m))) /\ shows_properties n m g P /\ d_dist (P s) = 0 /\
      (forall v, 1 <= v <= n -> d_dist (P v) = MAX_DIST \/ (0 <= d_dist (P v) < MAX_DIST /\ exists w h, walk es s v w h /\ d_dist (P v) = w mod 2 ^ 32)) /\
      counts n (fun v => d_dist (P v) <> MAX_DIST) k.
  Proof.
    intros Hrd. pose proof Hset as (Hm & Hn0 & Lb & Hin). unfold run_delta.
    destruct (load_is m Hm n Hn0 ds_new (map (filter (fun e => e_val e <=? delta)) blobs)) as (g0 & -> & H0). { unfold zlen in *. rewrite map_length. exact Lb. } { intros e He. rewrite concat_filter_map in He. apply filter_In in He. apply Hin. tauto. }
    destruct (load_is m Hm n Hn0 ds_new (map (filter (fun e => e_val e >? delta)) blobs)) as (g2 & -> & H2). { unfold zlen in *. rewrite map_length. exact Lb. } { intros e He. rewrite concat_filter_map in He. apply filter_In in He. apply Hin. tauto. }
    unfold delta_run. cbn [bind run_call]. rewrite concat_filter_map in H0, H2.
    destruct (init_is m Hm n Hn0 th fr dt g0 _ Hfr H0) as (xy & -> & Hxy). cbn [bind].
    destruct (act_op m Hm n Hn0 (m_serv m) th AAllInactive g0 _ Ht I H0) as (g3 & -> & H3). cbn [bind].
    destruct (vp_op ds_neq m Hm n Hn0 th (GSet s (mkD 0 0)) g3 _ Ht Hs H3) as (g4 & -> & H4). cbn [bind].
    destruct (act_op m Hm n Hn0 (m_serv m) th (AActive s) g4 _ Ht Hs H4) as (g5 & -> & H5). cbn [bind gs_es gs_P gs_A loaded] in *. set (q5 := mkGS _ _ _) in H5.
    pose proof (is_set_vp m n _ _ _ _ H5 (is_set_vp m n _ _ _ _ H0 H2)) as H6. set (q6 := mkGS _ _ _) in H6. pose proof delta_u32 as Bu.
    assert (0 <= last_bucket) as L0. { unfold last_bucket. apply Z.min_glb; [unfold INT_MAX; lia|]. apply Z.div_pos; [unfold MAX_DIST; lia|lia]. }
    destruct (any_loop_is rounds 0 g5 _ xy _ q5 q6 ltac:(lia) ltac:(lia) H5 H6 Hxy) as (g' & q' & c & -> & Hg' & [D0 DV] & _ & _); try reflexivity.
    { split; cbn [q5 gs_P]; [rewrite Z.eqb_refl; reflexivity|]. intros v Bv. destruct (Z.eqb_spec v s) as [->|]; [|left; split; reflexivity]. right. cbn [d_dist d_bucket]. split; [unfold MAX_DIST; lia|]. split; [rewrite Z.quot_0_l by lia; reflexivity|]. exists 0, O. split; [constructor|reflexivity]. }
    cbn [bind fst].
    destruct (count_is m Hm n Hn0 th ds_reachable (fun v => d_dist (gs_P q' v) <? MAX_DIST) (fun v => d_dist (gs_P q' v) <> MAX_DIST) g' q' Ht Hn Hg') as (g7 & k & E7 & H7 & Ck).
    - reflexivity.
    - intros v Bv. rewrite Z.ltb_lt. destruct (DV v Bv) as [[Em _]|[B _]]; lia.
    - exists g7, k, (gs_P q'). split; [exact E7|]. split; [apply (is_properties ds_neq m Hm n Hn0 _ _ H7)|]. split; [exact D0|]. split; [|exact Ck].
      intros v Bv. destruct (DV v Bv) as [[Em _]|(B & _ & Hw)]; auto.
  Qed.
End RunAny.
