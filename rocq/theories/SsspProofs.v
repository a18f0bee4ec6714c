From Verif Require Import BaseLemmas Layout Reduce ReduceProofs DCSC MatSpec Segment Vec SpMat GraphVert Graph Runtime RunSpec RuntimeProofs GraphOps GraphHist GraphHistProofs Apps AppSpec AppBase LabelProofs.

Section SSSP.
  Variables (n s : Z) (es : list (edge Z)).
  Hypothesis Hs : 1 <= s <= n.
  Hypothesis Hin : forall e, In e es -> 1 <= e_src e <= n /\ 1 <= e_dst e <= n.
  Hypothesis Hpos : forall e, In e es -> 0 <= e_val e.
  Hypothesis Hfit : sums_fit es s.
  Variable dv : Z.
  Notation trace := (trace n s es).

  Definition sinv (k : nat) (S : @vstate unit Z Z) : Prop :=
    v_P S s = 0 /\
    forall v, 1 <= v <= n -> 0 <= v_P S v <= MAX_DIST /\
      (v_P S v <> MAX_DIST -> exists vs, trace (v_P S) v vs) /\
      (v_A S v = Some true -> exists vs, trace (v_P S) v vs /\ length vs = Datatypes.S k /\ v_P S v <> MAX_DIST) /\
      (v_A S v <> Some true -> v_A S v = None /\ (v_P S v <> MAX_DIST -> forall e, In e es -> e_src e = v -> v_P S (e_dst e) <= v_P S v + e_val e)).

  Lemma sums D v vs e : trace D v vs -> In e es -> e_src e = v -> 0 <= D v + e_val e < MAX_DIST.
  Proof.
    intros (P & Nd & H) He <-. pose proof (path_nonneg n s es Hin Hpos _ _ _ P). pose proof (Hpos e He). pose proof (Hfit _ _ _ P Nd He). unfold MAX_DIST. lia.
  Qed.

  Lemma sinv_step k S Yk : sinv k S -> (forall v, 1 <= v <= n -> combined_of (pr_reduce sssp (v_s S)) (received es sssp dv S v) (Yk v)) ->
    sinv (Datatypes.S k) (step_with sssp sssp_neq Yk (Z.of_nat k) S).
  Proof.
    intros [H0 HV] HY. set (D := v_P S). set (D' := v_P (step_with sssp sssp_neq Yk (Z.of_nat k) S)).
    assert (forall v, 1 <= v <= n -> forall u, In u (received es sssp dv S v) <-> exists e vs, In e es /\ e_dst e = v /\ v_A S (e_src e) = Some true /\ trace D (e_src e) vs /\ length vs = Datatypes.S k /\ u = D (e_src e) + e_val e) as Hrec.
    { intros v Bv u. rewrite received_out by reflexivity. split.
      - intros (e & t & He & Hd & Ht & ->). destruct (HV (e_src e) (proj1 (Hin e He))) as (_ & _ & A1 & A2). unfold message in Ht.
        destruct (v_A S (e_src e)) as [[]|] eqn:EA; try discriminate; [|destruct A2 as [A2 _]; congruence]. destruct (A1 eq_refl) as (vs & T & L & _).
        exists e, vs. injection Ht as <-. repeat (split; auto). cbn. unfold u32. fold D. pose proof (sums D _ vs e T He eq_refl). apply Z.mod_small. unfold MAX_DIST in *. lia.
      - intros (e & vs & He & Hd & HA & T & L & ->). exists e, (D (e_src e)). split; auto. split; auto. unfold message. rewrite HA. split; [reflexivity|].
        cbn. unfold u32. symmetry. apply Z.mod_small. pose proof (sums D _ vs e T He eq_refl). unfold MAX_DIST in *. lia. }
    assert (forall v, 1 <= v <= n -> (D' v = D v \/ exists e vs, In e es /\ e_dst e = v /\ trace D (e_src e) vs /\ length vs = Datatypes.S k /\ D' v = D (e_src e) + e_val e /\ D' v < D v) /\
       (forall e, In e es -> e_dst e = v -> v_A S (e_src e) = Some true -> D' v <= D (e_src e) + e_val e)) as HD.
    { intros v Bv. specialize (HY v Bv). unfold D'. cbn [step_with v_P]. unfold updated_with. destruct (Yk v) as [u|]; cbn [combined_of] in HY.
      - apply combination_min in HY as [Hu Hmin]. cbn [pr_apply sssp]. fold D. apply Hrec in Hu as (e & vs & He & Hd & HA & T & L & Eu); auto. split.
        + destruct (Z.le_gt_cases (D v) u); [left; lia|]. right. exists e, vs. rewrite Z.min_r by lia. repeat (split; auto).
        + intros e' He' Hd' HA'. destruct (HV (e_src e') (proj1 (Hin e' He'))) as (_ & _ & A1 & _). destruct (A1 HA') as (vs' & T' & L' & _).
          specialize (Hmin (D (e_src e') + e_val e')). rewrite Hrec in Hmin by auto. specialize (Hmin (ex_intro _ e' (ex_intro _ vs' (conj He' (conj Hd' (conj HA' (conj T' (conj L' eq_refl)))))))). lia.
      - split; [left; reflexivity|]. intros e' He' Hd' HA'. exfalso. destruct (HV (e_src e') (proj1 (Hin e' He'))) as (_ & _ & A1 & _). destruct (A1 HA') as (vs' & T' & L' & _).
        assert (In (D (e_src e') + e_val e') []) as []. rewrite <- HY. apply Hrec; auto. exists e', vs'. repeat (split; auto). }
    assert (forall x, 1 <= x <= n -> D' x <= D x) as Hle.
    { intros x Bx. destruct (HD x Bx) as [[->|(e & vs & _ & _ & _ & _ & _ & L)] _]; lia. }
    assert (forall v, 1 <= v <= n -> v_A (step_with sssp sssp_neq Yk (Z.of_nat k) S) v = if D v =? D' v then None else Some true) as HA'.
    { intros v Bv. unfold D'. cbn [step_with v_A v_P]. unfold changed_with, updated_with. destruct (Yk v) as [u|]; cbn [sssp pr_all_vertices orb].
      - fold D. cbn [pr_apply]. unfold sssp_neq. destruct (_ =? _); reflexivity.
      - fold D. rewrite Z.eqb_refl. reflexivity. }
    split.
    - change (D' s = 0). destruct (HD s Hs) as [[->|(e & vs & He & _ & T & _ & E' & L)] _]; [exact H0|].
      pose proof (sums D _ vs e T He eq_refl). fold D in H0. lia.
    - intros v Bv. destruct (HV v Bv) as (B & T0 & A1 & A2). fold D in B, T0, A1, A2. rewrite HA' by auto. fold D'. destruct (HD v Bv) as [[E'|(e & vs & He & Hd & T & L & E' & Lt)] Hrel].
      + rewrite E', Z.eqb_refl. split; [auto|]. split; [|split; [discriminate|]].
        * intros Nm. destruct (T0 Nm) as (vs & T). exists vs. apply (trace_keep n s es D); auto.
        * intros _. split; auto. intros Nm e He Hsrc. destruct (HD (e_dst e) (proj2 (Hin e He))) as [_ Hrd].
          assert (v_A S v = Some true \/ v_A S v <> Some true) as [EA|EA] by (destruct (v_A S v) as [[]|]; auto; right; discriminate).
          -- subst v. apply Hrd; auto.
          -- destruct (A2 EA) as [_ R]. pose proof (R Nm e He Hsrc). pose proof (Hle _ (proj2 (Hin e He))). lia.
      + pose proof (sums D _ vs e T He eq_refl). assert (trace D' v (v :: vs)) as T'. { rewrite <- Hd. apply (trace_extend n s es Hs Hin Hpos D); auto; rewrite Hd; auto. }
        split; [lia|]. split; [eauto|]. destruct (Z.eqb_spec (D v) (D' v)); [lia|]. split; [|congruence].
        intros _. exists (v :: vs). split; auto. cbn [length]. split; [lia|]. unfold MAX_DIST in *. lia.
  Qed.

  Variables (dt : Z) (fuel : nat) (Y : nat -> Z -> option Z) (C : Z -> Z) (q : gspec Z Z).
  Notation jb := (mkJ sssp tt (-1) dt dv fuel).
  Notation st k := (job_after_with sssp_neq jb Y C q k).
  Hypothesis Qe : gs_es q = es.
  Hypothesis QP : forall v, 1 <= v <= n -> gs_P q v = if v =? s then 0 else MAX_DIST.
  Hypothesis QA : forall v, 1 <= v <= n -> gs_A q v = if v =? s then Some true else None.

  Lemma sinv_0 : sinv 0 (st 0).
  Proof.
    assert (v_P (st 0) s = 0) as H0 by (cbn; rewrite (QP s Hs), Z.eqb_refl; reflexivity).
    split; [exact H0|]. intros v Bv. assert (v_P (st 0) v = if v =? s then 0 else MAX_DIST) as EP by (cbn; apply QP; auto). assert (v_A (st 0) v = if v =? s then Some true else None) as EA by (cbn; apply QA; auto).
    rewrite EA. destruct (Z.eqb_spec v s) as [->|Ne].
    - split; [rewrite EP; unfold MAX_DIST; lia|]. split; [intros _; exists [s]; apply trace_source; auto|]. split; [|congruence].
      intros _. exists [s]. split; [apply trace_source; auto|]. split; auto. rewrite EP. discriminate.
    - split; [rewrite EP; unfold MAX_DIST; lia|]. split; [congruence|]. split; [discriminate|]. split; congruence.
  Qed.
  Lemma sinv_at K : job_reduces sssp_neq n jb Y C q K -> forall k, (k <= K)%nat -> sinv k (st k).
  Proof.
    intros Hr. apply (job_inv sssp_neq n jb Y C q K sinv Hr); [apply sinv_0|]. intros k Hk HI HY. unfold job_received in HY. cbn [j_pg j_dv] in HY. rewrite Qe in HY.
    change (st (S k)) with (step_with sssp sssp_neq (Y k) (Z.of_nat k) (st k)). apply sinv_step; auto.
  Qed.
  Lemma sssp_not_endless : (Z.to_nat n <= fuel)%nat -> ~ job_endless_with sssp_neq n jb Y C q.
  Proof.
    intros Hf [Hr He]. cbn [j_fuel] in *. set (k := (Z.to_nat n - 1)%nat).
    assert (job_reduces sssp_neq n jb Y C q (S k)) as Hr' by (intros i v Hi; apply Hr; lia).
    destruct (sinv_at (S k) Hr' (S k) ltac:(lia)) as [_ HI]. specialize (He (S k) ltac:(lia)).
    destruct (not_converged sssp_neq n sssp (Y k) (st k)) as (v & Bv & Hc).
    - intros Hc. apply He. right. split; [cbn; lia|]. replace (S k - 1)%nat with k by lia. exact Hc.
    - destruct (HI v Bv) as (_ & _ & A1 & _). destruct A1 as (vs & T & L & _).
      + change (st (S k)) with (step_with sssp sssp_neq (Y k) (Z.of_nat k) (st k)). cbn [step_with v_A]. rewrite Hc. reflexivity.
      + pose proof (trace_short n s es Hs _ _ _ T). unfold zlen in *. lia.
  Qed.
  Lemma sssp_done K : job_takes_with sssp_neq n jb Y C q K -> forall v, 1 <= v <= n ->
    (v_P (st K) v = MAX_DIST /\ ~ reachable es s v) \/ (v_P (st K) v < MAX_DIST /\ distance es s v (v_P (st K) v)).
  Proof.
    intros (BK & Hr & He & _). destruct (sinv_at K Hr K ltac:(lia)) as [H0 HI].
    assert (forall v, 1 <= v <= n -> v_A (st K) v <> Some true) as Hno.
    { intros v Bv HA. destruct He as [He|[_ He]]; [cbn in He; lia|]. destruct K as [|k]; [lia|]. replace (S k - 1)%nat with k in He by lia.
      change (st (S k)) with (step_with sssp sssp_neq (Y k) (Z.of_nat k) (st k)) in HA. cbn [step_with v_A] in HA.
      pose proof (converged_changed sssp_neq n sssp (Y k) (st k) v He Bv) as Hcc. rewrite Hcc in HA. discriminate. }
    intros v Bv. destruct (relaxed_distance n s es Hs Hin Hpos (v_P (st K))) with (v := v) as [?|[N ?]]; auto.
    - intros x Bx. apply HI; auto.
    - intros e He' Nm. destruct (Hin e He') as [B1 B2]. destruct (HI _ B1) as (_ & T0 & _ & A2). destruct (A2 (Hno _ B1)) as [_ R].
      pose proof (R Nm e He' eq_refl). destruct (T0 Nm) as (vs & T). pose proof (sums _ _ vs e T He' eq_refl). split; auto. lia.
    - right. split; auto. destruct (HI v Bv) as (B & _). lia.
  Qed.
End SSSP.

Section RunSSSP.
  Context {byte : Type}.
  Variable m : machine Z Z byte.
  Variables (n s : Z) (blobs : list (list (edge Z))).
  Hypothesis Hset : setting m n blobs.
  Hypothesis Hn : n < 2 ^ 31.
  Hypothesis Hs : 1 <= s <= n.
  Variables (th : Z) (fr : frame Z Z byte) (dt dv : Z) (fuel : nat).
  Hypothesis Ht : threads_ok m (m_serv m) th.
  Hypothesis Hfr : frame_ok m th fr.

  (** up to the run *)
  Lemma sssp_prepare : exists g xy q, is m n g q /\ trep (f_sert fr) (f_seru fr) n (m_nr m) (m_nt m) (fst xy) (snd xy) (fun _ => dt) /\
    gs_es q = concat blobs /\ (forall v, 1 <= v <= n -> gs_P q v = if v =? s then 0 else MAX_DIST) /\ (forall v, 1 <= v <= n -> gs_A q v = if v =? s then Some true else None) /\
    run_sssp m th fr dt dv fuel n blobs s = (do r <- run_job sssp_neq m th (mkJ sssp tt (-1) dt dv fuel) fr (Some xy) g ;;
      g_applyReduceAllVertices (m_nr m) th sssp_reachable i32_add (fun _ => 0) (r_g (fst r))).
  Proof.
    destruct Hset as (Hm & Hn0 & Lb & Hin). unfold run_sssp. destruct (load_is m Hm n Hn0 MAX_DIST blobs Lb Hin) as (g0 & -> & H0). cbn [bind].
    destruct (init_is m Hm n Hn0 th fr dt g0 _ Hfr H0) as (xy & -> & Hxy). cbn [bind run_call].
    destruct (vp_op sssp_neq m Hm n Hn0 th (GSetAll MAX_DIST) g0 _ Ht I H0) as (g1 & -> & H1). cbn [bind].
    destruct (act_op m Hm n Hn0 (m_serv m) th AAllInactive g1 _ Ht I H1) as (g2 & -> & H2). cbn [bind].
    destruct (vp_op sssp_neq m Hm n Hn0 th (GSet s 0) g2 _ Ht Hs H2) as (g3 & -> & H3). cbn [bind].
    destruct (act_op m Hm n Hn0 (m_serv m) th (AActive s) g3 _ Ht Hs H3) as (g4 & -> & H4). cbn [bind gs_es gs_P gs_A loaded] in *.
    exists g4, xy. eexists. split; [exact H4|]. split; [exact Hxy|]. split; [reflexivity|]. split; [|split; [|reflexivity]]; intros; reflexivity.
  Qed.

  Lemma run_sssp_spec : (forall e, In e (concat blobs) -> 0 <= e_val e) -> sums_fit (concat blobs) s -> (Z.to_nat n <= fuel)%nat ->
    exists g k P, run_sssp m th fr dt dv fuel n blobs s = Ok (g, map (fun _ => k) (zrange 0 (m_nr m))) /\ shows_properties n m g P /\
      (forall v, 1 <= v <= n -> (P v = MAX_DIST /\ ~ reachable (concat blobs) s v) \/ (P v < MAX_DIST /\ distance (concat blobs) s v (P v))) /\ counts n (reachable (concat blobs) s) k.
  Proof.
    intros Hpos Hfit Hf. destruct sssp_prepare as (g & xy & q & Hg & Hxy & Qe & QP & QA & ->). destruct Hset as (Hm & Hn0 & Lb & Hin).
    destruct (run_op_any sssp_neq m Hm n Hn0 th (mkJ sssp tt (-1) dt dv fuel) fr (Some xy) (fun _ => dt) g q Ht Hfr Hg Hxy) as (Y & [(K & r & HK & -> & _ & Hr & _)|[He _]]).
    2:{ exfalso. eapply (sssp_not_endless n s (concat blobs) Hs Hin Hpos Hfit dv dt fuel Y _ q); eauto. }
    cbn [bind fst]. set (q5 := mkGS _ _ _) in Hr.
    assert (forall v, 1 <= v <= n -> (gs_P q5 v = MAX_DIST /\ ~ reachable (concat blobs) s v) \/ (gs_P q5 v < MAX_DIST /\ distance (concat blobs) s v (gs_P q5 v))) as Hres.
    { intros v Bv. cbn [q5 gs_P]. eapply (sssp_done n s (concat blobs)); eauto. }
    destruct (count_is m Hm n Hn0 th sssp_reachable (fun v => gs_P q5 v <? MAX_DIST) (reachable (concat blobs) s) (r_g r) q5 Ht Hn Hr) as (g6 & k & E6 & H6 & Ck).
    - reflexivity.
    - intros v Bv. destruct (Hres v Bv) as [[Em Nr]|[Lt [(h & W) _]]].
      + rewrite Em. split; [discriminate|contradiction].
      + split; [intros _; exists (gs_P q5 v), h; auto|]. intros _. apply Z.ltb_lt. auto.
    - exists g6, k, (gs_P q5). split; [exact E6|]. split; [apply (is_properties sssp_neq m Hm n Hn0 _ _ H6)|]. auto.
  Qed.
End RunSSSP.

Lemma sum_le {A} (f g : A -> Z) l : (forall x, In x l -> f x <= g x) -> sum (map f l) <= sum (map g l).
Proof. induction l as [|x l IH]; cbn [map sum]; intros H; [lia|]. pose proof (H x (or_introl eq_refl)). specialize (IH ltac:(intros; apply H; simpl; auto)). lia. Qed.
Lemma sum_lt {A} (f g : A -> Z) l x : (forall x, In x l -> f x <= g x) -> In x l -> f x < g x -> sum (map f l) + 1 <= sum (map g l).
Proof.
  induction l as [|y l IH]; cbn [map sum]; intros H Hx L; [destruct Hx|]. pose proof (H y (or_introl eq_refl)). destruct Hx as [->|Hx].
  - pose proof (sum_le f g l ltac:(intros; apply H; simpl; auto)). lia.
  - specialize (IH ltac:(intros; apply H; simpl; auto) Hx L). lia.
Qed.
Lemma sum_const {A} (c : Z) (l : list A) : sum (map (fun _ => c) l) = zlen l * c.
Proof. induction l as [|x l IH]; cbn [map sum]; [reflexivity|]. rewrite IH, zlen_cons. lia. Qed.

(** every run ends, whatever the weights: a superstep that changes something lowers the sum of all
    distances *)
Section Terminates.
  Variables (n : Z) (dt dv : Z) (fuel : nat) (Y : nat -> Z -> option Z) (C : Z -> Z) (q : gspec Z Z).
  Hypothesis Hn : 0 <= n.
  Notation jb := (mkJ sssp tt (-1) dt dv fuel).
  Notation st k := (job_after_with sssp_neq jb Y C q k).
  Hypothesis QP : forall v, 1 <= v <= n -> 0 <= gs_P q v <= MAX_DIST.

  Definition total (k : nat) : Z := sum (map (v_P (st k)) (zrange 1 (n + 1))).
  Lemma dist_range K : job_reduces sssp_neq n jb Y C q K -> forall k, (k <= K)%nat -> forall v, 1 <= v <= n -> 0 <= v_P (st k) v <= MAX_DIST.
  Proof.
    intros Hr. apply (job_inv sssp_neq n jb Y C q K (fun _ S => forall v, 1 <= v <= n -> 0 <= v_P S v <= MAX_DIST) Hr); [intros v Bv; apply (QP v Bv)|]. intros k Hk HI HY v Bv. specialize (HY v Bv). specialize (HI v Bv).
    change (st (S k)) with (step_with sssp sssp_neq (Y k) (Z.of_nat k) (st k)). cbn [step_with v_P]. unfold updated_with. destruct (Y k v) as [u|]; auto.
    cbn [combined_of j_pg sssp pr_reduce] in HY. apply combination_min in HY as [Hu _]. unfold job_received in Hu. apply received_out in Hu as (e & t & _ & _ & _ & Eu); auto.
    cbn [sssp pr_process j_pg] in Eu. cbn [pr_apply sssp]. unfold u32 in Eu. pose proof (Z.mod_pos_bound (t + e_val e) (2 ^ 32) ltac:(lia)). unfold MAX_DIST in *. lia.
  Qed.
  Lemma total_drops K k : job_reduces sssp_neq n jb Y C q K -> (k < K)%nat -> ~ job_ends_with sssp_neq n jb Y C q (S k) -> total (S k) + 1 <= total k.
  Proof.
    intros Hr Hk He. destruct (not_converged sssp_neq n sssp (Y k) (st k)) as (v & Bv & Hc).
    - intros Hc. apply He. right. split; [cbn; lia|]. replace (S k - 1)%nat with k by lia. exact Hc.
    - assert (forall x, v_P (st (S k)) x <= v_P (st k) x) as Hle.
      { intros x. change (st (S k)) with (step_with sssp sssp_neq (Y k) (Z.of_nat k) (st k)). cbn [step_with v_P]. unfold updated_with. destruct (Y k x); [|lia]. cbn [pr_apply sssp]. lia. }
      apply (sum_lt _ _ _ v); auto; [apply in_zrange; lia|]. unfold changed_with in Hc.
      change (st (S k)) with (step_with sssp sssp_neq (Y k) (Z.of_nat k) (st k)). cbn [step_with v_P]. unfold updated_with. destruct (Y k v) as [u|]; [|discriminate].
      change (pr_apply sssp (v_s (st k)) u (v_P (st k) v)) with (Z.min (v_P (st k) v) u) in *. unfold sssp_neq at 1 in Hc. apply negb_true_iff, Z.eqb_neq in Hc. lia.
  Qed.
  Lemma sssp_ends : (Z.to_nat (n * 2 ^ 32) < fuel)%nat -> ~ job_endless_with sssp_neq n jb Y C q.
  Proof.
    intros Hf [Hr He]. cbn [j_fuel] in *.
    assert (forall k, (k <= fuel)%nat -> total k + Z.of_nat k <= total O) as Hd.
    { induction k as [|k IH]; intros Hk; [lia|]. specialize (IH ltac:(lia)). pose proof (total_drops fuel k Hr ltac:(lia) (He (S k) ltac:(lia))). lia. }
    specialize (Hd fuel ltac:(lia)). assert (0 <= total fuel) as H1.
    { pose proof (sum_le (fun _ => 0) (v_P (st fuel)) (zrange 1 (n + 1))) as L. rewrite sum_zeros in L. apply L. intros x Hx. apply in_zrange in Hx. apply (dist_range fuel Hr fuel); [|lia]. apply le_n. }
    assert (total O <= n * MAX_DIST) as H2.
    { pose proof (sum_le (v_P (st O)) (fun _ => MAX_DIST) (zrange 1 (n + 1))) as L. rewrite sum_const, zlen_zrange in L by lia. replace (n + 1 - 1) with n in L by lia. apply L.
      intros x Hx. apply in_zrange in Hx. apply (dist_range fuel Hr O); lia. }
    unfold MAX_DIST in *. lia.
  Qed.
End Terminates.

Lemma run_sssp_ends {byte} (m : machine Z Z byte) n s blobs th fr dt dv fuel : setting m n blobs -> 1 <= s <= n -> threads_ok m (m_serv m) th -> frame_ok m th fr ->
  (Z.to_nat (n * 2 ^ 32) < fuel)%nat -> exists g l P, run_sssp m th fr dt dv fuel n blobs s = Ok (g, l) /\ shows_properties n m g P.
Proof.
  intros Hset Hs Ht Hfr Hf. destruct (sssp_prepare m n s blobs Hset Hs th fr dt dv fuel Ht Hfr) as (g & xy & q & Hg & Hxy & Qe & QP & QA & ->). destruct Hset as (Hm & Hn0 & Lb & Hin).
  destruct (run_op_any sssp_neq m Hm n Hn0 th (mkJ sssp tt (-1) dt dv fuel) fr (Some xy) (fun _ => dt) g q Ht Hfr Hg Hxy) as (Y & [(K & r & HK & -> & _ & Hr & _)|[He _]]).
  - cbn [bind fst]. destruct (reduce_op m Hm n Hn0 th sssp_reachable i32_add (fun _ => 0) (r_g r) _ Ht i32_assoc Hr) as (g' & k & Eg & Hg' & _). rewrite Eg. eexists _, _, _. split; [reflexivity|].
    apply (is_properties sssp_neq m Hm n Hn0 _ _ Hg').
  - exfalso. eapply (sssp_ends n dt dv fuel Y); eauto. intros v Bv. rewrite QP by auto. unfold MAX_DIST. destruct (v =? s); lia.
Qed.
