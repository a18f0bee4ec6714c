(** What src/SSSP.cpp computes for any weights, when sums of distances may wrap (C54) *)
From Verif Require Import BaseLemmas Layout Reduce ReduceProofs DCSC MatSpec Segment Vec SpMat GraphVert Graph Runtime RunSpec RuntimeProofs GraphOps GraphHist GraphHistProofs Apps AppSpec AppBase LabelProofs SsspProofs.

Section Wrap.
  Variables (n s : Z) (es : list (edge Z)).
  Hypothesis Hs : 1 <= s <= n.
  Hypothesis Hin : forall e, In e es -> 1 <= e_src e <= n /\ 1 <= e_dst e <= n.
  Variable dv : Z.

  Definition winv (S : @vstate unit Z Z) : Prop :=
    v_P S s = 0 /\
    forall v, 1 <= v <= n -> 0 <= v_P S v <= MAX_DIST /\
      (v_P S v <> MAX_DIST -> exists w h, walk es s v w h /\ v_P S v = w mod 2 ^ 32) /\
      (v_A S v = Some true -> v_P S v <> MAX_DIST) /\
      (v_A S v <> Some true -> v_A S v = None /\ (v_P S v <> MAX_DIST -> forall e, In e es -> e_src e = v -> v_P S (e_dst e) <= (v_P S v + e_val e) mod 2 ^ 32)).

  Lemma winv_step k S Yk : winv S -> (forall v, 1 <= v <= n -> combined_of (pr_reduce sssp (v_s S)) (received es sssp dv S v) (Yk v)) ->
    winv (step_with sssp sssp_neq Yk k S).
  Proof.
    intros [H0 HV] HY. set (D := v_P S). set (D' := v_P (step_with sssp sssp_neq Yk k S)).
    assert (Hrec : forall v, 1 <= v <= n -> forall u, In u (received es sssp dv S v) <-> exists e, In e es /\ e_dst e = v /\ v_A S (e_src e) = Some true /\ u = (D (e_src e) + e_val e) mod 2 ^ 32).
    { intros v Bv u. rewrite received_out by reflexivity. split.
      - intros (e & t & He & Hd & Ht & ->). destruct (HV (e_src e) (proj1 (Hin e He))) as (_ & _ & _ & A2). unfold message in Ht.
        destruct (v_A S (e_src e)) as [[]|] eqn:EA; try discriminate; [|destruct A2 as [A2 _]; congruence].
        exists e. injection Ht as <-. auto.
      - intros (e & He & Hd & HA & ->). exists e, (D (e_src e)). split; auto. split; auto. unfold message. rewrite HA. split; reflexivity. }
    assert (HD : forall v, 1 <= v <= n -> (D' v = D v \/ exists e, In e es /\ e_dst e = v /\ v_A S (e_src e) = Some true /\ D' v = (D (e_src e) + e_val e) mod 2 ^ 32 /\ D' v < D v) /\
       (forall e, In e es -> e_dst e = v -> v_A S (e_src e) = Some true -> D' v <= (D (e_src e) + e_val e) mod 2 ^ 32)).
    { intros v Bv. specialize (HY v Bv). unfold D'. cbn [step_with v_P]. unfold updated_with. destruct (Yk v) as [u|]; cbn [combined_of] in HY.
      - apply combination_min in HY as [Hu Hmin]. cbn [pr_apply sssp]. fold D. apply Hrec in Hu as (e & He & Hd & HA & Eu); auto. split.
        + destruct (Z.le_gt_cases (D v) u); [left; lia|]. right. exists e. rewrite Z.min_r by lia. repeat (split; auto).
        + intros e' He' Hd' HA'. specialize (Hmin ((D (e_src e') + e_val e') mod 2 ^ 32)). rewrite Hrec in Hmin by auto. specialize (Hmin (ex_intro _ e' (conj He' (conj Hd' (conj HA' eq_refl))))). lia.
      - split; [left; reflexivity|]. intros e' He' Hd' HA'. exfalso.
        assert (In ((D (e_src e') + e_val e') mod 2 ^ 32) []) as []. rewrite <- HY. apply Hrec; auto. exists e'. auto. }
    assert (Hle : forall x, 1 <= x <= n -> D' x <= D x).
    { intros x Bx. destruct (HD x Bx) as [[->|(e & _ & _ & _ & _ & L)] _]; lia. }
    assert (HA' : forall v, 1 <= v <= n -> v_A (step_with sssp sssp_neq Yk k S) v = if D v =? D' v then None else Some true).
    { intros v Bv. unfold D'. cbn [step_with v_A v_P]. unfold changed_with, updated_with. destruct (Yk v) as [u|]; cbn [sssp pr_all_vertices orb].
      - fold D. cbn [pr_apply]. unfold sssp_neq. destruct (_ =? _); reflexivity.
      - fold D. rewrite Z.eqb_refl. reflexivity. }
    split.
    - change (D' s = 0). destruct (HD s Hs) as [[->|(e & He & _ & _ & E' & L)] _]; [exact H0|].
      pose proof (Z.mod_pos_bound (D (e_src e) + e_val e) (2 ^ 32) ltac:(lia)). fold D in H0. lia.
    - intros v Bv. destruct (HV v Bv) as (B & T0 & A1 & A2). fold D in B, T0, A1, A2. rewrite HA' by auto. fold D'. destruct (HD v Bv) as [[E'|(e & He & Hd & HA & E' & Lt)] Hrel].
      + rewrite E', Z.eqb_refl. split; [auto|]. split; [exact T0|]. split; [discriminate|].
        intros _. split; auto. intros Nm e He Hsrc. destruct (HD (e_dst e) (proj2 (Hin e He))) as [_ Hrd].
        assert (v_A S v = Some true \/ v_A S v <> Some true) as [EA|EA] by (destruct (v_A S v) as [[]|]; auto; right; discriminate).
        * subst v. apply Hrd; auto.
        * destruct (A2 EA) as [_ R]. pose proof (R Nm e He Hsrc). pose proof (Hle _ (proj2 (Hin e He))). lia.
      + pose proof (Z.mod_pos_bound (D (e_src e) + e_val e) (2 ^ 32) ltac:(lia)).
        split; [lia|]. split.
        * intros _. destruct (HV (e_src e) (proj1 (Hin e He))) as (_ & T1 & N1 & _). destruct (T1 (N1 HA)) as (w & h & W & Ew). fold D in Ew.
          exists (w + e_val e), (Datatypes.S h). split; [rewrite <- Hd; apply walk_edge; auto|]. rewrite E', Ew, Zplus_mod_idemp_l. reflexivity.
        * destruct (Z.eqb_spec (D v) (D' v)); [lia|]. split; [lia|congruence].
  Qed.

  Variables (dt : Z) (fuel : nat) (Y : nat -> Z -> option Z) (C : Z -> Z) (q : gspec Z Z).
  Notation jb := (mkJ sssp tt (-1) dt dv fuel).
  Notation st k := (job_after_with sssp_neq jb Y C q k).
  Hypothesis Qe : gs_es q = es.
  Hypothesis QP : forall v, 1 <= v <= n -> gs_P q v = if v =? s then 0 else MAX_DIST.
  Hypothesis QA : forall v, 1 <= v <= n -> gs_A q v = if v =? s then Some true else None.

  Lemma winv_0 : winv (st 0).
  Proof.
    assert (H0 : v_P (st 0) s = 0) by (cbn; rewrite (QP s Hs), Z.eqb_refl; reflexivity).
    split; [exact H0|]. intros v Bv. assert (EP : v_P (st 0) v = if v =? s then 0 else MAX_DIST) by (cbn; apply QP; auto). assert (EA : v_A (st 0) v = if v =? s then Some true else None) by (cbn; apply QA; auto).
    rewrite EA. destruct (Z.eqb_spec v s) as [->|Ne].
    - split; [rewrite EP; unfold MAX_DIST; lia|]. split; [intros _; exists 0, O; split; [constructor|rewrite EP; reflexivity]|]. split; [|congruence].
      intros _. rewrite EP. discriminate.
    - split; [rewrite EP; unfold MAX_DIST; lia|]. split; [congruence|]. split; [discriminate|]. split; congruence.
  Qed.
  Lemma winv_at K : job_reduces sssp_neq n jb Y C q K -> forall k, (k <= K)%nat -> winv (st k).
  Proof.
    intros Hr. apply (job_inv sssp_neq n jb Y C q K (fun _ => winv) Hr); [apply winv_0|]. intros k Hk HI HY. unfold job_received in HY. cbn [j_pg j_dv] in HY. rewrite Qe in HY.
    change (st (S k)) with (step_with sssp sssp_neq (Y k) (Z.of_nat k) (st k)). apply winv_step; auto.
  Qed.
  Lemma wrap_done K : job_takes_with sssp_neq n jb Y C q K -> v_P (st K) s = 0 /\
    (forall v, 1 <= v <= n -> v_P (st K) v = MAX_DIST \/ (0 <= v_P (st K) v < MAX_DIST /\ exists w h, walk es s v w h /\ v_P (st K) v = w mod 2 ^ 32)) /\
    forall e, In e es -> v_P (st K) (e_src e) <> MAX_DIST -> v_P (st K) (e_dst e) <= (v_P (st K) (e_src e) + e_val e) mod 2 ^ 32.
  Proof.
    intros (BK & Hr & He & _). destruct (winv_at K Hr K ltac:(lia)) as [H0 HI].
    assert (Hno : forall v, 1 <= v <= n -> v_A (st K) v <> Some true).
    { intros v Bv HA. destruct He as [He|[_ He]]; [cbn in He; lia|]. destruct K as [|k]; [lia|]. replace (S k - 1)%nat with k in He by lia.
      change (st (S k)) with (step_with sssp sssp_neq (Y k) (Z.of_nat k) (st k)) in HA. cbn [step_with v_A] in HA.
      pose proof (converged_changed sssp_neq n sssp (Y k) (st k) v He Bv) as Hcc. rewrite Hcc in HA. discriminate. }
    split; [exact H0|]. split.
    - intros v Bv. destruct (HI v Bv) as (B & T & _). destruct (Z.eq_dec (v_P (st K) v) MAX_DIST) as [E|N]; [left; exact E|right]. split; [lia|]. apply T, N.
    - intros e He' Nm. destruct (HI _ (proj1 (Hin e He'))) as (_ & _ & _ & A2). apply (proj2 (A2 (Hno _ (proj1 (Hin e He')))) Nm e He' eq_refl).
  Qed.
End Wrap.

(** Every run of SSSP, whatever the weights. *)
Lemma run_sssp_modular {byte} (m : machine Z Z byte) n s blobs th fr dt dv fuel : setting m n blobs -> n < 2 ^ 31 -> 1 <= s <= n -> threads_ok m (m_serv m) th -> frame_ok m th fr ->
  (Z.to_nat (n * 2 ^ 32) < fuel)%nat ->
  exists g k P, run_sssp m th fr dt dv fuel n blobs s = Ok (g, map (fun _ => k) (zrange 0 (m_nr m))) /\ shows_properties n m g P /\ P s = 0 /\
    (forall v, 1 <= v <= n -> P v = MAX_DIST \/ (0 <= P v < MAX_DIST /\ exists w h, walk (concat blobs) s v w h /\ P v = w mod 2 ^ 32)) /\
    (forall e, In e (concat blobs) -> P (e_src e) <> MAX_DIST -> P (e_dst e) <= (P (e_src e) + e_val e) mod 2 ^ 32) /\
    counts n (fun v => P v <> MAX_DIST) k.
Proof.
  intros Hset Hn Hs Ht Hfr Hf. destruct (sssp_prepare m n s blobs Hset Hs th fr dt dv fuel Ht Hfr) as (g & xy & q & Hg & Hxy & Qe & QP & QA & ->). destruct Hset as (Hm & Hn0 & Lb & Hin).
  destruct (run_op_any sssp_neq m Hm n Hn0 th (mkJ sssp tt (-1) dt dv fuel) fr (Some xy) (fun _ => dt) g q Ht Hfr Hg Hxy) as (Y & [(K & r & HK & -> & _ & Hr & _)|[He _]]).
  2:{ exfalso. eapply (sssp_ends n dt dv fuel Y); eauto. intros v Bv. rewrite QP by auto. unfold MAX_DIST. destruct (v =? s); lia. }
  cbn [bind fst]. set (q5 := mkGS _ _ _) in Hr.
  destruct (wrap_done n s (concat blobs) Hs Hin dv dt fuel Y _ q Qe QP QA K HK) as (R0 & R1 & R2).
  destruct (count_is m Hm n Hn0 th sssp_reachable (fun v => gs_P q5 v <? MAX_DIST) (fun v => gs_P q5 v <> MAX_DIST) (r_g r) q5 Ht Hn Hr) as (g6 & k & E6 & H6 & Ck).
  - reflexivity.
  - intros v Bv. rewrite Z.ltb_lt. cbn [q5 gs_P]. destruct (R1 v Bv) as [E|[B _]]; [rewrite E; split; [lia|congruence]|]. split; [lia|intros _; apply B].
  - exists g6, k, (gs_P q5). split; [exact E6|]. split; [apply (is_properties sssp_neq m Hm n Hn0 _ _ H6)|]. auto.
Qed.

(** If all walks to a vertex weigh the same, the reported distance is that weight modulo 2^32. *)
Lemma one_weight n s es (U P : Z -> Z) : 1 <= s <= n -> (forall e, In e es -> 1 <= e_src e <= n /\ 1 <= e_dst e <= n) ->
  (forall v w h, walk es s v w h -> w = U v) -> (forall v, reachable es s v -> U v mod 2 ^ 32 <> MAX_DIST) -> P s = 0 ->
  (forall v, 1 <= v <= n -> P v = MAX_DIST \/ (0 <= P v < MAX_DIST /\ exists w h, walk es s v w h /\ P v = w mod 2 ^ 32)) ->
  (forall e, In e es -> P (e_src e) <> MAX_DIST -> P (e_dst e) <= (P (e_src e) + e_val e) mod 2 ^ 32) ->
  forall v, reachable es s v -> P v = U v mod 2 ^ 32.
Proof.
  intros Hs Hin HU Hm P0 P1 P2 v (w & h & W). induction W as [|w h e W IH He].
  - rewrite P0, <- (HU s 0 O) by constructor. reflexivity.
  - assert (Re : reachable es s (e_dst e)) by (exists (w + e_val e), (S h); apply walk_edge; auto).
    destruct (P1 (e_dst e) (proj2 (Hin e He))) as [E|[_ (w' & h' & W' & ->)]]; [|rewrite (HU _ _ _ W'); reflexivity].
    exfalso. pose proof (P2 e He) as Q. rewrite IH, E in Q. specialize (Q (Hm _ (ex_intro _ w (ex_intro _ h W)))). rewrite Zplus_mod_idemp_l in Q.
    assert (EU : U (e_dst e) = U (e_src e) + e_val e) by (rewrite <- (HU _ _ _ (walk_edge es s w h e W He)), <- (HU _ _ _ W); reflexivity).
    rewrite <- EU in Q. pose proof (Hm _ Re). pose proof (Z.mod_pos_bound (U (e_dst e)) (2 ^ 32) ltac:(lia)). unfold MAX_DIST in *. lia.
Qed.
