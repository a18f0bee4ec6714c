(** The meaning of a history does not depend on the order of the edge list, nor on the boolean
    results of send_message; a run does not depend on old messages a program ignores. *)
From Verif Require Import BaseLemmas Layout LayoutProofs Reduce ReduceProofs Segment DCSC MatSpec Vec VecProofs SpMat SpMatProofs GraphVert GraphVertProofs Graph GraphProofs Runtime RunSpec HeldProofs RuntimeProofs GraphOps GraphHist GraphHistProofs RunFinal DistProofs ListLemmas MultProofs TileProofs DCSCProofs VecProofs2.

Lemma flat_map_perm {A B} (f : A -> list B) l l' : Permutation l l' -> Permutation (flat_map f l) (flat_map f l').
Proof. induction 1; simpl; auto; [apply Permutation_app_head; auto|rewrite !app_assoc; apply Permutation_app_tail, Permutation_app_comm|etransitivity; eauto]. Qed.
Lemma forallb_ext_in' {A} (f g : A -> bool) l : (forall a, In a l -> f a = g a) -> forallb f l = forallb g l.
Proof. induction l as [|a l IH]; simpl; intros H; auto. rewrite H, IH; auto. Qed.

Section Step.
  Context {S T U V E : Type}.
  Variable neq : V -> V -> bool.
  Variable n : Z.
  Variables pg pg' : program S T U V E.
  Hypothesis Hpg : same_program pg pg'.
  Hypothesis Hca : forall s, commutative (pr_reduce pg s) /\ associative (pr_reduce pg s).
  Variables es es' : list (edge E).
  Hypothesis Pes : Permutation es es'.
  Hypothesis Hes : forall e, In e es -> 1 <= e_src e <= n /\ 1 <= e_dst e <= n.
  Variable dv : V.
  Notation vst := (@vstate S T V).

  Definition vsim (q q' : vst) : Prop :=
    v_s q = v_s q' /\ (forall v, 1 <= v <= n -> v_P q v = v_P q' v /\ v_A q v = v_A q' v) /\
    ((forall v, 1 <= v <= n -> v_C q v = v_C q' v) \/ (ignores_old pg /\ forall v, 1 <= v <= n -> v_A q v <> Some false)).

  Lemma message_sim q q' v : vsim q q' -> 1 <= v <= n -> message pg q v = message pg' q' v.
  Proof.
    intros (Es & Epa & Ec) Bv. destruct (Epa v Bv) as [Ep Ea]. unfold message. rewrite <- Ea, <- Es, <- Ep. destruct Hpg as (_ & _ & _ & Hs & _).
    destruct Ec as [Ec|[Ig Nf]].
    - rewrite <- (Ec v Bv). destruct (v_A q v) as [[|]|]; auto. rewrite Hs. auto.
    - specialize (Nf v Bv). destruct (v_A q v) as [[|]|]; auto; [|congruence]. rewrite <- Hs. f_equal. apply Ig.
  Qed.
  Lemma seen_sim q q' v : vsim q q' -> 1 <= v <= n -> seen pg dv q v = seen pg' dv q' v.
  Proof. intros (Es & Epa & _) Bv. unfold seen. destruct Hpg as (_ & _ & <- & _). destruct (Epa v Bv) as [-> _]. auto. Qed.

  Lemma arriving_sim q q' f v : vsim q q' -> (f = along \/ f = against) -> 1 <= v <= n ->
    Permutation (arriving es pg dv q f v) (arriving es' pg' dv q' f v).
  Proof.
    intros Hq Hf Bv. unfold arriving. etransitivity; [apply flat_map_perm, Pes|].
    rewrite (flat_map_ext_in _ (fun e => if snd (f e) =? v then match message pg' q' (fst (f e)) with Some t => [pr_process pg' (v_s q') t (e_val e) (seen pg' dv q' v)] | None => [] end else []) es'); [reflexivity|].
    intros e He. apply (Permutation_in _ (Permutation_sym Pes)) in He. destruct (Hes e He) as [H1 H2].
    rewrite (message_sim q q' (fst (f e)) Hq) by (destruct Hf as [-> | ->]; cbn; lia). rewrite (seen_sim q q' v Hq Bv).
    destruct Hq as (<- & _). destruct Hpg as (_ & _ & _ & _ & <- & _). reflexivity.
  Qed.
  Lemma received_sim q q' v : vsim q q' -> 1 <= v <= n -> Permutation (received es pg dv q v) (received es' pg' dv q' v).
  Proof.
    intros Hq Bv. unfold received. destruct Hpg as (<- & _). destruct (pr_order pg); [| |apply Permutation_app]; apply arriving_sim; auto.
  Qed.
  Lemma combined_sim q q' v : vsim q q' -> 1 <= v <= n -> combined es pg dv q v = combined es' pg' dv q' v.
  Proof.
    intros Hq Bv. unfold combined. pose proof (received_sim q q' v Hq Bv) as P. destruct Hq as (Es & _). rewrite <- Es. destruct Hpg as (_ & _ & _ & _ & _ & <- & _).
    apply red_perm; auto; apply Hca.
  Qed.
  Lemma changed_sim q q' v : vsim q q' -> 1 <= v <= n -> changed es pg neq dv q v = changed es' pg' neq dv q' v.
  Proof.
    intros Hq Bv. unfold changed. rewrite <- (combined_sim q q' v Hq Bv). destruct Hq as (<- & Epa & _). destruct (Epa v Bv) as [-> _]. destruct Hpg as (_ & _ & _ & _ & _ & _ & <- & _). auto.
  Qed.
  Lemma converged_sim q q' : vsim q q' -> converged n es pg neq dv q = converged n es' pg' neq dv q'.
  Proof. intros Hq. unfold converged. apply forallb_ext_in'. intros v Hv. apply in_zrange in Hv. rewrite (changed_sim q q' v Hq) by lia. auto. Qed.

  Lemma step_sim it q q' : vsim q q' -> vsim (step es pg neq dv it q) (step es' pg' neq dv it q').
  Proof.
    intros Hq. pose proof Hq as (Es & Epa & Ec). unfold step. split; [cbn; rewrite Es; destruct Hpg as (_ & _ & _ & _ & _ & _ & _ & <-); auto|]. split; cbn [v_s v_P v_A v_C].
    - intros v Bv. split.
      + unfold updated. rewrite <- (combined_sim q q' v Hq Bv). rewrite <- Es. destruct (Epa v Bv) as [-> _]. destruct Hpg as (_ & _ & _ & _ & _ & _ & <- & _). auto.
      + rewrite (changed_sim q q' v Hq Bv). destruct Hpg as (_ & <- & _). auto.
    - destruct Ec as [Ec|[Ig Nf]]; [left|right].
      + intros v Bv. rewrite (message_sim q q' v Hq Bv), (Ec v Bv). auto.
      + split; auto. intros v Bv. destruct (_ || _); discriminate.
  Qed.
  Lemma begin_sim q q' : vsim q q' -> vsim (begin pg q) (begin pg' q').
  Proof.
    intros (Es & Epa & Ec). unfold begin. destruct Hpg as (_ & <- & _). split; [auto|]. split; cbn [v_s v_P v_A v_C].
    - intros v Bv. destruct (Epa v Bv) as [? ?]. destruct (pr_all_vertices pg); auto.
    - destruct Ec as [Ec|[Ig Nf]]; [left; auto|right]. split; auto. intros v Bv. destruct (pr_all_vertices pg); [discriminate|auto].
  Qed.
  (** only the state at the beginning matters *)
  Lemma after_sim' q q' k : vsim (begin pg q) (begin pg' q') -> vsim (after es pg neq dv k q) (after es' pg' neq dv k q').
  Proof. intros Hq. induction k as [|k IH]; cbn [after]; [auto|apply step_sim; auto]. Qed.
  Lemma ends_sim its q q' k : vsim (begin pg q) (begin pg' q') -> ends n es pg neq dv its q k <-> ends n es' pg' neq dv its q' k.
  Proof. intros Hq. unfold ends. rewrite (converged_sim _ _ (after_sim' q q' (k - 1) Hq)). tauto. Qed.
End Step.

Section Hist.
  Context {V E byte : Type}.
  Variable neq : V -> V -> bool.
  Variable n : Z.

  Notation gsim := (@same_graph V E n).
  Definition bounded (q : gspec V E) : Prop := forall e, In e (gs_es q) -> 1 <= e_src e <= n /\ 1 <= e_dst e <= n.

  Lemma gsim_sym q q' : gsim q q' -> gsim q' q.
  Proof. intros [H1 H2]. split; [symmetry; auto|]. intros v B. destruct (H2 v B). auto. Qed.

  Lemma job_sim {S T U} (jb jb' : job S T U V E) C C' q q' : same_job jb jb' -> job_ok jb -> bounded q -> gsim q q' ->
    ((forall v, 1 <= v <= n -> C v = C' v) \/ (ignores_old (j_pg jb) /\ (pr_all_vertices (j_pg jb) = true \/ forall v, 1 <= v <= n -> gs_A q v <> Some false))) ->
    (forall k, vsim n (j_pg jb) (job_after neq jb C q k) (job_after neq jb' C' q' k)) /\ (forall k, job_ends neq n jb C q k <-> job_ends neq n jb' C' q' k).
  Proof.
    intros (Sp & Es & Ei & Et & Ed & Ef) Hj Bq [Pq Eq] HC.
    assert (vsim n (j_pg jb) (begin (j_pg jb) (start jb C q)) (begin (j_pg jb') (start jb' C' q'))) as B0.
    { unfold begin, start. cbn [v_s v_P v_A v_C]. destruct Sp as (_ & <- & _). split; [auto|]. split; cbn [v_s v_P v_A v_C].
      - intros v Bv. destruct (Eq v Bv). destruct (pr_all_vertices _); auto.
      - destruct HC as [HC|[Ig HA]]; [left; auto|right]. split; auto. intros v Bv. destruct (pr_all_vertices _) eqn:Ea; [discriminate|]. destruct HA as [HA|HA]; [discriminate|auto]. }
    split.
    - intros k. unfold job_after. rewrite <- Ed. apply after_sim'; auto.
    - intros k. unfold job_ends. rewrite <- Ed, <- Ei. apply ends_sim; auto.
  Qed.

  Lemma same_program_refl {S T U} (pg : program S T U V E) : same_program pg pg.
  Proof. unfold same_program. auto 10. Qed.
  Lemma same_job_refl {S T U} (jb : job S T U V E) : same_job jb jb.
  Proof. unfold same_job. pose proof (same_program_refl (j_pg jb)). auto 10. Qed.

  Definition osim (o o' : option (gspec V E)) : Prop :=
    match o, o' with Some q, Some q' => gsim q q' /\ bounded q | None, None => True | _, _ => False end.

  Lemma run_sim {S T U} (jb jb' : job S T U V E) (fr fr' : frame T U byte) q q' o : same_job jb jb' -> job_ok jb -> bounded q -> gsim q q' ->
    spec_call neq n (CRun jb fr) q o -> exists o', spec_call neq n (CRun jb' fr') q' o' /\ osim o o'.
  Proof.
    intros Sj Hj Bq Gq Hs. pose proof Sj as (Sp & Es & Ei & Et & Ed & Ef).
    destruct (job_sim jb jb' (fun _ => j_dt jb) (fun _ => j_dt jb') q q' Sj Hj Bq Gq) as [Af En]; [left; auto|].
    cbn [spec_call] in *. destruct Hs as [(K & (B & H & L) & ->)|[H ->]].
    - eexists. split; [left; exists K; split; [split; [rewrite <- Ef; exact B|split; [apply En; exact H|intros k Bk X; apply En in X; exact (L k Bk X)]]|reflexivity]|].
      cbn [osim]. split; [|exact Bq]. split; [apply Gq|]. apply (Af K).
    - exists None. split; [right; split; auto|exact I]. intros k Bk X. apply En in X. apply (H k); auto. rewrite Ef; auto.
  Qed.

  Lemma call_sim (c c' : gcall V E byte) q q' o : same_call c c' -> match c with CRun jb _ => job_ok jb | _ => True end -> bounded q -> gsim q q' ->
    spec_call neq n c q o -> exists o', spec_call neq n c' q' o' /\ osim o o'.
  Proof.
    intros Sc Hj Bq Gq Hs. pose proof Gq as [Pq Eq]. destruct Sc as [c|W mp op op' init init'|S T U jb jb' fr fr' Sj].
    2:{ cbn [spec_call] in *. subst o. eexists. split; [reflexivity|]. split; [|exact Bq]. split; [exact Pq|]. intros v Bv. cbn. destruct (Eq v Bv) as [-> ->]. auto. }
    2:{ eapply run_sim; eauto. }
    destruct c as [v a|a|a|v|v| | |f|W mp op init|f|S T U jb fr]; cbn [spec_call] in Hs; try subst o; try (eexists; split; [reflexivity|]; split; [split; [exact Pq|]|exact Bq]; intros u Bu; cbn [gs_P gs_A]; destruct (Eq u Bu) as [Q1 Q2]; rewrite ?Q1, ?Q2; auto; fail).
    - eexists. split; [reflexivity|]. split.
      + split; [|exact Eq]. cbn [gs_es]. rewrite Pq. rewrite (map_ext_in (newedge f (gs_P q)) (newedge f (gs_P q'))); [reflexivity|]. intros e He. apply (Permutation_in _ (Permutation_sym Pq)) in He. destruct (Bq e He) as [B1 B2]. unfold newedge.
        destruct (Eq _ B1) as [-> _]. destruct (Eq _ B2) as [-> _]. auto.
      + intros e He. cbn [gs_es] in He. apply in_map_iff in He as (e0 & <- & He). apply Bq in He. exact He.
    - apply (run_sim jb jb fr fr q q' o); auto. apply same_job_refl.
  Qed.

  Lemma calls_sim h h' : Forall2 (fun (c c' : Z * gcall V E byte) => same_call (snd c) (snd c')) h h' -> forall q q' o, Forall (fun c => match snd c with CRun jb _ => job_ok jb | _ => True end) h -> bounded q -> gsim q q' ->
    spec_calls neq n h q o -> exists o', spec_calls neq n h' q' o' /\ osim o o'.
  Proof.
    induction 1 as [|c c' h h' Sc _ IH]; intros q q' o Hj Bq Gq; cbn [spec_calls].
    - intros ->. eexists. split; [reflexivity|]. split; auto.
    - inversion Hj as [|? ? H1 H2]; subst. intros (o1 & S1 & R). destruct (call_sim _ _ q q' o1 Sc H1 Bq Gq S1) as (o1' & S1' & Sim). destruct o1 as [q1|], o1' as [q1'|]; try contradiction.
      + destruct Sim as [G1 B1]. destruct (IH q1 q1' o H2 B1 G1 R) as (o' & So & Sm). exists o'. split; auto. eexists. split; [exact S1'|exact So].
      + subst o. exists None. split; [|exact I]. eexists. split; [exact S1'|reflexivity].
  Qed.

  Lemma is_sim (m : machine V E byte) (Hm : machine_ok m) (Hn : 0 <= n) (g : graph V E byte) q q' : gsim q q' -> is m n g q -> is m n g q'.
  Proof.
    intros [Pq Eq] (Hin & (Gn & Gt & ids & Ei & HA & HT) & Hv & Lv & Ha & La). split.
    - intros e He. apply Hin. eapply Permutation_in; [symmetry; exact Pq|auto].
    - destruct Hm as (Hr & Hnt & _). split; [|split; [|split; [auto|split; [|auto]]]].
      + split; auto. split; auto. exists ids. split; auto. split; eapply mat_holds_perm; try eassumption; rewrite Pq; reflexivity.
      + eapply held_ext; [auto|auto| |exact Hv]. intros id Hi. rewrite !native_in by auto. f_equal. apply Eq. apply (n2v_ok (m_nt m) (m_nr m) n id); auto.
      + eapply held_ext; [auto|auto| |exact Ha]. intros id Hi. rewrite !nativeo_in by auto. apply Eq. apply (n2v_ok (m_nt m) (m_nr m) n id); auto.
  Qed.
End Hist.
