(** The order of combination is that of the matrices, whatever program runs *)
From Verif Require Import BaseLemmas Layout LayoutProofs Reduce ReduceProofs Segment SegmentProofs SegHistory Vec VecProofs DCSC MatSpec SpMat SpMatProofs GraphVert Graph GraphProofs Runtime RunSpec RuntimeProofs GraphOps GraphHist GraphHistProofs Tree TreeProofs OrderSpec OrderHist.

Section Ord.
  Context {V E byte : Type}.
  Variable neq : V -> V -> bool.
  Variable m : machine V E byte.
  Hypothesis Hm : machine_ok m.
  Variable n : Z.
  Hypothesis Hn : 0 <= n.
  Notation gr := (graph V E byte).
  Notation nr := (m_nr m).
  Notation nt := (m_nt m).
  Let Hr : 1 <= nr. Proof. apply Hm. Qed.
  Let Hnt : 1 <= nt. Proof. apply Hm. Qed.
  Let DEv : forall l, m_decv m (m_encv m l) (zlen l) = Ok l. Proof. apply Hm. Qed.

  Definition gorder (g : gr) : order E := matrix_order n nr nt (g_A g) (g_AT g).
  Lemma gorder_of (g : gr) q : is m n g q -> order_of n (gs_es q) (gorder g).
  Proof. intros (Hin & He & _). apply matrix_order_of; auto. Qed.
  Lemma gorder_same (g g' : gr) : same_edges g g' -> gorder g' = gorder g.
  Proof. intros [A B]. unfold gorder. rewrite A, B. reflexivity. Qed.

  Lemma run_op_fixed {S T U} th (jb : job S T U V E) (fr : frame T U byte) tmp C (g : gr) q : threads_ok m (m_serv m) th -> frame_ok m th fr -> is m n g q ->
    match tmp with None => C = (fun _ => j_dt jb) | Some xy => trep (f_sert fr) (f_seru fr) n nr nt (fst xy) (snd xy) C end ->
    (exists K r, job_takes_in neq n (gorder g) jb C q K /\ run_job neq m th jb fr tmp g = Ok (r, Z.of_nat K) /\
       r_s r = v_s (job_after_in neq (gorder g) jb C q K) /\
       is m n (r_g r) (mkGS (gs_es q) (v_P (job_after_in neq (gorder g) jb C q K)) (v_A (job_after_in neq (gorder g) jb C q K))) /\
       trep (f_sert fr) (f_seru fr) n nr nt (r_x r) (r_y r) (v_C (job_after_in neq (gorder g) jb C q K)) /\ same_edges g (r_g r)) \/
    (job_endless_in neq n (gorder g) jb C q /\ run_job neq m th jb fr tmp g = Err NoFuel).
  Proof.
    intros Ht (Ft & Fu & Dt & Du) (Hin & Hg) Htmp. unfold run_job. set (q0 := start jb C q). set (ord := gorder g).
    assert (forall Y k, (forall i, (i < k)%nat -> Y i = reduced_in (j_pg jb) (j_dv jb) ord (after_with (j_pg jb) neq Y i q0)) -> after_with (j_pg jb) neq Y k q0 = after_in (j_pg jb) neq (j_dv jb) ord k q0) as Af.
    { intros Y. induction k as [|k IH]; intros H; auto. cbn [after_with after_in]. rewrite <- IH by (intros; apply H; lia). rewrite (H k) by lia. reflexivity. }
    assert (forall Y K, (forall i, (i < K)%nat -> Y i = reduced_in (j_pg jb) (j_dv jb) ord (after_with (j_pg jb) neq Y i q0)) ->
      forall k, (1 <= k <= K)%nat -> ends_with n (j_pg jb) neq Y (j_iterations jb) q0 k <-> ends_in n (j_pg jb) neq (j_dv jb) ord (j_iterations jb) q0 k) as En.
    { intros Y K H k Hk. unfold ends_with, ends_in. rewrite (H (k - 1)%nat) by lia. rewrite (Af Y (k - 1)%nat) by (intros; apply H; lia). reflexivity. }
    destruct (run_with (f_sert fr) (m_serv m) (f_seru fr) (f_enct fr) (f_dect fr) (m_encv m) (m_decv m) (f_encu fr) (f_decu fr) Dt DEv Du n nr nt th Hn Hr Hnt Ft Ht Fu
      (f_tjunk fr) (f_ujunk fr) (f_tfresh fr) (f_ufresh fr) (j_dt jb) (f_du fr) (j_dv jb) neq (j_pg jb) (gs_es q) Hin (fun q1 Y => Y = reduced_in (j_pg jb) (j_dv jb) ord q1)
      (j_fuel jb) (j_s jb) g (gs_P q) (gs_A q) (j_iterations jb) tmp C) as (Y & [(K & r & B & HA & He & Hl & Er & Rr & Sr & _)|(HA & He & Er)]); auto.
    - intros q1 Y _ HY. eexists. split; [|reflexivity]. intros v Bv. symmetry. apply HY; auto.
    - left. exists K, r. split; [split; [auto|split]|].
      + apply (En Y K HA); auto; lia.
      + intros k Hk X. apply (Hl k Hk). apply (En Y K HA); auto; lia.
      + split; [exact Er|]. change (rep (f_sert fr) (m_serv m) (f_seru fr) n nr nt (gs_es q) (after_with (j_pg jb) neq Y K q0) r) in Rr. rewrite (Af Y K HA) in Rr.
        destruct Rr as (R1 & R2 & R3). split; [exact R1|]. split; [split; [exact Hin|exact R2]|]. split; [exact R3|exact Sr].
    - right. split; [|exact Er]. intros k Hk X. apply (He k Hk). apply (En Y (j_fuel jb) HA); auto.
  Qed.

  Ltac same := let H := fresh in intros H; repeat (apply bind_Ok in H as (? & ? & H)); injection H as <-; split; reflexivity.
  Lemma vp_same th o (g g' : gr) : g_vp_all nr th o g = Ok g' -> same_edges g g'.
  Proof. unfold g_vp_all. same. Qed.
  Lemma act_same th o (g g' : gr) : g_act_all nr th o g = Ok g' -> same_edges g g'.
  Proof. unfold g_act_all. same. Qed.
  Lemma apply_same th f (g g' : gr) : g_applyToAllVertices nr th f g = Ok g' -> same_edges g g'.
  Proof. unfold g_applyToAllVertices. same. Qed.
  Lemma reduce_same {W} th (mp : V -> V * W) op init (g g' : gr) w : g_applyReduceAllVertices nr th mp op init g = Ok (g', w) -> same_edges g g'.
  Proof. unfold g_applyReduceAllVertices. intros H. repeat (apply bind_Ok in H as (? & ? & H)). injection H as <- _. split; reflexivity. Qed.

  Lemma call_fixed th c (g : gr) q : call_fits n m th c -> match c with CEdges _ => False | _ => True end -> is m n g q ->
    exists o, call_in neq n (gorder g) c q o /\ match o with Some q' => exists g', run_call neq m th c g = Ok g' /\ is m n g' q' /\ same_edges g g' | None => run_call neq m th c g = Err NoFuel end.
  Proof.
    intros Hc Hk Hg.
    assert (forall o, spec_call neq n c q (Some o) -> (exists g', run_call neq m th c g = Ok g' /\ is m n g' o) -> (forall g', run_call neq m th c g = Ok g' -> same_edges g g') ->
      match c with CRun _ _ => False | _ => True end ->
      exists o, call_in neq n (gorder g) c q o /\ match o with Some q' => exists g', run_call neq m th c g = Ok g' /\ is m n g' q' /\ same_edges g g' | None => run_call neq m th c g = Err NoFuel end) as G.
    { intros o S1 (g' & E1 & I1) Sm Nr. exists (Some o). split; [destruct c; auto; contradiction|]. exists g'. auto. }
    assert (match c with CRun _ _ => False | _ => True end -> (forall g', run_call neq m th c g = Ok g' -> same_edges g g') ->
      exists o, call_in neq n (gorder g) c q o /\ match o with Some q' => exists g', run_call neq m th c g = Ok g' /\ is m n g' q' /\ same_edges g g' | None => run_call neq m th c g = Err NoFuel end) as G'.
    { intros Nr Sm. destruct (call_any neq m Hm n Hn th c g q Hc Hg) as ([o|] & S1 & R1); [apply (G o); auto; destruct c; auto; contradiction|]. exfalso. destruct c; try contradiction; discriminate. }
    destruct c as [v a|a|a|v|v| | |f|W mp op init|f|S T U jb fr]; try contradiction; try (apply G'; [exact I|]; cbn [run_call]; intros g').
    - apply vp_same.
    - apply vp_same.
    - unfold g_reset. intros H. apply bind_Ok in H as (g1 & H1 & H2). apply act_same in H1 as [A1 A2]. apply vp_same in H2 as [B1 B2]. split; congruence.
    - apply act_same.
    - apply act_same.
    - apply act_same.
    - apply act_same.
    - apply apply_same.
    - intros H. apply bind_Ok in H as ([g1 w] & H1 & H2). injection H2 as <-. eapply reduce_same; eauto.
    - cbn [call_in run_call call_fits] in *. destruct Hc as [Ht Hf]. destruct (run_op_fixed th jb fr None (fun _ => j_dt jb) g q Ht Hf Hg eq_refl) as [(K & r & Tk & Er & _ & Hg' & _ & Sm)|[En Er]].
      + eexists. split; [left; exists K; split; [exact Tk|reflexivity]|]. cbv beta iota. exists (r_g r). rewrite Er. auto.
      + exists None. split; [right; auto|]. rewrite Er. reflexivity.
  Qed.
  Lemma calls_fixed h : forall (g : gr) q, calls_fit n m h -> keeps_edges h -> is m n g q ->
    exists o, calls_in neq n (gorder g) h q o /\ match o with Some q' => exists g', run_calls neq m h g = Ok g' /\ is m n g' q' /\ same_edges g g' | None => run_calls neq m h g = Err NoFuel end.
  Proof.
    induction h as [|[th c] h IH]; intros g q Hok Hk Hg; cbn [calls_in run_calls].
    - exists (Some q). split; auto. exists g. split; auto. split; auto. split; reflexivity.
    - inversion Hok as [|? ? H1 H2]; subst. inversion Hk as [|? ? K1 K2]; subst. cbn [fst snd] in *. destruct (call_fixed th c g q H1 K1 Hg) as ([q1|] & S1 & R1).
      + destruct R1 as (g1 & E1 & Hg1 & Sm). rewrite E1. cbn [bind]. destruct (IH g1 q1 H2 K2 Hg1) as (o & S2 & R2). rewrite (gorder_same g g1 Sm) in S2. exists o. split; [exists (Some q1); auto|].
        destruct o as [q'|]; [|exact R2]. destruct R2 as (g' & E2 & I2 & Sm'). exists g'. split; auto. split; auto. destruct Sm, Sm'. split; congruence.
      + exists None. rewrite R1. split; [|reflexivity]. exists None. auto.
  Qed.
End Ord.

(** a given order leaves one meaning *)
Section One.
  Context {V E byte : Type}.
  Variable neq : V -> V -> bool.
  Variable n : Z.
  Variable ord : order E.
  Lemma takes_one {S T U} (jb : job S T U V E) C q K K' : job_takes_in neq n ord jb C q K -> job_takes_in neq n ord jb C q K' -> K = K'.
  Proof.
    intros (B & A1 & A2) (B' & A1' & A2'). destruct (Nat.lt_trichotomy K K') as [L|[L|L]]; auto; exfalso; [apply (A2' K)|apply (A2 K')]; auto; lia.
  Qed.
  Lemma call_in_one (c c' : gcall V E byte) q o o' : same_call c c' -> call_in neq n ord c q o -> call_in neq n ord c' q o' -> o = o'.
  Proof.
    intros Sc. assert (forall S T U (jb : job S T U V E) fr fr', call_in neq n ord (CRun (byte:=byte) jb fr) q o -> call_in neq n ord (CRun (byte:=byte) jb fr') q o' -> o = o') as G.
    { intros S T U jb fr fr' [(K & A & ->)|[A ->]] [(K' & A' & ->)|[A' ->]]; auto.
      - rewrite (takes_one jb _ q K K' A A'). reflexivity.
      - destruct A as (B & A1 & _). destruct (A' K B A1).
      - destruct A' as (B & A1 & _). destruct (A K' B A1). }
    destruct Sc as [c|S T U jb fr fr']; [|apply G]. destruct c; cbn [call_in spec_call]; try congruence. apply (G S T U jb fr fr).
  Qed.
  Lemma calls_in_one (h h' : list (Z * gcall V E byte)) : same_calls h h' -> forall q o o', calls_in neq n ord h q o -> calls_in neq n ord h' q o' -> o = o'.
  Proof.
    induction 1 as [|c c' h h' Hc Hh IH]; intros q o o'; cbn [calls_in]; [congruence|].
    intros (o1 & A1 & B1) (o2 & A2 & B2). assert (o1 = o2) as <- by (eapply call_in_one; eauto). destruct o1; [eauto|congruence].
  Qed.
End One.
