(** Proofs for C94: the descent and the rounds do not depend on the order of the edges; the number of edges stays *)
From Coq Require Import QArith Qcanon Permutation.
From Verif Require Import Base BaseLemmas ListLemmas Layout LayoutProofs Segment SegmentProofs BucketProofs Vec VecProofs DCSC MatSpec SpMat GraphVert GraphVertProofs Graph Runtime GraphOps GraphHist Apps RankSpec Sgd SgdSpec SgdProofs Lda LdaSpec Cmd CmdSpec CmdProofs SgdCmd PropsMat GraphProofs.

Lemma filter_perm' {A} (p : A -> bool) a b : Permutation a b -> Permutation (filter p a) (filter p b).
Proof. induction 1; cbn; try destruct (p x); try destruct (p y); eauto using Permutation. Qed.
Section Order.
  Variables (K : nat) (a b : list (edge Z)).
  Hypothesis Hab : Permutation a b.
  Lemma sum_perm (p : edge Z -> bool) f g : (forall e, f e = g e) -> qsum (map f (filter p a)) = qsum (map g (filter p b)).
  Proof. intros H. rewrite (qsum_perm _ _ (Permutation_map f (filter_perm' p _ _ Hab))). apply qsum_ext. auto. Qed.
  Lemma sum_perm_all f g : (forall e, f e = g e) -> qsum (map f a) = qsum (map g b).
  Proof. intros H. rewrite (qsum_perm _ _ (Permutation_map f Hab)). apply qsum_ext. auto. Qed.
  Lemma touched_perm v : touched a v = touched b v.
  Proof. unfold touched. apply eq_true_iff_eq. rewrite !existsb_exists. split; intros (e & I & H); exists e; (split; [|exact H]); [eapply Permutation_in; eauto|eapply Permutation_in; [apply Permutation_sym|]; eauto]. Qed.
  Lemma qover_ext f g : (forall i, f i = g i) -> qover K f = qover K g.
  Proof. intros H. apply qsum_ext. auto. Qed.
  Lemma miss_ext x y e : (forall v i, x v i = y v i) -> miss K x e = miss K y e.
  Proof. intros H. unfold miss. rewrite (qover_ext (fun i => x (e_src e) i * x (e_dst e) i)%Qc (fun i => y (e_src e) i * y (e_dst e) i)%Qc); [reflexivity|]. intros i. rewrite !H. reflexivity. Qed.
  Lemma error_perm x y : (forall v i, x v i = y v i) -> squared_error K a x = squared_error K b y.
  Proof. intros H. apply sum_perm_all. intros e. rewrite (miss_ext x y e H). reflexivity. Qed.
  Lemma descent_perm lambda step k x y : (forall v i, x v i = y v i) -> forall v i, descent K a lambda step k x v i = descent K b lambda step k y v i.
  Proof.
    intros H. induction k as [|k IH]; [exact H|]. intros v i. cbn [descent]. unfold descend, downhill, pull. rewrite touched_perm, IH. f_equal. f_equal. destruct (touched b v); [|reflexivity]. f_equal.
    f_equal; apply sum_perm; intros e; rewrite (miss_ext _ _ e IH), IH; reflexivity.
  Qed.
  Lemma gather_perm f g x y v i : (forall v u w i, f v u w i = g v u w i) -> (forall v i, x v i = y v i) -> gather a f x v i = gather b g y v i.
  Proof. intros Hf H. unfold gather. rewrite touched_perm, H. destruct (touched b v); [|reflexivity]. f_equal; apply sum_perm; intros e; apply Hf. Qed.
  Lemma portion_ext f g w i : (forall i, f i = g i) -> portion K f w i = portion K g w i.
  Proof. intros H. unfold portion. rewrite (qover_ext f g H), H. reflexivity. Qed.
  Lemma smoothed_ext ndoc n eta x y i : (forall v i, x v i = y v i) -> smoothed ndoc n eta x i = smoothed ndoc n eta y i.
  Proof. intros H. unfold smoothed, topic_total. f_equal. apply qsum_ext. intros v _. apply H. Qed.
  Lemma rounds_perm ndoc n alpha eta k x y : (forall v i, x v i = y v i) -> forall v i, rounds K ndoc n a alpha eta k x v i = rounds K ndoc n b alpha eta k y v i.
  Proof.
    intros H. induction k as [|k IH]; [exact H|]. intros v i. cbn [rounds]. unfold round. apply gather_perm; [|exact IH]. intros v' u w j. apply portion_ext. intros i'. unfold belief. rewrite !IH. rewrite (smoothed_ext ndoc n eta _ _ i' IH). reflexivity.
  Qed.
  Lemma loglik_perm ndoc n eta log x y : (forall v i, x v i = y v i) -> loglik K ndoc n a eta log x = loglik K ndoc n b eta log y.
  Proof.
    intros H. apply sum_perm_all. intros e. f_equal. f_equal. unfold chance. apply qover_ext. intros i. rewrite !H, (smoothed_ext ndoc n eta _ _ i H). rewrite (qover_ext (fun j => x (e_src e) j + (eta - 1))%Qc (fun j => y (e_src e) j + (eta - 1))%Qc); [reflexivity|]. intros j. rewrite H. reflexivity.
  Qed.
End Order.

(** the number of edges of a graph does not change *)
Section Count.
  Context {V E byte : Type}.
  Notation gr := (graph V E byte).
  Variable m : machine V E byte.
  Lemma call_nnz neq th c (g g' : gr) : (forall S T U (jb : job S T U V E) fr, c <> CRun jb fr) -> run_call neq m th c g = Ok g' -> g_nnz g' = g_nnz g.
  Proof.
    destruct c; cbn [run_call]; unfold g_reset, g_vp_all, g_act_all, g_applyToAllVertices, g_applyReduceAllVertices, g_applyToAllEdges; intros N H; inv; subst; try reflexivity.
    exfalso. eapply N. reflexivity.
  Qed.
  Lemma active_nnz nr th (g g' : gr) : all_active nr th g = Ok g' -> g_nnz g' = g_nnz g.
  Proof. unfold all_active. intros H. inv. subst. reflexivity. Qed.
  Lemma inactive_nnz nr th (g g' : gr) : all_inactive nr th g = Ok g' -> g_nnz g' = g_nnz g.
  Proof. unfold all_inactive. intros H. inv. subst. reflexivity. Qed.
  Lemma job_nnz {S T U} neq th (jb : job S T U V E) fr tmp (g : gr) r : run_job neq m th jb fr tmp g = Ok r -> g_nnz (r_g (fst r)) = g_nnz g.
  Proof.
    unfold run_job, run_graph_program. intros H. apply bind_ok in H as (xy & _ & H). apply bind_ok in H as (g1 & E1 & H).
    assert (g_nnz g1 = g_nnz g) as <- by (destruct (pr_all_vertices (j_pg jb)); [eapply active_nnz; eauto|congruence]).
    change g1 with (r_g (mkR (j_s jb) g1 (fst xy) (snd xy) (map (fun _ => []) (zrange 0 (m_nr m))))). revert H.
    generalize (mkR (j_s jb) g1 (fst xy) (snd xy) (map (fun _ => []) (zrange 0 (m_nr m)))) as q. generalize 0 as it. induction (j_fuel jb) as [|f IH]; intros it q H; cbn [run_loop] in H; [discriminate|].
    apply bind_ok in H as (r1 & Es & H).
    assert (g_nnz (r_g (fst r1)) = g_nnz (r_g q)) as Hn1.
    { unfold superstep in Es. apply bind_ok in Es as (x & _ & Es). apply bind_ok in Es as (y & _ & Es). apply bind_ok in Es as (xe & _ & Es). apply bind_ok in Es as (p & _ & Es). cbv zeta in Es.
      apply bind_ok in Es as (g2 & E2 & Es). apply inactive_nnz in E2. cbn in E2. apply bind_ok in Es as ([[[vp act] cv] ae] & _ & Es). apply bind_ok in Es as (g3 & E3 & Es). injection Es as <-. cbn [fst r_g].
      destruct (pr_all_vertices (j_pg jb)); [apply active_nnz in E3; cbn in E3; congruence|]. injection E3 as <-. cbn. congruence. }
    rewrite <- Hn1. destruct (it + 1 =? j_iterations jb); [inv; subst; reflexivity|]. destruct (_ && _); [inv; subst; reflexivity|]. eapply IH; eauto.
  Qed.
  Lemma reduce_nnz {W} nr th mp op (init : Z -> W) (g g' : gr) l : g_applyReduceAllVertices nr th mp op init g = Ok (g', l) -> g_nnz g' = g_nnz g.
  Proof. unfold g_applyReduceAllVertices. intros H. inv. subst. reflexivity. Qed.
  Lemma forZ_nnz lo hi (f : Z -> gr -> R gr) (g g' : gr) : (forall i g g', f i g = Ok g' -> g_nnz g' = g_nnz g) -> forZ lo hi f g = Ok g' -> g_nnz g' = g_nnz g.
  Proof.
    intros Hf. unfold forZ. generalize (Z.to_nat (hi - lo)) as k. intros k. revert lo g. induction k as [|k IH]; intros lo g H; cbn [forN] in H; [congruence|].
    apply bind_ok in H as (g1 & E1 & H). rewrite (IH _ _ H). eapply Hf; eauto.
  Qed.
  Lemma load_nnz dv n blobs (g : gr) : setting m n blobs -> zlen (concat blobs) < 2 ^ 31 -> load m dv n blobs = Ok g -> forall r, 0 <= r < m_nr m -> rd (g_nnz g) r = Ok (zlen (concat blobs)).
  Proof.
    intros (Hm & Hn & Lb & Hin) Hl. destruct Hm as (H1 & H2 & S1 & S2 & _). unfold load, g_ReadEdgelist.
    assert (mapR (mapR (edge_to_native (m_nr m) (m_nt m) n)) blobs = Ok (map (map (ren (v2n (m_nt m) (m_nr m) n))) blobs)) as ->.
    { apply concat_mapR_map. intros e He. destruct (Hin e He) as [B1 B2]. unfold edge_to_native. rewrite (proj1 (v2n_ok (m_nt m) (m_nr m) n _ H2 H1 B1)). cbn [bind]. rewrite (proj1 (v2n_ok (m_nt m) (m_nr m) n _ H2 H1 B2)). reflexivity. }
    cbn [bind].
    destruct (C33_exact_mod_2_32 (m_srt m) (m_tsrt m) (m_nr m) (m_nt m) (m_junkA m) n n (m_nr m) (m_nr m) (map (map (ren (v2n (m_nt m) (m_nr m) n))) blobs)) as (a & bl & counts & -> & Ec & Lc & _ & Hc); auto.
    { rewrite zlen_map; auto. }
    { intros e He. rewrite <- concat_map in He. apply in_map_iff in He as (e' & <- & He). destruct (Hin e' He) as [B1 B2]. destruct (v2n_ok (m_nt m) (m_nr m) n _ H2 H1 B1). destruct (v2n_ok (m_nt m) (m_nr m) n _ H2 H1 B2). unfold in_rect, ren. simpl. lia. }
    cbn [bind fst snd]. intros H. apply bind_ok in H as (p & H & Hp). injection Hp as <-. apply bind_ok in H as (at_ & _ & H). apply bind_ok in H as (u & _ & H). rewrite Ec in H. cbn [bind] in H. apply bind_ok in H as (va & _ & H). injection H as <-. cbn [fst g_nnz].
    intros r Br. assert (zlen (concat (map (map (ren (v2n (m_nt m) (m_nr m) n))) blobs)) = zlen (concat blobs)) as Lz by (rewrite <- concat_map, zlen_map; reflexivity). rewrite Lz in Hc.
    destruct (nth_error counts (Z.to_nat r)) as [c|] eqn:Q; [|apply nth_error_None in Q; unfold zlen in Lc; lia]. unfold rd. destruct (Z.ltb_spec r 0); [lia|]. rewrite Q. f_equal. apply Hc; [lia|]. eapply nth_error_In; eauto.
  Qed.
End Count.

Lemma sgd_keeps {F byte} (re : reals F) K lambda step (m : machine (sg_vertex F) Z byte) th fr1 fr2 dt1 dt2 dv fresh init its n blobs g e1 e2 :
  run_sgd re K lambda step m th fr1 fr2 dt1 dt2 dv fresh init its n blobs = Ok (g, e1, e2) -> g_n g = n /\ exists g0, load m fresh n blobs = Ok g0 /\ g_nnz g = g_nnz g0.
Proof.
  unfold run_sgd. intros H. apply bind_ok in H as (g0 & E0 & H). apply bind_ok in H as (t1 & _ & H). apply bind_ok in H as (t2 & _ & H). apply bind_ok in H as (g1 & E1 & H). apply bind_ok in H as (g2 & E2 & H). apply bind_ok in H as (r1 & E3 & H). cbv zeta in H.
  apply bind_ok in H as ([g4 l4] & E4 & H). apply bind_ok in H as (g5 & E5 & H). apply bind_ok in H as (r2 & E6 & H). apply bind_ok in H as (g7 & E7 & H). apply bind_ok in H as (r3 & E8 & H). apply bind_ok in H as ([g9 l9] & E9 & H). injection H as <- <- <-. cbn [fst snd] in *. split.
  - apply reduce_n in E9. apply job_n in E8. apply call_n in E7; [|discriminate]. apply job_n in E6. apply call_n in E5; [|discriminate]. apply reduce_n in E4. apply job_n in E3. apply call_n in E2; [|discriminate].
    apply forZ_n in E1; [|intros i ? ?; apply call_n; discriminate]. apply load_n in E0. congruence.
  - exists g0. split; [exact E0|]. apply reduce_nnz in E9. apply job_nnz in E8. apply call_nnz in E7; [|discriminate]. apply job_nnz in E6. apply call_nnz in E5; [|discriminate]. apply reduce_nnz in E4. apply job_nnz in E3. apply call_nnz in E2; [|discriminate].
    apply forZ_nnz in E1; [|intros i ? ?; apply call_nnz; discriminate]. congruence.
Qed.
Lemma rd_const {A} (c : A) k r : 0 <= r < k -> rd (map (fun _ => c) (zrange 0 k)) r = Ok c.
Proof.
  intros B. unfold rd. destruct (Z.ltb_spec r 0); [lia|]. destruct (nth_error (map (fun _ => c) (zrange 0 k)) (Z.to_nat r)) as [x|] eqn:Q.
  - apply nth_error_In, in_map_iff in Q as (y & -> & _). reflexivity.
  - apply nth_error_None in Q. rewrite map_length in Q. pose proof (zlen_zrange 0 k ltac:(lia)) as L. unfold zlen in L. lia.
Qed.
Lemma mapR_exact {A B} (f : A -> R B) g l : (forall a, In a l -> f a = Ok (g a)) -> mapR f l = Ok (map g l).
Proof. intros H. induction l as [|a l IH]; [reflexivity|]. cbn [mapR map]. rewrite (H a) by (left; auto). rewrite IH by (intros; apply H; right; auto). reflexivity. Qed.

(** ** the lines of LDA about single vertices *)
Lemma lda_print_ok {F byte} (show2 : F -> list Z) (m : machine (ld_vertex F) Z byte) n g P (HP : shows_properties n m g P) d from k r :
  0 <= from -> (1 <= k -> from + Z.min 5 k <= n) -> 0 <= r < m_nr m ->
  lda_print show2 m d from k g r = Ok (concat (map (fun v => lda_line show2 v (P v)) (filter (fun v => owner_of m g v =? r) (map (fun i => i + from) (zrange 1 (Z.min 5 k + 1)))))).
Proof.
  intros Bf Bk Br. unfold lda_print.
  assert (forall l, (forall i, In i l -> 1 <= i + from <= n) -> mapR (fun i => do o <- owns m g r (i + from) ;; if o : bool then do a <- read_property m g r (i + from) d ;; do a <- need a ;; Ok (lda_line show2 (i + from) a) else Ok []) l
    = Ok (map (fun v => if owner_of m g v =? r then lda_line show2 v (P v) else []) (map (fun i => i + from) l))) as G.
  { induction l as [|v l IH]; intros Hl; [reflexivity|]. cbn [mapR map]. destruct (owner_is m n g P HP (v + from) (Hl v (or_introl eq_refl))) as (_ & Ho & Hr). rewrite Ho. cbn [bind]. rewrite IH by (intros; apply Hl; right; auto).
    destruct (owner_of m g (v + from) =? r) eqn:Q; [|reflexivity]. rewrite Hr by auto. rewrite Q. reflexivity. }
  rewrite G by (intros v Iv; apply in_zrange in Iv; lia). cbn [bind]. f_equal. generalize (map (fun i => i + from) (zrange 1 (Z.min 5 k + 1))).
  induction l as [|v l IH]; [reflexivity|]. cbn [map concat filter]. destruct (owner_of m g v =? r); cbn [map concat app]; rewrite IH; reflexivity.
Qed.
