(** Proofs about the arguments of the programs (C90): vertices that do not exist. *)
From Verif Require Import Base BaseLemmas ListLemmas Layout LayoutProofs Vec GraphVert Graph Runtime GraphOps GraphHist Apps EdgeList FileIO Cmd CmdProofs.

(** ** vertexToNative for a vertex that does not exist *)
Section Native.
  Variables t nr n : Z.
  Hypothesis (Ht : 1 <= t) (Hnr : 1 <= nr) (Hn : 0 <= n).
  Let np := t * 16 * nr.
  Lemma np_pos : 1 <= np. Proof. unfold np. nia. Qed.
  Lemma native_1 : vertexToNative t nr n 1 = Ok 1.
  Proof.
    pose proof np_pos. unfold vertexToNative, npartitions. fold np. destruct (Z.eqb_spec np 0); [lia|]. cbv zeta. change (1 - 1) with 0. rewrite Z.rem_0_l, Z.quot_0_l by lia. destruct (_ <=? _); reflexivity.
  Qed.
  Lemma native_before v : n < np -> - np < v - 1 < 0 -> vertexToNative t nr n v = Ok 1.
  Proof.
    pose proof np_pos. intros Hs Hv. unfold vertexToNative, npartitions. fold np. destruct (Z.eqb_spec np 0); [lia|]. cbv zeta. rewrite (Z.quot_small n np) by lia.
    destruct (Z.leb_spec (0 * np) (v - 1)); [lia|]. assert (Z.quot (v - 1) np = 0) as ->; [|f_equal; lia].
    apply Z.quot_small_iff; lia.
  Qed.
  Lemma native_out v : ~ 1 <= v <= n -> ~ (n < np /\ - np < v - 1 < 0) -> exists w, vertexToNative t nr n v = Ok w /\ ~ 1 <= w <= n.
  Proof.
    pose proof np_pos. intros Hv Hs. unfold vertexToNative, npartitions. fold np. destruct (Z.eqb_spec np 0); [lia|]. cbv zeta.
    assert (0 <= Z.quot n np) as Hh by (apply Z.quot_pos; lia). pose proof (Z.mul_quot_le n np Hn ltac:(lia)) as Hq.
    rewrite Z.mul_comm in Hq. destruct (Z.leb_spec (Z.quot n np * np) (v - 1)); [eexists; split; [reflexivity|]; lia|]. eexists. split; [reflexivity|].
    assert (v - 1 < 0) as Hneg by lia.
    pose proof (Z.quot_rem' (v - 1) np) as D. pose proof (Z.rem_nonpos (v - 1) np ltac:(lia) ltac:(lia)) as Hr.
    pose proof (Z.rem_bound_abs (v - 1) np ltac:(lia)) as Hb.
    assert (Z.quot (v - 1) np <= 0) as Hc by (destruct (Z.lt_ge_cases 0 (Z.quot (v - 1) np)); [nia|lia]).
    destruct (Z.lt_ge_cases n np) as [L|L].
    - assert (Z.quot n np = 0) as -> by (apply Z.quot_small; lia). assert (Z.quot (v - 1) np < 0) by (destruct (Z.eq_dec (Z.quot (v - 1) np) 0) as [e|]; [rewrite e in D; lia|lia]). lia.
    - assert (1 <= Z.quot n np) by (apply Z.quot_le_lower_bound; lia). destruct (Z.eq_dec (Z.rem (v - 1) np) 0) as [e|]; [rewrite e in *; assert (Z.quot (v - 1) np < 0) by nia; lia|]. nia.
  Qed.
End Native.

(** ** the calls *)
Section Calls.
  Context {V E byte : Type}.
  Notation gr := (graph V E byte).
  Variable m : machine V E byte.
  Definition sized (n : Z) (g : gr) : Prop := g_n g = n /\ g_nt g = m_nt m.
  Lemma call_sized n neq th c (g g' : gr) : (forall S T U (jb : job S T U V E) fr, c <> CRun jb fr) -> run_call neq m th c g = Ok g' -> sized n g -> sized n g'.
  Proof.
    intros N H [A B]. split; [rewrite (call_n m neq th c g g' N H); exact A|]. rewrite <- B. revert N H.
    destruct c; cbn [run_call]; unfold g_reset, g_vp_all, g_act_all, g_applyToAllVertices, g_applyReduceAllVertices, g_applyToAllEdges; intros N H; inv; subst; try reflexivity.
    exfalso. eapply N. reflexivity.
  Qed.
  Lemma modify_sized n th v d f (g g' : gr) : modify m th v d f g = Ok g' -> sized n g -> sized n g'.
  Proof. unfold modify. intros H S. inv. subst. exact S. Qed.
  Lemma forZ_sized n lo hi (f : Z -> gr -> R gr) (g g' : gr) : (forall i g g', f i g = Ok g' -> sized n g -> sized n g') -> forZ lo hi f g = Ok g' -> sized n g -> sized n g'.
  Proof.
    intros Hf. unfold forZ. generalize (Z.to_nat (hi - lo)) as k. intros k. revert lo g. induction k as [|k IH]; intros lo g H S; cbn [forN] in H; [congruence|].
    apply bind_ok in H as (g1 & E1 & H). apply (IH _ _ H). eapply Hf; eauto.
  Qed.
  Lemma load_sized dv n blobs (g : gr) : load m dv n blobs = Ok g -> sized n g.
  Proof. unfold load, g_ReadEdgelist. intros H. inv. subst. split; reflexivity. Qed.
  Lemma read_sized dv el els (g : gr) : read_elists m dv (el :: els) = Ok g -> sized (el_m el) g.
  Proof. unfold read_elists, g_ReadEdgelist. intros H. inv. subst. split; reflexivity. Qed.

  Variable n : Z.
  Hypothesis (Hm : machine_ok m) (Hn : 0 <= n).
  (** two vertices with the same number inside *)
  Section Same.
    Variables v w : Z.
    Hypothesis Same : vertexToNative (m_nt m) (m_nr m) n v = vertexToNative (m_nt m) (m_nr m) n w.
    Lemma modify_same th d f (g : gr) : sized n g -> modify m th v d f g = modify m th w d f g.
    Proof. intros [A B]. unfold modify, g_getVertexproperty, g_setVertexproperty. rewrite A, B, Same. reflexivity. Qed.
    Lemma active_same neq th (g : gr) : sized n g -> run_call neq m th (CActive v) g = run_call neq m th (CActive w) g.
    Proof. intros [A B]. cbn [run_call]. unfold g_act_all, run_aop. rewrite A, B, Same. reflexivity. Qed.
    Lemma set_same neq th a (g : gr) : sized n g -> run_call neq m th (CSet v a) g = run_call neq m th (CSet w a) g.
    Proof. intros [A B]. cbn [run_call]. unfold g_vp_all, run_gop, g_setVertexproperty. rewrite A, B, Same. reflexivity. Qed.
  End Same.
  (** a vertex with no number inside *)
  Lemma ranks_fail {A} (f : Z -> list A -> R (list A)) v : (forall segs, exists e, f 0 segs = Err e) -> exists e, on_ranks (m_nr m) f v = Err e.
  Proof.
    intros Hf. destruct Hm as (H1 & _). unfold on_ranks. rewrite zrange_cons by lia. cbn [mapR]. destruct (rd v 0) as [s|e]; [|exists e; reflexivity]. cbn [bind]. destruct (Hf s) as (e & ->). exists e. reflexivity.
  Qed.
  Section Out.
    Variables v w : Z.
    Hypothesis (Ev : vertexToNative (m_nt m) (m_nr m) n v = Ok w) (Hw : ~ 1 <= w <= n).
    Lemma part_out : vec_getPartition n (m_nr m) w = Ok (-1).
    Proof. apply vec_getPartition_out; [exact Hn|apply Hm|exact Hw]. Qed.
    Lemma modify_out th d f (g : gr) : sized n g -> exists e, modify m th v d f g = Err e.
    Proof.
      intros [A B]. unfold modify. match goal with |- context [on_ranks ?a ?f ?x] => destruct (ranks_fail f x) as (e & ->) end; [|exists e; reflexivity].
      intros segs. unfold g_getVertexproperty. rewrite A, B, Ev. cbn [bind]. unfold vec_get. rewrite part_out. exists AssertFail. reflexivity.
    Qed.
    Lemma set_out neq th a (g : gr) : sized n g -> exists e, run_call neq m th (CSet v a) g = Err e.
    Proof.
      intros [A B]. cbn [run_call]. unfold g_vp_all. match goal with |- context [on_ranks ?a ?f ?x] => destruct (ranks_fail f x) as (e & ->) end; [|exists e; reflexivity].
      intros segs. unfold run_gop, g_setVertexproperty. rewrite A, B, Ev. cbn [bind]. unfold vec_set, at_owner. rewrite part_out. exists AssertFail. reflexivity.
    Qed.
  End Out.
End Calls.

(** ** the programs with a source that does not exist *)
Lemma bfs_same {byte} (m : machine bfs_vertex Z byte) th fr dt dv fuel n blobs v w : vertexToNative (m_nt m) (m_nr m) n v = vertexToNative (m_nt m) (m_nr m) n w ->
  run_bfs m th fr dt dv fuel n blobs v = run_bfs m th fr dt dv fuel n blobs w.
Proof.
  intros Sm. unfold run_bfs. destruct (load m bfs_new n blobs) as [g|e] eqn:E1; [|reflexivity]. cbn [bind]. apply load_sized in E1.
  destruct (forZ 0 n _ g) as [g2|e] eqn:E2; [|reflexivity]. cbn [bind]. apply (forZ_sized m n) in E2; [|intros i ? ?; apply modify_sized|exact E1].
  destruct (program_init m th fr dt g2) as [tmp|e]; [|reflexivity]. cbn [bind]. destruct (run_call bfs_neq m th CAllInactive g2) as [g3|e] eqn:E3; [|reflexivity]. cbn [bind]. apply (call_sized m n) in E3; [|discriminate|exact E2].
  rewrite (modify_same m n v w Sm) by exact E3. destruct (modify m th w bfs_new _ g3) as [g4|e] eqn:E4; [|reflexivity]. cbn [bind]. apply (modify_sized m n) in E4; [|exact E3]. rewrite (active_same m n v w Sm) by exact E4. reflexivity.
Qed.
Lemma bfs_out {byte} (m : machine bfs_vertex Z byte) th fr dt dv fuel n blobs v w : machine_ok m -> 0 <= n -> vertexToNative (m_nt m) (m_nr m) n v = Ok w -> ~ 1 <= w <= n ->
  exists e, run_bfs m th fr dt dv fuel n blobs v = Err e.
Proof.
  intros Hm Hn Ev Hw. unfold run_bfs. destruct (load m bfs_new n blobs) as [g|e] eqn:E1; [|exists e; reflexivity]. cbn [bind]. apply load_sized in E1.
  destruct (forZ 0 n _ g) as [g2|e] eqn:E2; [|exists e; reflexivity]. cbn [bind]. apply (forZ_sized m n) in E2; [|intros i ? ?; apply modify_sized|exact E1].
  destruct (program_init m th fr dt g2) as [tmp|e]; [|exists e; reflexivity]. cbn [bind]. destruct (run_call bfs_neq m th CAllInactive g2) as [g3|e] eqn:E3; [|exists e; reflexivity]. cbn [bind]. apply (call_sized m n) in E3; [|discriminate|exact E2].
  destruct (modify_out m n Hm Hn v w Ev Hw th bfs_new (fun p => mkB 0 (b_parent p) (b_id p)) g3 E3) as (e & ->). exists e. reflexivity.
Qed.
Lemma sssp_same {byte} (m : machine Z Z byte) th fr dt dv fuel n blobs v w : vertexToNative (m_nt m) (m_nr m) n v = vertexToNative (m_nt m) (m_nr m) n w ->
  run_sssp m th fr dt dv fuel n blobs v = run_sssp m th fr dt dv fuel n blobs w.
Proof.
  intros Sm. unfold run_sssp. destruct (load m MAX_DIST n blobs) as [g|e] eqn:E1; [|reflexivity]. cbn [bind]. apply load_sized in E1.
  destruct (program_init m th fr dt g) as [tmp|e]; [|reflexivity]. cbn [bind]. destruct (run_call sssp_neq m th (CSetAll MAX_DIST) g) as [g2|e] eqn:E2; [|reflexivity]. cbn [bind]. apply (call_sized m n) in E2; [|discriminate|exact E1].
  destruct (run_call sssp_neq m th CAllInactive g2) as [g3|e] eqn:E3; [|reflexivity]. cbn [bind]. apply (call_sized m n) in E3; [|discriminate|exact E2].
  rewrite (set_same m n v w Sm) by exact E3. destruct (run_call sssp_neq m th (CSet w 0) g3) as [g4|e] eqn:E4; [|reflexivity]. cbn [bind]. apply (call_sized m n) in E4; [|discriminate|exact E3]. rewrite (active_same m n v w Sm) by exact E4. reflexivity.
Qed.
Lemma sssp_out {byte} (m : machine Z Z byte) th fr dt dv fuel n blobs v w : machine_ok m -> 0 <= n -> vertexToNative (m_nt m) (m_nr m) n v = Ok w -> ~ 1 <= w <= n ->
  exists e, run_sssp m th fr dt dv fuel n blobs v = Err e.
Proof.
  intros Hm Hn Ev Hw. unfold run_sssp. destruct (load m MAX_DIST n blobs) as [g|e] eqn:E1; [|exists e; reflexivity]. cbn [bind]. apply load_sized in E1.
  destruct (program_init m th fr dt g) as [tmp|e]; [|exists e; reflexivity]. cbn [bind]. destruct (run_call sssp_neq m th (CSetAll MAX_DIST) g) as [g2|e] eqn:E2; [|exists e; reflexivity]. cbn [bind]. apply (call_sized m n) in E2; [|discriminate|exact E1].
  destruct (run_call sssp_neq m th CAllInactive g2) as [g3|e] eqn:E3; [|exists e; reflexivity]. cbn [bind]. apply (call_sized m n) in E3; [|discriminate|exact E2].
  destruct (set_out m n Hm Hn v w Ev Hw sssp_neq th 0 g3 E3) as (e & ->). exists e. reflexivity.
Qed.
Lemma delta_same {byte} (m : machine ds_vertex Z byte) th fr dt dv fuel delta rounds n g g2 v w : vertexToNative (m_nt m) (m_nr m) n v = vertexToNative (m_nt m) (m_nr m) n w -> sized m n g ->
  delta_run m th fr dt dv fuel delta rounds v g g2 = delta_run m th fr dt dv fuel delta rounds w g g2.
Proof.
  intros Sm E1. unfold delta_run. cbv zeta. destruct (program_init m th fr dt g) as [tmp|e]; [|reflexivity]. cbn [bind].
  destruct (run_call ds_neq m th CAllInactive g) as [g3|e] eqn:E3; [|reflexivity]. cbn [bind]. apply (call_sized m n) in E3; [|discriminate|exact E1].
  rewrite (set_same m n v w Sm) by exact E3. destruct (run_call ds_neq m th (CSet w (mkD 0 0)) g3) as [g4|e] eqn:E4; [|reflexivity]. cbn [bind]. apply (call_sized m n) in E4; [|discriminate|exact E3]. rewrite (active_same m n v w Sm) by exact E4. reflexivity.
Qed.
Lemma delta_out {byte} (m : machine ds_vertex Z byte) th fr dt dv fuel delta rounds n g g2 v w : machine_ok m -> 0 <= n -> vertexToNative (m_nt m) (m_nr m) n v = Ok w -> ~ 1 <= w <= n -> sized m n g ->
  exists e, delta_run m th fr dt dv fuel delta rounds v g g2 = Err e.
Proof.
  intros Hm Hn Ev Hw E1. unfold delta_run. cbv zeta. destruct (program_init m th fr dt g) as [tmp|e]; [|exists e; reflexivity]. cbn [bind].
  destruct (run_call ds_neq m th CAllInactive g) as [g3|e] eqn:E3; [|exists e; reflexivity]. cbn [bind]. apply (call_sized m n) in E3; [|discriminate|exact E1].
  destruct (set_out m n Hm Hn v w Ev Hw ds_neq th (mkD 0 0) g3 E3) as (e & ->). exists e. reflexivity.
Qed.
