(** Proofs about calls with vertex numbers that do not exist (C91). *)
From Verif Require Import Base BaseLemmas ListLemmas Layout LayoutProofs Vec GraphVert Graph Runtime GraphOps GraphHist Apps EdgeList FileIO Cmd CmdProofs CmdArgsProofs.

Section Sized.
  Context {V E byte : Type}.
  Notation gr := (graph V E byte).
  Variable m : machine V E byte.
  Variable n : Z.
  Notation sized := (sized m n).
  Lemma active_sized nr th (g g' : gr) : all_active nr th g = Ok g' -> sized g -> sized g'.
  Proof. unfold all_active. intros H S. inv. subst. exact S. Qed.
  Lemma inactive_sized nr th (g g' : gr) : all_inactive nr th g = Ok g' -> sized g -> sized g'.
  Proof. unfold all_inactive. intros H S. inv. subst. exact S. Qed.
  Lemma job_sized {S T U} neq th (jb : job S T U V E) fr tmp (g : gr) r : run_job neq m th jb fr tmp g = Ok r -> sized g -> sized (r_g (fst r)).
  Proof.
    unfold run_job, run_graph_program. intros H Sz. apply bind_ok in H as (xy & _ & H). apply bind_ok in H as (g1 & E1 & H).
    assert (sized g1) as S1 by (destruct (pr_all_vertices (j_pg jb)); [eapply active_sized; eauto|congruence]). clear Sz.
    change g1 with (r_g (mkR (j_s jb) g1 (fst xy) (snd xy) (map (fun _ => []) (zrange 0 (m_nr m))))) in S1. revert H S1.
    generalize (mkR (j_s jb) g1 (fst xy) (snd xy) (map (fun _ => []) (zrange 0 (m_nr m)))) as q. generalize 0 as it. induction (j_fuel jb) as [|f IH]; intros it q H Sq; cbn [run_loop] in H; [discriminate|].
    apply bind_ok in H as (r1 & Es & H).
    assert (sized (r_g (fst r1))) as Hn1.
    { unfold superstep in Es. apply bind_ok in Es as (x & _ & Es). apply bind_ok in Es as (y & _ & Es). apply bind_ok in Es as (xe & _ & Es). apply bind_ok in Es as (p & _ & Es). cbv zeta in Es.
      apply bind_ok in Es as (g2 & E2 & Es). apply inactive_sized in E2; [|exact Sq]. apply bind_ok in Es as ([[[vp act] cv] ae] & _ & Es). apply bind_ok in Es as (g3 & E3 & Es). injection Es as <-. cbn [fst r_g].
      destruct (pr_all_vertices (j_pg jb)); [apply active_sized in E3; [exact E3|exact E2]|]. injection E3 as <-. exact E2. }
    destruct (it + 1 =? j_iterations jb); [inv; subst; exact Hn1|]. destruct (_ && _); [inv; subst; exact Hn1|]. eapply IH; eauto.
  Qed.
  Lemma any_call_sized neq th c (g g' : gr) : run_call neq m th c g = Ok g' -> sized g -> sized g'.
  Proof.
    intros H S. destruct c; try (eapply (call_sized m n); [|exact H|exact S]; discriminate). cbn [run_call] in H. apply bind_ok in H as (r & E1 & H). injection H as <-. eapply job_sized; eauto.
  Qed.
  Lemma calls_sized neq h : forall (g g' : gr), run_calls neq m h g = Ok g' -> sized g -> sized g'.
  Proof.
    unfold run_calls. induction h as [|c h IH]; intros g g' H S; cbn [foldR] in H; [congruence|]. apply bind_ok in H as (g1 & E1 & H). eapply IH; [exact H|]. eapply any_call_sized; eauto.
  Qed.

  Section Same.
    Variables v w : Z.
    Hypothesis Same : vertexToNative (m_nt m) (m_nr m) n v = vertexToNative (m_nt m) (m_nr m) n w.
    Lemma inactive_same neq th (g : gr) : sized g -> run_call neq m th (CInactive v) g = run_call neq m th (CInactive w) g.
    Proof. intros [A B]. cbn [run_call]. unfold g_act_all, run_aop. rewrite A, B, Same. reflexivity. Qed.
    Lemma read_same (g : gr) r d : sized g -> read_property m g r v d = read_property m g r w d.
    Proof. intros [A B]. unfold read_property, g_getVertexproperty. rewrite A, B, Same. reflexivity. Qed.
    Lemma owns_same (g : gr) r : sized g -> owns m g r v = owns m g r w.
    Proof. intros [A B]. unfold owns, g_vertexNodeOwner. rewrite A, B, Same. reflexivity. Qed.
  End Same.
  Hypothesis (Hm : machine_ok m) (Hn : 0 <= n).
  Section Out.
    Variables v w : Z.
    Hypothesis (Ev : vertexToNative (m_nt m) (m_nr m) n v = Ok w) (Hw : ~ 1 <= w <= n).
    Notation part := (part_out m n Hm Hn w Hw).
    Lemma active_out neq th (g : gr) : sized g -> exists e, run_call neq m th (CActive v) g = Err e.
    Proof.
      intros [A B]. cbn [run_call]. unfold g_act_all. match goal with |- context [on_ranks ?a ?f ?x] => destruct (ranks_fail m Hm f x) as (e & ->) end; [|exists e; reflexivity].
      intros segs. unfold run_aop. rewrite A, B, Ev. cbn [bind]. unfold vec_set, at_owner. rewrite part. exists AssertFail. reflexivity.
    Qed.
    Lemma inactive_out neq th (g : gr) : sized g -> exists e, run_call neq m th (CInactive v) g = Err e.
    Proof.
      intros [A B]. cbn [run_call]. unfold g_act_all. match goal with |- context [on_ranks ?a ?f ?x] => destruct (ranks_fail m Hm f x) as (e & ->) end; [|exists e; reflexivity].
      intros segs. unfold run_aop. rewrite A, B, Ev. cbn [bind]. unfold vec_unset, at_owner. rewrite part. exists AssertFail. reflexivity.
    Qed.
    Lemma read_out (g : gr) r d : sized g -> exists e, read_property m g r v d = Err e.
    Proof.
      intros [A B]. unfold read_property, g_getVertexproperty. destruct (rd (g_vp g) r) as [s|e]; [|exists e; reflexivity]. cbn [bind]. rewrite A, B, Ev. cbn [bind]. unfold vec_get. rewrite part. exists AssertFail. reflexivity.
    Qed.
    Lemma owns_out (g : gr) r : sized g -> exists e, owns m g r v = Err e.
    Proof. intros [A B]. unfold owns, g_vertexNodeOwner. rewrite A, B, Ev. cbn [bind]. unfold vec_node_owner. rewrite part. exists AssertFail. reflexivity. Qed.
  End Out.
End Sized.
