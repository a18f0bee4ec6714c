(** Vector operations performed by all ranks. *)
From Verif Require Import BaseLemmas Layout LayoutProofs Bits BitsProofs Segment SegmentProofs TransferProofs SegHistory SegHistoryProofs SegFinal Bucket BucketProofs Vec VecProofs VecProofs2 GraphVertProofs ListLemmas SpMSpV DistProofs GraphVert Graph Runtime RunSegProofs.

Lemma mapR_rd {A B} (f : A -> R B) l bs j b : mapR f l = Ok bs -> rd bs j = Ok b -> exists a, rd l j = Ok a /\ f a = Ok b.
Proof.
  intros H. apply mapR_Ok in H. revert j. induction H as [|a b' l bs' Hf F IH]; intros j Hj.
  - apply rd_bounds in Hj. unfold zlen in Hj. simpl in Hj. lia.
  - destruct (Z.eq_dec j 0) as [->|N]; [rewrite rd_cons0 in *; injection Hj as <-; eauto|]. pose proof (rd_bounds _ _ _ Hj). rewrite rd_consS in Hj by lia. rewrite rd_consS by lia. auto.
Qed.
Lemma mapR_zrange_rd {B} (f : Z -> R B) m bs j b : mapR f (zrange 0 m) = Ok bs -> rd bs j = Ok b -> 0 <= j < m /\ f j = Ok b.
Proof.
  intros H Hj. destruct (mapR_rd _ _ _ _ _ H Hj) as (a & Ha & Hf). pose proof (rd_bounds _ _ _ Ha) as Bj. destruct (Z_lt_dec 0 m); [|rewrite zrange_nil in Bj by lia; unfold zlen in Bj; simpl in Bj; lia].
  rewrite zlen_zrange in Bj by lia. rewrite rd_zrange in Ha by lia. injection Ha as <-. split; [lia|exact Hf].
Qed.

Lemma sameq_refl {T byte} (s : seg T byte) : sameq s s.
Proof. split; auto. Qed.
Lemma sameq_quiet {T byte} (s s' : seg T byte) : sameq s s' -> quiet s -> quiet s'.
Proof. intros [H1 H2] [Q1 Q2]. split; [auto|congruence]. Qed.

(** the value array stays in place *)
Definition samev {T byte} (s s' : seg T byte) : Prop := forall b, s_prop s = Some b -> exists b', s_prop s' = Some b' /\ b_value b' = b_value b.

Section HeldOps.
  Context {T byte : Type}.
  Notation sg := (seg T byte).
  Variable ser : bool.
  Variable thr : Z.
  Variables n ns nr : Z.
  Hypothesis Hn : 0 <= n.
  Hypothesis Hs : 1 <= ns.
  Hypothesis Hr : 1 <= nr.
  Notation held := (held (byte:=byte) ser thr n ns nr).

  Lemma each_owned_rel r f (segs segs' : list sg) (Rl : sg -> sg -> Prop) : (forall s, Rl s s) -> (forall j s s', f j s = Ok s' -> Rl s s') ->
    each_owned ns nr r f segs = Ok segs' -> forall j s', rd segs' j = Ok s' -> exists s, rd segs j = Ok s /\ Rl s s'.
  Proof.
    intros Rr Rf E j s' Ej. unfold each_owned in E. destruct (mapR_zrange_rd _ _ _ _ _ E Ej) as (Bj & Ef). apply bind_Ok in Ef as (s & Es & Ef). exists s. split; auto.
    apply bind_Ok in Ef as (o & _ & Ef). destruct (o =? r); [eauto|injection Ef as <-; auto].
  Qed.
  Lemma at_owner_rel r id f (segs segs' : list sg) (Rl : sg -> sg -> Prop) : (forall s, Rl s s) -> (forall j s s', f j s = Ok s' -> Rl s s') ->
    at_owner n ns nr r id f segs = Ok segs' -> forall j s', rd segs' j = Ok s' -> exists s, rd segs j = Ok s /\ Rl s s'.
  Proof.
    intros Rr Rf E j s' Ej. unfold at_owner in E. apply bind_Ok in E as (p & _ & E). apply bind_Ok in E as (u1 & _ & E). apply bind_Ok in E as (o & _ & E).
    destruct (o =? r); [|injection E as <-; eauto]. apply bind_Ok in E as (s0 & E0 & E). apply bind_Ok in E as (u2 & _ & E). apply bind_Ok in E as (st0 & _ & E). apply bind_Ok in E as (s1 & E1 & E).
    destruct (Z.eq_dec p j) as [<-|N].
    - rewrite (wr_same_rd _ _ _ _ E) in Ej. injection Ej as <-. eauto.
    - rewrite (wr_other_rd _ _ _ _ _ E N) in Ej. eauto.
  Qed.
  Lemma vop_sameq threads r o (segs segs' : list sg) : run_vop n ns nr threads r segs o = Ok segs' -> forall j s', rd segs' j = Ok s' -> exists s, rd segs j = Ok s /\ sameq s s'.
  Proof.
    destruct o as [id a|id|a| |a]; cbn [run_vop]; intros E.
    - eapply at_owner_rel; [apply sameq_refl| |exact E]. intros j s s' Es. apply (sameq_sop threads s (OSet j a) s' Es).
    - eapply at_owner_rel; [apply sameq_refl| |exact E]. intros j s s' Es. apply (sameq_sop threads s (OUnset j) s' Es).
    - eapply each_owned_rel; [apply sameq_refl| |exact E]. intros j s s' Es. apply (sameq_sop threads s (OSetAll a) s' Es).
    - eapply each_owned_rel; [apply sameq_refl| |exact E]. intros j s s' Es. apply (sameq_sop threads s OClear s' Es).
    - unfold vec_set_inactive in E. apply bind_Ok in E as (segs1 & E1 & E2). intros j s' Ej.
      edestruct (each_owned_rel r (fun _ s => seg_zero s) segs1 segs' sameq) as (s1 & Es1 & Q1); [apply sameq_refl| |exact E2|exact Ej|].
      { intros j0 s s2 Es. unfold seg_zero in Es. apply bind_Ok in Es as (b & _ & Es). injection Es as <-. apply sameq_set_prop. }
      edestruct (each_owned_rel r (fun _ s => seg_setAll threads (Some a) s) segs segs1 sameq) as (s & Es & Q); [apply sameq_refl| |exact E1|exact Es1|].
      { intros j0 s s2 Es. eapply sameq_setAll; eauto. }
      exists s. split; auto. eapply sameq_trans; eauto.
  Qed.

  Lemma held_row v M r (segs : list sg) : held v M -> rd v r = Ok segs -> rwf ser thr n ns segs /\ rholds n ns nr r segs M.
  Proof.
    intros [D F] Er. assert (forall j s, rd segs j = Ok s -> rd2 v r j = Ok s) as R2 by (intros; eapply rd2_ok; eauto).
    split; [split|].
    - destruct D as [_ D]. eapply D; eauto.
    - intros j s Es. destruct (F r j s (R2 j s Es)) as (W & C & _). auto.
    - intros j s Es O k. destruct (F r j s (R2 j s Es)) as (_ & _ & _ & A). rewrite O, Z.eqb_refl in A. apply A.
  Qed.

  Lemma held_vop threads (v : list (list sg)) M o : thok ser thr threads -> held v M -> sop_in_range n o ->
    exists v', on_ranks nr (fun r segs => run_vop n ns nr threads r segs o) v = Ok v' /\ held v' (spec_sop n M o) /\
      (match o with OSetAll _ | OSetInactive _ => True | OClear => False | _ => hlive nr v end -> hlive nr v').
  Proof.
    intros Ht Hv Ho. pose proof Hv as [D F]. pose proof D as [Dl Dr].
    destruct (mapR_seq_all (fun r => do segs <- rd v r ;; run_vop n ns nr threads r segs o) (fun r segs' => exists segs, rd v r = Ok segs /\ run_vop n ns nr threads r segs o = Ok segs' /\
        rwf ser thr n ns segs' /\ rholds n ns nr r segs' (spec_sop n M o) /\ (forall j s, rd segs j = Ok s -> ow nr j <> r -> rd segs' j = Ok s) /\
        (match o with OSetAll _ | OSetInactive _ => forall j s, rd segs' j = Ok s -> ow nr j = r -> live s
         | OSet _ _ | OUnset _ => forall j s s', rd segs j = Ok s -> rd segs' j = Ok s' -> live s -> live s' | OClear => True end)) nr) as (v' & E & L & I0); [lia| |].
    { intros r Br. destruct (rd_ok v r ltac:(lia)) as [segs Er]. rewrite Er. cbn [bind]. destruct (held_row v M r segs Hv Er) as [Wf Rh].
      destruct (vop_spec ser thr n ns nr Hn Hs Hr threads r segs M o Ht Wf Rh Ho) as (segs' & E1 & P1). exists segs'. split; auto. exists segs. split; auto. }
    exists v'. split; [exact E|]. split.
    - split.
      + split; auto. intros r segs' Er. destruct (I0 r segs' Er) as (_ & _ & _ & _ & W & _). apply W.
      + intros r j s' Ej. apply rd2_inv in Ej as (segs' & Er & Ej). destruct (I0 r segs' Er) as (Br & segs & Esg & Ev & Wf' & Rh' & Out & _).
        destruct (vop_sameq threads r o segs segs' Ev j s' Ej) as (s & Es & Sq). assert (rd2 v r j = Ok s) as E2 by (eapply rd2_ok; eauto).
        destruct (F r j s E2) as (W & C & Q & A). destruct Wf' as [Lw Ww]. destruct (Ww j s' Ej) as [W' C']. split; [auto|]. split; [auto|]. split; [eapply sameq_quiet; eauto|].
        destruct (Z.eqb_spec (ow nr j) r) as [O|O].
        * intros k. apply (Rh' j s' Ej O k).
        * pose proof (Out j s Es O) as E3. rewrite E3 in Ej. injection Ej as <-. exact A.
    - intros HL j s' Ej. apply rd2_inv in Ej as (segs' & Er & Ej). destruct (I0 _ segs' Er) as (Br & segs & Esg & Ev & Wf' & Rh' & Out & Lv).
      destruct o as [id a|id|a| |a]; try (apply (Lv j s' Ej eq_refl)).
      + destruct (vop_sameq threads _ _ segs segs' Ev j s' Ej) as (s & Es & _). apply (Lv j s s' Es Ej). apply (HL j s). eapply rd2_ok; eauto.
      + destruct (vop_sameq threads _ _ segs segs' Ev j s' Ej) as (s & Es & _). apply (Lv j s s' Es Ej). apply (HL j s). eapply rd2_ok; eauto.
      + destruct HL.
  Qed.

  Lemma on_ranks_rel f v v' (Rl : sg -> sg -> Prop) : on_ranks nr f v = Ok v' ->
    (forall r segs segs', f r segs = Ok segs' -> forall j s', rd segs' j = Ok s' -> exists s, rd segs j = Ok s /\ Rl s s') ->
    forall r j s', rd2 v' r j = Ok s' -> exists s, rd2 v r j = Ok s /\ Rl s s'.
  Proof.
    intros E H r j s' Ej. apply rd2_inv in Ej as (segs' & Er & Ej). unfold on_ranks in E. destruct (mapR_zrange_rd _ _ _ _ _ E Er) as (Br & Ef).
    apply bind_Ok in Ef as (segs & Esg & Ef). destruct (H r segs segs' Ef j s' Ej) as (s & Es & Q). exists s. split; auto. eapply rd2_ok; eauto.
  Qed.

  (** clearing keeps the value arrays *)
  Lemma held_clear threads (v : list (list sg)) M : thok ser thr threads -> held v M -> exists v', on_ranks nr (fun r segs => vec_clear ns nr r segs) v = Ok v' /\ held v' (fun _ => None) /\ forall C, hcells n ns nr v C -> hcells n ns nr v' C.
  Proof.
    intros Ht Hv. destruct (held_vop threads v M OClear Ht Hv I) as (v' & E & H & _).
    exists v'. cbn [run_vop] in E. split; [exact E|]. split; [exact H|].
    intros C HC j s' Ej. destruct (on_ranks_rel _ _ _ samev E) with (r := ow nr j) (j := j) (s' := s') as (s & Es & Sv); auto.
    { intros r segs segs' Ev. eapply each_owned_rel; [| |exact Ev]. { intros s b Eb. eauto. }
      intros j0 s s2 Es. injection Es as <-. intros b Eb. unfold seg_set_uninitialized, seg_set_uninitialized_received. cbn [set_lists s_prop]. rewrite Eb. eexists. split; [reflexivity|]. reflexivity. }
    destruct (HC j s Es) as (b & Eb & Hb). destruct (Sv b Eb) as (b' & Eb' & Vb). exists b'. split; auto. rewrite Vb. auto.
  Qed.

  Lemma hcells_of (v : list (list sg)) M C : held v M -> hlive nr v -> (forall id, 1 <= id <= n -> M id = Some (C id)) -> hcells n ns nr v C.
  Proof.
    intros [D F] L H j s Ej. pose proof (dims_bounds _ _ _ _ _ _ D Ej) as [_ Bj]. destruct (F _ j s Ej) as (W & Cs & _ & A). rewrite Z.eqb_refl in A.
    destruct (live_cells _ _ _ _ W (L j s Ej) A) as (b & w & Eb & _ & _ & Hd). exists b. split; auto. intros k Hk.
    apply (Hd k). unfold restr. destruct (Z.leb_spec 1 (k + 1)); [|lia]. destruct (Z.leb_spec (k + 1) (cap n ns j)); [|lia]. cbn [andb].
    rewrite Z.add_assoc. apply H.
    unfold VecProofs.cap in *. pose proof (st_bounds n ns Hn Hs j ltac:(lia)). pose proof (st_bounds n ns Hn Hs (j+1) ltac:(lia)). lia.
  Qed.

  (** new vectors: nothing in them, and then one value everywhere *)
  Lemma held_new threads junk fresh (a : T) : thok ser thr threads ->
    exists v : list (list sg), mapR (fun r => do segs <- vec_new n ns junk fresh ;; vec_setAll ns nr threads r (Some a) segs) (zrange 0 nr) = Ok v /\
      held v (fun id => if (1 <=? id) && (id <=? n) then Some a else None) /\ hlive nr v.
  Proof.
    intros Ht. destruct (rwf_new (T:=T) (byte:=byte) ser thr n ns nr Hn Hs junk fresh) as (segs & E & [Wl Wf] & I0).
    assert (held (repeat segs (Z.to_nat nr)) (fun _ => None)) as H0.
    { split.
      - split; [rewrite zlen_repeat; lia|]. intros r row Er. pose proof (rd_bounds _ _ _ Er) as Br. rewrite zlen_repeat in Br. rewrite rd_repeat in Er by lia. injection Er as <-. auto.
      - intros r j s Ej. apply rd2_inv in Ej as (row & Er & Ej). pose proof (rd_bounds _ _ _ Er) as Br. rewrite zlen_repeat in Br. rewrite rd_repeat in Er by lia. injection Er as <-.
        destruct (Wf j s Ej) as [W C]. pose proof (rd_bounds _ _ _ Ej). rewrite I0 in Ej by lia. injection Ej as <-.
        split; [auto|]. split; [auto|]. split; [split; reflexivity|]. apply (segM_ext _ (fun _ => None)); [|intros k; reflexivity]. intros k. destruct (ow nr j =? r); auto. unfold restr. destruct (_ && _); auto. }
    destruct (held_vop threads (repeat segs (Z.to_nat nr)) (fun _ => None) (OSetAll a) Ht H0 I) as (v & Ev & Hv & Lv). exists v. split; [|auto].
    rewrite <- Ev. unfold on_ranks. apply mapR_ext. intros r Hr0. apply in_zrange in Hr0. rewrite E. cbn [bind]. rewrite rd_repeat by lia. reflexivity.
  Qed.
End HeldOps.
