(** Distributed vectors and matrix products. *)
From Coq Require Import Sorting.Sorted.
From Verif Require Import BaseLemmas Layout LayoutProofs Bits BitsProofs Segment SegmentProofs TransferProofs MergeProofs UnionProofs SegHistory SegHistoryProofs Reduce ReduceProofs SegFinal Bucket BucketProofs Vec VecProofs VecProofs2 GraphVertProofs ListLemmas DCSC DCSCProofs DCSCBuild Kernel KernelProofs MatSpec DCSCFinal TileProofs SpMat SpMatProofs SpMSpV.

(** ** ordered sets *)
Lemma set_insert_in x y l : In y (set_insert x l) <-> y = x \/ In y l.
Proof.
  induction l as [|z l IH]; simpl; [intuition|]. destruct (Z.ltb_spec x z); [simpl; intuition|]. destruct (Z.eqb_spec x z) as [E|]; [subst; simpl; intuition|].
  simpl. rewrite IH. intuition.
Qed.
Lemma set_insert_sorted x l : StronglySorted Z.lt l -> StronglySorted Z.lt (set_insert x l).
Proof.
  induction 1 as [|z l S IH F]; simpl; [repeat constructor|]. rewrite Forall_forall in F. destruct (Z.ltb_spec x z).
  - constructor; [constructor; auto; rewrite Forall_forall; auto|]. rewrite Forall_forall. intros y [<-|Hy]; auto. specialize (F y Hy). lia.
  - destruct (Z.eqb_spec x z) as [E|]; [constructor; auto; rewrite Forall_forall; auto|]. constructor; auto. rewrite Forall_forall. intros y Hy. apply set_insert_in in Hy as [->|Hy]; [lia|auto].
Qed.
Lemma set_of_in l y : In y (set_of l) <-> In y l.
Proof.
  unfold set_of. cut (forall s, In y (fold_left (fun s x => set_insert x s) l s) <-> In y s \/ In y l). { intros H. rewrite H. simpl. intuition. }
  induction l as [|x l IH]; intros s; simpl; [intuition|]. rewrite IH, set_insert_in. intuition.
Qed.
Lemma set_of_sorted l : StronglySorted Z.lt (set_of l).
Proof.
  unfold set_of. cut (forall s, StronglySorted Z.lt s -> StronglySorted Z.lt (fold_left (fun s x => set_insert x s) l s)). { intros H. apply H. constructor. }
  induction l as [|x l IH]; intros s Hs; simpl; auto. apply IH. apply set_insert_sorted; auto.
Qed.
Lemma sorted_lt_nodup l : StronglySorted Z.lt l -> NoDup l.
Proof. induction 1 as [|x l S IH F]; constructor; auto. intros H. rewrite Forall_forall in F. specialize (F x H). lia. Qed.
Lemma memz_in x l : memz x l = true <-> In x l.
Proof. unfold memz. rewrite existsb_exists. split; [intros (y & H & E); apply Z.eqb_eq in E; subst; auto|intros H; exists x; split; auto; apply Z.eqb_refl]. Qed.

(** ** one segment *)
Definition segM {T byte} (s : seg T byte) (M : Z -> option T) : Prop := forall k, sabs s k = option_map Some (M (k + 1)).
Definition quiet {T byte} (s : seg T byte) : Prop := s_recv s = [] /\ s_qmd s = [].

Lemma segM_ext {T byte} (s : seg T byte) M M' : (forall k, M k = M' k) -> segM s M -> segM s M'.
Proof. intros H A k. rewrite A, H. auto. Qed.
Lemma segM_none_not {T byte} (s : seg T byte) : (forall k, sabs s k = None) -> segM s (fun _ => None).
Proof. intros H k. rewrite H. auto. Qed.
Lemma set_prop_quiet {T byte} (s : seg T byte) p : quiet s -> quiet (set_prop p s).
Proof. auto. Qed.

Lemma compress_keeps {T byte} ser enc threads (s s' : seg T byte) : seg_compress ser enc threads s = Ok s' ->
  live s' /\ forall b, s_prop s = Some b -> exists b', s_prop s' = Some b' /\ b_value b' = b_value b.
Proof.
  unfold seg_compress, seg_initialize. intros H. apply bind_Ok in H as (s1 & E1 & H). apply bind_Ok in E1 as (b0 & Eb0 & E1). injection E1 as <-.
  rewrite prop_set_prop in H. cbn [bind] in H. cbn [set_prop s_cap] in H.
  assert (forall b, s_prop s = Some b -> b0 = b) as Hb. { intros b Eb. unfold seg_alloc in Eb0. rewrite Eb in Eb0. unfold prop in Eb0. rewrite Eb in Eb0. injection Eb0 as <-. auto. }
  assert (b_uninit (buf_initialize (s_nints (seg_alloc threads s)) b0) = false /\ b_value (buf_initialize (s_nints (seg_alloc threads s)) b0) = b_value b0) as [U1 V1].
  { unfold buf_initialize. destruct (b_uninit b0) eqn:U; simpl; auto. }
  set (b1 := buf_initialize (s_nints (seg_alloc threads s)) b0) in *. clearbody b1.
  assert (forall b2, buf_compress ser enc threads b1 = Ok b2 -> b_uninit b2 = b_uninit b1 /\ b_value b2 = b_value b1) as K.
  { intros b2 E2. unfold buf_compress in E2. destruct ser.
    - unfold buf_compress_ser in E2. do 4 (apply bind_Ok in E2 as (? & _ & E2)). injection E2 as <-. auto.
    - unfold buf_compress_plain in E2. do 3 (apply bind_Ok in E2 as (? & _ & E2)). injection E2 as <-. auto. }
  destruct (should_compress ser _ _).
  - injection H as <-. simpl. split; [exists b1; auto|]. intros b Eb. exists b1. split; auto. rewrite V1. f_equal. auto.
  - apply bind_Ok in H as (b2 & E2 & H). injection H as <-. destruct (K _ E2). simpl. split; [exists b2; split; auto; congruence|]. intros b Eb. exists b2. split; auto. rewrite H0, V1. f_equal. auto.
  - apply bind_Ok in H as (b2 & E2 & H). injection H as <-. destruct (K _ E2). simpl. split; [exists b2; split; auto; congruence|]. intros b Eb. exists b2. split; auto. rewrite H0, V1. f_equal. auto.
Qed.

Lemma dims_intro {A} nr ns (t : list (list A)) : dims nr ns t -> forall r j, 0 <= r < nr -> 0 <= j < ns -> exists a, rd2 t r j = Ok a.
Proof. intros D r j. apply dims_rd2; auto. Qed.

Lemma tab2_ex {A} nr ns (f : Z -> Z -> R A) (Q : Z -> Z -> A -> Prop) : 0 <= nr -> 0 <= ns ->
  (forall r j, 0 <= r < nr -> 0 <= j < ns -> exists a, f r j = Ok a /\ Q r j a) ->
  exists t, tab2 nr ns f = Ok t /\ dims nr ns t /\ forall r j a, rd2 t r j = Ok a -> Q r j a.
Proof.
  intros Hr Hs H. destruct (tab2_spec nr ns f Q Hr Hs H) as (t & E & D & I). exists t. split; auto. split; auto. intros r j a Ea.
  pose proof (dims_bounds _ _ _ _ _ _ D Ea) as [Br Bj]. destruct (I r j Br Bj) as (a' & Ea' & _ & Qa). rewrite Ea in Ea'. injection Ea' as <-. auto.
Qed.
Tactic Notation "tabs" constr(q) "as" ident(t) ident(E) ident(D) ident(Iq) := match goal with |- context [tab2 ?nr ?ns ?f] => destruct (tab2_ex nr ns f q) as (t & E & D & Iq); [lia|lia| |] end.

Section Held.
  Context {T byte : Type}.
  Notation sg := (seg T byte).
  Variable ser : bool.
  Variable thr : Z.
  Variables n ns nr : Z.
  Hypothesis Hn : 0 <= n.
  Hypothesis Hs : 1 <= ns.
  Hypothesis Hr : 1 <= nr.
  Notation ow := (ow nr). Notation st := (st n ns). Notation cap := (cap n ns). Notation restr := (restr n ns).

  (** segment [j] as seen by rank [r], holding [M] *)
  Definition fine (j : Z) (s : sg) (M : Z -> option T) : Prop := swf ser thr s /\ s_cap s = cap j /\ quiet s /\ segM s M.
  Definition held (v : list (list sg)) (M : Z -> option T) : Prop :=
    dims nr ns v /\ forall r j s, rd2 v r j = Ok s -> fine j s (if ow j =? r then restr M j else fun _ => None).
  Definition hlive (v : list (list sg)) : Prop := forall j s, rd2 v (ow j) j = Ok s -> live s.
  Definition hcells (v : list (list sg)) (C : Z -> T) : Prop :=
    forall j s, rd2 v (ow j) j = Ok s -> exists b, s_prop s = Some b /\ forall k, 0 <= k < cap j -> rd (b_value b) k = Ok (Some (C (st j + k + 1))).

  Lemma held_ext v M M' : (forall id, 1 <= id <= n -> M id = M' id) -> held v M -> held v M'.
  Proof.
    intros H [D F]. split; auto. intros r j s Es. destruct (F r j s Es) as (W & C & Q & A). repeat (split; auto). eapply segM_ext; [|exact A].
    intros k. destruct (ow j =? r); auto. pose proof (dims_bounds _ _ _ _ _ _ D Es) as [_ Bj]. unfold VecProofs.restr. destruct (Z.leb_spec 1 k), (Z.leb_spec k (cap j)); simpl; auto. apply H.
    unfold VecProofs.cap in *. pose proof (st_bounds n ns Hn Hs j ltac:(lia)). pose proof (st_bounds n ns Hn Hs (j+1) ltac:(lia)). lia.
  Qed.

  Variable enc : list (Z * T) -> list byte.
  Variable dec : list byte -> Z -> R (list (Z * T)).
  Hypothesis dec_enc : forall l, dec (enc l) (zlen l) = Ok l.
  Variable threads : Z.
  Hypothesis Hth : thok ser thr threads.

  Lemma compress_for_spec o rs : forall s M j, fine j s M -> exists s', compress_for ser enc threads o rs s = Ok s' /\ fine j s' M /\
      (live s -> live s') /\ (forall b, s_prop s = Some b -> exists b', s_prop s' = Some b' /\ b_value b' = b_value b) /\
      ((exists r, In r rs /\ r <> o) -> live s' /\ exists md pl, seg_send_nnz s' = Ok md /\ seg_send_segment ser s' = Ok pl /\ msg ser thr enc (cap j) (sabs s') md pl).
  Proof.
    unfold compress_for. induction rs as [|q rs IH] using rev_ind; intros s M j F.
    - exists s. conjs; auto. intros b; eauto. intros (r & [] & _).
    - destruct (IH s M j F) as (s1 & E1 & F1 & L1 & V1 & N1). rewrite foldR_app, E1. cbn [bind foldR]. destruct (Z.eqb_spec q o) as [Eq|Nq].
      + exists s1. conjs; auto. intros (r & Hin & Nr). apply N1. exists r. split; auto. apply in_app_iff in Hin as [?|[<-|[]]]; auto. contradiction.
      + destruct F1 as (W & C & Q & A). destruct (seg_compress_spec ser thr enc threads s1 Hth W (fun _ => determinate_map _ _ A)) as (s' & md & pl & E & W' & C' & A' & (b' & Eb') & Emd & Epl & Msg).
        destruct (compress_keeps _ _ _ _ _ E) as [Lv Kv]. rewrite E. cbn [bind]. exists s'. conjs; auto.
        * split; [auto|]. split; [congruence|]. split; [subst s'; auto|]. intros k. rewrite A'. auto.
        * intros b Eb. destruct (V1 b Eb) as (b1 & Eb1 & Vb1). destruct (Kv b1 Eb1) as (b2 & Eb2 & Vb2). exists b2. split; auto. congruence.
        * intros _. split; auto. exists md, pl. split; auto. split; auto. rewrite C in Msg. intros p Bp. destruct (Msg p Bp) as (p' & Ep & Hp). exists p'. split; auto.
          destruct Hp as (Hb & Hu & Hd). split; auto. split; auto. destruct (should_compress ser (cap j) (b_nnz p')).
          -- destruct Hd as (w & ? & ? & Hk). exists w. conjs; auto. intros k. rewrite A'. auto.
          -- destruct Hd as (es & ? & ? & ? & ? & ? & Hk). exists es. conjs; auto. intros k. rewrite A'. auto.
          -- destruct Hd as (es & ? & ? & ? & ? & ? & Hk). exists es. conjs; auto. intros k. rewrite A'. auto.
  Qed.

  (** after the broadcast *)
  Definition copied (rks : Z -> list Z) (v v' : list (list sg)) (M : Z -> option T) : Prop :=
    dims nr ns v' /\ forall r j s', rd2 v' r j = Ok s' ->
      fine j s' (if (ow j =? r) || memz r (rks j) then restr M j else fun _ => None) /\
      (memz r (rks j) = true -> ow j <> r -> live s') /\
      (ow j = r -> forall s, rd2 v r j = Ok s -> (live s -> live s') /\ (forall b, s_prop s = Some b -> exists b', s_prop s' = Some b' /\ b_value b' = b_value b)).

  Lemma bcast_spec ranks rks v M : held v M -> (forall j, 0 <= j < ns -> ranks j = Ok (rks j)) ->
    exists v', bcast ser enc dec nr ns threads ranks v = Ok v' /\ copied rks v v' M.
  Proof.
    intros [D F] Hrk. unfold bcast.
    tabs (fun r j (s' : sg) => fine j s' (if (ow j =? r) || memz r (rks j) then restr M j else fun _ => None) /\
      (memz r (rks j) = true -> ow j <> r -> live s') /\
      (ow j = r -> forall s, rd2 v r j = Ok s -> (live s -> live s') /\ (forall b, s_prop s = Some b -> exists b', s_prop s' = Some b' /\ b_value b' = b_value b))) as v' E D' I0.
    2: { exists v'. split; [exact E|]. split; auto. }
    intros r j Br Bj. cbv beta. rewrite vown_ok, Hrk by lia. cbn [bind]. pose proof (ow_range nr Hr j) as Bo.
    destruct (dims_rd2 _ _ _ (ow j) j D Bo Bj) as [so Eso]. rewrite Eso. cbn [bind]. pose proof (F _ _ _ Eso) as Fo. rewrite Z.eqb_refl in Fo.
    destruct (compress_for_spec (ow j) (rks j) so _ j Fo) as (s1 & E1 & F1 & L1 & V1 & N1). rewrite E1. cbn [bind].
    destruct (Z.eqb_spec r (ow j)) as [Er|Nr].
    - exists s1. split; auto. split; [rewrite <- Er, Z.eqb_refl; auto|]. split; [intros; congruence|]. intros _ s Es. rewrite <- Er in Eso. rewrite Es in Eso. injection Eso as <-. auto.
    - destruct (dims_rd2 _ _ _ r j D Br Bj) as [s Es]. rewrite Es. cbn [bind]. pose proof (F _ _ _ Es) as Fs. destruct (Z.eqb_spec (ow j) r) as [|No]; [congruence|]. destruct (memz r (rks j)) eqn:Mr.
      + destruct N1 as (Lv & md & pl & Emd & Epl & Msg). { exists r. split; [apply memz_in; auto|auto]. }
        rewrite Emd. cbn [bind]. rewrite Epl. cbn [bind]. destruct Fs as (W & C & Q & A). rewrite <- C in Msg.
        destruct (seg_recv_spec ser thr enc threads s (sabs s1) md pl Hth W Msg) as (p & Er & Hp). rewrite Er. cbn [bind].
        pose proof W as (H0 & H1 & _ & H3 & H4).
        destruct (seg_decompress_spec ser thr enc dec dec_enc threads (set_rmd md (set_prop (Some p) s)) p (sabs s1) Hth) as (r' & Ed & Wr & Ar & b' & Eb & Ub); auto.
        rewrite Ed. exists r'. split; auto. subst r'. split; [|split; [intros _ _; exists b'; auto|intros; congruence]].
        simpl. destruct F1 as (_ & _ & _ & A1). split; [auto|]. split; [auto|]. split; [exact Q|]. intros k. rewrite Ar. apply A1.
      + exists s. split; auto. simpl. split; auto. split; [intros; discriminate|intros; congruence].
  Qed.

  Lemma drop_spec rks v v' M : held v M -> copied rks v v' M -> exists v'', drop_copies nr ns v' = Ok v'' /\ held v'' M /\ (hlive v -> hlive v'') /\ (forall C, hcells v C -> hcells v'' C).
  Proof.
    intros [D0 F0] [D I]. unfold drop_copies.
    tabs (fun r j (s' : sg) => fine j s' (if ow j =? r then restr M j else fun _ => None) /\ (ow j = r -> rd2 v' r j = Ok s')) as v'' E D' I'.
    { intros r j Br Bj. cbv beta. rewrite vown_ok by lia. cbn [bind]. destruct (dims_rd2 _ _ _ r j D Br Bj) as [s Es]. rewrite Es. cbn [bind]. destruct (I r j s Es) as (Fs & _).
      rewrite (Z.eqb_sym r (ow j)). destruct (Z.eqb_spec (ow j) r) as [Eo|No].
      - exists s. split; auto.
      - destruct Fs as (W & C & Q & _). destruct (seg_set_uninitialized_spec ser thr s W) as (W' & A' & C' & _ & R'). eexists. split; [reflexivity|]. split; [|congruence].
        split; [auto|]. split; [congruence|]. split; [|apply segM_none_not; auto]. split; auto. unfold seg_set_uninitialized, seg_set_uninitialized_received. simpl. destruct (s_prop s); apply Q. }
    exists v''. split; [exact E|]. 
    assert (forall j s'', rd2 v'' (ow j) j = Ok s'' -> exists s s', rd2 v (ow j) j = Ok s /\ rd2 v' (ow j) j = Ok s' /\ s'' = s' /\ (live s -> live s') /\ (forall b, s_prop s = Some b -> exists b', s_prop s' = Some b' /\ b_value b' = b_value b)) as K.
    { intros j s'' Es. pose proof (dims_bounds _ _ _ _ _ _ D' Es) as [Br Bj]. destruct (I' _ _ _ Es) as [_ Qa]. specialize (Qa eq_refl).
      destruct (dims_rd2 _ _ _ _ _ D0 Br Bj) as [s Es0]. exists s, s''. conjs; auto; apply (I _ _ _ Qa); auto. }
    split; [split; auto|split].
    - intros r j s Es. apply (I' _ _ _ Es).
    - intros L j s'' Es. destruct (K _ _ Es) as (s & s' & E1 & E2 & -> & Lv & _). apply Lv. eapply L; eauto.
    - intros C HC j s'' Es. destruct (K _ _ Es) as (s & s' & E1 & E2 & -> & _ & Kb). destruct (HC _ _ E1) as (b & Eb & Hb). destruct (Kb b Eb) as (b' & Eb' & Vb). exists b'. split; auto. rewrite Vb. auto.
  Qed.
End Held.
