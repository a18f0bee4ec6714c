From Verif Require Import BaseLemmas Conc.

Section CP.
  Context {L V : Type}.
  Notation thread := (thread L V).
  Variable leq : L -> L -> bool.
  Hypothesis leq_spec : forall a b, leq a b = true <-> a = b.
  Notation mem := (@mem L V).
  Notation exec := (exec (V:=V) leq).
  Notation mput := (mput (V:=V) leq).

  (** every access the thread can ever make satisfies [P] *)
  Fixpoint only (P : L -> Prop) (t : thread) : Prop :=
    match t with
    | Fin => True
    | Fail _ => True
    | Rd l k => P l /\ forall v, only P (k v)
    | Wr l _ t => P l /\ only P t
    end.

  Definition agree (P : L -> Prop) (m m' : mem) : Prop := forall l, P l -> m l = m' l.

  Lemma mput_same m l v : mput m l v l = Some v.
  Proof. unfold Conc.mput. assert (leq l l = true) as -> by (apply leq_spec; auto). reflexivity. Qed.
  Lemma mput_other m l v l' : l <> l' -> mput m l v l' = m l'.
  Proof. intros N. unfold Conc.mput. destruct (leq l l') eqn:E; auto. apply leq_spec in E. contradiction. Qed.

  Lemma agree_put P m m' l v : agree P m m' -> agree P (mput m l v) (mput m' l v).
  Proof. intros A l' H. unfold Conc.mput. destruct (leq l l'); auto. Qed.

  Lemma exec_frame P t : forall m m' r, only P t -> agree P m m' -> exec t m = Ok r ->
    exists r', exec t m' = Ok r' /\ agree P r r' /\ (forall l, ~ P l -> r' l = m' l).
  Proof.
    induction t as [|e|l k IH|l v t IH]; intros m m' r O A E; simpl in *.
    - injection E as <-. exists m'. auto.
    - discriminate.
    - destruct O as [Pl O]. rewrite <- (A l Pl). destruct (m l) as [v|]; [|discriminate]. eapply IH; eauto.
    - destruct O as [Pl O]. rewrite <- (A l Pl). destruct (m l) as [old|]; [|discriminate].
      destruct (IH (mput m l v) (mput m' l v) r O (agree_put P m m' l v A) E) as (r' & E' & A' & F').
      exists r'. split; auto. split; auto. intros l' N. rewrite F' by auto. apply mput_other. intros ->. contradiction.
  Qed.

  Lemma exec_ext t m m' r : (forall l, m l = m' l) -> exec t m = Ok r -> exists r', exec t m' = Ok r' /\ forall l, r l = r' l.
  Proof.
    intros A E. assert (only (fun _ => True) t) as O by (clear; induction t; simpl; auto).
    destruct (exec_frame (fun _ => True) t m m' r O (fun l _ => A l) E) as (r' & E' & A' & _).
    exists r'. split; auto.
  Qed.

  (** pool with pairwise disjoint footprints *)
  Section Pool.
    (** which thread may touch a cell *)
    Variable owner : L -> option nat.
    Definition P (i : nat) (l : L) : Prop := owner l = Some i.
    Lemma disj i j l : P i l -> P j l -> i = j.
    Proof. unfold P. congruence. Qed.

    (** [m] is a memory from which every thread alone would finish with the values [fin i] on
        its own cells, and untouched cells have the values of [m0] *)
    Definition inv (m0 : mem) (fin : nat -> mem) (s : list thread * mem) : Prop :=
      (forall i t, nth_error (fst s) i = Some t -> only (P i) t /\ exists r, exec t (snd s) = Ok r /\ agree (P i) r (fin i)) /\
      (forall l, (forall i, (i < length (fst s))%nat -> ~ P i l) -> snd s l = m0 l).

    Lemma inv_step m0 fin s s' : inv m0 fin s -> pstep leq s s' -> inv m0 fin s'.
    Proof.
      intros Iv St. destruct Iv as [I J]. inversion St as [ts m i l k v Hi Hm|ts m i l v t old Hi Hm]; subst; unfold inv in *; simpl in *.
      - assert (i < length ts)%nat as Li by (apply nth_error_Some; congruence). split.
        + intros j t Hj. destruct (Nat.eq_dec i j) as [<-|N].
          * rewrite nth_error_upd_same in Hj by auto. injection Hj as <-. destruct (I i _ Hi) as [[Pl O] (r & E & A)]. split; [apply O|].
            exists r. simpl in E. rewrite Hm in E. auto.
          * rewrite nth_error_upd_other in Hj by auto. apply I; auto.
        + intros l0 Hl. apply J. rewrite length_upd in Hl. auto.
      - assert (i < length ts)%nat as Li by (apply nth_error_Some; congruence).
        destruct (I i _ Hi) as [[Pl O] (r & E & A)]. simpl in E. rewrite Hm in E. split.
        + intros j t' Hj. destruct (Nat.eq_dec i j) as [<-|N].
          * rewrite nth_error_upd_same in Hj by auto. injection Hj as <-. split; auto. eauto.
          * rewrite nth_error_upd_other in Hj by auto. destruct (I j _ Hj) as [O' (r' & E' & A')]. split; auto.
            destruct (exec_frame (P j) t' m (mput m l v) r' O') as (r2 & E2 & A2 & _); auto.
            { intros l0 Pl0. symmetry. apply mput_other. intros ->. apply N. eapply disj; eauto. }
            exists r2. split; auto. intros l0 Pl0. rewrite <- A2 by auto. apply A'; auto.
        + intros l0 Hl. rewrite length_upd in Hl. rewrite mput_other; [apply J; auto|]. intros ->. apply (Hl i Li Pl).
    Qed.

    Lemma inv_steps m0 fin s s' : psteps leq s s' -> inv m0 fin s -> inv m0 fin s'.
    Proof. induction 1; auto. intros I. eapply inv_step; [|eassumption]. auto. Qed.

    Lemma inv_not_bad m0 fin s : inv m0 fin s -> ~ bad s.
    Proof.
      intros [I _] (t & Hin & B). apply In_nth_error in Hin as [i Hi]. destruct (I i t Hi) as [_ (r & E & _)].
      destruct t; simpl in *; try discriminate; auto; rewrite B in E; discriminate.
    Qed.

    (** a thread run alone from the state other threads left behaves as from the start *)
    Lemma seq_fold ts : forall k m0 m r, (forall i t, nth_error ts i = Some t -> only (P (k + i)) t) ->
      (forall i, (k <= i)%nat -> agree (P i) m0 m) -> foldR (fun m t => exec t m) ts m = Ok r ->
      (forall i t, nth_error ts i = Some t -> exists q, exec t m0 = Ok q /\ agree (P (k + i)) q r) /\
      (forall l, (forall i, (i < length ts)%nat -> ~ P (k + i)%nat l) -> r l = m l).
    Proof.
      induction ts as [|t ts IH]; intros k m0 m r O A E; simpl in E.
      - injection E as <-. split; [intros [|i] ?; discriminate|auto].
      - apply bind_Ok in E as (m1 & E1 & E2).
        pose proof (O 0%nat t eq_refl) as O0. rewrite Nat.add_0_r in O0.
        destruct (exec_frame (P k) t m m m1 O0 (fun _ _ => eq_refl) E1) as (m1' & E1' & _ & F1). assert (m1' = m1) by congruence. subst m1'.
        assert (forall i t0, nth_error ts i = Some t0 -> only (P (S k + i)) t0) as O'.
        { intros i t0 Hi. replace (S k + i)%nat with (k + S i)%nat by lia. apply O. auto. }
        assert (forall i, (S k <= i)%nat -> agree (P i) m0 m1) as A'.
        { intros i Hi l Pl. rewrite F1. { apply (A i ltac:(lia) l Pl). } intros Pk. assert (i = k) by (eapply disj; eauto). lia. }
        destruct (IH (S k) m0 m1 r O' A' E2) as [G1 G2]. split.
        + intros [|i] t0 Hi.
          * simpl in Hi. injection Hi as <-. rewrite Nat.add_0_r.
            destruct (exec_frame (P k) t m m0 m1 O0) as (q & Eq & Aq & _); auto.
            { intros l Pl. symmetry. apply (A k ltac:(lia) l Pl). }
            exists q. split; auto. intros l Pl. rewrite <- Aq by auto. symmetry. apply G2.
            intros i _ Pi. assert (S k + i = k)%nat by (eapply disj; eauto). lia.
          * simpl in Hi. replace (k + S i)%nat with (S k + i)%nat by lia. apply G1. auto.
        + intros l Hl. rewrite G2; [|intros i Hi; replace (S k + i)%nat with (k + S i)%nat by lia; apply Hl; simpl; lia].
          apply F1. specialize (Hl 0%nat). rewrite Nat.add_0_r in Hl. apply Hl. simpl; lia.
    Qed.

    Lemma interleavings_sequential ts m0 mseq : 
      (forall i t, nth_error ts i = Some t -> only (P i) t) ->
      foldR (fun m t => exec t m) ts m0 = Ok mseq ->
      forall ts' m', psteps leq (ts, m0) (ts', m') -> ~ bad (ts', m') /\ (finished ts' -> forall l, m' l = mseq l).
    Proof.
      intros O E ts' m' St.
      destruct (seq_fold ts 0 m0 m0 mseq O (fun _ _ _ _ => eq_refl) E) as [G1 G2]. simpl in G1, G2.
      assert (inv m0 (fun _ => mseq) (ts, m0)) as I0.
      { split; simpl; auto. }
      pose proof (inv_steps _ _ _ _ St I0) as I1. split; [eapply inv_not_bad; eauto|].
      intros F l. 
      assert (forall s s' : list thread * mem, psteps leq s s' -> length (fst s') = length (fst s)) as LL.
      { induction 1 as [|s1 s2 s3 S1 IH S2]; auto. rewrite <- IH. inversion S2; simpl; apply length_upd. }
      pose proof (LL _ _ St) as Ln. simpl in Ln.
      destruct I1 as [I1 J1]. simpl in *.
      assert ((exists i, (i < length ts')%nat /\ P i l) \/ (forall i, (i < length ts')%nat -> ~ P i l)) as [(i & Li & Pi)|N].
      { unfold P. destruct (owner l) as [i|]; [|right; intros; discriminate]. destruct (Nat.ltb_spec i (length ts')); [left; eauto|right; intros j Hj E'; injection E' as <-; lia]. }
      - destruct (nth_error ts' i) as [t|] eqn:Ht; [|apply nth_error_None in Ht; lia].
        destruct (I1 i t Ht) as [_ (r & Er & Ar)]. rewrite (F t) in Er by (eapply nth_error_In; eauto). simpl in Er. injection Er as <-. apply Ar; auto.
      - rewrite J1, G2; auto. rewrite <- Ln. auto.
    Qed.
  End Pool.
End CP.
