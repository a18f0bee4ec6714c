(** Threads that keep to their own elements: proofs about ParLoop.v, part 1. *)
From Verif Require Import BaseLemmas Conc ConcProofs ParLoop.

Section PP.
  Context {A B C D : Type}.
  Notation arrs := (arrs A B C D).
  Notation thread := (thread loc4 (cell4 A B C D)).
  Notation mem := (@mem loc4 (cell4 A B C D)).
  Notation exec := (exec (V:=cell4 A B C D) loc4_eqb).
  Notation mput := (mput (V:=cell4 A B C D) loc4_eqb).
  Notation prog := (@prog A B C D).

  Lemma loc4_eqb_spec a b : loc4_eqb a b = true <-> a = b.
  Proof. destruct a, b; simpl; split; intros H; try discriminate; try (apply Z.eqb_eq in H; subst; auto); injection H as ->; apply Z.eqb_refl. Qed.

  (** the accesses the thread makes when it runs alone satisfy [P] *)
  Fixpoint stays (P : loc4 -> bool) (t : thread) (m : mem) : Prop :=
    match t with
    | Fin => True
    | Fail _ => True
    | Rd l k => P l = true /\ match m l with Some v => stays P (k v) m | None => True end
    | Wr l v t => P l = true /\ stays P t (mput m l v)
    end.
  Definition same (P : loc4 -> bool) (m m' : mem) : Prop := forall l, P l = true -> m l = m' l.

  Lemma same_put P m m' l v : same P m m' -> same P (mput m l v) (mput m' l v).
  Proof. intros H l' Pl. unfold Conc.mput. destruct (loc4_eqb l l'); auto. Qed.
  Lemma put_other m l v l' : l <> l' -> mput m l v l' = m l'.
  Proof. apply mput_other. apply loc4_eqb_spec. Qed.

  Lemma stays_frame P t : forall m m' r, stays P t m -> same P m m' -> exec t m = Ok r ->
    stays P t m' /\ exists r', exec t m' = Ok r' /\ same P r r' /\ (forall l, P l = false -> r' l = m' l).
  Proof.
    induction t as [|e|l k IH|l v t IH]; intros m m' r O S E; simpl in *.
    - injection E as <-. split; auto. exists m'. auto.
    - discriminate.
    - destruct O as [Pl O]. rewrite <- (S l Pl). destruct (m l) as [v|]; [|discriminate].
      destruct (IH v m m' r O S E) as (O' & r' & H). split; auto. exists r'. auto.
    - destruct O as [Pl O]. rewrite <- (S l Pl). destruct (m l) as [old|]; [|discriminate].
      destruct (IH (mput m l v) (mput m' l v) r O (same_put P m m' l v S) E) as (O' & r' & E' & S' & F').
      split; auto. exists r'. split; auto. split; auto. intros l' N. rewrite F' by auto. apply put_other. intros ->. congruence.
  Qed.

  Section Pool.
    Variable np : nat.
    Variable P : nat -> loc4 -> bool.
    Hypothesis disj : forall i j l, (i < np)%nat -> (j < np)%nat -> P i l = true -> P j l = true -> i = j.

    Definition pinv (m0 : mem) (fin : mem) (s : list thread * mem) : Prop :=
      length (fst s) = np /\
      (forall i t, nth_error (fst s) i = Some t -> stays (P i) t (snd s) /\ exists r, exec t (snd s) = Ok r /\ same (P i) r fin) /\
      (forall l, (forall i, (i < np)%nat -> P i l = false) -> snd s l = m0 l).

    Lemma pinv_step m0 fin s s' : pinv m0 fin s -> pstep loc4_eqb s s' -> pinv m0 fin s'.
    Proof.
      intros (Ln & I & J) St. inversion St as [ts m i l k v Hi Hm|ts m i l v t old Hi Hm]; subst; unfold pinv in *; simpl in *.
      - assert (i < length ts)%nat as Li by (apply nth_error_Some; congruence). rewrite length_upd. split; auto. split; auto.
        intros j t Hj. destruct (Nat.eq_dec i j) as [<-|N].
        + rewrite nth_error_upd_same in Hj by auto. injection Hj as <-. destruct (I i _ Hi) as [[Pl O] (r & E & S)].
          rewrite Hm in O. split; auto. exists r. simpl in E. rewrite Hm in E. auto.
        + rewrite nth_error_upd_other in Hj by auto. apply I; auto.
      - assert (i < length ts)%nat as Li by (apply nth_error_Some; congruence). rewrite length_upd. split; auto.
        destruct (I i _ Hi) as [[Pl O] (r & E & S)]. simpl in E. rewrite Hm in E. split.
        + intros j t' Hj. destruct (Nat.eq_dec i j) as [<-|N].
          * rewrite nth_error_upd_same in Hj by auto. injection Hj as <-. split; auto. eauto.
          * rewrite nth_error_upd_other in Hj by auto. assert (j < length ts)%nat as Lj by (apply nth_error_Some; congruence).
            destruct (I j _ Hj) as [O' (r' & E' & S')].
            destruct (stays_frame (P j) t' m (mput m l v) r' O') as (O2 & r2 & E2 & S2 & _); auto.
            { intros l0 Pl0. symmetry. apply put_other. intros ->. apply N. eapply disj; eauto; lia. }
            split; auto. exists r2. split; auto. intros l0 Pl0. rewrite <- S2 by auto. apply S'; auto.
        + intros l0 Hl. rewrite put_other; [apply J; auto|]. intros ->. rewrite Hl in Pl by lia. discriminate.
    Qed.
    Lemma pinv_steps m0 fin s s' : psteps loc4_eqb s s' -> pinv m0 fin s -> pinv m0 fin s'.
    Proof. induction 1; auto. intros I. eapply pinv_step; [|eassumption]. auto. Qed.

    (** [mt k]: the memory after the first [k] threads ran alone one after the other *)
    Variable ts : list thread.
    Variable mt : nat -> mem.
    Hypothesis Ln : length ts = np.
    Hypothesis Seq : forall i t, nth_error ts i = Some t -> stays (P i) t (mt i) /\ exists r, exec t (mt i) = Ok r /\ forall l, r l = mt (S i) l.

    Lemma untouched i j l : (i <= j)%nat -> (j <= np)%nat -> (forall k, (i <= k < j)%nat -> P k l = false) -> mt j l = mt i l.
    Proof.
      induction j as [|j IH]; intros H1 H2 N. { replace i with 0%nat by lia. auto. }
      destruct (Nat.eq_dec i (S j)) as [<-|Ne]; auto.
      destruct (nth_error ts j) as [t|] eqn:Ht; [|apply nth_error_None in Ht; lia].
      destruct (Seq j t Ht) as (O & r & E & R). rewrite <- R.
      destruct (stays_frame (P j) t (mt j) (mt j) r O (fun _ _ => eq_refl) E) as (_ & r' & E' & _ & F).
      assert (r' = r) by congruence. subst r'. rewrite F by (apply N; lia). apply IH; try lia. intros k Hk. apply N. lia.
    Qed.
    Lemma pinv_start : pinv (mt 0%nat) (mt np) (ts, mt 0%nat).
    Proof.
      split; auto. simpl. split; auto. intros i t Hi. assert (i < np)%nat as Li by (rewrite <- Ln; apply nth_error_Some; congruence).
      destruct (Seq i t Hi) as (O & r & E & R).
      assert (same (P i) (mt i) (mt 0%nat)) as S0.
      { intros l Pl. apply untouched; try lia. intros k Hk. destruct (P k l) eqn:Pk; auto. assert (k = i) by (apply (disj k i l); auto; lia). lia. }
      destruct (stays_frame (P i) t (mt i) (mt 0%nat) r O S0 E) as (O' & r' & E' & S' & _). split; auto. exists r'. split; auto.
      intros l Pl. rewrite <- S', R by auto. symmetry. apply untouched; try lia.
      intros k Hk. destruct (P k l) eqn:Pk; auto. assert (k = i) by (apply (disj k i l); auto; lia). lia.
    Qed.
    Lemma some_owner l : (exists i, (i < np)%nat /\ P i l = true) \/ (forall i, (i < np)%nat -> P i l = false).
    Proof.
      clear. induction np as [|n IH]; [right; intros; lia|]. destruct (P n l) eqn:E; [left; exists n; auto|].
      destruct IH as [(i & Hi & Pi)|N]; [left; exists i; auto|right]. intros i Hi. destruct (Nat.eq_dec i n); [subst; auto|apply N; lia].
    Qed.
    Theorem pool_any ts' m' : psteps loc4_eqb (ts, mt 0%nat) (ts', m') -> ~ bad (ts', m') /\ (finished ts' -> forall l, m' l = mt np l).
    Proof.
      intros St. destruct (pinv_steps _ _ _ _ St pinv_start) as (Ln' & I & J). simpl in *. split.
      - intros (t & Hin & Bd). apply In_nth_error in Hin as [i Hi]. destruct (I i t Hi) as [_ (r & E & _)].
        destruct t; simpl in *; try discriminate; auto; rewrite Bd in E; discriminate.
      - intros F l. destruct (some_owner l) as [(i & Li & Pi)|N].
        + destruct (nth_error ts' i) as [t|] eqn:Ht; [|apply nth_error_None in Ht; lia].
          destruct (I i t Ht) as [_ (r & Er & Ar)]. rewrite (F t) in Er by (eapply nth_error_In; eauto). simpl in Er. injection Er as <-. apply Ar; auto.
        + rewrite J by auto. symmetry. apply untouched; try lia. intros k Hk. apply N. lia.
    Qed.
  End Pool.

  (** ** following a sequential run *)
  Definition is (m : mem) (s : arrs) : Prop := forall l, m l = view s l.
  (** from the arrays [s] the program goes on with [x] and the arrays [s'], touching only [P] *)
  Definition fol {X} (P : loc4 -> bool) (t : prog X) (s : arrs) (x : X) (s' : arrs) : Prop :=
    forall k m, is m s -> exists m', is m' s' /\ exec (t k) m = exec (k x) m' /\ (stays P (k x) m' -> stays P (t k) m).

  Lemma fol_ret {X} P (x : X) s : fol P (pret x) s x s.
  Proof. intros k m H. exists m. auto. Qed.
  Lemma fol_bind {X Y} P (t : prog X) (f : X -> prog Y) s x s1 y s2 : fol P t s x s1 -> fol P (f x) s1 y s2 -> fol P (pbind t f) s y s2.
  Proof.
    intros H1 H2 k m Hm. destruct (H1 (fun x => f x k) m Hm) as (m1 & Hm1 & E1 & S1). destruct (H2 k m1 Hm1) as (m2 & Hm2 & E2 & S2).
    exists m2. split; auto. unfold pbind. split; [congruence|auto].
  Qed.
  Lemma fol_lift {X} P (r : R X) x s : r = Ok x -> fol P (plift r) s x s.
  Proof. intros -> k m H. exists m. auto. Qed.

  Lemma fol_get1 P i s a : rd (ar1 s) i = Ok a -> P (L1 i) = true -> fol P (get1 i) s a s.
  Proof. intros E H k m Hm. exists m. split; auto. unfold get1. simpl. rewrite (Hm (L1 i)). simpl. rewrite E. auto. Qed.
  Lemma fol_get2 P i s a : rd (ar2 s) i = Ok a -> P (L2 i) = true -> fol P (get2 i) s a s.
  Proof. intros E H k m Hm. exists m. split; auto. unfold get2. simpl. rewrite (Hm (L2 i)). simpl. rewrite E. auto. Qed.
  Lemma fol_get3 P i s a : rd (ar3 s) i = Ok a -> P (L3 i) = true -> fol P (get3 i) s a s.
  Proof. intros E H k m Hm. exists m. split; auto. unfold get3. simpl. rewrite (Hm (L3 i)). simpl. rewrite E. auto. Qed.
  Lemma fol_get4 P i s a : rd (ar4 s) i = Ok a -> P (L4 i) = true -> fol P (get4 i) s a s.
  Proof. intros E H k m Hm. exists m. split; auto. unfold get4. simpl. rewrite (Hm (L4 i)). simpl. rewrite E. auto. Qed.

  Lemma rd_of_wr {X} (l l' : list X) i a j : wr l i a = Ok l' -> rd l' j = if i =? j then Ok a else rd l j.
  Proof.
    intros H. destruct (i =? j) eqn:E; [apply Z.eqb_eq in E; subst; eapply wr_same_rd; eauto|]. apply Z.eqb_neq in E.
    eapply wr_other_rd; eauto.
  Qed.
  Lemma wr_there {X} (l l' : list X) i a : wr l i a = Ok l' -> exists b, rd l i = Ok b.
  Proof. intros H. apply wr_Ok in H as [H _]. apply rd_ok. auto. Qed.

  Lemma fol_put1 P i s a v1 : wr (ar1 s) i a = Ok v1 -> P (L1 i) = true -> fol P (put1 i a) s tt (mkArrs v1 (ar2 s) (ar3 s) (ar4 s)).
  Proof.
    intros E H k m Hm. exists (mput m (L1 i) (C1 a)). split.
    - intros l. unfold Conc.mput. destruct l; simpl; rewrite Hm; simpl; auto. rewrite (rd_of_wr _ _ _ _ i0 E). destruct (i =? i0); auto.
    - unfold put1. simpl. rewrite (Hm (L1 i)). simpl. destruct (wr_there _ _ _ _ E) as [b ->]. auto.
  Qed.
  Lemma fol_put2 P i s a v1 : wr (ar2 s) i a = Ok v1 -> P (L2 i) = true -> fol P (put2 i a) s tt (mkArrs (ar1 s) v1 (ar3 s) (ar4 s)).
  Proof.
    intros E H k m Hm. exists (mput m (L2 i) (C2 a)). split.
    - intros l. unfold Conc.mput. destruct l; simpl; rewrite Hm; simpl; auto. rewrite (rd_of_wr _ _ _ _ i0 E). destruct (i =? i0); auto.
    - unfold put2. simpl. rewrite (Hm (L2 i)). simpl. destruct (wr_there _ _ _ _ E) as [b ->]. auto.
  Qed.
  Lemma fol_put3 P i s a v1 : wr (ar3 s) i a = Ok v1 -> P (L3 i) = true -> fol P (put3 i a) s tt (mkArrs (ar1 s) (ar2 s) v1 (ar4 s)).
  Proof.
    intros E H k m Hm. exists (mput m (L3 i) (C3 a)). split.
    - intros l. unfold Conc.mput. destruct l; simpl; rewrite Hm; simpl; auto. rewrite (rd_of_wr _ _ _ _ i0 E). destruct (i =? i0); auto.
    - unfold put3. simpl. rewrite (Hm (L3 i)). simpl. destruct (wr_there _ _ _ _ E) as [b ->]. auto.
  Qed.
  Lemma fol_put4 P i s a v1 : wr (ar4 s) i a = Ok v1 -> P (L4 i) = true -> fol P (put4 i a) s tt (mkArrs (ar1 s) (ar2 s) (ar3 s) v1).
  Proof.
    intros E H k m Hm. exists (mput m (L4 i) (C4 a)). split.
    - intros l. unfold Conc.mput. destruct l; simpl; rewrite Hm; simpl; auto. rewrite (rd_of_wr _ _ _ _ i0 E). destruct (i =? i0); auto.
    - unfold put4. simpl. rewrite (Hm (L4 i)). simpl. destruct (wr_there _ _ _ _ E) as [b ->]. auto.
  Qed.

  (** a loop that follows a sequential loop whose state determines the private data and the arrays *)
  Lemma fol_forZ {S St} P (tbody : Z -> S -> prog S) (body : Z -> St -> R St) (a : St -> S) (r : St -> arrs) (I : Z -> St -> Prop) lo hi st st' :
    forZ lo hi body st = Ok st' -> I lo st ->
    (forall i st st1, lo <= i < hi -> I i st -> body i st = Ok st1 -> fol P (tbody i (a st)) (r st) (a st1) (r st1) /\ I (i + 1) st1) ->
    fol P (ploop lo hi tbody (a st)) (r st) (a st') (r st') /\ (lo <= hi -> I hi st').
  Proof.
    unfold forZ, ploop. intros E I0 H.
    assert (forall n i st, lo <= i -> i + Z.of_nat n <= Z.max lo hi -> I i st -> forN n i body st = Ok st' ->
      fol P (ploopN n i tbody (a st)) (r st) (a st') (r st') /\ I (i + Z.of_nat n) st') as G.
    { clear st E I0. induction n as [|n IH]; intros i st Hi Hn Hs E; simpl in *.
      - injection E as <-. split; [apply fol_ret|]. rewrite Z.add_0_r. auto.
      - apply bind_Ok in E as (st1 & E1 & E2). destruct (H i st st1 ltac:(lia) Hs E1) as [F1 I1].
        destruct (IH (i + 1) st1 ltac:(lia) ltac:(lia) I1 E2) as [F2 I2]. split; [eapply fol_bind; eauto|].
        replace (i + Z.pos (Pos.of_succ_nat n)) with (i + 1 + Z.of_nat n) by lia. auto. }
    destruct (G (Z.to_nat (hi - lo)) lo st ltac:(lia) ltac:(lia) I0 E) as [F I1]. split; auto.
    intros L. replace hi with (lo + Z.of_nat (Z.to_nat (hi - lo))) by lia. auto.
  Qed.
  Lemma fol_each {X S St} P (tbody : S -> X -> prog S) (body : St -> X -> R St) (a : St -> S) (r : St -> arrs) (I : St -> Prop) l : forall st st',
    foldR body l st = Ok st' -> I st ->
    (forall x st st1, In x l -> I st -> body st x = Ok st1 -> fol P (tbody (a st) x) (r st) (a st1) (r st1) /\ I st1) ->
    fol P (peach tbody l (a st)) (r st) (a st') (r st') /\ I st'.
  Proof.
    induction l as [|x l IH]; intros st st' E I0 H; simpl in *.
    - injection E as <-. split; [apply fol_ret|auto].
    - apply bind_Ok in E as (st1 & E1 & E2). destruct (H x st st1 (or_introl eq_refl) I0 E1) as [F1 I1].
      destruct (IH st1 st' E2 I1) as [F2 I2]; [intros; apply H; auto|]. split; auto. eapply fol_bind; eauto.
  Qed.

  (** the same when the private data of the thread is not determined by the sequential state *)
  Lemma fol_eachR {X S St} P (tbody : S -> X -> prog S) (body : St -> X -> R St) (Q : St -> S -> arrs -> Prop) l : forall st st' a s,
    foldR body l st = Ok st' -> Q st a s ->
    (forall x st st1 a s, In x l -> Q st a s -> body st x = Ok st1 -> exists a1 s1, fol P (tbody a x) s a1 s1 /\ Q st1 a1 s1) ->
    exists a' s', fol P (peach tbody l a) s a' s' /\ Q st' a' s'.
  Proof.
    induction l as [|x l IH]; intros st st' a s E I0 H; simpl in *.
    - injection E as <-. exists a, s. split; [apply fol_ret|auto].
    - apply bind_Ok in E as (st1 & E1 & E2). destruct (H x st st1 a s (or_introl eq_refl) I0 E1) as (a1 & s1 & F1 & I1).
      destruct (IH st1 st' a1 s1 E2 I1) as (a2 & s2 & F2 & I2); [intros; eapply H; eauto|]. exists a2, s2. split; auto. eapply fol_bind; eauto.
  Qed.
  Lemma fol_forR {S St} P (tbody : Z -> S -> prog S) (body : Z -> St -> R St) (Q : Z -> St -> S -> arrs -> Prop) lo hi st st' a s :
    forZ lo hi body st = Ok st' -> Q lo st a s ->
    (forall i st st1 a s, lo <= i < hi -> Q i st a s -> body i st = Ok st1 -> exists a1 s1, fol P (tbody i a) s a1 s1 /\ Q (i + 1) st1 a1 s1) ->
    exists a' s', fol P (ploop lo hi tbody a) s a' s' /\ Q (Z.max lo hi) st' a' s'.
  Proof.
    unfold forZ, ploop. intros E I0 H.
    assert (forall n i st a s, lo <= i -> i + Z.of_nat n <= Z.max lo hi -> Q i st a s -> forN n i body st = Ok st' ->
      exists a' s', fol P (ploopN n i tbody a) s a' s' /\ Q (i + Z.of_nat n) st' a' s') as G.
    { clear st a s E I0. induction n as [|n IH]; intros i st a s Hi Hn Hs E; simpl in *.
      - injection E as <-. exists a, s. split; [apply fol_ret|]. rewrite Z.add_0_r. auto.
      - apply bind_Ok in E as (st1 & E1 & E2). destruct (H i st st1 a s ltac:(lia) Hs E1) as (a1 & s1 & F1 & I1).
        destruct (IH (i + 1) st1 a1 s1 ltac:(lia) ltac:(lia) I1 E2) as (a2 & s2 & F2 & I2). exists a2, s2. split; [eapply fol_bind; eauto|].
        replace (i + Z.pos (Pos.of_succ_nat n)) with (i + 1 + Z.of_nat n) by lia. auto. }
    destruct (G (Z.to_nat (hi - lo)) lo st a s ltac:(lia) ltac:(lia) I0 E) as (a' & s' & F & I1). exists a', s'. split; auto.
    replace (Z.max lo hi) with (lo + Z.of_nat (Z.to_nat (hi - lo))) by lia. auto.
  Qed.

  Lemma nth_error_zrange lo hi i x : nth_error (zrange lo hi) i = Some x -> x = lo + Z.of_nat i /\ (i < Z.to_nat (hi - lo))%nat.
  Proof.
    unfold zrange, zseq. rewrite nth_error_map. destruct (nth_error (seq 0 (Z.to_nat (hi - lo))) i) as [j|] eqn:E; simpl; [|discriminate].
    intros H. injection H as <-. assert (i < length (seq 0 (Z.to_nat (hi - lo))))%nat as L by (apply nth_error_Some; congruence).
    rewrite seq_length in L. apply nth_error_nth with (d := 0%nat) in E. rewrite seq_nth in E by lia. lia.
  Qed.

  (** the parallel loop: every iteration follows the sequential one and keeps to its own elements *)
  Lemma par_any (P : Z -> loc4 -> bool) np (tbody : Z -> prog unit) (Q : Z -> arrs -> Prop) s0 :
    0 <= np -> (forall p q l, 0 <= p < np -> 0 <= q < np -> P p l = true -> P q l = true -> p = q) ->
    Q 0 s0 -> (forall p s, 0 <= p < np -> Q p s -> exists s1, fol (P p) (tbody p) s tt s1 /\ Q (p + 1) s1) ->
    exists s', Q np s' /\ any_schedule (parfor np tbody) s0 s'.
  Proof.
    intros Hn Dj Q0 Hs.
    (* the chain of states *)
    assert (forall n, Z.of_nat n <= np -> exists ss : nat -> arrs, ss 0%nat = s0 /\ Q (Z.of_nat n) (ss n) /\
      forall i, (i < n)%nat -> fol (P (Z.of_nat i)) (tbody (Z.of_nat i)) (ss i) tt (ss (S i))) as Ch.
    { induction n as [|n IH]; intros Ln.
      - exists (fun _ => s0). split; auto. split; auto. intros; lia.
      - destruct IH as (ss & S0 & Sn & St); [lia|]. destruct (Hs (Z.of_nat n) (ss n) ltac:(lia) Sn) as (s1 & F & Q1).
        exists (fun i => if (i =? S n)%nat then s1 else ss i). split; [auto|]. split.
        + rewrite Nat.eqb_refl. replace (Z.of_nat (S n)) with (Z.of_nat n + 1) by lia. auto.
        + intros i Hi. destruct (Nat.eqb_spec i (S n)); [lia|]. destruct (Nat.eqb_spec (S i) (S n)) as [E|N].
          * injection E as ->. auto.
          * apply St. lia. }
    destruct (Ch (Z.to_nat np) ltac:(lia)) as (ss & S0 & Sn & St). rewrite Z2Nat.id in Sn by lia.
    exists (ss (Z.to_nat np)). split; auto. intros ts m Hp. rewrite <- S0 in Hp.
    refine (pool_any (Z.to_nat np) (fun i => P (Z.of_nat i)) _ (parfor np tbody) (fun i => view (ss i)) _ _ ts m Hp).
    - intros i j l Hi Hj P1 P2. assert (Z.of_nat i = Z.of_nat j) by (apply (Dj _ _ l); auto; lia). lia.
    - unfold parfor. rewrite map_length. unfold zrange. rewrite zseq_length. f_equal. lia.
    - intros i t Hi. unfold parfor in Hi. rewrite nth_error_map in Hi. destruct (nth_error (zrange 0 np) i) as [x|] eqn:Ex; [|discriminate].
      apply nth_error_zrange in Ex as [-> Li]. simpl in Hi. injection Hi as <-. rewrite Z.sub_0_r in Li.
      destruct (St i Li (fun _ => Fin) (view (ss i)) (fun _ => eq_refl)) as (m' & Hm' & E & Sy). simpl in *. split; auto. eauto.
  Qed.
  Lemma par_forZ {St} (P : Z -> loc4 -> bool) np (tbody : Z -> prog unit) (body : Z -> St -> R St) (I : Z -> St -> arrs -> Prop) s0 st0 st' :
    forZ 0 np body st0 = Ok st' ->
    0 <= np -> (forall p q l, 0 <= p < np -> 0 <= q < np -> P p l = true -> P q l = true -> p = q) ->
    I 0 st0 s0 -> (forall p st st1 s, 0 <= p < np -> I p st s -> forZ 0 p body st0 = Ok st -> body p st = Ok st1 -> exists s1, fol (P p) (tbody p) s tt s1 /\ I (p + 1) st1 s1) ->
    exists s', I np st' s' /\ any_schedule (parfor np tbody) s0 s'.
  Proof.
    intros E Hn Dj I0 Hs.
    destruct (par_any P np tbody (fun p s => exists st, forZ 0 p body st0 = Ok st /\ I p st s) s0 Hn Dj) as (s' & (st & Es & Is) & H).
    - exists st0. auto.
    - intros p s Hp (st & Es & Is). rewrite (forZ_split 0 p np) in E by lia. rewrite Es in E. simpl in E.
      rewrite (forZ_step p) in E by lia. apply bind_Ok in E as (st1 & E1 & _).
      destruct (Hs p st st1 s Hp Is Es E1) as (s1 & F & I1). exists s1. split; auto. exists st1. split; auto.
      rewrite (forZ_split 0 p) by lia. rewrite Es. simpl. rewrite forZ_step by lia. rewrite E1. simpl. apply forZ_empty. lia.
    - exists s'. assert (st = st') by congruence. subst st. auto.
  Qed.

  (** the arrays are determined by the memory *)
  Lemma rd_Err {X} (l : list X) i e : rd l i = Err e -> e = OOB.
  Proof. unfold rd. destruct (i <? 0); [congruence|]. destruct (nth_error l (Z.to_nat i)); congruence. Qed.
  Lemma rd_inj {X} (l l' : list X) : (forall i, rd l i = rd l' i) -> l = l'.
  Proof.
    intros H. apply rd_ext; auto. destruct (Z.lt_trichotomy (zlen l) (zlen l')) as [L|[L|L]]; auto.
    - destruct (rd_ok l' (zlen l)) as [a Ea]; [pose proof (zlen_nonneg l); lia|]. rewrite <- H in Ea. apply rd_bounds in Ea. lia.
    - destruct (rd_ok l (zlen l')) as [a Ea]; [pose proof (zlen_nonneg l'); lia|]. rewrite H in Ea. apply rd_bounds in Ea. lia.
  Qed.
  Lemma view_inj (s s' : arrs) : (forall l, view s l = view s' l) -> s = s'.
  Proof.
    intros H. destruct s as [a b c d], s' as [a' b' c' d'].
    assert (forall i, rd a i = rd a' i) as E1.
    { intros i. specialize (H (L1 i)). simpl in H. destruct (rd a i) eqn:X, (rd a' i) eqn:Y; try congruence; apply rd_Err in X, Y; congruence. }
    assert (forall i, rd b i = rd b' i) as E2.
    { intros i. specialize (H (L2 i)). simpl in H. destruct (rd b i) eqn:X, (rd b' i) eqn:Y; try congruence; apply rd_Err in X, Y; congruence. }
    assert (forall i, rd c i = rd c' i) as E3.
    { intros i. specialize (H (L3 i)). simpl in H. destruct (rd c i) eqn:X, (rd c' i) eqn:Y; try congruence; apply rd_Err in X, Y; congruence. }
    assert (forall i, rd d i = rd d' i) as E4.
    { intros i. specialize (H (L4 i)). simpl in H. destruct (rd d i) eqn:X, (rd d' i) eqn:Y; try congruence; apply rd_Err in X, Y; congruence. }
    f_equal; apply rd_inj; auto.
  Qed.
End PP.
