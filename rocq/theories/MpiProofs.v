(** When programs of message passing operations always run to their end. *)
From Coq Require Import Sorting.Sorted.
From Verif Require Import BaseLemmas Mpi.

Lemma chan_eqb_eq c c' : chan_eqb c c' = true <-> c = c'.
Proof. destruct c as [[s d] t], c' as [[s' d'] t']. cbn. rewrite !andb_true_iff, !Z.eqb_eq. split; [intros [[-> ->] ->]; auto|intros H; injection H; auto]. Qed.
Lemma chan_eqb_refl c : chan_eqb c c = true.
Proof. apply chan_eqb_eq. auto. Qed.
Local Arguments Nat.ltb : simpl never.
Section On.
  Context {L : Type}.
  Lemma on_app c (p q : list (chan * L)) : on c (p ++ q) = on c p ++ on c q.
  Proof. unfold on. rewrite filter_app, map_app. auto. Qed.
  Lemma on_one c c' (l : L) : on c [(c', l)] = if chan_eqb c c' then [l] else [].
  Proof. unfold on. cbn. destruct (chan_eqb c c'); auto. Qed.
  Lemma on_cons c c' (l : L) p : on c ((c', l) :: p) = (if chan_eqb c c' then [l] else []) ++ on c p.
  Proof. change ((c', l) :: p) with ([(c', l)] ++ p). rewrite on_app, on_one. auto. Qed.
  Lemma on_head c (p : list (chan * L)) a q : on c p = a :: q -> exists p1 p2, p = p1 ++ (c, a) :: p2 /\ on c p1 = [].
  Proof.
    induction p as [|[c' l] p IH]; [discriminate|]. rewrite on_cons. destruct (chan_eqb c c') eqn:Ec; cbn [app].
    - apply chan_eqb_eq in Ec as <-. intros H. injection H as -> _. exists [], p. auto.
    - intros H. destruct (IH H) as (p1 & p2 & -> & E1). exists ((c', l) :: p1), p2. split; auto. rewrite on_cons, Ec. auto.
  Qed.
  Lemma on_some c (p : list (chan * L)) l : In (c, l) p -> on c p <> [].
  Proof. intros H. unfold on. assert (In (c, l) (filter (fun x => chan_eqb c (fst x)) p)) as H1 by (apply filter_In; split; [auto|apply chan_eqb_refl]). destruct (filter _ p); [contradiction|discriminate]. Qed.
End On.

Section Gen.
  Context {L : Type}.
  Notation op := (op L).

  Definition enters (l : list op) : nat := length (flat_map (fun o => match o with Enter => [tt] | _ => [] end) l).
  Definition is_wait (o : op) : bool := match o with SndWait _ _ | RcvWait _ _ | WaitAll | Leave => true | _ => false end.
  Lemma sends_app d t (a b : list op) : sends d t (a ++ b) = sends d t a ++ sends d t b.
  Proof. apply flat_map_app. Qed.
  Lemma recvs_app d t (a b : list op) : recvs d t (a ++ b) = recvs d t a ++ recvs d t b.
  Proof. apply flat_map_app. Qed.
  Lemma enters_app a b : enters (a ++ b) = (enters a + enters b)%nat.
  Proof. unfold enters. rewrite flat_map_app, app_length. auto. Qed.

  Definition before (t : nat) (l : list (nat * op)) : list op := map snd (filter (fun x => (fst x <? t)%nat) l).
  Lemma before_app t a b : before t (a ++ b) = before t a ++ before t b.
  Proof. unfold before. rewrite filter_app, map_app. auto. Qed.
  Lemma before_none t l : (forall x, In x l -> (t <= fst x)%nat) -> before t l = [].
  Proof. induction l as [|x l IH]; intros H; auto. unfold before. cbn. destruct (Nat.ltb_spec (fst x) t); [specialize (H x (or_introl eq_refl)); lia|]. apply IH. intros; apply H; simpl; auto. Qed.
  Lemma before_all t l : (forall x, In x l -> (fst x < t)%nat) -> before t l = map snd l.
  Proof. induction l as [|x l IH]; intros H; auto. unfold before in *. cbn. destruct (Nat.ltb_spec (fst x) t); [|specialize (H x (or_introl eq_refl)); lia]. cbn. rewrite IH; auto. intros; apply H; simpl; auto. Qed.
  Lemma before_sorted t l : StronglySorted (fun a b => fst a <= fst b)%nat l -> exists l2, map snd l = before t l ++ l2.
  Proof.
    induction 1 as [|x l S (l2 & E) F]; [exists []; auto|]. unfold before. cbn. destruct (Nat.ltb_spec (fst x) t).
    - exists l2. cbn. f_equal. exact E.
    - exists (snd x :: map snd l). fold (before t l). rewrite before_none; auto. intros y Hy. rewrite Forall_forall in F. specialize (F y Hy). lia.
  Qed.
  (** the waits of time [t] do not send *)
  Lemma posts_before (P : list op -> list L) t l : (forall a b, P (a ++ b) = P a ++ P b) -> (forall o, is_wait o = true -> P [o] = []) ->
    (forall x, In x l -> (fst x < t)%nat \/ is_wait (snd x) = true) -> P (map snd l) = P (before t l).
  Proof.
    intros PA PW. assert (P [] = []) as P0. { specialize (PA [] []). cbn in PA. destruct (P []); auto. apply (f_equal (@length _)) in PA. rewrite app_length in PA. cbn in PA. lia. }
    induction l as [|x l IH]; intros H; auto. change (x :: l) with ([x] ++ l). rewrite map_app, before_app, !PA, IH by (intros; apply H; simpl; auto). f_equal. unfold before. cbn.
    destruct (Nat.ltb_spec (fst x) t); auto. cbn. rewrite P0. apply PW. destruct (H x (or_introl eq_refl)); [lia|auto].
  Qed.

  Variable nr : Z.
  Variable tp : Z -> list (nat * op).
  Hypothesis Hsort : forall r, StronglySorted (fun a b => fst a <= fst b)%nat (tp r).
  Hypothesis Hpar : forall r x, In x (tp r) -> is_wait (snd x) = Nat.odd (fst x).
  Hypothesis Hout : forall r, ~ (0 <= r < nr) -> tp r = [].
  Hypothesis Hbal : forall t s d tg, sends d tg (before t (tp s)) = recvs s tg (before t (tp d)).
  Hypothesis Hent : forall t r r', 0 <= r < nr -> 0 <= r' < nr -> enters (before t (tp r)) = enters (before t (tp r')).

  Notation step := (step nr). Notation steps := (steps nr).
  Definition prog (r : Z) : list op := map snd (tp r).

  Lemma full_before : forall r r', exists t, before t (tp r) = prog r /\ before t (tp r') = prog r'.
  Proof.
    intros r r'. assert (forall l : list (nat * op), exists t, forall t', (t <= t')%nat -> forall x, In x l -> (fst x < t')%nat) as F.
    { induction l as [|x l (t & H)]; [exists 0%nat; intros ? ? ? []|]. exists (Nat.max t (S (fst x))). intros t' B y [<-|Hy]; [lia|apply H; auto; lia]. }
    destruct (F (tp r)) as (t1 & H1). destruct (F (tp r')) as (t2 & H2). exists (Nat.max t1 t2). split; apply before_all; [apply H1|apply H2]; lia.
  Qed.
  Lemma balance s d tg : sends d tg (prog s) = recvs s tg (prog d).
  Proof. destruct (full_before s d) as (t & E1 & E2). rewrite <- E1, <- E2. apply Hbal. Qed.

  Record inv (st : state L) (dn rs : Z -> list (nat * op)) : Prop := {
    i_split : forall r, tp r = dn r ++ rs r;
    i_rest : forall r, st_rest st r = map snd (rs r);
    i_sends : forall s d t, sends d t (map snd (dn s)) = map fst (on (s, d, t) (st_log st)) ++ on (s, d, t) (st_sends st);
    i_recvs : forall s d t, recvs s t (map snd (dn d)) = map snd (on (s, d, t) (st_log st)) ++ on (s, d, t) (st_recvs st);
    i_in : forall r, st_in st r = enters (map snd (dn r)) }.

  Lemma inv_start p : (forall r, 0 <= r < nr -> p r = prog r) -> inv (start nr p) (fun _ => []) tp.
  Proof.
    intros Hp. constructor; try reflexivity. intros r. cbn. destruct (Z.leb_spec 0 r); cbn [andb]; [|rewrite Hout by lia; auto]. destruct (Z.ltb_spec r nr); [apply Hp; lia|rewrite Hout by lia; auto].
  Qed.

  Definition setf {A} (f : Z -> A) (r : Z) (a : A) : Z -> A := fun r' => if r' =? r then a else f r'.
  (** rank [r] makes its next operation *)
  Lemma advance st dn rs r o k : inv st dn rs -> st_rest st r = o :: k ->
    exists t rest, rs r = (t, o) :: rest /\ map snd rest = k /\
      (forall r', tp r' = setf dn r (dn r ++ [(t, o)]) r' ++ setf rs r rest r') /\ (forall r', set_rest st r k r' = map snd (setf rs r rest r')).
  Proof.
    intros [I1 I2 I3 I4 I5] E. rewrite I2 in E. destruct (rs r) as [|[t o'] rest] eqn:Er; [discriminate|]. cbn in E. injection E as -> Ek. exists t, rest. split; auto. split; auto. split.
    - intros r'. unfold setf. destruct (Z.eqb_spec r' r) as [->|N]; auto. rewrite I1, Er, <- app_assoc. auto.
    - intros r'. unfold setf, set_rest. destruct (r' =? r); auto.
  Qed.
  Lemma setf_snd dn r (x : nat * op) r' : map snd (setf dn r (dn r ++ [x]) r') = map snd (dn r') ++ (if r' =? r then [snd x] else []).
  Proof. unfold setf. destruct (Z.eqb_spec r' r) as [->|N]; [rewrite map_app; auto|rewrite app_nil_r; auto]. Qed.

  Lemma inv_step b st st' dn rs : inv st dn rs -> step b st st' -> exists dn' rs', inv st' dn' rs'.
  Proof.
    intros I S. destruct S as [st r d t l k B E|st r s t l k B E|st c a b0 s1 s2 r1 r2 E1 E2 E3 E4|st r d t k B E H|st r s t k B E H|st r k B E H H'|st r k B E|st r k B E H].
    all: try (destruct (advance st dn rs r _ k I E) as (tm & rest & _ & _ & A1 & A2); destruct I as [I1 I2 I3 I4 I5]; exists (setf dn r (dn r ++ [(tm, hd WaitAll (st_rest st r))])), (setf rs r rest); rewrite E; cbn [hd];
      constructor; cbn [st_rest st_sends st_recvs st_in st_log]; [exact A1|exact A2| | |]; intros; rewrite setf_snd; cbn [snd];
      rewrite ?sends_app, ?recvs_app, ?enters_app, ?on_app, ?on_one; rewrite ?I3, ?I4, <- ?I5; auto).
    all: try match goal with |- context[if ?a =? ?b then _ else _] => destruct (Z.eqb_spec a b) as [->|?] end.
    all: cbn [sends recvs enters flat_map length app]; rewrite ?app_nil_r; auto; rewrite ?Nat.add_0_r; auto.
    - rewrite app_assoc. f_equal. unfold chan_eqb. rewrite Z.eqb_refl. cbn [andb]. rewrite (Z.eqb_sym d0 d), (Z.eqb_sym t0 t). destruct ((d =? d0) && (t =? t0)); auto.
    - unfold chan_eqb. destruct (Z.eqb_spec s r); [contradiction|]. cbn [andb]. rewrite app_nil_r. auto.
    - rewrite app_assoc. f_equal. unfold chan_eqb. rewrite Z.eqb_refl, andb_true_r. rewrite (Z.eqb_sym s0 s), (Z.eqb_sym t0 t). destruct ((s =? s0) && (t =? t0)); auto.
    - unfold chan_eqb. destruct (Z.eqb_spec d r); [contradiction|]. rewrite andb_false_r. cbn [andb]. rewrite app_nil_r. auto.
    - destruct I as [I1 I2 I3 I4 I5]. exists dn, rs. constructor; cbn [st_rest st_sends st_recvs st_in st_log]; auto.
      + intros s d t. rewrite I3, E1, !on_app, on_cons, on_one, map_app. destruct (chan_eqb (s, d, t) c) eqn:Ec; [|rewrite app_nil_r; auto]. apply chan_eqb_eq in Ec as ->. rewrite E2. cbn. rewrite <- app_assoc. auto.
      + intros s d t. rewrite I4, E3, !on_app, on_cons, on_one, map_app. destruct (chan_eqb (s, d, t) c) eqn:Ec; [|rewrite app_nil_r; auto]. apply chan_eqb_eq in Ec as ->. rewrite E4. cbn. rewrite <- app_assoc. auto.
    - lia.
  Qed.
  Lemma inv_steps p n st : (forall r, 0 <= r < nr -> p r = prog r) -> steps n (start nr p) st -> exists dn rs, inv st dn rs.
  Proof.
    intros Hp H. remember (start nr p) as s0. induction H as [|n st st' st'' H IH S]; [subst; eauto using inv_start|]. destruct (IH Heqs0) as (dn & rs & I). eapply inv_step; eauto.
  Qed.

  Lemma prefix_eq {A} (a b x y z : list A) : length a = length b -> a ++ x = b ++ y -> a = b.
  Proof. revert b. induction a as [|h a IH]; intros [|h' b] Hl E; try discriminate; auto. injection E as -> E. f_equal. apply (IH b); auto. Qed.

  (** every message is what its receiver takes it for *)
  Lemma matched st dn rs c a b : inv st dn rs -> In (c, (a, b)) (st_log st) -> a = b.
  Proof.
    intros [I1 I2 I3 I4 I5] H. destruct c as [[s d] t].
    assert (map fst (on (s, d, t) (st_log st)) = map snd (on (s, d, t) (st_log st))) as Q.
    { pose proof (balance s d t) as Bal. unfold prog in Bal. rewrite (I1 s), (I1 d), !map_app, sends_app, recvs_app, I3, I4, <- !app_assoc in Bal. eapply prefix_eq; [| |exact Bal]; [exact []|rewrite !map_length; auto]. }
    assert (In (a, b) (on (s, d, t) (st_log st))) as H1. { unfold on. apply in_map_iff. exists ((s, d, t), (a, b)). split; auto. apply filter_In. split; auto. apply chan_eqb_refl. }
    clear - Q H1. induction (on (s, d, t) (st_log st)) as [|[a' b'] l IH]; [contradiction|]. cbn in Q. injection Q as -> Q. destruct H1 as [H1|H1]; [congruence|auto].
  Qed.

  (** if both ends of a channel have got [n] operations on it and not all are matched, a match is possible *)
  Lemma can_match b (st : state L) c : on c (st_sends st) <> [] -> on c (st_recvs st) <> [] -> exists st', step b st st'.
  Proof.
    intros H1 H2. destruct (on c (st_sends st)) as [|x q] eqn:E1; [congruence|]. destruct (on c (st_recvs st)) as [|y q'] eqn:E2; [congruence|].
    apply on_head in E1 as (p1 & p2 & E1 & N1). apply on_head in E2 as (r1 & r2 & E2 & N2). eexists. eapply do_match; eauto.
  Qed.

  Lemma argmin {A} (f : A -> nat) l : l <> [] -> exists a, In a l /\ forall b, In b l -> (f a <= f b)%nat.
  Proof.
    induction l as [|x l IH]; [congruence|]. intros _. destruct l as [|y l]. { exists x. split; [simpl; auto|]. intros b [<-|[]]. lia. }
    destruct IH as (a & Ha & Hb); [discriminate|]. destruct (Nat.le_gt_cases (f x) (f a)).
    - exists x. split; [simpl; auto|]. intros b [<-|H1]; [lia|]. specialize (Hb b H1). lia.
    - exists a. split; [right; auto|]. intros b [<-|H1]; [lia|auto].
  Qed.

  Lemma progress st dn rs : inv st dn rs -> finished nr st \/ exists st', step true st st'.
  Proof.
    intros I. pose proof I as [I1 I2 I3 I4 I5].
    (* the unfinished ranks *)
    destruct (filter (fun r => match rs r with [] => false | _ => true end) (zrange 0 nr)) as [|r0 l] eqn:Ef.
    { left. intros r B. rewrite I2. destruct (rs r) eqn:Er; auto. assert (In r []) as []. rewrite <- Ef. apply filter_In. split; [apply in_zrange; auto|]. rewrite Er. auto. }
    right. destruct (argmin (fun r => match rs r with [] => 0%nat | x :: _ => fst x end) (r0 :: l)) as (r & Hr & Min); [discriminate|]. rewrite <- Ef in Hr, Min. clear Ef r0 l.
    apply filter_In in Hr as [Br Ur]. apply in_zrange in Br. destruct (rs r) as [|[t o] k] eqn:Er; [discriminate|]. clear Ur. cbn [fst] in Min.
    assert (st_rest st r = o :: map snd k) as Erest by (rewrite I2, Er; auto).
    assert (is_wait o = Nat.odd t) as Ho. { apply (Hpar r (t, o)). rewrite I1, Er. apply in_app_iff. simpl; auto. }
    destruct (is_wait o) eqn:W.
    2:{ destruct o; try discriminate W; eexists; [eapply do_snd|eapply do_rcv|eapply do_enter]; eauto. }
    (* all ranks have made all operations of earlier times *)
    assert (forall r', exists l2, map snd (dn r') = before t (tp r') ++ l2) as Past.
    { intros r'. destruct (Z_le_dec 0 r') as [B1|B1]; [destruct (Z_lt_dec r' nr) as [B2|B2]|].
      - assert (forall x, In x (rs r') -> (t <= fst x)%nat) as Late.
        { intros x Hx. destruct (rs r') as [|y q] eqn:Eq; [contradiction|]. assert (t <= fst y)%nat as Ty.
          { specialize (Min r'). rewrite Eq in Min. apply Min. apply filter_In. split; [apply in_zrange; lia|]. rewrite Eq. auto. }
          destruct Hx as [<-|Hx]; auto. pose proof (Hsort r') as Ss. rewrite I1, Eq in Ss. clear - Ss Hx Ty. induction (dn r') as [|z q' IH]; cbn in Ss; inversion Ss as [|? ? S1 F1]; subst; auto.
          rewrite Forall_forall in F1. specialize (F1 x Hx). lia. }
        rewrite (I1 r'), before_app, (before_none t (rs r')) by auto. rewrite app_nil_r. apply before_sorted. pose proof (Hsort r') as Ss. rewrite I1 in Ss. clear - Ss. induction (dn r') as [|z q' IH]; constructor; cbn in Ss; inversion Ss as [|? ? S1 F1]; subst; auto.
        rewrite Forall_forall in *. intros; apply F1. apply in_app_iff; auto.
      - rewrite (Hout r') by lia. pose proof (I1 r') as Q. rewrite (Hout r') in Q by lia. symmetry in Q. apply app_eq_nil in Q as [-> _]. exists []. auto.
      - rewrite (Hout r') by lia. pose proof (I1 r') as Q. rewrite (Hout r') in Q by lia. symmetry in Q. apply app_eq_nil in Q as [-> _]. exists []. auto. }
    assert (forall x, In x (dn r) -> (fst x < t)%nat \/ is_wait (snd x) = true) as Mine.
    { intros x Hx. assert (fst x <= t)%nat as Lx. { pose proof (Hsort r) as Ss. rewrite I1, Er in Ss. clear - Ss Hx. induction (dn r) as [|z q IH]; [contradiction|]. cbn in Ss. inversion Ss as [|? ? S1 F1]; subst. destruct Hx as [<-|Hx]; auto. rewrite Forall_forall in F1. apply (F1 (t, o)). apply in_app_iff. simpl; auto. }
      destruct (Nat.eq_dec (fst x) t) as [Q|]; [right|left; lia]. rewrite (Hpar r x), Q; auto. rewrite I1. apply in_app_iff; auto. }
    assert (before t (tp r) = before t (dn r)) as Bt. { rewrite (I1 r), before_app, Er. rewrite (before_none t ((t, o) :: k)), app_nil_r; auto. intros x Hx. pose proof (Hsort r) as Ss. rewrite I1, Er in Ss. clear - Ss Hx. induction (dn r) as [|z q IH]; cbn in Ss; inversion Ss as [|? ? S1 F1]; subst; auto. destruct Hx as [<-|Hx]; [cbn; lia|]. rewrite Forall_forall in F1. apply F1; auto. }
    assert (forall d tg, sends d tg (map snd (dn r)) = sends d tg (before t (tp r))) as Ms. { intros d tg. rewrite Bt. apply posts_before; auto; [intros; apply sends_app|intros []; try discriminate; auto]. }
    assert (forall s tg, recvs s tg (map snd (dn r)) = recvs s tg (before t (tp r))) as Mr. { intros s tg. rewrite Bt. apply posts_before; auto; [intros; apply recvs_app|intros []; try discriminate; auto]. }
    (* what rank [r] sent or asked for can be matched *)
    assert (forall d tg, on (r, d, tg) (st_sends st) <> [] -> exists st', step true st st') as CanS.
    { intros d tg Ne. apply (can_match true st (r, d, tg)); auto. intros Em. pose proof (I3 r d tg) as Q1. pose proof (I4 r d tg) as Q2. rewrite Em, app_nil_r in Q2. destruct (Past d) as (l2 & Pd). rewrite Pd, recvs_app, <- Hbal, <- Ms in Q2.
      apply (f_equal (@length _)) in Q1, Q2. rewrite app_length, map_length in Q1, Q2. rewrite ?app_length, ?map_length in *. destruct (on (r, d, tg) (st_sends st)); [congruence|]. cbn in Q1. lia. }
    assert (forall s tg, on (s, r, tg) (st_recvs st) <> [] -> exists st', step true st st') as CanR.
    { intros s tg Ne. apply (can_match true st (s, r, tg)); auto. intros Em. pose proof (I3 s r tg) as Q1. pose proof (I4 s r tg) as Q2. rewrite Em, app_nil_r in Q1. destruct (Past s) as (l2 & Pd). rewrite Pd, sends_app, Hbal, <- Mr in Q1.
      apply (f_equal (@length _)) in Q1, Q2. rewrite app_length, map_length in Q1, Q2. rewrite ?app_length, ?map_length in *. destruct (on (s, r, tg) (st_recvs st)); [congruence|]. cbn in Q2. lia. }
    destruct o as [d tg x|d tg|s tg x|s tg| | |]; try discriminate W.
    - destruct (on (r, d, tg) (st_sends st)) eqn:Eo; [|apply (CanS d tg); congruence]. eexists. eapply do_sndwait; eauto.
    - destruct (on (s, r, tg) (st_recvs st)) eqn:Eo; [|apply (CanR s tg); congruence]. eexists. eapply do_rcvwait; eauto.
    - destruct (filter (fun x : chan * L => match fst x with (s, _, _) => s =? r end) (st_sends st)) as [|[[[s d] tg] l] q] eqn:F1.
      + destruct (filter (fun x : chan * L => match fst x with (_, d, _) => d =? r end) (st_recvs st)) as [|[[[s d] tg] l] q] eqn:F2.
        * eexists. eapply do_waitall; eauto.
          -- intros s tg. destruct (on (s, r, tg) (st_recvs st)) as [|a q] eqn:Eo; auto. apply on_head in Eo as (p1 & p2 & Ep & _). rewrite Ep, filter_app in F2. apply app_eq_nil in F2 as [_ F2]. cbn in F2. rewrite Z.eqb_refl in F2. discriminate.
          -- intros _ d tg. destruct (on (r, d, tg) (st_sends st)) as [|a q] eqn:Eo; auto. apply on_head in Eo as (p1 & p2 & Ep & _). rewrite Ep, filter_app in F1. apply app_eq_nil in F1 as [_ F1]. cbn in F1. rewrite Z.eqb_refl in F1. discriminate.
        * assert (In ((s, d, tg), l) (st_recvs st) /\ (d =? r) = true) as [H1 H2]. { apply (filter_In (fun x : chan * L => match fst x with (_, d, _) => d =? r end)). rewrite F2. simpl; auto. }
          apply Z.eqb_eq in H2 as ->. apply (CanR s tg). eapply on_some; eauto.
      + assert (In ((s, d, tg), l) (st_sends st) /\ (s =? r) = true) as [H1 H2]. { apply (filter_In (fun x : chan * L => match fst x with (s, _, _) => s =? r end)). rewrite F1. simpl; auto. }
        apply Z.eqb_eq in H2 as ->. apply (CanS d tg). eapply on_some; eauto.
    - eexists. eapply do_leave; eauto. intros _ r' Br'. rewrite !I5. destruct (Past r') as (l2 & ->). rewrite enters_app.
      assert (enters (map snd (dn r)) = enters (before t (tp r))) as ->.
      { rewrite Bt. unfold enters. pose proof (posts_before) as _. f_equal. clear - Mine. induction (dn r) as [|x q IH]; auto. unfold before. cbn. destruct (Nat.ltb_spec (fst x) t); cbn.
        - rewrite IH; auto. intros; apply Mine; simpl; auto.
        - rewrite IH by (intros; apply Mine; simpl; auto). destruct (Mine x (or_introl eq_refl)) as [|Q]; [lia|]. destruct (snd x); try discriminate; auto. }
      rewrite (Hent t r r') by auto. lia.
  Qed.

  (** how many steps are left *)
  Definition todo (st : state L) : nat := (fold_right (fun r n => 2 * length (st_rest st r) + n) 0 (zrange 0 nr) + length (st_sends st))%nat.
  Lemma todo_rest (f : Z -> list op) r k (l : list Z) : NoDup l -> In r l ->
    (fold_right (fun r' n => 2 * length (if (r' =? r)%Z then k else f r') + n) 0 l + 2 * length (f r) = fold_right (fun r' n => 2 * length (f r') + n) 0 l + 2 * length k)%nat.
  Proof.
    induction l as [|a l IH]; intros N H; [contradiction|]. inversion N as [|? ? Na Nl]; subst. cbn [fold_right]. destruct (Z.eqb_spec a r) as [->|Q].
    - enough (forall l' : list Z, ~ In r l' -> fold_right (fun r' n => 2 * length (if (r' =? r)%Z then k else f r') + n) 0 l' = fold_right (fun r' n => 2 * length (f r') + n) 0 l')%nat as -> by (auto; lia).
      clear. induction l' as [|b l' IH]; intros H; auto. cbn [fold_right]. rewrite IH by (intros ?; apply H; simpl; auto). destruct (Z.eqb_spec b r) as [->|]; auto. exfalso; apply H; simpl; auto.
    - destruct H as [->|H]; [congruence|]. specialize (IH Nl H). lia.
  Qed.
  Lemma step_todo b st st' : step b st st' -> (todo st' < todo st)%nat.
  Proof.
    assert (forall r, 0 <= r < nr -> In r (zrange 0 nr)) as Hin by (intros; apply in_zrange; auto).
    intros H. destruct H as [st r d t l k B E|st r s t l k B E|st c a b0 s1 s2 r1 r2 E1 E2 E3 E4|st r d t k B E H|st r s t k B E H|st r k B E H H'|st r k B E|st r k B E H]; unfold todo; cbn [st_rest st_sends].
    all: try (pose proof (todo_rest (st_rest st) r k (zrange 0 nr) (NoDup_zrange 0 nr) (Hin r B)) as Q; unfold set_rest; rewrite E in Q; cbn [length] in Q; rewrite ?app_length; cbn [length]; lia).
    rewrite E1, !app_length. cbn. lia.
  Qed.
  Lemma steps_todo n st st' : steps n st st' -> (n + todo st' <= todo st)%nat.
  Proof. induction 1 as [|n st st' st'' H IH St]; [lia|]. apply step_todo in St. lia. Qed.

  (** a finished run has matched everything *)
  Lemma finished_inv st dn rs : inv st dn rs -> finished nr st -> (forall b st', ~ step b st st') ->
    st_sends st = [] /\ st_recvs st = [] /\ forall s d t, map fst (on (s, d, t) (st_log st)) = sends d t (prog s) /\ map snd (on (s, d, t) (st_log st)) = sends d t (prog s).
  Proof.
    intros I F Stop. pose proof I as [I1 I2 I3 I4 I5].
    assert (forall r, map snd (dn r) = prog r) as Dn.
    { intros r. unfold prog. rewrite (I1 r). assert (rs r = []) as ->; [|rewrite app_nil_r; auto]. destruct (Z_le_dec 0 r) as [B1|B1]; [destruct (Z_lt_dec r nr) as [B2|B2]|].
      - specialize (F r ltac:(lia)). rewrite I2 in F. destruct (rs r); [auto|discriminate].
      - pose proof (I1 r) as Q. rewrite (Hout r) in Q by lia. symmetry in Q. apply app_eq_nil in Q. tauto.
      - pose proof (I1 r) as Q. rewrite (Hout r) in Q by lia. symmetry in Q. apply app_eq_nil in Q. tauto. }
    assert (forall c, on c (st_sends st) = [] /\ on c (st_recvs st) = []) as Em.
    { intros [[s d] t]. pose proof (I3 s d t) as Q1. pose proof (I4 s d t) as Q2. rewrite Dn in Q1, Q2. rewrite <- balance in Q2. apply (f_equal (@length _)) in Q1, Q2. rewrite app_length, map_length in Q1, Q2.
      destruct (on (s, d, t) (st_sends st)) as [|x q] eqn:E1.
      - cbn in Q1. destruct (on (s, d, t) (st_recvs st)); auto. cbn in Q2. lia.
      - exfalso. destruct (can_match true st (s, d, t)) as (st' & H); [congruence| |apply (Stop true st' H)]. intros E2. rewrite E2 in Q2. cbn in Q1, Q2. lia. }
    assert (forall p : list (chan * L), (forall c, on c p = []) -> p = []) as Nil. { intros [|[c l] p] H; auto. exfalso. eapply on_some; [|apply H]. left. reflexivity. }
    split; [apply Nil; intros; apply Em|]. split; [apply Nil; intros; apply Em|]. intros s d t. destruct (Em (s, d, t)) as [E1 E2].
    pose proof (I3 s d t) as Q1. pose proof (I4 s d t) as Q2. rewrite Dn, E1, app_nil_r in Q1. rewrite Dn, E2, app_nil_r in Q2. rewrite <- Q1, <- Q2. split; auto. symmetry. apply balance.
  Qed.
End Gen.
