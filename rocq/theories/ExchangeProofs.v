(** The exchanges of Exchange.v follow a common plan, so they run to their end. *)
From Coq Require Import Sorting.Sorted.
From Verif Require Import BaseLemmas SpMSpV DistProofs Mpi MpiProofs Exchange ExchangeSpec.

Section Plan.
  Context {L : Type}.
  Notation op := (op L).
  Variable nr : Z.
  Notation rank r := (0 <= r < nr).
  (** one step of the plan: what every rank starts, and what it then waits for *)
  Definition item := ((Z -> list op) * (Z -> list op))%type.
  Record item_ok (it : item) : Prop := {
    k_post : forall r o, In o (fst it r) -> is_wait o = false;
    k_wait : forall r o, In o (snd it r) -> is_wait o = true;
    k_bal : forall s d tg, rank s -> rank d -> sends d tg (fst it s) = recvs s tg (fst it d);
    k_s : forall s d tg, rank s -> ~ rank d -> sends d tg (fst it s) = [];
    k_r : forall s d tg, ~ rank s -> rank d -> recvs s tg (fst it d) = [];
    k_ent : forall r r', rank r -> rank r' -> enters (fst it r) = enters (fst it r') }.
  Definition local (plan : list item) (r : Z) : list op := flat_map (fun it => fst it r ++ snd it r) plan.

  Fixpoint timed (i : nat) (plan : list item) (r : Z) : list (nat * op) :=
    match plan with
    | [] => []
    | it :: plan => map (pair (2 * i)%nat) (fst it r) ++ map (pair (S (2 * i))) (snd it r) ++ timed (S i) plan r
    end.
  Definition inr (r : Z) : bool := (0 <=? r) && (r <? nr).
  Lemma inr_true r : rank r -> inr r = true.
  Proof. intros. unfold inr. apply andb_true_iff. split; [apply Z.leb_le|apply Z.ltb_lt]; lia. Qed.
  Lemma inr_false r : ~ rank r -> inr r = false.
  Proof. intros. unfold inr. destruct (Z.leb_spec 0 r), (Z.ltb_spec r nr); auto. lia. Qed.
  Definition tprog (plan : list item) (r : Z) : list (nat * op) := if inr r then timed 0 plan r else [].

  Lemma timed_snd i plan r : map snd (timed i plan r) = local plan r.
  Proof. revert i. induction plan as [|it plan IH]; intros i; auto. unfold local in *. cbn [timed flat_map]. rewrite !map_app, IH, !map_map, !map_id, <- app_assoc. auto. Qed.
  Lemma timed_lo i plan r x : In x (timed i plan r) -> (2 * i <= fst x)%nat.
  Proof.
    revert i. induction plan as [|it plan IH]; intros i H; [contradiction|]. cbn [timed] in H. rewrite !in_app_iff, !in_map_iff in H. destruct H as [(o & <- & _)|[(o & <- & _)|H]]; [cbn; lia|cbn; lia|]. apply IH in H. lia.
  Qed.
  Lemma sorted_app (a b : list (nat * op)) : StronglySorted (fun a b => fst a <= fst b)%nat a -> StronglySorted (fun a b => fst a <= fst b)%nat b -> (forall x y, In x a -> In y b -> (fst x <= fst y)%nat) -> StronglySorted (fun a b => fst a <= fst b)%nat (a ++ b).
  Proof. induction 1 as [|x a S IH F]; intros Sb H; auto. cbn. constructor; [apply IH; auto; intros; apply H; simpl; auto|]. rewrite Forall_forall in *. intros y Hy. apply in_app_iff in Hy as [Hy|Hy]; [auto|apply H; simpl; auto]. Qed.
  Lemma sorted_const t (l : list op) : StronglySorted (fun a b => fst a <= fst b)%nat (map (pair t) l).
  Proof. induction l as [|o l IH]; constructor; auto. apply Forall_forall. intros x Hx. apply in_map_iff in Hx as (? & <- & _). cbn; lia. Qed.
  Lemma timed_sorted i plan r : StronglySorted (fun a b => fst a <= fst b)%nat (timed i plan r).
  Proof.
    revert i. induction plan as [|it plan IH]; intros i; [constructor|]. cbn [timed]. apply sorted_app; [apply sorted_const|apply sorted_app; [apply sorted_const|apply IH|]|].
    - intros x y Hx Hy. apply in_map_iff in Hx as (? & <- & _). apply timed_lo in Hy. cbn [fst]. lia.
    - intros x y Hx Hy. apply in_map_iff in Hx as (? & <- & _). apply in_app_iff in Hy as [Hy|Hy]; [apply in_map_iff in Hy as (? & <- & _); cbn [fst]; lia|]. apply timed_lo in Hy. cbn [fst]. lia.
  Qed.
  Lemma before_const t i (l : list op) : before t (map (pair i) l) = if (i <? t)%nat then l else [].
  Proof. destruct (Nat.ltb_spec i t). - rewrite before_all, map_map, map_id; auto. intros x Hx. apply in_map_iff in Hx as (? & <- & _). auto. - apply before_none. intros x Hx. apply in_map_iff in Hx as (? & <- & _). auto. Qed.

  Lemma no_post {A} (P : list op -> list A) l : (forall o q, is_wait o = true -> P (o :: q) = P q) -> (forall o, In o l -> is_wait o = true) -> P l = P [].
  Proof. intros H W. induction l as [|o l IH]; auto. rewrite H by (apply W; simpl; auto). apply IH. intros; apply W; simpl; auto. Qed.
  Lemma wait_sends d t (l : list op) : (forall o, In o l -> is_wait o = true) -> sends d t l = [].
  Proof. intros W. apply (no_post (sends d t)); auto. intros []; try discriminate; auto. Qed.
  Lemma wait_recvs d t (l : list op) : (forall o, In o l -> is_wait o = true) -> recvs d t l = [].
  Proof. intros W. apply (no_post (recvs d t)); auto. intros []; try discriminate; auto. Qed.
  Lemma wait_enters (l : list op) : (forall o, In o l -> is_wait o = true) -> enters l = 0%nat.
  Proof. induction l as [|o l IH]; intros W; auto. change (o :: l) with ([o] ++ l). rewrite enters_app, IH by (intros; apply W; simpl; auto). specialize (W o (or_introl eq_refl)). destruct o; try discriminate; auto. Qed.

  Section Ok.
    Variable plan : list item.
    Hypothesis Hok : Forall item_ok plan.
    Lemma tprog_sort r : StronglySorted (fun a b => fst a <= fst b)%nat (tprog plan r).
    Proof. unfold tprog. destruct (inr r); [apply timed_sorted|constructor]. Qed.
    Lemma tprog_par r x : In x (tprog plan r) -> is_wait (snd x) = Nat.odd (fst x).
    Proof.
      unfold tprog. destruct (inr r); [|intros []]. generalize 0%nat. induction Hok as [|it plan' K Kp IH]; intros i H; [contradiction|]. cbn [timed] in H. rewrite !in_app_iff, !in_map_iff in H.
      destruct H as [(o & <- & H)|[(o & <- & H)|H]]; [| |exact (IH Kp _ H)]; cbn [fst snd].
      - rewrite (k_post _ K r o H). symmetry. rewrite Nat.odd_mul. auto.
      - rewrite (k_wait _ K r o H). symmetry. rewrite Nat.odd_succ. rewrite Nat.even_mul. auto.
    Qed.
    Lemma tprog_out r : ~ rank r -> tprog plan r = [].
    Proof. intros H. unfold tprog. rewrite inr_false; auto. Qed.
    Lemma timed_P (P : list op -> list L) t i r : (forall a b, P (a ++ b) = P a ++ P b) -> (forall l, (forall o, In o l -> is_wait o = true) -> P l = []) -> forall plan', Forall item_ok plan' ->
      P (before t (timed i plan' r)) = concat (map (fun x => if (2 * fst x <? t)%nat then P (fst (snd x) r) else []) (combine (seq i (length plan')) plan')).
    Proof.
      intros PA PW plan'. assert (P [] = []) as P0 by (apply PW; intros ? []). revert i. induction plan' as [|it plan' IH]; intros i K; [auto|]. inversion K as [|? ? K1 K2]; subst. cbn [timed length seq combine map concat fst snd]. rewrite !before_app, !PA, !before_const, IH by auto.
      rewrite (PW (if (S (2 * i) <? t)%nat then snd it r else [])) by (destruct (S (2 * i) <? t)%nat; [apply (k_wait _ K1)|intros ? []]). cbn [app]. f_equal. destruct (2 * i <? t)%nat; auto.
    Qed.
    Lemma in_combine_r' {A} i (l : list A) x : In x (combine (seq i (length l)) l) -> In (snd x) l.
    Proof. destruct x as [a b]. apply in_combine_r. Qed.
    Lemma tprog_bal t s d tg : sends d tg (before t (tprog plan s)) = recvs s tg (before t (tprog plan d)).
    Proof.
      unfold tprog. rewrite Forall_forall in Hok. destruct (Z_le_dec 0 s), (Z_lt_dec s nr), (Z_le_dec 0 d), (Z_lt_dec d nr).
      all: try (rewrite (inr_false s) by lia); try (rewrite (inr_false d) by lia); try (rewrite (inr_true s) by lia); try (rewrite (inr_true d) by lia).
      all: rewrite ?(timed_P (sends d tg)), ?(timed_P (recvs s tg)) by (auto using sends_app, recvs_app, wait_sends, wait_recvs; apply Forall_forall; auto).
      all: try (f_equal; apply map_ext_in; intros x Hx; destruct (2 * fst x <? t)%nat; auto; apply k_bal; try lia; apply Hok; eapply in_combine_r'; eauto).
      all: try reflexivity.
      all: cbn [before filter map sends recvs flat_map].
      all: match goal with |- context[concat (map ?f ?l)] => replace (map f l) with (map (fun _ => @nil L) l) end.
      all: try (first [symmetry; apply concat_nil_Forall|apply concat_nil_Forall]; apply Forall_forall; intros ? Hx; apply in_map_iff in Hx as (? & <- & _); reflexivity).
      all: apply map_ext_in; intros x Hx; destruct (2 * fst x <? t)%nat; auto; symmetry; first [apply k_s|apply k_r]; try lia; apply Hok; eapply in_combine_r'; eauto.
    Qed.
    Lemma tprog_ent t r r' : rank r -> rank r' -> enters (before t (tprog plan r)) = enters (before t (tprog plan r')).
    Proof.
      intros B B'. unfold tprog. rewrite !inr_true by auto. generalize 0%nat. induction Hok as [|it plan' K Kp IH]; intros i; auto. cbn [timed]. rewrite !before_app, !enters_app, !before_const, (IH Kp (S i)).
      rewrite !(wait_enters (if (S (2 * i) <? t)%nat then snd it _ else [])) by (destruct (S (2 * i) <? t)%nat; [apply (k_wait _ K)|intros ? []]). f_equal. destruct (2 * i <? t)%nat; auto. apply K; auto.
    Qed.
  End Ok.
End Plan.

(** how programs of any plan run *)
Lemma plan_runs {L} nr (plan : list (@item L)) p : Forall (item_ok nr) plan -> (forall r, 0 <= r < nr -> p r = local plan r) ->
  forall n st, steps nr n (start nr p) st ->
    (finished nr st \/ exists st', step nr true st st') /\
    (n + todo nr st <= fold_right (fun r k => 2 * length (p r) + k) 0 (zrange 0 nr))%nat /\
    (forall c a b, In (c, (a, b)) (st_log st) -> a = b) /\
    ((forall st', ~ step nr false st st') -> finished nr st /\ st_sends st = [] /\ st_recvs st = [] /\
      forall s d t, 0 <= s < nr -> 0 <= d < nr -> map fst (on (s, d, t) (st_log st)) = sends d t (p s) /\ map snd (on (s, d, t) (st_log st)) = recvs s t (p d)).
Proof.
  intros Hok Hp n st H. pose (tp := tprog nr plan).
  assert (forall r, 0 <= r < nr -> prog tp r = local plan r) as Ep. { intros r B. unfold prog, tp, tprog. rewrite inr_true by auto. apply timed_snd. }
  assert (forall r, 0 <= r < nr -> p r = prog tp r) as Hp' by (intros; rewrite Hp, Ep; auto).
  pose proof (tprog_sort nr plan) as H1. pose proof (tprog_par nr plan Hok) as H2. pose proof (tprog_out nr plan) as H3. pose proof (tprog_bal nr plan Hok) as H4. pose proof (tprog_ent nr plan Hok) as H5. fold tp in H1, H2, H3, H4, H5.
  destruct (inv_steps nr tp H1 H2 H3 H4 H5 p n st Hp' H) as (dn & rs & I). pose proof (progress nr tp H1 H2 H3 H4 H5 st dn rs I) as Pr.
  split; [exact Pr|]. split; [|split; [intros c a b; eapply matched; eauto|]].
  - pose proof (steps_todo nr tp H1 H2 H3 H4 H5 n _ _ H) as Q. enough (todo nr (start nr p) = fold_right (fun r k => 2 * length (p r) + k) 0 (zrange 0 nr))%nat by lia.
    unfold todo. cbn [st_sends st_rest start length]. rewrite Nat.add_0_r. assert (forall r, In r (zrange 0 nr) -> 0 <= r < nr) as Hin by (intros; apply in_zrange; auto). revert Hin. induction (zrange 0 nr) as [|a l IH]; intros Hin; auto. cbn [fold_right]. rewrite IH by (intros; apply Hin; simpl; auto).
    specialize (Hin a (or_introl eq_refl)). destruct (Z.leb_spec 0 a), (Z.ltb_spec a nr); auto; lia.
  - intros Stop. assert (forall b st', ~ step nr b st st') as Stop'.
    { intros [] st' S; [|exact (Stop st' S)]. apply (Stop st'). clear - S. destruct S; [eapply do_snd|eapply do_rcv|eapply do_match|eapply do_sndwait|eapply do_rcvwait|eapply do_waitall|eapply do_enter|eapply do_leave]; eauto; discriminate. }
    destruct Pr as [F|(st' & S)]; [|destruct (Stop' _ _ S)]. destruct (finished_inv nr tp H1 H2 H3 H4 H5 st dn rs I F Stop') as (E1 & E2 & E3). split; auto. split; auto. split; auto.
    intros s d t Bs Bd. rewrite (Hp' s), (Hp' d) by auto. destruct (E3 s d t) as [Q1 Q2]. split; auto. rewrite Q2. eapply balance; eauto.
Qed.

Section Items.
  Variable nr : Z.
  Notation rank r := (0 <= r < nr).
  Definition posts (s d : Z) (ls : list label) (r : Z) : list (op label) :=
    (if (r =? s) && negb (r =? d) then map (Snd d 0) ls else []) ++ (if (r =? d) && negb (r =? s) then map (Rcv s 0) ls else []).
  Definition post_item (s d : Z) (ls : list label) : @item label := (posts s d ls, fun _ => []).
  Definition msg_item (s d : Z) (l : label) : @item label :=
    (posts s d [l], fun r => (if (r =? s) && negb (r =? d) then [SndWait d 0] else []) ++ (if (r =? d) && negb (r =? s) then [RcvWait s 0] else [])).
  Definition wait_item : @item label := (fun _ => [], fun _ => [WaitAll]).
  Definition coll_item : @item label := (fun _ => [Enter], fun _ => [Leave]).
  Definition all_item (l : label) : @item label := (fun r => map (fun i => Snd i r l) (zrange 0 nr) ++ map (fun i => Rcv i i l) (zrange 0 nr), fun _ => []).

  Lemma sends_snd d t d' t' (ls : list label) : sends d t (map (Snd d' t') ls) = if (d' =? d) && (t' =? t) then ls else [].
  Proof. induction ls as [|l ls IH]; cbn; [destruct (_ && _); auto|]. unfold sends in IH. rewrite IH. destruct (_ && _); auto. Qed.
  Lemma recvs_rcv s t s' t' (ls : list label) : recvs s t (map (Rcv s' t') ls) = if (s' =? s) && (t' =? t) then ls else [].
  Proof. induction ls as [|l ls IH]; cbn; [destruct (_ && _); auto|]. unfold recvs in IH. rewrite IH. destruct (_ && _); auto. Qed.
  Lemma sends_rcv d t s' t' (ls : list label) : sends d t (map (Rcv s' t') ls) = [].
  Proof. induction ls; auto. Qed.
  Lemma recvs_snd s t d' t' (ls : list label) : recvs s t (map (Snd d' t') ls) = [].
  Proof. induction ls; auto. Qed.
  Lemma enters_posts s d ls r : enters (posts s d ls r) = 0%nat.
  Proof. unfold posts. rewrite enters_app. assert (forall l : list label, enters (map (Snd d 0) l) = 0%nat) as A by (induction l; auto). assert (forall l : list label, enters (map (Rcv s 0) l) = 0%nat) as B by (induction l; auto). destruct (_ && negb _), (_ && negb _); rewrite ?A, ?B; auto. Qed.
  Lemma posts_sends s d ls d' t r : sends d' t (posts s d ls r) = if (r =? s) && negb (r =? d) && (d =? d') && (0 =? t) then ls else [].
  Proof. unfold posts. rewrite sends_app. destruct ((r =? s) && negb (r =? d)); cbn [andb]. - rewrite sends_snd. destruct ((r =? d) && negb (r =? s)); [rewrite sends_rcv|]; rewrite app_nil_r; auto. - destruct ((r =? d) && negb (r =? s)); [apply sends_rcv|auto]. Qed.
  Lemma posts_recvs s d ls s' t r : recvs s' t (posts s d ls r) = if (r =? d) && negb (r =? s) && (s =? s') && (0 =? t) then ls else [].
  Proof. unfold posts. rewrite recvs_app. destruct ((r =? s) && negb (r =? d)); [rewrite recvs_snd|]; cbn [andb app]; (destruct ((r =? d) && negb (r =? s)); cbn [andb]; [apply recvs_rcv|auto]). Qed.

  Lemma posts_ok s d ls g : rank s -> rank d -> (forall r o, In o (g r) -> is_wait o = true) -> item_ok nr (posts s d ls, g).
  Proof.
    intros Bs Bd W. constructor; cbn [fst snd]; auto.
    - intros r o H. unfold posts in H. apply in_app_iff in H as [H|H]; destruct (_ && _); try contradiction; apply in_map_iff in H as (? & <- & _); auto.
    - intros s' d' tg _ _. rewrite posts_sends, posts_recvs. destruct (Z.eqb_spec s' s) as [->|N1], (Z.eqb_spec d' d) as [->|N2]; cbn [andb].
      + rewrite !Z.eqb_refl. rewrite (Z.eqb_sym d s). rewrite andb_true_r. auto.
      + destruct (Z.eqb_spec d d'); [congruence|]. rewrite andb_false_r. auto.
      + destruct (Z.eqb_spec s s'); [congruence|]. rewrite andb_false_r. auto.
      + auto.
    - intros s' d' tg _ N. rewrite posts_sends. destruct (Z.eqb_spec d d') as [->|]; [lia|]. rewrite andb_false_r. auto.
    - intros s' d' tg N _. rewrite posts_recvs. destruct (Z.eqb_spec s s') as [->|]; [lia|]. rewrite andb_false_r. auto.
    - intros. rewrite !enters_posts. auto.
  Qed.
  Lemma post_ok s d ls : rank s -> rank d -> item_ok nr (post_item s d ls).
  Proof. intros. apply posts_ok; auto. Qed.
  Lemma msg_ok s d l : rank s -> rank d -> item_ok nr (msg_item s d l).
  Proof. intros. apply posts_ok; auto. intros r o Ho. apply in_app_iff in Ho as [Ho|Ho]; destruct (_ && _); try contradiction; destruct Ho as [<-|[]]; auto. Qed.
  Lemma wait_ok : item_ok nr wait_item.
  Proof. constructor; cbn; auto; try contradiction. intros r o [<-|[]]. auto. Qed.
  Lemma coll_ok : item_ok nr coll_item.
  Proof. constructor; cbn; auto; intros r o [<-|[]]; auto. Qed.
  Lemma sends_all l d t r : sends d t (fst (all_item l) r) = if (r =? t) && inr nr d then [l] else [].
  Proof.
    cbn [fst all_item]. rewrite sends_app. assert (sends d t (map (fun i => Rcv i i l) (zrange 0 nr)) = []) as -> by (induction (zrange 0 nr); auto). rewrite app_nil_r.
    destruct (Z.eqb_spec r t) as [->|N]; cbn [andb].
    2:{ induction (zrange 0 nr) as [|a q IH]; auto. cbn. destruct (Z.eqb_spec r t); [congruence|]. rewrite andb_false_r. auto. }
    pose proof (NoDup_zrange 0 nr) as Nd. assert (forall i, In i (zrange 0 nr) <-> inr nr i = true) as Hin. { intros i. rewrite in_zrange. unfold inr. rewrite andb_true_iff, Z.leb_le, Z.ltb_lt. tauto. }
    assert (forall q, NoDup q -> sends d t (map (fun i => Snd i t l) q) = if existsb (Z.eqb d) q then [l] else []) as G.
    { induction q as [|a q IH]; intros Nq; auto. inversion Nq as [|? ? Na Nq']; subst. cbn. rewrite Z.eqb_refl, andb_true_r, (Z.eqb_sym d a). fold (sends d t (map (fun i => Snd i t l) q)). rewrite IH by auto. destruct (Z.eqb_spec a d) as [->|]; auto. cbn.
      destruct (existsb (Z.eqb d) q) eqn:Ex; auto. apply existsb_exists in Ex as (z & Hz & Ez). apply Z.eqb_eq in Ez as <-. contradiction. }
    rewrite G by auto. destruct (existsb (Z.eqb d) (zrange 0 nr)) eqn:Ex.
    - apply existsb_exists in Ex as (z & Hz & Ez). apply Z.eqb_eq in Ez as <-. apply Hin in Hz. rewrite Hz. auto.
    - destruct (inr nr d) eqn:Er; auto. apply Hin in Er. assert (existsb (Z.eqb d) (zrange 0 nr) = true) as Q by (apply existsb_exists; exists d; split; auto; apply Z.eqb_refl). congruence.
  Qed.
  Lemma recvs_all l s t r : recvs s t (fst (all_item l) r) = if (s =? t) && inr nr s then [l] else [].
  Proof.
    cbn [fst all_item]. rewrite recvs_app. assert (recvs s t (map (fun i => Snd i r l) (zrange 0 nr)) = []) as -> by (induction (zrange 0 nr); auto). cbn [app].
    pose proof (NoDup_zrange 0 nr) as Nd. assert (forall i, In i (zrange 0 nr) <-> inr nr i = true) as Hin. { intros i. rewrite in_zrange. unfold inr. rewrite andb_true_iff, Z.leb_le, Z.ltb_lt. tauto. }
    assert (forall q, NoDup q -> recvs s t (map (fun i => Rcv i i l) q) = if (s =? t) && existsb (Z.eqb s) q then [l] else []) as G.
    { induction q as [|a q IH]; intros Nq; [rewrite andb_false_r; auto|]. inversion Nq as [|? ? Na Nq']; subst. cbn. fold (recvs s t (map (fun i => Rcv i i l) q)). rewrite IH by auto. rewrite (Z.eqb_sym s a). destruct (Z.eqb_spec a s) as [->|]; cbn [andb orb app]; [|destruct (a =? t); auto].
      destruct (Z.eqb_spec s t) as [->|]; auto. cbn.
      destruct (existsb (Z.eqb t) q) eqn:Ex; auto. apply existsb_exists in Ex as (z & Hz & Ez). apply Z.eqb_eq in Ez as <-. contradiction. }
    rewrite G by auto. f_equal. f_equal. destruct (existsb (Z.eqb s) (zrange 0 nr)) eqn:Ex.
    - apply existsb_exists in Ex as (z & Hz & Ez). apply Z.eqb_eq in Ez as <-. apply Hin in Hz. rewrite Hz. auto.
    - destruct (inr nr s) eqn:Er; auto. apply Hin in Er. assert (existsb (Z.eqb s) (zrange 0 nr) = true) as Q by (apply existsb_exists; exists s; split; auto; apply Z.eqb_refl). congruence.
  Qed.
  Lemma all_ok l : item_ok nr (all_item l).
  Proof.
    constructor.
    - intros r o H. apply in_app_iff in H as [H|H]; apply in_map_iff in H as (? & <- & _); auto.
    - intros r o [].
    - intros s d tg Bs Bd. rewrite sends_all, recvs_all, !inr_true by auto. auto.
    - intros s d tg Bs Bd. rewrite sends_all, inr_false by auto. rewrite andb_false_r. auto.
    - intros s d tg Bs Bd. rewrite recvs_all, inr_false by auto. rewrite andb_false_r. auto.
    - intros r r' _ _. cbn [fst all_item]. rewrite !enters_app. f_equal; induction (zrange 0 nr); auto.
  Qed.

  (** *** the loops *)
  Lemma local_app (p q : list (@item label)) r : local (p ++ q) r = local p r ++ local q r.
  Proof. apply flat_map_app. Qed.
  Lemma local_flat {A} (F : A -> list (@item label)) l r : local (flat_map F l) r = flat_map (fun a => local (F a) r) l.
  Proof. induction l as [|a l IH]; auto. cbn [flat_map]. rewrite local_app, IH. auto. Qed.
  Lemma local_map {A} (F : A -> @item label) l r : local (map F l) r = flat_map (fun a => fst (F a) r ++ snd (F a) r) l.
  Proof. induction l as [|a l IH]; auto. cbn. unfold local in IH. rewrite IH. auto. Qed.
  Lemma flat_ext {A B} (f g : A -> list B) l : (forall a, f a = g a) -> flat_map f l = flat_map g l.
  Proof. intros H. induction l as [|a l IH]; auto. cbn. rewrite H, IH. auto. Qed.

  Section Loops.
    Variables (x : nat) (w : which) (own : Z -> Z) (ranks : Z -> list Z) (ns : Z) (parts : Z -> Z -> nat).
    Hypothesis Hown : forall j, 0 <= j < ns -> rank (own j).
    Hypothesis Hranks : forall j d, 0 <= j < ns -> In d (ranks j) -> rank d.
    Definition plan_bc := flat_map (fun j => map (fun dst => msg_item (own j) dst (x, w, Counts, j)) (ranks j)) (zrange 0 ns).
    Definition plan_bs := flat_map (fun j => map (fun dst => post_item (own j) dst (map (fun k => (x, w, Contents k, j)) (seq 0 (parts j (own j))))) (ranks j)) (zrange 0 ns).
    Definition plan_rc := flat_map (fun j => map (fun src => msg_item src (own j) (x, w, Counts, j)) (ranks j)) (zrange 0 ns).
    Definition plan_rs := flat_map (fun j => map (fun src => post_item src (own j) (map (fun k => (x, w, Contents k, j)) (seq 0 (parts j src)))) (ranks j)) (zrange 0 ns).
    Lemma nested_ok (F : Z -> Z -> @item label) : (forall j d, 0 <= j < ns -> In d (ranks j) -> item_ok nr (F j d)) -> Forall (item_ok nr) (flat_map (fun j => map (F j) (ranks j)) (zrange 0 ns)).
    Proof. intros H. apply Forall_forall. intros it Hi. apply in_flat_map in Hi as (j & Hj & Hi). apply in_zrange in Hj. apply in_map_iff in Hi as (d & <- & Hd). auto. Qed.
    Lemma plan_bc_ok : Forall (item_ok nr) plan_bc. Proof. apply nested_ok. intros. apply msg_ok; eauto. Qed.
    Lemma plan_bs_ok : Forall (item_ok nr) plan_bs. Proof. apply nested_ok. intros. apply post_ok; eauto. Qed.
    Lemma plan_rc_ok : Forall (item_ok nr) plan_rc. Proof. apply nested_ok. intros. apply msg_ok; eauto. Qed.
    Lemma plan_rs_ok : Forall (item_ok nr) plan_rs. Proof. apply nested_ok. intros. apply post_ok; eauto. Qed.
    Ltac two r s d := destruct (Z.eqb_spec r s) as [->|]; destruct (Z.eqb_spec r d) as [->|]; try (destruct (Z.eqb_spec s d)); cbn [andb negb app]; try congruence; auto.
    Lemma plan_bc_local r : local plan_bc r = bcast_counts x w own ranks ns r.
    Proof.
      unfold plan_bc, bcast_counts. rewrite local_flat. apply flat_ext. intros j. rewrite local_map. apply flat_ext. intros d. cbn [fst snd msg_item]. unfold posts, send_nnz, recv_nnz.
      destruct (Z.eqb_spec r (own j)) as [->|]; [destruct (Z.eqb_spec (own j) d)|destruct (Z.eqb_spec r d)]; cbn [andb negb app map]; auto.
    Qed.
    Lemma plan_rc_local r : local plan_rc r = reduce_counts x w own ranks ns r.
    Proof.
      unfold plan_rc, reduce_counts. rewrite local_flat. apply flat_ext. intros j. rewrite local_map. apply flat_ext. intros d. cbn [fst snd msg_item]. unfold posts, send_nnz, recv_nnz.
      destruct (Z.eqb_spec r (own j)) as [->|]; [destruct (Z.eqb_spec (own j) d)|destruct (Z.eqb_spec r d)]; cbn [andb negb app map]; auto.
    Qed.
    Lemma plan_bs_local r : local plan_bs r = bcast_contents x w own ranks ns parts r.
    Proof.
      unfold plan_bs, bcast_contents. rewrite local_flat. apply flat_ext. intros j. rewrite local_map. apply flat_ext. intros d. cbn [fst snd post_item]. unfold posts, send_segment, recv_segment. rewrite app_nil_r, !map_map. auto.
    Qed.
    Lemma plan_rs_local r : local plan_rs r = reduce_contents x w own ranks ns parts r.
    Proof.
      unfold plan_rs, reduce_contents. rewrite local_flat. apply flat_ext. intros j. rewrite local_map. apply flat_ext. intros d. cbn [fst snd post_item]. unfold posts, send_segment, recv_segment. rewrite app_nil_r, !map_map.
      destruct (Z.eqb_spec r (own j)) as [->|]; [destruct (Z.eqb_spec (own j) d)|destruct (Z.eqb_spec r d)]; cbn [andb negb app]; rewrite ?app_nil_r; auto.
    Qed.
  End Loops.

  (** *** the exchanges *)
  Lemma cols_in y j d : layout_ok nr y -> 0 <= j < ly_ntx y -> In d (cols y j) -> rank d.
  Proof. intros K B H. unfold cols in H. rewrite set_of_in in H. apply in_map_iff in H as (i & <- & Hi). apply in_zrange in Hi. apply K; auto. Qed.
  Lemma rows_in y i d : layout_ok nr y -> 0 <= i < ly_nty y -> In d (rows y i) -> rank d.
  Proof. intros K B H. unfold rows in H. rewrite set_of_in in H. apply in_map_iff in H as (j & <- & Hj). apply in_zrange in Hj. apply K; auto. Qed.
  Lemma rowcols_in y i d : layout_ok nr y -> ly_ntx y = ly_nty y -> 0 <= i < ly_ntx y -> In d (rowcols y i) -> rank d.
  Proof. intros K E B H. unfold rowcols in H. rewrite set_of_in in H. apply in_app_iff in H as [H|H]; [eapply rows_in|eapply cols_in]; eauto. lia. Qed.

  Definition exchange_plan (x : nat) (e : exchange) : list (@item label) :=
    match e with
    | XMult y px py =>
        plan_bc x OfX (ly_own y) (cols y) (ly_ntx y) ++ plan_bs x OfX (ly_own y) (cols y) (ly_ntx y) px ++ [wait_item] ++
        plan_rc x OfY (ly_own y) (rows y) (ly_nty y) ++ plan_rs x OfY (ly_own y) (rows y) (ly_nty y) py ++ [wait_item]
    | XMult3 y px pvp py =>
        plan_bc x OfX (ly_own y) (cols y) (ly_ntx y) ++ plan_bc x OfVp (ly_own y) (rows y) (ly_nty y) ++
        plan_bs x OfX (ly_own y) (cols y) (ly_ntx y) px ++ plan_bs x OfVp (ly_own y) (rows y) (ly_nty y) pvp ++ [wait_item] ++
        plan_rc x OfY (ly_own y) (rows y) (ly_nty y) ++ plan_rs x OfY (ly_own y) (rows y) (ly_nty y) py ++ [wait_item]
    | XEdges y pvp => plan_bc x OfVp (ly_own y) (rowcols y) (ly_ntx y) ++ plan_bs x OfVp (ly_own y) (rowcols y) (ly_ntx y) pvp ++ [wait_item]
    | XReduce => map (fun i => msg_item i 0 (x, OfResult, Counts, i)) (zrange 1 nr) ++ [coll_item]
    | XShuffle => [coll_item; all_item (x, OfEdges, Counts, 0); wait_item; coll_item; all_item (x, OfEdges, Contents 0, 0); wait_item; coll_item]
    | XCollective => [coll_item]
    end.
  Lemma exchange_plan_ok x e : 0 < nr -> exchange_ok nr e -> Forall (item_ok nr) (exchange_plan x e).
  Proof.
    intros Pos K. destruct e; cbn [exchange_plan exchange_ok] in *.
    - repeat (apply Forall_app; split).
      1: apply plan_bc_ok. 3: apply plan_bs_ok. 6: apply plan_rc_ok. 8: apply plan_rs_ok.
      all: try (constructor; [apply wait_ok|constructor]).
      all: try (intros; apply K; auto; fail). all: intros j d B H; first [eapply cols_in; [| |exact H]; eauto|eapply rows_in; [| |exact H]; eauto].
    - repeat (apply Forall_app; split).
      1: apply plan_bc_ok. 3: apply plan_bc_ok. 5: apply plan_bs_ok. 7: apply plan_bs_ok. 10: apply plan_rc_ok. 12: apply plan_rs_ok.
      all: try (constructor; [apply wait_ok|constructor]).
      all: try (intros; apply K; auto; fail). all: intros j d B H; first [eapply cols_in; [| |exact H]; eauto|eapply rows_in; [| |exact H]; eauto].
    - destruct K as [K E]. repeat (apply Forall_app; split).
      1: apply plan_bc_ok. 3: apply plan_bs_ok.
      all: try (constructor; [apply wait_ok|constructor]).
      all: try (intros; apply K; auto; fail). all: intros j d B H; eapply rowcols_in; eauto.
    - apply Forall_app; split; [|constructor; [apply coll_ok|constructor]]. apply Forall_forall. intros it H. apply in_map_iff in H as (i & <- & Hi). apply in_zrange in Hi. apply msg_ok; lia.
    - repeat (constructor; [first [apply coll_ok|apply wait_ok|apply all_ok]|]). constructor.
    - constructor; [apply coll_ok|constructor].
  Qed.
  Lemma reduce_local x r : local (map (fun i => msg_item i 0 (x, OfResult, Counts, i)) (zrange 1 nr)) r =
    flat_map (fun i => if r =? i then [Snd 0 0 (x, OfResult, Counts, i); SndWait 0 0] else []) (zrange 1 nr) ++
    flat_map (fun i => if r =? 0 then [Rcv i 0 (x, OfResult, Counts, i); RcvWait i 0] else []) (zrange 1 nr).
  Proof.
    rewrite local_map. assert (forall i, In i (zrange 1 nr) -> 1 <= i < nr) as Hin by (intros; apply in_zrange; auto). revert Hin. generalize (zrange 1 nr). intros l Hin.
    destruct (Z.eqb_spec r 0) as [->|N].
    - replace (flat_map (fun i => if 0 =? i then _ else _) l) with (@nil (op label)); [cbn [app]|].
      + induction l as [|i l IH]; auto. cbn [flat_map]. rewrite IH by (intros; apply Hin; simpl; auto). specialize (Hin i (or_introl eq_refl)). cbn [fst snd msg_item]. unfold posts. destruct (Z.eqb_spec 0 i); [lia|]. cbn. auto.
      + induction l as [|i l IH]; auto. cbn [flat_map]. rewrite <- IH by (intros; apply Hin; simpl; auto). specialize (Hin i (or_introl eq_refl)). destruct (Z.eqb_spec 0 i); [lia|]. auto.
    - assert (forall q : list Z, flat_map (fun _ : Z => @nil (op label)) q = []) as -> by (induction q; auto). rewrite app_nil_r.
      induction l as [|i l IH]; auto. cbn [flat_map]. rewrite IH by (intros; apply Hin; simpl; auto). cbn [fst snd msg_item]. unfold posts. destruct (Z.eqb_spec r 0); [contradiction|]. destruct (Z.eqb_spec r i); cbn; auto.
  Qed.
  Lemma exchange_plan_local x e r : local (exchange_plan x e) r = exchange_ops nr x e r.
  Proof.
    destruct e; cbn [exchange_plan exchange_ops]; unfold mult_ops, mult3_ops, edges_ops, reduce_ops;
      rewrite ?local_app, ?plan_bc_local, ?plan_bs_local, ?plan_rc_local, ?plan_rs_local, ?reduce_local, <- ?app_assoc; try reflexivity.
    unfold shuffle_ops, local. cbn [flat_map fst snd coll_item all_item wait_item app]. rewrite ?app_nil_r, <- ?app_assoc. cbn [app]. rewrite <- ?app_assoc. reflexivity.
  Qed.
  Fixpoint all_plan (x : nat) (es : list exchange) : list (@item label) := match es with [] => [] | e :: es => exchange_plan x e ++ all_plan (S x) es end.
  Lemma all_plan_ok x es : 0 < nr -> Forall (exchange_ok nr) es -> Forall (item_ok nr) (all_plan x es).
  Proof. intros Pos H. revert x. induction H as [|e es K _ IH]; intros x; [constructor|]. apply Forall_app. split; [apply exchange_plan_ok; auto|apply IH]. Qed.
  Lemma all_plan_local es r : forall x, local (all_plan x es) r = all_ops nr x es r.
  Proof. induction es as [|e es IH]; intros x; auto. cbn [all_plan all_ops]. rewrite local_app, exchange_plan_local, IH. auto. Qed.
End Items.

Lemma exchanges_run nr es : 0 < nr -> Forall (exchange_ok nr) es -> forall n st, steps nr n (start nr (all_ops nr 0 es)) st ->
  (finished nr st \/ exists st', step nr true st st') /\
  (n <= fold_right (fun r k => 2 * length (all_ops nr 0 es r) + k) 0 (zrange 0 nr))%nat /\
  (forall c a b, In (c, (a, b)) (st_log st) -> a = b) /\
  ((forall st', ~ step nr false st st') -> finished nr st /\ st_sends st = [] /\ st_recvs st = [] /\
    forall s d t, 0 <= s < nr -> 0 <= d < nr -> map fst (on (s, d, t) (st_log st)) = sends d t (all_ops nr 0 es s) /\ map snd (on (s, d, t) (st_log st)) = recvs s t (all_ops nr 0 es d)).
Proof.
  intros Pos K n st H. destruct (plan_runs nr (all_plan nr 0 es) (all_ops nr 0 es) (all_plan_ok nr 0 es Pos K)) with (n := n) (st := st) as (Q1 & Q2 & Q3 & Q4); auto.
  - intros r _. symmetry. apply all_plan_local.
  - split; auto. split; [lia|]. auto.
Qed.

Lemma weaken {L} nr (st st' : state L) : step nr true st st' -> step nr false st st'.
Proof. intros S. destruct S; [eapply do_snd|eapply do_rcv|eapply do_match|eapply do_sndwait|eapply do_rcvwait|eapply do_waitall|eapply do_enter|eapply do_leave]; eauto; discriminate. Qed.
Lemma exchanges_complete nr es : 0 < nr -> Forall (exchange_ok nr) es -> forall n st, steps nr n (start nr (all_ops nr 0 es)) st ->
  exists st', sure_steps nr st st' /\ finished nr st'.
Proof.
  intros Pos K n st H.
  remember (fold_right (fun r k => 2 * length (all_ops nr 0 es r) + k) 0 (zrange 0 nr) - n)%nat as left. revert n st H Heqleft. induction left as [left IH] using (well_founded_induction lt_wf). intros n st H ->.
  destruct (exchanges_run nr es Pos K n st H) as ([F|(st1 & S1)] & B & _); [exists st; split; auto; constructor|].
  assert (steps nr (S n) (start nr (all_ops nr 0 es)) st1) as H1 by (econstructor; [exact H|apply weaken; auto]).
  destruct (exchanges_run nr es Pos K (S n) st1 H1) as (_ & B1 & _).
  destruct (IH (fold_right (fun r k => 2 * length (all_ops nr 0 es r) + k) 0 (zrange 0 nr) - S n)%nat ltac:(lia) (S n) st1 H1 eq_refl) as (st' & Q & F). exists st'. split; auto. econstructor; eauto.
Qed.
