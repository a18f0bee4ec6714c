From Coq Require Import QArith Qcanon Lqa.
From Verif Require Import Base BaseLemmas DCSC RankSpec IncRankProofs SgdSpec SgdProofs Lda LdaSpec.
Local Open Scope Qc_scope.

(** *** signs *)
Lemma qc0 : this 0%Qc = 0%Q. Proof. reflexivity. Qed.
Lemma qc1 : this 1%Qc = 1%Q. Proof. reflexivity. Qed.
Lemma nonneg_plus a b : 0 <= a -> 0 <= b -> 0 <= a + b.
Proof. unfold Qcle. rewrite this_plus, qc0. lra. Qed.
Lemma pos_plus_l a b : 0 < a -> 0 <= b -> 0 < a + b.
Proof. unfold Qcle, Qclt. rewrite this_plus, qc0. lra. Qed.
Lemma pos_plus_r a b : 0 <= a -> 0 < b -> 0 < a + b.
Proof. unfold Qcle, Qclt. rewrite this_plus, qc0. lra. Qed.
Lemma nonneg_mult a b : 0 <= a -> 0 <= b -> 0 <= a * b.
Proof. unfold Qcle. rewrite this_mult, qc0. apply Qmult_le_0_compat. Qed.
Lemma pos_mult a b : 0 < a -> 0 < b -> 0 < a * b.
Proof. unfold Qclt. rewrite this_mult, qc0. apply Qmult_lt_0_compat. Qed.
Lemma pos_inv a : 0 < a -> 0 < / a.
Proof. unfold Qclt. rewrite this_inv, qc0. apply Qinv_lt_0_compat. Qed.
Lemma pos_nonneg a : 0 < a -> 0 <= a. Proof. apply Qclt_le_weak. Qed.
Lemma pos_not a : 0 < a -> a <> 0. Proof. intros H ->. apply (Qclt_not_le _ _ H), Qcle_refl. Qed.
Lemma nonneg_div a b : 0 <= a -> 0 < b -> 0 <= a / b. Proof. intros H1 H2. apply nonneg_mult; [auto|apply pos_nonneg, pos_inv, H2]. Qed.
Lemma pos_div a b : 0 < a -> 0 < b -> 0 < a / b. Proof. intros H1 H2. apply pos_mult; [auto|apply pos_inv, H2]. Qed.
Lemma pos_qint w : (0 < w)%Z -> 0 < qint w.
Proof. intros H. unfold Qclt, qint. rewrite !this_q. unfold Qlt. cbn. lia. Qed.
Lemma nonneg_minus a b : a <= b -> 0 <= b - a. Proof. unfold Qcle. rewrite this_minus, qc0. lra. Qed.
Lemma pos_minus a b : a < b -> 0 < b - a. Proof. unfold Qclt. rewrite this_minus, qc0. lra. Qed.
Lemma le_minus a b : 0 <= b - a -> a <= b. Proof. unfold Qcle. rewrite this_minus, qc0. lra. Qed.
Lemma qsum_nonneg {A} (f : A -> Qc) l : (forall a, In a l -> 0 <= f a) -> 0 <= qsum (map f l).
Proof. induction l as [|a l IH]; intros H; [apply Qcle_refl|]. cbn [map]. rewrite qsum_cons. apply nonneg_plus; [apply H; cbn; auto|apply IH; intros; apply H; cbn; auto]. Qed.
Lemma qsum_pos {A} (f : A -> Qc) l a : (forall a, In a l -> 0 <= f a) -> In a l -> 0 < f a -> 0 < qsum (map f l).
Proof.
  induction l as [|b l IH]; intros H Ha Hp; [destruct Ha|]. cbn [map]. rewrite qsum_cons. destruct Ha as [->|Ha].
  - apply pos_plus_l; [auto|]. apply qsum_nonneg. intros; apply H; cbn; auto.
  - apply pos_plus_r; [apply H; cbn; auto|]. apply IH; auto. intros; apply H; cbn; auto.
Qed.
Lemma qsum_pos_some {A} (f : A -> Qc) l : (forall a, In a l -> 0 <= f a) -> 0 < qsum (map f l) -> exists a, In a l /\ 0 < f a.
Proof.
  induction l as [|b l IH]; intros H Hp; [exfalso; apply (Qclt_not_le _ _ Hp), Qcle_refl|]. cbn [map] in Hp. rewrite qsum_cons in Hp. destruct (Qclt_le_dec 0 (f b)) as [Hb|Hb]; [exists b; cbn; auto|].
  assert (f b = 0) as E0 by (apply Qcle_antisym; [exact Hb|apply H; cbn; auto]). rewrite E0, Qcplus_0_l in Hp. destruct IH as (a & Ha & Hf); [intros; apply H; cbn; auto|exact Hp|]. exists a. cbn. auto.
Qed.
Lemma qsum_ge {A} (f : A -> Qc) l a : (forall a, In a l -> 0 <= f a) -> In a l -> 0 <= qsum (map f l) - f a.
Proof.
  induction l as [|b l IH]; intros H Ha; [destruct Ha|]. cbn [map]. rewrite qsum_cons. destruct Ha as [->|Ha].
  - replace (f a + qsum (map f l) - f a) with (qsum (map f l)) by ring. apply qsum_nonneg. intros; apply H; cbn; auto.
  - replace (f b + qsum (map f l) - f a) with (f b + (qsum (map f l) - f a)) by ring. apply nonneg_plus; [apply H; cbn; auto|]. apply IH; auto. intros; apply H; cbn; auto.
Qed.
Lemma qsum_scale_r {A} c (f : A -> Qc) l : qsum (map (fun a => f a * c) l) = qsum (map f l) * c.
Proof. rewrite (qsum_ext _ (fun a => c * f a)) by (intros; ring). rewrite qsum_scale. ring. Qed.
Lemma qsum_filter {A} (b : A -> bool) (f : A -> Qc) l : qsum (map f (filter b l)) = qsum (map (fun a => if b a then f a else 0) l).
Proof. induction l as [|a l IH]; [reflexivity|]. cbn [filter map]. rewrite qsum_cons, <- IH. destruct (b a); cbn [map]; rewrite ?qsum_cons; ring. Qed.
Lemma qsum_const {A} c (l : list A) : qsum (map (fun _ => c) l) = qint (zlen l) * c.
Proof.
  induction l as [|a l IH]; [change (0 = 0 * c); ring|]. cbn [map]. rewrite qsum_cons, IH, zlen_cons. unfold qint.
  replace (Q2Qc (inject_Z (1 + zlen l))) with (Q2Qc (inject_Z (zlen l)) + 1); [ring|]. apply Qc_is_canon. rewrite this_plus, !this_q, inject_Z_plus. apply Qplus_comm.
Qed.
Lemma filter_none {A} (b : A -> bool) l : (forall a, In a l -> b a = false) -> filter b l = [].
Proof. induction l as [|a l IH]; intros H; [reflexivity|]. cbn [filter]. rewrite H by (cbn; auto). apply IH. intros; apply H; cbn; auto. Qed.
Lemma filter_every {A} (b : A -> bool) l : (forall a, In a l -> b a = true) -> filter b l = l.
Proof. induction l as [|a l IH]; intros H; [reflexivity|]. cbn [filter]. rewrite H by (cbn; auto). f_equal. apply IH. intros; apply H; cbn; auto. Qed.
Lemma terms_count n ndoc : (0 <= ndoc <= n)%Z -> zlen (filter (fun v => (ndoc <? v)%Z) (zrange 1 (n + 1))) = (n - ndoc)%Z.
Proof.
  intros H. rewrite (zrange_app 1 (ndoc + 1) (n + 1)) by lia. rewrite filter_app, filter_none.
  - cbn [app]. rewrite (filter_every (fun v => (ndoc <? v)%Z)) by (intros a Ha; apply in_zrange in Ha; apply Z.ltb_lt; lia). rewrite zlen_zrange; lia.
  - intros a Ha. apply in_zrange in Ha. apply Z.ltb_ge. lia.
Qed.

Lemma qover_minus K f g : qover K f - qover K g = qsum (map (fun i => f i - g i) (seq 0 K)).
Proof. unfold qover. induction (seq 0 K) as [|a l IH]; [cbn; ring|]. cbn [map]. rewrite !qsum_cons, <- IH. ring. Qed.

Section Counts.
  Variables (K : nat) (ndoc n : Z) (es : list (edge Z)).
  Hypothesis Hes : forall e, In e es -> (1 <= e_src e <= ndoc /\ ndoc < e_dst e <= n /\ 0 < e_val e)%Z.
  Notation doc v := ((v <=? ndoc)%Z). Notation term v := ((ndoc <? v)%Z).
  Notation vertices := (zrange 1 (n + 1)).
  (** what holds between two rounds *)
  Definition counted (x : Z -> nat -> Qc) : Prop :=
    (forall v, touched es v = true -> (forall i, (i < K)%nat -> 0 <= x v i) /\ qover K (x v) = occurrences es v) /\
    forall i, (i < K)%nat -> qsum (map (fun v => x v i) (filter (fun v => doc v && touched es v) vertices)) = qsum (map (fun v => x v i) (filter (fun v => term v && touched es v) vertices)).

  Lemma ends_of v : touched es v = true -> exists e, In e es /\ ((e_src e = v /\ (1 <= v <= ndoc)%Z) \/ (e_dst e = v /\ (ndoc < v <= n)%Z)).
  Proof.
    unfold touched. rewrite existsb_exists. intros (e & He & Ho). exists e. split; [exact He|]. specialize (Hes e He). apply orb_true_iff in Ho as [Ho|Ho]; apply Z.eqb_eq in Ho; [left|right]; lia.
  Qed.
  Lemma touched_src e : In e es -> touched es (e_src e) = true.
  Proof using. intros He. apply existsb_exists. exists e. rewrite Z.eqb_refl. auto. Qed.
  Lemma touched_dst e : In e es -> touched es (e_dst e) = true.
  Proof using. intros He. apply existsb_exists. exists e. rewrite Z.eqb_refl, orb_true_r. auto. Qed.
  Lemma occurrences_pos v : touched es v = true -> 0 < occurrences es v.
  Proof.
    intros Ht. assert (Hq : forall (b : edge Z -> bool) e, In e (filter b es) -> 0 <= qint (e_val e)) by (intros b e He; apply filter_In in He as [He _]; apply pos_nonneg, pos_qint, Hes, He).
    destruct (ends_of v Ht) as (e & He & [[Ev _]|[Ev _]]); unfold occurrences.
    - apply pos_plus_r; [apply qsum_nonneg; apply Hq|]. apply (qsum_pos _ _ e); [apply Hq|apply filter_In; rewrite Ev, Z.eqb_refl; auto|apply pos_qint, Hes, He].
    - apply pos_plus_l; [|apply qsum_nonneg; apply Hq]. apply (qsum_pos _ _ e); [apply Hq|apply filter_In; rewrite Ev, Z.eqb_refl; auto|apply pos_qint, Hes, He].
  Qed.

  (** giving both ends of every edge the same parts of its weight *)
  Lemma gather_counted f c old : (forall e i, In e es -> (i < K)%nat -> f (e_dst e) (e_src e) (e_val e) i = c e i /\ f (e_src e) (e_dst e) (e_val e) i = c e i /\ 0 <= c e i) ->
    (forall e, In e es -> qover K (c e) = qint (e_val e)) -> counted (gather es f old).
  Proof.
    intros Hf Hc. assert (Hd : forall v i, (i < K)%nat -> map (fun e => f v (e_src e) (e_val e) i) (filter (fun e => (e_dst e =? v)%Z) es) = map (fun e => c e i) (filter (fun e => (e_dst e =? v)%Z) es)).
    { intros v i Hi. apply map_ext_in. intros e He. apply filter_In in He as [He Ev]. apply Z.eqb_eq in Ev. subst v. apply Hf; auto. }
    assert (Hs : forall v i, (i < K)%nat -> map (fun e => f v (e_dst e) (e_val e) i) (filter (fun e => (e_src e =? v)%Z) es) = map (fun e => c e i) (filter (fun e => (e_src e =? v)%Z) es)).
    { intros v i Hi. apply map_ext_in. intros e He. apply filter_In in He as [He Ev]. apply Z.eqb_eq in Ev. subst v. apply Hf; auto. }
    split.
    - intros v Tv. split.
      + intros i Hi. unfold gather. rewrite Tv, Hd, Hs by exact Hi. apply nonneg_plus; apply qsum_nonneg; intros e He; apply filter_In in He as [He _]; apply Hf; auto.
      + unfold qover. rewrite (qsum_ext _ (fun i => qsum (map (fun e => c e i) (filter (fun e => (e_dst e =? v)%Z) es)) + qsum (map (fun e => c e i) (filter (fun e => (e_src e =? v)%Z) es)))).
        * rewrite qsum_plus, !(qsum_swap (fun i e => c e i)). unfold occurrences. f_equal; apply qsum_ext; intros e He; apply filter_In in He as [He _]; apply Hc, He.
        * intros i Hi. apply in_seq in Hi. unfold gather. rewrite Tv, Hd, Hs by lia. reflexivity.
    - intros i Hi. transitivity (qsum (map (fun e => c e i) es)).
      + rewrite <- (qsum_split (@e_src Z) _ n) by (intros e He; specialize (Hes e He); lia). rewrite qsum_filter. apply qsum_ext. intros v _. unfold gather. destruct (touched es v) eqn:Tv.
        * rewrite andb_true_r. rewrite Hd, Hs by exact Hi. destruct (Z.leb_spec v ndoc).
          -- rewrite (filter_none (fun e => (e_dst e =? v)%Z)); [cbn; ring|]. intros e He. specialize (Hes e He). apply Z.eqb_neq. lia.
          -- rewrite (filter_none (fun e => (e_src e =? v)%Z)); [reflexivity|]. intros e He. specialize (Hes e He). apply Z.eqb_neq. lia.
        * rewrite andb_false_r. rewrite (filter_none (fun e => (e_src e =? v)%Z)); [reflexivity|]. intros e He. apply Z.eqb_neq. intros <-. rewrite touched_src in Tv by exact He. discriminate.
      + rewrite <- (qsum_split (@e_dst Z) _ n) by (intros e He; specialize (Hes e He); lia). rewrite qsum_filter. apply qsum_ext. intros v _. unfold gather. destruct (touched es v) eqn:Tv.
        * rewrite andb_true_r. rewrite Hd, Hs by exact Hi. destruct (Z.ltb_spec ndoc v).
          -- rewrite (filter_none (fun e => (e_src e =? v)%Z)); [cbn; ring|]. intros e He. specialize (Hes e He). apply Z.eqb_neq. lia.
          -- rewrite (filter_none (fun e => (e_dst e =? v)%Z)); [reflexivity|]. intros e He. specialize (Hes e He). apply Z.eqb_neq. lia.
        * rewrite andb_false_r. rewrite (filter_none (fun e => (e_dst e =? v)%Z)); [reflexivity|]. intros e He. apply Z.eqb_neq. intros <-. rewrite touched_dst in Tv by exact He. discriminate.
  Qed.

  Lemma portion_total gamma w : 0 < qover K gamma -> qover K (portion K gamma w) = qint w.
  Proof using.
    intros H. apply pos_not in H. unfold portion. unfold qover at 1. rewrite qsum_scale_r. unfold Qcdiv. rewrite qsum_scale_r. change (qsum (map gamma (seq 0 K))) with (qover K gamma). field. exact H.
  Qed.
  Lemma portion_nonneg gamma w i : (0 < w)%Z -> 0 <= gamma i -> 0 < qover K gamma -> 0 <= portion K gamma w i.
  Proof using. intros Hw Hg H. apply nonneg_mult; [apply nonneg_div; auto|apply pos_nonneg, pos_qint, Hw]. Qed.

  Variables (rnd : Z -> nat -> Qc) (junk : Z -> nat -> Qc) (alpha eta : Qc).
  Hypothesis Hrnd : forall e, In e es -> (forall i, (i < K)%nat -> 0 <= rnd (e_val e) i) /\ 0 < qover K (rnd (e_val e)).
  Hypothesis Hjunk : forall v i, (ndoc < v <= n)%Z -> touched es v = false -> (i < K)%nat -> 0 <= junk v i.
  Hypothesis Ha : 1 <= alpha.
  Hypothesis Heta : 1 < eta.

  Lemma seeded_counted : counted (seeded K es rnd junk).
  Proof.
    apply (gather_counted _ (fun e => portion K (rnd (e_val e)) (e_val e))).
    - intros e i He Hi. split; [reflexivity|]. split; [reflexivity|]. apply portion_nonneg; [apply Hes, He|apply Hrnd; auto|apply Hrnd, He].
    - intros e He. apply portion_total, Hrnd, He.
  Qed.
  Definition kept (x : Z -> nat -> Qc) : Prop := forall v, touched es v = false -> x v = junk v.
  Section Step.
    Variable x : Z -> nat -> Qc.
    Hypothesis Hx : counted x.
    Hypothesis Hk : kept x.
    Lemma term_nonneg v i : (ndoc < v <= n)%Z -> (i < K)%nat -> 0 <= x v i.
    Proof. intros Hv Hi. destruct (touched es v) eqn:Tv; [apply Hx; auto|rewrite Hk by exact Tv; apply Hjunk; auto]. Qed.
    Lemma smoothed_ge e v i : In e es -> (ndoc < v <= n)%Z -> (i < K)%nat -> 0 < x v i + (eta - 1) /\ 0 <= smoothed ndoc n eta x i - (x v i + (eta - 1)).
    Proof.
      intros He Hv Hi. specialize (Hes e He). assert (He1 : 0 < eta - 1) by (apply pos_minus, Heta). split; [apply pos_plus_r; [apply term_nonneg; auto|exact He1]|].
      unfold smoothed. replace (topic_total ndoc n x i + qint (n - ndoc) * (eta - 1) - (x v i + (eta - 1))) with ((topic_total ndoc n x i - x v i) + (qint (n - ndoc) - 1) * (eta - 1)) by ring.
      apply nonneg_plus.
      - apply (qsum_ge (fun v => x v i)); [|apply filter_In; split; [apply in_zrange; lia|apply Z.ltb_lt; lia]]. intros u Hu. apply filter_In in Hu as [Hu Tu]. apply in_zrange in Hu. apply Z.ltb_lt in Tu. apply term_nonneg; [lia|exact Hi].
      - apply nonneg_mult; [|apply pos_nonneg, He1]. apply nonneg_minus. unfold Qcle, qint. rewrite !this_q. unfold Qle. cbn. lia.
    Qed.
    Lemma smoothed_pos e i : In e es -> (i < K)%nat -> 0 < smoothed ndoc n eta x i.
    Proof.
      intros He Hi. pose proof (Hes e He) as H. destruct (smoothed_ge e (e_dst e) i He) as [H1 H2]; [lia|exact Hi|].
      replace (smoothed ndoc n eta x i) with ((x (e_dst e) i + (eta - 1)) + (smoothed ndoc n eta x i - (x (e_dst e) i + (eta - 1)))) by ring. apply pos_plus_l; auto.
    Qed.
    Lemma belief_sym e i : In e es -> belief ndoc n alpha eta x (e_dst e) (e_src e) i = belief ndoc n alpha eta x (e_src e) (e_dst e) i.
    Proof.
      intros He. specialize (Hes e He). unfold belief. destruct (Z.leb_spec (e_dst e) ndoc); [lia|]. destruct (Z.leb_spec (e_src e) ndoc); [|lia]. unfold Qcdiv. ring.
    Qed.
    Lemma belief_signs e : In e es -> (forall i, (i < K)%nat -> 0 <= belief ndoc n alpha eta x (e_src e) (e_dst e) i) /\ 0 < qover K (belief ndoc n alpha eta x (e_src e) (e_dst e)).
    Proof.
      intros He. pose proof (Hes e He) as H. destruct (proj1 Hx (e_src e) (touched_src e He)) as [Hp Ht].
      assert (Hb : forall i, (i < K)%nat -> belief ndoc n alpha eta x (e_src e) (e_dst e) i = (x (e_src e) i + (alpha - 1)) * (x (e_dst e) i + (eta - 1)) / smoothed ndoc n eta x i).
      { intros i Hi. unfold belief. destruct (Z.leb_spec (e_src e) ndoc); [|lia]. unfold Qcdiv. ring. }
      assert (Ha1 : 0 <= alpha - 1) by (apply nonneg_minus, Ha).
      assert (Hn0 : forall i, (i < K)%nat -> 0 <= belief ndoc n alpha eta x (e_src e) (e_dst e) i).
      { intros i Hi. rewrite Hb by exact Hi. apply nonneg_div; [|apply (smoothed_pos e i He Hi)]. apply nonneg_mult; [apply nonneg_plus; auto|]. apply pos_nonneg, (smoothed_ge e (e_dst e) i He); [lia|exact Hi]. }
      split; [exact Hn0|]. pose proof (occurrences_pos _ (touched_src e He)) as Ho. rewrite <- Ht in Ho. apply qsum_pos_some in Ho as (i & Hi & Hpos); [|intros j Hj; apply in_seq in Hj; apply Hp; lia].
      apply (qsum_pos _ _ i); [intros j Hj; apply in_seq in Hj; apply Hn0; lia|exact Hi|]. apply in_seq in Hi. rewrite Hb by lia. apply pos_div; [|apply (smoothed_pos e i He); lia]. apply pos_mult; [apply pos_plus_l; auto|].
      apply (smoothed_ge e (e_dst e) i He); lia.
    Qed.
    Lemma round_counted : counted (round K ndoc n es alpha eta x).
    Proof.
      apply (gather_counted _ (fun e => portion K (belief ndoc n alpha eta x (e_src e) (e_dst e)) (e_val e))).
      - intros e i He Hi. destruct (belief_signs e He) as [H1 H2]. split; [|split; [reflexivity|apply portion_nonneg; [apply Hes, He|apply H1, Hi|exact H2]]].
        unfold portion. rewrite belief_sym by exact He. f_equal. f_equal. apply qsum_ext. intros j _. apply belief_sym, He.
      - intros e He. apply portion_total. apply (belief_signs e He).
    Qed.
    Lemma chance_signs e : In e es -> 0 < chance K ndoc n eta x (e_src e) (e_dst e) /\ chance K ndoc n eta x (e_src e) (e_dst e) <= 1 /\
      qsum (map (chance K ndoc n eta x (e_src e)) (filter (fun v => term v) vertices)) = 1.
    Proof.
      intros He. pose proof (Hes e He) as H. destruct (proj1 Hx (e_src e) (touched_src e He)) as [Hp Ht]. assert (He1 : 0 < eta - 1) by (apply pos_minus, Heta).
      pose proof (occurrences_pos _ (touched_src e He)) as Ho. rewrite <- Ht in Ho. apply qsum_pos_some in Ho as (i0 & Hi0 & _); [|intros j Hj; apply in_seq in Hj; apply Hp; lia].
      set (theta := fun i => x (e_src e) i + (eta - 1)). assert (Hth : forall i, In i (seq 0 K) -> 0 < theta i) by (intros i Hi; apply in_seq in Hi; apply pos_plus_r; [apply Hp; lia|exact He1]).
      assert (Hs : 0 < qover K theta) by (apply (qsum_pos theta _ i0); [intros; apply pos_nonneg, Hth; auto|exact Hi0|apply Hth, Hi0]).
      assert (Hc : forall t, chance K ndoc n eta x (e_src e) t = qover K (fun i => (x t i + (eta - 1)) / smoothed ndoc n eta x i * (theta i / qover K theta))) by reflexivity.
      assert (Hone : qover K (fun i => theta i / qover K theta) = 1).
      { unfold qover at 1. unfold Qcdiv. rewrite qsum_scale_r. change (qsum (map theta (seq 0 K))) with (qover K theta). field. apply pos_not, Hs. }
      split; [|split].
      - rewrite Hc. apply (qsum_pos _ _ i0); [|exact Hi0|].
        + intros i Hi. apply pos_nonneg, pos_mult; [|apply pos_div; [apply Hth, Hi|exact Hs]]. apply in_seq in Hi. apply pos_div; [apply (smoothed_ge e (e_dst e) i He); lia|apply (smoothed_pos e i He); lia].
        + apply pos_mult; [|apply pos_div; [apply Hth, Hi0|exact Hs]]. apply in_seq in Hi0. apply pos_div; [apply (smoothed_ge e (e_dst e) i0 He); lia|apply (smoothed_pos e i0 He); lia].
      - rewrite Hc. apply le_minus. rewrite <- Hone at 1. rewrite qover_minus. apply qsum_nonneg. intros i Hi. pose proof (Hth i Hi) as Hti. apply in_seq in Hi.
        pose proof (smoothed_pos e i He ltac:(lia)) as Hsp. destruct (smoothed_ge e (e_dst e) i He) as [_ Hge]; [lia|lia|].
        replace (theta i / qover K theta - ((x (e_dst e) i + (eta - 1)) / smoothed ndoc n eta x i * (theta i / qover K theta)))
          with ((smoothed ndoc n eta x i - (x (e_dst e) i + (eta - 1))) / smoothed ndoc n eta x i * (theta i / qover K theta)).
        + apply nonneg_mult; [apply nonneg_div; auto|]. apply nonneg_div; [apply pos_nonneg, Hti|exact Hs].
        + field. split; apply pos_not; assumption.
      - rewrite (qsum_ext _ (fun t => qsum (map (fun i => (x t i + (eta - 1)) / smoothed ndoc n eta x i * (theta i / qover K theta)) (seq 0 K)))) by (intros; apply Hc).
        rewrite qsum_swap. transitivity (qover K (fun i => theta i / qover K theta)); [|exact Hone]. apply qsum_ext. intros i Hi. apply in_seq in Hi. unfold Qcdiv at 2. rewrite !qsum_scale_r. unfold Qcdiv at 1. rewrite qsum_scale_r, qsum_plus, qsum_const, terms_count by lia.
        change (qsum (map (fun a => x a i) (filter (fun v => term v) vertices)) + qint (n - ndoc) * (eta - 1)) with (smoothed ndoc n eta x i). field. split; apply pos_not; [exact Hs|apply (smoothed_pos e i He); lia].
    Qed.
  End Step.
  Lemma rounds_counted k : counted (rounds K ndoc n es alpha eta k (seeded K es rnd junk)) /\ kept (rounds K ndoc n es alpha eta k (seeded K es rnd junk)).
  Proof.
    induction k as [|k [IH1 IH2]]; cbn [rounds].
    - split; [apply seeded_counted|]. intros v Tv. unfold seeded, gather. rewrite Tv. reflexivity.
    - split; [apply round_counted; auto|]. intros v Tv. unfold round, gather. rewrite Tv. rewrite <- IH2 by exact Tv. reflexivity.
  Qed.
End Counts.

(** *** unset memory *)
Section Unset.
  Variables (K : nat) (ndoc n : Z) (es : list (edge Z)).
  Hypothesis Hall : forall v, (ndoc < v <= n)%Z -> (1 <= v)%Z -> touched es v = true.
  Definition agree (x y : Z -> nat -> Qc) : Prop := forall v i, touched es v = true -> x v i = y v i.
  Lemma agree_total x y i : agree x y -> topic_total ndoc n x i = topic_total ndoc n y i.
  Proof. intros H. apply qsum_ext. intros v Hv. apply filter_In in Hv as [Hv Tv]. apply in_zrange in Hv. apply Z.ltb_lt in Tv. apply H, Hall; lia. Qed.
  Lemma agree_gather f g x y : (forall e v u i, In e es -> touched es v = true -> touched es u = true -> f v u (e_val e) i = g v u (e_val e) i) -> agree (gather es f x) (gather es g y).
  Proof.
    intros H v i Tv. unfold gather. rewrite Tv. f_equal; apply qsum_ext; intros e He; apply filter_In in He as [He _]; apply H; auto; apply existsb_exists; exists e; rewrite Z.eqb_refl, ?orb_true_r; auto.
  Qed.
  Lemma agree_rounds rnd alpha eta junk junk' k : agree (rounds K ndoc n es alpha eta k (seeded K es rnd junk)) (rounds K ndoc n es alpha eta k (seeded K es rnd junk')).
  Proof.
    induction k as [|k IH]; cbn [rounds].
    - apply agree_gather. reflexivity.
    - apply agree_gather. intros e v u i He Tv Tu. assert (Hb : forall j, belief ndoc n alpha eta (rounds K ndoc n es alpha eta k (seeded K es rnd junk)) v u j = belief ndoc n alpha eta (rounds K ndoc n es alpha eta k (seeded K es rnd junk')) v u j).
      { intros j. unfold belief, smoothed. rewrite (IH v j Tv), (IH u j Tu), (agree_total _ _ j IH). reflexivity. }
      unfold portion. rewrite Hb. f_equal. f_equal. apply qsum_ext. intros j _. apply Hb.
  Qed.
  Lemma agree_loglik log eta x y : agree x y -> loglik K ndoc n es eta log x = loglik K ndoc n es eta log y.
  Proof.
    intros H. apply qsum_ext. intros e He. f_equal. f_equal. assert (touched es (e_src e) = true /\ touched es (e_dst e) = true) as [T1 T2] by (split; apply existsb_exists; exists e; rewrite Z.eqb_refl, ?orb_true_r; auto).
    unfold chance. apply qsum_ext. intros i _. unfold smoothed. rewrite (agree_total x y i H), (H _ i T1), (H _ i T2). f_equal. f_equal. apply qsum_ext. intros j _. rewrite (H _ j T1). reflexivity.
  Qed.
End Unset.

Lemma lda_unset K ndoc n (es : list (edge Z)) rnd alpha eta junk junk' k log :
  (forall v, (1 <= v <= n)%Z -> (ndoc < v)%Z -> touched es v = true) ->
  let x := rounds K ndoc n es alpha eta k (seeded K es rnd junk) in
  let x' := rounds K ndoc n es alpha eta k (seeded K es rnd junk') in
  (forall v i, touched es v = true -> x v i = x' v i) /\ loglik K ndoc n es eta log x = loglik K ndoc n es eta log x'.
Proof.
  intros Hall x x'. assert (Hall' : forall v, (ndoc < v <= n)%Z -> (1 <= v)%Z -> touched es v = true) by (intros; apply Hall; lia).
  pose proof (agree_rounds K ndoc n es Hall' rnd alpha eta junk junk' k) as H. split; [exact H|]. exact (agree_loglik K ndoc n es Hall' log eta _ _ H).
Qed.
Lemma lda_counts K ndoc n (es : list (edge Z)) rnd alpha eta junk k :
  (forall e, In e es -> 1 <= e_src e <= ndoc /\ ndoc < e_dst e <= n /\ 0 < e_val e)%Z ->
  (forall e, In e es -> (forall i, (i < K)%nat -> (0 <= rnd (e_val e) i)) /\ (0 < qover K (rnd (e_val e)))) ->
  (forall v i, (ndoc < v <= n)%Z -> touched es v = false -> (i < K)%nat -> (0 <= junk v i)) -> (1 <= alpha) -> (1 < eta) ->
  let x := rounds K ndoc n es alpha eta k (seeded K es rnd junk) in
  (forall v, touched es v = true -> (forall i, (i < K)%nat -> (0 <= x v i)) /\ qover K (x v) = occurrences es v) /\
  (forall i, (i < K)%nat -> qsum (map (fun v => x v i) (filter (fun v => (v <=? ndoc)%Z && touched es v) (zrange 1 (n + 1)))) =
                            qsum (map (fun v => x v i) (filter (fun v => (ndoc <? v)%Z && touched es v) (zrange 1 (n + 1))))) /\
  (forall e, In e es -> (forall i, (i < K)%nat -> (0 < smoothed ndoc n eta x i)) /\
     (0 < qover K (belief ndoc n alpha eta x (e_src e) (e_dst e))) /\ (0 < qover K (belief ndoc n alpha eta x (e_dst e) (e_src e)))) /\
  forall e, In e es -> let p := chance K ndoc n eta x (e_src e) in
    (0 < p (e_dst e)) /\ (p (e_dst e) <= 1) /\ qsum (map p (filter (fun t => (ndoc <? t)%Z) (zrange 1 (n + 1)))) = 1.
Proof.
  intros Hes Hrnd Hjunk Ha Heta x. destruct (rounds_counted K ndoc n es Hes rnd junk alpha eta Hrnd Hjunk Ha Heta k) as [H1 H2]. fold x in H1, H2. destruct H1 as [Ha1 Ha2].
  split; [exact Ha1|]. split; [exact Ha2|]. split.
  - intros e He. split; [|split].
    + intros i Hi. eapply smoothed_pos; eauto. split; auto.
    + eapply belief_signs; eauto. split; auto.
    + unfold qover. rewrite (qsum_ext _ (belief ndoc n alpha eta x (e_src e) (e_dst e))) by (intros; eapply belief_sym; eauto). eapply belief_signs; eauto. split; auto.
  - intros e He p. eapply chance_signs; eauto. split; auto.
Qed.
