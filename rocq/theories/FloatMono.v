(** In a monotone arithmetic, with the additions in the same order in every superstep, no rank ever
    falls: so PageRank stops. *)
From Coq Require Import QArith Qabs Qpower Lqa.
From Verif Require Import Base BaseLemmas Reduce DCSC Apps AppSpec RankSpec FlowSpec FlowProofs FloatSpec ReduceProofs FloatProofs Tree TreeProofs FloatOrder.
Local Open Scope Q_scope.

Lemma combination_map {A B} (op : A -> A -> A) (op' : B -> B -> B) (h : A -> B) l u :
  (forall a b, h (op a b) = op' (h a) (h b)) -> combination op l u -> combination op' (map h l) (h u).
Proof.
  intros Hh. induction 1 as [a|l l1 l2 a b H1 IH1 H2 IH2 P]; [constructor|]. rewrite Hh. apply (comb_two op' _ (map h l1) (map h l2)); auto.
  rewrite <- map_app. apply Permutation_map, P.
Qed.
Lemma eval_hom {A U W} (op : U -> U -> U) (op' : W -> W -> W) (h : U -> W) (f : A -> option U) (t : tree A) :
  (forall a b, h (op a b) = op' (h a) (h b)) -> eval op' (fun a => option_map h (f a)) t = option_map h (eval op f t).
Proof.
  intros Hh. revert t. apply tree_ind2; [reflexivity|]. intros l IH. cbn [eval].
  assert (flat_map (fun t => olist (eval op' (fun a => option_map h (f a)) t)) l = map h (flat_map (fun t => olist (eval op f t)) l)) as ->.
  { induction l as [|t l IHl]; [reflexivity|]. cbn [flat_map]. rewrite map_app, IHl by (intros; apply IH; cbn; auto). rewrite (IH t) by (cbn; auto). destruct (eval op f t); reflexivity. }
  set (r := flat_map _ l). destruct r as [|a r]; [reflexivity|]. cbn [red map option_map]. f_equal. revert a. induction r as [|b r IHr]; intros a; [reflexivity|]. cbn [map fold_left]. rewrite <- Hh. apply IHr.
Qed.

Section Mono.
  Context {F : Type}.
  Variables (fl : floats F) (val : F -> Q) (fin : F -> Prop) (alpha p top tol least : Q).
  Hypothesis Hr : rounds fl val fin alpha p top tol least.
  Hypothesis Hm : monotone fl val fin alpha top.
  Hypothesis Hp : 1 <= p.
  Let add2 (a b : F * F) : F * F := (fl_add fl (fst a) (fst b), fl_add fl (snd a) (snd b)).

  (** the same additions on larger numbers *)
  Lemma add_mono l u : combination add2 l u -> (forall x, In x l -> fin (fst x) /\ fin (snd x) /\ 0 <= val (fst x) /\ val (fst x) <= val (snd x)) ->
    p ^ zlen l * qtotal (map (fun x => val (snd x)) l) <= top -> fin (fst u) /\ fin (snd u) /\ 0 <= val (fst u) /\ val (fst u) <= val (snd u) /\ val (snd u) <= top.
  Proof using Hr Hm Hp.
    intros H. assert (forall l u, combination add2 l u -> (forall x, In x l -> fin (fst x) /\ fin (snd x) /\ 0 <= val (fst x) /\ val (fst x) <= val (snd x)) ->
      p ^ zlen l * qtotal (map (fun x => val (snd x)) l) <= top -> fin (fst u) /\ fin (snd u) /\ 0 <= val (fst u) /\ 0 <= val (snd u) /\ val (snd u) <= p ^ (zlen l - 1) * qtotal (map (fun x => val (snd x)) l) /\ (1 <= zlen l)%Z) as Hb.
    { clear l u H. intros l u H Hl Ht. assert (L : (1 <= zlen l)%Z) by (destruct l as [|x l]; [destruct (combination_nil _ _ H)|rewrite zlen_cons; pose proof (zlen_nonneg l); lia]).
      assert (Z1 : forall h : F * F -> F, zlen (map h l) = zlen l) by (intros; unfold zlen; rewrite map_length; reflexivity).
      pose proof (pow_ge1 p Hp (zlen l) ltac:(lia)) as G.
      assert (Sl : qtotal (map val (map fst l)) <= qtotal (map val (map snd l))) by (rewrite !map_map; apply qt_le; intros x Hx; apply Hl, Hx).
      assert (Q0 : 0 <= qtotal (map val (map fst l))) by (rewrite map_map; apply qt_nonneg; intros x Hx; apply Hl, Hx).
      rewrite <- (map_map snd val) in *.
      destruct (combination_within fl val fin alpha p top tol least Hr Hp (map snd l) (snd u)) as [F2 W2].
      { apply (combination_map add2); auto. } { intros y Hy. apply in_map_iff in Hy as (x & <- & Hx). destruct (Hl x Hx) as (_ & A & B & C). split; [exact A|]. lra. } { rewrite Z1. exact Ht. }
      destruct (combination_within fl val fin alpha p top tol least Hr Hp (map fst l) (fst u)) as [F1 W1].
      { apply (combination_map add2); auto. } { intros y Hy. apply in_map_iff in Hy as (x & <- & Hx). destruct (Hl x Hx) as (A & _ & B & C). auto. }
      { rewrite Z1. eapply Qle_trans; [|exact Ht]. rewrite !(Qmult_comm (p ^ zlen l)). apply Qmult_le_compat_r; lra. }
      rewrite Z1 in W1, W2. split; [exact F1|]. split; [exact F2|]. split; [apply (within_nonneg p Hp (zlen l - 1) _ _ ltac:(lia) Q0 W1)|]. split; [apply (within_nonneg p Hp (zlen l - 1) _ _ ltac:(lia) (Qle_trans _ _ _ Q0 Sl) W2)|]. split; [apply W2|exact L]. }
    assert (Ho : forall l u, combination add2 l u -> (forall x, In x l -> fin (fst x) /\ fin (snd x) /\ 0 <= val (fst x) /\ val (fst x) <= val (snd x)) ->
      p ^ zlen l * qtotal (map (fun x => val (snd x)) l) <= top -> val (fst u) <= val (snd u)).
    { clear l u H. induction 1 as [a|l l1 l2 a b H1 IH1 H2 IH2 P]; intros Hl Ht; [apply (Hl a); cbn; auto|].
      assert (Hl12 : forall x, In x l1 \/ In x l2 -> fin (fst x) /\ fin (snd x) /\ 0 <= val (fst x) /\ val (fst x) <= val (snd x)) by (intros x Hx; apply Hl, (Permutation_in x (Permutation_sym P)), in_or_app, Hx).
      assert (Ez : zlen l = (zlen l1 + zlen l2)%Z) by (unfold zlen; rewrite (Permutation_length P), app_length; lia).
      assert (Et : qtotal (map (fun x => val (snd x)) l) == qtotal (map (fun x => val (snd x)) l1) + qtotal (map (fun x => val (snd x)) l2)) by (rewrite (qtotal_perm _ _ (Permutation_map _ P)), map_app; apply qtotal_app).
      assert (S1 : 0 <= qtotal (map (fun x => val (snd x)) l1)) by (apply qt_nonneg; intros x Hx; destruct (Hl12 x (or_introl Hx)) as (_ & _ & ? & ?); lra).
      assert (S2 : 0 <= qtotal (map (fun x => val (snd x)) l2)) by (apply qt_nonneg; intros x Hx; destruct (Hl12 x (or_intror Hx)) as (_ & _ & ? & ?); lra).
      pose proof (zlen_nonneg l1) as Z1. pose proof (zlen_nonneg l2) as Z2. rewrite Et, Ez, pow_add in Ht by (auto; lia).
      pose proof (pow_ge1 p Hp (zlen l1) ltac:(lia)) as G1. pose proof (pow_ge1 p Hp (zlen l2) ltac:(lia)) as G2.
      set (s1 := qtotal (map (fun x => val (snd x)) l1)) in *. set (s2 := qtotal (map (fun x => val (snd x)) l2)) in *.
      assert (T1 : p ^ zlen l1 * s1 <= top).
      { assert (0 <= (p ^ zlen l2 - 1) * (p ^ zlen l1 * s1)) by (apply Qmult_le_0_compat; [lra|apply Qmult_le_0_compat; lra]). assert (0 <= p ^ zlen l1 * p ^ zlen l2 * s2) by (repeat apply Qmult_le_0_compat; lra). lra. }
      assert (T2 : p ^ zlen l2 * s2 <= top).
      { assert (0 <= (p ^ zlen l1 - 1) * (p ^ zlen l2 * s2)) by (apply Qmult_le_0_compat; [lra|apply Qmult_le_0_compat; lra]). assert (0 <= p ^ zlen l1 * p ^ zlen l2 * s1) by (repeat apply Qmult_le_0_compat; lra). lra. }
      pose proof (fun x Hx => Hl12 x (or_introl Hx)) as A1. pose proof (fun x Hx => Hl12 x (or_intror Hx)) as A2.
      destruct (Hb l1 a H1 A1 T1) as (Fa & Fa' & Na & Na' & Ba & L1). destruct (Hb l2 b H2 A2 T2) as (Fb & Fb' & Nb & Nb' & Bb & L2). specialize (IH1 A1 T1). specialize (IH2 A2 T2).
      fold s1 in Ba. fold s2 in Bb. cbn [add2 fst snd]. apply (m_add _ _ _ _ _ Hm); auto.
      assert (forall i s, (1 <= i)%Z -> 0 <= s -> p ^ (i - 1) * s <= p ^ i * s) as Up.
      { intros i s Hi Hs. replace i with ((i - 1) + 1)%Z at 2 by lia. rewrite pow_add by (auto; lia). pose proof (pow_ge1 p Hp (i - 1) ltac:(lia)). change (p ^ 1) with p.
        assert (0 <= p ^ (i - 1) * (p - 1) * s) by (repeat apply Qmult_le_0_compat; lra). lra. }
      pose proof (Up _ s1 L1 S1). pose proof (Up _ s2 L2 S2).
      assert (0 <= (p ^ zlen l2 - 1) * (p ^ zlen l1 * s1)) by (apply Qmult_le_0_compat; [lra|apply Qmult_le_0_compat; lra]). assert (0 <= (p ^ zlen l1 - 1) * (p ^ zlen l2 * s2)) by (apply Qmult_le_0_compat; [lra|apply Qmult_le_0_compat; lra]). lra. }
    intros Hl Ht. destruct (Hb l u H Hl Ht) as (A & B & C & D & G & L). split; [exact A|]. split; [exact B|]. split; [exact C|]. split; [apply (Ho l u H Hl Ht)|].
    eapply Qle_trans; [exact G|]. eapply Qle_trans; [|exact Ht]. apply Qmult_le_compat_r.
    - replace (zlen l) with ((zlen l - 1) + 1)%Z at 2 by lia. rewrite pow_add by (auto; lia). pose proof (pow_ge1 p Hp (zlen l - 1) ltac:(lia)). change (p ^ 1) with p. assert (0 <= p ^ (zlen l - 1) * (p - 1)) by (apply Qmult_le_0_compat; lra). lra.
    - apply qt_nonneg. intros x Hx. destruct (Hl x Hx) as (_ & _ & ? & ?). lra.
  Qed.
  (** the same tree over larger numbers *)
  Lemma eval_mono {A} (f g : A -> F) (t : tree A) :
    (forall a, In a (leaves t) -> fin (f a) /\ fin (g a) /\ 0 <= val (f a) /\ val (f a) <= val (g a)) -> p ^ zlen (leaves t) * qtotal (map (fun a => val (g a)) (leaves t)) <= top ->
    match eval (fl_add fl) (fun a => Some (f a)) t, eval (fl_add fl) (fun a => Some (g a)) t with
    | Some x, Some y => fin x /\ fin y /\ 0 <= val x /\ val x <= val y /\ val y <= top
    | None, None => True
    | _, _ => False
    end.
  Proof using Hr Hm Hp.
    intros Hl Ht. pose proof (eval_hom add2 (fl_add fl) fst (fun a => Some (f a, g a)) t (fun _ _ => eq_refl)) as E1. pose proof (eval_hom add2 (fl_add fl) snd (fun a => Some (f a, g a)) t (fun _ _ => eq_refl)) as E2.
    cbn [option_map fst snd] in E1, E2. rewrite E1, E2. pose proof (eval_combined add2 (fun a => Some (f a, g a)) t) as C. destruct (eval add2 _ t) as [u|]; [|exact I]. cbn [option_map combined_of] in *.
    replace (flat_map (fun a => olist (Some (f a, g a))) (leaves t)) with (map (fun a => (f a, g a)) (leaves t)) in C by (clear; induction (leaves t) as [|a l IH]; [reflexivity|]; cbn; f_equal; exact IH).
    apply (add_mono _ u C).
    - intros x Hx. apply in_map_iff in Hx as (a & <- & Ha). apply Hl, Ha.
    - rewrite map_map. cbn [snd]. unfold zlen in *. rewrite map_length. exact Ht.
  Qed.
End Mono.

Section Grow.
  Context {F E : Type}.
  Variables (fl : floats F) (val : F -> Q) (fin : F -> Prop) (alpha p top tol least : Q) (n D : Z) (es : list (edge E)).
  Hypothesis Hr : rounds fl val fin alpha p top tol least.
  Hypothesis Hm : monotone fl val fin alpha top.
  Hypothesis Hp : 1 <= p.
  Hypothesis Ha : 0 < alpha /\ alpha <= 1.
  Hypothesis Hn : (0 <= n)%Z.
  Hypothesis Hin : forall e, In e es -> (1 <= e_src e <= n)%Z /\ (1 <= e_dst e <= n)%Z.
  Hypothesis Hl : (zlen es < 2 ^ 31)%Z.
  Hypothesis HD : forall v, (1 <= v <= n)%Z -> (in_degree es v <= D)%Z.
  Hypothesis HD0 : (0 <= D)%Z.
  Hypothesis HP : p ^ (D + 3) <= 1 + alpha / 4.
  Hypothesis Htop : inject_Z (3 * n) <= top.
  Notation vs := (zrange 1 (n + 1)).
  Variable ord : Z -> tree (edge E).
  Hypothesis Hord : adds n es ord.
  Variables (rank : nat -> Z -> F) (K : nat).
  Hypothesis H0 : forall v, (1 <= v <= n)%Z -> rank O v = fl_start fl.
  Hypothesis Hk : forall k v, (k < K)%nat -> (1 <= v <= n)%Z -> rank (S k) v = rank_in fl es ord (rank k) v.
  Notation rk k := (fun v => val (rank k v)).
  Notation N := (inject_Z n).

  Lemma in_step k v : (k < K)%nat -> (1 <= v <= n)%Z -> rank_step fl es (rank k) v (rank (S k) v).
  Proof using Hord Hk.
    intros Bk Bv. rewrite (Hk k v Bk Bv). unfold rank_in, rank_step. set (sh := fun e => fl_share fl _ _).
    pose proof (eval_combined (fl_add fl) (fun e => Some (sh e)) (ord v)) as C. cbn [olist] in C.
    replace (flat_map (fun e => [sh e]) (leaves (ord v))) with (map sh (leaves (ord v))) in C by (clear; induction (leaves (ord v)) as [|a l IH]; [reflexivity|]; cbn; f_equal; exact IH).
    pose proof (Permutation_map sh (Hord v Bv)) as P. destruct (eval _ _ _) as [u|]; cbn [combined_of] in C.
    - right. exists u. split; [|reflexivity]. apply (combination_perm _ _ _ _ C P).
    - left. split; [|reflexivity]. rewrite C in P. apply Permutation_nil in P. exact P.
  Qed.
  Let fn k : (k <= K)%nat -> fine val fin alpha n es rank k := fine_all fl val fin alpha p top tol least n D es Hr Hp Ha Hn Hin Hl HD HD0 HP Htop rank K H0 in_step k.
  Let top3 : 3 * N <= top. Proof. pose proof Htop as H. rewrite inject_Z_mult in H. exact H. Qed.
  Let N0 : 0 <= N. Proof. change 0 with (inject_Z 0). rewrite <- Zle_Qle. exact Hn. Qed.
  Let nonneg k v : (k <= K)%nat -> (1 <= v <= n)%Z -> 0 <= val (rank k v).
  Proof. intros Bk Bv. destruct (proj1 (fn k Bk) v Bv) as (_ & H & _). assert (0 <= alpha / 2) by (apply Qmult_le_0_compat; [lra|discriminate]). lra. Qed.
  Let upper k v : (k <= K)%nat -> (1 <= v <= n)%Z -> val (rank k v) <= 2 * N.
  Proof. intros Bk Bv. eapply Qle_trans; [|apply (fn k Bk)]. apply (qt_one (rk k)); [|apply in_zrange; lia]. intros w Hw. apply in_zrange in Hw. apply nonneg; auto. lia. Qed.

  (** the contributions that arrive at [v] *)
  Notation sh k := (fun e : edge E => fl_share fl (rank k (e_src e)) (out_degree es (e_src e))).
  Let share_of k e : (k <= K)%nat -> In e es -> fin (sh k e) /\ 0 <= val (sh k e) /\ within p 2 (val (sh k e)) (val (rank k (e_src e)) / inject_Z (out_degree es (e_src e))).
  Proof.
    intros Bk He. pose proof (proj1 (Hin e He)) as Bs. destruct (proj1 (fn k Bk) (e_src e) Bs) as (H1 & H2 & _). pose proof (upper k (e_src e) Bk Bs) as H3.
    destruct (r_share _ _ _ _ _ _ _ _ Hr (rank k (e_src e)) (out_degree es (e_src e)) H1) as [A B]; [split; [exact H2|lra]|split; [apply deg_pos, He|apply out_small; auto]|].
    split; [exact A|]. split; [|exact B]. eapply (within_nonneg p Hp 2); [lia| |exact B]. pose proof (deg_posQ es e He). apply Qmult_le_0_compat; [apply nonneg; auto|]. apply Qinv_le_0_compat. lra.
  Qed.
  Lemma leaf_edge v e : (1 <= v <= n)%Z -> In e (leaves (ord v)) -> In e es.
  Proof using Hord. intros Bv H. apply (Permutation_in e (Hord v Bv)) in H. apply filter_In in H. tauto. Qed.
  Let shares_top k v : (k <= K)%nat -> (1 <= v <= n)%Z -> p ^ zlen (leaves (ord v)) * qtotal (map (fun e => val (sh k e)) (leaves (ord v))) <= top.
  Proof.
    intros Bk Bv. assert (W : within p 2 (qtotal (map (fun e => val (sh k e)) (leaves (ord v)))) (inflow es (rk k) v)).
    { apply (within_wd p 2 (qtotal (map (fun e => val (sh k e)) (leaves (ord v)))) (qtotal (map (fun e => val (rank k (e_src e)) / inject_Z (out_degree es (e_src e))) (leaves (ord v))))); [reflexivity|apply qtotal_perm, Permutation_map, Hord, Bv|].
      apply (within_total p 2 (fun e => val (sh k e)) (fun e => val (rank k (e_src e)) / inject_Z (out_degree es (e_src e)))). intros e He. apply share_of; auto. apply (leaf_edge v); auto. }
    assert (Ez : zlen (leaves (ord v)) = in_degree es v) by (unfold zlen, in_degree; rewrite (Permutation_length (Hord v Bv)); reflexivity). rewrite Ez.
    assert (Bd0 : (0 <= in_degree es v)%Z) by apply zlen_nonneg. pose proof (HD v Bv) as Bd.
    assert (Bi : 0 <= inflow es (rk k) v <= 2 * N).
    { split; [apply (inflow_nonneg n es Hin); intros; apply nonneg; auto|]. eapply Qle_trans; [|apply (fn k Bk)].
      eapply Qle_trans; [|apply (inflow_total n es Hin); intros; apply nonneg; auto]. apply (qt_one (inflow es (rk k))); [|apply in_zrange; lia].
      intros w _. apply (inflow_nonneg n es Hin). intros; apply nonneg; auto. }
    destruct W as [_ W]. eapply Qle_trans; [rewrite Qmult_comm; apply Qmult_le_compat_r; [exact W|pose proof (pow_ge1 p Hp (in_degree es v) Bd0); lra]|].
    set (i := inflow es (rk k) v) in *. assert (L : p ^ (in_degree es v + 2) <= p ^ (D + 3)).
    { replace (D + 3)%Z with ((in_degree es v + 2) + (D + 1 - in_degree es v))%Z by lia. rewrite (pow_add p Hp (in_degree es v + 2) (D + 1 - in_degree es v)) by lia.
      pose proof (pow_ge1 p Hp (in_degree es v + 2) ltac:(lia)). pose proof (pow_ge1 p Hp (D + 1 - in_degree es v) ltac:(lia)).
      assert (0 <= p ^ (in_degree es v + 2) * (p ^ (D + 1 - in_degree es v) - 1)) by (apply Qmult_le_0_compat; lra). lra. }
    assert (alpha / 4 == alpha * (1 # 4)) as E4 by reflexivity. rewrite E4 in HP.
    assert (p ^ 2 * i * p ^ in_degree es v == p ^ (in_degree es v + 2) * i) as -> by (rewrite (pow_add p Hp (in_degree es v) 2) by lia; ring).
    assert (0 <= ((5 # 4) - p ^ (in_degree es v + 2)) * i) by (apply Qmult_le_0_compat; lra). lra.
  Qed.

  (** no rank falls *)
  Lemma rank_grows k v : (k < K)%nat -> (1 <= v <= n)%Z -> val (rank k v) <= val (rank (S k) v).
  Proof.
    revert v. induction k as [|k IH]; intros v Bk Bv.
    - rewrite (Hk O v Bk Bv). unfold rank_in.
      pose proof (eval_mono fl val fin alpha p top tol least Hr Hm Hp (sh O) (sh O) (ord v)) as M. specialize (M ltac:(intros e He; pose proof (share_of O e ltac:(lia) (leaf_edge v e Bv He)); split; [tauto|]; split; [tauto|]; split; [tauto|lra]) (shares_top O v ltac:(lia) Bv)).
      destruct (eval _ _ (ord v)) as [u|]; [|apply Qle_refl]. destruct M as (M1 & _ & M2 & _ & M3).
      rewrite H0 by auto. destruct (r_start _ _ _ _ _ _ _ _ Hr) as [_ ->]. apply (m_least _ _ _ _ _ Hm); auto.
    - rewrite (Hk k v ltac:(lia) Bv), (Hk (S k) v Bk Bv). unfold rank_in.
      pose proof (eval_mono fl val fin alpha p top tol least Hr Hm Hp (sh k) (sh (S k)) (ord v)) as M.
      match type of M with ?A -> _ => assert (X : A) end.
      { intros e He. apply (leaf_edge v e Bv) in He. destruct (share_of k e ltac:(lia) He) as (A1 & A2 & _). destruct (share_of (S k) e ltac:(lia) He) as (B1 & _). split; [exact A1|]. split; [exact B1|]. split; [exact A2|].
        pose proof (proj1 (Hin e He)) as Bs. destruct (proj1 (fn k ltac:(lia)) _ Bs) as (C1 & C2 & _). destruct (proj1 (fn (S k) ltac:(lia)) _ Bs) as (D1 & _).
        apply (m_share _ _ _ _ _ Hm); auto; [apply IH; [lia|exact Bs]| |split; [apply deg_pos, He|apply out_small; auto]]. pose proof (upper (S k) (e_src e) ltac:(lia) Bs). lra. }
      specialize (M X (shares_top (S k) v ltac:(lia) Bv)). destruct (eval _ _ (ord v)) as [x|], (eval _ _ (ord v)) as [y|]; try contradiction; [|apply IH; [lia|exact Bv]].
      destruct M as (M1 & M2 & M3 & M4 & M5). apply (m_mix _ _ _ _ _ Hm); auto.
  Qed.
  Lemma rank_least k v : (k <= K)%nat -> (1 <= v <= n)%Z -> alpha <= val (rank k v).
  Proof.
    intros Bk Bv. induction k as [|k IH]; [rewrite H0 by auto; destruct (r_start _ _ _ _ _ _ _ _ Hr) as [_ ->]; apply Qle_refl|]. eapply Qle_trans; [apply IH; lia|]. apply rank_grows; auto.
  Qed.
  (** as long as some rank moves far, the total grows *)
  Lemma total_grows k : (k < K)%nat -> ~ settled fl n es (rank k) (rank (S k)) -> qtotal (map (rk k) vs) + least <= qtotal (map (rk (S k)) vs).
  Proof.
    intros Bk Hs. apply Qnot_lt_le. intros C. apply Hs. intros v Bv _. destruct (fl_far fl (rank (S k) v) (rank k v)) eqn:Ef; [|reflexivity]. exfalso.
    assert (T2 : forall j, (j <= K)%nat -> 0 <= val (rank j v) <= top) by (intros j Bj; split; [apply nonneg; auto|]; pose proof (upper j v Bj Bv); lra).
    apply (r_far _ _ _ _ _ _ _ _ Hr) in Ef; [|apply (fn (S k)); [lia|exact Bv]|apply (fn k); [lia|exact Bv]|apply T2; lia|apply T2; lia].
    pose proof (rank_grows k v Bk Bv) as G. rewrite Qabs_pos in Ef by lra.
    assert (val (rank (S k) v) - val (rank k v) <= qtotal (map (fun w => val (rank (S k) w) - val (rank k w)) vs)) as O.
    { apply (qt_one (fun w => val (rank (S k) w) - val (rank k w))); [|apply in_zrange; lia]. intros w Hw. apply in_zrange in Hw. pose proof (rank_grows k w Bk ltac:(lia)). lra. }
    assert (qtotal (map (fun w => val (rank (S k) w) - val (rank k w)) vs) == qtotal (map (rk (S k)) vs) - qtotal (map (rk k) vs)) as Es.
    { clear. induction vs as [|w l IH]; [reflexivity|]. cbn [map]. rewrite !qtotal_cons, IH. ring. }
    rewrite Es in O. lra.
  Qed.
  Lemma unsettled_few k : (k <= K)%nat -> (forall i, (i < k)%nat -> ~ settled fl n es (rank i) (rank (S i))) -> inject_Z (Z.of_nat k) * least <= (2 - alpha) * N.
  Proof.
    intros Bk Hs. assert (inject_Z (Z.of_nat k) * least + alpha * N <= qtotal (map (rk k) vs)) as G.
    { induction k as [|k IH].
      - change (inject_Z (Z.of_nat 0)) with 0. assert (qtotal (map (rk O) vs) == N * alpha) as ->; [|lra].
        rewrite (qt_ext _ (fun _ => alpha)); [rewrite qt_const, zlen_zrange by lia; replace (n + 1 - 1)%Z with n by lia; reflexivity|].
        intros v Hv. apply in_zrange in Hv. rewrite H0 by lia. apply (r_start _ _ _ _ _ _ _ _ Hr).
      - specialize (IH ltac:(lia) ltac:(intros; apply Hs; lia)). pose proof (total_grows k ltac:(lia) (Hs k ltac:(lia))). rewrite Nat2Z.inj_succ, <- Z.add_1_r, inject_Z_plus. change (inject_Z 1) with 1. lra. }
    pose proof (proj2 (fn k Bk)). lra.
  Qed.
End Grow.
