(** PageRank with rounding: lemmas behind PropsFloat.v. *)
From Coq Require Import QArith Qabs Qpower Lqa Permutation.
From Verif Require Import Base BaseLemmas Reduce DCSC Apps AppSpec RankSpec FlowSpec FlowProofs FloatSpec ReduceProofs.
Local Open Scope Q_scope.

Section Within.
  Variable p : Q.
  Hypothesis Hp : 1 <= p.
  Lemma pow_ge1 j : (0 <= j)%Z -> 1 <= p ^ j.
  Proof using Hp. intros H. destruct j as [|j|j]; [apply Qle_refl| |lia]. rewrite <- (Z2Nat.id (Z.pos j)) by lia. induction (Z.to_nat (Z.pos j)) as [|k IH]; [apply Qle_refl|]. rewrite Nat2Z.inj_succ, <- Z.add_1_r, Qpower_plus by lra. change (p ^ 1) with p. assert (0 <= (p ^ Z.of_nat k - 1) * p) by (apply Qmult_le_0_compat; lra). lra. Qed.
  Lemma pow_add i j : (0 <= i)%Z -> (0 <= j)%Z -> p ^ (i + j) == p ^ i * p ^ j.
  Proof using Hp. intros H1 H2. apply Qpower_plus. lra. Qed.
  Lemma within_refl a : within p 0 a a.
  Proof using. split; cbn; lra. Qed.
  Lemma within_nonneg j a b : (0 <= j)%Z -> 0 <= b -> within p j a b -> 0 <= a.
  Proof using Hp.
    intros Hj Hb [H _]. pose proof (pow_ge1 j Hj). apply Qnot_lt_le. intros Ha. assert (p ^ j * a <= 1 * a); [|lra].
    assert (H1 : 0 <= (p ^ j - 1) * - a) by (apply Qmult_le_0_compat; lra). lra.
  Qed.
  Lemma within_mono i j a b : (0 <= i <= j)%Z -> 0 <= a -> 0 <= b -> within p i a b -> within p j a b.
  Proof using Hp.
    intros Hi Ha Hb [H1 H2]. assert (p ^ i <= p ^ j) as L.
    { replace j with (i + (j - i))%Z by lia. rewrite pow_add by lia. pose proof (pow_ge1 i ltac:(lia)). pose proof (pow_ge1 (j - i) ltac:(lia)).
      assert (0 <= p ^ i * (p ^ (j - i) - 1)) by (apply Qmult_le_0_compat; lra). lra. }
    split; [eapply Qle_trans; [exact H1|]|eapply Qle_trans; [exact H2|]]; apply Qmult_le_compat_r; auto.
  Qed.
  Lemma within_trans i j a b c : (0 <= i)%Z -> (0 <= j)%Z -> within p i a b -> within p j b c -> within p (i + j) a c.
  Proof using Hp.
    intros Hi Hj [A1 A2] [B1 B2]. pose proof (pow_ge1 i Hi). pose proof (pow_ge1 j Hj). unfold within. rewrite pow_add by auto. split.
    - eapply Qle_trans; [exact B1|]. rewrite (Qmult_comm (p ^ i)), <- Qmult_assoc. rewrite !(Qmult_comm (p ^ j)). apply Qmult_le_compat_r; lra.
    - eapply Qle_trans; [exact A2|]. rewrite <- Qmult_assoc, !(Qmult_comm (p ^ i)). apply Qmult_le_compat_r; lra.
  Qed.
  Lemma within_plus j a b c d : within p j a c -> within p j b d -> within p j (a + b) (c + d).
  Proof using. intros [A1 A2] [B1 B2]. split; rewrite Qmult_plus_distr_r; lra. Qed.
  Lemma within_wd j a b c d : a == c -> b == d -> within p j a b -> within p j c d.
  Proof using. unfold within. intros -> ->. auto. Qed.
  Lemma within_scale j c a b : 0 <= c -> within p j a b -> within p j (c * a) (c * b).
  Proof using.
    intros Hc [A1 A2]. split; [assert (p ^ j * (c * a) == c * (p ^ j * a)) as -> by ring|assert (p ^ j * (c * b) == c * (p ^ j * b)) as -> by ring]; rewrite !(Qmult_comm c); apply Qmult_le_compat_r; auto.
  Qed.
  Lemma within_shift j c a b : (0 <= j)%Z -> 0 <= c -> within p j a b -> within p j (c + a) (c + b).
  Proof using Hp.
    intros Hj Hc H. apply within_plus; auto. pose proof (pow_ge1 j Hj). assert (0 <= (p ^ j - 1) * c) by (apply Qmult_le_0_compat; lra). split; lra.
  Qed.
  Lemma within_abs j a b : (0 <= j)%Z -> 0 <= b -> within p j a b -> Qabs (a - b) <= (p ^ j - 1) * b.
  Proof using Hp.
    intros Hj Hb H. pose proof (within_nonneg j a b Hj Hb H) as Ha. destruct H as [H1 H2]. pose proof (pow_ge1 j Hj). apply Qabs_case; intros _; [lra|].
    destruct (Qlt_le_dec a b) as [L|L].
    - assert (0 <= (p ^ j - 1) * (b - a)) by (apply Qmult_le_0_compat; lra). lra.
    - assert (0 <= (p ^ j - 1) * b) by (apply Qmult_le_0_compat; lra). lra.
  Qed.
  Lemma within_total {A} j (f g : A -> Q) l : (forall x, In x l -> within p j (f x) (g x)) -> within p j (qtotal (map f l)) (qtotal (map g l)).
  Proof using.
    induction l as [|x l IH]; intros H; [split; cbn; ring_simplify; apply Qle_refl|]. cbn [map]. apply (within_wd j (f x + qtotal (map f l)) (g x + qtotal (map g l))); [rewrite qtotal_cons; reflexivity..|].
    apply within_plus; [apply H; cbn; auto|]. apply IH. intros; apply H; cbn; auto.
  Qed.
End Within.

Lemma qtotal_perm l l' : Permutation l l' -> qtotal l == qtotal l'.
Proof. induction 1 as [|x a b _ IH|x y a|a b c _ IH1 _ IH2]; [reflexivity|rewrite !qtotal_cons, IH; reflexivity|rewrite !qtotal_cons; ring|rewrite IH1; exact IH2]. Qed.

Section Sums.
  Context {F : Type}.
  Variables (add : F -> F -> F) (val : F -> Q) (fin : F -> Prop) (p top : Q).
  Hypothesis Hadd : forall a b, fin a -> fin b -> 0 <= val a -> 0 <= val b -> val a + val b <= top -> fin (add a b) /\ within p 1 (val (add a b)) (val a + val b).
  Hypothesis Hp : 1 <= p.
  (** any order of the additions *)
  Lemma sum_within l u : combination add l u ->
    (forall x, In x l -> fin x /\ 0 <= val x) -> p ^ zlen l * qtotal (map val l) <= top ->
    fin u /\ within p (zlen l - 1) (val u) (qtotal (map val l)).
  Proof using Hadd Hp.
    induction 1 as [a|l l1 l2 a b H1 IH1 H2 IH2 P]; intros Hl Ht.
    - split; [apply (Hl a); cbn; auto|]. change (zlen [a] - 1)%Z with 0%Z. apply (within_wd p 0 (val a) (val a)); [reflexivity| |apply within_refl]. cbn. ring.
    - assert (Hl12 : forall x, In x l1 \/ In x l2 -> fin x /\ 0 <= val x) by (intros x Hx; apply Hl, (Permutation_in x (Permutation_sym P)), in_or_app, Hx).
      assert (Ez : zlen l = (zlen l1 + zlen l2)%Z) by (unfold zlen; rewrite (Permutation_length P), app_length; lia).
      assert (Et : qtotal (map val l) == qtotal (map val l1) + qtotal (map val l2)) by (rewrite (qtotal_perm _ _ (Permutation_map val P)), map_app; apply qtotal_app).
      assert (N : forall l0 c, combination add l0 c -> (1 <= zlen l0)%Z).
      { intros [|y l0] c Hc; [destruct (combination_nil _ _ Hc)|]. rewrite zlen_cons. pose proof (zlen_nonneg l0). lia. }
      pose proof (N _ _ H1) as N1. pose proof (N _ _ H2) as N2.
      assert (S1 : 0 <= qtotal (map val l1)) by (apply qt_nonneg; intros; apply Hl12; auto). assert (S2 : 0 <= qtotal (map val l2)) by (apply qt_nonneg; intros; apply Hl12; auto).
      rewrite Et in Ht. rewrite Ez in Ht. rewrite pow_add in Ht by (auto; lia). pose proof (pow_ge1 p Hp (zlen l1) ltac:(lia)) as G1. pose proof (pow_ge1 p Hp (zlen l2) ltac:(lia)) as G2.
      set (p1 := p ^ zlen l1) in *. set (p2 := p ^ zlen l2) in *. set (s1 := qtotal (map val l1)) in *. set (s2 := qtotal (map val l2)) in *.
      assert (T1 : p1 * s1 <= top).
      { assert (0 <= (p2 - 1) * (p1 * s1)) by (apply Qmult_le_0_compat; [lra|apply Qmult_le_0_compat; lra]). assert (0 <= p1 * p2 * s2) by (repeat apply Qmult_le_0_compat; lra). lra. }
      assert (T2 : p2 * s2 <= top).
      { assert (0 <= (p1 - 1) * (p2 * s2)) by (apply Qmult_le_0_compat; [lra|apply Qmult_le_0_compat; lra]). assert (0 <= p1 * p2 * s1) by (repeat apply Qmult_le_0_compat; lra). lra. }
      destruct (IH1 (fun x Hx => Hl12 x (or_introl Hx)) T1) as [Fa Wa]. destruct (IH2 (fun x Hx => Hl12 x (or_intror Hx)) T2) as [Fb Wb].
      assert (Na : 0 <= val a) by (apply (within_nonneg p Hp (zlen l1 - 1) _ s1); auto; lia). assert (Nb : 0 <= val b) by (apply (within_nonneg p Hp (zlen l2 - 1) _ s2); auto; lia).
      apply (within_mono p Hp _ (zlen l - 2)) in Wa; auto; [|lia]. apply (within_mono p Hp _ (zlen l - 2)) in Wb; auto; [|lia].
      pose proof (within_plus p _ _ _ _ _ Wa Wb) as W.
      assert (Ts : val a + val b <= top).
      { eapply Qle_trans; [apply W|]. eapply Qle_trans; [|exact Ht]. apply Qmult_le_compat_r; [|lra]. unfold p1, p2. rewrite <- pow_add by (auto; lia). rewrite <- Ez.
        replace (zlen l) with ((zlen l - 2) + 2)%Z at 2 by lia. rewrite pow_add by (auto; lia). pose proof (pow_ge1 p Hp (zlen l - 2) ltac:(lia)). pose proof (pow_ge1 p Hp 2 ltac:(lia)).
        assert (0 <= p ^ (zlen l - 2) * (p ^ 2 - 1)) by (apply Qmult_le_0_compat; lra). lra. }
      destruct (Hadd a b Fa Fb Na Nb Ts) as [Fu Wu]. split; [exact Fu|].
      apply (within_wd p _ (val (add a b)) (s1 + s2)); [reflexivity|symmetry; exact Et|].
      replace (zlen l - 1)%Z with (1 + (zlen l - 2))%Z by lia. apply (within_trans p Hp 1 (zlen l - 2) _ _ _ ltac:(lia) ltac:(lia) Wu W).
  Qed.
End Sums.
Lemma combination_within {F} (fl : floats F) val fin alpha p top tol least : rounds fl val fin alpha p top tol least -> 1 <= p -> forall l u, combination (fl_add fl) l u ->
  (forall x, In x l -> fin x /\ 0 <= val x) -> p ^ zlen l * qtotal (map val l) <= top -> fin u /\ within p (zlen l - 1) (val u) (qtotal (map val l)).
Proof. intros Hr Hp. exact (sum_within (fl_add fl) val fin p top (r_add _ _ _ _ _ _ _ _ Hr) Hp). Qed.

Section Steps.
  Context {F E : Type}.
  Variables (fl : floats F) (val : F -> Q) (fin : F -> Prop) (alpha p top tol least : Q) (n : Z) (es : list (edge E)).
  Hypothesis Hr : rounds fl val fin alpha p top tol least.
  Hypothesis Hp : 1 <= p.
  Hypothesis Ha : 0 < alpha /\ alpha <= 1.
  Hypothesis Hn : (0 <= n)%Z.
  Hypothesis Hin : forall e, In e es -> (1 <= e_src e <= n)%Z /\ (1 <= e_dst e <= n)%Z.
  Hypothesis Hl : (zlen es < 2 ^ 31)%Z.
  Notation vs := (zrange 1 (n + 1)).
  Notation deg v := (in_degree es v).

  Lemma out_small v : (out_degree es v < 2 ^ 31)%Z.
  Proof using Hl.
    clear Hn Hin Hr Ha Hp. unfold out_degree. eapply Z.le_lt_trans; [|exact Hl]. unfold zlen. apply Nat2Z.inj_le. clear Hl. induction es as [|e l IH]; [reflexivity|]. cbn. destruct (e_src e =? v)%Z; cbn; lia.
  Qed.
  Lemma inflow_nonneg x v : (forall u, (1 <= u <= n)%Z -> 0 <= x u) -> 0 <= inflow es x v.
  Proof using Hin.
    intros H. apply qt_nonneg. intros e He. apply filter_In in He as [He _]. pose proof (deg_posQ es e He). specialize (H (e_src e) (proj1 (Hin e He))).
    apply Qmult_le_0_compat; [exact H|]. apply Qinv_le_0_compat. lra.
  Qed.
  Lemma exact_nonneg R v : (forall u, (1 <= u <= n)%Z -> fin (R u) /\ alpha / 2 <= val (R u) <= top) -> 0 <= exact_step es alpha (fun u => val (R u)) v.
  Proof using Ha Hin.
    intros HR. unfold exact_step. assert (0 <= inflow es (fun u => val (R u)) v).
    { apply inflow_nonneg. intros w Hw. destruct (HR w Hw) as (_ & H & _). assert (0 <= alpha / 2) by (apply Qmult_le_0_compat; [lra|discriminate]). lra. }
    assert (0 <= (1 - alpha) * inflow es (fun u => val (R u)) v) by (apply Qmult_le_0_compat; lra). lra.
  Qed.
  Lemma step_within R v x : rank_step fl es R v x -> deg v <> 0%Z ->
    (forall u, (1 <= u <= n)%Z -> fin (R u) /\ alpha / 2 <= val (R u) <= top) -> p ^ (deg v + 2) * inflow es (fun u => val (R u)) v <= top ->
    fin x /\ within p (deg v + 3) (val x) (exact_step es alpha (fun u => val (R u)) v).
  Proof using Hr Hp Ha Hin Hl.
    unfold rank_step. intros Hs Hd HR Ht. unfold in_degree in *. set (l := filter _ es) in *.
    assert (Hl' : forall e, In e l -> In e es) by (intros e He; apply filter_In in He; tauto).
    set (sh := fun e => fl_share fl (R (e_src e)) (out_degree es (e_src e))) in *.
    destruct Hs as [[Hs _]|(u & Hu & ->)]; [destruct l; [cbn in Hd; lia|discriminate]|].
    assert (Hsh : forall e, In e l -> fin (sh e) /\ within p 2 (val (sh e)) (val (R (e_src e)) / inject_Z (out_degree es (e_src e)))).
    { intros e He. apply (r_share _ _ _ _ _ _ _ _ Hr); [apply HR, Hin, Hl', He|apply HR, Hin, Hl', He|]. split; [apply deg_pos, Hl', He|apply out_small]. }
    assert (Hx : forall u, (1 <= u <= n)%Z -> 0 <= val (R u)).
    { intros w Hw. destruct (HR w Hw) as (_ & H & _). assert (0 <= alpha / 2) by (apply Qmult_le_0_compat; [lra|discriminate]). lra. }
    pose proof (inflow_nonneg (fun u => val (R u)) v Hx) as Hi. unfold exact_step. set (S := inflow es _ v) in *.
    assert (Hns : forall e, In e l -> 0 <= val (sh e)).
    { intros e He. apply (within_nonneg p Hp 2 _ (val (R (e_src e)) / inject_Z (out_degree es (e_src e)))); [lia| |apply Hsh, He].
      pose proof (deg_posQ es e (Hl' e He)). apply Qmult_le_0_compat; [apply Hx, Hin, Hl', He|]. apply Qinv_le_0_compat. lra. }
    assert (W0 : within p 2 (qtotal (map val (map sh l))) S).
    { rewrite map_map. unfold S, inflow. fold l. apply (within_total p 2 (fun e => val (sh e)) (fun e => val (R (e_src e)) / inject_Z (out_degree es (e_src e)))). intros e He. apply Hsh, He. }
    assert (Hz : zlen (map sh l) = zlen l) by (unfold zlen; rewrite map_length; reflexivity). pose proof (zlen_nonneg l) as Hz0.
    destruct (combination_within fl val fin alpha p top tol least Hr Hp _ u Hu) as [Fu Wu].
    { intros y Hy. apply in_map_iff in Hy as (e & <- & He). split; [apply Hsh, He|apply Hns, He]. }
    { rewrite Hz. eapply Qle_trans; [|exact Ht]. rewrite pow_add by (auto; lia). rewrite <- Qmult_assoc, !(Qmult_comm (p ^ zlen l)). apply Qmult_le_compat_r; [apply W0|]. pose proof (pow_ge1 p Hp (zlen l) ltac:(lia)). lra. }
    rewrite Hz in Wu. pose proof (within_trans p Hp (zlen l - 1) 2 _ _ _ ltac:(lia) ltac:(lia) Wu W0) as W.
    assert (Bu : 0 <= val u <= top).
    { split; [apply (within_nonneg p Hp (zlen l - 1 + 2) (val u) S ltac:(lia) Hi W)|]. eapply Qle_trans; [apply W|]. eapply Qle_trans; [|exact Ht]. apply Qmult_le_compat_r; [|exact Hi].
      replace (zlen l + 2)%Z with ((zlen l - 1 + 2) + 1)%Z by lia. rewrite (pow_add p Hp (zlen l - 1 + 2) 1) by lia. pose proof (pow_ge1 p Hp (zlen l - 1 + 2) ltac:(lia)). change (p ^ 1) with p.
      assert (0 <= p ^ (zlen l - 1 + 2) * (p - 1)) by (apply Qmult_le_0_compat; lra). lra. }
    destruct (r_mix _ _ _ _ _ _ _ _ Hr u Fu Bu) as [Fm Wm]. split; [exact Fm|]. replace (zlen l + 3)%Z with (2 + (zlen l - 1 + 2))%Z by lia.
    eapply (within_trans p Hp); [lia|lia|exact Wm|]. apply (within_shift p Hp); [lia|lra|]. apply within_scale; [lra|exact W].
  Qed.
  Lemma step_accurate R v x : rank_step fl es R v x -> deg v <> 0%Z ->
    (forall u, (1 <= u <= n)%Z -> fin (R u) /\ alpha / 2 <= val (R u) <= top) -> p ^ (deg v + 2) * inflow es (fun u => val (R u)) v <= top ->
    fin x /\ Qabs (val x - exact_step es alpha (fun u => val (R u)) v) <= (p ^ (deg v + 3) - 1) * exact_step es alpha (fun u => val (R u)) v.
  Proof using Hr Hp Ha Hin Hl.
    intros Hs Hd HR Ht. destruct (step_within R v x Hs Hd HR Ht) as [Hf Hw]. split; [exact Hf|]. apply (within_abs p Hp); [|apply exact_nonneg, HR|exact Hw]. assert (0 <= deg v)%Z by apply zlen_nonneg. lia.
  Qed.
End Steps.

Section Apart.
  Context {E : Type}.
  Variables (n : Z) (es : list (edge E)) (alpha : Q).
  Hypothesis Hin : forall e, In e es -> (1 <= e_src e <= n)%Z /\ (1 <= e_dst e <= n)%Z.
  Hypothesis Ha : 0 < alpha /\ alpha <= 1.
  Lemma exact_apart x y : apart n (exact_step es alpha x) (exact_step es alpha y) <= (1 - alpha) * apart n x y.
  Proof using Hin Ha.
    unfold apart. set (d := fun v => x v - y v).
    assert (Hd : forall v, inflow es d v == inflow es x v - inflow es y v).
    { intros v. unfold d. rewrite (inflow_ext n es Hin _ (fun u => x u + (-1) * y u)) by (intros; ring). rewrite inflow_plus, inflow_scale. ring. }
    rewrite (qt_ext _ (fun v => (1 - alpha) * Qabs (inflow es d v))).
    - rewrite qt_scale, !(Qmult_comm (1 - alpha)). apply Qmult_le_compat_r; [|lra]. exact (inflow_contracts n es Hin d).
    - intros v Hv. rewrite Hd. unfold exact_step. rewrite <- (Qabs_pos (1 - alpha)) at 3 by lra. rewrite <- Qabs_Qmult. apply Qabs_wd. ring.
  Qed.
  Lemma apart_comm x y : apart n x y == apart n y x.
  Proof using. apply qt_ext. intros v _. rewrite Qabs_Qminus. reflexivity. Qed.
  Lemma apart_tri x y z : apart n x z <= apart n x y + apart n y z.
  Proof using.
    unfold apart. rewrite <- qt_plus. apply qt_le. intros v _. assert (x v - z v == (x v - y v) + (y v - z v)) as -> by ring. apply Qabs_triangle.
  Qed.
  Lemma apart_each x y c : (0 <= n)%Z -> (forall v, (1 <= v <= n)%Z -> Qabs (x v - y v) <= c) -> apart n x y <= inject_Z n * c.
  Proof using.
    intros Hn H. unfold apart. eapply Qle_trans; [apply (qt_le _ (fun _ => c))|].
    - intros v Hv. apply in_zrange in Hv. apply H. lia.
    - rewrite qt_const, zlen_zrange by lia. replace (n + 1 - 1)%Z with n by lia. apply Qle_refl.
  Qed.
End Apart.

Section Run.
  Context {F E : Type}.
  Variables (fl : floats F) (val : F -> Q) (fin : F -> Prop) (alpha p top tol least : Q) (n D : Z) (es : list (edge E)).
  Hypothesis Hr : rounds fl val fin alpha p top tol least.
  Hypothesis Hp : 1 <= p.
  Hypothesis Ha : 0 < alpha /\ alpha <= 1.
  Hypothesis Hn : (0 <= n)%Z.
  Hypothesis Hin : forall e, In e es -> (1 <= e_src e <= n)%Z /\ (1 <= e_dst e <= n)%Z.
  Hypothesis Hl : (zlen es < 2 ^ 31)%Z.
  Hypothesis HD : forall v, (1 <= v <= n)%Z -> (in_degree es v <= D)%Z.
  Hypothesis HD0 : (0 <= D)%Z.
  Hypothesis HP : p ^ (D + 3) <= 1 + alpha / 4.
  Hypothesis Htop : inject_Z (3 * n) <= top.
  Notation vs := (zrange 1 (n + 1)).
  Variables (rank : nat -> Z -> F) (K : nat).
  Hypothesis H0 : forall v, (1 <= v <= n)%Z -> rank O v = fl_start fl.
  Hypothesis Hk : forall k v, (k < K)%nat -> (1 <= v <= n)%Z -> rank_step fl es (rank k) v (rank (S k) v).
  Notation rk k := (fun v => val (rank k v)).
  Notation theta := (p ^ (D + 3) - 1).
  Notation N := (inject_Z n).

  Lemma HP4 : 1 <= p ^ (D + 3) /\ p ^ (D + 3) <= 1 + alpha * (1 # 4).
  Proof using Hr Hp Ha Hn Hin Hl HD HD0 HP Htop H0 Hk. split; [apply (pow_ge1 p Hp); clear - HD0; lia|exact HP]. Qed.
  Lemma N_nonneg : 0 <= N.
  Proof using Hr Hp Ha Hn Hin Hl HD HD0 HP Htop H0 Hk. change 0 with (inject_Z 0). rewrite <- Zle_Qle. exact Hn. Qed.
  Definition fine k := (forall v, (1 <= v <= n)%Z -> fin (rank k v) /\ alpha / 2 <= val (rank k v) /\ (in_degree es v = 0%Z -> val (rank k v) == alpha)) /\ qtotal (map (rk k) vs) <= 2 * N.
  Lemma fine_nonneg k v : fine k -> (1 <= v <= n)%Z -> 0 <= val (rank k v).
  Proof using Hr Hp Ha Hn Hin Hl HD HD0 HP Htop H0 Hk. intros [H _] Hv. destruct (H v Hv) as (_ & H1 & _). assert (0 <= alpha / 2) by (apply Qmult_le_0_compat; [lra|discriminate]). lra. Qed.
  Lemma fine_top k v : fine k -> (1 <= v <= n)%Z -> val (rank k v) <= 2 * N.
  Proof using Hr Hp Ha Hn Hin Hl HD HD0 HP Htop H0 Hk. intros H Hv. eapply Qle_trans; [|apply H]. apply (qt_one (rk k)); [|apply in_zrange; lia]. intros w Hw. apply in_zrange in Hw. apply fine_nonneg; auto. lia. Qed.
  Lemma top_is : 3 * N <= top.
  Proof using Hr Hp Ha Hn Hin Hl HD HD0 HP Htop H0 Hk. rewrite inject_Z_mult in Htop. exact Htop. Qed.
  Lemma fine_inflow k v : fine k -> (1 <= v <= n)%Z -> 0 <= inflow es (rk k) v <= 2 * N.
  Proof using Hr Hp Ha Hn Hin Hl HD HD0 HP Htop H0 Hk.
    intros H Hv. split; [apply (inflow_nonneg n es Hin); intros; apply fine_nonneg; auto|]. eapply Qle_trans; [|apply H].
    eapply Qle_trans; [|apply (inflow_total n es Hin); intros; apply fine_nonneg; auto]. apply (qt_one (inflow es (rk k))); [|apply in_zrange; lia].
    intros w _. apply (inflow_nonneg n es Hin). intros; apply fine_nonneg; auto.
  Qed.
  Lemma fine_step k v : (k < K)%nat -> fine k -> (1 <= v <= n)%Z ->
    fin (rank (S k) v) /\ within p (D + 3) (val (rank (S k) v)) (exact_step es alpha (rk k) v) /\ (in_degree es v = 0%Z -> val (rank (S k) v) == alpha).
  Proof using Hr Hp Ha Hn Hin Hl HD HD0 HP Htop H0 Hk.
    intros Bk H Hv. pose proof (Hk k v Bk Hv) as Hs. destruct (Z.eq_dec (in_degree es v) 0) as [E0|E0].
    - destruct Hs as [[_ ->]|(u & Hu & _)].
      + destruct (proj1 H v Hv) as (Hf & _ & Hva). specialize (Hva E0). split; [exact Hf|]. split; [|auto].
        apply (within_wd p _ alpha alpha); [symmetry; exact Hva| |apply (within_mono p Hp 0); [lia|lra|lra|apply within_refl]].
        unfold exact_step, inflow. unfold in_degree in E0. destruct (filter _ es) as [|e l]; [cbn; ring|rewrite zlen_cons in E0; pose proof (zlen_nonneg l); lia].
      + unfold in_degree in E0. destruct (filter _ es) as [|e l]; [destruct (combination_nil _ _ Hu)|rewrite zlen_cons in E0; pose proof (zlen_nonneg l); lia].
    - pose proof (HD v Hv) as Bd. assert (Bd0 : (0 <= in_degree es v)%Z) by apply zlen_nonneg. pose proof (fine_inflow k v H Hv) as Bi. pose proof N_nonneg as N0. pose proof top_is as T. pose proof HP4 as [P1 P2].
      destruct (step_within fl val fin alpha p top tol least n es Hr Hp Ha Hin Hl (rank k) v (rank (S k) v) Hs E0) as [Hf Hw].
      + intros u Hu. split; [apply H, Hu|]. split; [apply H, Hu|]. pose proof (fine_top k u H Hu). lra.
      + set (i := inflow es (rk k) v) in *. assert (L : p ^ (in_degree es v + 2) <= p ^ (D + 3)).
        { replace (D + 3)%Z with ((in_degree es v + 2) + (D + 1 - in_degree es v))%Z by lia. rewrite (pow_add p Hp (in_degree es v + 2) (D + 1 - in_degree es v)) by lia.
          pose proof (pow_ge1 p Hp (in_degree es v + 2) ltac:(lia)). pose proof (pow_ge1 p Hp (D + 1 - in_degree es v) ltac:(lia)).
          assert (0 <= p ^ (in_degree es v + 2) * (p ^ (D + 1 - in_degree es v) - 1)) by (apply Qmult_le_0_compat; lra). lra. }
        assert (0 <= (5 # 4) - p ^ (in_degree es v + 2)) by lra. assert (0 <= ((5 # 4) - p ^ (in_degree es v + 2)) * i) by (apply Qmult_le_0_compat; lra). lra.
      + split; [exact Hf|]. split; [|intros C; contradiction].
        assert (Hx0 : 0 <= exact_step es alpha (rk k) v) by (unfold exact_step; assert (0 <= (1 - alpha) * inflow es (rk k) v) by (apply Qmult_le_0_compat; lra); lra).
        apply (within_mono p Hp (in_degree es v + 3)); [lia| |exact Hx0|exact Hw]. apply (within_nonneg p Hp (in_degree es v + 3) _ (exact_step es alpha (rk k) v)); auto. lia.
  Qed.
  Lemma exact_total k : fine k -> qtotal (map (exact_step es alpha (rk k)) vs) <= N * alpha + (1 - alpha) * (2 * N).
  Proof using Hr Hp Ha Hn Hin Hl HD HD0 HP Htop H0 Hk.
    intros H. unfold exact_step. rewrite qt_plus, qt_const, zlen_zrange by lia. replace (n + 1 - 1)%Z with n by lia. rewrite qt_scale.
    assert (qtotal (map (inflow es (rk k)) vs) <= 2 * N) by (eapply Qle_trans; [apply (inflow_total n es Hin); intros; apply fine_nonneg; auto|apply H]).
    assert (0 <= (1 - alpha) * (2 * N - qtotal (map (inflow es (rk k)) vs))) by (apply Qmult_le_0_compat; lra). lra.
  Qed.
  Lemma exact_ge k v : fine k -> (1 <= v <= n)%Z -> alpha <= exact_step es alpha (rk k) v.
  Proof using Hr Hp Ha Hn Hin Hl HD HD0 HP Htop H0 Hk. intros H Hv. unfold exact_step. pose proof (fine_inflow k v H Hv). assert (0 <= (1 - alpha) * inflow es (rk k) v) by (apply Qmult_le_0_compat; lra). lra. Qed.
  Lemma fine_all k : (k <= K)%nat -> fine k.
  Proof using Hr Hp Ha Hn Hin Hl HD HD0 HP Htop H0 Hk.
    pose proof N_nonneg as N0. pose proof HP4 as [P1 P2].
    induction k as [|k IH]; intros Bk.
    - destruct (r_start _ _ _ _ _ _ _ _ Hr) as [Hf Hv]. split.
      + intros v Bv. rewrite H0 by auto. split; [exact Hf|]. rewrite Hv. split; [change (alpha / 2) with (alpha * (1 # 2)); lra|reflexivity].
      + rewrite (qt_ext _ (fun _ => alpha)) by (intros v Bv; apply in_zrange in Bv; rewrite H0 by lia; exact Hv). rewrite qt_const, zlen_zrange by lia. replace (n + 1 - 1)%Z with n by lia.
        assert (0 <= N * (1 - alpha)) by (apply Qmult_le_0_compat; lra). lra.
    - specialize (IH ltac:(lia)). split.
      + intros v Bv. destruct (fine_step k v ltac:(lia) IH Bv) as (Hf & Hw & Hd). split; [exact Hf|]. split; [|exact Hd].
        pose proof (exact_ge k v IH Bv) as Hx. destruct Hw as [Hw _]. change (alpha / 2) with (alpha * (1 # 2)). set (y := val (rank (S k) v)) in *. set (P := p ^ (D + 3)) in *.
        apply Qnot_lt_le. intros C. assert (0 <= P * (alpha * (1 # 2) - y)) by (apply Qmult_le_0_compat; lra). assert (0 <= ((5 # 4) - P) * alpha) by (apply Qmult_le_0_compat; lra). lra.
      + eapply Qle_trans; [apply (qt_le _ (fun v => p ^ (D + 3) * exact_step es alpha (rk k) v))|].
        * intros v Bv. apply in_zrange in Bv. apply (fine_step k v ltac:(lia) IH ltac:(lia)).
        * rewrite qt_scale. pose proof (exact_total k IH) as Ht. set (T := qtotal _) in *. set (P := p ^ (D + 3)) in *.
          assert (0 <= P * (N * alpha + (1 - alpha) * (2 * N) - T)) by (apply Qmult_le_0_compat; lra).
          assert (0 <= N * (alpha * (1 - alpha))) by (repeat apply Qmult_le_0_compat; lra). assert (0 <= N * (1 - alpha)) by (apply Qmult_le_0_compat; lra). assert (0 <= N * alpha) by (apply Qmult_le_0_compat; lra). assert (0 <= N * (alpha * alpha)) by (repeat apply Qmult_le_0_compat; lra).
          assert (0 <= (1 + alpha * (1 # 4) - P) * (N * alpha + (1 - alpha) * (2 * N))) by (apply Qmult_le_0_compat; lra). lra.
  Qed.
  (** what rounding adds in a step *)
  Lemma step_apart k : (k < K)%nat -> apart n (rk (S k)) (exact_step es alpha (rk k)) <= 2 * N * theta.
  Proof using Hr Hp Ha Hn Hin Hl HD HD0 HP Htop H0 Hk.
    intros Bk. pose proof (fine_all k ltac:(lia)) as H. pose proof N_nonneg as N0. pose proof HP4 as [P1 P2]. unfold apart.
    eapply Qle_trans; [apply (qt_le _ (fun v => theta * exact_step es alpha (rk k) v))|].
    - intros v Bv. apply in_zrange in Bv. apply (within_abs p Hp); [lia| |apply (fine_step k v Bk H ltac:(lia))]. pose proof (exact_ge k v H ltac:(lia)). lra.
    - rewrite qt_scale. pose proof (exact_total k H) as Ht. set (T := qtotal _) in *. set (P := p ^ (D + 3)) in *.
      assert (0 <= (P - 1) * (N * alpha + (1 - alpha) * (2 * N) - T)) by (apply Qmult_le_0_compat; lra). assert (0 <= (P - 1) * (N * alpha)) by (repeat apply Qmult_le_0_compat; lra). lra.
  Qed.
  Lemma solution_apart x e : solves_within n es alpha alpha e x -> apart n (exact_step es alpha x) x <= N * e.
  Proof using Hr Hp Ha Hn Hin Hl HD HD0 HP Htop H0 Hk. intros Hx. apply apart_each; auto. intros v Hv. rewrite Qabs_Qminus. exact (Hx v Hv). Qed.
  Lemma run_close x e k : (k <= K)%nat -> solves_within n es alpha alpha e x ->
    alpha * apart n (rk k) x <= (1 - alpha) ^ Z.of_nat k * (alpha * apart n (fun _ => alpha) x) + (1 - (1 - alpha) ^ Z.of_nat k) * (N * (e + 2 * theta)).
  Proof using Hr Hp Ha Hn Hin Hl HD HD0 HP Htop H0 Hk.
    intros Bk Hx. induction k as [|k IH].
    - cbn [Z.of_nat Qpower]. assert (apart n (rk O) x == apart n (fun _ => alpha) x) as ->; [|lra]. apply qt_ext. intros v Hv. apply in_zrange in Hv. rewrite H0 by lia. destruct (r_start _ _ _ _ _ _ _ _ Hr) as [_ ->]. reflexivity.
    - specialize (IH ltac:(lia)). rewrite Nat2Z.inj_succ, <- Z.add_1_l, Qpower_plus' by lia. change ((1 - alpha) ^ 1) with (1 - alpha).
      pose proof (step_apart k ltac:(lia)) as A1. pose proof (exact_apart n es alpha Hin Ha (rk k) x) as A2. pose proof (solution_apart x e Hx) as A3.
      pose proof (apart_tri n (rk (S k)) (exact_step es alpha (rk k)) x) as T1. pose proof (apart_tri n (exact_step es alpha (rk k)) (exact_step es alpha x) x) as T2.
      set (a' := apart n (rk (S k)) x) in *. set (a := apart n (rk k) x) in *. set (q := (1 - alpha) ^ Z.of_nat k) in *. set (W := N * (e + 2 * theta)) in *.
      assert (B : a' <= (1 - alpha) * a + W) by (unfold W; lra).
      assert (0 <= (1 - alpha) * (q * (alpha * apart n (fun _ => alpha) x) + (1 - q) * W - alpha * a)) by (apply Qmult_le_0_compat; lra).
      assert (0 <= alpha * ((1 - alpha) * a + W - a')) by (apply Qmult_le_0_compat; lra). lra.
  Qed.
  (** after the last step, if the ranks have settled *)
  Lemma settled_close x e : (0 < K)%nat -> 0 <= tol -> settled fl n es (rank (K - 1)%nat) (rank K) -> solves_within n es alpha alpha e x ->
    alpha * apart n (rk K) x <= N * ((1 - alpha) * tol + e + 2 * theta).
  Proof using Hr Hp Ha Hn Hin Hl HD HD0 HP Htop H0 Hk.
    intros B Ht Hs Hx. assert (exists k, K = S k) as [k EK] by (exists (K - 1)%nat; lia). replace (K - 1)%nat with k in Hs by lia. rewrite EK in Hs |- *.
    pose proof N_nonneg as N0. pose proof top_is as T.
    assert (A0 : apart n (rk (S k)) (rk k) <= N * tol).
    { apply apart_each; auto. intros v Bv. pose proof (fine_all k ltac:(lia)) as F1. pose proof (fine_all (S k) ltac:(lia)) as F2. destruct (Z.eq_dec (in_degree es v) 0) as [E0|N1].
      - destruct (proj1 F1 v Bv) as (_ & _ & V1). destruct (proj1 F2 v Bv) as (_ & _ & V2). rewrite (V1 E0), (V2 E0). unfold Qminus. rewrite Qplus_opp_r. exact Ht.
      - apply (r_near _ _ _ _ _ _ _ _ Hr); [apply F2, Bv|apply F1, Bv| | |apply Hs; auto].
        + split; [apply fine_nonneg; auto|]. pose proof (fine_top (S k) v F2 Bv). lra.
        + split; [apply fine_nonneg; auto|]. pose proof (fine_top k v F1 Bv). lra. }
    pose proof (step_apart k ltac:(lia)) as A1. pose proof (exact_apart n es alpha Hin Ha (rk k) x) as A2. pose proof (solution_apart x e Hx) as A3.
    pose proof (apart_tri n (rk (S k)) (exact_step es alpha (rk k)) x) as T1. pose proof (apart_tri n (exact_step es alpha (rk k)) (exact_step es alpha x) x) as T2. pose proof (apart_tri n (rk k) (rk (S k)) x) as T3. rewrite (apart_comm n (rk k) (rk (S k))) in T3.
    set (a' := apart n (rk (S k)) x) in *. set (a := apart n (rk k) x) in *.
    assert (0 <= (1 - alpha) * (N * tol + a' - a)) by (apply Qmult_le_0_compat; lra). lra.
  Qed.
  (** the moves get smaller *)
  Lemma moves k : (k < K)%nat -> alpha * apart n (rk (S k)) (rk k) <= (1 - alpha) ^ Z.of_nat k * (2 * N) + 4 * N * theta.
  Proof using Hr Hp Ha Hn Hin Hl HD HD0 HP Htop H0 Hk.
    pose proof N_nonneg as N0. pose proof HP4 as [P1 P2].
    assert (Hth : 0 <= N * theta) by (apply Qmult_le_0_compat; lra).
    induction k as [|k IH]; intros Bk.
    - cbn [Z.of_nat Qpower]. pose proof (step_apart O Bk) as A1. pose proof (apart_tri n (rk 1%nat) (exact_step es alpha (rk O)) (rk O)) as T1.
      assert (A2 : apart n (exact_step es alpha (rk O)) (rk O) <= (1 - alpha) * N).
      { destruct (r_start _ _ _ _ _ _ _ _ Hr) as [_ Hs]. pose proof (exact_apart n es alpha Hin Ha (rk O) (fun _ => 0)) as A3.
        assert (Z0 : forall v, inflow es (fun _ => 0) v == 0) by (intros v; rewrite (inflow_ext n es Hin _ (fun _ => 0 * 0)) by (intros; ring); rewrite (inflow_scale es 0 (fun _ => 0)); ring).
        assert (apart n (exact_step es alpha (rk O)) (rk O) == apart n (exact_step es alpha (rk O)) (exact_step es alpha (fun _ => 0))) as ->.
        { apply qt_ext. intros v Hv. apply in_zrange in Hv. unfold exact_step at 3. rewrite Z0. rewrite (H0 v) by lia. rewrite Hs. apply Qabs_wd. ring. }
        eapply Qle_trans; [exact A3|]. rewrite !(Qmult_comm (1 - alpha)). apply Qmult_le_compat_r; [|lra]. rewrite <- (Qmult_1_r N). apply apart_each; auto. intros v Bv. rewrite H0 by auto. rewrite Hs. rewrite Qabs_pos; lra. }
      assert (0 <= (1 - alpha) * (N * theta)) by (apply Qmult_le_0_compat; lra). assert (0 <= N * alpha) by (apply Qmult_le_0_compat; lra). assert (0 <= N * (1 - alpha)) by (apply Qmult_le_0_compat; lra). assert (0 <= N * (alpha * (1 - alpha))) by (repeat apply Qmult_le_0_compat; lra).
      set (a := apart n (rk 1%nat) (rk O)) in *. assert (0 <= alpha * ((1 - alpha) * N + 2 * N * theta - a)) by (apply Qmult_le_0_compat; lra). assert (0 <= N * (alpha * alpha)) by (repeat apply Qmult_le_0_compat; lra). lra.
    - specialize (IH ltac:(lia)). rewrite Nat2Z.inj_succ, <- Z.add_1_l, Qpower_plus' by lia. change ((1 - alpha) ^ 1) with (1 - alpha).
      pose proof (step_apart k ltac:(lia)) as A1. pose proof (step_apart (S k) Bk) as A1'. pose proof (exact_apart n es alpha Hin Ha (rk (S k)) (rk k)) as A2.
      pose proof (apart_tri n (rk (S (S k))) (exact_step es alpha (rk (S k))) (rk (S k))) as T1. pose proof (apart_tri n (exact_step es alpha (rk (S k))) (exact_step es alpha (rk k)) (rk (S k))) as T2. rewrite (apart_comm n (exact_step es alpha (rk k)) (rk (S k))) in T2.
      set (a' := apart n (rk (S (S k))) (rk (S k))) in *. set (a := apart n (rk (S k)) (rk k)) in *. set (q := (1 - alpha) ^ Z.of_nat k) in *.
      assert (0 <= (1 - alpha) * (q * (2 * N) + 4 * N * theta - alpha * a)) by (apply Qmult_le_0_compat; lra).
      assert (0 <= alpha * ((1 - alpha) * a + 4 * N * theta - a')) by (apply Qmult_le_0_compat; lra). lra.
  Qed.
  Lemma run_moved_far k : (k < K)%nat -> ~ settled fl n es (rank k) (rank (S k)) -> alpha * least < (1 - alpha) ^ Z.of_nat k * (2 * N) + 4 * N * theta.
  Proof using Hr Hp Ha Hn Hin Hl HD HD0 HP Htop H0 Hk.
    intros Bk Hs. pose proof (moves k Bk) as M. pose proof N_nonneg as N0. pose proof top_is as T.
    apply Qnot_le_lt. intros C. apply Hs. intros v Bv Nv. destruct (fl_far fl (rank (S k) v) (rank k v)) eqn:Ef; [|reflexivity]. exfalso.
    pose proof (fine_all k ltac:(lia)) as F1. pose proof (fine_all (S k) ltac:(lia)) as F2.
    apply (r_far _ _ _ _ _ _ _ _ Hr) in Ef; [|apply F2, Bv|apply F1, Bv| |].
    - assert (Qabs (val (rank (S k) v) - val (rank k v)) <= apart n (rk (S k)) (rk k)).
      { apply (qt_one (fun v => Qabs (val (rank (S k) v) - val (rank k v)))); [intros; apply Qabs_nonneg|]. apply in_zrange. lia. }
      set (a := apart n (rk (S k)) (rk k)) in *. assert (0 < alpha * (a - least)) by (apply Qmult_lt_0_compat; lra). lra.
    - split; [apply fine_nonneg; auto|]. pose proof (fine_top (S k) v F2 Bv). lra.
    - split; [apply fine_nonneg; auto|]. pose proof (fine_top k v F1 Bv). lra.
  Qed.
End Run.
