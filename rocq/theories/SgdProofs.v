From Coq Require Import QArith Qcanon.
From Verif Require Import Base BaseLemmas Layout Reduce ReduceProofs DCSC MatSpec Segment Vec SpMat GraphVert Graph Runtime RunSpec RuntimeProofs GraphOps GraphHist GraphHistProofs Apps AppSpec AppBase RankSpec DegreeProofs PageRankProofs Sgd SgdSpec.
Local Open Scope Qc_scope.

(** *** sums *)
Lemma qsum_cons x l : qsum (x :: l) = x + qsum l. Proof. reflexivity. Qed.
Lemma qsum_app a b : qsum (a ++ b) = qsum a + qsum b.
Proof. induction a as [|x a IH]; [change (qsum b = 0 + qsum b); ring|]. rewrite <- app_comm_cons, !qsum_cons, IH. ring. Qed.
Lemma qsum_perm l l' : Permutation l l' -> qsum l = qsum l'.
Proof. induction 1 as [|x a b _ IH|x y a|a b c _ IH1 _ IH2]; rewrite ?qsum_cons; [reflexivity|rewrite IH; reflexivity|ring|congruence]. Qed.
Lemma qsum_ext {A} (f g : A -> Qc) l : (forall a, In a l -> f a = g a) -> qsum (map f l) = qsum (map g l).
Proof. intros H. rewrite (map_ext_in _ g); auto. Qed.
Lemma qsum_plus {A} (f g : A -> Qc) l : qsum (map (fun a => f a + g a) l) = qsum (map f l) + qsum (map g l).
Proof. induction l as [|x l IH]; [reflexivity|]. cbn [map]. rewrite !qsum_cons, IH. ring. Qed.
Lemma qsum_scale {A} c (f : A -> Qc) l : qsum (map (fun a => c * f a) l) = c * qsum (map f l).
Proof. induction l as [|x l IH]; [cbn; ring|]. cbn [map]. rewrite !qsum_cons, IH. ring. Qed.
Lemma qsum_zero {A} (l : list A) : qsum (map (fun _ => 0) l) = 0.
Proof. induction l as [|x l IH]; [reflexivity|]. cbn [map]. rewrite qsum_cons, IH. ring. Qed.
Lemma qsum_at n k c : (1 <= k <= n)%Z -> qsum (map (fun v => if (k =? v)%Z then c else 0) (zrange 1 (n + 1))) = c.
Proof.
  intros H. assert (Hi : In k (zrange 1 (n + 1))) by (apply in_zrange; lia). pose proof (NoDup_zrange 1 (n + 1)) as Nd.
  induction (zrange 1 (n + 1)) as [|y r IHr]; [destruct Hi|]. cbn [map]. rewrite qsum_cons. inversion Nd as [|? ? Ny Nr]; subst. destruct (Z.eqb_spec k y) as [->|Ne].
  - rewrite (qsum_ext _ (fun _ => 0)), qsum_zero; [ring|]. intros z Hz. destruct (Z.eqb_spec y z) as [->|]; [contradiction|reflexivity].
  - destruct Hi as [Hi|Hi]; [congruence|]. rewrite (IHr Hi Nr). ring.
Qed.
Lemma qsum_split {A} (k : A -> Z) (f : A -> Qc) n l : (forall a, In a l -> (1 <= k a <= n)%Z) ->
  qsum (map (fun v => qsum (map f (filter (fun a => (k a =? v)%Z) l))) (zrange 1 (n + 1))) = qsum (map f l).
Proof.
  induction l as [|x l IH]; intros H; [apply qsum_zero|].
  cbn [map]. rewrite qsum_cons, <- IH by (intros; apply H; cbn; auto).
  rewrite <- (qsum_at n (k x) (f x)) at 1 by (apply H; cbn; auto). rewrite <- qsum_plus. apply qsum_ext. intros v _. cbn [filter]. destruct (k x =? v)%Z; cbn [map]; rewrite ?qsum_cons; ring.
Qed.
Lemma qsum_swap {A B} (f : A -> B -> Qc) la lb : qsum (map (fun a => qsum (map (f a) lb)) la) = qsum (map (fun b => qsum (map (fun a => f a b) la)) lb).
Proof.
  induction la as [|a la IH]; cbn [map]; [symmetry; apply qsum_zero|]. rewrite qsum_cons, IH, <- qsum_plus. reflexivity.
Qed.
Lemma fold_qover (f : nat -> Qc) l a : fold_left (fun x i => x + f i) l a = a + qsum (map f l).
Proof. revert a. induction l as [|i l IH]; intros a; cbn [fold_left map]; [cbn; ring|]. rewrite IH, qsum_cons. ring. Qed.
Lemma red_qplus l : l <> [] -> red Qcplus l = Some (qsum l).
Proof.
  destruct l as [|x l]; [congruence|]. intros _. cbn [red]. f_equal. change (fun a b => Qcplus a b) with Qcplus. revert x. induction l as [|y l IH]; intros x; cbn [fold_left]; [cbn; ring|].
  rewrite IH, !qsum_cons. ring.
Qed.
Lemma qplus_comm : commutative Qcplus. Proof. intros a b. apply Qcplus_comm. Qed.
Lemma qplus_assoc : associative Qcplus. Proof. intros a b c. symmetry. apply Qcplus_assoc || apply eq_sym, Qcplus_assoc. Qed.

Section Arrays.
  Variable far : Qc -> Qc -> bool.
  Notation re := (qreals far).
  Variable K : nat.
  Lemma at_each f i : (i < K)%nat -> at_ re (each K f) i = f i.
  Proof.
    intros H. unfold at_, each. rewrite (nth_indep _ _ (f O)) by (rewrite map_length, seq_length; exact H).
    rewrite map_nth, seq_nth by exact H. reflexivity.
  Qed.
  Lemma each_ext f g : (forall i, (i < K)%nat -> f i = g i) -> each K f = each (F:=Qc) K g.
  Proof. intros H. apply map_ext_in. intros i Hi. apply in_seq in Hi. apply H. lia. Qed.
  Lemma sg_miss_is a b w : sg_miss re K (each K a) (each K b) w = qint w - qover K (fun i => a i * b i).
  Proof.
    unfold sg_miss. cbn [re_sub re_int re_add re_mul re_zero qreals]. f_equal. rewrite (fold_qover (fun i => at_ re (each K a) i * at_ re (each K b) i)). unfold qover.
    rewrite (qsum_ext _ (fun i => a i * b i)); [ring|]. intros i Hi. apply in_seq in Hi. rewrite !at_each by lia. reflexivity.
  Qed.
  (** adding arrays entry by entry, in any order *)
  Lemma combination_each {A} (f : A -> nat -> Qc) l u :
    combination (fun a b => each K (fun i => at_ re a i + at_ re b i)) (map (fun a => each K (f a)) l) u -> u = each K (fun i => qsum (map (fun a => f a i) l)).
  Proof.
    intros H. remember (map (fun a => each K (f a)) l) as L eqn:EL. revert l EL. induction H as [a|L L1 L2 a b H1 IH1 H2 IH2 P]; intros l EL.
    - destruct l as [|x [|y l]]; try discriminate. injection EL as ->. apply each_ext. intros i Hi. cbn. ring.
    - subst L. symmetry in P. apply Permutation_map_inv in P as (l' & El & P'). symmetry in El. apply map_eq_app in El as (l1 & l2 & -> & E1 & E2).
      rewrite (IH1 l1), (IH2 l2) by auto. apply each_ext. intros i Hi. rewrite !at_each by exact Hi. rewrite <- qsum_app, <- map_app. symmetry. apply qsum_perm, Permutation_map, P'.
  Qed.
End Arrays.

Local Open Scope Z_scope.
Section Run.
  Context {byte : Type}.
  Variables (far : Qc -> Qc -> bool) (K : nat).
  Notation re := (qreals far).
  Notation neq := (sg_neq re K).
  Variable m : machine (sg_vertex Qc) Z byte.
  Hypothesis Hm : machine_ok m.
  Variable n : Z.
  Hypothesis Hn : 0 <= n.
  Definition holds_x (x : Z -> nat -> Qc) (P : Z -> sg_vertex Qc) : Prop := forall v, 1 <= v <= n -> sg_lv (P v) = each K (x v).

  Lemma rmse_is th dt dv (fr : frame (list Qc) Qc byte) xy C (g : graph (sg_vertex Qc) Z byte) q x : threads_ok m (m_serv m) th -> frame_ok m th fr -> is m n g q ->
    trep (f_sert fr) (f_seru fr) n (m_nr m) (m_nt m) (fst xy) (snd xy) C -> (forall v, gs_A q v = Some true) -> holds_x x (gs_P q) ->
    exists r P A C', run_job neq m th (mkJ (rmse re K) tt 1 dt dv 1) fr (Some xy) g = Ok (r, 1) /\ is m n (r_g r) (mkGS (gs_es q) P A) /\
      trep (f_sert fr) (f_seru fr) n (m_nr m) (m_nt m) (r_x r) (r_y r) C' /\
      forall v, 1 <= v <= n -> P v = mkSG (each K (x v)) (if out_degree (gs_es q) v =? 0 then sg_err (gs_P q v) else qsum (map (fun e => miss K x e * miss K x e)%Qc (filter (fun e => e_src e =? v) (gs_es q)))).
  Proof.
    intros Ht Hfr Hg Htmp HA Hx. destruct (run_once neq m Hm n Hn th (rmse re K) tt dt dv 1 fr (Some xy) C g q Ht Hfr Hg Htmp ltac:(lia)) as (Y & r & Er & HY & Hr & Hxy).
    exists r. eexists _, _, _. split; [exact Er|]. split; [exact Hr|]. split; [exact Hxy|]. intros v Bv. specialize (HY v Bv). unfold updated_with. cbn [v_P begin v_s pr_apply rmse].
    rewrite (received_all_in (rmse re K) _ dv _ (fun u => sg_lv (gs_P q u))) in HY; [|reflexivity|].
    - cbn [pr_process rmse pr_reduce] in HY. unfold seen in HY. cbn [pr_reqv rmse begin v_P] in HY.
      rewrite (map_ext_in _ (fun e => miss K x e * miss K x e)%Qc) in HY.
      + unfold out_degree. destruct (Y v) as [u|]; cbn [combined_of] in HY.
        * destruct (Z.eqb_spec (zlen (filter (fun e => e_src e =? v) (gs_es q))) 0) as [E0|_].
          -- destruct (filter _ _) as [|e l]; [destruct (combination_nil _ _ HY)|rewrite zlen_cons in E0; pose proof (zlen_nonneg l); lia].
          -- apply combination_qsum in HY. rewrite HY, Hx by auto. reflexivity.
        * destruct (filter _ _) as [|e l]; [|discriminate]. cbn [zlen length Z.of_nat Z.eqb]. rewrite <- Hx by auto. destruct (gs_P q v); reflexivity.
      + intros e He. apply filter_In in He as [He Ev]. apply Z.eqb_eq in Ev. destruct Hg as (Hin & _). destruct (Hin e He) as [B1 B2].
        rewrite !Hx by auto. rewrite sg_miss_is. cbn [re_mul qreals]. unfold miss. rewrite Ev.
        assert (qover K (fun i => (x (e_dst e) i * x v i)%Qc) = qover K (fun i => (x v i * x (e_dst e) i)%Qc)) as -> by (apply qsum_ext; intros; ring). reflexivity.
    - intros e He. unfold message. cbn [begin v_A pr_all_vertices rmse]. rewrite HA. reflexivity.
  Qed.

  (** the total, as every rank gets it *)
  Lemma total_is th (g : graph (sg_vertex Qc) Z byte) q x : threads_ok m (m_serv m) th -> is m n g q ->
    (forall v, 1 <= v <= n -> sg_err (gs_P q v) = if out_degree (gs_es q) v =? 0 then 0%Qc else qsum (map (fun e => miss K x e * miss K x e)%Qc (filter (fun e => e_src e =? v) (gs_es q)))) ->
    exists g', g_applyReduceAllVertices (m_nr m) th return_sqerr Qcplus (fun _ => 0%Qc) g = Ok (g', map (fun _ => squared_error K (gs_es q) x) (zrange 0 (m_nr m))) /\ is m n g' q.
  Proof.
    intros Ht Hg HP. destruct (reduce_op m Hm n Hn th return_sqerr Qcplus (fun _ => 0%Qc) g q Ht qplus_assoc Hg) as (g' & k & -> & Hg' & Hk). specialize (Hk qplus_comm).
    exists g'. split; [|exact (is_ext m Hm n Hn g' _ q eq_refl (fun v _ => conj eq_refl eq_refl) Hg')]. destruct Hm as (Hr & _). do 2 f_equal. apply map_ext. intros _. rewrite red_qplus in Hk.
    - injection Hk as ->. rewrite qsum_app, qsum_zero, Qcplus_0_l. unfold squared_error. destruct Hg as (Hin & _). rewrite <- (qsum_split (@e_src Z) _ n) by (intros; apply Hin; auto).
      apply qsum_ext. intros v Hv. apply in_zrange in Hv. cbn [return_sqerr snd]. rewrite HP by lia. unfold out_degree. destruct (Z.eqb_spec (zlen (filter (fun e => e_src e =? v) (gs_es q))) 0) as [E0|]; [|reflexivity].
      destruct (filter _ _) as [|e l]; [reflexivity|]. rewrite zlen_cons in E0. pose proof (zlen_nonneg l). lia.
    - rewrite zrange_cons by lia. discriminate.
  Qed.
End Run.

Section Descend.
  Context {byte : Type}.
  Variables (far : Qc -> Qc -> bool) (K : nat) (lambda step : Qc).
  Notation re := (qreals far).
  Notation neq := (sg_neq re K).
  Notation pg := (sgd re K lambda step).
  Variable n : Z.
  Variable es : list (edge Z).
  Hypothesis Hin : forall e, In e es -> (1 <= e_src e <= n) /\ (1 <= e_dst e <= n).
  Lemma sgd_step st Y x v dv : holds_x K n x (v_P st) -> (forall v, v_A st v = Some true) -> 1 <= v <= n ->
    combined_of (pr_reduce pg (v_s st)) (received es pg dv st v) (Y v) ->
    updated_with pg Y st v = mkSG (each K (descend K es lambda step x v)) (sg_err (v_P st v)).
  Proof.
    intros Hx HA Bv HY. assert (Em : forall u, 1 <= u <= n -> message pg st u = Some (each K (x u))) by (intros u Bu; unfold message; rewrite HA; cbn; rewrite Hx by auto; reflexivity).
    unfold received in HY. cbn [pr_order sgd] in HY.
    rewrite (arriving_all pg es dv st (fun u => each K (x u)) along), (arriving_all pg es dv st (fun u => each K (x u)) against) in HY by (intros; apply Em, Hin; auto).
    cbn [along against fst snd] in HY. unfold seen in HY. cbn [pr_reqv sgd pr_process pr_reduce] in HY. rewrite (Hx v Bv) in HY.
    set (l1 := filter (fun e => e_dst e =? v) es) in *. set (l2 := filter (fun e => e_src e =? v) es) in *.
    set (c := fun p : bool * edge Z => fun i => (miss K x (snd p) * x (if fst p then e_src (snd p) else e_dst (snd p)) i)%Qc).
    set (L := map (fun e => (true, e)) l1 ++ map (fun e => (false, e)) l2).
    assert (HY' : combined_of (fun a b => each K (fun i => (at_ re a i + at_ re b i)%Qc)) (map (fun p => each K (c p)) L) (Y v)).
    { unfold L. rewrite map_app, !map_map. cbn [fst snd].
      match type of HY with combined_of _ (map ?f1 l1 ++ map ?f2 l2) _ => rewrite (map_ext_in f1 (fun e => each K (c (true, e))) l1), (map_ext_in f2 (fun e => each K (c (false, e))) l2) in HY end; [exact HY| |].
      - intros e He. apply filter_In in He as [He Ev]. apply Z.eqb_eq in Ev. rewrite sg_miss_is. apply each_ext. intros i Hi. rewrite at_each by exact Hi. unfold c, miss. cbn [fst snd re_mul qreals]. rewrite Ev.
        rewrite Qcmult_comm. do 2 f_equal. apply qsum_ext. intros. ring.
      - intros e He. apply filter_In in He as [He Ev]. apply Z.eqb_eq in Ev. rewrite sg_miss_is. apply each_ext. intros i Hi. rewrite at_each by exact Hi. unfold c, miss. cbn [fst snd re_mul qreals]. rewrite Ev.
        rewrite Qcmult_comm. reflexivity. }
    clear HY. assert (Hp : forall i, pull K es x v i = qsum (map (fun p => c p i) L)) by (intros i; unfold L; rewrite map_app, !map_map, qsum_app; reflexivity).
    assert (Htc : touched es v = true <-> L <> []).
    { unfold touched. rewrite existsb_exists. split.
      - intros (e & He & Ho). intros E0. apply app_eq_nil in E0 as [E1 E2]. apply map_eq_nil in E1, E2. apply orb_true_iff in Ho as [Ho|Ho].
        + assert (In e l2) as H by (apply filter_In; auto). rewrite E2 in H. destruct H.
        + assert (In e l1) as H by (apply filter_In; auto). rewrite E1 in H. destruct H.
      - intros HL. unfold L in HL. destruct l1 as [|e r] eqn:E1.
        + destruct l2 as [|e r] eqn:E2; [exfalso; apply HL; reflexivity|]. assert (In e (filter (fun e => e_src e =? v) es)) as H by (unfold l2 in E2; rewrite E2; cbn; auto). apply filter_In in H as [H1 H2]. exists e. rewrite H2. auto.
        + assert (In e (filter (fun e => e_dst e =? v) es)) as H by (unfold l1 in E1; rewrite E1; cbn; auto). apply filter_In in H as [H1 H2]. exists e. rewrite H2, orb_true_r. auto. }
    unfold updated_with, descend, downhill. destruct (Y v) as [u|]; cbn [combined_of] in HY'.
    - assert (touched es v = true) as -> by (apply Htc; intros E0; rewrite E0 in HY'; exact (combination_nil _ _ HY')). apply combination_each in HY'.
      cbn [pr_apply sgd]. f_equal. rewrite Hx by auto. apply each_ext. intros i Hi. rewrite HY', !at_each by exact Hi. rewrite <- Hp. cbn [re_add re_mul re_neg qreals]. ring.
    - assert (L = []) as E0 by (destruct L; [reflexivity|discriminate]). destruct (touched es v); [exfalso; apply (proj1 Htc eq_refl E0)|]. rewrite (each_ext K _ (x v)) by (intros; ring). rewrite <- Hx by auto. destruct (v_P st v); reflexivity.
  Qed.
End Descend.

Section Program.
  Context {byte : Type}.
  Variables (far : Qc -> Qc -> bool) (K : nat) (lambda step : Qc).
  Notation re := (qreals far).
  Notation neq := (sg_neq re K).
  Variable m : machine (sg_vertex Qc) Z byte.
  Variables (n : Z) (blobs : list (list (edge Z))).
  Hypothesis Hset : setting m n blobs.
  Notation es := (concat blobs).
  Let Hm : machine_ok m. Proof. apply Hset. Qed.
  Let Hn : 0 <= n. Proof. apply Hset. Qed.
  Let Hin : forall e, In e es -> (1 <= e_src e <= n) /\ (1 <= e_dst e <= n). Proof. intros e He. apply Hset; exact He. Qed.
  Variables (th : Z) (fr1 : frame (list Qc) (list Qc) byte) (fr2 : frame (list Qc) Qc byte) (dt1 dt2 : list Qc) (dv fresh : sg_vertex Qc).
  Hypothesis Ht : threads_ok m (m_serv m) th.
  Hypothesis Hfr1 : frame_ok m th fr1.
  Hypothesis Hfr2 : frame_ok m th fr2.

  Lemma sgd_is its xy C (g : graph (sg_vertex Qc) Z byte) q x : 1 <= its -> is m n g q -> gs_es q = es ->
    trep (f_sert fr1) (f_seru fr1) n (m_nr m) (m_nt m) (fst xy) (snd xy) C -> holds_x K n x (gs_P q) ->
    exists r P A, run_job neq m th (mkJ (sgd re K lambda step) tt its dt1 dv (Z.to_nat its)) fr1 (Some xy) g = Ok (r, its) /\ is m n (r_g r) (mkGS es P A) /\
      holds_x K n (descent K es lambda step (Z.to_nat its) x) P /\ forall v, 1 <= v <= n -> sg_err (P v) = sg_err (gs_P q v).
  Proof.
    intros Hi Hg Eq Hxy Hx. destruct (run_op_any neq m Hm n Hn th (mkJ (sgd re K lambda step) tt its dt1 dv (Z.to_nat its)) fr1 (Some xy) C g q Ht Hfr1 Hg Hxy) as (Y & [(k & r & (BK & Hr & Hend & Hne) & -> & _ & Hg' & _)|[[_ He] _]]).
    - assert (k = Z.to_nat its) as -> by (destruct Hend as [He|[He _]]; cbn [j_iterations] in He; lia).
      rewrite Eq in Hg'. rewrite Z2Nat.id by lia. eexists r, _, _. split; [reflexivity|]. split; [exact Hg'|]. clear Hg'.
      destruct (job_inv neq n (mkJ (sgd re K lambda step) tt its dt1 dv (Z.to_nat its)) Y C q (Z.to_nat its)
        (fun k st => holds_x K n (descent K es lambda step k x) (v_P st) /\ (forall v, v_A st v = Some true) /\ forall v, 1 <= v <= n -> sg_err (v_P st v) = sg_err (gs_P q v)) Hr) with (k := Z.to_nat its) as (H1 & _ & H2); [| |lia|split; [exact H1|exact H2]].
      + split; [exact Hx|]. split; reflexivity.
      + intros k Hk (I1 & I2 & I3) HY. unfold job_received in HY. rewrite Eq in HY.
        assert (Hu : forall v, 1 <= v <= n -> updated_with (sgd re K lambda step) (Y k) (job_after_with neq (mkJ (sgd re K lambda step) tt its dt1 dv (Z.to_nat its)) Y C q k) v =
          mkSG (each K (descend K es lambda step (descent K es lambda step k x) v)) (sg_err (v_P (job_after_with neq (mkJ (sgd re K lambda step) tt its dt1 dv (Z.to_nat its)) Y C q k) v))).
        { intros v Bv. apply (sgd_step far K lambda step n es Hin _ (Y k) _ v dv I1 I2 Bv). apply (HY v Bv). }
        split; [|split].
        * intros v Bv. change (v_P (job_after_with neq _ Y C q (S k)) v) with (updated_with (sgd re K lambda step) (Y k) (job_after_with neq (mkJ (sgd re K lambda step) tt its dt1 dv (Z.to_nat its)) Y C q k) v). rewrite Hu by auto. reflexivity.
        * reflexivity.
        * intros v Bv. change (v_P (job_after_with neq _ Y C q (S k)) v) with (updated_with (sgd re K lambda step) (Y k) (job_after_with neq (mkJ (sgd re K lambda step) tt its dt1 dv (Z.to_nat its)) Y C q k) v). rewrite Hu by auto. apply I3, Bv.
    - exfalso. apply (He (Z.to_nat its)); [cbn [j_fuel]; lia|]. left. cbn [j_iterations]. lia.
  Qed.

  Lemma run_sgd_spec init its : 1 <= its -> let x := descent K es lambda step (Z.to_nat its) init in
    exists g P, run_sgd re K lambda step m th fr1 fr2 dt1 dt2 dv fresh init its n blobs =
        Ok (g, map (fun _ => squared_error K es init) (zrange 0 (m_nr m)), map (fun _ => squared_error K es x) (zrange 0 (m_nr m))) /\
      shows_properties n m g P /\ forall v, 1 <= v <= n -> sg_lv (P v) = map (x v) (seq 0 K).
  Proof.
    intros Hi x. pose proof Hset as (_ & _ & Lb & _). unfold run_sgd. destruct (load_is m Hm n Hn fresh blobs Lb Hin) as (g0 & -> & H0). cbn [bind].
    destruct (init_is m Hm n Hn th fr1 dt1 g0 _ Hfr1 H0) as (xy & -> & Hxy). cbn [bind].
    destruct (init_is m Hm n Hn th fr2 dt2 g0 _ Hfr2 H0) as (xy2 & -> & Hxy2). cbn [bind].
    destruct (each_is m Hm n Hn (fun i g => run_call neq m th (CSet i (mkSG (each K (init i)) (re_zero re))) g) (fun i _ => mkSG (each K (init i)) (re_zero re)) g0 _ H0) as (g1 & -> & H1).
    { intros i g q Bi Hg. exact (vp_op neq m Hm n Hn th (GSet i (mkSG (each K (init i)) (re_zero re))) g q Ht Bi Hg). }
    cbn [bind run_call loaded gs_es gs_P gs_A] in *. destruct (act_op m Hm n Hn (m_serv m) th AAllActive g1 _ Ht I H1) as (g2 & -> & H2). cbn [bind gs_es gs_P gs_A] in *.
    destruct (rmse_is far K m Hm n Hn th dt2 dv fr2 xy2 _ g2 _ init Ht Hfr2 H2 Hxy2 (fun _ => eq_refl)) as (r1 & P1 & A1 & C1 & -> & H3 & Hxy2' & HP1); [intros v Bv; reflexivity|]. cbn [bind fst gs_es gs_P sg_err] in *.
    destruct (total_is far K m Hm n Hn th (r_g r1) _ init Ht H3) as (g4 & E4 & H4); [intros v Bv; cbn [gs_P gs_es]; rewrite HP1 by auto; reflexivity|].
    cbn [re_zero re_add qreals gs_es] in *. rewrite E4. cbn [bind fst snd].
    destruct (act_op m Hm n Hn (m_serv m) th AAllActive g4 _ Ht I H4) as (g5 & -> & H5). cbn [bind gs_es gs_P gs_A] in *.
    destruct (sgd_is its xy _ g5 _ init Hi H5 eq_refl Hxy) as (r2 & P2 & A2 & -> & H6 & HP2 & He2); [intros v Bv; cbn [gs_P]; rewrite HP1 by auto; reflexivity|]. cbn [bind fst gs_P] in *.
    destruct (act_op m Hm n Hn (m_serv m) th AAllActive (r_g r2) _ Ht I H6) as (g7 & -> & H7). cbn [bind gs_es gs_P gs_A] in *.
    destruct (rmse_is far K m Hm n Hn th dt2 dv fr2 (r_x r1, r_y r1) C1 g7 _ x Ht Hfr2 H7 Hxy2' (fun _ => eq_refl) HP2) as (r3 & P3 & A3 & C3 & -> & H8 & _ & HP3). cbn [bind fst gs_es gs_P] in *.
    destruct (total_is far K m Hm n Hn th (r_g r3) _ x Ht H8) as (g9 & E9 & H9).
    { intros v Bv. cbn [gs_P gs_es]. rewrite HP3 by auto. cbn [sg_err]. rewrite He2 by auto. rewrite HP1 by auto. cbn [sg_err]. destruct (out_degree es v =? 0); reflexivity. }
    cbn [gs_es] in E9. rewrite E9. cbn [bind fst snd]. exists g9. eexists. split; [reflexivity|]. split; [apply (is_properties neq m Hm n Hn _ _ H9)|].
    intros v Bv. cbn [gs_P]. rewrite HP3 by auto. reflexivity.
  Qed.
End Program.

(** *** the direction of a step is that of the gradient *)
Local Open Scope Qc_scope.
Section Gradient.
  Variables (K : nat) (es : list (edge Z)) (n : Z).
  Hypothesis Hin : forall e, In e es -> (1 <= e_src e <= n /\ 1 <= e_dst e <= n)%Z.
  Variables (lambda : Qc) (x y : Z -> nat -> Qc).
  Let P (e : edge Z) := qover K (fun i => x (e_src e) i * y (e_dst e) i + y (e_src e) i * x (e_dst e) i).
  Let Q (e : edge Z) := qover K (fun i => y (e_src e) i * y (e_dst e) i).
  Lemma miss_line t e : miss K (along_line x y t) e = miss K x e - t * P e - t * t * Q e.
  Proof using.
    unfold miss, along_line, P, Q, qover. rewrite (qsum_ext _ (fun i => (x (e_src e) i * x (e_dst e) i + t * (x (e_src e) i * y (e_dst e) i + y (e_src e) i * x (e_dst e) i)) + (t * t) * (y (e_src e) i * y (e_dst e) i))) by (intros; ring).
    rewrite !qsum_plus, !qsum_scale. rewrite !qsum_plus. ring.
  Qed.
  Lemma pull_inner : inner K n (pull K es x) y = qsum (map (fun e => miss K x e * P e) es).
  Proof using Hin.
    unfold inner, qover. rewrite qsum_swap.
    rewrite (qsum_ext _ (fun i => qsum (map (fun e => miss K x e * (x (e_src e) i * y (e_dst e) i + y (e_src e) i * x (e_dst e) i)) es))).
    - rewrite qsum_swap. apply qsum_ext. intros e _. unfold P, qover. rewrite <- qsum_scale. reflexivity.
    - intros i _. rewrite (qsum_ext _ (fun v => qsum (map (fun e => miss K x e * x (e_src e) i * y (e_dst e) i) (filter (fun e => (e_dst e =? v)%Z) es)) + qsum (map (fun e => miss K x e * x (e_dst e) i * y (e_src e) i) (filter (fun e => (e_src e =? v)%Z) es)))).
      + rewrite qsum_plus, (qsum_split (@e_dst Z)), (qsum_split (@e_src Z)) by (intros; apply Hin; auto). rewrite <- qsum_plus. apply qsum_ext. intros e _. ring.
      + intros v _. unfold pull. rewrite Qcmult_plus_distr_l. f_equal.
        * rewrite Qcmult_comm, <- qsum_scale. apply qsum_ext. intros e He. apply filter_In in He as [_ He]. apply Z.eqb_eq in He. rewrite He. ring.
        * rewrite Qcmult_comm, <- qsum_scale. apply qsum_ext. intros e He. apply filter_In in He as [_ He]. apply Z.eqb_eq in He. rewrite He. ring.
  Qed.
  Lemma pull_untouched v i : touched es v = false -> pull K es x v i = 0.
  Proof using.
    intros H. unfold pull. assert (forall b : edge Z -> bool, (forall e, b e = true -> (e_src e =? v)%Z || (e_dst e =? v)%Z = true) -> filter b es = []) as Hf.
    { intros b Hb. destruct (filter b es) as [|e l] eqn:El; [reflexivity|]. assert (In e (filter b es)) as Hi by (rewrite El; cbn; auto). apply filter_In in Hi as [Hi Be].
      assert (touched es v = true) by (apply existsb_exists; exists e; auto). congruence. }
    rewrite !Hf; [cbn; ring| |]; intros e He; rewrite He, ?orb_true_r; reflexivity.
  Qed.
  Let T v (c : Qc) : Qc := if touched es v then c else 0.
  Lemma downhill_inner : inner K n (downhill K es lambda x) y = inner K n (pull K es x) y - lambda * qsum (map (fun v => T v (qover K (fun i => x v i * y v i))) (zrange 1 (n + 1))).
  Proof using.
    unfold inner. rewrite <- qsum_scale. assert (forall a b c : Qc, a + c = b -> a = b - c) as Hs by (intros a b c <-; ring). apply Hs. clear Hs. rewrite <- qsum_plus. apply qsum_ext. intros v _. unfold T, downhill, qover.
    destruct (touched es v) eqn:Et.
    - rewrite <- qsum_scale, <- qsum_plus. apply qsum_ext. intros. ring.
    - rewrite Qcmult_0_r, Qcplus_0_r. apply qsum_ext. intros i _. rewrite pull_untouched by exact Et. ring.
  Qed.
  Lemma objective_line : exists a b c, forall t,
    objective K es n lambda (along_line x y t) = objective K es n lambda x - (1 + 1) * t * inner K n (downhill K es lambda x) y + t * t * (a + t * b + t * t * c).
  Proof using Hin.
    exists (qsum (map (fun e => P e * P e + - (1 + 1) * (miss K x e * Q e)) es) + lambda * qsum (map (fun v => T v (qover K (fun i => y v i * y v i))) (zrange 1 (n + 1)))), ((1 + 1) * qsum (map (fun e => P e * Q e) es)), (qsum (map (fun e => Q e * Q e) es)).
    intros t. rewrite downhill_inner, pull_inner. unfold objective, squared_error.
    rewrite (qsum_ext _ (fun e => miss K x e * miss K x e + - (1 + 1) * t * (miss K x e * P e) + t * t * (P e * P e + - (1 + 1) * (miss K x e * Q e)) + (1 + 1) * t * t * t * (P e * Q e) + t * t * t * t * (Q e * Q e))) by (intros e _; rewrite miss_line; ring).
    rewrite (qsum_plus (fun e => miss K x e * miss K x e + - (1 + 1) * t * (miss K x e * P e) + t * t * (P e * P e + - (1 + 1) * (miss K x e * Q e)) + (1 + 1) * t * t * t * (P e * Q e))).
    rewrite (qsum_plus (fun e => miss K x e * miss K x e + - (1 + 1) * t * (miss K x e * P e) + t * t * (P e * P e + - (1 + 1) * (miss K x e * Q e)))).
    rewrite (qsum_plus (fun e => miss K x e * miss K x e + - (1 + 1) * t * (miss K x e * P e))), (qsum_plus (fun e => miss K x e * miss K x e)).
    rewrite (qsum_scale (- (1 + 1) * t)), (qsum_scale (t * t)), (qsum_scale ((1 + 1) * t * t * t)), (qsum_scale (t * t * t * t)).
    rewrite (qsum_ext (fun v => if touched es v then qover K (fun i => along_line x y t v i * along_line x y t v i) else 0) (fun v => T v (qover K (fun i => x v i * x v i)) + (1 + 1) * t * T v (qover K (fun i => x v i * y v i)) + t * t * T v (qover K (fun i => y v i * y v i)))).
    - rewrite !qsum_plus, !qsum_scale. unfold T at 1. ring.
    - intros v _. unfold T. destruct (touched es v); [|ring]. unfold qover. rewrite <- !qsum_scale, <- !qsum_plus. apply qsum_ext. intros i _. unfold along_line. ring.
  Qed.
End Gradient.
