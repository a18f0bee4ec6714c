From Coq Require Import QArith Qcanon.
From Verif Require Import Base BaseLemmas SegmentProofs Layout Reduce ReduceProofs DCSC MatSpec Segment Vec SpMat GraphVert Graph Runtime RunSpec RuntimeProofs GraphOps GraphHist GraphHistProofs Apps AppSpec AppBase RankSpec DegreeProofs PageRankProofs Sgd SgdSpec SgdProofs Lda LdaSpec.
Local Open Scope Z_scope.

(** *** runs whose [do_every_iteration] uses the graph *)
Section SeeingProofs.
  Context {V E byte : Type}.
  Variable neq : V -> V -> bool.
  Variable m : machine V E byte.
  Hypothesis Hm : machine_ok m.
  Variable n : Z.
  Hypothesis Hn : 0 <= n.
  Context {S T U : Type}.
  Variables (th : Z) (jb : job S T U V E) (fr : frame T U byte).
  Hypothesis Ht : threads_ok m (m_serv m) th.
  Hypothesis Hfr : frame_ok m th fr.
  Notation pg := (j_pg jb).
  Hypothesis Hall : pr_all_vertices pg = true.
  Variable every : Z -> S -> graph V E byte -> R (S * graph V E byte).
  Variable es : list (edge E).
  Variable tot : (Z -> V) -> S.
  Hypothesis Hev : forall it s g P A, is m n g (mkGS es P A) -> exists g', every it s g = Ok (tot P, g') /\ is m n g' (mkGS es P A).
  (** the object, the graph and the temporary vectors between supersteps *)
  Definition sees (r : @rstate S T U V E byte) (s : S) (P : Z -> V) (C : Z -> T) : Prop :=
    r_s r = s /\ is m n (r_g r) (mkGS es P (fun _ => Some true)) /\ trep (f_sert fr) (f_seru fr) n (m_nr m) (m_nt m) (r_x r) (r_y r) C /\ zlen (r_log r) = m_nr m.

  Lemma superstep_sees it r s P C : sees r s P C -> let st := mkV s P (fun _ => Some true) C in
    exists Y r' C', superstep_seeing neq m th jb fr every it r = Ok (r', converged_with n pg neq Y st) /\
      (forall v, 1 <= v <= n -> combined_of (pr_reduce pg s) (received es pg (j_dv jb) st v) (Y v)) /\
      sees r' (tot (updated_with pg Y st)) (updated_with pg Y st) C'.
  Proof.
    intros (Es & (Hin & Hg) & Hxy & Hl) st. cbn [gs_es gs_P gs_A] in *. destruct Hfr as (Ft & Fu & Dt & Du). pose proof Hm as (Hr & Hnt & _ & _ & _).
    assert (DEv : forall l, m_decv m (m_encv m l) (zlen l) = Ok l) by apply Hm.
    unfold superstep_seeing.
    destruct (superstep_with (f_sert fr) (m_serv m) (f_seru fr) (f_enct fr) (f_dect fr) (m_encv m) (m_decv m) (f_encu fr) (f_decu fr) Dt DEv Du n (m_nr m) (m_nt m) th Hn Hr Hnt Ft Ht Fu
      (fun z => z) (fun z => z) (j_dv jb) neq (unforced pg) es Hin (fun q0 Y => outcome n es (unforced pg) (j_dv jb) q0 Y) (r_g r) (fun q0 Y H _ => ex_intro _ Y (conj (fun _ _ => eq_refl) H)) it st r) as (Y & r1 & HY & E1 & (R1 & R2 & R3) & L1 & _).
    { split; [exact Es|]. split; [exact Hg|exact Hxy]. }
    { split; reflexivity. }
    { exact Hl. }
    rewrite E1. cbn [bind fst snd]. cbn [v_P v_A step_with] in R2.
    destruct (Hev it (r_s r1) (r_g r1) _ _ (conj Hin R2)) as (g2 & -> & (_ & H2)). cbn [bind fst snd]. rewrite Hall.
    destruct (all_active_spec (f_sert fr) (m_serv m) n (m_nr m) (m_nt m) th Hn Hr Ft es g2 _ _ H2) as (g3 & -> & H3). cbn [bind].
    exists Y. eexists _, _. split; [reflexivity|]. split; [exact HY|]. split; [reflexivity|]. split; [split; [exact Hin|exact H3]|]. split; [exact R3|exact L1].
  Qed.

  Lemma loop_sees (I : nat -> S -> (Z -> V) -> Prop) :
    (forall k s P C Y, I k s P -> let st := mkV s P (fun _ => Some true) C in
       (forall v, 1 <= v <= n -> combined_of (pr_reduce pg s) (received es pg (j_dv jb) st v) (Y v)) -> I (Datatypes.S k) (tot (updated_with pg Y st)) (updated_with pg Y st)) ->
    forall f k r s P C, (0 < f)%nat -> j_iterations jb = Z.of_nat (k + f) -> sees r s P C -> I k s P ->
    exists r' s' P' C', loop_seeing neq m th jb fr every f (Z.of_nat k) r = Ok (r', j_iterations jb) /\ sees r' s' P' C' /\ I (k + f)%nat s' P'.
  Proof.
    intros Hstep. induction f as [|f IH]; intros k r s P C Hf Hi Hs HI; [lia|]. cbn [loop_seeing].
    destruct (superstep_sees (Z.of_nat k) r s P C Hs) as (Y & r1 & C1 & -> & HY & Hs1). cbn [bind fst snd].
    pose proof (Hstep k s P C Y HI HY) as HI1. destruct (Z.eqb_spec (Z.of_nat k + 1) (j_iterations jb)) as [Ee|Ne].
    - assert (f = 0)%nat as -> by lia. eexists _, _, _, _. split; [rewrite Ee; reflexivity|]. split; [exact Hs1|]. replace (k + 1)%nat with (Datatypes.S k) by lia. exact HI1.
    - destruct (Z.leb_spec (j_iterations jb) 0); [lia|]. cbn [andb]. replace (Z.of_nat k + 1) with (Z.of_nat (Datatypes.S k)) by lia.
      replace (k + Datatypes.S f)%nat with (Datatypes.S k + f)%nat by lia. eapply (IH (Datatypes.S k) r1 _ _ C1); [lia|rewrite Hi; f_equal; lia|exact Hs1|exact HI1].
  Qed.

  Lemma run_sees (I : nat -> S -> (Z -> V) -> Prop) xy C g P A :
    (forall k s P C Y, I k s P -> let st := mkV s P (fun _ => Some true) C in
       (forall v, 1 <= v <= n -> combined_of (pr_reduce pg s) (received es pg (j_dv jb) st v) (Y v)) -> I (Datatypes.S k) (tot (updated_with pg Y st)) (updated_with pg Y st)) ->
    1 <= j_iterations jb -> j_fuel jb = Z.to_nat (j_iterations jb) -> is m n g (mkGS es P A) -> trep (f_sert fr) (f_seru fr) n (m_nr m) (m_nt m) (fst xy) (snd xy) C -> I O (j_s jb) P ->
    exists r P', run_seeing neq m th jb fr every xy g = Ok (r, j_iterations jb) /\ is m n (r_g r) (mkGS es P' (fun _ => Some true)) /\ I (Z.to_nat (j_iterations jb)) (r_s r) P'.
  Proof.
    intros Hstep Hi Hf (Hin & Hg) Hxy HI. cbn [gs_es gs_P gs_A] in *. unfold run_seeing. rewrite Hall. destruct Hfr as (Ft & _). pose proof Hm as (Hr & _).
    destruct (all_active_spec (f_sert fr) (m_serv m) n (m_nr m) (m_nt m) th Hn Hr Ft es g _ _ Hg) as (g1 & -> & H1). cbn [bind]. rewrite Hf.
    destruct (loop_sees I Hstep (Z.to_nat (j_iterations jb)) O (mkR (j_s jb) g1 (fst xy) (snd xy) (map (fun _ => []) (zrange 0 (m_nr m)))) (j_s jb) P C) as (r' & s' & P' & C' & Er & (Es & Hg' & _) & HI'); [lia|cbn [Nat.add]; lia| |exact HI|].
    - split; [reflexivity|]. split; [split; [exact Hin|exact H1]|]. split; [exact Hxy|]. cbn [r_log]. rewrite zlen_map, zlen_zrange; lia.
    - exists r', P'. split; [exact Er|]. split; [exact Hg'|]. rewrite Es. exact HI'.
  Qed.
End SeeingProofs.

Section LdaArrays.
  Variables (far : Qc -> Qc -> bool) (log : Qc -> Qc) (K : nat).
  Notation lg := (qlogs far log).
  Notation re := (qreals far).
  Notation add_ := (addN lg K).
  Lemma addN_each f g : add_ (each K f) (each K g) = each K (fun i => f i + g i)%Qc.
  Proof. apply each_ext. intros i Hi. cbn [lg_re qlogs]. rewrite !at_each by exact Hi. reflexivity. Qed.
  Lemma addN_comm : commutative add_.
  Proof. intros a b. apply each_ext. intros i Hi. apply Qcplus_comm. Qed.
  Lemma addN_assoc : associative add_.
  Proof. intros a b c. apply each_ext. intros i Hi. unfold addN. cbn [lg_re qlogs]. rewrite !at_each by exact Hi. cbn [re_add qreals]. ring. Qed.
  Lemma red_addN {A} (f : A -> nat -> Qc) l r : red add_ (map (fun a => each K (f a)) l) = Some r -> r = each K (fun i => qsum (map (fun a => f a i) l)).
  Proof.
    destruct l as [|x l]; [discriminate|]. cbn [map red]. intros H. injection H as <-.
    assert (forall g, fold_left (fun x1 x2 => add_ x1 x2) (map (fun a => each K (f a)) l) (each K g) = each K (fun i => g i + qsum (map (fun a => f a i) l))%Qc) as Hf.
    { induction l as [|y l IH]; intros g; cbn [map fold_left]; [apply each_ext; intros; cbn; ring|]. rewrite addN_each, IH. apply each_ext. intros. rewrite qsum_cons. ring. }
    exact (Hf (f x)).
  Qed.
  Lemma scaled_is gamma gamma' w : (forall i, (i < K)%nat -> gamma i = gamma' i) -> scaled lg K gamma w = each K (portion K gamma' w).
  Proof.
    intros H. unfold scaled. cbn [lg_re qlogs re_add re_zero re_mul re_int qreals lg_div]. rewrite fold_qover. apply each_ext. intros i Hi. unfold portion, qover. rewrite H by exact Hi.
    rewrite (qsum_ext gamma gamma') by (intros j Hj; apply in_seq in Hj; apply H; lia). rewrite Qcplus_0_l. reflexivity.
  Qed.
End LdaArrays.

Section LdaRun.
  Context {byte : Type}.
  Variables (far : Qc -> Qc -> bool) (log : Qc -> Qc) (K : nat).
  Notation lg := (qlogs far log).
  Notation re := (qreals far).
  Notation neq := (ld_neq lg K).
  Variables (n ndoc : Z) (es : list (edge Z)).
  Hypothesis Hin : forall e, In e es -> (1 <= e_src e <= n) /\ (1 <= e_dst e <= n).
  Definition topics (x : Z -> nat -> Qc) (P : Z -> ld_vertex Qc) : Prop := forall v, 1 <= v <= n -> ld_N (P v) = each K (x v) /\ ld_doc (P v) = (v <=? ndoc).

  Lemma touched_ends v : touched es v = true <-> filter (fun e => e_dst e =? v) es <> [] \/ filter (fun e => e_src e =? v) es <> [].
  Proof.
    unfold touched. rewrite existsb_exists. assert (forall (f : edge Z -> bool), (exists e, In e es /\ f e = true) <-> filter f es <> []) as Hf.
    { intros f. split.
      - intros (e & He & Hfe) H0. assert (In e (filter f es)) as H by (apply filter_In; auto). rewrite H0 in H. destruct H.
      - intros H. destruct (filter f es) as [|e l] eqn:El; [congruence|]. assert (In e (filter f es)) as Hi by (rewrite El; cbn; auto). apply filter_In in Hi. exists e. exact Hi. }
    rewrite <- !Hf. split.
    - intros (e & He & Ho). apply orb_true_iff in Ho as [Ho|Ho]; [right|left]; exists e; auto.
    - intros [(e & He & Ho)|(e & He & Ho)]; exists e; rewrite Ho, ?orb_true_r; auto.
  Qed.

  (** one superstep of a program that adds up arrays over both ends of the edges *)
  Lemma gather_step {S} (pg : program S (list Qc) (list Qc) (ld_vertex Qc) Z) (f : Z -> Z -> Z -> nat -> Qc) st Y x dv v :
    pr_order pg = ALL_EDGES -> (forall s, pr_reduce pg s = addN lg K) -> (forall s, pr_apply pg s = ld_apply lg K) ->
    (forall u, 1 <= u <= n -> message pg st u = Some (each K (x u))) ->
    (forall e, In e es -> e_dst e = v \/ e_src e = v -> forall u, 1 <= u <= n -> pr_process pg (v_s st) (each K (x u)) (e_val e) (seen pg dv st v) = each K (f v u (e_val e))) ->
    topics x (v_P st) -> 1 <= v <= n -> combined_of (pr_reduce pg (v_s st)) (received es pg dv st v) (Y v) ->
    updated_with pg Y st v = mkLD (each K (gather es f x v)) (v <=? ndoc) (ld_ll (v_P st v)).
  Proof.
    intros Ho Hr Ha Em Hp Hx Bv HY. unfold received in HY. rewrite Ho, Hr in HY.
    rewrite (arriving_all pg es dv st (fun u => each K (x u)) along), (arriving_all pg es dv st (fun u => each K (x u)) against) in HY by (intros; apply Em, Hin; auto).
    cbn [along against fst snd] in HY.
    set (l1 := filter (fun e => e_dst e =? v) es) in *. set (l2 := filter (fun e => e_src e =? v) es) in *.
    set (c := fun p : bool * edge Z => f v (if fst p then e_src (snd p) else e_dst (snd p)) (e_val (snd p))).
    set (L := map (fun e => (true, e)) l1 ++ map (fun e => (false, e)) l2).
    assert (HY' : combined_of (fun a b => each K (fun i => (at_ re a i + at_ re b i)%Qc)) (map (fun p => each K (c p)) L) (Y v)).
    { unfold L. rewrite map_app, !map_map. cbn [fst snd].
      match type of HY with combined_of _ (map ?f1 l1 ++ map ?f2 l2) _ => rewrite (map_ext_in f1 (fun e => each K (c (true, e))) l1), (map_ext_in f2 (fun e => each K (c (false, e))) l2) in HY end; [exact HY| |].
      - intros e He. apply filter_In in He as [He Ev]. apply Z.eqb_eq in Ev. apply Hp; auto. apply Hin; auto.
      - intros e He. apply filter_In in He as [He Ev]. apply Z.eqb_eq in Ev. apply Hp; auto. apply Hin; auto. }
    clear HY. assert (Hs : forall i, qsum (map (fun p => c p i) L) = (qsum (map (fun e => f v (e_src e) (e_val e) i) l1) + qsum (map (fun e => f v (e_dst e) (e_val e) i) l2))%Qc)
      by (intros i; unfold L; rewrite map_app, !map_map, qsum_app; reflexivity).
    destruct (Hx v Bv) as [HN Hd]. unfold updated_with, gather. destruct (Y v) as [u|]; cbn [combined_of] in HY'.
    - assert (touched es v = true) as ->.
      { apply touched_ends. fold l1 l2. destruct l1; [|left; discriminate]. destruct l2; [|right; discriminate]. destruct (combination_nil _ _ HY'). }
      apply combination_each in HY'. rewrite Ha. unfold ld_apply. rewrite Hd. f_equal. apply each_ext. intros i Hi. rewrite HY'. cbn [lg_re qlogs]. rewrite at_each by exact Hi. apply Hs.
    - assert (touched es v = false) as ->.
      { destruct (touched es v) eqn:Et; [|reflexivity]. apply touched_ends in Et. fold l1 l2 in Et. unfold L in HY'. destruct l1; [|discriminate]. destruct l2; [|discriminate]. destruct Et; congruence. }
      transitivity (mkLD (each K (x v)) (v <=? ndoc) (ld_ll (v_P st v))); [rewrite <- HN, <- Hd; destruct (v_P st v)|]; reflexivity.
  Qed.
  Lemma init_step rnd st Y x dv v : topics x (v_P st) -> (forall v, v_A st v = Some true) -> 1 <= v <= n ->
    combined_of (addN lg K) (received es (lda_init lg K rnd) dv st v) (Y v) ->
    updated_with (lda_init lg K rnd) Y st v = mkLD (each K (seeded K es rnd x v)) (v <=? ndoc) (ld_ll (v_P st v)).
  Proof.
    intros Hx HA Bv HY. apply (gather_step (lda_init lg K rnd) (fun _ _ w => portion K (rnd w) w) st Y x dv v); auto.
    - intros u Bu. unfold message. rewrite HA. cbn [pr_send lda_init fst]. f_equal. apply Hx, Bu.
    - intros e _ _ u _. cbn [pr_process lda_init]. apply scaled_is. reflexivity.
  Qed.
  Variables alpha eta : Qc.
  Notation pg := (lda lg K alpha eta (qint (n - ndoc))).
  Lemma lda_step st Y x dv v : topics x (v_P st) -> (forall v, v_A st v = Some true) -> v_s st = each K (topic_total ndoc n x) -> 1 <= v <= n ->
    combined_of (addN lg K) (received es pg dv st v) (Y v) ->
    updated_with pg Y st v = mkLD (each K (round K ndoc n es alpha eta x v)) (v <=? ndoc) (ld_ll (v_P st v)).
  Proof.
    intros Hx HA Hs Bv HY. apply (gather_step pg (fun v u w => portion K (belief ndoc n alpha eta x v u) w) st Y x dv v); auto.
    - intros u Bu. unfold message. rewrite HA. cbn [pr_send lda fst]. f_equal. apply Hx, Bu.
    - intros e _ _ u Bu. cbn [pr_process lda]. apply scaled_is. intros i Hi. unfold seen. cbn [pr_reqv lda]. destruct (Hx v Bv) as [-> ->]. rewrite Hs.
      cbn [lg_re qlogs]. rewrite !at_each by exact Hi. cbn [lg_div lg_one qlogs re_add re_sub re_mul qreals]. unfold belief, smoothed. destruct (v <=? ndoc); reflexivity.
  Qed.
  Variable m : machine (ld_vertex Qc) Z byte.
  Hypothesis Hm : machine_ok m.
  Hypothesis Hn : 0 <= n.
  Definition totals (P : Z -> ld_vertex Qc) : list Qc := each K (fun i => qsum (map (fun v => if ld_doc (P v) then 0%Qc else at_ re (ld_N (P v)) i) (zrange 1 (n + 1)))).
  Lemma totals_topics x P : topics x P -> totals P = each K (topic_total ndoc n x).
  Proof using.
    clear alpha eta log Hin.
    intros H. apply each_ext. intros i Hi. unfold topic_total. assert (forall v, In v (zrange 1 (n + 1)) -> 1 <= v <= n) as Hz by (intros v Hv; apply in_zrange in Hv; lia).
    induction (zrange 1 (n + 1)) as [|v l IH]; [reflexivity|]. cbn [map filter]. rewrite qsum_cons, IH by (intros; apply Hz; cbn; auto). destruct (H v) as [-> ->]; [apply Hz; cbn; auto|].
    rewrite at_each by exact Hi. rewrite Z.leb_antisym. destruct (ndoc <? v); cbn [negb map]; rewrite ?qsum_cons; ring.
  Qed.
  Lemma global_is th g P A : threads_ok m (m_serv m) th -> is m n g (mkGS es P A) -> exists g', calc_global lg K m th g = Ok (totals P, g') /\ is m n g' (mkGS es P A).
  Proof.
    intros Ht Hg. unfold calc_global. cbn [lg_re qlogs re_zero qreals].
    destruct (reduce_op m Hm n Hn th (if_term lg K) (addN lg K) (fun _ => each K (fun _ => 0%Qc)) g _ Ht (addN_assoc far log K) Hg) as (g' & k & E1 & Hg' & Hk). cbn [lg_re qlogs re_zero qreals] in E1. rewrite E1. cbn [bind snd fst].
    pose proof Hm as (Hr & _). rewrite zrange_cons by lia. cbn [map]. exists g'. split; [|exact Hg']. f_equal. f_equal. specialize (Hk (addN_comm far log K)). cbn [gs_P] in Hk.
    set (c := fun p : option Z => match p with None => fun _ => 0%Qc | Some v => fun i => if ld_doc (P v) then 0%Qc else at_ re (ld_N (P v)) i end).
    assert (E2 : map (fun _ : Z => each K (fun _ => 0%Qc)) (zrange 0 (m_nr m)) ++ map (fun v => snd (if_term lg K (P v))) (zrange 1 (n + 1)) = map (fun p => each K (c p)) (map (fun _ => None) (zrange 0 (m_nr m)) ++ map Some (zrange 1 (n + 1)))).
    { rewrite map_app, !map_map. f_equal. apply map_ext. intros v. unfold if_term, c. cbn [snd lg_re qlogs re_zero qreals]. destruct (ld_doc (P v)); reflexivity. }
    rewrite E2 in Hk. symmetry in Hk. apply red_addN in Hk. rewrite Hk. apply each_ext. intros i _. rewrite map_app, !map_map, qsum_app. cbn [c]. rewrite qsum_zero, Qcplus_0_l. reflexivity.
  Qed.
End LdaRun.

Section LdaProgram.
  Context {byte : Type}.
  Variables (far : Qc -> Qc -> bool) (log : Qc -> Qc) (K : nat).
  Notation lg := (qlogs far log).
  Notation re := (qreals far).
  Notation neq := (ld_neq lg K).
  Variable m : machine (ld_vertex Qc) Z byte.
  Variables (n : Z) (blobs : list (list (edge Z))).
  Hypothesis Hset : setting m n blobs.
  Notation es := (concat blobs).
  Let Hm : machine_ok m. Proof. apply Hset. Qed.
  Let Hn : 0 <= n. Proof. apply Hset. Qed.
  Let Hin : forall e, In e es -> (1 <= e_src e <= n) /\ (1 <= e_dst e <= n). Proof. intros e He. apply Hset; exact He. Qed.
  Variables (th : Z) (fr : frame (list Qc) (list Qc) byte) (fr2 : frame (list Qc) Qc byte) (dt : list Qc) (dv fresh : ld_vertex Qc).
  Hypothesis Ht : threads_ok m (m_serv m) th.
  Hypothesis Hfr : frame_ok m th fr.
  Hypothesis Hfr2 : frame_ok m th fr2.
  Variables (rnd : Z -> nat -> Qc) (alpha eta : Qc) (ndoc nterms : Z) (junk : Z -> nat -> Qc).
  Hypothesis Hsum : ndoc + nterms = n.

  (** the probabilities of the occurrences *)
  Lemma chance_is x v u w : 
    pr_process (lda_ll lg K eta) (each K (smoothed ndoc n eta x)) (each K (x u)) w (mkLD (each K (x v)) (v <=? ndoc) 0%Qc) = (qint w * log (chance K ndoc n eta x u v))%Qc.
  Proof.
    cbn [pr_process lda_ll ld_N lg_re qlogs re_add re_sub re_mul re_int re_zero qreals lg_div lg_one lg_log]. f_equal. f_equal.
    rewrite (fold_qover (fun i => at_ re (each K (x u)) i + (eta - 1))%Qc), (fold_qover (fun i => (at_ re (each K (x v)) i + (eta - 1)) / at_ re (each K (smoothed ndoc n eta x)) i * ((at_ re (each K (x u)) i + (eta - 1)) / (0 + qsum (map (fun i => at_ re (each K (x u)) i + (eta - 1)) (seq 0 K)))))%Qc), !Qcplus_0_l.
    unfold chance. apply qsum_ext. intros i Hi. apply in_seq in Hi. rewrite !at_each by lia. f_equal. f_equal. apply qsum_ext. intros j Hj. apply in_seq in Hj. rewrite at_each by lia. reflexivity.
  Qed.

  Lemma ll_is (g : graph (ld_vertex Qc) Z byte) P x : is m n g (mkGS es P (fun _ => Some true)) -> topics K n ndoc x P ->
    exists r P' A, run_job neq m th (mkJ (lda_ll lg K eta) (each K (smoothed ndoc n eta x)) 1 dt dv 1) fr2 None g = Ok (r, 1) /\ is m n (r_g r) (mkGS es P' A) /\
      topics K n ndoc x P' /\
      forall v, 1 <= v <= n -> ld_ll (P' v) = (if in_degree es v =? 0 then ld_ll (P v) else qsum (map (fun e => qint (e_val e) * log (chance K ndoc n eta x (e_src e) v))%Qc (filter (fun e => e_dst e =? v) es))).
  Proof.
    intros Hg Hx. destruct (run_once neq m Hm n Hn th (lda_ll lg K eta) (each K (smoothed ndoc n eta x)) dt dv 1 fr2 None (fun _ => dt) g _ Ht Hfr2 Hg eq_refl ltac:(lia)) as (Y & r & Er & HY & Hr & _).
    exists r. eexists _, _. split; [exact Er|]. split; [exact Hr|]. cbn [gs_es gs_P gs_A] in *.
    assert (H : forall v, 1 <= v <= n -> updated_with (lda_ll lg K eta) Y (begin (lda_ll lg K eta) (mkV (each K (smoothed ndoc n eta x)) P (fun _ => Some true) (fun _ => dt))) v =
      mkLD (each K (x v)) (v <=? ndoc) (if in_degree es v =? 0 then ld_ll (P v) else qsum (map (fun e => qint (e_val e) * log (chance K ndoc n eta x (e_src e) v))%Qc (filter (fun e => e_dst e =? v) es)))).
    { intros v Bv. specialize (HY v Bv). unfold updated_with. cbn [v_P begin v_s pr_apply lda_ll]. destruct (Hx v Bv) as [HN Hd].
      rewrite (received_all_out (lda_ll lg K eta) _ dv _ (fun u => ld_N (P u))) in HY; [|reflexivity|intros e He; reflexivity].
      rewrite (map_ext_in _ (fun e => qint (e_val e) * log (chance K ndoc n eta x (e_src e) v))%Qc) in HY.
      - unfold in_degree. destruct (Y v) as [u|]; cbn [combined_of] in HY.
        + destruct (Z.eqb_spec (zlen (filter (fun e => e_dst e =? v) es)) 0) as [E0|_].
          * destruct (filter _ _) as [|e l]; [destruct (combination_nil _ _ HY)|rewrite zlen_cons in E0; pose proof (zlen_nonneg l); lia].
          * apply combination_qsum in HY. rewrite HY, HN, Hd. reflexivity.
        + destruct (filter _ _) as [|e l]; [|discriminate]. cbn [zlen length Z.of_nat Z.eqb]. rewrite <- HN, <- Hd. destruct (P v); reflexivity.
      - intros e He. apply filter_In in He as [He Ev]. apply Z.eqb_eq in Ev. destruct (Hin e He) as [B1 B2]. cbn [v_s begin]. destruct (Hx (e_src e) B1) as [HNs _]. rewrite HNs. rewrite <- (chance_is x v (e_src e) (e_val e)).
        unfold seen. cbn [pr_reqv lda_ll begin v_P pr_process ld_N]. rewrite HN. reflexivity. }
    split; [intros v Bv; rewrite H by auto; split; reflexivity|intros v Bv; rewrite H by auto; reflexivity].
  Qed.

  Lemma topics_spec its : 1 <= its -> let x := rounds K ndoc n es alpha eta (Z.to_nat its) (seeded K es rnd junk) in
    exists s g P, lda_topics lg K rnd alpha eta m th fr dt dv fresh junk ndoc nterms its n blobs = Ok (s, g) /\
      is m n g (mkGS es P (fun _ => Some true)) /\ topics K n ndoc x P /\ s = totals far K n P /\ forall v, 1 <= v <= n -> ld_ll (P v) = 0%Qc.
  Proof.
    intros Hi x. pose proof Hset as (_ & _ & Lb & _). unfold lda_topics. destruct (load_is m Hm n Hn fresh blobs Lb Hin) as (g0 & -> & H0). cbn [bind].
    destruct (Z.eqb_spec (ndoc + nterms) n) as [_|N]; [|contradiction]. cbn [negb].
    destruct (each_is m Hm n Hn (fun i g => run_call neq m th (CSet i (mkLD (each K (junk i)) (i <=? ndoc) (re_zero re))) g) (fun i _ => mkLD (each K (junk i)) (i <=? ndoc) (re_zero re)) g0 _ H0) as (g1 & E1 & H1).
    { intros i g q Bi Hg. exact (vp_op neq m Hm n Hn th (GSet i (mkLD (each K (junk i)) (i <=? ndoc) (re_zero re))) g q Ht Bi Hg). }
    cbn [lg_re qlogs] in *. rewrite E1. clear E1. cbn [bind run_call loaded gs_es gs_P gs_A] in *. destruct (act_op m Hm n Hn (m_serv m) th AAllActive g1 _ Ht I H1) as (g2 & -> & H2). cbn [bind gs_es gs_P gs_A] in *.
    destruct (run_once neq m Hm n Hn th (lda_init lg K rnd) tt dt dv 1 fr None (fun _ => dt) g2 _ Ht Hfr H2 eq_refl ltac:(lia)) as (Y & r1 & -> & HY & H3 & _). cbn [bind fst gs_es gs_P gs_A] in *.
    set (st0 := begin (lda_init lg K rnd) _) in *.
    set (P1 := updated_with (lda_init lg K rnd) Y st0) in *.
    assert (HP1 : forall v, 1 <= v <= n -> P1 v = mkLD (each K (seeded K es rnd junk v)) (v <=? ndoc) (ld_ll (v_P st0 v))).
    { intros v Bv. apply (init_step far log K n ndoc es Hin rnd st0 Y junk dv v); [|intros; reflexivity|exact Bv|apply HY, Bv]. intros u Bu. split; [reflexivity|]. cbn. reflexivity. }
    destruct (global_is far log K n es m Hm Hn th (r_g r1) P1 _ Ht H3) as (g4 & -> & H4). cbn [bind fst snd].
    destruct (init_is m Hm n Hn th fr dt g4 _ Hfr H4) as (xy & -> & Hxy). cbn [bind].
    destruct (act_op m Hm n Hn (m_serv m) th AAllActive g4 _ Ht I H4) as (g5 & -> & H5). cbn [bind gs_es gs_P gs_A] in *.
    replace nterms with (n - ndoc) by lia. set (jb := mkJ (lda lg K alpha eta (re_int re (n - ndoc))) (totals far K n P1) its dt dv (Z.to_nat its)).
    set (X := fun k => rounds K ndoc n es alpha eta k (seeded K es rnd junk)).
    destruct (run_sees neq m Hm n Hn th jb fr Ht Hfr eq_refl (fun _ _ g => calc_global lg K m th g) es (totals far K n) (fun _ _ g P A => global_is far log K n es m Hm Hn th g P A Ht)
      (fun k s P => topics K n ndoc (X k) P /\ s = totals far K n P /\ forall v, 1 <= v <= n -> ld_ll (P v) = 0%Qc) xy (fun _ => dt) g5 P1 (fun _ => Some true)) as (r2 & P2 & -> & H6 & HP2 & Es2 & Hl2); [|cbn; lia|reflexivity|exact H5|exact Hxy| |].
    { intros k s P C Y' (I1 & I2 & I3) st HY'. assert (Hu : forall v, 1 <= v <= n -> updated_with (j_pg jb) Y' st v = mkLD (each K (X (Datatypes.S k) v)) (v <=? ndoc) (ld_ll (P v))).
      { intros v Bv. apply (lda_step far log K n ndoc es Hin alpha eta st Y' (X k) dv v I1); [intros; reflexivity| |exact Bv|apply (HY' v Bv)]. cbn [v_s st]. rewrite I2. apply (totals_topics far K n ndoc (X k) P I1). }
      split; [intros v Bv; rewrite Hu by auto; split; reflexivity|]. split; [reflexivity|]. intros v Bv. rewrite Hu by auto. apply I3, Bv. }
    { split; [intros v Bv; rewrite HP1 by auto; split; reflexivity|]. split; [reflexivity|]. intros v Bv. rewrite HP1 by auto. reflexivity. }
    cbn [bind fst snd j_iterations jb] in *. change (X (Z.to_nat its)) with x in HP2. exists (r_s r2), (r_g r2), P2. auto.
  Qed.
  Lemma run_lda_spec its : 1 <= its -> (1 < eta)%Qc -> let x := rounds K ndoc n es alpha eta (Z.to_nat its) (seeded K es rnd junk) in
    exists s g0 g P0 P, lda_topics lg K rnd alpha eta m th fr dt dv fresh junk ndoc nterms its n blobs = Ok (s, g0) /\
      lda_total lg K eta m th fr2 dt dv nterms s g0 = Ok (g, map (fun _ => loglik K ndoc n es eta log x) (zrange 0 (m_nr m))) /\
      shows_properties n m g0 P0 /\ (forall v, 1 <= v <= n -> ld_N (P0 v) = map (x v) (seq 0 K) /\ ld_doc (P0 v) = (v <=? ndoc)) /\
      shows_properties n m g P /\ forall v, 1 <= v <= n -> ld_N (P v) = map (x v) (seq 0 K).
  Proof.
    intros Hi He x. destruct (topics_spec its Hi) as (s & gr & P2 & Et & H6 & HP2 & Es2 & Hl2). fold x in HP2. exists s, gr. unfold lda_total.
    unfold new_ll. cbn [lg_gt qlogs lg_one lg_re]. destruct (Qclt_le_dec 1 eta) as [_|N]; [|exfalso; apply (Qclt_not_le _ _ He N)]. cbn [bind run_call].
    assert (each K (fun i => re_add re (at_ re s i) (re_mul re (re_int re nterms) (re_sub re eta 1%Qc))) = each K (smoothed ndoc n eta x)) as ->.
    { apply each_ext. intros i Hi'. rewrite Es2, (totals_topics far K n ndoc x P2 HP2), at_each by exact Hi'. replace nterms with (n - ndoc) by lia. reflexivity. }
    destruct (act_op m Hm n Hn (m_serv m) th AAllActive gr _ Ht I H6) as (g7 & -> & H7). cbn [bind gs_es gs_P gs_A] in *.
    destruct (ll_is g7 P2 x H7 HP2) as (r3 & P3 & A3 & -> & H8 & HP3 & Hl3). cbn [bind fst].
    destruct (reduce_op m Hm n Hn th return_ll Qcplus (fun _ => 0%Qc) (r_g r3) _ Ht qplus_assoc H8) as (g9 & k & E9 & H9 & Hk). specialize (Hk qplus_comm). cbn [gs_es gs_P gs_A] in *.
    exists g9, P2, P3. split; [exact Et|]. split.
    - cbn [re_add re_zero qreals]. rewrite E9. do 2 f_equal. apply map_ext. intros _. rewrite red_qplus in Hk; [|pose proof Hm as (Hr & _); rewrite zrange_cons by lia; discriminate].
      injection Hk as ->. rewrite qsum_app, qsum_zero, Qcplus_0_l. unfold loglik. rewrite <- (qsum_split (@e_dst Z) _ n) by (intros; apply Hin; auto).
      apply qsum_ext. intros v Hv. apply in_zrange in Hv. cbn [return_ll snd]. rewrite Hl3 by lia. unfold in_degree. destruct (Z.eqb_spec (zlen (filter (fun e => e_dst e =? v) es)) 0) as [E0|].
      + rewrite Hl2 by lia. destruct (filter _ _) as [|e l]; [reflexivity|]. rewrite zlen_cons in E0. pose proof (zlen_nonneg l). lia.
      + apply qsum_ext. intros e Hf. apply filter_In in Hf as [_ Hf]. apply Z.eqb_eq in Hf. rewrite Hf. reflexivity.
    - split; [apply (is_properties neq m Hm n Hn _ _ H6)|]. split; [exact HP2|]. split; [apply (is_properties neq m Hm n Hn _ _ H9)|]. intros v Bv. apply (HP3 v Bv).
  Qed.
End LdaProgram.

Lemma run_lda_stops {F byte} (lg : lreals F) K rnd alpha eta (m : machine (ld_vertex F) Z byte) n blobs th fr fr2 dt dv fresh junk ndoc nterms its :
  setting m n blobs -> ndoc + nterms <> n -> run_lda lg K rnd alpha eta m th fr fr2 dt dv fresh junk ndoc nterms its n blobs = Err ExitCall.
Proof.
  intros (Hm & Hn & Lb & Hin) N. unfold run_lda, lda_topics. destruct (load_is m Hm n Hn fresh blobs Lb Hin) as (g0 & -> & _). cbn [bind]. destruct (Z.eqb_spec (ndoc + nterms) n); [contradiction|]. reflexivity.
Qed.
