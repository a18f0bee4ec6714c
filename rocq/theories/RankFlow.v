(** PageRank.cpp with exact arithmetic and alpha as the start value: it stops, near the solution. *)
From Coq Require Import QArith Qabs Qcanon Qpower Lqa.
From Verif Require Import Base BaseLemmas Reduce DCSC Segment Vec Graph Runtime RunSpec RuntimeProofs GraphOps GraphHist Apps AppSpec RankSpec PageRankProofs IncRank FlowSpec FlowProofs IncRankProofs.
Local Open Scope Z_scope.

Section Ranks.
  Context {E : Type}.
  Variables (n : Z) (es : list (edge E)) (alpha eps : Qc).
  Hypothesis Hn : 0 <= n.
  Hypothesis Hin : forall e, In e es -> (1 <= e_src e <= n) /\ (1 <= e_dst e <= n).
  Hypothesis Ha : (0 < alpha)%Q /\ (alpha <= 1)%Q.
  Notation fl := (qfloats alpha alpha (qfar eps)).
  Notation vs := (zrange 1 (n + 1)).
  Definition next (x : Z -> Q) (v : Z) : Q := (alpha + (1 - alpha) * inflow es x v)%Q.

  Lemma rank_next R v x : rank_step fl es R v x -> (in_degree es v = 0 -> R v = alpha) -> (this x == next (fun u => R u) v)%Q.
  Proof using.
    clear. intros H H0. apply rank_step_exact in H. unfold next, inflow. destruct (Z.eqb_spec (in_degree es v) 0) as [E0|_].
    - rewrite H, (H0 E0). unfold in_degree in E0. destruct (filter _ es) as [|e l]; [|rewrite zlen_cons in E0; pose proof (zlen_nonneg l); lia]. cbn [map]. change (qtotal []) with 0%Q. ring.
    - rewrite H, this_plus, this_mult, this_minus, this_qsum. change (this 1%Qc) with 1%Q. rewrite map_map. rewrite (qt_ext _ (fun e => (this (R (e_src e)) / inject_Z (out_degree es (e_src e)))%Q)); [reflexivity|].
      intros e _. apply this_share.
  Qed.
  Lemma apart_next x y x' y' : (forall v, 1 <= v <= n -> (x' v == next x v)%Q) -> (forall v, 1 <= v <= n -> (y' v == next y v)%Q) -> (apart n x' y' <= (1 - alpha) * apart n x y)%Q.
  Proof using Hin Ha.
    intros Hx Hy. unfold apart. set (d := fun v => (x v - y v)%Q).
    assert (Hd : forall v, (inflow es d v == inflow es x v - inflow es y v)%Q).
    { intros v. unfold d. rewrite (inflow_ext n es Hin _ (fun u => (x u + (-1) * y u)%Q)) by (intros; ring). rewrite inflow_plus, inflow_scale. ring. }
    rewrite (qt_ext _ (fun v => ((1 - alpha) * Qabs (inflow es d v))%Q)).
    - rewrite qt_scale, !(Qmult_comm (1 - alpha)). apply Qmult_le_compat_r; [|lra]. exact (inflow_contracts n es Hin d).
    - intros v Hv. apply in_zrange in Hv. rewrite Hx, Hy by lia. rewrite Hd. unfold next. rewrite <- (Qabs_pos (1 - alpha)) at 3 by lra. rewrite <- Qabs_Qmult. apply Qabs_wd. ring.
  Qed.
  Lemma apart_sym x y : (apart n x y == apart n y x)%Q.
  Proof using. apply qt_ext. intros v _. rewrite Qabs_Qminus. reflexivity. Qed.
  Lemma apart_triangle x y z : (apart n x z <= apart n x y + apart n y z)%Q.
  Proof using.
    unfold apart. rewrite <- qt_plus. apply qt_le. intros v _. assert ((x v - z v == (x v - y v) + (y v - z v))%Q) as -> by ring. apply Qabs_triangle.
  Qed.

  Variables (rank : nat -> Z -> Qc) (K : nat).
  Hypothesis H0 : forall v, 1 <= v <= n -> rank O v = alpha.
  Hypothesis Hk : forall k v, (k < K)%nat -> 1 <= v <= n -> rank_step fl es (rank k) v (rank (S k) v).
  Notation rk k := (fun v => this (rank k v)).
  Lemma rank_source k v : (k <= K)%nat -> 1 <= v <= n -> in_degree es v = 0 -> rank k v = alpha.
  Proof using H0 Hk.
    induction k as [|k IH]; intros B Bv E0; [apply H0, Bv|]. specialize (Hk k v ltac:(lia) Bv). apply rank_step_exact in Hk. rewrite E0 in Hk. cbn in Hk. rewrite Hk. apply IH; auto. lia.
  Qed.
  Lemma rank_succ k v : (k < K)%nat -> 1 <= v <= n -> (rk (S k) v == next (rk k) v)%Q.
  Proof using H0 Hk. intros B Bv. apply rank_next; [apply Hk; auto|]. intros E0. apply rank_source; auto. lia. Qed.
  Lemma first_step : (0 < K)%nat -> (apart n (rk 1%nat) (rk 0%nat) <= (1 - alpha) * (inject_Z n * alpha))%Q.
  Proof using Hn Hin Ha H0 Hk.
    intros B. eapply Qle_trans; [|rewrite <- (Qplus_0_r (inject_Z n * alpha))]; [apply (apart_next (rk 0%nat) (fun _ => 0%Q) (rk 1%nat) (rk 0%nat))|].
    - intros v Bv. apply rank_succ; auto.
    - intros v Bv. rewrite H0 by auto. unfold next. assert ((inflow es (fun _ => 0) v == 0)%Q) as ->; [|ring].
      rewrite (inflow_ext n es Hin _ (fun _ => 0 * 0)%Q) by (intros; ring). rewrite (inflow_scale es 0 (fun _ => 0%Q)). ring.
    - rewrite Qplus_0_r, !(Qmult_comm (1 - alpha)). apply Qmult_le_compat_r; [|lra]. unfold apart. rewrite (qt_ext _ (fun _ => this alpha)).
      + rewrite qt_const, zlen_zrange by lia. replace (n + 1 - 1) with n by lia. apply Qle_refl.
      + intros v Hv. apply in_zrange in Hv. rewrite H0 by lia. rewrite Qabs_pos by lra. ring.
  Qed.
  Lemma later_step k : (k < K)%nat -> (apart n (rk (S k)) (rk k) <= (1 - alpha) ^ Z.of_nat (S k) * (inject_Z n * alpha))%Q.
  Proof using Hn Hin Ha H0 Hk.
    induction k as [|k IH]; intros B; [exact (first_step B)|].
    eapply Qle_trans; [apply (apart_next (rk (S k)) (rk k)); intros v Bv; apply rank_succ; auto; lia|].
    specialize (IH ltac:(lia)). rewrite (Nat2Z.inj_succ (S k)), <- Z.add_1_l. rewrite Qpower_plus' by lia. change ((1 - alpha) ^ 1)%Q with (1 - alpha)%Q. rewrite <- Qmult_assoc, !(Qmult_comm (1 - alpha)). apply Qmult_le_compat_r; [exact IH|lra].
  Qed.
  Lemma moved_far k : (k < K)%nat -> ~ settled fl n es (rank k) (rank (S k)) -> (eps < (1 - alpha) ^ Z.of_nat (S k) * (inject_Z n * alpha))%Q.
  Proof using Hn Hin Ha H0 Hk.
    intros B Hs. eapply Qlt_le_trans; [|apply later_step, B]. apply Qnot_le_lt. intros L. apply Hs. intros v Bv _. cbn [fl_far qfloats]. unfold qfar. apply negb_false_iff, Qle_bool_iff.
    rewrite this_minus. eapply Qle_trans; [|exact L]. unfold apart. apply (qt_one (fun v => Qabs (this (rank (S k) v) - this (rank k v)))); [intros; apply Qabs_nonneg|]. apply in_zrange. lia.
  Qed.
  (** after the last step *)
  Lemma rank_close x e : (0 < K)%nat -> (0 <= eps)%Q -> settled fl n es (rank (K - 1)%nat) (rank K) -> solves_within n es alpha alpha e x ->
    (alpha * apart n (rk K) x <= inject_Z n * ((1 - alpha) * eps + e))%Q.
  Proof using Hn Hin Ha H0 Hk.
    intros B Hp Hs Hx. assert (exists k, K = S k) as [k EK] by (exists (K - 1)%nat; lia). replace (K - 1)%nat with k in Hs by lia. rewrite EK in Hs |- *.
    assert (D : (apart n (rk (S k)) (rk k) <= inject_Z n * eps)%Q).
    { unfold apart. eapply Qle_trans; [apply (qt_le _ (fun _ => this eps))|].
      - intros v Hv. apply in_zrange in Hv. destruct (Z.eq_dec (in_degree es v) 0) as [E0|N0]; [rewrite !rank_source by (auto; lia); unfold Qminus; rewrite Qplus_opp_r; exact Hp|].
        specialize (Hs v ltac:(lia) N0). cbn [fl_far qfloats] in Hs. unfold qfar in Hs. apply negb_false_iff, Qle_bool_iff in Hs. rewrite this_minus in Hs. exact Hs.
      - rewrite qt_const, zlen_zrange by lia. replace (n + 1 - 1) with n by lia. apply Qle_refl. }
    pose proof (apart_next (rk k) x (rk (S k)) (next x) (fun v Bv => rank_succ k v ltac:(lia) Bv) (fun v _ => Qeq_refl _)) as H1.
    assert (H2 : (apart n (next x) x <= inject_Z n * e)%Q).
    { unfold apart. eapply Qle_trans; [apply (qt_le _ (fun _ => e))|].
      - intros v Hv. apply in_zrange in Hv. specialize (Hx v ltac:(lia)). rewrite Qabs_Qminus. exact Hx.
      - rewrite qt_const, zlen_zrange by lia. replace (n + 1 - 1) with n by lia. apply Qle_refl. }
    pose proof (apart_triangle (rk (S k)) (next x) x) as H3. pose proof (apart_triangle (rk k) (rk (S k)) x) as H4. rewrite (apart_sym (rk k) (rk (S k))) in H4.
    set (a := apart n (rk (S k)) x) in *. set (b := apart n (rk k) x) in *. set (c := apart n (rk (S k)) (rk k)) in *.
    assert (H5 : ((1 - alpha) * b <= (1 - alpha) * (inject_Z n * eps + a))%Q) by (rewrite !(Qmult_comm (1 - alpha)); apply Qmult_le_compat_r; lra). lra.
  Qed.
End Ranks.

Lemma pagerank_converges {E byte} (alpha eps : Qc) (m : machine (pr_vertex Qc) E byte) n blobs th fr1 fr2 dt1 dt2 dv fuel :
  setting m n blobs -> zlen (concat blobs) < 2 ^ 31 -> threads_ok m (m_serv m) th -> frame_ok m th fr1 -> frame_ok m th fr2 ->
  (0 < alpha)%Q -> (alpha <= 1)%Q -> (0 <= eps)%Q -> (1 <= fuel)%nat -> ((1 - alpha) ^ Z.of_nat fuel * (inject_Z n * alpha) <= eps)%Q ->
  exists g K P, run_pagerank (qfloats alpha alpha (qfar eps)) m th fr1 fr2 dt1 dt2 dv fuel n blobs = Ok (g, Z.of_nat K) /\ (1 <= K <= fuel)%nat /\ shows_properties n m g P /\
    (forall v, 1 <= v <= n -> p_degree (P v) = out_degree (concat blobs) v) /\
    forall e x, solves_within n (concat blobs) alpha alpha e x -> (alpha * apart n (fun v => p_rank (P v)) x <= inject_Z n * ((1 - alpha) * eps + e))%Q.
Proof.
  intros Hset Hl Ht H1 H2 A0 A1 He Hf1 Hf. pose proof Hset as (_ & Hn & _ & Hin).
  destruct (run_pagerank_spec (qfloats alpha alpha (qfar eps)) m n blobs Hset Hl th fr1 fr2 dt1 dt2 dv fuel Ht H1 H2) as (rank & H0 & [(g & K & P & -> & BK & HP & HR & Hk & Hs & _)|(_ & Hk & Hs)]).
  - exists g, K, P. split; [reflexivity|]. split; [exact BK|]. split; [exact HP|]. split; [intros v Bv; rewrite HR by auto; reflexivity|].
    intros e x Hx. eapply Qle_trans; [|apply (rank_close n (concat blobs) alpha eps Hn Hin (conj A0 A1) rank K H0 Hk x e ltac:(lia) He Hs Hx)].
    apply Qle_lteq. right. apply Qmult_comp; [reflexivity|]. apply qt_ext. intros v Hv. apply in_zrange in Hv. rewrite HR by lia. reflexivity.
  - exfalso. destruct fuel as [|f]; [lia|]. pose proof (moved_far n (concat blobs) alpha eps Hn Hin (conj A0 A1) rank (S f) H0 Hk f ltac:(lia) (Hs f ltac:(lia))). lra.
Qed.
