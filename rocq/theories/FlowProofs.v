From Coq Require Import QArith Qabs Qcanon Lqa.
From Verif Require Import Base BaseLemmas DCSC AppSpec IncRank FlowSpec.
Local Open Scope Q_scope.

(** *** sums *)
Lemma qtotal_cons x l : qtotal (x :: l) == x + qtotal l.
Proof. reflexivity. Qed.
Lemma qtotal_app a b : qtotal (a ++ b) == qtotal a + qtotal b.
Proof. induction a as [|x a IH]; [change (qtotal b == 0 + qtotal b); ring|]. rewrite <- app_comm_cons, !qtotal_cons, IH. ring. Qed.
Section Sums.
  Context {A : Type}.
  Lemma qt_ext (f g : A -> Q) l : (forall a, In a l -> f a == g a) -> qtotal (map f l) == qtotal (map g l).
  Proof. induction l as [|x l IH]; intros H; [reflexivity|]. cbn [map]. rewrite !qtotal_cons, IH, (H x) by (cbn; auto; intros; apply H; cbn; auto). reflexivity. Qed.
  Lemma qt_plus (f g : A -> Q) l : qtotal (map (fun a => f a + g a) l) == qtotal (map f l) + qtotal (map g l).
  Proof. induction l as [|x l IH]; [reflexivity|]. cbn [map]. rewrite !qtotal_cons, IH. ring. Qed.
  Lemma qt_scale c (f : A -> Q) l : qtotal (map (fun a => c * f a) l) == c * qtotal (map f l).
  Proof. induction l as [|x l IH]; [cbn; ring|]. cbn [map]. rewrite !qtotal_cons, IH. ring. Qed.
  Lemma qt_zero l : qtotal (map (fun _ : A => 0) l) == 0.
  Proof. induction l as [|x l IH]; [reflexivity|]. cbn [map]. rewrite qtotal_cons, IH. ring. Qed.
  Lemma qt_const c (l : list A) : qtotal (map (fun _ : A => c) l) == inject_Z (zlen l) * c.
  Proof. induction l as [|x l IH]; [cbn; ring|]. cbn [map]. rewrite qtotal_cons, IH, zlen_cons, inject_Z_plus. ring. Qed.
  Lemma qt_le (f g : A -> Q) l : (forall a, In a l -> f a <= g a) -> qtotal (map f l) <= qtotal (map g l).
  Proof.
    induction l as [|x l IH]; intros H; [apply Qle_refl|]. cbn [map]. rewrite !qtotal_cons. apply Qplus_le_compat; [apply H; cbn; auto|]. apply IH. intros; apply H; cbn; auto.
  Qed.
  Lemma qt_nonneg (f : A -> Q) l : (forall a, In a l -> 0 <= f a) -> 0 <= qtotal (map f l).
  Proof. intros H. rewrite <- (qt_zero l). apply qt_le. exact H. Qed.
  Lemma qt_abs (f : A -> Q) l : Qabs (qtotal (map f l)) <= qtotal (map (fun a => Qabs (f a)) l).
  Proof.
    induction l as [|x l IH]; [apply Qle_refl|]. cbn [map]. rewrite !qtotal_cons. eapply Qle_trans; [apply Qabs_triangle|]. apply Qplus_le_compat; [apply Qle_refl|exact IH].
  Qed.
  (** one term of a sum of terms that are not negative *)
  Lemma qt_one (f : A -> Q) l a : (forall a, In a l -> 0 <= f a) -> In a l -> f a <= qtotal (map f l).
  Proof.
    induction l as [|x l IH]; intros H Ha; [destruct Ha|]. cbn [map]. rewrite qtotal_cons. pose proof (H x (or_introl eq_refl)) as Hx.
    pose proof (qt_nonneg f l (fun b Hb => H b (or_intror Hb))) as Hl. destruct Ha as [->|Ha]; [lra|]. specialize (IH (fun b Hb => H b (or_intror Hb)) Ha). lra.
  Qed.
End Sums.
(** a sum split by a number attached to the terms *)
Lemma qt_at n k c : (1 <= k <= n)%Z -> qtotal (map (fun v => if (k =? v)%Z then c else 0) (zrange 1 (n + 1))) == c.
Proof.
  intros H. assert (Hi : In k (zrange 1 (n + 1))) by (apply in_zrange; lia). pose proof (NoDup_zrange 1 (n + 1)) as Nd.
  induction (zrange 1 (n + 1)) as [|y r IHr]; [destruct Hi|]. cbn [map]. rewrite qtotal_cons. inversion Nd as [|? ? Ny Nr]; subst. destruct (Z.eqb_spec k y) as [->|Ne].
  - rewrite (qt_ext _ (fun _ => 0)), qt_zero; [ring|]. intros z Hz. destruct (Z.eqb_spec y z) as [->|]; [contradiction|reflexivity].
  - destruct Hi as [Hi|Hi]; [congruence|]. rewrite (IHr Hi Nr). ring.
Qed.
Lemma qt_split {A} (k : A -> Z) (f : A -> Q) n l : (forall a, In a l -> (1 <= k a <= n)%Z) ->
  qtotal (map (fun v => qtotal (map f (filter (fun a => (k a =? v)%Z) l))) (zrange 1 (n + 1))) == qtotal (map f l).
Proof.
  induction l as [|x l IH]; intros H; [apply qt_zero|].
  cbn [map]. rewrite qtotal_cons, <- IH by (intros; apply H; cbn; auto).
  rewrite <- (qt_at n (k x) (f x)) at 1 by (apply H; cbn; auto). rewrite <- qt_plus. apply qt_ext. intros v _. cbn [filter]. destruct (k x =? v)%Z; cbn [map]; [reflexivity|ring].
Qed.

(** *** flows *)
Section Flow.
  Context {E : Type}.
  Variables (n : Z) (es : list (edge E)).
  Hypothesis Hin : forall e, In e es -> (1 <= e_src e <= n)%Z /\ (1 <= e_dst e <= n)%Z.
  Notation vs := (zrange 1 (n + 1)).
  Notation deg v := (inject_Z (out_degree es v)).

  Lemma deg_pos e : In e es -> (1 <= out_degree es (e_src e))%Z.
  Proof using.
    clear Hin. intros He. unfold out_degree. assert (Hi : In e (filter (fun e0 => (e_src e0 =? e_src e)%Z) es)) by (apply filter_In; split; [auto|apply Z.eqb_refl]).
    destruct (filter _ es) as [|x l]; [destruct Hi|]. rewrite zlen_cons. pose proof (zlen_nonneg l). lia.
  Qed.
  Lemma deg_posQ e : In e es -> 1 <= deg (e_src e).
  Proof using. intros He. change 1 with (inject_Z 1). rewrite <- Zle_Qle. apply deg_pos, He. Qed.
  Lemma inflow_ext x y v : (forall u, (1 <= u <= n)%Z -> x u == y u) -> inflow es x v == inflow es y v.
  Proof using Hin. intros H. apply qt_ext. intros e He. apply filter_In in He as [He _]. rewrite (H (e_src e)) by apply Hin, He. reflexivity. Qed.
  Lemma inflow_plus x y v : inflow es (fun u => x u + y u) v == inflow es x v + inflow es y v.
  Proof using.
    unfold inflow. rewrite <- qt_plus. apply qt_ext. intros e He. apply filter_In in He as [He _]. pose proof (deg_posQ e He). field. lra.
  Qed.
  Lemma inflow_scale c x v : inflow es (fun u => c * x u) v == c * inflow es x v.
  Proof using.
    unfold inflow. rewrite <- qt_scale. apply qt_ext. intros e He. apply filter_In in He as [He _]. pose proof (deg_posQ e He). field. lra.
  Qed.
  Lemma inflow_abs x v : Qabs (inflow es x v) <= inflow es (fun u => Qabs (x u)) v.
  Proof using.
    unfold inflow. eapply Qle_trans; [apply qt_abs|]. apply qt_le. intros e He. apply filter_In in He as [He _]. pose proof (deg_posQ e He) as Hd.
    unfold Qdiv. rewrite Qabs_Qmult, (Qabs_pos (/ _)); [apply Qle_refl|]. apply Qinv_le_0_compat. lra.
  Qed.
  (** nothing is created *)
  Lemma inflow_total x : (forall v, (1 <= v <= n)%Z -> 0 <= x v) -> qtotal (map (inflow es x) vs) <= qtotal (map x vs).
  Proof using Hin.
    intros Hx. unfold inflow. rewrite (qt_split (@e_dst E)) by (intros; apply Hin; auto).
    rewrite <- (qt_split (@e_src E) _ n) by (intros; apply Hin; auto). apply qt_le. intros v Hv. apply in_zrange in Hv. specialize (Hx v ltac:(lia)).
    rewrite (qt_ext _ (fun _ => x v / deg v)).
    - rewrite qt_const. fold (out_degree es v). destruct (Z.eq_dec (out_degree es v) 0) as [->|Ne]; [rewrite Qmult_0_l; exact Hx|].
      assert (H : ~ deg v == 0) by (intros H; apply Ne; apply inject_Z_injective; exact H). apply Qle_lteq. right. field. exact H.
    - intros e He. apply filter_In in He as [_ He]. apply Z.eqb_eq in He. rewrite He. reflexivity.
  Qed.
  Lemma inflow_contracts x : qtotal (map (fun v => Qabs (inflow es x v)) vs) <= qtotal (map (fun v => Qabs (x v)) vs).
  Proof using Hin.
    eapply Qle_trans; [|apply (inflow_total (fun v => Qabs (x v))); intros; apply Qabs_nonneg]. apply qt_le. intros v _. apply inflow_abs.
  Qed.

  Hypothesis Hn : (0 <= n)%Z.
  Lemma solutions_close alpha start e1 e2 x y : alpha <= 1 -> solves_within n es alpha start e1 x -> solves_within n es alpha start e2 y ->
    alpha * apart n x y <= inject_Z n * (e1 + e2).
  Proof.
    intros Ha Hx Hy. set (d := fun v => x v - y v).
    assert (H : apart n x y <= inject_Z n * (e1 + e2) + (1 - alpha) * apart n x y).
    { assert (H1 : apart n x y <= qtotal (map (fun v => (e1 + e2) + (1 - alpha) * Qabs (inflow es d v)) vs)).
      { apply qt_le. intros v Hv. apply in_zrange in Hv. specialize (Hx v ltac:(lia)). specialize (Hy v ltac:(lia)).
        assert (Hd : inflow es d v == inflow es x v - inflow es y v).
        { unfold d. rewrite (inflow_ext _ (fun u => x u + (-1) * y u)) by (intros; ring). rewrite inflow_plus, inflow_scale. ring. }
        assert (Hs : x v - y v == (x v - (start + (1 - alpha) * inflow es x v)) + - (y v - (start + (1 - alpha) * inflow es y v)) + (1 - alpha) * inflow es d v) by (rewrite Hd; ring).
        rewrite Hs. eapply Qle_trans; [apply Qabs_triangle|]. apply Qplus_le_compat.
        - eapply Qle_trans; [apply Qabs_triangle|]. rewrite Qabs_opp. apply Qplus_le_compat; auto.
        - rewrite Qabs_Qmult, (Qabs_pos (1 - alpha)) by lra. apply Qle_refl. }
      eapply Qle_trans; [exact H1|]. rewrite qt_plus, qt_const, qt_scale. rewrite zlen_zrange by lia. replace (n + 1 - 1)%Z with n by lia.
      apply Qplus_le_compat; [apply Qle_refl|]. rewrite !(Qmult_comm (1 - alpha)). apply Qmult_le_compat_r; [|lra]. exact (inflow_contracts d). }
    lra.
  Qed.
End Flow.
