(** Tentative distances: every finite one is the weight of a path that visits no vertex twice. *)
From Verif Require Import BaseLemmas Reduce ReduceProofs DCSC Apps AppSpec.

Lemma keep_min_choice a b : keep_min a b = a \/ keep_min a b = b.
Proof. unfold keep_min. destruct (a <=? b); auto. Qed.
Lemma combination_min l u : combination keep_min l u -> In u l /\ forall x, In x l -> u <= x.
Proof.
  intros H. split; [apply (combination_in _ _ _ keep_min_choice H)|]. induction H as [a|l l1 l2 a b H1 IH1 H2 IH2 Hp].
  - intros x [<-|[]]. lia.
  - intros x Hx. apply (Permutation_in _ Hp) in Hx. unfold keep_min. apply in_app_iff in Hx as [Hx|Hx]; [specialize (IH1 x Hx)|specialize (IH2 x Hx)]; destruct (Z.leb_spec a b); lia.
Qed.

Section Labels.
  Variables (n s : Z) (es : list (edge Z)).
  Hypothesis Hs : 1 <= s <= n.
  Hypothesis Hin : forall e, In e es -> 1 <= e_src e <= n /\ 1 <= e_dst e <= n.
  Hypothesis Hpos : forall e, In e es -> 0 <= e_val e.

  Lemma path_walk vs v w : path es s vs v w -> exists h, walk es s v w h.
  Proof. induction 1 as [|vs w e P (h & W) He]; [exists O; constructor|]. exists (S h). constructor; auto. Qed.
  Lemma path_nonneg vs v w : path es s vs v w -> 0 <= w.
  Proof. induction 1 as [|vs w e P IH He]; [lia|]. specialize (Hpos e He). lia. Qed.
  Lemma path_head vs v w : path es s vs v w -> In v vs /\ 1 <= v <= n.
  Proof. induction 1 as [|vs w e P IH He]; simpl; [auto|]. split; auto. apply Hin; auto. Qed.

  (** [vs] ends in [v], weighs [D v], and no vertex on it has a larger label *)
  Definition trace (D : Z -> Z) (v : Z) (vs : list Z) : Prop :=
    path es s vs v (D v) /\ NoDup vs /\ forall x, In x vs -> 1 <= x <= n /\ D x <= D v.
  Lemma trace_short D v vs : trace D v vs -> zlen vs <= n.
  Proof.
    intros (_ & Nd & H). assert (length vs <= length (zrange 1 (n + 1)))%nat as B.
    { apply NoDup_incl_length; auto. intros x Hx. apply in_zrange. destruct (H x Hx). lia. }
    pose proof (zlen_zrange 1 (n + 1)) as Z0. unfold zlen in *. lia.
  Qed.
  Lemma trace_keep D D' v vs : (forall x, 1 <= x <= n -> D' x <= D x) -> D' v = D v -> trace D v vs -> trace D' v vs.
  Proof.
    intros Hle He (P & Nd & H). split; [rewrite He; exact P|]. split; auto. intros x Hx. destruct (H x Hx) as [B L]. specialize (Hle x B). split; auto. lia.
  Qed.
  Lemma trace_extend D D' e vs : (forall x, 1 <= x <= n -> D' x <= D x) -> In e es -> trace D (e_src e) vs ->
    D' (e_dst e) = D (e_src e) + e_val e -> D' (e_dst e) < D (e_dst e) -> trace D' (e_dst e) (e_dst e :: vs).
  Proof.
    intros Hle He (P & Nd & H) Ed Lt. pose proof (Hpos e He). split; [rewrite Ed; constructor; auto|]. split.
    - constructor; auto. intros Hv. destruct (H _ Hv). lia.
    - intros x [<-|Hx]; [split; [apply Hin; auto|lia]|]. destruct (H x Hx) as [B L]. specialize (Hle x B). split; auto. lia.
  Qed.
  Lemma trace_source D : D s = 0 -> trace D s [s].
  Proof.
    intros H. split; [rewrite H; constructor|]. split; [constructor; [simpl; tauto|constructor]|]. intros x [<-|[]]. lia.
  Qed.
  Lemma trace_range D v vs : trace D v vs -> 0 <= D v.
  Proof. intros (P & _). eapply path_nonneg; eauto. Qed.

  (** labels that no edge can lower are distances *)
  Lemma relaxed_distance D : D s = 0 -> (forall v, 1 <= v <= n -> D v <> MAX_DIST -> exists vs, trace D v vs) ->
    (forall e, In e es -> D (e_src e) <> MAX_DIST -> D (e_dst e) <> MAX_DIST /\ D (e_dst e) <= D (e_src e) + e_val e) ->
    forall v, 1 <= v <= n -> (D v = MAX_DIST /\ ~ reachable es s v) \/ (D v <> MAX_DIST /\ distance es s v (D v)).
  Proof.
    intros H0 Ht Hr. assert (forall v w h, walk es s v w h -> D v <> MAX_DIST /\ D v <= w) as Hw.
    { induction 1 as [|w h e W [N L] He]; [rewrite H0; split; [unfold MAX_DIST; lia|lia]|]. destruct (Hr e He N). split; auto. lia. }
    intros v Bv. destruct (Z.eq_dec (D v) MAX_DIST) as [Em|Nm].
    - left. split; auto. intros (w & h & W). destruct (Hw _ _ _ W). contradiction.
    - right. split; auto. destruct (Ht v Bv Nm) as (vs & P & _). split; [eapply path_walk; eauto|]. intros w h W. apply (Hw v w h W).
  Qed.

  (** a bound on the weights and the number of vertices keeps the sums small *)
  Lemma bounded_fit W W' : (forall e, In e es -> e_val e <= W) -> n * W < W' -> sums_below es W' s.
  Proof.
    intros HW HnW vs w e P Nd He.
    assert (forall vs v w, path es s vs v w -> (forall x, In x vs -> 1 <= x <= n) /\ w <= (zlen vs - 1) * W /\ 1 <= zlen vs) as Hb.
    { induction 1 as [|vs0 w0 e0 P0 (IH1 & IH2 & IH3) He0].
      - split; [intros x [<-|[]]; auto|]. change (zlen [s]) with 1. lia.
      - rewrite zlen_cons. split; [intros x [<-|Hx]; auto; apply Hin; auto|]. specialize (HW e0 He0). lia. }
    destruct (Hb _ _ _ P) as (Hr & Hw & _).
    assert (length vs <= length (zrange 1 (n + 1)))%nat as B.
    { apply NoDup_incl_length; auto. intros x Hx. apply in_zrange. specialize (Hr x Hx). lia. }
    pose proof (zlen_zrange 1 (n + 1)) as Z0. unfold zlen in *. pose proof (HW e He). pose proof (Hpos e He).
    assert ((Z.of_nat (length vs) - 1) * W <= (n - 1) * W) by (apply Z.mul_le_mono_nonneg_r; lia). lia.
  Qed.
End Labels.
