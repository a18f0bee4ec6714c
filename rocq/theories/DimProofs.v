From Verif Require Import BaseLemmas DCSC EdgeList EdgeSpec EdgeListProofs.
Open Scope Z_scope.

Lemma nth_error_combine {A B} (l : list A) : forall (l' : list B) k a b, nth_error l k = Some a -> nth_error l' k = Some b -> nth_error (combine l l') k = Some (a, b).
Proof. induction l as [|x l IH]; intros [|y l'] [|k] a b H1 H2; simpl in *; try discriminate; [congruence|]. auto. Qed.

Section DP.
  Context {E : Type}.
  Notation edge := (edge E).

  (** [m] is an upper bound of [l] and of [lo], and one of them *)
  Definition tops (lo : Z) (l : list Z) (m : Z) : Prop := lo <= m /\ (forall x, In x l -> x <= m) /\ (m = lo \/ In m l).
  Lemma tops_app lo l l' m m' : tops lo l m -> tops m l' m' -> tops lo (l ++ l') m'.
  Proof.
    intros (A1 & A2 & A3) (B1 & B2 & B3). split; [lia|]. split.
    - intros x H. apply in_app_iff in H as [H|H]; [apply A2 in H; lia|auto].
    - rewrite in_app_iff. destruct B3 as [->|B3]; [destruct A3; auto|auto].
  Qed.
  Lemma tops_max lo lo' l m m' : lo <= lo' -> tops lo l m -> m' = Z.max lo' m -> tops lo' l m'.
  Proof. intros H (A1 & A2 & A3) ->. split; [lia|]. split; [intros x Hx; apply A2 in Hx; lia|]. destruct A3 as [->|A3]; [left; lia|]. destruct (Z.max_spec lo' m) as [[_ ->]|[_ ->]]; auto. Qed.
  Lemma thread_dims (es : list edge) : forall st, let d := fold_left (fun st e => (Z.max (fst st) (e_src e), Z.max (snd st) (e_dst e))) es st in
    tops (fst st) (map e_src es) (fst d) /\ tops (snd st) (map e_dst es) (snd d).
  Proof.
    induction es as [|e es IH]; intros st; simpl.
    - split; (split; [lia|]; split; [intros x []|auto]).
    - destruct (IH (Z.max (fst st) (e_src e), Z.max (snd st) (e_dst e))) as [A B]. simpl in A, B.
      split; [apply (tops_app _ [e_src e] _ (Z.max (fst st) (e_src e))); auto|apply (tops_app _ [e_dst e] _ (Z.max (snd st) (e_dst e))); auto].
      + split; [lia|]. split; [intros x [<-|[] ]; lia|]. destruct (Z.max_spec (fst st) (e_src e)) as [[_ ->]|[_ ->]]; simpl; auto.
      + split; [lia|]. split; [intros x [<-|[] ]; lia|]. destruct (Z.max_spec (snd st) (e_dst e)) as [[_ ->]|[_ ->]]; simpl; auto.
  Qed.
  Definition both (lo : Z * Z) (es : list edge) (d : Z * Z) : Prop := tops (fst lo) (map e_src es) (fst d) /\ tops (snd lo) (map e_dst es) (snd d).
  Lemma larger_all lo (parts : list (list edge)) (f : list edge -> Z * Z) : (forall es, In es parts -> both lo es (f es)) ->
    forall st, fst lo <= fst st -> snd lo <= snd st -> both st (concat parts) (fold_left larger (map f parts) st).
  Proof.
    intros H. induction parts as [|es parts IH]; intros st L1 L2.
    - simpl. split; (split; [lia|]; split; [intros x []|auto]).
    - simpl. destruct (H es (or_introl eq_refl)) as [A B]. assert (both st es (larger st (f es))) as [A' B'].
      { split; [eapply tops_max; [exact L1|exact A|reflexivity]|eapply tops_max; [exact L2|exact B|reflexivity]]. }
      destruct (IH (fun es' Hin => H es' (or_intror Hin)) (larger st (f es))) as [A2 B2]; simpl; [lia|lia|].
      unfold both. rewrite !map_app. split; eapply tops_app; eauto.
  Qed.
  Lemma local_dims int_min (dealt : list (list edge)) : int_min <= 0 -> both (0, 0) (concat dealt) (local_dimensions int_min dealt).
  Proof.
    intros H. unfold local_dimensions. apply (larger_all (int_min, int_min)); simpl; auto. intros es _. destruct (thread_dims es (int_min, int_min)) as [A B]. split; auto.
  Qed.
  Lemma dimensions_spec int_min (ranks : list (list (list edge))) : int_min <= 0 -> 1 <= zlen ranks ->
    exists m n, get_dimensions int_min ranks = Ok (m, n) /\
      let es := concat (map (@concat edge) ranks) in
      0 <= m /\ 0 <= n /\ (forall e, In e es -> e_src e <= m /\ e_dst e <= n) /\
      (m = 0 \/ exists e, In e es /\ e_src e = m) /\ (n = 0 \/ exists e, In e es /\ e_dst e = n).
  Proof.
    intros H L. unfold get_dimensions. destruct ranks as [|d0 ranks]; [unfold zlen in L; simpl in L; lia|]. cbn [map].
    assert (both (0, 0) (concat (map (@concat edge) (d0 :: ranks))) (fold_left larger (map (local_dimensions int_min) ranks) (local_dimensions int_min d0))) as [A B].
    { destruct (local_dims int_min d0 H) as [A0 B0]. cbn [map concat].
      assert (forall (rs : list (list (list edge))) st, 0 <= fst st -> 0 <= snd st -> both st (concat (map (@concat edge) rs)) (fold_left larger (map (local_dimensions int_min) rs) st)) as G.
      { clear -H. induction rs as [|d rs IH]; intros st L1 L2; [simpl; split; (split; [lia|]; split; [intros x []|auto])|].
        cbn [map concat fold_left]. destruct (local_dims int_min d H) as [A B]. assert (both st (concat d) (larger st (local_dimensions int_min d))) as [A' B'].
        { split; [eapply tops_max; [exact L1|exact A|reflexivity]|eapply tops_max; [exact L2|exact B|reflexivity]]. }
        destruct (IH (larger st (local_dimensions int_min d))) as [A2 B2]; simpl; [lia|lia|]. unfold both. rewrite !map_app. split; eapply tops_app; eauto. }
      pose proof (G ranks (local_dimensions int_min d0) (proj1 A0) (proj1 B0)) as [A1 B1]. unfold both. cbn [map concat]. rewrite !map_app. split; [exact (tops_app _ _ _ _ _ A0 A1)|exact (tops_app _ _ _ _ _ B0 B1)]. }
    set (d := fold_left larger (map (local_dimensions int_min) ranks) (local_dimensions int_min d0)) in *. exists (fst d), (snd d). split; [destruct d; auto|].
    destruct A as (A1 & A2 & A3), B as (B1 & B2 & B3). simpl in A1, B1, A3, B3. cbv zeta. split; [auto|]. split; [auto|]. split.
    { intros e He. split; [apply A2|apply B2]; apply in_map; auto. }
    split; [destruct A3 as [A3|A3]|destruct B3 as [B3|B3]]; auto; right.
    - apply in_map_iff in A3 as (e & Ee & He). eauto.
    - apply in_map_iff in B3 as (e & Ee & He). eauto.
  Qed.

  Lemma direction_spec rand_max rnd (el : elist E) l : holds el l ->
    exists el' l', randomize_edge_direction rand_max rnd el = Ok el' /\ holds el' l' /\ same_dims el' el /\ zlen l' = zlen l /\
      forall i e, rd l i = Ok e -> rd l' i = Ok (if 2 * rnd i <? rand_max then mkE (e_dst e) (e_src e) (e_val e) else e).
  Proof.
    intros H. unfold randomize_edge_direction. destruct (rewrite_edges_spec (fun i e => Ok (if 2 * rnd i <? rand_max then swap e else e)) (fun i e => if 2 * rnd i <? rand_max then swap e else e) el l H) as (el' & Er & Hh & Hd & _); [reflexivity|].
    exists el'. eexists. split; [exact Er|]. split; [exact Hh|]. split; [auto|]. assert (zlen (combine (zrange 0 (zlen l)) l) = zlen l) as Lc.
    { unfold zlen. rewrite combine_length. pose proof (zlen_nonneg l). pose proof (zlen_zrange 0 (zlen l) ltac:(lia)). unfold zlen in *. lia. }
    split; [unfold zlen in *; rewrite map_length; exact Lc|]. intros i e Ee. pose proof (rd_bounds _ _ _ Ee) as Bi.
    assert (rd (combine (zrange 0 (zlen l)) l) i = Ok (i, e)) as Ec.
    { apply rd_nth. split; [lia|]. rewrite (nth_error_combine _ _ (Z.to_nat i) i e); auto; [|apply rd_nth in Ee; apply Ee].
      pose proof (rd_zrange 0 (zlen l) i ltac:(lia)) as Ez. apply rd_nth in Ez as [_ Ez]. rewrite Ez. f_equal. }
    apply (rd_map (fun p => if 2 * rnd (fst p) <? rand_max then swap (snd p) else snd p)) in Ec. exact Ec.
  Qed.
End DP.
