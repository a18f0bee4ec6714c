From Verif Require Import BaseLemmas Bits BitsProofs Segment SegmentProofs TransferProofs SegHistory.

Lemma count_change {A} (f g : A -> bool) l x : NoDup l -> In x l -> (forall y, y <> x -> In y l -> f y = g y) ->
  zlen (filter f l) = zlen (filter g l) + (if f x then 1 else 0) - (if g x then 1 else 0).
Proof.
  intros ND. revert x. induction l as [|a l IH]; intros x Hin E; [destruct Hin|].
  inversion ND as [|? ? Na ND']; subst. simpl. destruct Hin as [->|Hin].
  - assert (filter f l = filter g l) as EQ.
    { apply filter_ext_in. intros y Hy. apply E; [|simpl; auto]. intros ->. contradiction. }
    rewrite EQ. destruct (f x), (g x); rewrite ?zlen_cons; lia.
  - assert (f a = g a) as -> by (apply E; [intros ->; contradiction|simpl; auto]).
    pose proof (IH ND' x Hin ltac:(intros; apply E; simpl; auto)). destruct (g a); rewrite ?zlen_cons; lia.
Qed.

Section HP.
  Context {T byte : Type}.
  Notation sg := (seg T byte).
  Variable ser : bool.
  Variable thr : Z.

  Lemma seg_zero_spec (s : sg) b : swf ser thr s -> s_prop s = Some b -> 
    exists s', seg_zero s = Ok s' /\ swf ser thr s' /\ s_cap s' = s_cap s /\ (forall k, sabs s' k = None) /\
      (exists b', s_prop s' = Some b' /\ b_uninit b' = b_uninit b /\ b_nnz b' = b_nnz b /\ b_value b' = b_value b).
  Proof.
    intros (H0 & H1 & H2 & H3 & H4) E. unfold seg_zero, prop. rewrite E in *. cbn [bind]. rewrite H1.
    pose proof H2 as [(B0 & B1 & B2 & B3 & B4 & B5 & B6 & B8) B7].
    pose proof (wwf_zero (s_cap s) H0) as Wz. pose proof Wz as [Wz1 _].
    eexists. split; [reflexivity|]. split; [|split; [auto|split] ].
    - unfold swf, bwf, bwf0; simpl. conjs; eauto.
    - intros k. unfold sabs, babs; simpl. unfold wabs. rewrite tb_repeat0. destruct (b_uninit b); auto.
    - eexists; split; [reflexivity|]; simpl; auto.
  Qed.

  (** stored count of a segment that is in use, zero otherwise *)
  Definition eff_nnz (s : sg) : Z := match s_prop s with None => 0 | Some b => if b_uninit b then 0 else b_nnz b end.

  Definition no_inactive (o : sop T) : Prop := match o with OSetInactive _ => False | _ => True end.
  Definition touches (o : sop T) : Prop := match o with OClear => False | _ => True end.

  Lemma members_set n (M : Z -> option T) id v : 1 <= id <= n ->
    zlen (members n (fun k => if k =? id then v else M k)) =
    zlen (members n M) + (if is_some v then 1 else 0) - (if is_some (M id) then 1 else 0).
  Proof.
    intros H. unfold members. rewrite (count_change (fun k => is_some (if k =? id then v else M k)) (fun k => is_some (M k)) _ id).
    - rewrite Z.eqb_refl. reflexivity.
    - apply NoDup_zrange.
    - apply in_zrange. lia.
    - intros y Hy _. destruct (Z.eqb_spec y id); [contradiction|reflexivity].
  Qed.
  Lemma members_all n (a : T) : 0 <= n -> members n (fun k => if (1 <=? k) && (k <=? n) then Some a else None) = zrange 1 (n+1).
  Proof.
    intros H. unfold members. assert (forall l, (forall k, In k l -> 1 <= k <= n) -> filter (fun id => is_some (if (1 <=? id) && (id <=? n) then Some a else None)) l = l) as G.
    { induction l as [|k l IH]; intros Hk; simpl; auto. assert (1 <= k <= n) by (apply Hk; simpl; auto).
      destruct (Z.leb_spec 1 k); destruct (Z.leb_spec k n); simpl; try lia. rewrite IH; auto. intros; apply Hk; simpl; auto. }
    apply G. intros k Hk. apply in_zrange in Hk. lia.
  Qed.
  Lemma members_none n : members n (fun _ => @None T) = [].
  Proof. unfold members. induction (zrange 1 (n+1)); simpl; auto. Qed.

  Lemma run_sop_spec threads n (s : sg) M o : thok ser thr threads -> swf ser thr s -> s_cap s = n -> sop_in_range n o ->
    (forall k, sabs s k = option_map Some (M (k + 1))) ->
    exists s', run_sop threads s o = Ok s' /\ swf ser thr s' /\ s_cap s' = n /\
      (forall k, sabs s' k = option_map Some (spec_sop n M o (k + 1))) /\
      (0 < n -> no_inactive o -> eff_nnz s = zlen (members n M) -> eff_nnz s' = zlen (members n (spec_sop n M o))) /\
      (touches o -> exists b, s_prop s' = Some b /\ b_uninit b = false) /\
      (forall a, o = OSetInactive a -> 0 < n -> eff_nnz s' = n).
  Proof.
    intros Ht W C Ho A. destruct o as [id a|id|a| |a]; simpl in Ho |- *.
    - destruct (seg_set_spec ser thr threads id (Some a) s Ht W ltac:(lia)) as (s' & E & W' & C' & A' & b & Eb & U & Nb).
      exists s'. rewrite E. conjs; auto; try congruence.
      + intros k. rewrite A'. destruct (Z.eqb_spec k (id-1)); destruct (Z.eqb_spec (k+1) id); try lia; auto.
      + intros _ _ Q. rewrite members_set by lia. unfold eff_nnz. rewrite Eb, U, Nb. fold (eff_nnz s). rewrite Q.
        rewrite A. replace (id - 1 + 1) with id by lia. destruct (M id); simpl; lia.
      + eauto.
    - destruct (seg_unset_spec ser thr threads id s Ht W ltac:(lia)) as (s' & E & W' & C' & A' & b & Eb & U & Nb).
      exists s'. rewrite E. conjs; auto; try congruence.
      + intros k. rewrite A'. destruct (Z.eqb_spec k (id-1)); destruct (Z.eqb_spec (k+1) id); try lia; auto.
      + intros _ _ Q. rewrite members_set by lia. unfold eff_nnz. rewrite Eb, U, Nb. fold (eff_nnz s). rewrite Q.
        rewrite A. replace (id - 1 + 1) with id by lia. destruct (M id); simpl; lia.
      + eauto.
    - destruct (seg_setAll_spec ser thr threads (Some a) s Ht W) as (s' & E & W' & C' & A' & b & Eb & U & Nb).
      exists s'. rewrite E. conjs; auto; try congruence.
      + intros k. rewrite A', C. destruct (Z.leb_spec 0 k); destruct (Z.ltb_spec k n); destruct (Z.leb_spec 1 (k+1)); destruct (Z.leb_spec (k+1) n); simpl; try lia; auto.
      + intros Hn _ Q. destruct W as [W0 _]. rewrite members_all by lia. unfold eff_nnz. rewrite Eb, U. rewrite zlen_zrange by lia. rewrite Nb by lia. lia.
      + eauto.
    - destruct (seg_set_uninitialized_spec ser thr s W) as (W' & A' & C' & P' & _).
      eexists. split; [reflexivity|]. conjs; auto; try congruence.
      + intros _ _ _. rewrite members_none. unfold eff_nnz. destruct (s_prop (seg_set_uninitialized s)) as [b|] eqn:E; auto.
        destruct (P' b eq_refl) as [-> _]. reflexivity.
      + tauto.
    - destruct (seg_setAll_spec ser thr threads (Some a) s Ht W) as (s1 & E & W1 & C1 & A1 & b & Eb & U & Nb).
      rewrite E. cbn [bind]. destruct (seg_zero_spec s1 b W1 Eb) as (s' & E' & W' & C' & A' & b' & Eb' & U' & N' & _).
      exists s'. rewrite E'. conjs; auto; try congruence.
      + tauto.
      + intros _. exists b'. split; congruence.
      + intros a0 _ Hn. unfold eff_nnz. rewrite Eb', U', U, N'. rewrite <- C. apply Nb. lia.
  Qed.

  Lemma run_sops_spec threads n ops : forall (s : sg) M, thok ser thr threads -> swf ser thr s -> s_cap s = n -> Forall (sop_in_range n) ops ->
    (forall k, sabs s k = option_map Some (M (k + 1))) ->
    exists s', run_sops threads ops s = Ok s' /\ swf ser thr s' /\ s_cap s' = n /\
      (forall k, sabs s' k = option_map Some (fold_left (spec_sop n) ops M (k + 1))) /\
      (0 < n -> Forall no_inactive ops -> eff_nnz s = zlen (members n M) -> eff_nnz s' = zlen (members n (fold_left (spec_sop n) ops M))).
  Proof.
    induction ops as [|o ops IH]; intros s M Ht W C F A; simpl.
    - exists s. auto 10.
    - inversion F as [|? ? Fo F']; subst. destruct (run_sop_spec threads (s_cap s) s M o Ht W eq_refl Fo A) as (s1 & E & W1 & C1 & A1 & N1 & _).
      unfold run_sops in *. cbn [foldR]. rewrite E. cbn [bind].
      destruct (IH s1 _ Ht W1 C1 F' A1) as (s' & E' & W' & C' & A' & N'). exists s'. conjs; auto.
      intros Hn Fn Q. inversion Fn; subst. apply N'; auto.
  Qed.

  Lemma swf_new n junk fresh : 0 <= n -> swf ser thr (@new_seg T byte n junk fresh).
  Proof. intros H. unfold swf; simpl. conjs; auto. Qed.

  (** reading back *)
  Lemma members_setbits n (s : sg) b M : swf ser thr s -> s_cap s = n -> s_prop s = Some b -> b_uninit b = false ->
    (forall k, sabs s k = option_map Some (M (k + 1))) ->
    exists w, b_bits b = Some w /\ wwf n w /\ zlen (b_value b) = n /\ members n M = map (fun k => k + 1) (setbits w 0 n) /\
      (forall k a, M (k+1) = Some a -> rd (b_value b) k = Ok (Some a)) /\ (forall k, 0 <= k < n -> tb w k = is_some (M (k+1))).
  Proof.
    intros (H0 & H1 & H2 & _) C E U A. rewrite E in H2. pose proof H2 as [(B0 & B1 & B2 & B3 & B4 & B5 & B6 & B8) B7].
    destruct (B7 U) as (w & Bb & Ww). exists w. rewrite C in *. 
    assert (forall k, wabs w (b_value b) k = option_map Some (M (k+1))) as D.
    { intros k. rewrite <- A. unfold sabs, babs. rewrite E, U, Bb. reflexivity. }
    assert (forall k, tb w k = is_some (M (k+1))) as TB.
    { intros k. specialize (D k). destruct (tb w k) eqn:Q.
      - destruct (wabs_ok n w (b_value b) k Ww B3 Q) as (c & _ & Hc). rewrite Hc in D. destruct (M (k+1)); auto. discriminate.
      - unfold wabs in D. rewrite Q in D. destruct (M (k+1)); auto. discriminate. }
    conjs; auto.
    - unfold members, setbits. replace (zrange 1 (n+1)) with (map (fun k => k + 1) (zrange 0 n)).
      + generalize (zrange 0 n) as l. induction l as [|k l IH]; simpl; auto. rewrite TB. destruct (is_some (M (k+1))); simpl; congruence.
      + rewrite (zrange_shift 0 n) || idtac. unfold zrange, zseq. rewrite map_map. replace (n + 1 - 1) with (n - 0) by lia. apply map_ext. intros; lia.
    - intros k a Hk. specialize (D k). rewrite Hk in D. simpl in D. unfold wabs in D. destruct (tb w k); [|discriminate]. destruct (rd (b_value b) k); [congruence|discriminate].
  Qed.

  Lemma seg_get_edges_spec n (s : sg) b M room st : swf ser thr s -> s_cap s = n -> s_prop s = Some b -> b_uninit b = false ->
    (forall k, sabs s k = option_map Some (M (k + 1))) -> zlen (members n M) <= room ->
    seg_get_edges room st s = Ok (map (fun id => (st + id, M id)) (members n M)).
  Proof.
    intros W C E U A Hr. destruct (members_setbits n s b M W C E U A) as (w & Bb & Ww & Lv & Mm & Mv & Mt).
    pose proof W as (H0 & _). rewrite C in H0. pose proof (num_ints_bounds n H0). destruct Ww as [W1 W2].
    unfold seg_get_edges. rewrite C. rewrite Mm in *. rewrite zlen_map in Hr. rewrite map_map.
    match goal with |- forZ ?lo ?hi ?f ?s = _ => destruct (forZ_inv (fun i acc => acc = map (fun x => (st + (x + 1), M (x + 1))) (setbits w 0 i)) lo hi f s) as (acc & -> & ->) end; auto.
    intros i acc Hi ->. unfold prop. rewrite E. cbn [bind]. unfold words. rewrite Bb. cbn [bind]. rewrite bv_get_ok by lia. cbn [bind].
    rewrite setbits_step by lia. rewrite Mt by lia. destruct (M (i+1)) as [a|] eqn:Mi; simpl.
    - rewrite (Mv i a Mi). cbn [bind]. rewrite zlen_map.
      assert (zlen (setbits w 0 i) < zlen (setbits w 0 n)).
      { rewrite (setbits_app w 0 i n) by lia. rewrite zlen_app. assert (In i (setbits w i n)) as Hin by (apply in_setbits; split; [lia|]; rewrite Mt, Mi by lia; auto).
        destruct (setbits w i n) as [|x l]; [destruct Hin|]. rewrite zlen_cons. pose proof (zlen_nonneg l). lia. }
      destruct (Z.ltb_spec (zlen (setbits w 0 i)) room); [|lia]. eexists. split; [reflexivity|]. rewrite map_app. simpl. rewrite Mi. replace (st + (i+1)) with (st + i + 1) by lia. reflexivity.
    - eexists. split; [reflexivity|]. rewrite app_nil_r. reflexivity.
  Qed.

  Lemma compute_nnz_members n (s : sg) M : swf ser thr s -> s_cap s = n -> (forall k, sabs s k = option_map Some (M (k + 1))) ->
    seg_compute_nnz s = Ok (zlen (members n M)).
  Proof.
    intros W C A. rewrite (seg_compute_nnz_spec ser thr) by auto. f_equal.
    assert ((forall k, sabs s k = None) -> members n M = []) as Empty.
    { intros Q. assert (forall k, M k = None) as Z0.
      { intros k. specialize (A (k-1)). rewrite Q in A. replace (k - 1 + 1) with k in A by lia. destruct (M k); [discriminate|auto]. }
      unfold members. induction (zrange 1 (n+1)); simpl; auto. rewrite Z0. auto. }
    destruct (s_prop s) as [b|] eqn:E.
    - unfold bcount. destruct (b_uninit b) eqn:U.
      + rewrite Empty; auto. intros k. unfold sabs, babs. rewrite E, U. auto.
      + destruct (members_setbits n s b M W C E U A) as (w & Bb & Ww & Lv & Mm & _). rewrite Bb, Mm, zlen_map.
        pose proof W as (_ & _ & H2 & _). rewrite E in H2. destruct H2 as [(_ & B1 & _) _]. rewrite B1, C. reflexivity.
    - rewrite Empty; auto. intros k. unfold sabs. rewrite E. auto.
  Qed.
End HP.

Section Final.
  Context {T : Type}.
  Notation sg := (seg T unit).

  Lemma history_spec threads n junk (fresh : option T) (ops : list (sop T)) : 1 <= threads -> 0 <= n -> Forall (sop_in_range n) ops ->
    exists s : sg, run_sops threads ops (@new_seg T unit n junk fresh) = Ok s /\
      seg_compute_nnz s = Ok (zlen (members n (spec_sops n ops))) /\
      (forall id a, spec_sops n ops id = Some a -> seg_get id s = Ok (Some a)) /\
      (forall ops' o room st, ops = ops' ++ [o] -> o <> OClear -> zlen (members n (spec_sops n ops)) <= room ->
          seg_get_edges room st s = Ok (map (fun id => (st + id, spec_sops n ops id)) (members n (spec_sops n ops)))) /\
      (forall ops' o, ops = ops' ++ [o] -> o <> OClear -> 0 < n -> Forall no_inactive ops -> seg_getNNZ s = Ok (zlen (members n (spec_sops n ops)))) /\
      (forall ops' a, ops = ops' ++ [OSetInactive a] -> 0 < n -> seg_getNNZ s = Ok n /\ seg_compute_nnz s = Ok 0).
  Proof.
    intros Ht Hn F. assert (thok false 0 threads) as Tk by (split; [auto|discriminate]).
    destruct (run_sops_spec false 0 threads n ops (@new_seg T unit n junk fresh) (fun _ => None) Tk (swf_new false 0 n junk fresh Hn) eq_refl F (fun _ => eq_refl)) as (s & E & W & C & A & Nz).
    exists s. split; auto. change (fold_left (spec_sop n) ops (fun _ => None)) with (spec_sops n ops) in *.
    pose proof (compute_nnz_members false 0 n s (spec_sops n ops) W C A) as CN.
    assert (forall ops' o, ops = ops' ++ [o] -> o <> OClear -> exists b, s_prop s = Some b /\ b_uninit b = false) as Tch.
    { intros ops' o Eo No. subst ops. unfold run_sops in E. rewrite foldR_app in E. apply bind_Ok in E as (s1 & E1 & E2). cbn [foldR] in E2.
      apply Forall_app in F as [F1 F2]. inversion F2; subst.
      destruct (run_sops_spec false 0 threads (s_cap s) ops' (@new_seg T unit (s_cap s) junk fresh) (fun _ => None) Tk (swf_new false 0 _ junk fresh Hn) eq_refl F1 (fun _ => eq_refl)) as (s1' & E1' & W1 & C1 & A1 & _).
      unfold run_sops in E1'. assert (s1' = s1) by congruence. subst s1'.
      destruct (run_sop_spec false 0 threads (s_cap s) s1 _ o Tk W1 C1 ltac:(auto) A1) as (s2 & E2' & _ & _ & _ & _ & Tc & _).
      rewrite E2' in E2. cbn [bind] in E2. injection E2 as <-. apply Tc. destruct o; simpl; auto. }
    split; [|split; [|split; [|split] ] ]; auto.
    - intros id a Hid. specialize (A (id - 1)). replace (id - 1 + 1) with id in A by lia. rewrite Hid in A. simpl in A.
      destruct (s_prop s) as [b|] eqn:Eb; [|unfold sabs in A; rewrite Eb in A; discriminate].
      destruct (b_uninit b) eqn:U; [unfold sabs, babs in A; rewrite Eb, U in A; discriminate|].
      assert (1 <= id <= n) as Rg.
      { unfold sabs, babs in A. rewrite Eb, U in A. destruct (b_bits b) as [w|]; [|discriminate]. unfold wabs in A.
        destruct (tb w (id-1)); [|discriminate]. destruct (rd (b_value b) (id-1)) eqn:Q; [|discriminate]. apply rd_bounds in Q.
        destruct W as (_ & _ & H2 & _). rewrite Eb in H2. destruct H2 as [(_ & _ & _ & B3 & _) _]. lia. }
      destruct (seg_get_spec false 0 id s b W Eb U ltac:(lia)) as (c & Ec & _ & [Q|Q]); congruence.
    - intros ops' o room st Eo No Hr. destruct (Tch ops' o Eo No) as (b & Eb & U). apply (seg_get_edges_spec false 0 n s b); auto.
    - intros ops' o Eo No Hn0 Fn. destruct (Tch ops' o Eo No) as (b & Eb & U).
      assert (eff_nnz s = zlen (members n (spec_sops n ops))) as Q.
      { apply Nz; auto. rewrite members_none. reflexivity. }
      unfold eff_nnz in Q. unfold seg_getNNZ, prop. rewrite Eb, U in *. cbn [bind]. congruence.
    - intros ops' a Eo Hn0. split.
      + destruct (Tch ops' _ Eo ltac:(discriminate)) as (b & Eb & U). subst ops. unfold run_sops in E. rewrite foldR_app in E. apply bind_Ok in E as (s1 & E1 & E2). cbn [foldR] in E2.
        apply Forall_app in F as [F1 F2]. 
        destruct (run_sops_spec false 0 threads n ops' (@new_seg T unit n junk fresh) (fun _ => None) Tk (swf_new false 0 n junk fresh Hn) eq_refl F1 (fun _ => eq_refl)) as (s1' & E1' & W1 & C1 & A1 & _).
        unfold run_sops in E1'. assert (s1' = s1) by congruence. subst s1'.
        destruct (run_sop_spec false 0 threads n s1 _ (OSetInactive a) Tk W1 C1 I A1) as (s2 & E2' & _ & _ & _ & _ & _ & Nn).
        rewrite E2' in E2. cbn [bind] in E2. injection E2 as <-. specialize (Nn a eq_refl Hn0). unfold eff_nnz in Nn. rewrite Eb, U in Nn.
        unfold seg_getNNZ, prop. rewrite Eb. cbn [bind]. congruence.
      + rewrite CN. subst ops. unfold spec_sops. rewrite fold_left_app. simpl. rewrite members_none. reflexivity.
  Qed.
End Final.
