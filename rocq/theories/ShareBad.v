(** What goes wrong when the rules are broken. *)
From Verif Require Import Base BaseLemmas Share ShareSpec ShareProofs.

Section SB.
  Context {X : Type}.
  Notation op := (op X).
  Lemma run_app (s : st X) (p q : list op) : run_ops s (p ++ q) = do s <- run_ops s p ;; run_ops s q.
  Proof. apply foldR_app. Qed.

  (** freeing the vector a graph shows *)
  Lemma share_frees (p : list op) (s : st X) base g j : Inv p s base -> is_loaded p g = true -> is_dead p g = false -> is_dead p (origin p g) = false -> is_dead p j = false ->
    exec s (OShare g j) = Ok (set_obj (set_cell s (base (origin p g) + 2) CFreed) g (mkG (Some (base g)) (Some (base g + 1)%nat) (o_vp (obj s j)) (Some (base g + 3)%nat) false false)).
  Proof.
    intros I Hl Hd Ho Hj. cbn [exec]. unfold share, live. rewrite !(i_dead _ _ _ I), Hd, Hj. cbn [bind]. rewrite (i_ptr _ _ _ I g Hl Hd). cbn [o_vp free_opt].
    pose proof (i_vp _ _ _ I _ (i_org3 _ _ _ I g Hl)) as V. rewrite Ho, (i_org4 _ _ _ I) in V. cbn [orb] in V. destruct V as (x & _ & Vc). unfold free. rewrite Vc. cbn [bind set_cell obj]. rewrite (i_ptr _ _ _ I g Hl Hd). reflexivity.
  Qed.
  Lemma use_freed (s : st X) g l f : o_dead (obj s g) = false -> o_vp (obj s g) = Some l -> heap s l = CFreed -> exec s (OUse g f) = Err UAF.
  Proof. intros Hd Hv Hc. cbn [exec]. unfold use, live. rewrite Hd. cbn [bind]. rewrite Hv. cbn [deref]. rewrite Hc. reflexivity. Qed.
  Lemma share_freed (s : st X) g l j : o_dead (obj s g) = false -> o_dead (obj s j) = false -> o_vp (obj s g) = Some l -> heap s l = CFreed -> exec s (OShare g j) = Err DoubleFree.
  Proof. intros Hd Hj Hv Hc. cbn [exec]. unfold share, live. rewrite Hd, Hj. cbn [bind]. rewrite Hv. cbn [free_opt]. unfold free. rewrite Hc. reflexivity. Qed.

  Lemma origin_not (p : list op) (s : st X) base g k : Inv p s base -> k <> g -> was_source p g = false -> origin p k <> g.
  Proof. intros I N Hw E. destruct (has_shared p k) eqn:Hk; [apply (i_org2 _ _ _ I) in Hk; congruence|]. rewrite (i_org _ _ _ I k Hk) in E. congruence. Qed.

  Lemma twice (p : list op) g k j : disciplined (p ++ [OShare g k]) -> is_dead p (origin p k) = false -> is_dead p j = false ->
    (forall f, run_ops init (p ++ [OShare g k; OShare g j; OUse k f]) = Err UAF) /\ run_ops init (p ++ [OShare g k; OShare g j; ODestroy (origin p k)]) = Err DoubleFree.
  Proof.
    intros H Ho Hj. destruct (run_inv _ H) as (s & base & Er & I). set (p1 := p ++ [OShare g k]) in *. pose proof H as H0. apply disciplined_snoc in H0 as [Hp (N & Hd & Hdk & Hl & Hlk & Hs & Hw)].
    assert (is_loaded p1 g = true /\ is_loaded p1 k = true) as [L1 L2] by (unfold p1; rewrite !snoc_loaded, !orb_false_r; auto).
    assert (forall x, is_dead p1 x = is_dead p x) as D1 by (intros x; unfold p1; rewrite snoc_dead, orb_false_r; auto).
    assert (origin p1 g = origin p k) as O1 by (unfold p1; rewrite snoc_origin, Nat.eqb_refl; auto). assert (origin p1 k = origin p k) as O2 by (unfold p1; rewrite snoc_origin; destruct (Nat.eqb_spec k g); congruence).
    assert (origin p k <> g) as No by (destruct (run_inv _ Hp) as (s0 & base0 & _ & I0); apply (origin_not p s0 base0); auto).
    assert (is_loaded p1 (origin p k) = true) as Lo by (rewrite <- O2; apply (i_org3 _ _ _ I); auto). assert (has_shared p1 (origin p k) = false) as So by (rewrite <- O2; apply (i_org4 _ _ _ I)).
    assert (forall o, run_ops init (p ++ [OShare g k; OShare g j; o]) = exec (set_obj (set_cell s (base (origin p k) + 2) CFreed) g (mkG (Some (base g)) (Some (base g + 1)%nat) (o_vp (obj s j)) (Some (base g + 3)%nat) false false)) o) as Run.
    { intros o. replace (p ++ [OShare g k; OShare g j; o]) with (p1 ++ [OShare g j; o]) by (unfold p1; rewrite <- app_assoc; reflexivity). rewrite run_app, Er. unfold run_ops. cbn [bind foldR]. rewrite (share_frees p1 s base g j I) by (rewrite ?O1, ?D1; auto). cbn [bind]. rewrite O1. destruct (exec _ o); reflexivity. }
    split; [intros f|]; rewrite Run.
    - apply (use_freed _ k (base (origin p k) + 2)); cbn [set_obj set_cell obj heap]; [| |rewrite Nat.eqb_refl; reflexivity]; (destruct (Nat.eqb_spec k g); [congruence|]); rewrite (i_ptr _ _ _ I k) by (rewrite ?D1; auto); cbn [o_vp o_dead]; congruence.
    - cbn [exec]. unfold destroy, live. cbn [set_obj set_cell obj heap next]. destruct (Nat.eqb_spec (origin p k) g); [congruence|]. rewrite (i_ptr _ _ _ I (origin p k)) by (rewrite ?D1; auto). cbn [o_A o_AT o_vp o_act o_owner o_dead bind free_opt]. rewrite So. cbn [negb]. rewrite (i_org _ _ _ I _ So).
      unfold free at 1. cbn [set_obj set_cell obj heap next]. destruct (Nat.eqb_spec (base (origin p k)) (base (origin p k) + 2)); [lia|]. rewrite (i_A _ _ _ I _ Lo), D1, Ho. cbn [bind].
      unfold free at 1. cbn [set_obj set_cell obj heap next]. destruct (Nat.eqb_spec (base (origin p k) + 1) (base (origin p k))); [lia|]. destruct (Nat.eqb_spec (base (origin p k) + 1) (base (origin p k) + 2)); [lia|]. rewrite (i_AT _ _ _ I _ Lo), D1, Ho. cbn [bind].
      unfold free at 1. cbn [set_obj set_cell obj heap next]. destruct (Nat.eqb_spec (base (origin p k) + 2) (base (origin p k) + 1)); [lia|]. destruct (Nat.eqb_spec (base (origin p k) + 2) (base (origin p k))); [lia|]. rewrite Nat.eqb_refl. reflexivity.
  Qed.

  Lemma itself (p : list op) g : disciplined p -> is_loaded p g = true -> is_dead p g = false -> is_dead p (origin p g) = false ->
    (forall f, run_ops init (p ++ [OShare g g; OUse g f]) = Err UAF) /\ (forall k, is_dead p k = false -> run_ops init (p ++ [OShare g g; OShare g k]) = Err DoubleFree).
  Proof.
    intros H Hl Hd Ho. destruct (run_inv _ H) as (s & base & Er & I).
    assert (forall o, run_ops init (p ++ [OShare g g; o]) = exec (set_obj (set_cell s (base (origin p g) + 2) CFreed) g (mkG (Some (base g)) (Some (base g + 1)%nat) (Some (base (origin p g) + 2)%nat) (Some (base g + 3)%nat) false false)) o) as Run.
    { intros o. rewrite run_app, Er. unfold run_ops. cbn [bind foldR]. rewrite (share_frees p s base g g I) by auto. cbn [bind]. rewrite (i_ptr _ _ _ I g Hl Hd). cbn [o_vp]. destruct (exec _ o); reflexivity. }
    split; [intros f|intros k Hk]; rewrite Run.
    - apply (use_freed _ g (base (origin p g) + 2)); cbn [set_obj set_cell obj heap]; rewrite Nat.eqb_refl; reflexivity.
    - apply (share_freed _ g (base (origin p g) + 2)); cbn [set_obj set_cell obj heap]; rewrite ?Nat.eqb_refl; try reflexivity. destruct (Nat.eqb_spec k g); [reflexivity|]. rewrite (i_dead _ _ _ I). auto.
  Qed.

  Lemma source_shares (p : list op) k g j : disciplined (p ++ [OShare k g]) -> is_dead p (origin p g) = false -> is_dead p j = false -> 
    (forall f, run_ops init (p ++ [OShare k g; OShare g j; OUse k f]) = Err UAF) /\ (forall i, is_dead p i = false -> run_ops init (p ++ [OShare k g; OShare g j; OShare k i]) = Err DoubleFree).
  Proof.
    intros H Ho Hj. destruct (run_inv _ H) as (s & base & Er & I). set (p1 := p ++ [OShare k g]) in *. pose proof H as H0. apply disciplined_snoc in H0 as [Hp (N & Hdk & Hd & Hlk & Hl & Hs & Hw)].
    assert (is_loaded p1 g = true /\ is_loaded p1 k = true) as [L1 L2] by (unfold p1; rewrite !snoc_loaded, !orb_false_r; auto).
    assert (forall x, is_dead p1 x = is_dead p x) as D1 by (intros x; unfold p1; rewrite snoc_dead, orb_false_r; auto).
    assert (origin p1 k = origin p g) as O1 by (unfold p1; rewrite snoc_origin, Nat.eqb_refl; auto). assert (origin p1 g = origin p g) as O2 by (unfold p1; rewrite snoc_origin; destruct (Nat.eqb_spec g k); congruence).
    assert (forall o, run_ops init (p ++ [OShare k g; OShare g j; o]) = exec (set_obj (set_cell s (base (origin p g) + 2) CFreed) g (mkG (Some (base g)) (Some (base g + 1)%nat) (o_vp (obj s j)) (Some (base g + 3)%nat) false false)) o) as Run.
    { intros o. replace (p ++ [OShare k g; OShare g j; o]) with (p1 ++ [OShare g j; o]) by (unfold p1; rewrite <- app_assoc; reflexivity). rewrite run_app, Er. unfold run_ops. cbn [bind foldR]. rewrite (share_frees p1 s base g j I) by (rewrite ?O2, ?D1; auto). cbn [bind]. rewrite O2. destruct (exec _ o); reflexivity. }
    split; [intros f|intros i Hi]; rewrite Run.
    - apply (use_freed _ k (base (origin p g) + 2)); cbn [set_obj set_cell obj heap]; [| |rewrite Nat.eqb_refl; reflexivity]; (destruct (Nat.eqb_spec k g); [congruence|]); rewrite (i_ptr _ _ _ I k) by (rewrite ?D1; auto); cbn [o_vp o_dead]; congruence.
    - apply (share_freed _ k (base (origin p g) + 2)); cbn [set_obj set_cell obj heap]; [| | |rewrite Nat.eqb_refl; reflexivity].
      + destruct (Nat.eqb_spec k g); [congruence|]. rewrite (i_dead _ _ _ I), D1. auto.
      + destruct (Nat.eqb_spec i g); [reflexivity|]. rewrite (i_dead _ _ _ I), D1. auto.
      + destruct (Nat.eqb_spec k g); [congruence|]. rewrite (i_ptr _ _ _ I k) by (rewrite ?D1; auto); cbn [o_vp o_dead]; congruence.
  Qed.

  Lemma source_gone (p : list op) g f : disciplined p -> is_loaded p g = true -> is_dead p g = false -> is_dead p (origin p g) = true -> run_ops init (p ++ [OUse g f]) = Err UAF.
  Proof.
    intros H Hl Hd Ho. destruct (run_inv _ H) as (s & base & Er & I). rewrite run_app, Er. unfold run_ops. cbn [bind foldR]. rewrite (use_freed s g (base (origin p g) + 2)); [reflexivity| | |].
    - rewrite (i_dead _ _ _ I). auto.
    - rewrite (i_ptr _ _ _ I g Hl Hd). reflexivity.
    - pose proof (i_vp _ _ _ I _ (i_org3 _ _ _ I g Hl)) as V. rewrite Ho in V. exact V.
  Qed.

  Lemma destroy_owner (s : st X) g a b v c x : obj s g = mkG (Some a) (Some b) (Some v) (Some c) true false ->
    a <> b -> a <> v -> a <> c -> b <> v -> b <> c -> v <> c -> heap s a = CMat -> heap s b = CMat -> heap s v = CVec x -> heap s c = CAct ->
    exists s', destroy s g = Ok s' /\ o_dead (obj s' g) = true /\ forall l, heap s' l = if Nat.eqb l a then CFreed else if Nat.eqb l b then CFreed else if Nat.eqb l v then CFreed else if Nat.eqb l c then CFreed else heap s l.
  Proof.
    intros Ho N1 N2 N3 N4 N5 N6 Ha Hb Hv Hc. unfold destroy, live. rewrite Ho. cbn [o_A o_AT o_vp o_act o_owner o_dead bind free_opt].
    unfold free at 1. rewrite Ha. cbn [bind]. unfold free at 1. cbn [set_cell heap]. destruct (Nat.eqb_spec b a); [congruence|]. rewrite Hb. cbn [bind].
    unfold free at 1. cbn [set_cell heap]. destruct (Nat.eqb_spec v b); [congruence|]. destruct (Nat.eqb_spec v a); [congruence|]. rewrite Hv. cbn [bind].
    unfold free at 1. cbn [set_cell heap]. destruct (Nat.eqb_spec c v); [congruence|]. destruct (Nat.eqb_spec c b); [congruence|]. destruct (Nat.eqb_spec c a); [congruence|]. rewrite Hc. cbn [bind].
    eexists. split; [reflexivity|]. cbn [set_obj set_cell obj heap]. rewrite Nat.eqb_refl. split; [reflexivity|]. intros l.
    destruct (Nat.eqb_spec l a), (Nat.eqb_spec l b), (Nat.eqb_spec l v), (Nat.eqb_spec l c); reflexivity.
  Qed.
  Lemma reload_leaks (p : list op) g x : disciplined p -> is_loaded p g = true -> is_dead p g = false ->
    exists s, run_ops init (p ++ [OLoad g x; ODestroy g]) = Ok s /\ exists l1 l2 l3, l1 <> l2 /\ heap s l1 = CMat /\ heap s l2 = CMat /\ heap s l3 = CAct /\
      (has_shared p g = false -> exists l4 y, value p g = Some y /\ heap s l4 = CVec y) /\ o_dead (obj s g) = true.
  Proof.
    intros H Hl Hd. destruct (run_inv _ H) as (s & base & Er & I). rewrite run_app, Er. unfold run_ops. cbn [bind foldR exec]. unfold load, live. rewrite (i_dead _ _ _ I), Hd. cbn [bind]. cbn [alloc set_obj next heap obj].
    match goal with |- context [Ok (set_obj ?a g ?b)] => set (s1 := set_obj a g b) end. cbn [bind].
    destruct (destroy_owner s1 g (next s) (S (next s)) (S (S (next s))) (S (S (S (next s)))) x) as (s2 & E2 & O2 & Eh); try lia; unfold s1; cbn [set_obj obj heap]; rewrite ?Nat.eqb_refl; try reflexivity.
    1-3: repeat (match goal with |- context [Nat.eqb ?a ?b] => destruct (Nat.eqb_spec a b); [lia|] end); reflexivity.
    fold s1. rewrite E2. cbn [bind]. exists s2. split; [reflexivity|]. pose proof (i_lt _ _ _ I g Hl) as L. exists (base g), (base g + 1)%nat, (base g + 3)%nat.
    assert (forall l, (l < next s)%nat -> heap s2 l = heap s l) as Hold.
    { intros l Hlt. rewrite Eh. unfold s1. cbn [set_obj heap]. repeat (match goal with |- context [Nat.eqb ?a ?b] => destruct (Nat.eqb_spec a b); [lia|] end). reflexivity. }
    pose proof (i_A _ _ _ I g Hl) as HA. pose proof (i_AT _ _ _ I g Hl) as HT. pose proof (i_act _ _ _ I g Hl) as HC. rewrite Hd in *.
    split; [lia|]. split; [|split; [|split; [|split]]].
    - rewrite Hold by lia. auto.
    - rewrite Hold by lia. auto.
    - rewrite Hold by lia. auto.
    - intros Hs. pose proof (i_vp _ _ _ I g Hl) as V. rewrite Hd, Hs in V. cbn [orb] in V. destruct V as (y & Vy & Vc). exists (base g + 2)%nat, y. split; [auto|].
      rewrite Hold by lia. auto.
    - exact O2.
  Qed.
End SB.
