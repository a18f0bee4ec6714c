(** Who owns what after a disciplined sequence of calls. *)
From Verif Require Import Base BaseLemmas Share ShareSpec.

Section SP.
  Context {X : Type}.
  Notation op := (op X).
  Notation st := (st X).

  Lemma snoc_loaded (p : list op) o g : is_loaded (p ++ [o]) g = is_loaded p g || match o with OLoad k _ => Nat.eqb k g | _ => false end.
  Proof. unfold is_loaded. rewrite existsb_app. cbn [existsb]. rewrite orb_false_r. reflexivity. Qed.
  Lemma snoc_dead (p : list op) o g : is_dead (p ++ [o]) g = is_dead p g || match o with ODestroy k => Nat.eqb k g | _ => false end.
  Proof. unfold is_dead. rewrite existsb_app. cbn [existsb]. rewrite orb_false_r. reflexivity. Qed.
  Lemma snoc_shared (p : list op) o g : has_shared (p ++ [o]) g = has_shared p g || match o with OShare k _ => Nat.eqb k g | _ => false end.
  Proof. unfold has_shared. rewrite existsb_app. cbn [existsb]. rewrite orb_false_r. reflexivity. Qed.
  Lemma snoc_source (p : list op) o g : was_source (p ++ [o]) g = was_source p g || match o with OShare _ k => Nat.eqb k g | _ => false end.
  Proof. unfold was_source. rewrite existsb_app. cbn [existsb]. rewrite orb_false_r. reflexivity. Qed.
  Lemma snoc_tracked (p : list op) o : tracked (p ++ [o]) = track (tracked p) o.
  Proof. unfold tracked. rewrite fold_left_app. reflexivity. Qed.
  Lemma snoc_origin (p : list op) o g : origin (p ++ [o]) g = match o with OShare k j => if Nat.eqb g k then origin p j else origin p g | _ => origin p g end.
  Proof. unfold origin. rewrite snoc_tracked. destruct o; reflexivity. Qed.
  Lemma snoc_value (p : list op) o g : value (p ++ [o]) g =
    match o with OLoad k x => if Nat.eqb g k then Some x else value p g | OUse k f => if Nat.eqb g (origin p k) then option_map f (value p g) else value p g | _ => value p g end.
  Proof. unfold value, origin. rewrite snoc_tracked. destruct o; reflexivity. Qed.

  Record Inv (p : list op) (s : st) (base : nat -> nat) : Prop := mkInv {
    i_lt : forall g, is_loaded p g = true -> (base g + 4 <= next s)%nat;
    i_dis : forall g k, is_loaded p g = true -> is_loaded p k = true -> g <> k -> (base g + 4 <= base k \/ base k + 4 <= base g)%nat;
    i_dead : forall g, o_dead (obj s g) = is_dead p g;
    i_null : forall g, is_loaded p g = false -> obj s g = mkG None None None None true (is_dead p g);
    i_ptr : forall g, is_loaded p g = true -> is_dead p g = false ->
      obj s g = mkG (Some (base g)) (Some (base g + 1)%nat) (Some (base (origin p g) + 2)%nat) (Some (base g + 3)%nat) (negb (has_shared p g)) false;
    i_A : forall g, is_loaded p g = true -> heap s (base g) = if is_dead p g then CFreed else CMat;
    i_AT : forall g, is_loaded p g = true -> heap s (base g + 1)%nat = if is_dead p g then CFreed else CMat;
    i_act : forall g, is_loaded p g = true -> heap s (base g + 3)%nat = if is_dead p g then CFreed else CAct;
    i_vp : forall g, is_loaded p g = true -> if is_dead p g || has_shared p g then heap s (base g + 2)%nat = CFreed
      else exists x, value p g = Some x /\ heap s (base g + 2)%nat = CVec x;
    i_cov : forall l, (l < next s)%nat -> exists g, is_loaded p g = true /\ (base g <= l < base g + 4)%nat;
    i_out : forall l, (next s <= l)%nat -> heap s l = CNone;
    i_org : forall g, has_shared p g = false -> origin p g = g;
    i_org2 : forall g, has_shared p g = true -> was_source p (origin p g) = true;
    i_org3 : forall g, is_loaded p g = true -> is_loaded p (origin p g) = true;
    i_org4 : forall g, has_shared p (origin p g) = false;
    i_sh : forall g, has_shared p g = true -> is_loaded p g = true }.

  Lemma Inv_init : Inv [] init (fun _ => 0%nat).
  Proof. constructor; cbn; intros; try discriminate; try reflexivity; try lia; auto. Qed.

  Ltac eqb := repeat match goal with
    | H : context [Nat.eqb ?a ?b] |- _ => destruct (Nat.eqb_spec a b); subst
    | |- context [Nat.eqb ?a ?b] => destruct (Nat.eqb_spec a b); subst end.

  Lemma exec_load p s base g x : Inv p s base -> allowed p (OLoad g x) -> exists s' base', exec s (OLoad g x) = Ok s' /\ Inv (p ++ [OLoad g x]) s' base'.
  Proof.
    intros I [Hd Hl]. cbn [exec]. unfold load, live. rewrite (i_dead _ _ _ I), Hd. cbn [bind]. cbn [alloc set_obj next heap obj].
    eexists _, (fun k => if Nat.eqb k g then next s else base k). split; [reflexivity|].
    assert (has_shared p g = false) as Hs by (destruct (has_shared p g) eqn:E; [apply (i_sh _ _ _ I) in E; congruence|reflexivity]).
    pose proof (i_lt _ _ _ I) as Ilt. pose proof (i_dis _ _ _ I) as Idis.
    constructor; cbn [set_obj next heap obj]; intros; rewrite ?snoc_loaded, ?snoc_dead, ?snoc_shared, ?snoc_source, ?snoc_origin, ?snoc_value, ?orb_false_r in *; cbv beta in *.
    - destruct (Nat.eqb_spec g0 g) as [->|N]; [lia|]. destruct (Nat.eqb_spec g g0) as [->|_]; [congruence|]. rewrite orb_false_r in H. specialize (Ilt _ H). lia.
    - destruct (Nat.eqb_spec g0 g) as [->|N]; destruct (Nat.eqb_spec k g) as [->|N']; try congruence; rewrite ?orb_false_r in *.
      + right. apply Ilt. destruct (Nat.eqb_spec g k); [congruence|]. rewrite orb_false_r in *. auto.
      + left. apply Ilt. destruct (Nat.eqb_spec g g0); [congruence|]. rewrite orb_false_r in *. auto.
      + destruct (Nat.eqb_spec g g0); [congruence|]. destruct (Nat.eqb_spec g k); [congruence|]. rewrite orb_false_r in *. auto.
    - destruct (Nat.eqb_spec g0 g) as [->|N]; [cbn; auto|]. apply (i_dead _ _ _ I).
    - destruct (Nat.eqb_spec g0 g) as [->|N]; [rewrite Nat.eqb_refl, orb_true_r in H; discriminate|]. apply orb_false_iff in H as [H _]. apply (i_null _ _ _ I); auto.
    - destruct (Nat.eqb_spec g0 g) as [->|N].
      + rewrite (i_org _ _ _ I g Hs), Nat.eqb_refl, Hs. cbn [negb]. f_equal; f_equal; lia.
      + destruct (Nat.eqb_spec g g0); [congruence|]. rewrite orb_false_r in *. rewrite (i_ptr _ _ _ I g0) by auto. destruct (Nat.eqb_spec (origin p g0) g) as [E|_]; [|reflexivity].
        apply (i_org3 _ _ _ I) in H. rewrite E in H. congruence.
    - destruct (Nat.eqb_spec g0 g) as [->|N]; rewrite ?Hd; [eqb; try lia; reflexivity|]. destruct (Nat.eqb_spec g g0); [congruence|]. rewrite orb_false_r in *. specialize (Ilt _ H). pose proof (i_A _ _ _ I g0 H) as XX. eqb; try lia; auto.
    - destruct (Nat.eqb_spec g0 g) as [->|N]; rewrite ?Hd; [eqb; try lia; reflexivity|]. destruct (Nat.eqb_spec g g0); [congruence|]. rewrite orb_false_r in *. specialize (Ilt _ H). pose proof (i_AT _ _ _ I g0 H) as XX. eqb; try lia; auto.
    - destruct (Nat.eqb_spec g0 g) as [->|N]; rewrite ?Hd; [eqb; try lia; reflexivity|]. destruct (Nat.eqb_spec g g0); [congruence|]. rewrite orb_false_r in *. specialize (Ilt _ H). pose proof (i_act _ _ _ I g0 H) as XX. eqb; try lia; auto.
    - destruct (Nat.eqb_spec g0 g) as [->|N].
      + rewrite Hd, Hs. cbn [orb]. exists x. split; [reflexivity|]. eqb; try lia; reflexivity.
      + destruct (Nat.eqb_spec g g0); [congruence|]. rewrite orb_false_r in *. specialize (Ilt _ H). pose proof (i_vp _ _ _ I g0 H) as XX. destruct (is_dead p g0 || has_shared p g0); [|destruct XX as (y & Y1 & Y2); exists y; split; [auto|]]; eqb; try lia; auto.
    - destruct (Nat.lt_ge_cases l (next s)) as [L|L].
      + destruct (i_cov _ _ _ I l L) as (k & Hk & B). exists k. rewrite snoc_loaded, Hk. split; [reflexivity|]. destruct (Nat.eqb_spec k g) as [->|_]; [congruence|auto].
      + exists g. rewrite snoc_loaded, !Nat.eqb_refl, orb_true_r. split; [reflexivity|lia].
    - pose proof (i_out _ _ _ I l ltac:(lia)). eqb; try lia; auto.
    - apply (i_org _ _ _ I); auto.
    - apply (i_org2 _ _ _ I); auto.
    - apply orb_prop in H as [H|H]; [rewrite (i_org3 _ _ _ I) by auto; reflexivity|]. apply Nat.eqb_eq in H as ->. rewrite (i_org _ _ _ I g0 Hs), Nat.eqb_refl, orb_true_r. reflexivity.
    - apply (i_org4 _ _ _ I).
    - rewrite (i_sh _ _ _ I) by auto. reflexivity.
  Qed.

  Lemma exec_share p s base g k : Inv p s base -> allowed p (OShare g k) -> exists s', exec s (OShare g k) = Ok s' /\ Inv (p ++ [OShare g k]) s' base.
  Proof.
    intros I (N & Hd & Hdk & Hl & Hlk & Hs & Hw). cbn [exec]. unfold share, live. rewrite !(i_dead _ _ _ I), Hd, Hdk. cbn [bind].
    rewrite (i_ptr _ _ _ I g Hl Hd). cbn [o_vp free_opt]. rewrite (i_org _ _ _ I g Hs). pose proof (i_vp _ _ _ I g Hl) as Vg. rewrite Hd, Hs in Vg. cbn [orb] in Vg. destruct Vg as (x & Vx & Vc). unfold free. rewrite Vc. cbn [bind].
    cbn [set_cell obj]. rewrite (i_ptr _ _ _ I k Hlk Hdk), (i_ptr _ _ _ I g Hl Hd). cbn [o_A o_AT o_vp o_act o_dead]. eexists. split; [reflexivity|].
    pose proof (i_lt _ _ _ I) as Ilt. pose proof (i_dis _ _ _ I) as Idis.
    assert (forall j i, is_loaded p j = true -> (i < 4)%nat -> base j + i = base g + 2 -> j = g /\ i = 2)%nat as Hsame.
    { intros j i Hj Hi E. destruct (Nat.eq_dec j g) as [->|Nj]; [lia|]. specialize (Idis j g Hj Hl Nj). lia. }
    constructor; cbn [set_obj set_cell next heap obj]; intros; rewrite ?snoc_loaded, ?snoc_dead, ?snoc_shared, ?snoc_source, ?snoc_origin, ?snoc_value, ?orb_false_r in *; auto.
    - destruct (Nat.eqb_spec g0 g) as [->|N']; [cbn; auto|]. apply (i_dead _ _ _ I).
    - destruct (Nat.eqb_spec g0 g) as [->|N']; [congruence|]. apply (i_null _ _ _ I); auto.
    - destruct (Nat.eqb_spec g0 g) as [->|N'].
      + rewrite Nat.eqb_refl, orb_true_r. reflexivity.
      + destruct (Nat.eqb_spec g g0); [congruence|]. rewrite orb_false_r. apply (i_ptr _ _ _ I); auto.
    - pose proof (i_A _ _ _ I g0 H). destruct (Nat.eqb_spec (base g0) (base g + 2)) as [E|_]; [|auto]. destruct (Hsame g0 0%nat H ltac:(lia) ltac:(lia)). lia.
    - pose proof (i_AT _ _ _ I g0 H). destruct (Nat.eqb_spec (base g0 + 1) (base g + 2)) as [E|_]; [|auto]. destruct (Hsame g0 1%nat H ltac:(lia) ltac:(lia)). lia.
    - pose proof (i_act _ _ _ I g0 H). destruct (Nat.eqb_spec (base g0 + 3) (base g + 2)) as [E|_]; [|auto]. destruct (Hsame g0 3%nat H ltac:(lia) ltac:(lia)). lia.
    - destruct (Nat.eqb_spec (base g0 + 2) (base g + 2)) as [E|E].
      + destruct (Hsame g0 2%nat H ltac:(lia) ltac:(lia)) as [-> _]. rewrite Nat.eqb_refl, !orb_true_r. reflexivity.
      + destruct (Nat.eqb_spec g g0) as [->|_]; [congruence|]. rewrite orb_false_r. apply (i_vp _ _ _ I); auto.
    - destruct (i_cov _ _ _ I l H) as (j & Hj & B). exists j. rewrite snoc_loaded, orb_false_r. auto.
    - destruct (Nat.eqb_spec l (base g + 2)) as [->|_]; [specialize (Ilt g Hl); lia|]. apply (i_out _ _ _ I); auto.
    - destruct (Nat.eqb_spec g g0) as [->|N']; [rewrite orb_true_r in H; discriminate|]. rewrite orb_false_r in H. destruct (Nat.eqb_spec g0 g); [congruence|]. apply (i_org _ _ _ I); auto.
    - destruct (Nat.eqb_spec g0 g) as [->|N'].
      + destruct (has_shared p k) eqn:Hk; [rewrite (i_org2 _ _ _ I k Hk); reflexivity|]. rewrite (i_org _ _ _ I k Hk), Nat.eqb_refl, orb_true_r. reflexivity.
      + destruct (Nat.eqb_spec g g0); [congruence|]. rewrite orb_false_r in H. rewrite (i_org2 _ _ _ I g0 H). reflexivity.
    - destruct (Nat.eqb_spec g0 g) as [->|N']; apply (i_org3 _ _ _ I); auto.
    - assert (forall j, origin p j <> g \/ j = g) as HO.
      { intros j. destruct (Nat.eq_dec (origin p j) g) as [E|]; [|auto]. right. destruct (has_shared p j) eqn:Hj; [apply (i_org2 _ _ _ I) in Hj; rewrite E in Hj; congruence|]. rewrite (i_org _ _ _ I j Hj) in E. auto. }
      destruct (Nat.eqb_spec g0 g) as [->|N'].
      + rewrite (i_org4 _ _ _ I). destruct (Nat.eqb_spec g (origin p k)) as [E|]; [|reflexivity]. destruct (HO k); congruence.
      + rewrite (i_org4 _ _ _ I). destruct (Nat.eqb_spec g (origin p g0)) as [E|]; [|reflexivity]. destruct (HO g0); congruence.
    - apply orb_prop in H as [H|H]; [apply (i_sh _ _ _ I); auto|]. apply Nat.eqb_eq in H as <-. auto.
  Qed.

  Lemma exec_use p s base g f : Inv p s base -> allowed p (OUse g f) -> exists s', exec s (OUse g f) = Ok s' /\ Inv (p ++ [OUse g f]) s' base.
  Proof.
    intros I (Hd & Hl & Ho). cbn [exec]. unfold use, live. rewrite !(i_dead _ _ _ I), Hd. cbn [bind]. rewrite (i_ptr _ _ _ I g Hl Hd). cbn [o_vp deref].
    set (k := origin p g) in *. assert (is_loaded p k = true) as Hk by (apply (i_org3 _ _ _ I); auto). assert (has_shared p k = false) as Hks by apply (i_org4 _ _ _ I).
    pose proof (i_vp _ _ _ I k Hk) as Vk. rewrite Ho, Hks in Vk. cbn [orb] in Vk. destruct Vk as (x & Vx & Vc). rewrite Vc. cbn [bind]. eexists. split; [reflexivity|].
    pose proof (i_lt _ _ _ I) as Ilt. pose proof (i_dis _ _ _ I) as Idis.
    assert (forall j i, is_loaded p j = true -> (i < 4)%nat -> base j + i = base k + 2 -> j = k /\ i = 2)%nat as Hsame.
    { intros j i Hj Hi E. destruct (Nat.eq_dec j k) as [->|Nj]; [lia|]. specialize (Idis j k Hj Hk Nj). lia. }
    constructor; cbn [set_cell next heap obj]; intros; rewrite ?snoc_loaded, ?snoc_dead, ?snoc_shared, ?snoc_source, ?snoc_origin, ?snoc_value, ?orb_false_r in *; auto.
    - apply (i_dead _ _ _ I).
    - apply (i_null _ _ _ I); auto.
    - apply (i_ptr _ _ _ I); auto.
    - pose proof (i_A _ _ _ I g0 H). destruct (Nat.eqb_spec (base g0) (base k + 2)) as [E|_]; [|auto]. destruct (Hsame g0 0%nat H ltac:(lia) ltac:(lia)). lia.
    - pose proof (i_AT _ _ _ I g0 H). destruct (Nat.eqb_spec (base g0 + 1) (base k + 2)) as [E|_]; [|auto]. destruct (Hsame g0 1%nat H ltac:(lia) ltac:(lia)). lia.
    - pose proof (i_act _ _ _ I g0 H). destruct (Nat.eqb_spec (base g0 + 3) (base k + 2)) as [E|_]; [|auto]. destruct (Hsame g0 3%nat H ltac:(lia) ltac:(lia)). lia.
    - fold k. pose proof (i_vp _ _ _ I g0 H) as V0. destruct (Nat.eqb_spec (base g0 + 2) (base k + 2)) as [E|E].
      + destruct (Hsame g0 2%nat H ltac:(lia) ltac:(lia)) as [-> _]. rewrite Ho, Hks. cbn [orb]. rewrite Nat.eqb_refl, Vx. cbn. eauto.
      + destruct (Nat.eqb_spec g0 k) as [->|_]; [congruence|]. auto.
    - destruct (i_cov _ _ _ I l H) as (j & Hj & B). exists j. rewrite snoc_loaded, orb_false_r. auto.
    - destruct (Nat.eqb_spec l (base k + 2)) as [->|_]; [specialize (Ilt k Hk); lia|]. apply (i_out _ _ _ I); auto.
    - apply (i_org _ _ _ I); auto.
    - apply (i_org2 _ _ _ I); auto.
    - apply (i_org3 _ _ _ I); auto.
    - apply (i_org4 _ _ _ I).
    - apply (i_sh _ _ _ I); auto.
  Qed.

  Lemma exec_edges p s base g : Inv p s base -> allowed p (OEdges g) -> exists s', exec s (OEdges g) = Ok s' /\ Inv (p ++ [OEdges g]) s' base.
  Proof.
    intros I (Hd & Hl). cbn [exec]. unfold edges, live. rewrite !(i_dead _ _ _ I), Hd. cbn [bind]. rewrite (i_ptr _ _ _ I g Hl Hd). cbn [o_A o_AT o_act deref]. rewrite (i_A _ _ _ I g Hl), (i_AT _ _ _ I g Hl), (i_act _ _ _ I g Hl), Hd. cbn [bind]. eexists. split; [reflexivity|].
    destruct I. constructor; intros; rewrite ?snoc_loaded, ?snoc_dead, ?snoc_shared, ?snoc_source, ?snoc_origin, ?snoc_value, ?orb_false_r in *; auto.
    - apply i_vp0; auto.
    - destruct (i_cov0 l H) as (j & Hj & B). exists j. rewrite snoc_loaded, orb_false_r. auto.
  Qed.

  Lemma exec_destroy p s base g : Inv p s base -> allowed p (ODestroy g) -> exists s', exec s (ODestroy g) = Ok s' /\ Inv (p ++ [ODestroy g]) s' base.
  Proof.
    intros I Hd. cbn [allowed] in Hd. cbn [exec]. unfold destroy, live. rewrite !(i_dead _ _ _ I), Hd. cbn [bind].
    pose proof (i_lt _ _ _ I) as Ilt. pose proof (i_dis _ _ _ I) as Idis. destruct (is_loaded p g) eqn:Hl.
    - rewrite (i_ptr _ _ _ I g Hl Hd). cbn [o_A o_AT o_vp o_act o_owner free_opt]. unfold free at 1. rewrite (i_A _ _ _ I g Hl), Hd. cbn [bind].
      unfold free at 1. cbn [set_cell heap next obj]. destruct (Nat.eqb_spec (base g + 1) (base g)); [lia|]. rewrite (i_AT _ _ _ I g Hl), Hd. cbn [bind].
      pose proof (i_vp _ _ _ I g Hl) as Vg. rewrite Hd in Vg. cbn [orb] in Vg.
      assert (exists s', (do s0 <- (if negb (has_shared p g) then free (set_cell (set_cell s (base g) CFreed) (base g + 1) CFreed) (base (origin p g) + 2) else Ok (set_cell (set_cell s (base g) CFreed) (base g + 1) CFreed)) ;;
        do s1 <- free s0 (base g + 3) ;; Ok (set_obj s1 g (mkG None None None None (negb (has_shared p g)) true))) = Ok s' /\
        next s' = next s /\ (forall j, obj s' j = if Nat.eqb j g then mkG None None None None (negb (has_shared p g)) true else obj s j) /\
        forall l, heap s' l = if (Nat.leb (base g) l && Nat.ltb l (base g + 4))%bool then CFreed else heap s l) as (s' & E & En & Eo & Eh).
      { destruct (has_shared p g) eqn:Hs; cbn [negb].
        - cbn [bind]. unfold free. cbn [set_cell heap next obj]. destruct (Nat.eqb_spec (base g + 3) (base g + 1)); [lia|]. destruct (Nat.eqb_spec (base g + 3) (base g)); [lia|]. rewrite (i_act _ _ _ I g Hl), Hd. cbn [bind].
          eexists. split; [reflexivity|]. split; [reflexivity|]. split; [reflexivity|]. intros l. cbn [set_obj set_cell heap].
          destruct (Nat.leb_spec (base g) l), (Nat.ltb_spec l (base g + 4)); cbn [andb]; eqb; try lia; try reflexivity. replace l with (base g + 2)%nat by lia. auto.
        - rewrite (i_org _ _ _ I g Hs). destruct Vg as (x & Vx & Vc). unfold free at 1. cbn [set_cell heap next obj]. destruct (Nat.eqb_spec (base g + 2) (base g + 1)); [lia|]. destruct (Nat.eqb_spec (base g + 2) (base g)); [lia|]. rewrite Vc. cbn [bind].
          unfold free. cbn [set_cell heap next obj]. destruct (Nat.eqb_spec (base g + 3) (base g + 2)); [lia|]. destruct (Nat.eqb_spec (base g + 3) (base g + 1)); [lia|]. destruct (Nat.eqb_spec (base g + 3) (base g)); [lia|]. rewrite (i_act _ _ _ I g Hl), Hd. cbn [bind].
          eexists. split; [reflexivity|]. split; [reflexivity|]. split; [reflexivity|]. intros l. cbn [set_obj set_cell heap].
          destruct (Nat.leb_spec (base g) l), (Nat.ltb_spec l (base g + 4)); cbn [andb]; eqb; try lia; reflexivity. }
      cbn [free_opt] in *. rewrite E. exists s'. split; [reflexivity|].
      assert (forall j i, is_loaded p j = true -> (i < 4)%nat -> j <> g -> (Nat.leb (base g) (base j + i) && Nat.ltb (base j + i) (base g + 4))%bool = false) as Hother.
      { intros j i Hj Hi Nj. specialize (Idis j g Hj Hl Nj). destruct (Nat.leb_spec (base g) (base j + i)), (Nat.ltb_spec (base j + i) (base g + 4)); cbn; try reflexivity; lia. }
      assert (forall i, (i < 4)%nat -> (Nat.leb (base g) (base g + i) && Nat.ltb (base g + i) (base g + 4))%bool = true) as Hown.
      { intros i Hi. destruct (Nat.leb_spec (base g) (base g + i)), (Nat.ltb_spec (base g + i) (base g + 4)); cbn; try reflexivity; lia. }
      constructor; intros; rewrite ?En, ?Eo, ?Eh in *; rewrite ?snoc_loaded, ?snoc_dead, ?snoc_shared, ?snoc_source, ?snoc_origin, ?snoc_value, ?orb_false_r in *; auto.
      + destruct (Nat.eqb_spec g0 g) as [->|N]; [rewrite Nat.eqb_refl, orb_true_r; reflexivity|]. destruct (Nat.eqb_spec g g0); [congruence|]. rewrite orb_false_r. apply (i_dead _ _ _ I).
      + destruct (Nat.eqb_spec g0 g) as [->|N]; [congruence|]. destruct (Nat.eqb_spec g g0); [congruence|]. rewrite orb_false_r. apply (i_null _ _ _ I); auto.
      + destruct (Nat.eqb_spec g0 g) as [->|N]; [rewrite Nat.eqb_refl, orb_true_r in H0; discriminate|]. apply orb_false_iff in H0 as [H0 _]. apply (i_ptr _ _ _ I); auto.
      + destruct (Nat.eqb_spec g g0) as [->|N]; [rewrite orb_true_r|rewrite orb_false_r].
        * pose proof (Hown 0%nat ltac:(lia)) as X0. rewrite Nat.add_0_r in X0. rewrite X0. reflexivity.
        * pose proof (Hother g0 0%nat H ltac:(lia) ltac:(auto)) as X0. rewrite Nat.add_0_r in X0. rewrite X0. apply (i_A _ _ _ I); auto.
      + destruct (Nat.eqb_spec g g0) as [->|N]; [rewrite orb_true_r, Hown by lia; reflexivity|rewrite orb_false_r, Hother by auto with arith; apply (i_AT _ _ _ I); auto].
      + destruct (Nat.eqb_spec g g0) as [->|N]; [rewrite orb_true_r, Hown by lia; reflexivity|rewrite orb_false_r, Hother by auto with arith; apply (i_act _ _ _ I); auto].
      + destruct (Nat.eqb_spec g g0) as [->|N]; [rewrite orb_true_r, Hown by lia; reflexivity|rewrite orb_false_r, Hother by auto with arith; apply (i_vp _ _ _ I); auto].
      + destruct (i_cov _ _ _ I l H) as (j & Hj & B). exists j. rewrite snoc_loaded, orb_false_r. auto.
      + specialize (Ilt g Hl). destruct (Nat.ltb_spec l (base g + 4)); [lia|]. rewrite andb_false_r. apply (i_out _ _ _ I); auto.
      + apply (i_org _ _ _ I); auto.
      + apply (i_org2 _ _ _ I); auto.
      + apply (i_org3 _ _ _ I); auto.
      + apply (i_org4 _ _ _ I).
      + apply (i_sh _ _ _ I); auto.
    - rewrite (i_null _ _ _ I g Hl). cbn [o_A o_AT o_vp o_act o_owner free_opt bind]. eexists. split; [reflexivity|].
      constructor; cbn [set_obj next heap obj]; intros; rewrite ?snoc_loaded, ?snoc_dead, ?snoc_shared, ?snoc_source, ?snoc_origin, ?snoc_value, ?orb_false_r in *; auto.
      + destruct (Nat.eqb_spec g0 g) as [->|N]; [rewrite Nat.eqb_refl, orb_true_r; reflexivity|]. destruct (Nat.eqb_spec g g0); [congruence|]. rewrite orb_false_r. apply (i_dead _ _ _ I).
      + destruct (Nat.eqb_spec g0 g) as [->|N]; [rewrite Nat.eqb_refl, orb_true_r; reflexivity|]. destruct (Nat.eqb_spec g g0); [congruence|]. rewrite orb_false_r. apply (i_null _ _ _ I); auto.
      + destruct (Nat.eqb_spec g0 g) as [->|N]; [congruence|]. apply orb_false_iff in H0 as [H0 _]. apply (i_ptr _ _ _ I); auto.
      + destruct (Nat.eqb_spec g g0) as [->|N]; [congruence|]. rewrite orb_false_r. apply (i_A _ _ _ I); auto.
      + destruct (Nat.eqb_spec g g0) as [->|N]; [congruence|]. rewrite orb_false_r. apply (i_AT _ _ _ I); auto.
      + destruct (Nat.eqb_spec g g0) as [->|N]; [congruence|]. rewrite orb_false_r. apply (i_act _ _ _ I); auto.
      + destruct (Nat.eqb_spec g g0) as [->|N]; [congruence|]. rewrite orb_false_r. apply (i_vp _ _ _ I); auto.
      + destruct (i_cov _ _ _ I l H) as (j & Hj & B). exists j. rewrite snoc_loaded, orb_false_r. auto.
      + apply (i_out _ _ _ I); auto.
      + apply (i_org _ _ _ I); auto.
      + apply (i_org2 _ _ _ I); auto.
      + apply (i_org3 _ _ _ I); auto.
      + apply (i_org4 _ _ _ I).
      + apply (i_sh _ _ _ I); auto.
  Qed.

  Lemma disciplined_snoc (p : list op) o : disciplined (p ++ [o]) -> disciplined p /\ allowed p o.
  Proof. intros H. split; [|apply (H p o []); reflexivity]. intros p' o' q E. apply (H p' o' (q ++ [o])). rewrite E, <- app_assoc. reflexivity. Qed.
  Lemma run_inv (h : list op) : disciplined h -> exists s base, run_ops init h = Ok s /\ Inv h s base.
  Proof.
    induction h as [|o p IH] using rev_ind; intros H; [exists init, (fun _ => 0%nat); split; [reflexivity|apply Inv_init]|].
    apply disciplined_snoc in H as [Hp Ho]. destruct (IH Hp) as (s & base & E & I). assert (exists s' base', exec s o = Ok s' /\ Inv (p ++ [o]) s' base') as (s' & base' & E' & I').
    { destruct o; [eapply exec_load; eauto|destruct (exec_share p s base g k I Ho) as (? & ? & ?)|destruct (exec_use p s base g f I Ho) as (? & ? & ?)|destruct (exec_edges p s base g I Ho) as (? & ? & ?)|destruct (exec_destroy p s base g I Ho) as (? & ? & ?)]; eauto. }
    exists s', base'. split; [|auto]. unfold run_ops in *. rewrite foldR_app, E. cbn [bind foldR]. rewrite E'. reflexivity.
  Qed.

  Theorem disciplined_safe (h : list op) : disciplined h ->
    exists s, run_ops init h = Ok s /\
      (forall g, is_loaded h g = true -> is_dead h g = false -> is_dead h (origin h g) = false -> exists x, value h (origin h g) = Some x /\ seen s g = Ok x) /\
      ((forall g, is_loaded h g = true -> is_dead h g = true) -> forall l, heap s l = CNone \/ heap s l = CFreed).
  Proof.
    intros H. destruct (run_inv h H) as (s & base & E & I). exists s. split; [exact E|]. split.
    - intros g Hl Hd Ho. pose proof (i_vp _ _ _ I _ (i_org3 _ _ _ I g Hl)) as V. rewrite Ho, (i_org4 _ _ _ I) in V. cbn [orb] in V. destruct V as (x & Vx & Vc). exists x. split; [auto|].
      unfold seen, live. rewrite (i_dead _ _ _ I), Hd. cbn [bind]. rewrite (i_ptr _ _ _ I g Hl Hd). cbn [o_vp deref]. rewrite Vc. reflexivity.
    - intros Hall l. destruct (Nat.lt_ge_cases l (next s)) as [L|L]; [|left; apply (i_out _ _ _ I); auto]. right. destruct (i_cov _ _ _ I l L) as (g & Hg & B). specialize (Hall g Hg).
      assert (l = base g \/ l = base g + 1 \/ l = base g + 2 \/ l = base g + 3)%nat as [->|[->|[->| ->]]] by lia.
      + rewrite (i_A _ _ _ I g Hg), Hall. reflexivity.
      + rewrite (i_AT _ _ _ I g Hg), Hall. reflexivity.
      + pose proof (i_vp _ _ _ I g Hg) as V. rewrite Hall in V. exact V.
      + rewrite (i_act _ _ _ I g Hg), Hall. reflexivity.
  Qed.
End SP.
