(** Lists laid out one after another in a single array. *)
From Coq Require Import Sorting.Sorted.
From Verif Require Import BaseLemmas Segment SegmentProofs Bucket BucketProofs VecProofs2.

(** loop over a slice of an array, with the processed part as induction variable *)
Lemma for_slice {A St} (I : list A -> St -> Prop) arr a (l : list A) body (s : St) :
  (forall i, 0 <= i < zlen l -> rd arr (a + i) = rd l i) ->
  I [] s ->
  (forall pre x post s, l = pre ++ x :: post -> rd arr (a + zlen pre) = Ok x -> I pre s -> exists s', body (a + zlen pre) s = Ok s' /\ I (pre ++ [x]) s') ->
  exists s', forZ a (a + zlen l) body s = Ok s' /\ I l s'.
Proof.
  intros Hrd H0 Hs. pose proof (zlen_nonneg l).
  destruct (forZ_inv (fun i s => I (firstn (Z.to_nat (i - a)) l) s) a (a + zlen l) body s) as (s' & E & P); [lia| | |].
  - replace (a - a) with 0 by lia. simpl. auto.
  - intros i s0 Hi P. destruct (rd_ok l (i - a)) as [x Hx]; [lia|].
    pose proof Hx as Hx'. apply rd_nth in Hx' as [_ N]. 
    assert (zlen (firstn (Z.to_nat (i - a)) l) = i - a) as L by (unfold zlen in *; rewrite firstn_length; lia).
    destruct (nth_error_split l (Z.to_nat (i - a)) N) as (l1 & l2 & El & Len).
    assert (firstn (Z.to_nat (i - a)) l = l1) as F by (rewrite El, <- Len, firstn_app, Nat.sub_diag, firstn_all; simpl; apply app_nil_r).
    destruct (Hs (firstn (Z.to_nat (i - a)) l) x l2 s0) as (s1 & E1 & P1).
    + rewrite F. auto.
    + rewrite L. rewrite Hrd by lia. auto.
    + auto.
    + rewrite L in E1. replace (a + (i - a)) with i in E1 by lia. exists s1. split; auto.
      replace (firstn (Z.to_nat (i + 1 - a)) l) with (firstn (Z.to_nat (i - a)) l ++ [x]); auto.
      rewrite F. replace (Z.to_nat (i + 1 - a)) with (S (length l1)) by lia. rewrite El.
      rewrite firstn_app. replace (S (length l1) - length l1)%nat with 1%nat by lia. rewrite firstn_all2 by lia. auto.
  - exists s'. split; auto. replace (Z.to_nat (a + zlen l - a)) with (length l) in P by (unfold zlen; lia). rewrite firstn_all in P. auto.
Qed.

Definition offs {A B} (f : A -> list B) (l : list A) (k : Z) : Z := zsum (map (fun a => zlen (f a)) (firstn (Z.to_nat k) l)).
Lemma firstn_snoc {A} (l : list A) k a : rd l k = Ok a -> firstn (Z.to_nat (k + 1)) l = firstn (Z.to_nat k) l ++ [a].
Proof.
  intros H. pose proof (rd_bounds _ _ _ H). apply rd_nth in H as [_ N]. destruct (nth_error_split l (Z.to_nat k) N) as (l1 & l2 & -> & L).
  replace (Z.to_nat (k + 1)) with (S (length l1)) by lia. rewrite <- L.
  rewrite !firstn_app, Nat.sub_diag. replace (S (length l1) - length l1)%nat with 1%nat by lia. rewrite firstn_all, firstn_all2 by lia. simpl. rewrite app_nil_r. auto.
Qed.
Lemma offs_0 {A B} (f : A -> list B) l : offs f l 0 = 0. Proof. reflexivity. Qed.
Lemma offs_succ {A B} (f : A -> list B) l k a : rd l k = Ok a -> offs f l (k + 1) = offs f l k + zlen (f a).
Proof. intros H. unfold offs. rewrite (firstn_snoc l k a H), map_app, zsum_app. simpl. lia. Qed.
Lemma zsum_nonneg l : (forall x, In x l -> 0 <= x) -> 0 <= zsum l.
Proof. induction l as [|a l IH]; intros H; simpl; [lia|]. pose proof (H a (or_introl eq_refl)). pose proof (IH (fun x Hx => H x (or_intror Hx))). lia. Qed.
Lemma offs_nonneg {A B} (f : A -> list B) l k : 0 <= offs f l k.
Proof. apply zsum_nonneg. intros x Hx. apply in_map_iff in Hx as (a & <- & _). apply zlen_nonneg. Qed.
Lemma offs_all {A B} (f : A -> list B) l : offs f l (zlen l) = zlen (flat_map f l).
Proof. unfold offs. replace (Z.to_nat (zlen l)) with (length l) by (unfold zlen; lia). rewrite firstn_all, zlen_flat_map. auto. Qed.

Lemma rd_skip {A} (l1 l2 : list A) i : 0 <= i -> rd (l1 ++ l2) (zlen l1 + i) = rd l2 i.
Proof. intros H. rewrite rd_app2 by lia. f_equal. lia. Qed.
Lemma rd_flat {A B} (f : A -> list B) l p a i : rd l p = Ok a -> 0 <= i < zlen (f a) -> rd (flat_map f l) (offs f l p + i) = rd (f a) i.
Proof.
  intros H Hi. pose proof (rd_bounds _ _ _ H). apply rd_nth in H as [_ N]. destruct (nth_error_split l (Z.to_nat p) N) as (l1 & l2 & -> & L).
  unfold offs. rewrite <- L, firstn_app, Nat.sub_diag, firstn_all. simpl. rewrite app_nil_r. rewrite <- zlen_flat_map.
  rewrite flat_map_app. simpl. rewrite rd_skip by lia. apply rd_app1. lia.
Qed.
Lemma flat_room {A B} (f : A -> list B) l p a : rd l p = Ok a -> offs f l p + zlen (f a) <= zlen (flat_map f l).
Proof.
  intros H. pose proof (rd_bounds _ _ _ H). apply rd_nth in H as [_ N]. destruct (nth_error_split l (Z.to_nat p) N) as (l1 & l2 & -> & L).
  unfold offs. rewrite <- L, firstn_app, Nat.sub_diag, firstn_all. simpl. rewrite app_nil_r. rewrite <- zlen_flat_map.
  rewrite flat_map_app. simpl. rewrite !zlen_app. pose proof (zlen_nonneg (flat_map f l2)). lia.
Qed.
Lemma flat_map_firstn_snoc {A B} (f : A -> list B) l k a : rd l k = Ok a -> flat_map f (firstn (Z.to_nat (k + 1)) l) = flat_map f (firstn (Z.to_nat k) l) ++ f a.
Proof. intros H. rewrite (firstn_snoc l k a H), flat_map_app. simpl. rewrite app_nil_r. auto. Qed.
Lemma zlen_flat_firstn {A B} (f : A -> list B) l k : zlen (flat_map f (firstn (Z.to_nat k) l)) = offs f l k.
Proof. unfold offs. apply zlen_flat_map. Qed.

(** prefix sums as offsets *)
Lemma rd_psums l i : 0 <= i <= zlen l -> rd (prefix_sums 0 l) i = Ok (zsum (firstn (Z.to_nat i) l)).
Proof. intros H. rewrite rd_prefix_sums by lia. f_equal. Qed.
Lemma firstn_map {A B} (f : A -> B) l : forall n, firstn n (map f l) = map f (firstn n l).
Proof. induction l as [|a l IH]; intros [|n]; simpl; auto. rewrite IH; auto. Qed.

Fixpoint pinit (a : Z) (l : list Z) : list Z := match l with [] => [] | x :: t => a :: pinit (a + x) t end.
Lemma prefix_sums_pinit l : forall a, prefix_sums a l = pinit a l ++ [a + zsum l].
Proof. induction l as [|x l IH]; intros a; simpl; [f_equal; lia|]. rewrite IH. do 3 f_equal. lia. Qed.
Lemma pinit_snoc l x : forall a, pinit a (l ++ [x]) = pinit a l ++ [a + zsum l].
Proof. induction l as [|y l IH]; intros a; simpl; [do 2 f_equal; lia|]. rewrite IH. do 3 f_equal. lia. Qed.
Lemma zlen_pinit l : forall a, zlen (pinit a l) = zlen l.
Proof. induction l as [|x l IH]; intros a; simpl; auto. rewrite !zlen_cons, IH. auto. Qed.

(** an array being filled from the left *)
Definition filled {A} (total : Z) (arr : list (option A)) (pre : list A) : Prop :=
  zlen pre <= total /\ arr = map Some pre ++ repeat None (Z.to_nat (total - zlen pre)).
Lemma filled_start {A} total : 0 <= total -> filled (A:=A) total (repeat None (Z.to_nat total)) [].
Proof. intros H. split; auto. znil. replace (total - 0) with total by lia. auto. Qed.
Lemma filled_wr {A} total arr (pre : list A) i x : filled total arr pre -> i = zlen pre -> zlen pre < total ->
  exists arr', wr arr i (Some x) = Ok arr' /\ filled total arr' (pre ++ [x]).
Proof.
  intros [Hl ->] -> Hlt. pose proof (zlen_nonneg pre).
  replace (Z.to_nat (total - zlen pre)) with (S (Z.to_nat (total - (zlen pre + 1)))) by lia.
  rewrite wr_ok. 2:{ rewrite zlen_app, zlen_map, zlen_repeat. lia. }
  eexists. split; [reflexivity|]. split; [rewrite zlen_app, zlen_cons; znil; lia|].
  replace (Z.to_nat (zlen pre)) with (length (map (@Some A) pre)) by (rewrite map_length; unfold zlen; lia).
  rewrite upd_repeat_none, map_app. simpl. do 3 f_equal. rewrite zlen_app, zlen_cons. znil. lia.
Qed.
Lemma filled_end {A} total arr (pre : list A) : filled total arr pre -> zlen pre = total -> mapR need arr = Ok pre.
Proof. intros [_ ->] H. replace (Z.to_nat (total - zlen pre)) with 0%nat by lia. simpl. rewrite app_nil_r. apply mapR_need. Qed.

(** a list sorted by key is the concatenation of its key classes *)
Lemma filter_all_false {A} (p : A -> bool) l : (forall a, In a l -> p a = false) -> filter p l = [].
Proof. induction l as [|a l IH]; intros H; simpl; auto. rewrite H by (simpl; auto). apply IH. intros; apply H; simpl; auto. Qed.
Lemma sorted_classes {A} (key : A -> Z) l lo hi : StronglySorted (fun a b => key a <= key b) l -> (forall a, In a l -> lo <= key a < hi) ->
  l = flat_map (fun k => filter (fun a => key a =? k) l) (zrange lo hi).
Proof.
  induction l as [|a l IH]; intros S B.
  - symmetry. apply flat_map_nil.
  - inversion S as [|? ? S' F]; subst. rewrite Forall_forall in F. assert (lo <= key a < hi) as Ba by (apply B; simpl; auto).
    specialize (IH S' (fun x Hx => B x (or_intror Hx))).
    rewrite (zrange_app lo (key a) hi), (zrange_cons (key a) hi) in * by lia. rewrite flat_map_app in *.
    assert (forall l', (forall x, In x l' -> key a <= key x) -> flat_map (fun k => filter (fun a => key a =? k) l') (zrange lo (key a)) = []) as Z0.
    { intros l' Hl'. transitivity (flat_map (fun _ : Z => @nil A) (zrange lo (key a))); [|apply flat_map_nil]. apply flat_map_ext_in. intros k Hk. apply in_zrange in Hk.
      apply filter_all_false. intros x Hx. apply Hl' in Hx. destruct (Z.eqb_spec (key x) k); auto. lia. }
    rewrite Z0 in IH by auto. rewrite Z0 by (intros x [->|Hx]; [lia|auto]). simpl in *. rewrite Z.eqb_refl. simpl. f_equal. rewrite IH at 1. f_equal.
    apply flat_map_ext_in. intros k Hk. apply in_zrange in Hk. destruct (Z.eqb_spec (key a) k); [lia|auto].
Qed.
