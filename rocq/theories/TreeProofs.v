(** Lemmas about orders of combination *)
From Verif Require Import BaseLemmas Reduce ReduceProofs Tree.

Lemma tree_ind2 {A} (Q : tree A -> Prop) : (forall a, Q (Leaf a)) -> (forall l, (forall t, In t l -> Q t) -> Q (Node l)) -> forall t, Q t.
Proof.
  intros HL HN. fix IH 1. intros [a|l]; [apply HL|]. apply HN. induction l as [|t l IHl]; intros x [].
  - subst x. apply IH.
  - apply IHl. exact H.
Qed.

Lemma flat_map_ext_in2 {A B} (f g : A -> list B) l : (forall a, In a l -> f a = g a) -> flat_map f l = flat_map g l.
Proof. induction l as [|a l IH]; intros H; [reflexivity|]. cbn [flat_map]. rewrite (H a) by (simpl; auto). f_equal. apply IH. intros; apply H; simpl; auto. Qed.

Lemma eval_ext {A U} (op : U -> U -> U) f g (t : tree A) : (forall a, In a (leaves t) -> f a = g a) -> eval op f t = eval op g t.
Proof.
  revert t. apply (tree_ind2 (fun t => (forall a, In a (leaves t) -> f a = g a) -> eval op f t = eval op g t)).
  - intros a H. apply H. simpl. auto.
  - intros l IH H. cbn [eval]. f_equal. apply flat_map_ext_in2. intros t Ht. rewrite (IH t Ht); auto. intros a Ha. apply H. cbn [leaves]. apply in_flat_map. eauto.
Qed.
Lemma eval_tmap {A B U} (op : U -> U -> U) (f : B -> option U) (h : A -> B) (t : tree A) : eval op f (tmap h t) = eval op (fun a => f (h a)) t.
Proof.
  revert t. apply (tree_ind2 (fun t => eval op f (tmap h t) = eval op (fun a => f (h a)) t)); [reflexivity|].
  intros l IH. cbn [eval tmap]. f_equal. rewrite flat_map_concat_map, map_map, <- flat_map_concat_map. apply flat_map_ext_in2. intros t Ht. rewrite IH; auto.
Qed.
Lemma leaves_tmap {A B} (h : A -> B) (t : tree A) : leaves (tmap h t) = map h (leaves t).
Proof.
  revert t. apply (tree_ind2 (fun t => leaves (tmap h t) = map h (leaves t))); [reflexivity|].
  intros l IH. cbn [leaves tmap]. induction l as [|t l IHl]; [reflexivity|]. cbn [map flat_map]. rewrite map_app, IH by (simpl; auto). f_equal. apply IHl. intros; apply IH; simpl; auto.
Qed.
(** a flat node *)
Lemma eval_leaves {A U} (op : U -> U -> U) f (l : list A) : eval op f (Node (map Leaf l)) = red op (flat_map (fun a => olist (f a)) l).
Proof. cbn [eval]. f_equal. rewrite flat_map_concat_map, map_map, <- flat_map_concat_map. reflexivity. Qed.
Lemma leaves_leaves {A} (l : list A) : leaves (Node (map Leaf l)) = l.
Proof. cbn [leaves]. rewrite flat_map_concat_map, map_map. induction l as [|a l IH]; [reflexivity|]. cbn. f_equal. exact IH. Qed.

(** every leaf is used once *)
Lemma eval_combined {A U} (op : U -> U -> U) (f : A -> option U) (t : tree A) : combined_of op (flat_map (fun a => olist (f a)) (leaves t)) (eval op f t).
Proof.
  revert t. apply (tree_ind2 (fun t => combined_of op (flat_map (fun a => olist (f a)) (leaves t)) (eval op f t))).
  - intros a. cbn [leaves flat_map eval]. rewrite app_nil_r. destruct (f a); cbn; [constructor|reflexivity].
  - intros l IH. cbn [leaves eval].
    replace (flat_map (fun a => olist (f a)) (flat_map leaves l)) with (concat (map (fun t => flat_map (fun a => olist (f a)) (leaves t)) l)).
    2:{ clear IH. induction l as [|t l IHl]; [reflexivity|]. cbn [map concat flat_map]. rewrite flat_map_app, IHl. reflexivity. }
    replace (flat_map (fun t => olist (eval op f t)) l) with (flat_map olist (map (eval op f) l)) by (rewrite flat_map_concat_map, map_map, <- flat_map_concat_map; reflexivity).
    apply combined_of_parts. induction l as [|t l IHl]; cbn [map]; constructor; [apply IH; simpl; auto|]. apply IHl. intros; apply IH; simpl; auto.
Qed.

(** comparing two evaluations *)
Lemma eval_rel {A U} (op : U -> U -> U) (f g : A -> option U) (Q : U -> U -> Prop) (t : tree A) :
  (forall a b a' b', Q a a' -> Q b b' -> Q (op a b) (op a' b')) ->
  (forall a, In a (leaves t) -> match f a, g a with Some x, Some y => Q x y | None, None => True | _, _ => False end) ->
  match eval op f t, eval op g t with Some x, Some y => Q x y | None, None => True | _, _ => False end.
Proof.
  intros Hop. revert t. apply (tree_ind2 (fun t => (forall a, In a (leaves t) -> match f a, g a with Some x, Some y => Q x y | None, None => True | _, _ => False end) ->
    match eval op f t, eval op g t with Some x, Some y => Q x y | None, None => True | _, _ => False end)).
  - intros a H. apply H. simpl. auto.
  - intros l IH H. cbn [eval].
    assert (Forall2 Q (flat_map (fun t => olist (eval op f t)) l) (flat_map (fun t => olist (eval op g t)) l)) as F.
    { cbn [leaves] in H. induction l as [|t l IHl]; [constructor|]. cbn [flat_map]. apply Forall2_app.
      - assert (forall a, In a (leaves t) -> In a (flat_map leaves (t :: l))) as Hs by (intros a Ha; cbn [flat_map]; apply in_app_iff; auto).
        pose proof (IH t (or_introl eq_refl) (fun a Ha => H a (Hs a Ha))) as Ht.
        destruct (eval op f t), (eval op g t); try contradiction; cbn [olist]; constructor; auto.
      - apply IHl; [intros; apply IH; simpl; auto|]. intros a Ha. apply H. cbn [flat_map]. apply in_app_iff. auto. }
    destruct F as [|x y l1 l2 Hxy F]; cbn [red]; [exact I|]. revert x y Hxy. induction F as [|x' y' l1 l2 Hx' F IHF]; intros x y Hxy; cbn [fold_left]; [exact Hxy|]. apply IHF, Hop; auto.
Qed.
