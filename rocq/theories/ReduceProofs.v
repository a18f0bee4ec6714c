From Verif Require Import BaseLemmas Reduce.

Section RP.
  Context {U : Type}.
  Variable op : U -> U -> U.

  (** [red] as a fold of optional values *)
  Definition oop (x y : option U) : option U :=
    match x, y with None, _ => y | _, None => x | Some a, Some b => Some (op a b) end.
  Lemma red_snoc l a : red op (l ++ [a]) = oop (red op l) (Some a).
  Proof. destruct l; simpl; auto. rewrite fold_left_app. reflexivity. Qed.
  Lemma fold_contribs (Ms : list (Z -> option U)) id l :
    fold_left (fun acc (N : Z -> option U) => oop acc (N id)) Ms (red op l) = red op (l ++ contribs Ms id).
  Proof.
    revert l. induction Ms as [|M Ms IH]; intros l; unfold contribs in *; simpl; [rewrite app_nil_r; auto|].
    rewrite app_assoc. rewrite <- IH. f_equal. destruct (M id); simpl; [rewrite red_snoc; auto|]. rewrite app_nil_r. destruct (red op l); auto.
  Qed.

  Hypothesis C : commutative op.
  Hypothesis A : associative op.
  Lemma fold_op_out l : forall a b, fold_left op l (op a b) = op a (fold_left op l b).
  Proof. induction l as [|x l IH]; intros a b; simpl; auto. rewrite A. apply IH. Qed.
  Lemma red_app l l' : red op (l ++ l') = oop (red op l) (red op l').
  Proof.
    destruct l as [|a l]; simpl; [destruct (red op l'); auto|]. destruct l' as [|b l']; simpl; [rewrite app_nil_r; auto|].
    rewrite fold_left_app. simpl. rewrite fold_op_out. reflexivity.
  Qed.
  Lemma red_perm l l' : Permutation l l' -> red op l = red op l'.
  Proof.
    induction 1 as [|x l l' P IH|x y l|l1 l2 l3 P1 IH1 P2 IH2]; auto.
    - change (x :: l) with ([x] ++ l). change (x :: l') with ([x] ++ l'). rewrite !red_app. congruence.
    - simpl. rewrite (C y x). reflexivity.
    - congruence.
  Qed.
End RP.

Section Comb.
  Context {U : Type}.
  Variable op : U -> U -> U.
  Lemma combination_perm l l' u : combination op l u -> Permutation l l' -> combination op l' u.
  Proof.
    intros H P. destruct H as [a|l l1 l2 a b H1 H2 Q].
    - apply Permutation_length_1_inv in P. subst. constructor.
    - econstructor; eauto. rewrite <- P. auto.
  Qed.
  Lemma combination_nil u : ~ combination op [] u.
  Proof.
    intros H. remember [] as l eqn:El. revert El. induction H as [a|l l1 l2 a b H1 IH1 H2 IH2 P]; intros El; [discriminate|]. subst l.
    apply Permutation_nil, app_eq_nil in P as [-> ->]. auto.
  Qed.
  Lemma combined_of_perm l l' o : combined_of op l o -> Permutation l l' -> combined_of op l' o.
  Proof. destruct o as [u|]; cbn [combined_of]; [apply combination_perm|]. intros -> P. apply Permutation_nil; auto. Qed.
  Lemma combined_of_nil o : combined_of op [] o -> o = None.
  Proof. destruct o as [u|]; cbn [combined_of]; auto. intros H. destruct (combination_nil _ H). Qed.
  Lemma combination_fold r : forall l a, combination op l a -> combination op (l ++ r) (fold_left op r a).
  Proof.
    induction r as [|b r IH]; intros l a H; cbn [fold_left]; [rewrite app_nil_r; auto|].
    change (b :: r) with ([b] ++ r). rewrite app_assoc. apply IH. econstructor; [exact H|constructor|reflexivity].
  Qed.
  Lemma combined_of_red l : combined_of op l (red op l).
  Proof. destruct l as [|a l]; cbn [red combined_of]; auto. apply (combination_fold l [a] a). constructor. Qed.
  (** reducing partial results *)
  Lemma combination_parts ls os : Forall2 (combined_of op) ls os -> forall l a, combination op l a -> combination op (l ++ concat ls) (fold_left op (flat_map olist os) a).
  Proof.
    induction 1 as [|l1 o ls os H F IH]; intros l a Ha; cbn [concat flat_map]; [rewrite app_nil_r; auto|].
    rewrite app_assoc. destruct o as [b|]; cbn [combined_of olist app fold_left] in *.
    - apply IH. econstructor; eauto.
    - subst l1. rewrite app_nil_r. apply IH. auto.
  Qed.
  Lemma combined_of_parts ls os : Forall2 (combined_of op) ls os -> combined_of op (concat ls) (red op (flat_map olist os)).
  Proof.
    induction 1 as [|l1 o ls os H F IH]; cbn [concat flat_map]; [reflexivity|].
    destruct o as [b|]; cbn [combined_of olist app] in *; [|subst l1; exact IH].
    cbn [red combined_of]. apply combination_parts; auto.
  Qed.
  Lemma combined_of_join l l' o o' : combined_of op l o -> combined_of op (olist o ++ l') o' -> combined_of op (l ++ l') o'.
  Proof.
    destruct o as [a|]; cbn [olist combined_of app]; [|intros ->; auto]. intros Ha. destruct o' as [b|]; cbn [combined_of]; [|discriminate]. intros Hb.
    remember (a :: l') as l2 eqn:El. assert (Permutation l2 (a :: l')) as P by (subst; auto). clear El. revert l' P.
    induction Hb as [c|l0 l1 l2 c d H1 IH1 H2 IH2 Q]; intros l' P.
    - assert (c = a /\ l' = []) as [-> ->]. { apply Permutation_length_1_inv in P. injection P as -> ->. auto. } rewrite app_nil_r. auto.
    - rewrite Q in P. assert (In a (l1 ++ l2)) as Hin by (rewrite P; simpl; auto). apply in_app_or in Hin as [Hin|Hin]; apply in_split in Hin as (x1 & x2 & ->).
      + assert (Permutation (x1 ++ a :: x2) (a :: x1 ++ x2)) as P1 by (symmetry; apply Permutation_middle).
        assert (Permutation ((x1 ++ x2) ++ l2) l') as P2. { rewrite P1 in P. cbn [app] in P. apply Permutation_cons_inv in P. auto. }
        econstructor; [apply (IH1 _ P1)|exact H2|]. rewrite <- P2, !app_assoc. auto.
      + assert (Permutation (x1 ++ a :: x2) (a :: x1 ++ x2)) as P1 by (symmetry; apply Permutation_middle).
        assert (Permutation (l1 ++ x1 ++ x2) l') as P2. { rewrite P1 in P. rewrite <- Permutation_middle in P. apply Permutation_cons_inv in P. auto. }
        econstructor; [exact H1|apply (IH2 _ P1)|]. rewrite <- P2. rewrite !app_assoc. apply Permutation_app_tail. apply Permutation_app_tail. apply Permutation_app_comm.
  Qed.
  (** with a commutative and associative operation there is only one result *)
  Lemma combined_of_unique l o : commutative op -> associative op -> combined_of op l o -> o = red op l.
  Proof.
    intros C A. destruct o as [u|]; cbn [combined_of]; [|intros ->; reflexivity]. intros H.
    induction H as [a|l l1 l2 a b H1 IH1 H2 IH2 P]; [reflexivity|]. rewrite (red_perm op C A _ _ P), red_app by auto. rewrite <- IH1, <- IH2. reflexivity.
  Qed.
  (** an operation that returns one of its operands returns one of the values *)
  Lemma combination_in l u : (forall a b, op a b = a \/ op a b = b) -> combination op l u -> In u l.
  Proof.
    intros Ho. induction 1 as [a|l l1 l2 a b H1 IH1 H2 IH2 P]; [simpl; auto|]. apply (Permutation_in _ (Permutation_sym P)), in_or_app. destruct (Ho a b) as [-> | ->]; auto.
  Qed.
End Comb.
