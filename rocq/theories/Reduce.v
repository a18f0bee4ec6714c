(** Specification of keyed reduction: combine a list of values with a binary operation. *)
From Verif Require Import Base.

Section Red.
  Context {U : Type}.
  Variable op : U -> U -> U.
  Definition red (l : list U) : option U :=
    match l with [] => None | a :: r => Some (fold_left op r a) end.
  Definition commutative : Prop := forall a b, op a b = op b a.
  Definition associative : Prop := forall a b c, op (op a b) c = op a (op b c).
  Definition olist (o : option U) : list U := match o with Some a => [a] | None => [] end.
  (** the values a list of partial maps have at [id], in list order *)
  Definition contribs (Ms : list (Z -> option U)) (id : Z) : list U := concat (map (fun M => olist (M id)) Ms).
End Red.

(** Reduction with an operation that need not be commutative or associative: [u] can be obtained
    from the values of [l] by combining them two at a time, in some order and grouping, each value
    being used exactly once. *)
Inductive combination {U} (op : U -> U -> U) : list U -> U -> Prop :=
| comb_one a : combination op [a] a
| comb_two l l1 l2 a b : combination op l1 a -> combination op l2 b -> Permutation l (l1 ++ l2) -> combination op l (op a b).
(** [None] if there is nothing to combine *)
Definition combined_of {U} (op : U -> U -> U) (l : list U) (o : option U) : Prop :=
  match o with Some u => combination op l u | None => l = [] end.
