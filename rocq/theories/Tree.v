(** Orders of combination: which values are combined with which, and in what sequence *)
From Verif Require Import Base Reduce.

(** a value, or several orders whose results are combined from left to right *)
Inductive tree (A : Type) : Type := Leaf (a : A) | Node (l : list (tree A)).
Arguments Leaf {A}. Arguments Node {A}.

Fixpoint leaves {A} (t : tree A) : list A :=
  match t with Leaf a => [a] | Node l => flat_map leaves l end.
(** the result for the values [f a]; a leaf without a value is passed over *)
Fixpoint eval {A U} (op : U -> U -> U) (f : A -> option U) (t : tree A) : option U :=
  match t with Leaf a => f a | Node l => red op (flat_map (fun t => olist (eval op f t)) l) end.
Fixpoint tmap {A B} (h : A -> B) (t : tree A) : tree B :=
  match t with Leaf a => Leaf (h a) | Node l => Node (map (tmap h) l) end.
