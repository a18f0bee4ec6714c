(** What the edge utilities are supposed to do, in terms of plain lists of edges. *)
From Coq Require Import Sorting.Sorted Relation_Operators.
From Verif Require Import Base DCSC EdgeList.

Section ES.
  Context {E : Type}.
  (** the first [nnz] cells of the array contain exactly the edges [l], in this order *)
  Definition holds (el : elist E) (l : list (edge E)) : Prop :=
    el_nnz el = zlen l /\ exists rest, el_arr el = map Some l ++ rest.
  Definition same_dims (a b : elist E) : Prop := el_m a = el_m b /\ el_n a = el_n b.
  (** an edge list per rank *)
  Definition all_hold (els : list (elist E)) (ls : list (list (edge E))) : Prop := Forall2 holds els ls.

  Definition ends (e : edge E) : Z * Z := (e_src e, e_dst e).
  (** the sort returns a rearrangement in which the endpoints never decrease lexicographically *)
  Definition sorts_ends (srt : list (edge E) -> list (edge E)) : Prop :=
    forall l, Permutation (srt l) l /\
      StronglySorted (fun a b => e_src a < e_src b \/ e_src a = e_src b /\ e_dst a <= e_dst b) (srt l).

  (** there is a directed path of at least one edge *)
  Definition reach (l : list (edge E)) : Z -> Z -> Prop :=
    clos_trans Z (fun u v => exists e, In e l /\ e_src e = u /\ e_dst e = v).

  (** [p] renames 1..m to 1..m without collisions *)
  Definition permutes (m : Z) (p : Z -> Z) : Prop :=
    (forall v, 1 <= v <= m -> 1 <= p v <= m) /\ (forall v w, 1 <= v <= m -> 1 <= w <= m -> p v = p w -> v = w).
  Definition rename (p : Z -> Z) (e : edge E) : edge E := mkE (p (e_src e)) (p (e_dst e)) (e_val e).
End ES.
