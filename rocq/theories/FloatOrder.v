(** PageRank with the additions in a given order, and what more is asked of an arithmetic for
    PageRank to stop. *)
From Coq Require Import QArith.
From Verif Require Import Base DCSC Apps AppSpec Tree.
Local Open Scope Q_scope.

(** [ord v]: in which order the contributions of the in-edges of [v] are added *)
Definition adds {E} (n : Z) (es : list (edge E)) (ord : Z -> tree (edge E)) : Prop :=
  forall v, (1 <= v <= n)%Z -> Permutation (leaves (ord v)) (filter (fun e => (e_dst e =? v)%Z) es).
(** the value of [v] after the values [R]: RankSpec.rank_step, with the additions in that order *)
Definition rank_in {F E} (fl : floats F) (es : list (edge E)) (ord : Z -> tree (edge E)) (R : Z -> F) (v : Z) : F :=
  match eval (fl_add fl) (fun e => Some (fl_share fl (R (e_src e)) (out_degree es (e_src e)))) (ord v) with
  | Some u => fl_mix fl u
  | None => R v
  end.

(** No operation reverses the order of two numbers, and alpha + (1-alpha)*x is not below alpha.
    Rounding to nearest is like this. *)
Record monotone {F} (fl : floats F) (val : F -> Q) (fin : F -> Prop) (alpha top : Q) : Prop := mkMonotone {
  m_share : forall r r' d, fin r -> fin r' -> alpha / 2 <= val r -> val r <= val r' -> val r' <= top -> (1 <= d < 2 ^ 31)%Z ->
    val (fl_share fl r d) <= val (fl_share fl r' d);
  m_add : forall a b a' b', fin a -> fin b -> fin a' -> fin b' -> 0 <= val a -> 0 <= val b -> val a <= val a' -> val b <= val b' -> val a' + val b' <= top ->
    val (fl_add fl a b) <= val (fl_add fl a' b');
  m_mix : forall x y, fin x -> fin y -> 0 <= val x -> val x <= val y -> val y <= top -> val (fl_mix fl x) <= val (fl_mix fl y);
  m_least : forall x, fin x -> 0 <= val x -> val x <= top -> alpha <= val (fl_mix fl x) }.
