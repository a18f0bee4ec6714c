(** What is asked of floating point arithmetic in src/PageRank.cpp, and how accurate PageRank then is.
    [val x]: the rational number the float [x] stands for, if [x] is finite ([fin x]). *)
From Coq Require Import QArith Qabs Qpower.
From Verif Require Import Base DCSC Apps AppSpec RankSpec FlowSpec.
Local Open Scope Q_scope.

(** [a] and [b] differ by at most [j] roundings, each of which changes a number by a factor of at most [p] *)
Definition within (p : Q) (j : Z) (a b : Q) : Prop := b <= p ^ j * a /\ a <= p ^ j * b.

(** - the start value is finite and stands for [alpha];
    - a rank divided by a degree: two roundings, of the degree and of the quotient;
    - a sum: one rounding;
    - alpha + (1-alpha)*x: two roundings;
    - ranks that are not far from each other differ by at most [tol], ranks that are differ by more than [least].
    Numbers up to [top] do not overflow. *)
Record rounds {F} (fl : floats F) (val : F -> Q) (fin : F -> Prop) (alpha p top tol least : Q) : Prop := mkRounds {
  r_start : fin (fl_start fl) /\ val (fl_start fl) == alpha;
  r_share : forall r d, fin r -> alpha / 2 <= val r <= top -> (1 <= d < 2 ^ 31)%Z ->
    fin (fl_share fl r d) /\ within p 2 (val (fl_share fl r d)) (val r / inject_Z d);
  r_add : forall a b, fin a -> fin b -> 0 <= val a -> 0 <= val b -> val a + val b <= top ->
    fin (fl_add fl a b) /\ within p 1 (val (fl_add fl a b)) (val a + val b);
  r_mix : forall x, fin x -> 0 <= val x <= top ->
    fin (fl_mix fl x) /\ within p 2 (val (fl_mix fl x)) (alpha + (1 - alpha) * val x);
  r_near : forall x y, fin x -> fin y -> 0 <= val x <= top -> 0 <= val y <= top -> fl_far fl x y = false -> Qabs (val x - val y) <= tol;
  r_far : forall x y, fin x -> fin y -> 0 <= val x <= top -> 0 <= val y <= top -> fl_far fl x y = true -> least < Qabs (val x - val y) }.

(** the exact outcome of a step of PageRank from the ranks [x] *)
Definition exact_step {E} (es : list (edge E)) (alpha : Q) (x : Z -> Q) (v : Z) : Q := alpha + (1 - alpha) * inflow es x v.
