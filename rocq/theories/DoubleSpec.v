(** What is asked of floating point arithmetic in src/IncrementalPageRank.cpp.
    [val x]: the rational number the double [x] stands for, if [x] is finite ([fin x]).
    [lit] is the value of the literal 1e-8. *)
From Coq Require Import QArith Qabs Qpower.
From Verif Require Import Base IncRank FloatSpec.
Local Open Scope Q_scope.

(** - the start value and 0.0;
    - a change divided by a degree: two roundings, of the degree and of the quotient;
    - a sum: one rounding; a sum is nowhere below its left part, and exceeds it by at most twice the right part;
    - (1-alpha)*x: two roundings, if x is not extremely small;
    - the test for large changes compares with [lit]; ranks that are not far from each other differ by at most
      [most], ranks that are differ by more than [least].
    Numbers up to [top] do not overflow. *)
Record rounds_db {F} (db : doubles F) (val : F -> Q) (fin : F -> Prop) (alpha start p lit least most top : Q) : Prop := mkRoundsDb {
  d_start : fin (db_start db) /\ val (db_start db) == start;
  d_zero : fin (db_zero db) /\ val (db_zero db) == 0;
  d_share : forall x d, fin x -> lit < val x <= top -> (1 <= d < 2 ^ 31)%Z ->
    fin (db_share db x d) /\ within p 2 (val (db_share db x d)) (val x / inject_Z d);
  d_add : forall a b, fin a -> fin b -> 0 <= val a -> 0 <= val b -> val a + val b <= top ->
    fin (db_add db a b) /\ within p 1 (val (db_add db a b)) (val a + val b);
  d_grow : forall a b, fin a -> fin b -> 0 <= val a -> 0 <= val b -> val a + val b <= top ->
    val a <= val (db_add db a b) <= val a + 2 * val b;
  d_damp : forall x, fin x -> lit / inject_Z (2 ^ 33) <= val x <= top ->
    fin (db_damp db x) /\ within p 2 (val (db_damp db x)) ((1 - alpha) * val x);
  d_big : forall x, fin x -> 0 <= val x -> (db_big db x = true <-> lit < val x);
  d_near : forall x y, fin x -> fin y -> 0 <= val x <= top -> 0 <= val y <= top -> db_far db x y = false -> Qabs (val x - val y) <= most;
  d_far : forall x y, fin x -> fin y -> 0 <= val x <= top -> 0 <= val y <= top -> db_far db x y = true -> least < Qabs (val x - val y) }.
