(** IEEE-754 double precision for src/IncrementalPageRank.cpp: the doubles of IncRank.v made concrete, with
    the operations of Coq's SpecFloat, as in Float32.v.  Assumed of the compiler: no reassociation, no
    contraction, no excess precision. *)
From Coq Require Import ZArith SpecFloat QArith.
From Verif Require Import Base IncRank Float32.
Local Open Scope Z_scope.

(** the literal 1e-8, the nearest double to 1/100000000 *)
Definition lit_1em8 : spec_float := SFdiv 53 1024 (of_int 53 1024 1) (of_int 53 1024 100000000).
(** - lines 40-41 and 87: [delta = 0.3], [pagerank = 0.3], [DeltaPageRank(double a=0.3)];
    - lines 103, 105: [0.0]; [vertexprop.delta/(double)vertexprop.degree];
    - lines 96, 113, 115: [a += b];
    - line 113: [(1.0-alpha)*message_out];
    - lines 112, 114: [fabs(vertexprop.delta) > 1e-8];
    - line 45: [fabs(p.pagerank-this->pagerank)>1e-8]. *)
Definition float64 : doubles spec_float := mkDb lit_03 (S754_zero false)
  (fun x d => SFdiv 53 1024 x (of_int 53 1024 d))
  (SFadd 53 1024)
  (SFmul 53 1024 (SFsub 53 1024 (of_int 53 1024 1) lit_03))
  (fun x => SFltb lit_1em8 (SFabs x))
  (fun x y => SFltb lit_1em8 (SFabs (SFsub 53 1024 x y))).
Definition finite64 (x : spec_float) : Prop :=
  valid_binary 53 1024 x = true /\ match x with S754_zero _ | S754_finite _ _ _ => True | _ => False end.
