(** IEEE-754 single and double precision for src/PageRank.cpp: the floats of Apps.v made concrete.
    The operations are those of Coq's SpecFloat (round to nearest, ties to even), with 24 bits of
    precision and exponents below 128, or 53 bits and exponents below 1024.
    Assumed of the compiler: float expressions are evaluated in float and double expressions in double,
    without reassociation or contraction.  No operation of the program looks at the payload of a NaN. *)
From Coq Require Import ZArith SpecFloat QArith.
From Verif Require Import Base Apps.
Local Open Scope Z_scope.

Definition signed (s : bool) (m : positive) : Z := if s then Zneg m else Zpos m.
(** an int converted to float or double; float converted to double and back *)
Definition of_int (prec emax d : Z) : spec_float := binary_normalize prec emax d 0 false.
Definition convert (prec emax : Z) (x : spec_float) : spec_float :=
  match x with S754_finite s m e => binary_normalize prec emax (signed s m) e s | _ => x end.
Definition to64 := convert 53 1024.
Definition to32 := convert 24 128.
(** the literals 0.3 and 1e-5, nearest doubles to 3/10 and 1/100000 *)
Definition lit_03 : spec_float := SFdiv 53 1024 (of_int 53 1024 3) (of_int 53 1024 10).
Definition lit_1em5 : spec_float := SFdiv 53 1024 (of_int 53 1024 1) (of_int 53 1024 100000).
(** src/PageRank.cpp lines 40 and 88: [pagerank = 0.3], [PageRank(float a=0.3)] *)
Definition alpha32 : spec_float := to32 lit_03.
(** - lines 102, 104: [0.0]; [vertexprop.pagerank/(float)vertexprop.degree];
    - line 95: [a += b];
    - line 109: [alpha + (1.0-alpha)*message_out], in double, stored to a float;
    - line 44: [fabs(p.pagerank-pagerank)>1e-5]. *)
Definition float32 : floats spec_float := mkFl alpha32 (S754_zero false)
  (fun r d => SFdiv 24 128 r (of_int 24 128 d))
  (SFadd 24 128)
  (fun u => to32 (SFadd 53 1024 (to64 alpha32) (SFmul 53 1024 (SFsub 53 1024 (of_int 53 1024 1) (to64 alpha32)) (to64 u))))
  (fun x y => SFltb lit_1em5 (to64 (SFabs (SFsub 24 128 x y)))).

(** What a float stands for. *)
Definition fval (x : spec_float) : Q := match x with S754_finite s m e => inject_Z (signed s m) * (2 # 1) ^ e | _ => 0 end.
Definition finite32 (x : spec_float) : Prop :=
  valid_binary 24 128 x = true /\ match x with S754_zero _ | S754_finite _ _ _ => True | _ => False end.
