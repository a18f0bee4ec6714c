(** Specification vocabulary for multiplying one tile with one segment (C66). *)
From Verif Require Import Base Segment Reduce DCSC MatSpec Conc ParSeg.

Section TileSpec.
  Context {E U : Type}.
  (** [mult] turns the output segment (membership words and values) [(w, v)], which represents the
      partial map [M], into [(w', v')]: position [k] then holds the value it had, followed by the
      products [G] of the entries of row [k + 1 + rs], added up from left to right in some order of
      the entries.  With an addition that does not care for order, the order is that of [es]. *)
  Definition multiplies (add : U -> U -> U) (G : edge E -> option U) (es : list (edge E)) (m rs : Z) (M : Z -> option U)
      (mult : list Z * list (option U) -> R (list Z * list (option U))) (w : list Z) (v : list (option U)) (w' : list Z) (v' : list (option U)) : Prop :=
    mult (w, v) = Ok (w', v') /\
    (exists out, Permutation es out /\ represents m w' v' (fun k => red add (olist (M k) ++ row_products G out (k + 1 + rs)))) /\
    (commutative add -> associative add -> represents m w' v' (fun k => red add (olist (M k) ++ row_products G es (k + 1 + rs)))).
  (** Whatever the interleaving of the threads of [pool] on a shared segment [(w, v)], one access to one
      location at a time: no thread fails or accesses something that does not exist, and when all
      are done, the segment is [(w', v')]. *)
  Definition every_schedule (pool : list (thread sloc (scell (T := U)))) (w : list Z) (v : list (option U)) (w' : list Z) (v' : list (option U)) : Prop :=
    forall ts' mem', psteps sloc_eqb (pool, smem (w, v)) (ts', mem') -> ~ bad (ts', mem') /\ (finished ts' -> forall l, mem' l = smem (w', v') l).
End TileSpec.
