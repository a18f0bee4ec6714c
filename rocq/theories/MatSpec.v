(** Specification vocabulary for matrices: an edge list is the matrix; its entry list is what a
    tile must contain, and its products are what a multiplication must reduce. *)
From Coq Require Import Sorting.Sorted.
From Verif Require Import Base Bits Segment BitsProofs Reduce DCSC.

(** entries inside the rectangle rows (rs, rs+m] x columns (cs, cs+n], 1-based *)
Definition in_rect {E} (m n rs cs : Z) (e : edge E) : Prop := rs < e_src e <= rs + m /\ cs < e_dst e <= cs + n.

(** the values the entries of row [k] contribute, in list order; [f] gives the product of an
    entry, [None] if its column has no message *)
Definition row_products {E U} (f : edge E -> option U) (es : list (edge E)) (k : Z) : list U :=
  concat (map (fun e => if e_src e =? k then olist (f e) else []) es).

(** row ranges of the worker threads: [rp] lists [np + 1] boundaries *)
Definition thread_rows (rp : list Z) (p r : Z) : Prop :=
  exists a b, rd rp p = Ok a /\ rd rp (p + 1) = Ok b /\ a <= r < b.

(** the outcome of sorting with [compare_dcsc] by an unstable sort: any list that satisfies this *)
Definition sorts {E} (srt : list (tedge E) -> list (tedge E)) : Prop :=
  forall l, Permutation l (srt l) /\ StronglySorted (fun a b => compare_dcsc b a = false) (srt l).

(** membership words [w] and values [v] of a block with [n] positions represent the partial map
    [M] on positions 0..n-1: bit [k] is set iff [M k] is defined, and then the value is stored *)
Definition represents {T} (n : Z) (w : list Z) (v : list (option T)) (M : Z -> option T) : Prop :=
  zlen w = num_ints_of n /\ zlen v = n /\ (forall k, n <= k -> tb w k = false) /\
  forall k, 0 <= k < n -> bv_get w k = Ok (match M k with Some _ => true | None => false end) /\
    forall a, M k = Some a -> rd v k = Ok (Some a).

(** the outcome of an unstable sort by key (SpMat.h:41-46 [compare_tile_id]) *)
Definition sorts_by_key {A} (srt : list (Z * A) -> list (Z * A)) : Prop :=
  forall l, Permutation l (srt l) /\ StronglySorted (fun a b => fst a <= fst b) (srt l).
