(** include/GMDP/utils/bitvector.h: membership bits packed 32 to a word.  Words are modelled as
    the nonnegative integer with the same low 32 bits. *)
From Verif Require Import Base.

(** bitvector.h:60-66 [get_bitvector] *)
Definition bv_get (ws : list Z) (idx : Z) : R bool :=
  do w <- rd ws (Z.shiftr idx 5) ;; Ok (Z.testbit w (Z.land idx 31)).

(** bitvector.h:37-46 [set_bitvector] *)
Definition bv_set (ws : list Z) (idx : Z) : R (list Z) :=
  do w <- rd ws (Z.shiftr idx 5) ;;
  let b := Z.land idx 31 in
  if Z.land w (Z.shiftl 1 b) =? 0 then wr ws (Z.shiftr idx 5) (Z.lor w (Z.shiftl 1 b)) else Ok ws.

(** bitvector.h:48-57 [clear_bitvector] *)
Definition bv_clear (ws : list Z) (idx : Z) : R (list Z) :=
  do w <- rd ws (Z.shiftr idx 5) ;;
  let b := Z.land idx 31 in
  if Z.land w (Z.shiftl 1 b) =? 0 then Ok ws else wr ws (Z.shiftr idx 5) (Z.lxor w (Z.shiftl 1 b)).

(** [_popcnt32] *)
Definition popcnt32 (w : Z) : Z := zlen (filter (Z.testbit w) (zrange 0 32)).

(** DenseSegment.h:219-228 [buffer::compute_nnz(start, finish)]; the OpenMP sum reduction is a
    sum of integers, done here in index order. *)
Definition bv_count (ws : list Z) (start fin : Z) : R Z :=
  forZ start fin (fun ii len => do w <- rd ws ii ;; Ok (len + popcnt32 w)) 0.

(** DenseSegment.h:476-479: number of words for a capacity *)
Definition num_ints_of (capacity : Z) : Z := Z.quot (capacity + 32 - 1) 32.
