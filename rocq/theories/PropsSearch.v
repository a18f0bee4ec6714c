(** Properties C49, C50, C51: array searches. *)
From Coq Require Import Sorting.Sorted.
From Verif Require Import Base Search SearchProofs.

(** C49.  On a sorted array the whole-array border searches (called with [end] = len, as the
    library does, or len-1) terminate in bounds and return the first / last index holding the value, or -1 when it does not occur. *)
Theorem C49_left_border v val fin : Sorted Z.le v -> zlen v - 1 <= fin <= zlen v ->
  exists r, left_border_to v val fin = Ok r /\
    ((r = -1 /\ forall j, rd v j <> Ok val) \/
     (rd v r = Ok val /\ forall j, j < r -> rd v j <> Ok val)).
Proof. exact (fun H => left_border_to_spec v (Sorted_isorted v H) val fin). Qed.
Print Assumptions C49_left_border.

Theorem C49_right_border v val fin : Sorted Z.le v -> zlen v - 1 <= fin <= zlen v ->
  exists r, right_border_to v val fin = Ok r /\
    ((r = -1 /\ forall j, rd v j <> Ok val) \/
     (rd v r = Ok val /\ forall j, r < j -> rd v j <> Ok val)).
Proof. exact (fun H => right_border_to_spec v (Sorted_isorted v H) val fin). Qed.
Print Assumptions C49_right_border.

Example C49_example : Sorted Z.le [1; 3; 3; 3; 7] /\ left_border_all [1; 3; 3; 3; 7] 3 = Ok 1 /\
  right_border_all [1; 3; 3; 3; 7] 3 = Ok 3 /\ left_border_all [1; 3; 3; 3; 7] 4 = Ok (-1).
Proof. repeat split; try reflexivity. repeat constructor; lia. Qed.

(** C50.  [g] is the memory word just past the array.  On a sorted array the answer is the
    first position holding an element >= item (the length if none) whenever g >= item or that
    position is not the last one; otherwise it is that position or the length. *)
Theorem C50_l_binary_search v g item : Sorted Z.le v ->
  exists c r, 0 <= c <= zlen v /\
    (forall i a, 0 <= i < c -> rd v i = Ok a -> a < item) /\
    (forall i a, c <= i < zlen v -> rd v i = Ok a -> item <= a) /\
    l_binary_search 0 (zlen v) (v ++ [g]) item = Ok r /\
    (item <= g \/ c <> zlen v - 1 -> r = c) /\ (r = c \/ r = zlen v).
Proof. exact (l_binary_search_total v g item). Qed.
Print Assumptions C50_l_binary_search.

(** With nothing readable past the array the search either answers correctly or reads out of
    bounds. *)
Theorem C50_l_binary_search_exact v item : Sorted Z.le v ->
  exists c, 0 <= c <= zlen v /\
    (forall i a, 0 <= i < c -> rd v i = Ok a -> a < item) /\
    (forall i a, c <= i < zlen v -> rd v i = Ok a -> item <= a) /\
    (l_binary_search 0 (zlen v) v item = Ok c \/ l_binary_search 0 (zlen v) v item = Err OOB).
Proof. exact (l_binary_search_exact_total v item). Qed.
Print Assumptions C50_l_binary_search_exact.

(** Both deviations occur: an out-of-bounds read, and a wrong answer decided by that word. *)
Theorem C50_in_bounds_and_correct_refuted :
  exists v item, Sorted Z.le v /\ l_binary_search 0 (zlen v) v item = Err OOB /\
    l_binary_search 0 (zlen v) (v ++ [item]) item = Ok 3 /\
    l_binary_search 0 (zlen v) (v ++ [item - 1]) item = Ok 4 /\ rd v 3 = Ok item.
Proof. exact l_binary_search_bad. Qed.
Print Assumptions C50_in_bounds_and_correct_refuted.

(** C51 *)
Theorem C51_l_linear_search v item : Sorted Z.le v -> 1 <= zlen v ->
  exists c, l_linear_search 0 (zlen v) v item = Ok c /\ 0 <= c <= zlen v /\
    (forall i a, 0 <= i < c -> rd v i = Ok a -> a < item) /\
    (forall i a, c <= i < zlen v -> rd v i = Ok a -> item <= a).
Proof. exact (l_linear_search_total v item). Qed.
Print Assumptions C51_l_linear_search.

Theorem C51_empty_oob item : l_linear_search 0 0 [] item = Err OOB.
Proof. exact (l_linear_search_empty item). Qed.
Print Assumptions C51_empty_oob.

Example C51_example : l_linear_search 0 4 [1; 3; 3; 9] 4 = Ok 3.
Proof. reflexivity. Qed.
