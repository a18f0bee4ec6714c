(** include/GMDP/utils/binary_search.h *)
From Verif Require Import Base.

(** binary_search.h:50-96 [binary_search_left_border].  [fuel] bounds the recursion depth;
    running out is an error.  [T] is an integer type. *)
Fixpoint left_border (fuel : nat) (vec : list Z) (val start fin len : Z) : R Z :=
  match fuel with
  | O => Err NoFuel
  | S f =>
    if len =? 0 then Ok (-1) else
    if fin <? start then Ok (-1) else
    if len <=? start then Ok (-1) else
    if fin <? 0 then Ok (-1) else
    let mid := start + Z.quot (fin - start) 2 in
    do _ <- assertb (mid <? len) ;;
    do _ <- assertb (0 <=? mid) ;;
    do vm <- rd vec mid ;;
    if vm =? val then
      if mid <=? 0 then Ok mid else
      do vp <- rd vec (mid - 1) ;;
      if negb (vp =? vm) then Ok mid else left_border f vec val start (mid - 1) len
    else if val <? vm then left_border f vec val start (mid - 1) len
    else left_border f vec val (mid + 1) fin len
  end.

(** binary_search.h:111-157 [binary_search_right_border] *)
Fixpoint right_border (fuel : nat) (vec : list Z) (val start fin len : Z) : R Z :=
  match fuel with
  | O => Err NoFuel
  | S f =>
    if len =? 0 then Ok (-1) else
    if fin <? start then Ok (-1) else
    if len <=? start then Ok (-1) else
    if fin <? 0 then Ok (-1) else
    let mid := start + Z.quot (fin - start) 2 in
    do _ <- assertb (mid <? len) ;;
    do _ <- assertb (0 <=? mid) ;;
    do vm <- rd vec mid ;;
    if vm =? val then
      if len - 1 <=? mid then Ok mid else
      do vp <- rd vec (mid + 1) ;;
      if negb (vp =? vm) then Ok mid else right_border f vec val (mid + 1) fin len
    else if val <? vm then right_border f vec val start (mid - 1) len
    else right_border f vec val (mid + 1) fin len
  end.

(** Searches of a whole array.  The library passes [end] = [len] (one past the last index,
    include/GMDP/matrices/SpMat.h:153 and 254-255); [end] = [len]-1 is the other natural call. *)
Definition left_border_to (vec : list Z) (val fin : Z) : R Z :=
  left_border (S (S (length vec))) vec val 0 fin (zlen vec).
Definition right_border_to (vec : list Z) (val fin : Z) : R Z :=
  right_border (S (S (length vec))) vec val 0 fin (zlen vec).
Definition left_border_all (vec : list Z) (val : Z) : R Z := left_border_to vec val (zlen vec).
Definition right_border_all (vec : list Z) (val : Z) : R Z := right_border_to vec val (zlen vec).

(** binary_search.h:173-192 [l_binary_search].  [eh] starts indeterminate ([None]). The reads
    [v[eh-1]], [v[eh]] use C's short-circuit [&&]; [v[eh]] is re-read at line 182. *)
Fixpoint l_bsearch_loop (fuel : nat) (v : list Z) (item e1 e2 : Z) (eh : option Z) : R Z :=
  if e1 <=? e2 then
    match fuel with
    | O => Err NoFuel
    | S f =>
      let h := e2 - Z.quot (e2 - e1) 2 in
      if h =? 0 then Ok h else
      do a <- rd v (h - 1) ;;
      do brk <- (if a <? item then do b <- rd v h ;; Ok (item <=? b) else Ok false) ;;
      if brk then Ok h else
      do b <- rd v h ;;
      if item <=? b then l_bsearch_loop f v item e1 (h - 1) (Some h)
      else l_bsearch_loop f v item (h + 1) e2 (Some h)
    end
  else match eh with Some h => Ok h | None => Err Uninit end.

Definition l_binary_search (start fin : Z) (v : list Z) (item : Z) : R Z :=
  l_bsearch_loop (Z.to_nat (fin - start + 1)) v item start fin None.

(** binary_search.h:207-214 [l_linear_search] *)
Fixpoint l_lsearch_loop (k : nat) (i fin : Z) (v : list Z) (item : Z) : R Z :=
  match k with
  | O => Ok fin
  | S k' =>
      do a <- rd v i ;;
      do hit <- (if a <? item then do b <- rd v (i + 1) ;; Ok (item <=? b) else Ok false) ;;
      if hit then Ok (i + 1) else l_lsearch_loop k' (i + 1) fin v item
  end.
Definition l_linear_search (start fin : Z) (v : list Z) (item : Z) : R Z :=
  do v0 <- rd v 0 ;;
  if item <=? v0 then Ok 0 else l_lsearch_loop (Z.to_nat (fin - 1 - start)) start fin v item.
