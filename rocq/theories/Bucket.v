(** The counting passes used when items are sent to the rank or segment they belong to. *)
From Verif Require Import Base Segment.

Section B.
  Context {A : Type}.

  (** include/GMDP/vectors/SpVec.h:177-180 and 250-253: [count[key]++] over all items *)
  Definition count_keys (nb : Z) (keys : list Z) : R (list Z) :=
    foldR (fun c k => do x <- rd c k ;; wr c k (x + 1)) keys (repeat 0 (Z.to_nat nb)).

  (** include/GMDP/vectors/SpVec.h:193-202: one message array per destination, each of exactly
      the counted size, filled in item order *)
  Definition pack_msgs (nb : Z) (items : list (Z * A)) : R (list (list (option A))) :=
    do counts <- count_keys nb (map fst items) ;;
    do r <- foldR (fun (st : list (list (option A)) * list Z) (it : Z * A) =>
        do m <- rd (fst st) (fst it) ;;
        do o <- rd (snd st) (fst it) ;;
        do m' <- wr m o (Some (snd it)) ;;
        do ms <- wr (fst st) (fst it) m' ;;
        do os <- wr (snd st) (fst it) (o + 1) ;;
        Ok (ms, os)) items (map (fun c => repeat None (Z.to_nat c)) counts, repeat 0 (Z.to_nat nb)) ;;
    Ok (fst r).

  (** include/GMDP/vectors/SpVec.h:184-191 and 203-222 seen from one receiver: message [i] has the
      announced length and lands at offset [local_hist[i]]; all elements must have been written *)
  Definition receive_all (msgs : list (list (option A))) : R (list A) :=
    do parts <- mapR (mapR need) msgs ;; Ok (concat parts).

  (** include/GMDP/vectors/SpVec.h:250-274: stable counting sort by segment, returning the
      sorted array, the start of each bucket and the final counts.  [bound_asserts] are the
      asserts of lines 265-268. *)
  Definition counting_sort (nb : Z) (items : list (Z * A)) : R (list (option A) * list Z * list Z) :=
    do counts <- count_keys nb (map fst items) ;;
    let start_nzs := prefix_sums 0 counts in
    let total := zlen items in
    do r <- foldR (fun (st : list (option A) * list Z) (it : Z * A) =>
        do s <- rd start_nzs (fst it) ;;
        do c <- rd (snd st) (fst it) ;;
        let new_idx := s + c in
        do _ <- assertb (new_idx <? total) ;;
        do _ <- assertb (0 <=? new_idx) ;;
        do _ <- assertb (fst it <? nb) ;;
        do _ <- assertb (0 <=? fst it) ;;
        do e <- wr (fst st) new_idx (Some (snd it)) ;;
        do cs <- wr (snd st) (fst it) (c + 1) ;;
        Ok (e, cs)) items (repeat None (length items), repeat 0 (Z.to_nat nb)) ;;
    Ok (fst r, start_nzs, snd r).
End B.
