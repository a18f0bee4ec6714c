(** Properties C28-C32: one tile of the matrix (include/GMDP/matrices/DCSCTile.h and the kernels
    of include/GMDP/singlenode).  [srt] stands for the library sort: any function with [sorts]. *)
From Coq Require Import Sorting.Sorted.
From Verif Require Import BaseLemmas Bits Segment Reduce DCSC Conc ParSeg Kernel MatSpec DCSCFinal TileProofs.

(** C28.  [es]: the entries, in range, duplicates allowed.  The export has the same entries; they
    come in one run per worker's row range, each run by increasing column. *)
Theorem C28_tile_entries {E} srt threads (es : list (edge E)) m n rs cs junk :
  sorts srt -> 1 <= threads -> (forall e, In e es -> in_rect m n rs cs e) ->
  exists t out chunks, dcsc_new srt threads es m n rs cs junk = Ok t /\
    t_nnz t = zlen es /\ dcsc_get_edges t (zlen es) rs cs = Ok out /\ Permutation es out /\
    out = concat chunks /\ zlen chunks = t_np t /\
    forall p ch, rd chunks p = Ok ch -> (forall e, In e ch -> thread_rows (t_row_ptrs t) p (e_src e - 1 - rs)) /\
      StronglySorted (fun a b => e_dst a <= e_dst b) ch.
Proof. exact (fun S T H => tile_entries srt S threads es m n rs cs junk T H). Qed.
Print Assumptions C28_tile_entries.

Definition ex_edges : list (edge Z) := [mkE 40 3 7; mkE 2 9 1; mkE 40 3 8; mkE 70 1 5; mkE 2 4 6].
Example C28_example : @sorts Z isort /\ (forall e, In e ex_edges -> in_rect 70 10 0 0 e) /\
  (do t <- dcsc_new isort 1 ex_edges 70 10 0 0 0 ;; dcsc_get_edges t 5 0 0) = Ok [mkE 2 4 6; mkE 2 9 1; mkE 40 3 7; mkE 40 3 8; mkE 70 1 5].
Proof.
  split; [apply isort_sorts|]. split; [|vm_compute; reflexivity].
  intros e He. simpl in He. unfold in_rect. repeat destruct He as [He | He]; try contradiction; subst; simpl; lia.
Qed.

(** C29.  [t_row_ptrs]: the boundaries of the workers' row ranges. *)
Theorem C29_thread_rows {E} srt threads (es : list (edge E)) m n rs cs junk t :
  sorts srt -> 1 <= threads -> (forall e, In e es -> in_rect m n rs cs e) -> dcsc_new srt threads es m n rs cs junk = Ok t -> es <> [] ->
  let rp := t_row_ptrs t in
  zlen rp = t_np t + 1 /\ t_np t = 16 * threads /\ rd rp 0 = Ok 0 /\ rd rp (t_np t) = Ok m /\
  (forall p a b, rd rp p = Ok a -> rd rp (p + 1) = Ok b -> a <= b) /\
  (forall p a, rd rp p = Ok a -> a mod 32 = 0 \/ a = m) /\
  (forall r, 0 <= r < m -> exists p, thread_rows rp p r) /\
  (forall p q r r', thread_rows rp p r -> thread_rows rp q r' -> p <> q -> r / 32 <> r' / 32).
Proof. exact (fun S T H => tile_rows srt S threads es m n rs cs junk T H t). Qed.
Print Assumptions C29_thread_rows.

Example C29_example : (do t <- dcsc_new isort 1 ex_edges 70 10 0 0 0 ;; Ok (t_row_ptrs t)) = Ok [0; 32; 64; 70; 70; 70; 70; 70; 70; 70; 70; 70; 70; 70; 70; 70; 70].
Proof. vm_compute; reflexivity. Qed.

(** C30.  [multiplied]: the tile built from [es] exists; the kernel run in order gives a result
    holding, at row [k], the reduction of the old value and the products of the row's entries
    (in some order; for a commutative associative [add] in any order); every interleaving of the
    worker threads' memory accesses is free of errors and leaves the same words and values. *)
Theorem C30_multiply {E T U} srt threads (es : list (edge E)) m n rs cs junk add (mul : E -> T -> U) xw xv X w v M :
  sorts srt -> 1 <= threads -> 0 <= m -> 0 <= n -> (forall e, In e es -> in_rect m n rs cs e) ->
  represents n xw xv X -> represents m w v M ->
  exists t out w' v', dcsc_new srt threads es m n rs cs junk = Ok t /\ Permutation es out /\
    kernel add false t xw (mul2 mul xv) (w, v) = Ok (w', v') /\
    let product e := option_map (mul (e_val e)) (X (e_dst e - 1 - cs)) in
    represents m w' v' (fun k => red add (olist (M k) ++ row_products product out (k + 1 + rs))) /\
    (commutative add -> associative add -> represents m w' v' (fun k => red add (olist (M k) ++ row_products product es (k + 1 + rs)))) /\
    forall ts' m', psteps sloc_eqb (kernel_pool add false t xw (mul2 mul xv), smem (w, v)) (ts', m') ->
      ~ bad (ts', m') /\ (finished ts' -> forall l, m' l = smem (w', v') l).
Proof. exact (fun S T Hm Hn H Rx Rw => multiplied2 srt S threads es m n rs cs junk T Hm Hn H add mul xw xv X w v M Rx Rw). Qed.
Print Assumptions C30_multiply.

(** The same for programs that also read the receiving vertex's property [P]. *)
Theorem C30_multiply_with_property {E T V U} srt threads (es : list (edge E)) m n rs cs junk add (mul : E -> T -> V -> U) xw xv X vw vv P w v M :
  sorts srt -> 1 <= threads -> 0 <= m -> 0 <= n -> (forall e, In e es -> in_rect m n rs cs e) ->
  represents n xw xv X -> represents m vw vv (fun k => Some (P k)) -> represents m w v M ->
  exists t out w' v', dcsc_new srt threads es m n rs cs junk = Ok t /\ Permutation es out /\
    kernel add false t xw (mul3 mul xv vw vv) (w, v) = Ok (w', v') /\
    let product e := option_map (fun x => mul (e_val e) x (P (e_src e - 1 - rs))) (X (e_dst e - 1 - cs)) in
    represents m w' v' (fun k => red add (olist (M k) ++ row_products product out (k + 1 + rs))) /\
    (commutative add -> associative add -> represents m w' v' (fun k => red add (olist (M k) ++ row_products product es (k + 1 + rs)))) /\
    forall ts' m', psteps sloc_eqb (kernel_pool add false t xw (mul3 mul xv vw vv), smem (w, v)) (ts', m') ->
      ~ bad (ts', m') /\ (finished ts' -> forall l, m' l = smem (w', v') l).
Proof. exact (fun S T Hm Hn H Rx Rp Rw => multiplied3 srt S threads es m n rs cs junk T Hm Hn H add mul xw xv X vw vv P w v M Rx Rp Rw). Qed.
Print Assumptions C30_multiply_with_property.

Example C30_example : represents 10 [4 + 8] (repeat (Some 2) 10) (fun k => if (k =? 2) || (k =? 3) then Some 2 else None) /\
  represents 70 [0; 128; 0] (repeat (Some 100) 70) (fun k => if k =? 39 then Some 100 else None) /\
  row_products (fun e => option_map (Z.mul (e_val e)) ((fun k => if (k =? 2) || (k =? 3) then Some 2 else None) (e_dst e - 1 - 0))) ex_edges (39 + 1 + 0) = [14; 16] /\
  red Z.add (olist (Some 100) ++ [14; 16]) = Some 130.
Proof.
  split; [apply represents_check; vm_compute; reflexivity|]. split; [apply represents_check; vm_compute; reflexivity|]. split; reflexivity.
Qed.

(** C31.  A column slot is a position of the column index array holding column [c] of some
    worker's range; in a slot whose column has a message the kernel also reads four positions
    further.  With that read checked like any other ([true]): same result if all stay inside, out-of-bounds otherwise, at most
    three elements past the end. *)
Theorem C31_multiply_look_ahead {E U} srt threads (es : list (edge E)) m n rs cs junk (add : U -> U -> U) t xw f wv r :
  sorts srt -> 1 <= threads -> (forall e, In e es -> in_rect m n rs cs e) ->
  dcsc_new srt threads es m n rs cs junk = Ok t -> n <= 32 * zlen xw -> kernel add false t xw f wv = Ok r ->
  ((forall i c, slot t i c -> bv_get xw c = Ok true -> i + 4 < zlen (t_col_idx t)) -> kernel add true t xw f wv = Ok r) /\
  ((exists i c, slot t i c /\ bv_get xw c = Ok true /\ zlen (t_col_idx t) <= i + 4) -> kernel add true t xw f wv = Err OOB) /\
  (forall i c, slot t i c -> i + 4 <= zlen (t_col_idx t) + 2).
Proof. exact (fun S T H => built_ahead srt S threads es m n rs cs junk T H add t xw f wv r). Qed.
Print Assumptions C31_multiply_look_ahead.

Theorem C31_apply_look_ahead {E V byte} srt threads (es : list (edge E)) m n rs cs junk (op : E -> V -> V -> E) t (s1 s2 : seg V byte) r :
  sorts srt -> 1 <= threads -> (forall e, In e es -> in_rect m n rs cs e) ->
  dcsc_new srt threads es m n rs cs junk = Ok t -> apply_edges false op t s1 s2 = Ok r ->
  ((forall i c, slot t i c -> i + 4 < zlen (t_col_idx t)) -> apply_edges true op t s1 s2 = Ok r) /\
  ((exists i c, slot t i c /\ zlen (t_col_idx t) <= i + 4) -> apply_edges true op t s1 s2 = Err OOB).
Proof. exact (fun S T H => built_apply_ahead srt S threads es m n rs cs junk T H op t s1 s2 r). Qed.
Print Assumptions C31_apply_look_ahead.

(** A 512-row tile whose last entry lies in the last range does read past the end. *)
Theorem C31_reads_past_end_refuted : exists (t : dcsc Z) r,
  dcsc_new isort 1 [mkE 511 1 7] 512 1 0 0 0 = Ok t /\
  kernel Z.add false t [1] (mul2 Z.mul [Some 3]) (repeat 0 16, repeat None 512) = Ok r /\
  kernel Z.add true t [1] (mul2 Z.mul [Some 3]) (repeat 0 16, repeat None 512) = Err OOB.
Proof.
  exists (match dcsc_new isort 1 [mkE 511 1 7] 512 1 0 0 0 with Ok t => t | Err _ => dcsc_empty 0 0 0 end),
    (match (do t <- dcsc_new isort 1 [mkE 511 1 7] 512 1 0 0 0 ;; kernel Z.add false t [1] (mul2 Z.mul [Some 3]) (repeat 0 16, repeat None 512)) with Ok r => r | Err _ => ([], []) end).
  split; [vm_compute; reflexivity|]. split; vm_compute; reflexivity.
Qed.
Print Assumptions C31_reads_past_end_refuted.

(** ... and one with enough slots after it does not. *)
Example C31_example : exists t, dcsc_new isort 1 ex_edges 70 10 0 0 0 = Ok t /\ zlen (t_col_idx t) = 20 /\ slot t 0 3 /\ slot t 1 8 /\ slot t 3 2 /\ slot t 5 0.
Proof.
  exists (match dcsc_new isort 1 ex_edges 70 10 0 0 0 with Ok t => t | Err _ => dcsc_empty 0 0 0 end). split; [vm_compute; reflexivity|]. split; [vm_compute; reflexivity|].
  split; [exists 0, 0, 3; vm_compute; repeat split; discriminate|]. split; [exists 0, 0, 3; vm_compute; repeat split; discriminate|].
  split; [exists 1, 3, 5; vm_compute; repeat split; discriminate|exists 2, 5, 7; vm_compute; repeat split; discriminate].
Qed.

(** C32.  [rest]: whatever follows in the archive. *)
Theorem C32_archive_round_trip {E} srt threads (es : list (edge E)) m n rs cs junk t rest :
  sorts srt -> 1 <= threads -> (forall e, In e es -> in_rect m n rs cs e) -> dcsc_new srt threads es m n rs cs junk = Ok t ->
  exists ar, dcsc_save t = Ok ar /\ dcsc_load (ar ++ rest) = Ok (t, rest).
Proof. exact (fun S T H => built_save_load srt S threads es m n rs cs junk T H t rest). Qed.
Print Assumptions C32_archive_round_trip.

(** Any tile whose array sizes agree with its counters, e.g. after values were changed. *)
Theorem C32_archive_any_tile {E} (t : dcsc E) rest : shaped t -> exists ar, dcsc_save t = Ok ar /\ dcsc_load (ar ++ rest) = Ok (t, rest).
Proof. exact (save_load t rest). Qed.
Print Assumptions C32_archive_any_tile.

Example C32_example : exists t, dcsc_new isort 1 ex_edges 70 10 0 0 0 = Ok t /\ t_nnz t = 5 /\ t_np t = 16.
Proof. exists (match dcsc_new isort 1 ex_edges 70 10 0 0 0 with Ok t => t | Err _ => dcsc_empty 0 0 0 end). repeat split; vm_compute; reflexivity. Qed.
