(** C77: the parallel loops of the library do the same under every schedule.

    Specification (ParLoop.v): a loop is a pool of threads, one per iteration, that access one element of
    a shared array at a time; [any_schedule pool s s'] says that whatever the interleaving, starting with
    the arrays [s], no thread fails or leaves the arrays, and at the end the arrays are [s'];
    [reduction_gives op e x l r] says that an OpenMP reduction of the contributions [l] may give [r].
    Every theorem starts from a successful run of the function in the sequential model and says that its
    parallel loops, under any schedule, leave exactly the arrays that it returns. *)
From Verif Require Import BaseLemmas Bits Segment Conc DCSC DCSCBuild Kernel TileProofs SpMat EdgeList EdgeSpec Runtime GraphOps Graph Layout
  ParLoop ParLoopProofs ParLoopWords3 ParLoopEdges ParLoopFinal.

(** What the specification gives: from every state that a schedule can reach, the loop can be carried on to
    its end, and the arrays it leaves are determined. *)
Theorem C77_schedules_end : forall A B C D pool (s s' : arrs A B C D), any_schedule pool s s' ->
  (forall ts m, psteps loc4_eqb (pool, view s) (ts, m) -> exists ts' m', psteps loc4_eqb (ts, m) (ts', m') /\ finished ts' /\ forall l, m' l = view s' l) /\
  (forall s2, any_schedule pool s s2 -> s2 = s').
Proof. intros A B C D pool s s' H. split; [intros ts m P; exact (any_schedule_ends _ _ _ _ _ H P)|intros s2 H2; exact (any_schedule_unique _ _ _ _ H2 H)]. Qed.
(** an associative and commutative reduction gives one result only *)
Theorem C77_reduction : forall A (op : A -> A -> A) e, (forall a b c, op a (op b c) = op (op a b) c) -> (forall a b, op a b = op b a) -> (forall a, op a e = a) ->
  forall x l r, reduction_gives op e x l r <-> r = fold_left op l x.
Proof.
  intros A op e As Co Un x l r. split; [intros H; eapply reduction_any; eauto|]. intros ->. apply (reduction_some op e); auto.
Qed.
Print Assumptions C77_schedules_end.
Print Assumptions C77_reduction.

(** The specification can tell: a loop over vertices whose iterations set bits of the same word has no
    single outcome. *)
Definition set_bit_t (i : Z) : prog (A := Z) (B := unit) (C := unit) (D := unit) unit :=
  par w <- get1 (Z.shiftr i 5) ;; put1 (Z.shiftr i 5) (Z.lor w (Z.shiftl 1 (Z.land i 31))).
Theorem C77_shared_word_refuted : forall s', ~ any_schedule (parfor 2 set_bit_t) (mkArrs [0] [] [] []) s'.
Proof.
  intros s' H. destruct (C77_schedules_end _ _ _ _ _ _ _ H) as [_ _].
  set (t0 := set_bit_t 0 (fun _ => Fin)). set (t1 := set_bit_t 1 (fun _ => Fin)). set (w0 := fun k : Z => Wr (V := cell4 Z unit unit unit) (L1 0) (C1 k) Fin).
  set (m0 := view (mkArrs [0] [] [] [] : arrs Z unit unit unit)).
  assert (parfor 2 set_bit_t = [t0; t1]) as Ep by reflexivity. rewrite Ep in H.
  assert (psteps loc4_eqb ([t0; t1], m0) ([w0 1; t1], m0)) as P1 by (eapply steps_more; [apply steps_refl|]; exact (step_rd loc4_eqb [t0; t1] m0 0 (L1 0) _ (C1 0) eq_refl eq_refl)).
  assert (psteps loc4_eqb ([t0; t1], m0) ([w0 1; w0 2], m0)) as P2 by (eapply steps_more; [exact P1|]; exact (step_rd loc4_eqb [w0 1; t1] m0 1 (L1 0) _ (C1 0) eq_refl eq_refl)).
  assert (psteps loc4_eqb ([t0; t1], m0) ([Fin; w0 2], mput loc4_eqb m0 (L1 0) (C1 1))) as P3 by (eapply steps_more; [exact P2|]; exact (step_wr loc4_eqb [w0 1; w0 2] m0 0 (L1 0) (C1 1) Fin (C1 0) eq_refl eq_refl)).
  assert (psteps loc4_eqb ([t0; t1], m0) ([Fin; Fin], mput loc4_eqb (mput loc4_eqb m0 (L1 0) (C1 1)) (L1 0) (C1 2))) as P4
    by (eapply steps_more; [exact P3|]; exact (step_wr loc4_eqb [Fin; w0 2] _ 1 (L1 0) (C1 2) Fin (C1 1) eq_refl eq_refl)).
  assert (psteps loc4_eqb ([t0; t1], m0) ([w0 1; Fin], mput loc4_eqb m0 (L1 0) (C1 2))) as P5 by (eapply steps_more; [exact P2|]; exact (step_wr loc4_eqb [w0 1; w0 2] m0 1 (L1 0) (C1 2) Fin (C1 0) eq_refl eq_refl)).
  assert (psteps loc4_eqb ([t0; t1], m0) ([Fin; Fin], mput loc4_eqb (mput loc4_eqb m0 (L1 0) (C1 2)) (L1 0) (C1 1))) as P6
    by (eapply steps_more; [exact P5|]; exact (step_wr loc4_eqb [w0 1; Fin] _ 0 (L1 0) (C1 1) Fin (C1 2) eq_refl eq_refl)).
  assert (finished [Fin; Fin : thread loc4 (cell4 Z unit unit unit)]) as F by (intros t [<-|[<-|[]]]; reflexivity).
  pose proof (proj2 (H _ _ P4) F (L1 0)) as X. pose proof (proj2 (H _ _ P6) F (L1 0)) as Y. rewrite <- X in Y. discriminate Y.
Qed.
Print Assumptions C77_shared_word_refuted.

(** ** vectors *)

(** GraphMatRuntime.h:199-223: the apply step of a superstep on one segment, with the reduction over
    local_converged *)
Theorem C77_apply_segment : forall A B abyte bbyte cbyte (ap : A -> B -> B) neq st (sy : seg A abyte) (sv : seg B bbyte) (sa : seg bool cbyte) sv' sa' conv ev cs0,
  0 <= s_nints sy -> apply_segment ap neq st sy sv sa = Ok (sv', sa', conv, ev) -> zlen cs0 = s_nints sy ->
  exists by_ wy bv ba wa v av aw cs,
    prop sy = Ok by_ /\ words by_ = Ok wy /\ prop sv = Ok bv /\ prop sa = Ok ba /\ words ba = Ok wa /\
    any_schedule (apply_loop_t ap neq st wy (b_value by_) (s_nints sy)) (mkArrs (b_value bv) (b_value ba) wa cs0) (mkArrs v av aw cs) /\
    sv' = set_prop (Some (set_value v bv)) sv /\ sa' = set_prop (Some (set_bits aw (set_value av ba))) sa /\
    (forall r, reduction_gives andb true true (map fst cs) r -> r = conv) /\ ev = concat (map snd cs).
Proof. intros A B abyte bbyte cbyte. exact (@apply_segment_any A B abyte bbyte cbyte). Qed.

(** intersectreduce.h:38-78: the send step of a superstep on one segment *)
Theorem C77_intersect_segment : forall A B C abyte bbyte cbyte threads (op : Z -> A -> B -> C -> C * list event) (s1 : seg A abyte) (s2 : seg B bbyte) (s3 s3i s3' : seg C cbyte) b1 b2 b3 w1 w2 w3 ev cs0,
  0 <= s_nints s1 -> intersect_segment threads op s1 s2 s3 = Ok (s3', ev) ->
  prop s1 = Ok b1 -> b_uninit b1 = false -> prop s2 = Ok b2 -> b_uninit b2 = false ->
  seg_initialize (seg_alloc threads s3) = Ok s3i -> prop s3i = Ok b3 ->
  words b1 = Ok w1 -> words b2 = Ok w2 -> words b3 = Ok w3 -> zlen cs0 = s_nints s1 ->
  exists w v cs cnt,
    any_schedule (and_words_t w1 w2 (s_nints s1)) (mkArrs w3 [] [] []) (mkArrs w [] [] []) /\
    any_schedule (intersect_values_t op (b_value b1) (b_value b2) w (s_nints s1)) (mkArrs (b_value b3) cs0 [] []) (mkArrs v cs [] []) /\
    (forall r, reduction_gives Z.add 0 0 (map fst cs) r -> r = cnt) /\ ev = concat (map snd cs) /\
    s3' = set_prop (Some (set_nnz cnt (set_value v (set_bits w b3)))) s3i.
Proof. intros A B C abyte bbyte cbyte. exact (@intersect_segment_any A B C abyte bbyte cbyte). Qed.

(** apply.h:36-77: applyToAllVertices on one segment *)
Theorem C77_apply_all : forall A byte threads (f : A -> A -> A) (s si s' : seg A byte) b w cs0,
  0 <= s_nints si -> apply_to_segment threads f s = Ok s' -> seg_initialize (seg_alloc threads s) = Ok si -> prop si = Ok b -> words b = Ok w -> zlen cs0 = s_nints si ->
  exists w' v cs cnt,
    any_schedule (or_words_t (s_nints si)) (mkArrs w [] [] []) (mkArrs w' [] [] []) /\
    any_schedule (apply_values_t f w' (s_nints si)) (mkArrs (b_value b) cs0 [] []) (mkArrs v cs [] []) /\
    (forall r, reduction_gives Z.add 0 0 cs r -> r = cnt) /\
    s' = set_prop (Some (set_nnz cnt (set_value v (set_bits w' b)))) si.
Proof. intros A byte. exact (@apply_to_segment_any A byte). Qed.

(** reduce.h:45-97: applyReduceAllVertices on one segment *)
Theorem C77_apply_reduce : forall A B byte threads (mp : A -> A * B) (op : B -> B -> B) (s si s' : seg A byte) b w res res' lr0 fs0,
  0 <= s_cap si -> 0 <= threads -> mapreduce_segment threads mp op s res = Ok (s', res') ->
  seg_initialize (seg_alloc threads s) = Ok si -> prop si = Ok b -> words b = Ok w ->
  zlen lr0 = threads * 16 -> zlen fs0 = threads * 16 ->
  exists v lr fs,
    any_schedule (mapreduce_t threads mp op w (s_cap si)) (mkArrs (b_value b) lr0 fs0 []) (mkArrs v lr fs []) /\
    mapreduce_combine threads op lr fs res = Ok res' /\
    s' = set_prop (Some (set_value v b)) si.
Proof. intros A B byte. exact (@mapreduce_segment_any A B byte). Qed.

(** DenseSegment.h:617-640: setAll on one segment, whatever the words were *)
Theorem C77_set_all : forall A byte threads (val : option A) (s s' : seg A byte) b w l, seg_setAll threads val s = Ok s' -> prop (seg_alloc threads s) = Ok b ->
  0 < s_nints s -> 0 <= s_cap s -> zlen w = s_nints s -> l = upd w (Z.to_nat (s_nints s - 1)) 0 ->
  exists v w',
    any_schedule (fill_t (s_nints s - 1) (2 ^ 32 - 1)) (mkArrs l [] [] []) (mkArrs (repeat (2 ^ 32 - 1) (Z.to_nat (s_nints s - 1)) ++ [0]) [] [] []) /\
    forZ (Z.max 0 (s_cap s - 32)) (s_cap s) (fun idx w => bv_set w idx) (repeat (2 ^ 32 - 1) (Z.to_nat (s_nints s - 1)) ++ [0]) = Ok w' /\
    any_schedule (fill_t (s_cap s) val) (mkArrs (b_value b) [] [] []) (mkArrs v [] [] []) /\
    s' = set_prop (Some (set_value v (set_nnz (s_cap s) (set_bits w' (set_uninit false b))))) (seg_alloc threads s).
Proof. intros A byte. exact (@set_all_any A byte). Qed.

(** DenseSegment.h:358-412: packing of plain values; [c0]: whatever the counters held *)
Theorem C77_compress_plain : forall A byte threads (b b' : buffer A byte) w, 0 <= b_nints b -> 1 <= threads -> buf_compress_plain threads b = Ok b' -> words b = Ok w ->
  forall c0, zlen c0 = threads * 16 ->
  exists counts cd ci,
    any_schedule (count_parts_t w (b_nints b) (threads * 16)) (mkArrs c0 [] [] []) (mkArrs (map Some counts) [] [] []) /\
    any_schedule (emit_parts_t w (b_value b) (prefix_sums 0 counts) (b_nints b) (threads * 16)) (mkArrs (b_cdata b) (b_cidx b) [] []) (mkArrs cd ci [] []) /\
    b' = set_nnz (fold_left Z.add counts 0) (set_comp cd ci b).
Proof. intros A byte. exact (@compress_plain_any A byte). Qed.

(** DenseSegment.h:295-356: packing of values with a serializer *)
Theorem C77_compress_archived : forall A byte (enc : list (Z * A) -> list byte) (b b' : buffer A byte) w, 0 <= b_snp b -> buf_compress_ser enc b = Ok b' -> words b = Ok w ->
  forall l1 l2 l3 l4, zlen l1 = b_snp b -> zlen l2 = b_snp b -> zlen l3 = b_snp b -> zlen l4 = zlen (b_sdata b') ->
  exists bytes nzs,
    any_schedule (archive_parts_t enc w (b_value b) (b_nints b) (b_snp b)) (mkArrs l1 l2 l3 []) (mkArrs (map Some bytes) (map Some nzs) (map Some (map zlen bytes)) []) /\
    any_schedule (copy_parts_t bytes (prefix_sums 0 (map zlen bytes)) (b_snp b)) (mkArrs l4 [] [] []) (mkArrs (map Some (b_sdata b')) [] [] []) /\
    write_scan (b_nzscan b) (prefix_sums 0 nzs) = Ok (b_nzscan b') /\ write_scan (b_nbscan b) (prefix_sums 0 (map zlen bytes)) = Ok (b_nbscan b').
Proof. intros A byte. exact (@compress_ser_any A byte). Qed.

(** DenseSegment.h:228-255: unpacking what a buffer that was packed sent *)
Theorem C77_decompress_archived : forall A byte (enc : list (Z * A) -> list byte) dec (b b1 b2 b3 : buffer A byte),
  (forall l, dec (enc l) (zlen l) = Ok l) ->
  0 <= b_nints b -> 1 <= b_snp b -> buf_compress_ser enc b = Ok b1 ->
  b_sdata b2 = b_sdata b1 -> b_nzscan b2 = b_nzscan b1 -> b_nbscan b2 = b_nbscan b1 -> b_snp b2 = b_snp b1 ->
  buf_decompress_ser dec b2 = Ok b3 ->
  exists w v,
    any_schedule (decode_parts_t dec (b_sdata b2) (b_nbscan b2) (b_nzscan b2) (b_snp b2)) (mkArrs (repeat 0 (Z.to_nat (b_nints b2))) (b_value b2) [] []) (mkArrs w v [] []) /\
    b3 = set_value v (set_bits w b2).
Proof. intros A byte. exact (@decompress_ser_any A byte). Qed.

(** unionreduce.h:36-66: merging a received segment *)
Theorem C77_union : forall A (op : A -> A -> A) cap nints v1 w1 v2 w2 w v, 0 <= cap -> 0 <= nints -> union_dense op cap nints v1 w1 v2 w2 = Ok (w, v) ->
  any_schedule (union_values_t op cap w1 v2 w2) (mkArrs v1 [] [] []) (mkArrs v [] [] []) /\
  any_schedule (union_words_t w2 nints) (mkArrs w1 [] [] []) (mkArrs w [] [] []).
Proof. intros A. exact (@union_dense_any A). Qed.
Print Assumptions C77_apply_segment.
Print Assumptions C77_intersect_segment.
Print Assumptions C77_apply_all.
Print Assumptions C77_apply_reduce.
Print Assumptions C77_set_all.
Print Assumptions C77_compress_plain.
Print Assumptions C77_compress_archived.
Print Assumptions C77_decompress_archived.
Print Assumptions C77_union.

(** ** edges *)

(** DCSCTile.h:236-397: building a tile *)
Theorem C77_build_tile : forall E srt threads (edges : list (edge E)) m n rs cs junk t, 1 <= threads -> 0 < zlen edges ->
  dcsc_new srt threads edges m n rs cs junk = Ok t ->
  exists rp p_edges ncols,
    static_partition m (threads * 16) 32 = Ok rp /\
    (forall l0, zlen l0 = zlen edges -> any_schedule (compute_t (fun e => do p <- find_partition (Z.to_nat (threads * 16 + 1)) rp (e_src e - 1 - rs) 0 (threads * 16 - 1) ;;
        do _ <- assertb (0 <=? p) ;; Ok (p, mkE (e_src e - 1 - rs) (e_dst e - 1 - cs) (e_val e))) edges) (mkArrs l0 [] [] []) (mkArrs (map Some p_edges) [] [] [])) /\
    any_schedule (check_t (fun e : tedge E => (0 <=? e_src (snd e)) && (0 <=? e_dst (snd e)) && (e_src (snd e) <? m) && (e_dst (snd e) <? n)) p_edges) (mkArrs [] [] [] []) (mkArrs [] [] [] []) /\
    set_edge_pointers (srt p_edges) rp (zlen edges) (threads * 16) = Ok (t_edge_ptrs t) /\
    (forall c0, zlen c0 = threads * 16 -> any_schedule (count_columns_t (srt p_edges) (t_edge_ptrs t) (threads * 16)) (mkArrs c0 [] [] []) (mkArrs (map Some ncols) [] [] [])) /\
    t_col_starts t = prefix_sums 0 (map (fun k => k + 1) ncols) /\
    any_schedule (build_t (srt p_edges) (t_edge_ptrs t) (t_col_starts t) n (threads * 16))
      (mkArrs (repeat None (Z.to_nat (zlen edges))) (repeat None (Z.to_nat (zlen edges))) (repeat None (Z.to_nat (t_num_cols t))) (repeat None (Z.to_nat (t_num_cols t))))
      (mkArrs (map Some (t_vals t)) (map Some (t_row_inds t)) (map Some (t_col_idx t)) (map Some (t_col_ptrs t))).
Proof. intros E. exact (@tile_build_any E). Qed.

(** applyedges.h:36-84: applyToAllEdges on one tile *)
Theorem C77_apply_edges : forall E V strict (op : E -> V -> V -> E) byte m n es (t t' : dcsc E) (s1 s2 : seg V byte), tile_of m n es t -> 0 < t_nnz t ->
  apply_edges strict op t s1 s2 = Ok t' ->
  exists b1 b2 w2 vals, prop s1 = Ok b1 /\ prop s2 = Ok b2 /\ words b2 = Ok w2 /\ t' = set_vals vals t /\
    any_schedule (applyedges_t strict op t (b_value b1) w2 (b_value b2)) (mkArrs (t_vals t) [] [] []) (mkArrs vals [] [] []).
Proof. intros E V strict op byte. exact (@apply_edges_any E V strict op byte). Qed.

(** The loops that give every edge its owner or tile (SpMat.h:120-130, 223-233), that take the tags off
    again (135-141, 237-243), that swap the ends (428-433) and that translate vertex numbers
    (Graph.h:219-224) *)
Theorem C77_edge_tags : forall E m n ntx nty ids (edges : list (edge E)),
  (forall tagged l0, mapR (tag_owner m n ntx nty ids) edges = Ok tagged -> zlen l0 = zlen edges ->
    any_schedule (compute_t (tag_owner m n ntx nty ids) edges) (mkArrs l0 [] [] []) (mkArrs (map Some tagged) [] [] [])) /\
  (forall tagged l0, mapR (tag_tile m n ntx nty) edges = Ok tagged -> zlen l0 = zlen edges ->
    any_schedule (compute_t (tag_tile m n ntx nty) edges) (mkArrs l0 [] [] []) (mkArrs (map Some tagged) [] [] [])) /\
  (forall (sorted : list (tedge E)) l0 a0, zlen l0 = zlen sorted -> zlen a0 = zlen sorted ->
    any_schedule (untag_t sorted) (mkArrs l0 a0 [] []) (mkArrs (map Some (map snd sorted)) (map Some (map fst sorted)) [] [])) /\
  any_schedule (replace_t (fun _ e => Ok (swap_ends e)) (zlen edges)) (mkArrs edges [] [] []) (mkArrs (map swap_ends edges) [] [] []) /\
  (forall threads nr native, mapR (edge_to_native nr threads m) edges = Ok native ->
    any_schedule (replace_t (fun _ => edge_to_native nr threads m) (zlen edges)) (mkArrs edges [] [] []) (mkArrs native [] [] [])).
Proof.
  intros E m n ntx nty ids edges. split; [intros t l0 H L; apply compute_any; auto|]. split; [intros t l0 H L; apply compute_any; auto|]. split; [intros s l0 a0; apply untag_any|].
  assert (forall (f : edge E -> R (edge E)) out, mapR f edges = Ok out -> any_schedule (replace_t (fun _ => f) (zlen edges)) (mkArrs edges [] [] []) (mkArrs out [] [] [])) as G.
  { intros f out H. apply replace_any; [apply zlen_nonneg|]. apply mapR_in_place. exact H. }
  split; [|intros; apply G; auto]. apply (G (fun e => Ok (swap_ends e))). apply mapR_map. reflexivity.
Qed.

(** edgelist.h: the loops that rewrite every edge of a list in place *)
Theorem C77_rewrite_edges : forall E (f : Z -> edge E -> R (edge E)) el el', 0 <= el_nnz el -> rewrite_edges f el = Ok el' ->
  any_schedule (replace_t (fun i o => do e <- need o ;; do e' <- f i e ;; Ok (Some e')) (el_nnz el)) (mkArrs (el_arr el) [] [] []) (mkArrs (el_arr el') [] [] []) /\
  el_m el' = el_m el /\ el_n el' = el_n el /\ el_nnz el' = el_nnz el.
Proof. intros E. exact (@rewrite_any E). Qed.

(** edgelist_transformation.h:104-171: counting and scattering the edges of a rank for the shuffle by
    source.  The message for rank [b] has the edges of sources [b + 1], [b + 1 + nr], ... in their order. *)
Theorem C77_shuffle : forall E nt nr (el : elist E) l, 1 <= nt -> 1 <= nr -> holds el l -> (forall e, In e l -> 1 <= e_src e) ->
  exists h o te wo,
    any_schedule (hist_t nt nr el) (mkArrs (repeat 0 (Z.to_nat (nt * nr))) [] [] []) (mkArrs h [] [] []) /\
    shuffle_offset nt nr h = Ok o /\
    any_schedule (scatter_t nt nr el o) (mkArrs (repeat None (Z.to_nat (el_nnz el))) (repeat 0 (Z.to_nat (nt * nr))) [] []) (mkArrs te wo [] []) /\
    mapR (shuffle_message nt nr h o te) (zrange 0 nr) = Ok (map (fun b => map Some (filter (fun e => Z.rem (e_src e - 1) nr =? b) l)) (zrange 0 nr)).
Proof. intros E. exact (@shuffle_any E). Qed.
Print Assumptions C77_build_tile.
Print Assumptions C77_apply_edges.
Print Assumptions C77_edge_tags.
Print Assumptions C77_rewrite_edges.
Print Assumptions C77_shuffle.

(** ** concrete cases *)
Definition sg0 {A} : seg A Z := mkseg 100 4 None (mkmd 0 0 0) [] [] [] 0 None.
Definition filled {A} (l : list (Z * A)) : R (seg A Z) := foldR (fun s iv => seg_set 2 (fst iv) (Some (snd iv)) s) l sg0.
Definition summary {A} (s : seg A Z) : R (Z * list Z) := do b <- prop s ;; do w <- words b ;; Ok (b_nnz b, w).
Example C77_example_apply : (do y <- filled [(3, 5); (40, 6); (41, 7); (99, 1)] ;; do v <- seg_setAll 2 (Some 6) sg0 ;; do a <- seg_setAll 2 (Some false) sg0 ;; do a <- seg_zero a ;;
    do r <- apply_segment Z.min (fun a b => negb (a =? b)) 200 y v a ;; let '(v, a, conv, ev) := r in
    do s <- summary a ;; do b <- prop v ;; do x <- rdi (b_value b) 2 ;; Ok (s_nints y, snd s, conv, x, length ev)) = Ok (4, [4; 0; 0; 4], false, 5, 4%nat).
Proof. vm_compute. reflexivity. Qed.
Example C77_example_intersect : (do a <- filled [(3, 5); (40, 6); (41, 7); (99, 1)] ;; do v <- filled [(2, 5); (40, 60); (99, 70)] ;; do c <- filled [(1, 0)] ;; do c <- seg_setAll 2 (Some 0) c ;;
    do r <- intersect_segment 2 (fun i x y z => (x + y, [])) a v c ;; do s <- summary (fst r) ;; Ok s) = Ok (2, [0; 128; 0; 4]).
Proof. vm_compute. reflexivity. Qed.
Example C77_example_loops : (do a <- filled [(3, 5); (40, 6); (41, 7); (99, 1)] ;; do p <- apply_to_segment 2 Z.add a ;; do q <- mapreduce_segment 3 (fun x => (x, x * x)) Z.add a 100 ;;
    do s <- summary p ;; Ok (s, snd q)) = Ok (4, [4; 384; 0; 4], 211).
Proof. vm_compute. reflexivity. Qed.
(** the code of pairs as the pairs themselves *)
Definition pb : buffer Z (Z * Z) := mkbuf false 4 100 4 (repeat (Some 7) 100) (Some [4; 384; 0; 4]) (repeat None 100) (repeat None 100) [] 0 3 (repeat None 4) (repeat None 4).
Example C77_example_pack : (do b <- buf_compress_plain 2 pb ;; Ok (b_nnz b, firstn 5 (b_cidx b))) = Ok (4, [Some 2; Some 39; Some 40; Some 98; None]) /\
  (do b <- buf_compress_ser (fun l => l) pb ;; do b' <- buf_decompress_ser (fun l _ => Ok l) b ;; Ok (b_nzscan b, b_sdata b, b_bits b')) =
    Ok (map Some [0; 3; 4; 4], [(2, 7); (39, 7); (40, 7); (98, 7)], Some [4; 384; 0; 4]) /\
  (forall l : list (Z * Z), (fun l _ => Ok l) l (zlen l) = Ok l).
Proof. vm_compute. repeat split. Qed.
Example C77_example_union : (do r <- union_dense Z.add 40 2 (repeat (Some 3) 40) [5; 2] (repeat (Some 4) 40) [6; 0] ;; do x <- rd (snd r) 2 ;; Ok (fst r, x)) = Ok ([7; 2], Some 7).
Proof. vm_compute. reflexivity. Qed.
Definition pe : list (edge Z) := [mkE 10 1 5; mkE 40 3 6; mkE 2 1 7; mkE 40 1 8].
Example C77_example_tile : (do t <- dcsc_new isort 2 pe 50 5 0 0 9 ;; Ok (t_vals t, t_row_inds t, t_np t)) = Ok ([7; 5; 8; 6], [1; 9; 39; 39], 32).
Proof. vm_compute. reflexivity. Qed.
Example C77_example_edges : (do l <- mapR (tag_owner 4000 4000 2 2 [0; 1; 1; 0]) (mkE 3000 9 4 :: mkE 3000 3900 1 :: mkE 6 3500 2 :: pe) ;; Ok (map fst l)) = Ok [1; 0; 1; 0; 0; 0; 0] /\
  (do r <- rewrite_edges (fun i e => Ok (mkE (e_dst e) (e_src e) i)) (mkEL (map Some pe) 50 50 4) ;; Ok (map (fun o => match o with Some e => e_val e | None => -1 end) (el_arr r))) = Ok [0; 1; 2; 3] /\
  holds (mkEL (map Some pe ++ [None]) 50 50 4) pe /\ (forall e, In e pe -> 1 <= e_src e) /\
  (do r <- shuffle_local 2 3 (mkEL (map Some pe ++ [None]) 50 50 4) ;; Ok (map (map (fun o => match o with Some e => e_val e | None => -1 end)) (fst r))) = Ok [[5; 6; 8]; [7]; []].
Proof.
  split; [vm_compute; reflexivity|]. split; [vm_compute; reflexivity|]. split; [split; [reflexivity|exists [None]; reflexivity]|].
  split; [intros e He; cbn in He; intuition (subst; cbn; lia)|vm_compute; reflexivity].
Qed.
