(** C78: 32-bit integers.  CInt.v has the index arithmetic of the library with checked [int] operations
    ([None]: overflow); the rest of the model computes in [Z].  The theorems say up to which sizes both agree, and what
    happens beyond. *)
From Verif Require Import Base Bits Segment Layout DCSC TileProofs CInt CIntProofs.

(** The two numberings of vertices can be computed for every number of vertices that an [int] holds. *)
Theorem C78_relabel : forall threads nr n v, 1 <= threads -> 1 <= nr -> threads * 16 * nr <= int_max -> n <= int_max -> 1 <= v <= n ->
  vertexToNative_c threads nr n v = match vertexToNative threads nr n v with Ok r => Some r | Err _ => None end /\
  nativeToVertex_c threads nr n v = match nativeToVertex threads nr n v with Ok r => Some r | Err _ => None end.
Proof. intros threads nr n v H1 H2 H3 H4 H5. split; [apply to_native_c|apply to_vertex_c]; auto. Qed.

(** Segment and tile boundaries and tile numbers: up to [int_max - 256 * parts] vertices; one vertex more can overflow. *)
Theorem C78_boundaries : forall n k, 0 <= n -> 1 <= k -> n + 256 * k <= int_max -> starts_c n k = Some (starts n k) /\ starts_c n k = Some (mat_starts n k).
Proof. exact starts_exact. Qed.
Theorem C78_boundaries_sharp : starts_c (int_max - 255) 1 = None.
Proof. exact starts_overflow. Qed.
Theorem C78_tile_numbers : forall i j ntx nty, 0 <= i < nty -> 0 <= j < ntx -> ntx * nty <= int_max -> tile_id_c i j nty = Some (i + j * nty).
Proof. exact tile_id_exact. Qed.

(** The division of a tile's rows, of words and of elements among threads, and the elements of a word *)
Theorem C78_partitions : forall m np, 0 <= m -> 1 <= np -> m + 64 <= int_max -> np <= int_max -> static_partition_c m np 32 = static_partition m np 32.
Proof. exact static_partition_exact. Qed.
Theorem C78_partition_search : forall rp src fuel np r, zlen rp <= int_max -> zlen rp = np + 1 -> 1 <= np ->
  find_partition fuel rp src 0 (np - 1) = Ok r -> find_partition_c fuel rp src 0 (np - 1) = Some r.
Proof. intros rp src fuel np r H1 H2 H3. apply find_partition_exact; auto; lia. Qed.
Theorem C78_parts : forall n np p, 0 <= n -> 0 <= p < np -> n + np <= int_max -> part_bounds_c n np p = Some (part_start n np p, part_end n np p).
Proof. exact part_bounds_exact. Qed.
Theorem C78_words : forall cap ii, 0 <= ii < num_ints_of cap -> 0 <= cap <= int_max - 31 -> word_bounds_c ii = Some (ii * 32, (ii + 1) * 32).
Proof. exact word_bounds_exact. Qed.
Theorem C78_words_sharp : word_bounds_c (num_ints_of (int_max - 30) - 1) = None.
Proof. exact word_bounds_overflow. Qed.

(** A tile: its edges relative to its corner, and its column index as long as edges and partitions together fit *)
Theorem C78_tile_edges : forall E m n rs cs (e : edge E), 0 <= rs -> rs + m <= int_max -> 0 <= cs -> cs + n <= int_max -> rs < e_src e <= rs + m -> cs < e_dst e <= cs + n ->
  local_edge_c rs cs e = Some (mkE (e_src e - 1 - rs) (e_dst e - 1 - cs) (e_val e)).
Proof. intros E. exact (@local_edge_exact E). Qed.
Theorem C78_tile_columns : forall E srt threads (edges : list (edge E)) m n rs cs junk t, 1 <= threads -> 0 < zlen edges -> (forall l : list (tedge E), zlen (srt l) = zlen l) ->
  dcsc_new srt threads edges m n rs cs junk = Ok t -> zlen edges + threads * 16 <= int_max ->
  exists ncols, zlen ncols = threads * 16 /\ col_starts_c 0 ncols = Some (t_col_starts t) /\ t_num_cols t <= int_max.
Proof. intros E. exact (@tile_columns E). Qed.

(** The number of edges that a graph reports.  [locals]: the edges on each rank.  Rank [r] reports the right number
    exactly if its own number and the total have the same upper half: always on one rank, and below 2^32 edges
    in total; never if no rank has 2^32 edges but all together do. *)
Theorem C78_reported_edges : forall locals local,
  (reported_nnz locals local = fold_left Z.add locals 0 <-> local / 2 ^ 32 = fold_left Z.add locals 0 / 2 ^ 32) /\
  (locals = [local] -> reported_nnz locals local = local) /\
  ((forall x, In x locals -> 0 <= x) -> In local locals -> fold_left Z.add locals 0 < 2 ^ 32 -> reported_nnz locals local = fold_left Z.add locals 0) /\
  ((forall x, In x locals -> 0 <= x < 2 ^ 32) -> In local locals -> 2 ^ 32 <= fold_left Z.add locals 0 -> reported_nnz locals local <> fold_left Z.add locals 0).
Proof.
  intros locals local. split; [apply reported_exact|]. split; [intros ->; apply (proj2 (reported_exact [local] local)); reflexivity|]. split; [apply reported_small|apply reported_big].
Qed.

(** Messages: the counts given to the message library are right exactly if they fit an [int]; otherwise they are smaller, so part
    of the data is not sent, or negative. *)
Theorem C78_messages : forall sz cap nnz, 1 <= sz -> 0 <= nnz <= cap -> cap <= int_max ->
  (dense_counts sz cap (num_ints_of cap) = (cap * sz, num_ints_of cap * 4) <-> cap * sz <= int_max) /\
  (packed_counts sz nnz = (nnz * sz, nnz * 4) <-> nnz * sz <= int_max /\ nnz * 4 <= int_max) /\
  (edge_counts sz nnz = sz * nnz <-> sz * nnz <= int_max) /\ tile_edge_counts nnz = nnz /\
  (int_max < cap * sz -> fst (dense_counts sz cap (num_ints_of cap)) < cap * sz).
Proof.
  intros sz cap nnz Hs Hn Hc. unfold dense_counts, packed_counts, edge_counts, tile_edge_counts.
  assert (0 <= num_ints_of cap * 4 <= int_max) as Hw by (unfold num_ints_of; destruct (quot_bounds (cap + 32 - 1) 32); unfold int_max in *; lia).
  assert (0 <= cap * sz) by nia. assert (0 <= nnz * sz) by nia.
  split; [|split; [|split; [|split]]].
  - rewrite <- (as_int_exact (cap * sz)) by auto. split; [intros E; injection E; auto|intros ->; f_equal; apply as_int_exact; lia].
  - rewrite <- (as_int_exact (nnz * sz)), <- (as_int_exact (nnz * 4)) by lia. split; [intros E; injection E; auto|intros [-> ->]; auto].
  - apply as_int_exact. lia.
  - apply as_int_exact; lia.
  - intros B. cbn [fst]. pose proof (as_int_le (cap * sz) ltac:(lia)). assert (as_int (cap * sz) <> cap * sz) by (intros E; apply as_int_exact in E; lia). lia.
Qed.

(** create_bidirectional_edges: up to 2^30 - 1 edges per rank, and no more *)
Theorem C78_bidirectional : forall nnz, 0 <= nnz ->
  (2 * nnz <= int_max -> bidirectional_c nnz = Some (2 * nnz, map (fun i => (2 * i, 2 * i + 1)) (zrange 0 nnz))) /\ (int_max < 2 * nnz -> bidirectional_c nnz = None).
Proof. exact bidirectional_exact. Qed.
Print Assumptions C78_relabel.
Print Assumptions C78_boundaries.
Print Assumptions C78_boundaries_sharp.
Print Assumptions C78_tile_numbers.
Print Assumptions C78_partitions.
Print Assumptions C78_partition_search.
Print Assumptions C78_parts.
Print Assumptions C78_words.
Print Assumptions C78_words_sharp.
Print Assumptions C78_tile_edges.
Print Assumptions C78_tile_columns.
Print Assumptions C78_reported_edges.
Print Assumptions C78_messages.
Print Assumptions C78_bidirectional.

(** concrete cases near the limits *)
Example C78_example_relabel : vertexToNative_c 64 8 int_max int_max = Some 2147483647 /\ vertexToNative_c 64 8 int_max 8191 = Some 2146951171 /\ nativeToVertex_c 64 8 int_max 2146951171 = Some 8191.
Proof. vm_compute. auto. Qed.
Example C78_example_boundaries : starts_c (int_max - 256 * 4) 4 = Some [0; 536870656; 1073741312; 1610611968; 2147482623] /\ starts_c int_max 2 = None.
Proof. vm_compute. auto. Qed.
Example C78_example_partitions : (do rp <- static_partition_c (int_max - 64) 16 32 ;; Ok (firstn 3 rp)) = Ok [0; 134217728; 268435456] /\ part_bounds_c 67108863 64 63 = Some (66060288, 67108863).
Proof. vm_compute. auto. Qed.
Example C78_example_reported : reported_nnz [3000000000; 3000000000] 3000000000 = 1705032704 /\ reported_nnz [2000000000; 2000000000] 2000000000 = 4000000000 /\ reported_nnz [9000000000] 9000000000 = 9000000000.
Proof. vm_compute. auto. Qed.
Example C78_example_messages : dense_counts 8 400000000 12500000 = (-1094967296, 50000000) /\ packed_counts 8 100000000 = (800000000, 400000000) /\ edge_counts 12 400000000 = 505032704.
Proof. vm_compute. auto. Qed.
Example C78_example_bidirectional : bidirectional_c 3 = Some (6, [(0, 1); (2, 3); (4, 5)]) /\ int_max < 2 * 2 ^ 30.
Proof. vm_compute. auto. Qed.
Example C78_example_tile : (do t <- dcsc_new isort 1 [mkE 10 1 5; mkE 40 3 6; mkE 2 1 7] 50 5 0 0 9 ;; Ok (firstn 4 (t_col_starts t), t_num_cols t)) = Ok ([0; 2; 4; 5], 18) /\
  col_starts_c 0 [1; 1; 0] = Some [0; 2; 4; 5].
Proof. vm_compute. auto. Qed.
