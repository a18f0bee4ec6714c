(** C77, continued: the parallel loops of the tile formats that graphs do not use.  [any_schedule] and
    [reduction_gives] are explained in PropsPar.v; the pools of threads are in ParTiles.v. *)
From Verif Require Import BaseLemmas Segment Search Conc DCSC EdgeList EdgeSpec EdgeFinal MatSpec TileProofs Tiles ParLoop ParTiles ParTilesProofs ParTilesSimd.
Open Scope Z_scope.

(** COOTile.h:153-164, 172-188 and 196-201: splitting the entries into three arrays, finding where the
    partitions begin (the loop leaves the last element of the array alone), reading the entries back. *)
Theorem C77_coo_tile : forall E threads (es : list (edge E)) m n rs cs, 1 <= threads -> (forall e, In e es -> in_rect m n rs cs e) -> es <> [] ->
  forall srt past t, sorts_ends srt -> coo_new srt threads past es m n rs cs = Ok t ->
  (forall a0 b0 c0, zlen a0 = zlen es -> zlen b0 = zlen es -> zlen c0 = zlen es ->
     any_schedule (split_t rs cs (srt es)) (mkArrs a0 b0 c0 []) (mkArrs (map Some (o_a t)) (map Some (o_ja t)) (map Some (o_ia t)) [])) /\
  (exists rpp ps, rows_per m (o_np t) = Ok rpp /\ o_ps t = ps ++ [zlen es] /\ forall l0 x, zlen l0 = o_np t ->
     any_schedule (starts_t (l_binary_search 0 (zlen es) (match past with Some g => o_ia t ++ [g] | None => o_ia t end)) m rpp (o_np t)) (mkArrs (l0 ++ [x]) [] [] []) (mkArrs (map Some ps ++ [x]) [] [] [])) /\
  (forall r c out l0, coo_get_edges t r c = Ok out -> zlen l0 = zlen es ->
     any_schedule (export_t (o_nnz t) (o_a t) (o_ja t) (o_ia t) r c) (mkArrs l0 [] [] []) (mkArrs (map Some out) [] [] [])).
Proof. intros E. exact (@coo_loops E). Qed.

(** CSRTile.h:141-146 and 207-214 *)
Theorem C77_csr_tile : forall E threads (es : list (edge E)) m n rs cs, 1 <= threads -> (forall e, In e es -> in_rect m n rs cs e) -> es <> [] ->
  forall srt t, sorts_ends srt -> csr_new srt threads es m n rs cs = Ok t ->
  (forall a0 b0 c0, zlen a0 = zlen es -> zlen b0 = zlen es -> zlen c0 = zlen es ->
     any_schedule (split_t rs cs (srt es)) (mkArrs a0 b0 c0 []) (mkArrs (map Some (s_a t)) (map Some (s_ja t)) (map Some (map (fun e => e_src e - rs) (srt es))) [])) /\
  (forall r c out l0, csr_get_edges t r c = Ok out -> zlen l0 = zlen es ->
     any_schedule (csr_edges_t t r c) (mkArrs l0 [] [] []) (mkArrs (map Some out) [] [] [])).
Proof. intros E. exact (@csr_loops E). Qed.

(** DCSRTile.h:232-241: whatever the reduction does with the counts of the iterations, the assertion
    that follows the loop holds. *)
Theorem C77_dcsr_tile : forall E threads (es : list (edge E)) m n rs cs, 1 <= threads -> (forall e, In e es -> in_rect m n rs cs e) -> es <> [] ->
  forall srt past t, sorts_ends srt -> dcsr_new srt threads past es m n rs cs = Ok t ->
  forall r c out l0 c0, dcsr_get_edges t r c = Ok out -> zlen l0 = zlen es -> zlen c0 = d_num_rows t ->
    exists cnts, any_schedule (dcsr_edges_t t r c) (mkArrs l0 c0 [] []) (mkArrs (map Some out) (map Some cnts) [] []) /\
      forall k, reduction_gives Z.add 0 0 cnts k -> k = zlen es.
Proof. intros E. exact (@dcsr_loops E). Qed.

(** COOSIMD32Tile.h:174-181, 186-190, 200-219, 224-318 and 373-378.  In the fourth loop the threads
    read and overwrite the same array [ia]. *)
Theorem C77_coosimd32_tile : forall E threads (es : list (edge E)) m n rs cs, 1 <= threads -> (forall e, In e es -> in_rect m n rs cs e) -> es <> [] ->
  forall bsrt binsrt t, sorts bsrt -> (forall l, Permutation l (binsrt l)) -> simd_new bsrt binsrt threads es m n rs cs = Ok t ->
  let tag e := let src := e_src e - rs in (Z.quot (src - 1) 32, mkE src (e_dst e - cs) (e_val e)) in
  let tmp := bsrt (map tag es) in
  let ia := map (fun e => e_src (snd e)) tmp in
  (forall l0, zlen l0 = zlen es -> any_schedule (compute_t (fun e => Ok (tag e)) es) (mkArrs l0 [] [] []) (mkArrs (map Some (map tag es)) [] [] [])) /\
  (forall l0, zlen l0 = zlen es -> any_schedule (compute_t (fun e : tedge E => Ok (e_src (snd e))) tmp) (mkArrs l0 [] [] []) (mkArrs (map Some ia) [] [] [])) /\
  (exists rpp ps, rows_per m (i_np t) = Ok rpp /\ i_ps t = ps ++ [zlen es] /\
     (forall l0 x, zlen l0 = i_np t -> any_schedule (starts_t (l_linear_search 0 (zlen es) ia) m rpp (i_np t)) (mkArrs (l0 ++ [x]) [] [] []) (mkArrs (map Some ps ++ [x]) [] [] [])) /\
     (forall l0 x, zlen l0 = i_np t -> any_schedule (simd_arrays_t binsrt tmp (i_ps t) m rpp (i_np t))
        (mkArrs (repeat None (Z.to_nat (zlen es))) (repeat None (Z.to_nat (zlen es))) ia (l0 ++ [x]))
        (mkArrs (map Some (i_a t)) (map Some (i_ja t)) (i_ia t) (map Some (i_simd t) ++ [x])))) /\
  (forall r c out l0, simd_get_edges t r c = Ok out -> zlen l0 = zlen es ->
     any_schedule (export_t (i_nnz t) (i_a t) (i_ja t) (i_ia t) r c) (mkArrs l0 [] [] []) (mkArrs (map Some out) [] [] [])).
Proof. intros E. exact (@simd_loops E). Qed.

(** HybridTile.h has no parallel loop of its own: it makes a CSR, a DCSR and a COOSIMD32 tile of
    entries that it was given, to which the theorems above apply. *)
Theorem C77_hybrid_tile : forall E srt bsrt binsrt threads past (es : list (edge E)) m n rs cs t, sorts_ends srt -> hybrid_new srt bsrt binsrt threads past es m n rs cs = Ok t ->
  exists t0 es1 es2, csr_new srt threads (srt es) m n rs cs = Ok t0 /\ dcsr_new srt threads past es1 m n rs cs = Ok (h_t1 t) /\ simd_new bsrt binsrt threads es2 m n rs cs = Ok (h_t2 t) /\
    forall e, In e (srt es) \/ In e es1 \/ In e es2 -> In e es.
Proof. intros E. exact (@hybrid_parts E). Qed.
Print Assumptions C77_coo_tile.
Print Assumptions C77_csr_tile.
Print Assumptions C77_dcsr_tile.
Print Assumptions C77_coosimd32_tile.
Print Assumptions C77_hybrid_tile.

(** 620 entries in a tile of 4200 rows, offset by (100, 50): the hypotheses hold, and the fourth
    COOSIMD32 loop has groups of 32 to fill in each partition. *)
Definition c77_es : list (edge Z) := map (fun i => mkE (100 + 1 + (i * 37) mod 4200) (50 + 1 + (i * 3) mod 40) i) (zrange 0 600) ++ map (fun i => mkE 105 (50 + 1 + i) (- i)) (zrange 0 20).
Example C77_example_tiles_hypotheses : c77_es <> [] /\ (forall e, In e c77_es -> in_rect 4200 40 100 50 e) /\ sorts_ends (@esort Z) /\ sorts (@isort Z) /\ forall l : list bin, Permutation l (rev l).
Proof.
  split; [discriminate|]. split; [|split; [apply esort_sorts|split; [apply isort_sorts|intros l; apply Permutation_rev]]].
  assert (forallb (fun e => (100 <? e_src e) && (e_src e <=? 100 + 4200) && (50 <? e_dst e) && (e_dst e <=? 50 + 40)) c77_es = true) as H by (vm_compute; reflexivity).
  rewrite forallb_forall in H. intros e He. apply H in He. unfold in_rect. lia.
Qed.
(** 58 entries in a tile of 40 rows; row 5 has 18 of them *)
Definition c77_small : list (edge Z) := map (fun i => mkE (100 + 1 + (i * 7) mod 40) (50 + 1 + i) i) (zrange 0 40) ++ map (fun i => mkE 105 (50 + 1 + i) (- i)) (zrange 0 18).
Example C77_example_tiles_small : c77_small <> [] /\ forall e, In e c77_small -> in_rect 40 40 100 50 e.
Proof.
  split; [discriminate|].
  assert (forallb (fun e => (100 <? e_src e) && (e_src e <=? 100 + 40) && (50 <? e_dst e) && (e_dst e <=? 50 + 40)) c77_small = true) as H by (vm_compute; reflexivity).
  rewrite forallb_forall in H. intros e He. apply H in He. unfold in_rect. lia.
Qed.
Example C77_example_coo : (do t <- coo_new esort 1 (Some 7) c77_small 40 40 100 50 ;; do o <- coo_get_edges t 100 50 ;; Ok (o_ps t, zlen o)) = Ok ([0; 50; 58; 58; 58], 58).
Proof. vm_compute. reflexivity. Qed.
Example C77_example_csr : (do t <- csr_new esort 1 c77_small 40 40 100 50 ;; do o <- csr_get_edges t 100 50 ;; Ok (firstn 7 (s_ia t), zlen o)) = Ok ([1; 2; 3; 4; 5; 24; 25], 58).
Proof. vm_compute. reflexivity. Qed.
Example C77_example_dcsr : (do t <- dcsr_new esort 1 (Some 7) c77_small 40 40 100 50 ;; do o <- dcsr_get_edges t 100 50 ;; Ok (d_num_rows t, zlen o)) = Ok (40, 58).
Proof. vm_compute. reflexivity. Qed.
Example C77_example_hybrid : (do t <- hybrid_new esort isort (@rev bin) 1 (Some 7) c77_small 40 40 100 50 ;; Ok (h_nnz1 t, h_nnz2 t)) = Ok (19, 39).
Proof. vm_compute. reflexivity. Qed.
Example C77_example_coosimd32 : (do t <- simd_new isort (@rev bin) 1 c77_es 4200 40 100 50 ;; Ok (i_ps t, i_simd t)) = Ok ([0; 192; 338; 480; 620], [96; 64; 64; 64]).
Proof. vm_compute. reflexivity. Qed.
