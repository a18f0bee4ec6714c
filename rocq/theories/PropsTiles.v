(** C61: the tile formats that graphs do not use. *)
From Verif Require Import Base BaseLemmas DCSC EdgeList EdgeSpec EdgeFinal MatSpec TileProofs Tiles TilesProofs DcsrProofs SimdProofs SimdFinal HybridProofs.
Open Scope Z_scope.

(** Building a tile of rows (rs, rs+m] and columns (cs, cs+n] from any list of entries inside it, with
    any number of threads, whatever order the library sorts leave equal entries in: the constructor
    ends normally and the entries read back are those given, each as often as given.  [g] is what the
    memory behind an array contains where a constructor reads one element too far: any value. *)
Theorem C61_coo {E} srt threads g (es : list (edge E)) m n rs cs :
  sorts_ends srt -> 1 <= threads -> (forall e, In e es -> in_rect m n rs cs e) ->
  exists t out, coo_new srt threads (Some g) es m n rs cs = Ok t /\ coo_get_edges t rs cs = Ok out /\ Permutation es out.
Proof. exact (coo_kept srt threads g es m n rs cs). Qed.
Print Assumptions C61_coo.

Theorem C61_csr {E} srt threads (es : list (edge E)) m n rs cs :
  sorts_ends srt -> 1 <= threads -> (forall e, In e es -> in_rect m n rs cs e) ->
  exists t out, csr_new srt threads es m n rs cs = Ok t /\ csr_get_edges t rs cs = Ok out /\ Permutation es out.
Proof. exact (csr_kept srt threads es m n rs cs). Qed.
Print Assumptions C61_csr.

Theorem C61_dcsr {E} srt threads g (es : list (edge E)) m n rs cs :
  sorts_ends srt -> 1 <= threads -> (forall e, In e es -> in_rect m n rs cs e) ->
  exists t out, dcsr_new srt threads (Some g) es m n rs cs = Ok t /\ dcsr_get_edges t rs cs = Ok out /\ Permutation es out /\
    forall g', dcsr_new srt threads (Some g') es m n rs cs = Ok t.
Proof. exact (dcsr_kept srt threads g es m n rs cs). Qed.
Print Assumptions C61_dcsr.

Theorem C61_coosimd32 {E} bsrt binsrt threads (es : list (edge E)) m n rs cs :
  sorts bsrt -> (forall l, Permutation l (binsrt l)) -> 1 <= threads -> (forall e, In e es -> in_rect m n rs cs e) ->
  exists t out, simd_new bsrt binsrt threads es m n rs cs = Ok t /\ simd_get_edges t rs cs = Ok out /\ Permutation es out.
Proof. exact (simd_kept bsrt binsrt threads es m n rs cs). Qed.
Print Assumptions C61_coosimd32.

(** Rows with 16 entries or more go to the DCSR part, the others to the COOSIMD32 part. *)
Theorem C61_hybrid {E} srt bsrt binsrt threads g (es : list (edge E)) m n rs cs :
  sorts_ends srt -> sorts bsrt -> (forall l, Permutation l (binsrt l)) -> 1 <= threads -> (forall e, In e es -> in_rect m n rs cs e) -> es <> [] ->
  exists t out out1 out2, hybrid_new srt bsrt binsrt threads (Some g) es m n rs cs = Ok t /\ hybrid_get_edges t rs cs = Ok out /\ Permutation es out /\
    dcsr_get_edges (h_t1 t) rs cs = Ok out1 /\ simd_get_edges (h_t2 t) rs cs = Ok out2 /\ out = out1 ++ out2 /\
    let in_row e := zlen (filter (fun x => e_src x =? e_src e) es) in
    Permutation (filter (fun e => 16 <=? in_row e) es) out1 /\ Permutation (filter (fun e => negb (16 <=? in_row e)) es) out2.
Proof. exact (hybrid_kept srt bsrt binsrt threads g es m n rs cs). Qed.
Print Assumptions C61_hybrid.

(** A hybrid tile without entries cannot be built: the constructor uses row pointers that the
    temporary CSR tile never got. *)
Theorem C61_hybrid_without_entries_refuted {E} (srt : list (edge E) -> list (edge E)) bsrt binsrt threads past m n rs cs :
  sorts_ends srt -> 0 < m -> hybrid_new srt bsrt binsrt threads past [] m n rs cs = Err Uninit.
Proof. exact (hybrid_no_entries srt bsrt binsrt threads past m n rs cs). Qed.
Print Assumptions C61_hybrid_without_entries_refuted.

(** The DCSR constructor reads one element past the end of an array whenever the tile has few
    non-empty rows compared with the number of partitions (4 per thread). *)
Theorem C61_dcsr_reads_past_the_end {E} srt threads (es : list (edge E)) m n rs cs l :
  sorts_ends srt -> 1 <= threads -> (forall e, In e es -> in_rect m n rs cs e) -> es <> [] ->
  (forall e, In e es -> In (e_src e) l) -> zlen l <= 4 * threads * (4 * threads - 2) ->
  dcsr_new srt threads None es m n rs cs = Err OOB.
Proof. exact (dcsr_past_end srt threads es m n rs cs l). Qed.
Print Assumptions C61_dcsr_reads_past_the_end.

(** The vectorised part of a COOSIMD32 tile: each partition begins with groups of 32 entries, and two
    entries of a group are never in the same block of 32 rows. *)
Theorem C61_coosimd32_groups {E} bsrt binsrt threads (es : list (edge E)) m n rs cs :
  sorts bsrt -> (forall l, Permutation l (binsrt l)) -> 1 <= threads -> (forall e, In e es -> in_rect m n rs cs e) -> es <> [] ->
  exists t, simd_new bsrt binsrt threads es m n rs cs = Ok t /\ zlen (i_ia t) = zlen es /\ rd (i_ps t) 0 = Ok 0 /\ rd (i_ps t) (i_np t) = Ok (zlen es) /\ i_np t = 4 * threads /\
    forall p, 0 <= p < i_np t -> exists lo hi k, rd (i_ps t) p = Ok lo /\ rd (i_ps t) (p + 1) = Ok hi /\ rd (i_simd t) p = Ok (32 * k) /\ 0 <= k /\ 0 <= lo /\ lo + 32 * k <= hi /\ hi <= zlen es /\
      forall j a b, 0 <= j < k -> 0 <= a < b -> b < 32 -> exists r r', rd (i_ia t) (lo + 32 * j + a) = Ok r /\ rd (i_ia t) (lo + 32 * j + b) = Ok r' /\ (r - 1) / 32 <> (r' - 1) / 32.
Proof. exact (fun S B T H => simd_groups bsrt S binsrt B threads es m n rs cs T H). Qed.
Print Assumptions C61_coosimd32_groups.

(** 620 entries in a tile of 4200 rows, offset by (100, 50); one row has 20 entries or more. *)
Definition c61_es : list (edge Z) := map (fun i => mkE (100 + 1 + (i * 37) mod 4200) (50 + 1 + (i * 3) mod 40) i) (zrange 0 600) ++ map (fun i => mkE 105 (50 + 1 + i) (- i)) (zrange 0 20).
Example C61_example_inside : c61_es <> [] /\ forall e, In e c61_es -> in_rect 4200 40 100 50 e.
Proof.
  split; [discriminate|].
  assert (forallb (fun e => (100 <? e_src e) && (e_src e <=? 100 + 4200) && (50 <? e_dst e) && (e_dst e <=? 50 + 40)) c61_es = true) as H by (vm_compute; reflexivity).
  rewrite forallb_forall in H. intros e He. apply H in He. unfold in_rect. lia.
Qed.
Example C61_example_sorts : sorts_ends (@esort Z) /\ sorts (@isort Z) /\ forall l : list bin, Permutation l (rev l).
Proof. split; [apply esort_sorts|]. split; [apply isort_sorts|]. intros l. apply Permutation_rev. Qed.
(** where the four partitions begin, and how many of their entries are in groups of 32 *)
Example C61_example_groups : (do t <- simd_new isort (@rev bin) 1 c61_es 4200 40 100 50 ;; Ok (i_ps t, i_simd t)) = Ok ([0; 192; 338; 480; 620], [96; 64; 64; 64]).
Proof. vm_compute. reflexivity. Qed.
Example C61_example_parts : (do t <- hybrid_new esort isort (@rev bin) 1 (Some 7) c61_es 4200 40 100 50 ;; Ok (h_nnz1 t, h_nnz2 t, d_rows (h_t1 t))) = Ok (20, 600, [4]).
Proof. vm_compute. reflexivity. Qed.
(** three rows and one thread *)
Example C61_example_few_rows : dcsr_new esort 1 None [mkE 1 1 5; mkE 3 1 6; mkE 2 2 7] 3 2 0 0 = Err OOB /\ zlen [1; 2; 3] <= 4 * 1 * (4 * 1 - 2).
Proof. split; vm_compute; [reflexivity|discriminate]. Qed.
