(** C67: archives of the tile formats that graphs do not use. *)
From Verif Require Import Base BaseLemmas Segment DCSC EdgeList EdgeSpec EdgeFinal MatSpec TileProofs Kernel Tiles TilesProofs DcsrProofs SimdProofs SimdFinal HybridProofs TileKernel TileArchive TileArchiveProofs.
Open Scope Z_scope.

(** [t] is a tile of rows (rs, rs+m] and columns (cs, cs+n], built from any list of entries inside it;
    [rest] is whatever follows in the archive; [junk] is what integers that were never set contain. *)
Theorem C67_csr {E} srt threads (es : list (edge E)) m n rs cs t rest :
  sorts_ends srt -> 1 <= threads -> (forall e, In e es -> in_rect m n rs cs e) -> csr_new srt threads es m n rs cs = Ok t ->
  exists ar, csr_save t = Ok ar /\ csr_load (ar ++ rest) = Ok (t, rest).
Proof. exact (fun S T H Hn => csr_archive threads es m n rs cs T H srt t rest S Hn). Qed.
Print Assumptions C67_csr.

Theorem C67_coo {E} srt threads g (es : list (edge E)) m n rs cs t junk rest :
  sorts_ends srt -> 1 <= threads -> (forall e, In e es -> in_rect m n rs cs e) -> es <> [] -> coo_new srt threads (Some g) es m n rs cs = Ok t ->
  exists ar, coo_save junk t = Ok ar /\ coo_load (ar ++ rest) = Ok (t, rest).
Proof. exact (fun S T H Hne Hn => proj1 (coo_archive threads es m n rs cs T H srt g junk t rest S Hn) Hne). Qed.
Print Assumptions C67_coo.

(** Without entries, an integer that was never set is written, and read back as the number of
    partitions. *)
Theorem C67_coo_no_entries {E} (srt : list (edge E) -> list (edge E)) threads g m n rs cs t junk rest :
  sorts_ends srt -> 1 <= threads -> coo_new srt threads (Some g) [] m n rs cs = Ok t ->
  coo_save None t = Err Uninit /\
  exists ar, coo_save (Some junk) t = Ok ar /\ coo_load (ar ++ rest) = Ok (mkCoo 0 m n junk [] [] [] [], rest).
Proof.
  exact (fun S T Hn => let r := proj2 (coo_archive threads [] m n rs cs T (fun e (F : In e []) => False_ind _ F) srt g (Some junk) t rest S Hn) eq_refl in conj (proj1 r) (proj2 r junk)).
Qed.
Print Assumptions C67_coo_no_entries.

(** A COOSIMD32 archive always contains an integer that was never set.  The tile read back has it
    behind the numbers of vectorised entries; its entries and its products are those of [t]. *)
Theorem C67_coosimd32 {E} bsrt binsrt threads (es : list (edge E)) m n rs cs t junk rest :
  sorts bsrt -> (forall l, Permutation l (binsrt l)) -> 1 <= threads -> (forall e, In e es -> in_rect m n rs cs e) -> simd_new bsrt binsrt threads es m n rs cs = Ok t ->
  simd_save None t = Err Uninit /\
  exists ar t', simd_save (Some junk) t = Ok ar /\ simd_load (ar ++ rest) = Ok (t', rest) /\
    (es <> [] -> t' = mkSimd (i_nnz t) (i_m t) (i_n t) (i_np t) (i_a t) (i_ja t) (i_ia t) (i_ps t) (i_simd t ++ [junk])) /\
    simd_get_edges t' rs cs = simd_get_edges t rs cs /\ forall U (add : U -> U -> U) xw f wv, simd_multiply add xw f t' wv = simd_multiply add xw f t wv.
Proof. exact (fun S B T H Hn => let r := simd_archive threads es m n rs cs T H bsrt binsrt t rest S B Hn in conj (proj1 r) (proj2 r junk)). Qed.
Print Assumptions C67_coosimd32.

(** Saving a DCSR tile reads past the end of its row pointers as soon as one row has no entry. *)
Theorem C67_dcsr_refuted {E} srt threads g (es : list (edge E)) m n rs cs t junk r :
  sorts_ends srt -> 1 <= threads -> (forall e, In e es -> in_rect m n rs cs e) -> es <> [] -> dcsr_new srt threads (Some g) es m n rs cs = Ok t ->
  rs < r <= rs + m -> (forall e, In e es -> e_src e <> r) -> dcsr_save junk t = Err OOB.
Proof. exact (fun S T H Hne Hn Hr Hno => proj1 (dcsr_archive threads es m n rs cs T H srt g junk t [] S Hn) Hne (ex_intro _ r (conj Hr Hno))). Qed.
Print Assumptions C67_dcsr_refuted.

(** If every row has an entry, the archive can be read, and has the entries; but the partitions are
    not in it, and multiplying with the tile reads through a pointer that was never set. *)
Theorem C67_dcsr_all_rows_refuted {E} srt threads g (es : list (edge E)) m n rs cs t junk rest :
  sorts_ends srt -> 1 <= threads -> (forall e, In e es -> in_rect m n rs cs e) -> es <> [] -> dcsr_new srt threads (Some g) es m n rs cs = Ok t ->
  (forall r, rs < r <= rs + m -> exists e, In e es /\ e_src e = r) ->
  exists ar t', dcsr_save junk t = Ok ar /\ dcsr_load (ar ++ rest) = Ok (t', rest) /\
    dcsr_get_edges t' rs cs = dcsr_get_edges t rs cs /\ forall U (add : U -> U -> U) xw f wv, dcsr_multiply add xw f t' wv = Err OOB.
Proof. exact (fun S T H Hne Hn Hall => proj1 (proj2 (dcsr_archive threads es m n rs cs T H srt g junk t rest S Hn)) Hne Hall). Qed.
Print Assumptions C67_dcsr_all_rows_refuted.

(** Without entries. *)
Theorem C67_dcsr_no_entries {E} (srt : list (edge E) -> list (edge E)) threads g m n rs cs t junk rest :
  sorts_ends srt -> 1 <= threads -> dcsr_new srt threads (Some g) [] m n rs cs = Ok t ->
  dcsr_save None t = Err Uninit /\
  exists ar, dcsr_save (Some junk) t = Ok ar /\ dcsr_load (ar ++ rest) = Ok (mkDcsr 0 m n junk junk [] [] [] [] [], rest).
Proof.
  exact (fun S T Hn => let r := proj2 (proj2 (dcsr_archive threads [] m n rs cs T (fun e (F : In e []) => False_ind _ F) srt g (Some junk) t rest S Hn)) eq_refl in conj (proj1 r) (proj2 r junk)).
Qed.
Print Assumptions C67_dcsr_no_entries.

(** Hybrid tiles: the archive is usable if no row has 16 entries or more; saving reads past the end of
    an array if some rows have and others have not; if all have, the tile read back cannot be
    multiplied. *)
Theorem C67_hybrid {E} srt bsrt binsrt threads g (es : list (edge E)) m n rs cs t junk rest :
  sorts_ends srt -> sorts bsrt -> (forall l, Permutation l (binsrt l)) -> 1 <= threads -> (forall e, In e es -> in_rect m n rs cs e) -> es <> [] ->
  hybrid_new srt bsrt binsrt threads (Some g) es m n rs cs = Ok t ->
  let in_row r := zlen (filter (fun x => e_src x =? r) es) in
  ((forall r, in_row r < 16) -> exists ar t', hybrid_save (Some junk) t = Ok ar /\ hybrid_load (ar ++ rest) = Ok (t', rest) /\
     hybrid_get_edges t' rs cs = hybrid_get_edges t rs cs /\ forall U (add : U -> U -> U) xw f wv, hybrid_multiply add xw f t' wv = hybrid_multiply add xw f t wv) /\
  (forall r r', 16 <= in_row r -> rs < r' <= rs + m -> in_row r' < 16 -> hybrid_save (Some junk) t = Err OOB) /\
  ((forall r, rs < r <= rs + m -> 16 <= in_row r) -> exists ar t', hybrid_save (Some junk) t = Ok ar /\ hybrid_load (ar ++ rest) = Ok (t', rest) /\
     hybrid_get_edges t' rs cs = hybrid_get_edges t rs cs /\ forall U (add : U -> U -> U) xw f wv, hybrid_multiply add xw f t' wv = Err OOB).
Proof. exact (fun S Sb B T H Hne Hn => hybrid_archive srt S bsrt Sb binsrt B threads es m n rs cs T H Hne g junk t rest Hn). Qed.
Print Assumptions C67_hybrid.

(** five entries in a tile of 40 rows: the archives of the formats *)
Definition c67_es : list (edge Z) := [mkE 11 6 1; mkE 49 7 2; mkE 11 7 3; mkE 30 6 4; mkE 49 7 5].
Example C67_example_inside : forall e, In e c67_es -> in_rect 40 2 10 5 e.
Proof. intros e He. unfold in_rect. cbn in He. intuition (subst; cbn; lia). Qed.
Example C67_example :
  (exists t, csr_new esort 1 c67_es 40 2 10 5 = Ok t /\ (do ar <- csr_save t ;; csr_load (ar ++ [IInt 7])) = Ok (t, [IInt 7])) /\
  (exists t, coo_new esort 1 (Some 0) c67_es 40 2 10 5 = Ok t /\ (do ar <- coo_save None t ;; coo_load (ar ++ [IInt 7])) = Ok (t, [IInt 7])) /\
  (exists t, dcsr_new esort 1 (Some 0) c67_es 40 2 10 5 = Ok t /\ dcsr_save (Some 0) t = Err OOB) /\
  (exists t, simd_new isort (@rev bin) 1 c67_es 40 2 10 5 = Ok t /\ (do ar <- simd_save (Some 99) t ;; do r <- simd_load ar ;; Ok (i_simd (fst r))) = Ok [0; 0; 0; 0; 99]) /\
  (exists t, hybrid_new esort isort (@rev bin) 1 (Some 0) c67_es 40 2 10 5 = Ok t /\ (do ar <- hybrid_save (Some 99) t ;; do r <- hybrid_load ar ;; hybrid_get_edges (fst r) 10 5) = hybrid_get_edges t 10 5).
Proof. repeat split; eexists; (split; [vm_compute; reflexivity|]); vm_compute; reflexivity. Qed.
(** two rows, both with entries *)
Example C67_example_all_rows : exists t, dcsr_new esort 1 (Some 0) [mkE 1 1 5; mkE 2 1 6] 2 1 0 0 = Ok t /\
  (do ar <- dcsr_save None t ;; do r <- dcsr_load ar ;; dcsr_get_edges (fst r) 0 0) = Ok [mkE 1 1 5; mkE 2 1 6] /\
  (do ar <- dcsr_save None t ;; do r <- dcsr_load ar ;; dcsr_multiply Z.add [1] (mul2 Z.mul [Some 3]) (fst r) ([0], [None; None])) = Err OOB.
Proof. eexists. split; [vm_compute; reflexivity|]. split; vm_compute; reflexivity. Qed.
(** a row with 16 entries beside a row with one *)
Example C67_example_heavy : (do t <- hybrid_new esort isort (@rev bin) 1 (Some 0) (mkE 2 1 0 :: map (fun i => mkE 1 (1 + i) i) (zrange 0 16)) 2 16 0 0 ;; hybrid_save (Some 0) t) = Err OOB.
Proof. vm_compute. reflexivity. Qed.
