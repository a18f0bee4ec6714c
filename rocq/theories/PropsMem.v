(** C73-C76: dynamic memory.  Specification in MemSpec.v ([leaves], [clean], [faults], [lost], [proper],
    [orderly]); model in Mem.v; proofs in MemProofs.v and MemFinal.v. *)
From Coq Require Import QArith.
From Verif Require Import Base Segment DCSC EdgeList Mem MemSpec MemFinal.
Open Scope Z_scope.

(** an empty heap, for the examples *)
Definition h0 : heap := mkHeap 0 [].
Example h0_ok : heap_ok h0. Proof. split; [constructor|intros b k []]. Qed.
Definition blocks_after {A} (m : M A) : option nat := match m h0 with Ok (_, h) => Some (length (h_live h)) | Err _ => None end.

(** C73: whatever a caller does with edge lists, if it succeeds on plain lists it succeeds with memory too,
    no block is given back twice or in the wrong way, and after the lists are cleared the blocks that are
    still in use are those from before and the arrays that [lost] counts; if it fails on plain lists it
    fails in the same way. *)
Theorem C73_edge_list_memory : forall E (acts : list (eact E)) h, Forall in_place acts -> heap_ok h ->
  match lists_run acts with
  | Ok (_, n) => exists h' K, ml_life acts h = Ok (tt, h') /\ heap_ok h' /\ length K = n /\ Permutation (h_live h') (K ++ h_live h)
  | Err e => ml_life acts h = Err e
  end.
Proof.
  intros E acts h IP H. destruct (lists_run acts) as [[ls n]|e] eqn:R.
  - destruct (lists_leave acts ls n IP R h H) as ([] & h' & K & X). exists h', K. exact X.
  - exact (lists_fail acts e h IP H R).
Qed.
(** in-place functions of the code change no count *)
Theorem C73_in_place : forall E i (fl : Q -> Q) (cast : Q -> E) rand_max rnd range,
  in_place (VOp i (ORewrite convert_to_dag : eop E)) /\ in_place (VOp i (ORewrite (random_edge_weights fl cast rand_max rnd range))) /\
  in_place (VOp i (ORewrite (randomize_edge_direction rand_max rnd : elist E -> R (elist E)))).
Proof.
  intros E i fl cast rand_max rnd range. repeat split; cbn; intros l r H; unfold convert_to_dag, random_edge_weights, randomize_edge_direction, rewrite_edges in H;
    (destruct (forZ _ _ _ _); [|discriminate]); inversion H; reflexivity.
Qed.
Print Assumptions C73_edge_list_memory.
Print Assumptions C73_in_place.
Definition ex_edges : elist Z := mkEL [Some (mkE 1 2 5); Some (mkE 2 2 6); Some (mkE 3 1 7); Some (mkE 3 1 8)] 3 3 4.
Definition ex_loops : elist Z := mkEL [Some (mkE 2 2 6)] 3 3 1.
Definition ex_acts : list (eact Z) :=
  [VNew; VOp 0 (OLoad ex_edges); VFilter 0 (fun e => e_val e <? 7); VOp 0 ORemoveSelf; VOp 0 (ORemoveDup (fun l => l)); VOp 0 OBidir; VOp 1 (ORewrite convert_to_dag)].
Example C73_example : lists_run ex_acts <> Err OOB /\
  match lists_run ex_acts with Ok (ls, n) => (map el_nnz ls, n) = ([4; 2], 0%nat) | Err _ => False end /\
  blocks_after (ml_life ex_acts) = Some 0%nat /\
  blocks_after (ml_life [VNew; VOp 0 (OLoad ex_loops); VOp 0 ORemoveSelf : eact Z]) = Some 1%nat.
Proof. vm_compute. repeat split; discriminate. Qed.

(** C74: a tile of any format that was built from edges gives back all its memory, and so do DCSC and CSR
    tiles read from an archive, a matrix with its transpose and a matrix read from an archive. *)
Theorem C74_tile_memory : forall nnz np nr counts countsT,
  clean (t <~ dcsc_build nnz ;; dcsc_destroy t) /\ clean (t <~ dcsc_load nnz ;; dcsc_destroy t) /\
  clean (t <~ csr_build nnz ;; csr_destroy t) /\ clean (t <~ csr_load nnz ;; csr_destroy t) /\
  clean (t <~ coo_build nnz ;; coo_destroy t) /\ clean (t <~ simd_build np nnz ;; simd_destroy t) /\
  clean (t <~ dcsr_build nnz ;; dcsr_destroy t) /\
  clean (m <~ mat_build nr counts ;; t <~ mat_transpose nr countsT m ;; mat_delete t ;;; mat_destroy m) /\
  clean (m <~ mat_load counts ;; mat_destroy m).
Proof.
  intros nnz np nr counts countsT.
  exact (conj (dcsc_clean nnz) (conj (dcsc_loaded_clean nnz) (conj (csr_clean nnz) (conj (csr_loaded_clean nnz) (conj (coo_clean nnz)
    (conj (simd_clean np nnz) (conj (dcsr_clean nnz) (conj (mat_clean nr counts countsT) (mat_loaded_clean counts))))))))).
Qed.
(** not so: COO and COOSIMD32 tiles read from an archive give back an array in the wrong way, a DCSR tile
    read from an archive gives back a pointer nobody set, a tile and its copy give back the same block *)
Theorem C74_loaded_tiles_refuted : forall nnz, 0 < nnz ->
  faults BadFree (t <~ coo_load nnz ;; coo_destroy t) /\
  faults BadFree (t <~ simd_load nnz ;; simd_destroy t) /\
  faults Uninit (t <~ dcsr_load nnz ;; dcsr_destroy t) /\
  faults DoubleFree (t <~ dcsc_build nnz ;; dcsc_destroy t ;;; dcsc_destroy t).
Proof.
  intros nnz H. exact (conj (coo_loaded_faults nnz H) (conj (simd_loaded_faults nnz H) (conj (dcsr_loaded_faults nnz H) (dcsc_copy_faults nnz H)))).
Qed.
(** not so: a DCSR tile that is cleared keeps its five arrays, and a hybrid tile keeps both its parts *)
Theorem C74_leaks_refuted : forall nnz np n1 n2,
  (0 < nnz -> leaves 5 (t <~ dcsr_build nnz ;; dcsr_destroy (dcsr_clear t))) /\
  leaves (2 + (if 0 <? n1 then 5 else 0) + (if 0 <? n2 then 5 else 0)) (t <~ hybrid_build np n1 n2 ;; hybrid_destroy t).
Proof. intros nnz np n1 n2. exact (conj (dcsr_clear_leaks nnz) (hybrid_leaks np n1 n2)). Qed.
Print Assumptions C74_tile_memory.
Print Assumptions C74_loaded_tiles_refuted.
Print Assumptions C74_leaks_refuted.
(** the tiles in these examples do request memory *)
Example C74_example :
  blocks_after (dcsc_build 3) = Some 7%nat /\ blocks_after (csr_build 3) = Some 3%nat /\ blocks_after (coo_build 3) = Some 4%nat /\
  blocks_after (simd_build 8 3) = Some 5%nat /\ blocks_after (dcsr_build 3) = Some 5%nat /\
  blocks_after (mat_build 2 [Some 3; None; Some 0; Some 1]) = Some 17%nat /\
  blocks_after (t <~ hybrid_build 8 20 3 ;; hybrid_destroy t) = Some 12%nat.
Proof. vm_compute. repeat split. Qed.

(** C75: a vector, new or read from an archive, that goes through any proper history of operations and
    ingests and is deleted, leaves one block behind for each ingest (three if the rank got no element) and
    nothing else; a history that is not proper can only fail with a broken precondition, never by giving
    back a block wrongly. *)
Theorem C75_vector_memory :
  (forall nr nseg acts, proper nseg [] acts -> leaves (vacts_leave acts) (vec_life nr (mvec_new nseg) acts)) /\
  (forall nr saved acts, proper (length saved) (saved_stored saved) acts -> leaves (vacts_leave acts) (vec_life nr (mvec_load saved) acts)).
Proof. exact (conj new_vector_leaves loaded_vector_leaves). Qed.
Theorem C75_no_bad_free : forall nr make acts h, (exists nseg, make = mvec_new nseg) \/ (exists saved, make = mvec_load saved) -> heap_ok h ->
  (exists a h' K, vec_life nr make acts h = Ok (a, h') /\ heap_ok h' /\ length K = vacts_leave acts /\ Permutation (h_live h') (K ++ h_live h)) \/
  vec_life nr make acts h = Err OOB \/ vec_life nr make acts h = Err AssertFail \/ vec_life nr make acts h = Err NullDeref.
Proof. exact vector_outcome. Qed.
Print Assumptions C75_vector_memory.
Print Assumptions C75_no_bad_free.
Definition ex_vacts : list vact :=
  [SIngest 4 [0%nat; 2%nat]; SOp 0 (MCompress true true); SOp 1 (MReceive true); SOp 0 (MDecompress true true); SOp 1 (MUnion true); SOp 1 MReset;
   SOp 1 (MReceive true); SOp 2 (MReceiveHere false)].
Example C75_example : proper 3 [] ex_vacts /\ vacts_leave ex_vacts = 1%nat /\ blocks_after (vec_life 2 (mvec_new 3) ex_vacts) = Some 1%nat /\
  blocks_after (v <~ mvec_new 3 ;; foldM (mvec_act 2) ex_vacts v) = Some 37%nat /\
  blocks_after (vec_life 2 (mvec_load [(true, (1%nat, 0%nat)); (false, (0%nat, 0%nat))]) [SOp 0 (MDecompress false true)]) = Some 0%nat /\
  vec_life 2 (mvec_new 3) [SOp 0 (MDecompress false true)] h0 = Err AssertFail.
Proof. vm_compute. repeat split; try lia; try (intros; discriminate); auto; repeat constructor; auto. Qed.

(** C76: a graph that is loaded once in any of the three ways, used in any orderly way by this rank, and
    destroyed: all memory is given back, except one block for a file without edges, and one (or three) for
    each saved property file. *)
Theorem C76_graph_memory : forall nr nseg mine l acts, Forall (fun k => (k < nseg)%nat) mine ->
  Forall (act_fits nseg mine) acts -> orderly false acts -> leaves (load_leaves l + acts_leave acts) (life nr nseg mine l acts).
Proof. intros nr nseg mine l acts H1 H2 H3. exact (life_leaves nr nseg mine H1 l acts H2 H3). Qed.
(** not so: a graph that is loaded twice loses the first one *)
Theorem C76_load_twice_refuted : forall nr nseg mine l1 l2 h, Forall (fun k => (k < nseg)%nat) mine -> heap_ok h ->
  exists a h' K, (g <~ load_graph nr nseg mine l1 mg_default ;; g <~ load_graph nr nseg mine l2 g ;; mg_destroy g) h = Ok (a, h') /\
    heap_ok h' /\ (4 <= length K)%nat /\ Permutation (h_live h') (K ++ h_live h).
Proof. exact load_twice_leaks. Qed.
Print Assumptions C76_graph_memory.
Print Assumptions C76_load_twice_refuted.
Definition ex_life : list mact :=
  [AUse [(0%nat, MTouch)] [(1%nat, MTouch)]; AInit; ARunWith [PMessages [(0%nat, MCompress false true); (0%nat, MDecompress false true)]; PResults [(1%nat, MReceive false); (1%nat, MUnion false)]];
   AClear; ARun [PProps [(0%nat, MTouch)]]; AReduce; AEdges; ASave 2 3 [0%nat]].
Example C76_example : Forall (fun k => (k < 2)%nat) [0%nat] /\ Forall (act_fits 2 [0%nat]) ex_life /\ orderly false ex_life /\
  blocks_after (life 2 2 [0%nat] (LFile 4 [Some 3; None] [Some 2; None]) ex_life) = Some 1%nat /\
  blocks_after (load_graph 2 2 [0%nat] (LFile 4 [Some 3; None] [Some 2; None]) mg_default) = Some 40%nat.
Proof.
  assert (A : forall ops, forallb (fun p => (fst p <? 2)%nat && (negb (needs (snd p)) || (fst p =? 0)%nat)) ops = true -> fits 2 [0%nat] ops).
  { intros ops H k o I. rewrite forallb_forall in H. specialize (H _ I). cbn [fst snd] in H. apply andb_prop in H. destruct H as (H1 & H2).
    split; [apply Nat.ltb_lt; exact H1|]. intro N. rewrite N in H2. apply Nat.eqb_eq in H2. left. symmetry. exact H2. }
  split; [repeat constructor|]. split; [|vm_compute; auto].
  unfold ex_life. repeat (apply Forall_cons || apply Forall_nil); cbn [act_fits]; auto; try (split; apply A; reflexivity);
    repeat (apply Forall_cons || apply Forall_nil); try (apply A; reflexivity); repeat constructor.
Qed.
