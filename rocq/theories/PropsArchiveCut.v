(** C86: archives of tiles and vectors of which the end is missing are refused.  [cut_short whole kept]
    (ArchiveCut.v): [kept] is a beginning of [whole] that lacks at least the last item; a cut inside an
    item counts as one before it.  The other notions are those of C32, C67 and C71. *)
From Verif Require Import Base BaseLemmas Layout Segment DCSC DCSCFinal EdgeList EdgeSpec EdgeFinal MatSpec TileProofs Kernel Tiles TilesProofs DcsrProofs SimdProofs SimdFinal HybridProofs TileKernel TileArchive TileArchiveProofs.
From Verif Require Import SegHistory SegHistoryProofs SegFinal Vec VecProofs VecArchive VecArchiveProofs ArchiveCut.
From Verif Require Import PropsDCSC PropsMat PropsTileArchive PropsVecArchive.
Open Scope Z_scope.

(** The tiles of graphs, built from any list of entries, or with sizes that agree. *)
Theorem C86_tile {E} srt threads (es : list (edge E)) m n rs cs junk t ar kept :
  sorts srt -> 1 <= threads -> (forall e, In e es -> in_rect m n rs cs e) -> dcsc_new srt threads es m n rs cs junk = Ok t ->
  dcsc_save t = Ok ar -> cut_short ar kept -> exists e, dcsc_load kept = Err e.
Proof.
  intros S T H Hn Hs. destruct (C32_archive_round_trip srt threads es m n rs cs junk t [] S T H Hn) as (ar' & Es & El). rewrite Hs in Es. injection Es as <-. rewrite app_nil_r in El. exact (cut_refused _ _ _ _ steady_dcsc El).
Qed.
Print Assumptions C86_tile.
Theorem C86_any_tile {E} (t : dcsc E) ar kept : shaped t -> dcsc_save t = Ok ar -> cut_short ar kept -> exists e, dcsc_load kept = Err e.
Proof.
  intros S Hs. destruct (C32_archive_any_tile t [] S) as (ar' & Es & El). rewrite Hs in Es. injection Es as <-. rewrite app_nil_r in El. exact (cut_refused _ _ _ _ steady_dcsc El).
Qed.
Print Assumptions C86_any_tile.
(** The other formats, wherever saving succeeds. *)
Theorem C86_csr {E} srt threads (es : list (edge E)) m n rs cs t ar kept :
  sorts_ends srt -> 1 <= threads -> (forall e, In e es -> in_rect m n rs cs e) -> csr_new srt threads es m n rs cs = Ok t ->
  csr_save t = Ok ar -> cut_short ar kept -> exists e, csr_load kept = Err e.
Proof.
  intros S T H Hn Hs. destruct (C67_csr srt threads es m n rs cs t [] S T H Hn) as (ar' & Es & El). rewrite Hs in Es. injection Es as <-. rewrite app_nil_r in El. exact (cut_refused _ _ _ _ steady_csr El).
Qed.
Print Assumptions C86_csr.
Theorem C86_coo {E} srt threads g (es : list (edge E)) m n rs cs t junk ar kept :
  sorts_ends srt -> 1 <= threads -> (forall e, In e es -> in_rect m n rs cs e) -> coo_new srt threads (Some g) es m n rs cs = Ok t ->
  coo_save junk t = Ok ar -> cut_short ar kept -> exists e, coo_load kept = Err e.
Proof.
  intros S T H Hn Hs. destruct es as [|e es].
  - destruct junk as [j|]; [|rewrite (proj1 (C67_coo_no_entries srt threads g m n rs cs t 0 [] S T Hn)) in Hs; discriminate].
    destruct (C67_coo_no_entries srt threads g m n rs cs t j [] S T Hn) as (_ & ar' & Es & El). rewrite Hs in Es. injection Es as <-. rewrite app_nil_r in El. exact (cut_refused _ _ _ _ steady_coo El).
  - destruct (C67_coo srt threads g (e :: es) m n rs cs t junk [] S T H ltac:(discriminate) Hn) as (ar' & Es & El). rewrite Hs in Es. injection Es as <-. rewrite app_nil_r in El. exact (cut_refused _ _ _ _ steady_coo El).
Qed.
Print Assumptions C86_coo.
Theorem C86_coosimd32 {E} bsrt binsrt threads (es : list (edge E)) m n rs cs t junk ar kept :
  sorts bsrt -> (forall l, Permutation l (binsrt l)) -> 1 <= threads -> (forall e, In e es -> in_rect m n rs cs e) -> simd_new bsrt binsrt threads es m n rs cs = Ok t ->
  simd_save junk t = Ok ar -> cut_short ar kept -> exists e, simd_load kept = Err e.
Proof.
  intros S B T H Hn Hs. destruct (C67_coosimd32 bsrt binsrt threads es m n rs cs t (match junk with Some j => j | None => 0 end) [] S B T H Hn) as (No & ar' & t' & Es & El & _).
  destruct junk as [j|]; [|rewrite No in Hs; discriminate]. rewrite Hs in Es. injection Es as <-. rewrite app_nil_r in El. exact (cut_refused _ _ _ _ steady_simd El).
Qed.
Print Assumptions C86_coosimd32.
Theorem C86_dcsr {E} srt threads g (es : list (edge E)) m n rs cs t junk ar kept :
  sorts_ends srt -> 1 <= threads -> (forall e, In e es -> in_rect m n rs cs e) -> dcsr_new srt threads (Some g) es m n rs cs = Ok t ->
  dcsr_save junk t = Ok ar -> cut_short ar kept -> exists e, dcsr_load kept = Err e.
Proof.
  intros S T H Hn Hs. destruct es as [|e es].
  - destruct junk as [j|]; [|rewrite (proj1 (C67_dcsr_no_entries srt threads g m n rs cs t 0 [] S T Hn)) in Hs; discriminate].
    destruct (C67_dcsr_no_entries srt threads g m n rs cs t j [] S T Hn) as (_ & ar' & Es & El). rewrite Hs in Es. injection Es as <-. rewrite app_nil_r in El. exact (cut_refused _ _ _ _ steady_dcsr El).
  - assert (forall r, rs < r <= rs + m -> exists e0, In e0 (e :: es) /\ e_src e0 = r) as Hall.
    { intros r Br. destruct (in_dec Z.eq_dec r (map e_src (e :: es))) as [I|N]; [apply in_map_iff in I as (e0 & Q & I); eauto|]. exfalso.
      rewrite (C67_dcsr_refuted srt threads g (e :: es) m n rs cs t junk r S T H ltac:(discriminate) Hn Br) in Hs; [discriminate|]. intros e0 I Q. apply N. rewrite <- Q. apply in_map. exact I. }
    destruct (C67_dcsr_all_rows_refuted srt threads g (e :: es) m n rs cs t junk [] S T H ltac:(discriminate) Hn Hall) as (ar' & t' & Es & El & _). rewrite Hs in Es. injection Es as <-. rewrite app_nil_r in El. exact (cut_refused _ _ _ _ steady_dcsr El).
Qed.
Print Assumptions C86_dcsr.
Theorem C86_hybrid {E} srt bsrt binsrt threads g (es : list (edge E)) m n rs cs t junk ar kept :
  sorts_ends srt -> sorts bsrt -> (forall l, Permutation l (binsrt l)) -> 1 <= threads -> (forall e, In e es -> in_rect m n rs cs e) -> es <> [] ->
  hybrid_new srt bsrt binsrt threads (Some g) es m n rs cs = Ok t ->
  hybrid_save (Some junk) t = Ok ar -> cut_short ar kept -> exists e, hybrid_load kept = Err e.
Proof.
  intros S Sb B T H Hne Hn Hs. pose proof (C67_hybrid srt bsrt binsrt threads g es m n rs cs t junk [] S Sb B T H Hne Hn) as (H1 & H2 & H3).
  set (in_row := fun r => zlen (filter (fun x => e_src x =? r) es)) in *. cbv zeta in H1, H2, H3.
  assert ((forall r, in_row r < 16) \/ exists r, 16 <= in_row r) as [L|(r & Hr)].
  { destruct (existsb (fun e => 16 <=? in_row (e_src e)) es) eqn:X.
    - right. apply existsb_exists in X as (e & _ & X). exists (e_src e). apply Z.leb_le. exact X.
    - left. intros r. destruct (Z_lt_dec (in_row r) 16) as [|N]; [auto|]. exfalso. assert (exists e, In e es /\ e_src e = r) as (e & Ie & <-).
      { unfold in_row in N. destruct (filter (fun x => e_src x =? r) es) as [|e l] eqn:F; [exfalso; apply N; reflexivity|]. assert (In e (filter (fun x => e_src x =? r) es)) as I by (rewrite F; simpl; auto). apply filter_In in I as [I Q]. exists e. split; [auto|apply Z.eqb_eq; auto]. }
      rewrite <- not_true_iff_false in X. apply X. apply existsb_exists. exists e. split; [auto|]. apply Z.leb_le. lia. }
  - destruct (H1 L) as (ar' & t' & Es & El & _). rewrite Hs in Es. injection Es as <-. rewrite app_nil_r in El. exact (cut_refused _ _ _ _ steady_hybrid El).
  - destruct H3 as (ar' & t' & Es & El & _).
    + intros r' Br'. destruct (Z_lt_dec (in_row r') 16) as [Lt|Ge]; [|apply Z.nlt_ge; exact Ge]. exfalso. rewrite (H2 r r' Hr Br' Lt) in Hs. discriminate.
    + rewrite Hs in Es. injection Es as <-. rewrite app_nil_r in El. exact (cut_refused _ _ _ _ steady_hybrid El).
Qed.
Print Assumptions C86_hybrid.
(** A rank's part of a vector after any history. *)
Theorem C86_vector {T byte} n ns nr (jz : Z -> Z) (jt : Z -> T) junk fresh junk2 fresh2 threads r (ops : list (sop T)) (v : vobj T byte) ar kept :
  0 <= n -> 1 <= ns -> 1 <= nr -> 1 <= threads -> Forall (sop_in_range n) ops ->
  archive_after jz jt n ns nr junk fresh threads r ops = Ok (v, ar) -> cut_short ar kept -> exists e, vec_restore junk2 fresh2 kept = Err e.
Proof.
  intros Hn Hs Hr Ht Ho Ea. destruct (@rank_trip T byte n ns nr Hn Hs Hr jz jt junk fresh junk2 fresh2 threads r ops Ht Ho) as (v1 & ar1 & v' & E1 & L & _). rewrite Ea in E1. injection E1 as <- <-. specialize (L []). rewrite app_nil_r in L. exact (cut_refused _ _ _ _ (stv_vec junk2 fresh2) L).
Qed.
Print Assumptions C86_vector.

(** all cuts of the archives of the tiles of C67's example and of a vector of 40 *)
Definition bad {A} (x : R A) : bool := match x with Ok _ => false | Err _ => true end.
Definition all_cuts {I A} (load : list I -> R A) (ar : list I) : bool * bool := (forallb (fun k => bad (load (firstn k ar))) (seq 0 (length ar)), bad (load ar)).
Example C86_example :
  (do t <- dcsc_new isort 1 ex_edges 70 10 0 0 0 ;; do ar <- dcsc_save t ;; Ok (all_cuts dcsc_load ar)) = Ok (true, false) /\
  (do t <- csr_new esort 1 c67_es 40 2 10 5 ;; do ar <- csr_save t ;; Ok (all_cuts csr_load ar)) = Ok (true, false) /\
  (do t <- coo_new esort 1 (Some 0) c67_es 40 2 10 5 ;; do ar <- coo_save None t ;; Ok (all_cuts coo_load ar)) = Ok (true, false) /\
  (do t <- simd_new isort (@rev bin) 1 c67_es 40 2 10 5 ;; do ar <- simd_save (Some 99) t ;; Ok (all_cuts simd_load ar)) = Ok (true, false) /\
  (do t <- dcsr_new esort 1 (Some 0) [mkE 1 1 5; mkE 2 1 6] 2 1 0 0 ;; do ar <- dcsr_save None t ;; Ok (all_cuts dcsr_load ar)) = Ok (true, false) /\
  (do t <- hybrid_new esort isort (@rev bin) 1 (Some 0) c67_es 40 2 10 5 ;; do ar <- hybrid_save (Some 99) t ;; Ok (all_cuts hybrid_load ar)) = Ok (true, false) /\
  (do a <- archive_after (byte:=unit) (fun p => p) (fun _ => 77) 40 3 2 (fun _ => 13) None 2 0 [OSetAll 5; OUnset 7] ;; Ok (all_cuts (vec_restore 0 None) (snd a), length (snd a))) = Ok ((true, false), 308%nat).
Proof. repeat split; vm_compute; reflexivity. Qed.
