(** Properties of loading a matrix or graph: C02, C33 and the loading part of C16. *)
From Coq Require Import Sorting.Sorted.
From Verif Require Import Base BaseLemmas Layout Bits Segment BitsProofs Reduce DCSC MatSpec TileProofs SpMat SpMatProofs Vec GraphVert Graph GraphProofs.

(** A stable sort by key, used in the examples only. *)
Fixpoint kinsert {A} (x : Z * A) (l : list (Z * A)) : list (Z * A) :=
  match l with [] => [x] | y :: t => if fst x <=? fst y then x :: l else y :: kinsert x t end.
Definition ksort {A} (l : list (Z * A)) : list (Z * A) := fold_right kinsert [] l.
Lemma kinsert_perm {A} (x : Z * A) l : Permutation (x :: l) (kinsert x l).
Proof. induction l as [|y t IH]; simpl; auto. destruct (fst x <=? fst y); auto. rewrite perm_swap. constructor. auto. Qed.
Lemma kinsert_sorted {A} (x : Z * A) l : StronglySorted (fun a b => fst a <= fst b) l -> StronglySorted (fun a b => fst a <= fst b) (kinsert x l).
Proof.
  induction 1 as [|y t S IH F]; simpl; [repeat constructor|]. destruct (Z.leb_spec (fst x) (fst y)).
  - constructor; [constructor; auto|]. constructor; auto. eapply Forall_impl; [|exact F]. simpl. intros; lia.
  - constructor; auto. rewrite Forall_forall. intros z Hz. apply (Permutation_in _ (Permutation_sym (kinsert_perm x t))) in Hz. rewrite Forall_forall in F. destruct Hz as [<-|Hz]; [lia|auto].
Qed.
Lemma ksort_sorts {A} : sorts_by_key (@ksort A).
Proof. intros l. induction l as [|x l [P S]]; simpl; [split; constructor|]. split; [rewrite <- kinsert_perm; constructor; auto|apply kinsert_sorted; auto]. Qed.

(** C02.  [blobs]: the edge array each rank passes to ReadEdgelist; [outs]: what each rank gets
    from getEdgelist.  [srt]/[tsrt] are arbitrary (unstable) sorts. *)
Theorem C02_load_then_export {V E byte} srt tsrt nr threads junkA junkT vjunk ajunk (vfresh : option V) (afresh : option bool) (dv : V) n (blobs : list (list (edge E))) :
  sorts srt -> sorts_by_key tsrt -> 1 <= threads -> 1 <= nr -> 0 <= n -> zlen blobs = nr ->
  (forall e, In e (concat blobs) -> 1 <= e_src e <= n /\ 1 <= e_dst e <= n) ->
  exists g blobs' outs,
    @g_ReadEdgelist V E byte srt tsrt nr threads junkA junkT vjunk ajunk vfresh afresh dv n n blobs = Ok (g, blobs') /\
    mapR (g_getEdgelist nr g) (zrange 0 nr) = Ok outs /\ Permutation (concat outs) (concat blobs).
Proof. exact (load_export srt tsrt nr threads junkA junkT vjunk ajunk vfresh afresh dv n blobs). Qed.
Print Assumptions C02_load_then_export.

(** The edge arrays of the callers are not left alone: each rank's array holds the same edges
    renamed to internal ids, possibly reordered. *)
Theorem C02_callers_edges_are_renamed {V E byte} srt tsrt nr threads junkA junkT vjunk ajunk (vfresh : option V) (afresh : option bool) (dv : V) n (blobs : list (list (edge E))) g blobs' :
  sorts srt -> sorts_by_key tsrt -> 1 <= threads -> 1 <= nr -> 0 <= n -> zlen blobs = nr ->
  (forall e, In e (concat blobs) -> 1 <= e_src e <= n /\ 1 <= e_dst e <= n) ->
  @g_ReadEdgelist V E byte srt tsrt nr threads junkA junkT vjunk ajunk vfresh afresh dv n n blobs = Ok (g, blobs') ->
  exists pi : Z -> Z, (forall v, 1 <= v <= n -> vertexToNative threads nr n v = Ok (pi v)) /\
    Forall2 (fun b b' => Permutation (map (fun e => mkE (pi (e_src e)) (pi (e_dst e)) (e_val e)) b) b') blobs blobs'.
Proof. exact (load_callers srt tsrt nr threads junkA junkT vjunk ajunk vfresh afresh dv n blobs g blobs'). Qed.
Print Assumptions C02_callers_edges_are_renamed.

Definition exb : list (list (edge Z)) := [[mkE 1 2 10; mkE 300 7 11; mkE 299 300 12]; [mkE 1 2 13; mkE 300 1 14]].
Example C02_example : exists g outs,
  (do r <- @g_ReadEdgelist Z Z Z isort ksort 2 3 (fun _ _ _ => 0) (fun _ _ _ => 0) (fun _ => 0) (fun _ => 0) None None 5 300 300 exb ;; Ok (fst r)) = Ok g /\
  mapR (g_getEdgelist 2 g) (zrange 0 2) = Ok outs /\ map zlen outs = [4; 1] /\ g_nnz g = [5; 5].
Proof.
  exists (match (do r <- @g_ReadEdgelist Z Z Z isort ksort 2 3 (fun _ _ _ => 0) (fun _ _ _ => 0) (fun _ => 0) (fun _ => 0) None None 5 300 300 exb ;; Ok (fst r)) with Ok g => g | _ => mkG 0 0 (mkM 0 0 0 0 [] []) (mkM 0 0 0 0 [] []) [] [] [] end).
  exists (match (do r <- @g_ReadEdgelist Z Z Z isort ksort 2 3 (fun _ _ _ => 0) (fun _ _ _ => 0) (fun _ => 0) (fun _ => 0) None None 5 300 300 exb ;; mapR (g_getEdgelist 2 (fst r)) (zrange 0 2)) with Ok o => o | _ => [] end).
  split; [vm_compute; reflexivity|]. split; [vm_compute; reflexivity|]. split; vm_compute; reflexivity.
Qed.

(** C33.  [outs]: the edges held by each rank.  Every rank reports the high half of its own count
    and the low half of the total. *)
Theorem C33_reported_count {E} srt tsrt nr threads junk m n ntx nty (blobs : list (list (edge E))) :
  sorts srt -> sorts_by_key tsrt -> 1 <= threads -> 1 <= nr -> 0 <= m -> 0 <= n -> 1 <= ntx -> 1 <= nty -> zlen blobs = nr ->
  (forall e, In e (concat blobs) -> in_rect m n 0 0 e) ->
  exists a blobs' outs, mat_new srt tsrt nr threads junk m n ntx nty blobs = Ok (a, blobs') /\
    mapR (mat_get_edges a) (zrange 0 nr) = Ok outs /\ Permutation (concat outs) (concat blobs) /\
    mat_getNNZ nr a = Ok (map (fun out => zlen out / 2 ^ 32 * 2 ^ 32 + zlen (concat blobs) mod 2 ^ 32) outs).
Proof. exact (fun S T a b => count_spec srt tsrt S T nr threads a b junk m n ntx nty blobs). Qed.
Print Assumptions C33_reported_count.

Theorem C33_exact_mod_2_32 {E} srt tsrt nr threads junk m n ntx nty (blobs : list (list (edge E))) :
  sorts srt -> sorts_by_key tsrt -> 1 <= threads -> 1 <= nr -> 0 <= m -> 0 <= n -> 1 <= ntx -> 1 <= nty -> zlen blobs = nr ->
  (forall e, In e (concat blobs) -> in_rect m n 0 0 e) ->
  exists a blobs' counts, mat_new srt tsrt nr threads junk m n ntx nty blobs = Ok (a, blobs') /\ mat_getNNZ nr a = Ok counts /\ zlen counts = nr /\
    (forall c, In c counts -> c mod 2 ^ 32 = zlen (concat blobs) mod 2 ^ 32) /\
    (zlen (concat blobs) < 2 ^ 32 \/ nr = 1 -> forall c, In c counts -> c = zlen (concat blobs)).
Proof. exact (fun S T a b => count_exact srt tsrt S T nr threads a b junk m n ntx nty blobs). Qed.
Print Assumptions C33_exact_mod_2_32.

(** With several ranks and 2^32 edges or more every rank can be wrong: two ranks, [N] parallel
    edges in each of four tiles. *)
Theorem C33_exact_refuted {E} srt tsrt (w : E) junk N :
  sorts srt -> sorts_by_key tsrt -> 2 ^ 30 <= N < 2 ^ 31 ->
  exists a blobs', mat_new srt tsrt 2 1 junk 512 512 2 2 [four w N; []] = Ok (a, blobs') /\
    zlen (concat [four w N; []]) = 4 * N /\ mat_getNNZ 2 a = Ok [4 * N - 2 ^ 32; 4 * N - 2 ^ 32].
Proof. exact (count_refuted srt tsrt w junk N). Qed.
Print Assumptions C33_exact_refuted.

Example C33_example : exists a blobs', mat_new isort ksort 2 1 (fun _ _ _ => 0) 512 512 2 2 [four 9 3; []] = Ok (a, blobs') /\ mat_getNNZ 2 a = Ok [12; 12].
Proof.
  exists (match mat_new isort ksort 2 1 (fun _ _ _ => 0) 512 512 2 2 [four 9 3; []] with Ok (a, _) => a | _ => mkM 0 0 0 0 [] [] end),
    (match mat_new isort ksort 2 1 (fun _ _ _ => 0) 512 512 2 2 [four 9 3; []] with Ok (_, b) => b | _ => [] end). split; vm_compute; reflexivity.
Qed.
