(** Properties of the applications in src/: C52-C59, C64.
    [setting m n blobs]: the ranks together hold the edges [concat blobs] between vertices 1..n on a
    machine [m] (any number of ranks and threads, any sort that sorts, any uninitialised memory);
    [threads_ok], [frame_ok]: the thread count and the temporary vectors are usable.
    [shows_properties n m g P]: on every rank, reading the property of [v] from the graph [g] gives
    [P v] if the rank owns [v]. *)
From Verif Require Import Base BaseLemmas Layout Reduce Segment DCSC MatSpec TileProofs SpMat Vec GraphVert Graph Runtime RunSpec GraphOps GraphHist.
From Verif Require Import RunFinal PropsMat Apps AppSpec AppExample BfsProofs LabelProofs SsspProofs SsspWrap.

(** ** C52: breadth-first search *)
Theorem C52_bfs_finds_hop_distances {byte} (m : machine bfs_vertex Z byte) n s blobs th fr dt dv fuel :
  setting m n blobs -> n < 2 ^ 31 -> 1 <= s <= n -> threads_ok m (m_serv m) th -> frame_ok m th fr -> (Z.to_nat n <= fuel)%nat ->
  exists g k P, run_bfs m th fr dt dv fuel n blobs s = Ok (g, map (fun _ => k) (zrange 0 (m_nr m))) /\ shows_properties n m g P /\
    (forall v, 1 <= v <= n ->
       (b_depth (P v) = MAX_DIST /\ b_parent (P v) = 2 ^ 64 - 1 /\ ~ reachable (concat blobs) s v) \/
       (exists h, hop_distance (concat blobs) s v h /\ b_depth (P v) = Z.of_nat h /\ Z.of_nat h < n /\ (v = s -> b_parent (P v) = 2 ^ 64 - 1) /\
          (v <> s -> exists e h', In e (concat blobs) /\ e_dst e = v /\ b_parent (P v) = e_src e /\ hop_distance (concat blobs) s (e_src e) h' /\ h = S h'))) /\
    counts n (reachable (concat blobs) s) k.
Proof. exact (fun H Hn Hs Ht Hf => run_bfs_spec m n s blobs H Hn Hs th fr dt dv fuel Ht Hf). Qed.
Print Assumptions C52_bfs_finds_hop_distances.

(** ** C53: single-source shortest paths *)
(** When no sum along a path without repeated vertices reaches 2^32-1, the distances are exact. *)
Theorem C53_sssp_finds_distances {byte} (m : machine Z Z byte) n s blobs th fr dt dv fuel :
  setting m n blobs -> n < 2 ^ 31 -> 1 <= s <= n -> threads_ok m (m_serv m) th -> frame_ok m th fr -> (Z.to_nat n <= fuel)%nat ->
  (forall e, In e (concat blobs) -> 0 <= e_val e) -> sums_fit (concat blobs) s ->
  exists g k P, run_sssp m th fr dt dv fuel n blobs s = Ok (g, map (fun _ => k) (zrange 0 (m_nr m))) /\ shows_properties n m g P /\
    (forall v, 1 <= v <= n -> (P v = MAX_DIST /\ ~ reachable (concat blobs) s v) \/ (P v < MAX_DIST /\ distance (concat blobs) s v (P v))) /\
    counts n (reachable (concat blobs) s) k.
Proof. exact (fun H Hn Hs Ht Hf Hu Hp Hw => run_sssp_spec m n s blobs H Hn Hs th fr dt dv fuel Ht Hf Hp Hw Hu). Qed.
Print Assumptions C53_sssp_finds_distances.
(** It is enough that n times the largest weight is less than 2^32-1. *)
Theorem C53_bounded_weights_fit n s es W : 1 <= s <= n -> (forall e, In e es -> 1 <= e_src e <= n /\ 1 <= e_dst e <= n) -> (forall e, In e es -> 0 <= e_val e) ->
  (forall e, In e es -> e_val e <= W) -> n * W < 2 ^ 32 - 1 -> sums_fit es s.
Proof. exact (fun Hs Hi Hp => bounded_fit n s es Hs Hi Hp W (2 ^ 32 - 1)). Qed.
Print Assumptions C53_bounded_weights_fit.
(** It ends for every weights, even negative ones or ones whose sums overflow. *)
Theorem C53_sssp_always_ends {byte} (m : machine Z Z byte) n s blobs th fr dt dv fuel :
  setting m n blobs -> 1 <= s <= n -> threads_ok m (m_serv m) th -> frame_ok m th fr -> (Z.to_nat (n * 2 ^ 32) < fuel)%nat ->
  exists g l P, run_sssp m th fr dt dv fuel n blobs s = Ok (g, l) /\ shows_properties n m g P.
Proof. exact (run_sssp_ends m n s blobs th fr dt dv fuel). Qed.
Print Assumptions C53_sssp_always_ends.

(** examples: two ranks, three threads each, values sent as lists of numbers *)
Definition b_to (b : bfs_vertex) : list Z := [b_depth b; b_parent b; b_id b].
Definition b_of (l : list Z) : R bfs_vertex := match l with [a; b; c] => Ok (mkB a b c) | _ => Err Uninit end.
Definition ax_blobs : list (list (edge Z)) := [[mkE 1 2 4; mkE 2 3 1; mkE 4 2 7]; [mkE 1 3 9; mkE 3 4 2; mkE 5 1 3]].
Lemma ax_setting {V} (to : V -> list Z) of ser : (forall a, of (to a) = Ok a) -> setting (ax_m to of ser) 5 ax_blobs.
Proof. intros H. split; [apply ax_m_ok; auto|]. split; [lia|]. split; [reflexivity|]. cbn. intuition subst; cbn; lia. Qed.
Lemma b_ok a : b_of (b_to a) = Ok a. Proof. destruct a; reflexivity. Qed.
Lemma z_ok a : z_of (z_to a) = Ok a. Proof. reflexivity. Qed.
Definition axf_z : frame Z Z (list Z) := ax_f z_to z_of z_to z_of true 77.

Example C52_example : (setting (ax_m b_to b_of true) 5 ax_blobs /\ threads_ok (ax_m b_to b_of true) (m_serv (ax_m b_to b_of true)) 3 /\ frame_ok (ax_m b_to b_of true) 3 axf_z) /\
  (do q <- run_bfs (ax_m b_to b_of true) 3 axf_z 6 bfs_new 5 5 ax_blobs 1 ;;
   do l <- ax_read (ax_m b_to b_of true) (fst q) bfs_new 5 ;; Ok (map (fun p => (b_depth p, b_parent p)) l, snd q))
  = Ok ([(0, 2 ^ 64 - 1); (1, 1); (1, 1); (2, 3); (MAX_DIST, 2 ^ 64 - 1)], [4; 4]).
Proof. split; [|vm_compute; reflexivity]. split; [apply ax_setting, b_ok|]. split; [split; [lia|reflexivity]|]. apply ax_f_ok; auto using z_ok. Qed.
Example C53_example : (setting (ax_m z_to z_of true) 5 ax_blobs /\ threads_ok (ax_m z_to z_of true) (m_serv (ax_m z_to z_of true)) 3 /\ frame_ok (ax_m z_to z_of true) 3 axf_z /\ sums_fit (concat ax_blobs) 1) /\
  (do q <- run_sssp (ax_m z_to z_of true) 3 axf_z 6 7 5 5 ax_blobs 1 ;;
   do l <- ax_read (ax_m z_to z_of true) (fst q) 0 5 ;; Ok (l, snd q)) = Ok ([0; 4; 5; 7; MAX_DIST], [4; 4]).
Proof.
  split; [|vm_compute; reflexivity]. split; [apply ax_setting, z_ok|]. split; [split; [lia|reflexivity]|]. split; [apply ax_f_ok; auto using z_ok|].
  apply (C53_bounded_weights_fit 5 1 _ 9); [lia| | | |lia]; cbn; intuition subst; cbn; lia.
Qed.

(** ** C54: sums of distances wrap *)
(** Three edges in a row whose weights are below 2^31: the distance to the last vertex is 2^32+3, the
    program reports 3. *)
Definition wrap_blobs : list (list (edge Z)) := [[mkE 1 2 (2 ^ 31 - 1); mkE 2 3 (2 ^ 31 - 1)]; [mkE 3 4 5]].
Lemma wrap_setting : setting (ax_m z_to z_of false) 4 wrap_blobs.
Proof. split; [apply ax_m_ok, z_ok|]. split; [lia|]. split; [reflexivity|]. cbn. intuition subst; cbn; lia. Qed.
Lemma wrap_walks v w h : walk (concat wrap_blobs) 1 v w h -> (v = 1 /\ w = 0) \/ (v = 2 /\ w = 2 ^ 31 - 1) \/ (v = 3 /\ w = 2 ^ 32 - 2) \/ (v = 4 /\ w = 2 ^ 32 + 3).
Proof.
  induction 1 as [|w h e W IH He]; [auto|]. cbn in He. destruct He as [<-|[<-|[<-|[]]]]; cbn [e_src e_dst e_val] in *; [right; left|right; right; left|right; right; right];
    destruct IH as [[? ?]|[[? ?]|[[? ?]|[? ?]]]]; try discriminate; subst; split; reflexivity.
Qed.
Theorem C54_sssp_sums_wrap : exists (m : machine Z Z (list Z)) n s blobs th fr dt dv fuel,
  setting m n blobs /\ n < 2 ^ 31 /\ 1 <= s <= n /\ threads_ok m (m_serv m) th /\ frame_ok m th fr /\ (Z.to_nat n <= fuel)%nat /\
  (forall e, In e (concat blobs) -> 0 <= e_val e < 2 ^ 31) /\
  exists g l v, run_sssp m th fr dt dv fuel n blobs s = Ok (g, l) /\ 1 <= v <= n /\
    distance (concat blobs) s v (2 ^ 32 + 3) /\
    exists o, read_property m g o v 0 = Ok (Some 3) /\ owns m g o v = Ok true.
Proof.
  exists (ax_m z_to z_of false), 4, 1, wrap_blobs, 3, (ax_f z_to z_of z_to z_of false 77), 6, 7, 4%nat.
  split; [apply wrap_setting|]. split; [lia|]. split; [lia|]. split; [split; [lia|discriminate]|]. split; [split; [split; [lia|discriminate]|]; split; [split; [lia|discriminate]|]; split; apply c_ok, z_ok|].
  split; [lia|]. split; [cbn; intuition subst; cbn; lia|].
  destruct (run_sssp (ax_m z_to z_of false) 3 (ax_f z_to z_of z_to z_of false 77) 6 7 4 4 wrap_blobs 1) as [[g l]|e] eqn:E; [|vm_compute in E; discriminate].
  exists g, l, 4. split; [reflexivity|]. split; [lia|]. split.
  - split.
    + exists 3%nat. change (walk (concat wrap_blobs) 1 (e_dst (mkE 3 4 5)) (0 + e_val (mkE 1 2 (2 ^ 31 - 1)) + e_val (mkE 2 3 (2 ^ 31 - 1)) + e_val (mkE 3 4 5)) 3).
      apply walk_edge; [|cbn; auto]. apply (walk_edge _ _ _ _ (mkE 2 3 (2 ^ 31 - 1))); [|cbn; auto]. apply (walk_edge _ _ _ _ (mkE 1 2 (2 ^ 31 - 1))); [constructor|cbn; auto].
    + intros w' h' W. apply wrap_walks in W. lia.
  - exists 0. vm_compute in E. injection E as <- <-. split; vm_compute; reflexivity.
Qed.
Print Assumptions C54_sssp_sums_wrap.
(** For every weights, every run ends and reports for each vertex either 2^32-1 or the weight modulo 2^32 of some
    walk; and every edge out of a vertex reported as reached leads to a vertex whose distance is at most the wrapped sum. *)
Theorem C54_sssp_distances_modulo {byte} (m : machine Z Z byte) n s blobs th fr dt dv fuel :
  setting m n blobs -> n < 2 ^ 31 -> 1 <= s <= n -> threads_ok m (m_serv m) th -> frame_ok m th fr -> (Z.to_nat (n * 2 ^ 32) < fuel)%nat ->
  exists g k P, run_sssp m th fr dt dv fuel n blobs s = Ok (g, map (fun _ => k) (zrange 0 (m_nr m))) /\ shows_properties n m g P /\ P s = 0 /\
    (forall v, 1 <= v <= n -> P v = 2 ^ 32 - 1 \/ (0 <= P v < 2 ^ 32 - 1 /\ exists w h, walk (concat blobs) s v w h /\ P v = w mod 2 ^ 32)) /\
    (forall e, In e (concat blobs) -> P (e_src e) <> 2 ^ 32 - 1 -> P (e_dst e) <= (P (e_src e) + e_val e) mod 2 ^ 32) /\
    counts n (fun v => P v <> 2 ^ 32 - 1) k.
Proof. exact (run_sssp_modular m n s blobs th fr dt dv fuel). Qed.
Print Assumptions C54_sssp_distances_modulo.
(** Where all walks to a vertex weigh the same (a tree, say), the reported distance is that weight modulo 2^32,
    so it is less than the weight of every walk whenever that weight is 2^32 or more. *)
Theorem C54_sssp_sums_wrap_always {byte} (m : machine Z Z byte) n s blobs th fr dt dv fuel U :
  setting m n blobs -> n < 2 ^ 31 -> 1 <= s <= n -> threads_ok m (m_serv m) th -> frame_ok m th fr -> (Z.to_nat (n * 2 ^ 32) < fuel)%nat ->
  (forall v w h, walk (concat blobs) s v w h -> w = U v) -> (forall v, reachable (concat blobs) s v -> U v mod 2 ^ 32 <> 2 ^ 32 - 1) ->
  exists g l P, run_sssp m th fr dt dv fuel n blobs s = Ok (g, l) /\ shows_properties n m g P /\
    forall v, 1 <= v <= n -> reachable (concat blobs) s v ->
      P v = U v mod 2 ^ 32 /\ (2 ^ 32 <= U v -> forall w h, walk (concat blobs) s v w h -> P v < w).
Proof.
  intros H Hn Hs Ht Hfr Hf HU Hm. destruct (run_sssp_modular m n s blobs th fr dt dv fuel H Hn Hs Ht Hfr Hf) as (g & k & P & E & Sp & P0 & P1 & P2 & _).
  exists g, (map (fun _ => k) (zrange 0 (m_nr m))), P. split; [exact E|]. split; [exact Sp|]. intros v _ Rv.
  pose proof (one_weight n s (concat blobs) U P Hs (proj2 (proj2 (proj2 H))) HU Hm P0 P1 P2 v Rv) as EP. split; [exact EP|].
  intros L w h W. rewrite (HU v w h W), EP. pose proof (Z.mod_pos_bound (U v) (2 ^ 32) ltac:(lia)). lia.
Qed.
Print Assumptions C54_sssp_sums_wrap_always.
Example C54_sssp_sums_wrap_always_example : exists fuel U,
  setting (ax_m z_to z_of false) 4 wrap_blobs /\ threads_ok (ax_m z_to z_of false) (m_serv (ax_m z_to z_of false)) 3 /\
  frame_ok (ax_m z_to z_of false) 3 (ax_f z_to z_of z_to z_of false 77) /\ (Z.to_nat (4 * 2 ^ 32) < fuel)%nat /\
  (forall v w h, walk (concat wrap_blobs) 1 v w h -> w = U v) /\ (forall v, reachable (concat wrap_blobs) 1 v -> U v mod 2 ^ 32 <> 2 ^ 32 - 1) /\ U 4 = 2 ^ 32 + 3.
Proof.
  exists (S (Z.to_nat (4 * 2 ^ 32))), (fun v => if v =? 2 then 2 ^ 31 - 1 else if v =? 3 then 2 ^ 32 - 2 else if v =? 4 then 2 ^ 32 + 3 else 0).
  split; [apply wrap_setting|]. split; [split; [lia|discriminate]|]. split; [split; [split; [lia|discriminate]|]; split; [split; [lia|discriminate]|]; split; apply c_ok, z_ok|].
  split; [lia|]. split; [|split; [|reflexivity]].
  - intros v w h W. apply wrap_walks in W. destruct W as [[-> ->]|[[-> ->]|[[-> ->]|[-> ->]]]]; reflexivity.
  - intros v (w & h & W). apply wrap_walks in W. destruct W as [[-> _]|[[-> _]|[[-> _]|[-> _]]]]; discriminate.
Qed.
