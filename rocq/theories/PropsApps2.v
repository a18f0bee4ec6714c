(** Properties of the applications in src/, continued: topological sort, triangle counting,
    PageRank, degrees, delta stepping (C55-C59).  Notation as in PropsApps.v. *)
From Coq Require Import QArith Qcanon.
Local Open Scope Z_scope.
From Verif Require Import Base BaseLemmas Layout Reduce Segment DCSC MatSpec TileProofs SpMat Vec GraphVert Graph Runtime RunSpec GraphOps GraphHist.
From Verif Require Import RunFinal PropsMat Apps AppSpec RankSpec AppExample PropsApps.
From Verif Require Import LabelProofs DegreeProofs PageRankProofs TopSortProofs TriangleProofs DeltaProofs DeltaAny AppClaims TriSpec TriangleAll.

(** ** C55: topological sort *)
(** Every vertex not behind a cycle gets as level the number of edges of the longest walk that ends
    in it; the others keep 2^32-1; no assertion fails; the reported count is that of the others. *)
Theorem C55_topsort_levels {byte} (m : machine top_vertex Z byte) n blobs th fr1 fr2 dt1 dt2 dv fuel :
  setting m n blobs -> n < 2 ^ 31 -> zlen (concat blobs) < 2 ^ 31 -> threads_ok m (m_serv m) th -> frame_ok m th fr1 -> frame_ok m th fr2 -> (Z.to_nat (Z.max n 1) <= fuel)%nat ->
  exists g k P, run_topsort m th fr1 fr2 dt1 dt2 dv fuel n blobs = Ok (g, map (fun _ => k) (zrange 0 (m_nr m))) /\ shows_properties n m g P /\
    (forall v, 1 <= v <= n -> t_failed (P v) = false /\
       ((t_order (P v) = MAX_DIST /\ behind_cycle (concat blobs) v) \/
        (exists h, longest_walk_to (concat blobs) v h /\ t_order (P v) = Z.of_nat h /\ Z.of_nat h < n /\ ~ behind_cycle (concat blobs) v))) /\
    counts n (behind_cycle (concat blobs)) k.
Proof. exact (fun H Hn Hl Ht Hf1 Hf2 => run_topsort_spec m n blobs H Hn Hl th fr1 fr2 dt1 dt2 dv fuel Ht Hf1 Hf2). Qed.
Print Assumptions C55_topsort_levels.
(** On an acyclic graph every vertex gets a level and every edge leads to a larger one. *)
Theorem C55_topsort_orders_acyclic {byte} (m : machine top_vertex Z byte) n blobs th fr1 fr2 dt1 dt2 dv fuel :
  setting m n blobs -> n < 2 ^ 31 -> zlen (concat blobs) < 2 ^ 31 -> threads_ok m (m_serv m) th -> frame_ok m th fr1 -> frame_ok m th fr2 -> (Z.to_nat (Z.max n 1) <= fuel)%nat ->
  acyclic (concat blobs) ->
  exists g P, run_topsort m th fr1 fr2 dt1 dt2 dv fuel n blobs = Ok (g, map (fun _ => 0) (zrange 0 (m_nr m))) /\ shows_properties n m g P /\
    (forall v, 1 <= v <= n -> 0 <= t_order (P v) < n) /\
    forall e, In e (concat blobs) -> t_order (P (e_src e)) < t_order (P (e_dst e)).
Proof. exact (topsort_acyclic m n blobs th fr1 fr2 dt1 dt2 dv fuel). Qed.
Print Assumptions C55_topsort_orders_acyclic.

Definition t_to (p : top_vertex) : list Z := [t_order p; t_deg p; if t_failed p then 1 else 0].
Definition t_of (l : list Z) : R top_vertex := match l with [a; b; c] => Ok (mkT a b (c =? 1)) | _ => Err Uninit end.
Lemma t_ok a : t_of (t_to a) = Ok a. Proof. destruct a as [? ? []]; reflexivity. Qed.
Definition bo_to (b : bool) : list Z := [if b then 1 else 0].
Definition bo_of (l : list Z) : R bool := match l with [a] => Ok (a =? 1) | _ => Err Uninit end.
Lemma bo_ok a : bo_of (bo_to a) = Ok a. Proof. destruct a; reflexivity. Qed.
Definition axf_b : frame bool Z (list Z) := ax_f bo_to bo_of z_to z_of true 77.
(** vertices 2, 3 and 4 of [ax_blobs] are on a cycle; without 4->2 there is none *)
Definition dag_blobs : list (list (edge Z)) := [[mkE 1 2 4; mkE 2 3 1]; [mkE 1 3 9; mkE 3 4 2; mkE 5 1 3; mkE 5 1 8]].
Lemma dag_acyclic : acyclic (concat dag_blobs).
Proof.
  (* 5 < 1 < 2 < 3 < 4 in the order of this ranking *)
  set (r := fun v : Z => if v =? 5 then 0 else v).
  assert (forall x v w h, walk (concat dag_blobs) x v w h -> h = O /\ v = x \/ r x < r v) as H.
  { induction 1 as [|w h e W IH He]; [auto|]. right. assert (r (e_src e) < r (e_dst e)) by (cbn in He; unfold r; intuition subst; cbn; lia). destruct IH as [[_ Ex]|]; [rewrite <- Ex|]; lia. }
  intros x w h W. destruct (H _ _ _ _ W); lia.
Qed.
Example C55_example : let m := ax_m t_to t_of true in
  (setting m 5 ax_blobs /\ setting m 5 dag_blobs /\ acyclic (concat dag_blobs) /\ threads_ok m (m_serv m) 3 /\ frame_ok m 3 axf_z /\ frame_ok m 3 axf_b) /\
  (do q <- run_topsort m 3 axf_z axf_b 6 true top_new 5 5 ax_blobs ;; do l <- ax_read m (fst q) top_new 5 ;; Ok (map t_order l, snd q)) = Ok ([1; MAX_DIST; MAX_DIST; MAX_DIST; 0], [3; 3]) /\
  (do q <- run_topsort m 3 axf_z axf_b 6 true top_new 5 5 dag_blobs ;; do l <- ax_read m (fst q) top_new 5 ;; Ok (map t_order l, snd q)) = Ok ([1; 2; 3; 4; 0], [0; 0]).
Proof.
  split; [|split; vm_compute; reflexivity]. split; [apply ax_setting, t_ok|]. split.
  - split; [apply ax_m_ok, t_ok|]. split; [lia|]. split; [reflexivity|]. cbn. intuition subst; cbn; lia.
  - split; [apply dag_acyclic|]. split; [split; [lia|reflexivity]|]. split; apply ax_f_ok; auto using z_ok, bo_ok.
Qed.

(** ** C56: triangle counting *)
(** For a graph with at most one edge from one vertex to another the reported number is that of the
    triples (a, b, c) with edges a->b, b->c, a->c; each vertex holds the number of those it is the
    middle of. *)
Theorem C56_triangles_counted {byte} (srt : list Z -> list Z) (m : machine tc_vertex Z byte) n blobs th fr1 fr2 dt1 dt2 dv junk l :
  sorts_ints srt -> setting m n blobs -> simple_edges (concat blobs) -> threads_ok m (m_serv m) th -> frame_ok m th fr1 -> frame_ok m th fr2 ->
  triangles (concat blobs) l -> zlen l < 2 ^ 31 ->
  exists g P, run_triangles srt m th fr1 fr2 dt1 dt2 dv junk n blobs = Ok (g, map (fun _ => zlen l) (zrange 0 (m_nr m))) /\ shows_properties n m g P /\
    forall v, 1 <= v <= n -> tc_id (P v) = v /\ tc_triangles (P v) = zlen (filter (fun t => snd (fst t) =? v) l).
Proof. exact (triangles_any srt m n blobs th fr1 fr2 dt1 dt2 dv junk l). Qed.
Print Assumptions C56_triangles_counted.
(** Any graph, with parallel edges, self loops and any number of triangles: a vertex holds, modulo 2^32 and
    as a signed number, [closed_at] of TriSpec.v: each edge a->v counts for each c the smaller of the
    numbers of edges a->c and v->c.  Every rank reports the same number, the sum of what the vertices hold, modulo
    2^64.  Below 2^63 this is the sum of all [closed_at] exactly if no vertex has 2^31 or more. *)
Theorem C56_any_graph {byte} (srt : list Z -> list Z) (m : machine tc_vertex Z byte) n blobs th fr1 fr2 dt1 dt2 dv junk :
  sorts_ints srt -> setting m n blobs -> threads_ok m (m_serv m) th -> frame_ok m th fr1 -> frame_ok m th fr2 ->
  exists g P k, run_triangles srt m th fr1 fr2 dt1 dt2 dv junk n blobs = Ok (g, map (fun _ => k) (zrange 0 (m_nr m))) /\ shows_properties n m g P /\
    (forall v, 1 <= v <= n -> - 2 ^ 31 <= tc_triangles (P v) < 2 ^ 31 /\ tc_triangles (P v) mod 2 ^ 32 = closed_at n (concat blobs) v mod 2 ^ 32) /\
    k = total (map (fun v => tc_triangles (P v)) (zrange 1 (n + 1))) mod 2 ^ 64 /\
    (closed n (concat blobs) < 2 ^ 63 -> (k = closed n (concat blobs) <-> forall v, 1 <= v <= n -> closed_at n (concat blobs) v < 2 ^ 31)).
Proof. exact (triangles_general srt m n blobs th fr1 fr2 dt1 dt2 dv junk). Qed.
Print Assumptions C56_any_graph.
(** Without parallel edges these are the numbers of triangles. *)
Theorem C56_closed_are_triangles n (es : list (edge Z)) l :
  (forall e, In e es -> 1 <= e_src e <= n /\ 1 <= e_dst e <= n) -> simple_edges es -> triangles es l ->
  closed n es = zlen l /\ forall v, closed_at n es v = zlen (filter (fun t => snd (fst t) =? v) l).
Proof. exact (triangles_closed n es l). Qed.
Print Assumptions C56_closed_are_triangles.

Definition tc_to (p : tc_vertex) : list Z := tc_id p :: tc_triangles p :: tc_neighbors p.
Definition tc_of (l : list Z) : R tc_vertex := match l with a :: b :: r => Ok (mkTC a b r) | _ => Err Uninit end.
Lemma tc_ok a : tc_of (tc_to a) = Ok a. Proof. destruct a; reflexivity. Qed.
Fixpoint insert (x : Z) (l : list Z) : list Z := match l with [] => [x] | y :: r => if x <=? y then x :: l else y :: insert x r end.
Definition zsort (l : list Z) : list Z := fold_right insert [] l.
Lemma zsort_sorts : sorts_ints zsort.
Proof.
  intros l. unfold zsort. induction l as [|x l [P S]]; cbn [fold_right]; [split; constructor|].
  assert (forall l, Permutation (x :: l) (insert x l)) as Hp. { induction l0 as [|y r IH]; cbn; auto. destruct (x <=? y); auto. etransitivity; [apply perm_swap|]. constructor. auto. }
  split; [etransitivity; [apply perm_skip; exact P|apply Hp]|]. revert S. generalize (fold_right insert [] l) as k. induction k as [|y r IH]; intros S; cbn [insert]; [repeat constructor|].
  destruct (Z.leb_spec x y); [constructor; auto|]. inversion S as [|? ? S' H']; subst. constructor; auto. destruct r as [|z r]; cbn [insert]; [repeat constructor; lia|]. inversion H'; subst. destruct (x <=? z); constructor; lia.
Qed.
Definition axf_l : frame Z (list Z) (list Z) := ax_f z_to z_of (fun l => l) (fun l => Ok l) true [].
Definition axf_tc : frame tc_vertex Z (list Z) := ax_f tc_to tc_of z_to z_of true 77.
(** The number can be wrong: 2^16 edges 1->2, 2^15 edges 1->3 and 2^15 edges 2->3 close 2^31 triangles, the
    program reports 2^64 - 2^31. *)
Theorem C56_overflow_refuted k j : Z.of_nat k = 2 ^ 16 -> Z.of_nat j = 2 ^ 15 -> let m := ax_m tc_to tc_of true in
  (setting m 3 [heavy k j; []] /\ threads_ok m (m_serv m) 3 /\ frame_ok m 3 axf_l /\ frame_ok m 3 axf_tc) /\ zlen (heavy k j) = 2 ^ 17 /\ closed 3 (heavy k j) = 2 ^ 31 /\
  exists g, run_triangles zsort m 3 axf_l axf_tc 6 (mkTC 1 1 [1]) (mkTC 1 1 []) 99 3 [heavy k j; []] = Ok (g, [2 ^ 64 - 2 ^ 31; 2 ^ 64 - 2 ^ 31]).
Proof.
  intros Ek Ej. cbv zeta. assert (Ec : concat [heavy k j; []] = heavy k j) by (cbn [concat]; rewrite app_nil_r; reflexivity).
  assert (S : setting (ax_m tc_to tc_of true) 3 [heavy k j; []]) by (split; [apply ax_m_ok, tc_ok|]; split; [lia|]; split; [reflexivity|]; rewrite Ec; apply heavy_in).
  assert (T : threads_ok (ax_m tc_to tc_of true) (m_serv (ax_m tc_to tc_of true)) 3) by (split; [lia|reflexivity]).
  assert (F1 : frame_ok (ax_m tc_to tc_of true) 3 axf_l) by (apply ax_f_ok; auto using z_ok). assert (F2 : frame_ok (ax_m tc_to tc_of true) 3 axf_tc) by (apply ax_f_ok; auto using z_ok, tc_ok).
  split; [auto|]. split; [rewrite heavy_zlen; lia|].
  assert (HC : forall v, 1 <= v <= 3 -> closed_at 3 (heavy k j) v = if v =? 2 then 2 ^ 31 else 0) by (intros v Bv; rewrite heavy_closed, Ek, Ej by auto; reflexivity).
  split; [unfold closed; change (zrange 1 (3 + 1)) with [1; 2; 3]; cbn [map]; rewrite !HC by lia; reflexivity|].
  destruct (C56_any_graph zsort (ax_m tc_to tc_of true) 3 [heavy k j; []] 3 axf_l axf_tc 6 (mkTC 1 1 [1]) (mkTC 1 1 []) 99 zsort_sorts S T F1 F2) as (g & P & c & Er & _ & HP & Hc & _).
  rewrite Ec in HP. exists g. rewrite Er. change (zrange 0 (m_nr (ax_m tc_to tc_of true))) with [0; 1]. cbn [map]. assert (c = 2 ^ 64 - 2 ^ 31) as ->; [|reflexivity].
  rewrite Hc. change (zrange 1 (3 + 1)) with [1; 2; 3]. cbn [map total fold_right].
  pose proof (HP 1 ltac:(lia)) as [B1 M1]. pose proof (HP 2 ltac:(lia)) as [B2 M2]. pose proof (HP 3 ltac:(lia)) as [B3 M3]. rewrite HC in M1, M2, M3 by lia. cbn [Z.eqb Pos.eqb] in M1, M2, M3.
  assert (tc_triangles (P 1) = 0) as -> by (clear -B1 M1; rewrite Z.mod_0_l in M1 by lia; apply Z.mod_divide in M1; [destruct M1 as [q E]; lia|lia]).
  assert (tc_triangles (P 3) = 0) as -> by (clear -B3 M3; rewrite Z.mod_0_l in M3 by lia; apply Z.mod_divide in M3; [destruct M3 as [q E]; lia|lia]).
  assert (tc_triangles (P 2) = - 2 ^ 31) as ->; [|reflexivity].
  clear -B2 M2. change (2 ^ 31 mod 2 ^ 32) with (2 ^ 31) in M2. pose proof (Z.div_mod (tc_triangles (P 2)) (2 ^ 32) ltac:(lia)). lia.
Qed.
Print Assumptions C56_overflow_refuted.
(** two triangles: 1 2 3 and 2 3 4 *)
Definition tri_blobs : list (list (edge Z)) := [[mkE 1 2 1; mkE 2 3 1; mkE 3 4 1]; [mkE 1 3 1; mkE 2 4 1; mkE 4 5 1]].
Example C56_example : let m := ax_m tc_to tc_of true in
  (sorts_ints zsort /\ setting m 5 tri_blobs /\ simple_edges (concat tri_blobs) /\ threads_ok m (m_serv m) 3 /\ frame_ok m 3 axf_l /\ frame_ok m 3 axf_tc /\ triangles (concat tri_blobs) [(1, 2, 3); (2, 3, 4)]) /\
  (do q <- run_triangles zsort m 3 axf_l axf_tc 6 (mkTC 1 1 [1]) (mkTC 1 1 []) 99 5 tri_blobs ;; do l <- ax_read m (fst q) (mkTC 0 0 []) 5 ;; Ok (map tc_triangles l, snd q)) = Ok ([0; 1; 1; 0; 0], [2; 2]).
Proof.
  split; [|vm_compute; reflexivity]. split; [apply zsort_sorts|]. split; [split; [apply ax_m_ok, tc_ok|]; split; [lia|]; split; [reflexivity|]; cbn; intuition subst; cbn; lia|].
  split; [unfold simple_edges; cbn; repeat (constructor; [cbn; intuition discriminate|]); constructor|]. split; [split; [lia|reflexivity]|].
  split; [apply ax_f_ok; auto using z_ok|]. split; [apply ax_f_ok; auto using z_ok, tc_ok|]. split; [repeat (constructor; [cbn; intuition discriminate|]); constructor|].
  intros a b c. assert (forall u v, has_edge (concat tri_blobs) u v <-> In (u, v) [(1, 2); (2, 3); (3, 4); (1, 3); (2, 4); (4, 5)]) as H.
  { intros u v. unfold has_edge. split.
    - intros (e & He & <- & <-). cbn in He. cbn. intuition (subst; cbn; auto 10).
    - intros Hi. exists (mkE u v 1). split; auto. cbn in Hi. cbn. intuition (match goal with E : (_, _) = _ |- _ => injection E as <- <- end; auto 10). }
  rewrite !H. cbn. split.
  - intros [Ht|[Ht|[]]]; injection Ht as <- <- <-; auto 20.
  - intros (H1 & H2 & H3). repeat match goal with X : _ \/ _ |- _ => destruct X as [X|X] end; try contradiction;
      injection H1 as <- <-; try (discriminate H2); injection H2 as <-; try discriminate H3; auto.
Qed.

(** ** C57: PageRank *)
(** Whatever floating point arithmetic does: there are successive rank assignments, starting at the
    initial value, each a [rank_step] of the one before; the program stops after the first step in
    which no vertex with an in-edge moved far, with those ranks. *)
Theorem C57_pagerank_steps {F E byte} (fl : floats F) (m : machine (pr_vertex F) E byte) n blobs th fr1 fr2 dt1 dt2 dv fuel :
  setting m n blobs -> zlen (concat blobs) < 2 ^ 31 -> threads_ok m (m_serv m) th -> frame_ok m th fr1 -> frame_ok m th fr2 ->
  exists rank : nat -> Z -> F, (forall v, 1 <= v <= n -> rank O v = fl_start fl) /\
    ((exists g K P, run_pagerank fl m th fr1 fr2 dt1 dt2 dv fuel n blobs = Ok (g, Z.of_nat K) /\ (1 <= K <= fuel)%nat /\ shows_properties n m g P /\
        (forall v, 1 <= v <= n -> P v = mkPR (rank K v) (out_degree (concat blobs) v)) /\
        (forall k v, (k < K)%nat -> 1 <= v <= n -> rank_step fl (concat blobs) (rank k) v (rank (S k) v)) /\
        settled fl n (concat blobs) (rank (K - 1)%nat) (rank K) /\ forall k, (S k < K)%nat -> ~ settled fl n (concat blobs) (rank k) (rank (S k))) \/
     (run_pagerank fl m th fr1 fr2 dt1 dt2 dv fuel n blobs = Err NoFuel /\
        (forall k v, (k < fuel)%nat -> 1 <= v <= n -> rank_step fl (concat blobs) (rank k) v (rank (S k) v)) /\
        forall k, (k < fuel)%nat -> ~ settled fl n (concat blobs) (rank k) (rank (S k)))).
Proof. exact (fun H Hl Ht H1 H2 => run_pagerank_spec fl m n blobs H Hl th fr1 fr2 dt1 dt2 dv fuel Ht H1 H2). Qed.
Print Assumptions C57_pagerank_steps.
(** With exact arithmetic a [rank_step] has one outcome: alpha + (1-alpha) * the sum of
    rank/out-degree over the in-edges, or the old rank if there are none. *)
Theorem C57_exact_step {E} alpha start far (es : list (edge E)) R v x : rank_step (qfloats alpha start far) es R v x ->
  x = if in_degree es v =? 0 then R v
      else (alpha + (1 - alpha) * qsum (map (fun e => R (e_src e) / Q2Qc (inject_Z (out_degree es (e_src e)))) (filter (fun e => e_dst e =? v)%Z es)))%Qc.
Proof. exact (rank_step_exact alpha start far es R v x). Qed.
Print Assumptions C57_exact_step.

(** an example with fixed-point arithmetic, in millionths *)
Definition fixp : floats Z := mkFl 300000 0 (fun r d => Z.quot r d) Z.add (fun u => 300000 + 7 * u / 10) (fun x y => 10 <? Z.abs (x - y)).
Definition p_to (p : pr_vertex Z) : list Z := [p_rank p; p_degree p].
Definition p_of (l : list Z) : R (pr_vertex Z) := match l with [a; b] => Ok (mkPR a b) | _ => Err Uninit end.
Lemma p_ok a : p_of (p_to a) = Ok a. Proof. destruct a; reflexivity. Qed.
Example C57_example : let m := ax_m p_to p_of true in
  (setting m 5 ax_blobs /\ threads_ok m (m_serv m) 3 /\ frame_ok m 3 axf_z) /\
  (do q <- run_pagerank fixp m 3 axf_z axf_z 6 7 (mkPR 8 9) 40 5 ax_blobs ;; do l <- ax_read m (fst q) (mkPR 0 0) 5 ;; Ok (map p_to l, snd q))
  = Ok ([[510000; 2]; [1404798; 1]; [1461852; 1]; [1323290; 1]; [300000; 1]], 31).
Proof. split; [|vm_compute; reflexivity]. split; [apply ax_setting, p_ok|]. split; [split; [lia|reflexivity]|]. apply ax_f_ok; auto using z_ok. Qed.

(** ** C59: degrees *)
(** Whatever happened to the graph before: with all vertices active, the degree program of
    PageRank.cpp leaves in each vertex that has out-edges their number; the other vertices keep
    what was there. *)
Theorem C59_degrees_counted {F E byte} (fl : floats F) (m : machine (pr_vertex F) E byte) dv0 n blobs h g q th fr dt dv fuel :
  setting m n blobs -> calls_ok n m h -> reached (pr_neq fl) m dv0 n blobs h g -> means (pr_neq fl) dv0 n blobs h q ->
  threads_ok m (m_serv m) th -> frame_ok m th fr -> (1 <= fuel)%nat -> zlen (concat blobs) < 2 ^ 31 -> (forall v, 1 <= v <= n -> gs_A q v = Some true) ->
  exists r P, run_job (pr_neq fl) m th (mkJ degree tt 1 dt dv fuel) fr None g = Ok (r, 1) /\ shows_properties n m (r_g r) P /\
    forall v, 1 <= v <= n -> P v = mkPR (p_rank (gs_P q v)) (let d := out_degree (concat blobs) v in if d =? 0 then p_degree (gs_P q v) else d).
Proof. exact (degrees_any fl m dv0 n blobs h g q th fr dt dv fuel). Qed.
Print Assumptions C59_degrees_counted.
(** The same for in-edges and the program of TopologicalSort.cpp, which makes all vertices active
    itself. *)
Theorem C59_indegrees_counted {byte} (m : machine top_vertex Z byte) dv0 n blobs h g q th fr dt dv fuel :
  setting m n blobs -> calls_ok n m h -> reached top_neq m dv0 n blobs h g -> means top_neq dv0 n blobs h q ->
  threads_ok m (m_serv m) th -> frame_ok m th fr -> (1 <= fuel)%nat -> zlen (concat blobs) < 2 ^ 31 ->
  exists r P, run_job top_neq m th (mkJ indegree tt 1 dt dv fuel) fr None g = Ok (r, 1) /\ shows_properties n m (r_g r) P /\
    forall v, 1 <= v <= n -> P v = mkT (t_order (gs_P q v)) (let d := in_degree (concat blobs) v in if d =? 0 then t_deg (gs_P q v) else d) (t_failed (gs_P q v)).
Proof. exact (indegrees_any m dv0 n blobs h g q th fr dt dv fuel). Qed.
Print Assumptions C59_indegrees_counted.
(** the degree program on a graph whose vertex 4 was given degree 50 before, and vertex 5 has edges *)
Definition deg_h : list (Z * gcall (pr_vertex Z) Z (list Z)) := [(3, CSet 4 (mkPR 1 50)); (3, CAllActive)].
Definition deg_blobs : list (list (edge Z)) := [[mkE 1 2 4; mkE 2 3 1; mkE 1 2 7]; [mkE 1 3 9; mkE 5 1 3]].
Example C59_example : let m := ax_m p_to p_of true in
  setting m 5 deg_blobs /\ calls_ok 5 m deg_h /\ (exists g, reached (pr_neq fixp) m (mkPR 1 0) 5 deg_blobs deg_h g /\
    (do r <- run_job (pr_neq fixp) m 3 (mkJ degree tt 1 6 (mkPR 8 9) 1) axf_z None g ;; do l <- ax_read m (r_g (fst r)) (mkPR 0 0) 5 ;; Ok (map p_degree l)) = Ok [3; 1; 0; 50; 1]) /\
  exists q, means (pr_neq fixp) (mkPR 1 0) 5 deg_blobs deg_h q /\ forall v, gs_A q v = Some true.
Proof.
  split; [split; [apply ax_m_ok, p_ok|]; split; [lia|]; split; [reflexivity|]; cbn; intuition subst; cbn; lia|]. split; [repeat constructor; cbn; lia|]. split.
  - destruct (do g <- load (ax_m p_to p_of true) (mkPR 1 0) 5 deg_blobs ;; run_calls (pr_neq fixp) (ax_m p_to p_of true) deg_h g) as [g|] eqn:E; [|vm_compute in E; discriminate].
    exists g. split; [unfold reached; destruct (load (ax_m p_to p_of true) (mkPR 1 0) 5 deg_blobs) as [g0|]; [exists g0; auto|discriminate]|]. vm_compute in E. injection E as <-. vm_compute. reflexivity.
  - eexists. split; [unfold means; cbn; eexists; split; [reflexivity|]; eexists; split; [reflexivity|]; reflexivity|]. reflexivity.
Qed.

(** ** C58: delta stepping *)
(** If no sum along a path without repeated vertices reaches [W], where [W] is at most 2^32-1 and at
    most delta*(2^31-1), the distances are exact.  The number of buckets looked at is at most
    W/delta + 1. *)
Theorem C58_delta_stepping_finds_distances {byte} (m : machine ds_vertex Z byte) n s blobs th fr dt dv fuel delta W rounds :
  setting m n blobs -> n < 2 ^ 31 -> 1 <= s <= n -> threads_ok m (m_serv m) th -> frame_ok m th fr -> (Z.to_nat n <= fuel)%nat ->
  (forall e, In e (concat blobs) -> 0 <= e_val e) -> 1 <= delta < 2 ^ 31 ->
  sums_below (concat blobs) W s -> 1 <= W <= 2 ^ 32 - 1 -> W <= delta * (2 ^ 31 - 1) -> W / delta < Z.of_nat rounds ->
  exists g k P, run_delta m th fr dt dv fuel delta rounds n blobs s = Ok (g, map (fun _ => k) (zrange 0 (m_nr m))) /\ shows_properties n m g P /\
    (forall v, 1 <= v <= n -> (d_dist (P v) = MAX_DIST /\ ~ reachable (concat blobs) s v) \/ (d_dist (P v) < MAX_DIST /\ distance (concat blobs) s v (d_dist (P v)))) /\
    counts n (reachable (concat blobs) s) k.
Proof. exact (fun H Hn Hs Ht Hf Hu Hp Hd Hb HW HWd => run_delta_spec m n s blobs H Hn Hs th fr dt dv fuel delta W Ht Hf Hp Hb HW HWd Hd Hu rounds). Qed.
Print Assumptions C58_delta_stepping_finds_distances.
(** It is enough that n times the largest weight is less than W. *)
Theorem C58_bounded_weights_fit n s es B W : 1 <= s <= n -> (forall e, In e es -> 1 <= e_src e <= n /\ 1 <= e_dst e <= n) -> (forall e, In e es -> 0 <= e_val e) ->
  (forall e, In e es -> e_val e <= B) -> n * B < W -> sums_below es W s.
Proof. exact (fun Hs Hi Hp => bounded_fit n s es Hs Hi Hp B W). Qed.
Print Assumptions C58_bounded_weights_fit.
Definition d_to (p : ds_vertex) : list Z := [d_dist p; d_bucket p].
Definition d_of (l : list Z) : R ds_vertex := match l with [a; b] => Ok (mkD a b) | _ => Err Uninit end.
Lemma d_ok a : d_of (d_to a) = Ok a. Proof. destruct a; reflexivity. Qed.
Example C58_example : let m := ax_m d_to d_of true in
  (setting m 5 ax_blobs /\ threads_ok m (m_serv m) 3 /\ frame_ok m 3 axf_z /\ sums_below (concat ax_blobs) 50 1) /\
  (do q <- run_delta m 3 axf_z 6 ds_new 5 3 17 5 ax_blobs 1 ;; do l <- ax_read m (fst q) ds_new 5 ;; Ok (map d_to l, snd q))
  = Ok ([[0; 0]; [4; 1]; [5; 1]; [7; 2]; [MAX_DIST; INT_MAX]], [4; 4]).
Proof.
  split; [|vm_compute; reflexivity]. split; [apply ax_setting, d_ok|]. split; [split; [lia|reflexivity]|]. split; [apply ax_f_ok; auto using z_ok|].
  apply (C58_bounded_weights_fit 5 1 _ 9); [lia| | | |lia]; cbn; intuition subst; cbn; lia.
Qed.
(** The bound delta*(2^31-1) is needed: bucket numbers are ints and 2^31-1 stands for "not reached".
    With delta 1 and edges 1->2 of weight 2^31-1 and 2->3 of weight 1, vertex 3 is at distance 2^31,
    which SSSP finds (C53), but delta stepping reports it as not reachable. *)
Definition far_blobs : list (list (edge Z)) := [[mkE 1 2 (2 ^ 31 - 1)]; [mkE 2 3 1]].
Theorem C58_bucket_overflow_refuted : exists (m : machine ds_vertex Z (list Z)) n s blobs th fr dt dv fuel rounds,
  setting m n blobs /\ n < 2 ^ 31 /\ 1 <= s <= n /\ threads_ok m (m_serv m) th /\ frame_ok m th fr /\ (Z.to_nat n <= fuel)%nat /\
  (forall e, In e (concat blobs) -> 0 <= e_val e < 2 ^ 31) /\ sums_fit (concat blobs) s /\
  exists g l v, run_delta m th fr dt dv fuel 1 rounds n blobs s = Ok (g, l) /\ 1 <= v <= n /\
    distance (concat blobs) s v (2 ^ 31) /\
    exists o p, read_property m g o v (mkD 0 0) = Ok (Some p) /\ owns m g o v = Ok true /\ d_dist p = MAX_DIST.
Proof.
  exists (ax_m d_to d_of true), 3, 1, far_blobs, 3, axf_z, 6, ds_new, 3%nat, 5%nat.
  assert (forall v w h, walk (concat far_blobs) 1 v w h -> (v = 1 /\ w = 0) \/ (v = 2 /\ w = 2 ^ 31 - 1) \/ (v = 3 /\ w = 2 ^ 31)) as Hw.
  { induction 1 as [|w h e W IH He]; [auto|]. cbn in He. destruct He as [<-|[<-|[]]]; cbn [e_src e_dst e_val] in *; [right; left|right; right];
      destruct IH as [[? ?]|[[? ?]|[? ?]]]; try discriminate; subst; split; reflexivity. }
  split; [split; [apply ax_m_ok, d_ok|]; split; [lia|]; split; [reflexivity|]; cbn; intuition subst; cbn; lia|]. split; [lia|]. split; [lia|]. split; [split; [lia|reflexivity]|]. split; [apply ax_f_ok; auto using z_ok|].
  split; [lia|]. split; [cbn; intuition subst; cbn; lia|]. split.
  { intros vs w e P _ He. destruct (path_walk 1 (concat far_blobs) _ _ _ P) as (h & W). apply Hw in W. cbn in He. destruct He as [<-|[<-|[]]]; cbn [e_src e_val] in *; lia. }
  destruct (run_delta (ax_m d_to d_of true) 3 axf_z 6 ds_new 3 1 5 3 far_blobs 1) as [[g l]|e] eqn:E; [|vm_compute in E; discriminate].
  exists g, l, 3. split; [reflexivity|]. split; [lia|]. split.
  - split.
    + exists 2%nat. change (walk (concat far_blobs) 1 (e_dst (mkE 2 3 1)) (0 + e_val (mkE 1 2 (2 ^ 31 - 1)) + e_val (mkE 2 3 1)) 2).
      apply walk_edge; [|cbn; auto]. apply (walk_edge _ _ _ _ (mkE 1 2 (2 ^ 31 - 1))); [constructor|cbn; auto].
    + intros w' h' W. apply Hw in W. lia.
  - vm_compute in E. injection E as <- <-. exists 0, (mkD MAX_DIST INT_MAX). split; [vm_compute; reflexivity|]. split; [vm_compute; reflexivity|reflexivity].
Qed.
Print Assumptions C58_bucket_overflow_refuted.
(** Whatever the weights, negative ones included, and whatever [delta] but 0, it ends, after at most
    2^31-1 buckets and (2^32-1)/delta + 1 buckets (delta taken modulo 2^32), and each distance it reports is the weight modulo
    2^32 of some walk, so no vertex that is not reachable is reported as reached. *)
Theorem C58_any_weights {byte} (m : machine ds_vertex Z byte) n s blobs th fr dt dv fuel delta rounds :
  setting m n blobs -> n < 2 ^ 31 -> 1 <= s <= n -> threads_ok m (m_serv m) th -> frame_ok m th fr -> (Z.to_nat (n * 2 ^ 32) < fuel)%nat ->
  - 2 ^ 31 <= delta < 2 ^ 31 -> delta <> 0 -> Z.min (2 ^ 31 - 2) ((2 ^ 32 - 1) / (delta mod 2 ^ 32)) < Z.of_nat rounds ->
  exists g k P, run_delta m th fr dt dv fuel delta rounds n blobs s = Ok (g, map (fun _ => k) (zrange 0 (m_nr m))) /\ shows_properties n m g P /\ d_dist (P s) = 0 /\
    (forall v, 1 <= v <= n -> d_dist (P v) = 2 ^ 32 - 1 \/ (0 <= d_dist (P v) < 2 ^ 32 - 1 /\ exists w h, walk (concat blobs) s v w h /\ d_dist (P v) = w mod 2 ^ 32)) /\
    counts n (fun v => d_dist (P v) <> 2 ^ 32 - 1) k.
Proof. exact (fun H Hn Hs Ht Hf Hu Hd Hd0 Hr => run_delta_any m n s blobs H Hn Hs th fr dt dv fuel delta Ht Hf Hu (conj Hd Hd0) rounds Hr). Qed.
Print Assumptions C58_any_weights.
(** But with a negative weight it can miss vertices, although no sum overflows and no walk has a
    negative weight: with delta 2, edges 1->2 of weight 5, 2->3 of weight -3 and 3->4 of weight 1, vertex 3 falls into
    a bucket that is over, and vertex 4 at distance 3 is reported as not reachable. *)
Definition back_blobs : list (list (edge Z)) := [[mkE 1 2 5; mkE 2 3 (-3)]; [mkE 3 4 1]].
Lemma back_walks v w h : walk (concat back_blobs) 1 v w h -> (v = 1 /\ w = 0) \/ (v = 2 /\ w = 5) \/ (v = 3 /\ w = 2) \/ (v = 4 /\ w = 3).
Proof.
  induction 1 as [|w h e W IH He]; [auto|]. cbn in He. destruct He as [<-|[<-|[<-|[]]]]; cbn [e_src e_dst e_val] in *; [right; left|right; right; left|right; right; right];
    destruct IH as [[? ?]|[[? ?]|[[? ?]|[? ?]]]]; try discriminate; subst; split; reflexivity.
Qed.
Lemma back_setting : setting (ax_m d_to d_of true) 4 back_blobs.
Proof. split; [apply ax_m_ok, d_ok|]. split; [lia|]. split; [reflexivity|]. cbn. intuition subst; cbn; lia. Qed.
Theorem C58_negative_weights_refuted : exists (m : machine ds_vertex Z (list Z)) n s blobs th fr dt dv fuel rounds,
  setting m n blobs /\ n < 2 ^ 31 /\ 1 <= s <= n /\ threads_ok m (m_serv m) th /\ frame_ok m th fr /\ (Z.to_nat n <= fuel)%nat /\
  (forall v w h, walk (concat blobs) s v w h -> 0 <= w <= 5) /\
  exists g l v, run_delta m th fr dt dv fuel 2 rounds n blobs s = Ok (g, l) /\ 1 <= v <= n /\
    distance (concat blobs) s v 3 /\
    exists o p, read_property m g o v (mkD 0 0) = Ok (Some p) /\ owns m g o v = Ok true /\ d_dist p = MAX_DIST.
Proof.
  exists (ax_m d_to d_of true), 4, 1, back_blobs, 3, axf_z, 6, ds_new, 4%nat, 5%nat.
  split; [apply back_setting|]. split; [lia|]. split; [lia|]. split; [split; [lia|reflexivity]|]. split; [apply ax_f_ok; auto using z_ok|].
  split; [lia|]. split; [intros v w h W; apply back_walks in W; lia|].
  destruct (run_delta (ax_m d_to d_of true) 3 axf_z 6 ds_new 4 2 5 4 back_blobs 1) as [[g l]|e] eqn:E; [|vm_compute in E; discriminate].
  exists g, l, 4. split; [reflexivity|]. split; [lia|]. split.
  - split.
    + exists 3%nat. change (walk (concat back_blobs) 1 (e_dst (mkE 3 4 1)) (0 + e_val (mkE 1 2 5) + e_val (mkE 2 3 (-3)) + e_val (mkE 3 4 1)) 3).
      apply walk_edge; [|cbn; auto]. apply (walk_edge _ _ _ _ (mkE 2 3 (-3))); [|cbn; auto]. apply (walk_edge _ _ _ _ (mkE 1 2 5)); [constructor|cbn; auto].
    + intros w' h' W. apply back_walks in W. lia.
  - vm_compute in E. injection E as <- <-. exists 0, (mkD MAX_DIST INT_MAX). split; [vm_compute; reflexivity|]. split; [vm_compute; reflexivity|reflexivity].
Qed.
Print Assumptions C58_negative_weights_refuted.
Example C58_any_weights_example : exists fuel, (setting (ax_m d_to d_of true) 4 back_blobs /\ threads_ok (ax_m d_to d_of true) (m_serv (ax_m d_to d_of true)) 3 /\ frame_ok (ax_m d_to d_of true) 3 axf_z /\
  (Z.to_nat (4 * 2 ^ 32) < fuel)%nat) /\ Z.min (2 ^ 31 - 2) ((2 ^ 32 - 1) / (-3 mod 2 ^ 32)) < Z.of_nat 2.
Proof.
  exists (S (Z.to_nat (4 * 2 ^ 32))). split; [|reflexivity]. split; [apply back_setting|]. split; [split; [lia|reflexivity]|]. split; [apply ax_f_ok; auto using z_ok|]. lia.
Qed.
