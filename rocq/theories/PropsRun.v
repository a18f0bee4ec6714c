(** Properties of loaded graphs and of running vertex programs: C04-C16, C62.
    All statements speak about a graph [g] reached by loading [blobs] (one edge array per rank)
    and making the calls [h] on a machine [m] (ranks, threads, sorts, uninitialised memory), and
    about [q], what that history means in terms of vertex numbers ([situation], GraphHist.v). *)
From Verif Require Import Base BaseLemmas Layout Reduce Segment DCSC MatSpec TileProofs SpMat Vec GraphVert Graph Runtime RunSpec GraphOps GraphHist.
From Verif Require Import ReduceProofs RunFinal RunClaims.
From Verif Require Import PropsMat.

(** Any history of calls either does what it means or (a run that never ends) exhausts the
    superstep budget of the run: it reads no uninitialised or unowned memory and fails no
    assertion. *)
Theorem C07_histories_do_what_they_mean {V E byte} neq (m : machine V E byte) (dv : V) n blobs h :
  setting m n blobs -> calls_ok n m h ->
  exists g0, load m dv n blobs = Ok g0 /\
    ((exists g q, run_calls neq m h g0 = Ok g /\ means neq dv n blobs h q /\ shows_properties n m g (gs_P q) /\ shows_edges m g (gs_es q)) \/
     (run_calls neq m h g0 = Err NoFuel /\ spec_calls neq n h (loaded dv (concat blobs)) None)).
Proof. exact (fun H => history_refines neq m dv n blobs H h). Qed.
Print Assumptions C07_histories_do_what_they_mean.

(** C04 *)
Theorem C04_active_set {V E byte S T U} neq (m : machine V E byte) (dv : V) n blobs pre t0 (all : bool) ops g q th (jb : job S T U V E) fr r k :
  situation neq m dv n blobs (pre ++ (t0, if all then CAllActive else CAllInactive) :: activity_calls ops) g q th jb fr ->
  pr_all_vertices (j_pg jb) = false -> run_job neq m th jb fr None g = Ok (r, k) ->
  exists K bs, k = Z.of_nat K /\ (1 <= K)%nat /\ split_log m (r_g r) (r_log r) K bs /\
    forall v, 1 <= v <= n ->
      times bs 0 (Sent v) = (if member all ops v then 1 else 0)%nat /\
      (times bs 0 (Applied v) = 1%nat <-> exists u, edge_to (pr_order (j_pg jb)) (gs_es q) u v /\ member all ops u = true) /\
      (times bs 0 (Applied v) <> 1%nat -> times bs 0 (Applied v) = 0%nat).
Proof. exact (active_set_claim neq m n dv blobs pre t0 all ops g q th jb fr r k). Qed.
Print Assumptions C04_active_set.

(** C05: one superstep, spelled out *)
Theorem C05_one_superstep {V E byte S T U} neq (m : machine V E byte) (dv : V) n blobs h g q th (jb : job S T U V E) fr :
  situation neq m dv n blobs h g q th jb fr -> j_iterations jb = 1 -> (1 <= j_fuel jb)%nat -> (forall v, gs_A q v <> Some false) ->
  exists r bs P' A', run_job neq m th jb fr None g = Ok (r, 1) /\ split_log m (r_g r) (r_log r) 1 bs /\ observed_as neq m n (r_g r) (mkGS (gs_es q) P' A') /\
    r_s r = pr_every (j_pg jb) 0 (j_s jb) /\
    forall w, 1 <= w <= n -> times bs 0 (Sent w) = (if sends jb q w then 1 else 0)%nat /\
      match red (pr_reduce (j_pg jb) (j_s jb)) (inbox jb q w) with
      | Some u => times bs 0 (Applied w) = 1%nat /\ P' w = pr_apply (j_pg jb) (j_s jb) u (gs_P q w)
      | None => inbox jb q w = [] /\ times bs 0 (Applied w) = 0%nat /\ P' w = gs_P q w
      end.
Proof. exact (run_one neq m n dv blobs h g q th jb fr). Qed.
Print Assumptions C05_one_superstep.

(** and every superstep of a run of any length *)
Theorem C05_every_superstep {V E byte S T U} neq (m : machine V E byte) (dv : V) n blobs h g q th (jb : job S T U V E) fr r k :
  situation neq m dv n blobs h g q th jb fr -> run_job neq m th jb fr None g = Ok (r, k) ->
  let st := job_after neq jb (fun _ => j_dt jb) q in
  exists K bs, k = Z.of_nat K /\ (1 <= K)%nat /\ observed_as neq m n (r_g r) (mkGS (gs_es q) (v_P (st K)) (v_A (st K))) /\ r_s r = v_s (st K) /\
    split_log m (r_g r) (r_log r) K bs /\ calls_match neq n jb (fun _ => j_dt jb) q K bs /\
    (forall v, v_P (st O) v = gs_P q v) /\
    forall i v, (i < K)%nat -> v_P (st (Datatypes.S i)) v =
      match red (pr_reduce (j_pg jb) (v_s (st i))) (received (gs_es q) (j_pg jb) (j_dv jb) (st i) v) with
      | Some u => pr_apply (j_pg jb) (v_s (st i)) u (v_P (st i) v)
      | None => v_P (st i) v
      end.
Proof. exact (fun H => run_observed neq m n dv blobs h g q th jb fr H r k). Qed.
Print Assumptions C05_every_superstep.

(** C06 *)
Theorem C06_exactly_N {V E byte S T U} neq (m : machine V E byte) (dv : V) n blobs h g q th (jb : job S T U V E) fr N :
  situation neq m dv n blobs h g q th jb fr -> j_iterations jb = Z.of_nat N -> (1 <= N <= j_fuel jb)%nat ->
  exists r, run_job neq m th jb fr None g = Ok (r, Z.of_nat N).
Proof. exact (fun H => run_count_pos neq m n dv blobs h g q th jb fr H N). Qed.
Print Assumptions C06_exactly_N.
Theorem C06_until_nothing_changes {V E byte S T U} neq (m : machine V E byte) (dv : V) n blobs h g q th (jb : job S T U V E) fr r k :
  situation neq m dv n blobs h g q th jb fr -> j_iterations jb <= 0 -> run_job neq m th jb fr None g = Ok (r, k) ->
  exists K, k = Z.of_nat (Datatypes.S K) /\ (forall v, 1 <= v <= n -> ~ changes neq jb q K v) /\
    forall i, (i < K)%nat -> exists v, 1 <= v <= n /\ changes neq jb q i v.
Proof. exact (fun H => run_count_conv neq m n dv blobs h g q th jb fr H r k). Qed.
Print Assumptions C06_until_nothing_changes.
Theorem C06_stops {V E byte S T U} neq (m : machine V E byte) (dv : V) n blobs h g q th (jb : job S T U V E) fr K :
  situation neq m dv n blobs h g q th jb fr -> j_iterations jb <= 0 -> (K < j_fuel jb)%nat -> (forall v, 1 <= v <= n -> ~ changes neq jb q K v) ->
  exists r k, run_job neq m th jb fr None g = Ok (r, k) /\ k <= Z.of_nat (Datatypes.S K).
Proof. exact (fun H => run_stops neq m n dv blobs h g q th jb fr H K). Qed.
Print Assumptions C06_stops.

(** C07: the same calls on two machines, with the edges divided differently, the calls made with
    different thread counts *)
Theorem C07_same_graph {V E byte} neq n (m1 m2 : machine V E byte) dv blobs1 blobs2 h1 h2 :
  setting m1 n blobs1 -> setting m2 n blobs2 -> Permutation (concat blobs1) (concat blobs2) ->
  calls_ok n m1 h1 -> calls_ok n m2 h2 -> Forall2 (fun c c' => same_call (snd c) (snd c')) h1 h2 ->
  (exists g1 g2 q1 q2, reached neq m1 dv n blobs1 h1 g1 /\ reached neq m2 dv n blobs2 h2 g2 /\
     means neq dv n blobs1 h1 q1 /\ means neq dv n blobs2 h2 q2 /\ same_graph n q1 q2 /\ observed_as neq m1 n g1 q1 /\ observed_as neq m2 n g2 q1) \/
  (exists g1 g2, load m1 dv n blobs1 = Ok g1 /\ load m2 dv n blobs2 = Ok g2 /\ run_calls neq m1 h1 g1 = Err NoFuel /\ run_calls neq m2 h2 g2 = Err NoFuel).
Proof. exact (two_histories neq n m1 m2 dv blobs1 blobs2 h1 h2). Qed.
Print Assumptions C07_same_graph.
(** and a run on graphs that mean the same: the same iteration count, program object, calls, and
    indistinguishable graphs *)
Theorem C07_same_run {V E byte S T U} neq n (m1 m2 : machine V E byte) dv1 dv2 blobs1 blobs2 h1 h2 g1 g2 q1 q2 th1 th2 (jb : job S T U V E) fr1 fr2 :
  situation neq m1 dv1 n blobs1 h1 g1 q1 th1 jb fr1 -> situation neq m2 dv2 n blobs2 h2 g2 q2 th2 jb fr2 -> same_graph n q1 q2 ->
  (exists k r1 r2 K bs1 bs2 q, run_job neq m1 th1 jb fr1 None g1 = Ok (r1, k) /\ run_job neq m2 th2 jb fr2 None g2 = Ok (r2, k) /\
     r_s r1 = r_s r2 /\ observed_as neq m1 n (r_g r1) q /\ observed_as neq m2 n (r_g r2) q /\ k = Z.of_nat K /\
     split_log m1 (r_g r1) (r_log r1) K bs1 /\ split_log m2 (r_g r2) (r_log r2) K bs2 /\
     forall i v, (i < K)%nat -> times bs1 i (Sent v) = times bs2 i (Sent v) /\ times bs1 i (Applied v) = times bs2 i (Applied v)) \/
  (run_job neq m1 th1 jb fr1 None g1 = Err NoFuel /\ run_job neq m2 th2 jb fr2 None g2 = Err NoFuel).
Proof. exact (same_run_claim neq n m1 m2 dv1 dv2 blobs1 blobs2 h1 h2 g1 g2 q1 q2 th1 th2 jb fr1 fr2). Qed.
Print Assumptions C07_same_run.

(** C08 *)
Theorem C08_next_active_set {V E byte S T U} neq (m : machine V E byte) (dv : V) n blobs h g q th (jb : job S T U V E) fr r k :
  situation neq m dv n blobs h g q th jb fr -> pr_all_vertices (j_pg jb) = false -> run_job neq m th jb fr None g = Ok (r, k) ->
  exists K bs A, k = Z.of_nat (Datatypes.S K) /\ split_log m (r_g r) (r_log r) (Datatypes.S K) bs /\
    (forall i v, (i < K)%nat -> 1 <= v <= n ->
       (times bs (Datatypes.S i) (Sent v) = 1%nat <-> changes neq jb q i v) /\ (times bs (Datatypes.S i) (Sent v) = 0%nat <-> ~ changes neq jb q i v)) /\
    observed_as neq m n (r_g r) (mkGS (gs_es q) (v_P (job_after neq jb (fun _ => j_dt jb) q (Datatypes.S K))) A) /\
    forall v, A v = (if changes_dec neq jb q K v then Some true else None).
Proof. exact (fun H => run_next_active neq m n dv blobs h g q th jb fr H r k). Qed.
Print Assumptions C08_next_active_set.

(** C09: [jb'] differs from [jb] in nothing but the boolean results of send_message *)
Theorem C09_send_result_is_ignored {V E byte S T U} neq n (m : machine V E byte) dv blobs h g q th (jb jb' : job S T U V E) fr :
  situation neq m dv n blobs h g q th jb fr -> same_job jb jb' ->
  (exists k r1 r2 K bs1 bs2 q', run_job neq m th jb fr None g = Ok (r1, k) /\ run_job neq m th jb' fr None g = Ok (r2, k) /\
     r_s r1 = r_s r2 /\ observed_as neq m n (r_g r1) q' /\ observed_as neq m n (r_g r2) q' /\ k = Z.of_nat K /\
     split_log m (r_g r1) (r_log r1) K bs1 /\ split_log m (r_g r2) (r_log r2) K bs2 /\
     forall i v, (i < K)%nat -> times bs1 i (Sent v) = times bs2 i (Sent v) /\ times bs1 i (Applied v) = times bs2 i (Applied v)) \/
  (run_job neq m th jb fr None g = Err NoFuel /\ run_job neq m th jb' fr None g = Err NoFuel).
Proof. exact (send_ignored_claim neq m n dv blobs h g q th jb jb' fr). Qed.
Print Assumptions C09_send_result_is_ignored.

(** C10: no activity call was made since the graph was loaded; [j_dt]: what the message variable
    holds *)
Theorem C10_fresh_graph {V E byte S T U} neq (m : machine V E byte) (dv : V) n blobs h g q th (jb : job S T U V E) fr :
  situation neq m dv n blobs h g q th jb fr -> Forall (fun c => no_activity (snd c)) h ->
  j_iterations jb = 1 -> (1 <= j_fuel jb)%nat -> pr_all_vertices (j_pg jb) = false ->
  exists r bs P' A', run_job neq m th jb fr None g = Ok (r, 1) /\ split_log m (r_g r) (r_log r) 1 bs /\ observed_as neq m n (r_g r) (mkGS (gs_es q) P' A') /\
    r_s r = pr_every (j_pg jb) 0 (j_s jb) /\
    forall w, 1 <= w <= n -> times bs 0 (Sent w) = 0%nat /\
      match red (pr_reduce (j_pg jb) (j_s jb)) (fresh_inbox jb q w) with
      | Some u => times bs 0 (Applied w) = 1%nat /\ P' w = pr_apply (j_pg jb) (j_s jb) u (gs_P q w)
      | None => fresh_inbox jb q w = [] /\ times bs 0 (Applied w) = 0%nat /\ P' w = gs_P q w
      end.
Proof. exact (fresh_claim neq m n dv blobs h g q th jb fr). Qed.
Print Assumptions C10_fresh_graph.

(** C11 *)
Theorem C11_all_vertices {V E byte S T U} neq (m : machine V E byte) (dv : V) n blobs h g q th (jb : job S T U V E) fr r k :
  situation neq m dv n blobs h g q th jb fr -> pr_all_vertices (j_pg jb) = true -> run_job neq m th jb fr None g = Ok (r, k) ->
  exists K bs P, k = Z.of_nat K /\ split_log m (r_g r) (r_log r) K bs /\ (forall i v, (i < K)%nat -> 1 <= v <= n -> times bs i (Sent v) = 1%nat) /\
    observed_as neq m n (r_g r) (mkGS (gs_es q) P (fun _ => Some true)).
Proof. exact (fun H => run_all_vertices neq m n dv blobs h g q th jb fr H r k). Qed.
Print Assumptions C11_all_vertices.

(** C12: [bs] holds, per rank, one block of calls per superstep; each ends with its
    do_every_iteration ([superstep_block]) *)
Theorem C12_every_iteration {V E byte S T U} neq (m : machine V E byte) (dv : V) n blobs h g q th (jb : job S T U V E) fr r k :
  situation neq m dv n blobs h g q th jb fr -> run_job neq m th jb fr None g = Ok (r, k) ->
  zlen (r_log r) = m_nr m /\ forall l, In l (r_log r) -> exists b, mapR (event_vertex m (r_g r)) l = Ok (concat b) /\ Z.of_nat (length b) = k /\
    forall i l', nth_error b i = Some l' ->
      exists ss aa, l' = ss ++ aa ++ [Every (Z.of_nat i)] /\ (forall e, In e ss -> exists v, e = Sent v) /\ (forall e, In e aa -> exists v, e = Applied v).
Proof. exact (every_claim neq m n dv blobs h g q th jb fr r k). Qed.
Print Assumptions C12_every_iteration.

(** C13 *)
Theorem C13_apply_to_all_vertices {V E byte} neq (m : machine V E byte) (dv : V) n blobs h g q th f :
  setting m n blobs -> calls_ok n m h -> reached neq m dv n blobs h g -> means neq dv n blobs h q -> threads_ok m (m_serv m) th ->
  exists g', g_applyToAllVertices (m_nr m) th f g = Ok g' /\ observed_as neq m n g' (mkGS (gs_es q) (fun v => f (gs_P q v) (gs_P q v)) (gs_A q)).
Proof. exact (fun a b c d => apply_all neq m n dv blobs h g q a b c d th f). Qed.
Print Assumptions C13_apply_to_all_vertices.

(** C14 *)
Theorem C14_reduce_all_vertices {V E byte W} neq (m : machine V E byte) (dv : V) n blobs h g q th (mp : V -> V * W) op init :
  setting m n blobs -> calls_ok n m h -> reached neq m dv n blobs h g -> means neq dv n blobs h q -> threads_ok m (m_serv m) th -> associative op -> commutative op ->
  exists g' res, g_applyReduceAllVertices (m_nr m) th mp op init g = Ok (g', map (fun _ => res) (zrange 0 (m_nr m))) /\
    Some res = red op (map init (zrange 0 (m_nr m)) ++ map (fun v => snd (mp (gs_P q v))) (zrange 1 (n + 1))) /\
    observed_as neq m n g' (mkGS (gs_es q) (fun v => fst (mp (gs_P q v))) (gs_A q)).
Proof. exact (fun a b c d => reduce_all neq m n dv blobs h g q a b c d th mp op init). Qed.
Print Assumptions C14_reduce_all_vertices.
(** if the initial values of all ranks but the first change nothing, only the first rank's counts *)
Theorem C14_neutral_initial_values {V E byte W} neq (m : machine V E byte) (dv : V) n blobs h g q th (mp : V -> V * W) op init :
  setting m n blobs -> calls_ok n m h -> reached neq m dv n blobs h g -> means neq dv n blobs h q -> threads_ok m (m_serv m) th -> associative op -> commutative op ->
  (forall r, 1 <= r < m_nr m -> forall x, op (init r) x = x) ->
  exists g' res, g_applyReduceAllVertices (m_nr m) th mp op init g = Ok (g', map (fun _ => res) (zrange 0 (m_nr m))) /\
    Some res = red op (init 0 :: map (fun v => snd (mp (gs_P q v))) (zrange 1 (n + 1))).
Proof. exact (fun a b c d => reduce_neutral neq m n dv blobs h g q th mp op init a b c d). Qed.
Print Assumptions C14_neutral_initial_values.
(** the initial value counts once per rank *)
Theorem C14_initial_value_once_per_rank {V E byte} neq (m : machine V E byte) (dv : V) n blobs h g q th (mp : V -> V * Z) c :
  setting m n blobs -> calls_ok n m h -> reached neq m dv n blobs h g -> means neq dv n blobs h q -> threads_ok m (m_serv m) th ->
  exists g', g_applyReduceAllVertices (m_nr m) th mp Z.add (fun _ => c) g = Ok (g', map (fun _ =>
    c + fold_right Z.add 0 (map (fun v => snd (mp (gs_P q v))) (zrange 1 (n + 1))) + (m_nr m - 1) * c) (zrange 0 (m_nr m))).
Proof. exact (reduce_excess neq m n dv blobs h g q th mp c). Qed.
Print Assumptions C14_initial_value_once_per_rank.

(** C15 *)
Theorem C15_apply_to_all_edges {V E byte} neq (m : machine V E byte) (dv : V) n blobs h g q th f :
  setting m n blobs -> calls_ok n m h -> reached neq m dv n blobs h g -> means neq dv n blobs h q -> threads_ok m (m_serv m) th ->
  exists g', g_applyToAllEdges (m_serv m) (m_encv m) (m_decv m) (m_nr m) th f g = Ok g' /\
    observed_as neq m n g' (mkGS (map (fun e => mkE (e_src e) (e_dst e) (f (e_val e) (gs_P q (e_src e)) (gs_P q (e_dst e)))) (gs_es q)) (gs_P q) (gs_A q)).
Proof. exact (fun a b c d => edges_all neq m n dv blobs h g q a b c d th f). Qed.
Print Assumptions C15_apply_to_all_edges.

(** C16: [bwd] holds (destination, source, weight) *)
Theorem C16_both_directions {V E byte} neq (m : machine V E byte) (dv : V) n blobs h g q :
  setting m n blobs -> calls_ok n m h -> reached neq m dv n blobs h g -> means neq dv n blobs h q ->
  exists fwd bwd, read_edges m g = Ok fwd /\ read_transposed m g = Ok bwd /\
    Permutation (concat fwd) (gs_es q) /\ Permutation (concat bwd) (map (fun e => mkE (e_dst e) (e_src e) (e_val e)) (concat fwd)).
Proof. exact (fun a b c d => both_directions neq m n dv blobs h g q a b c d). Qed.
Print Assumptions C16_both_directions.

(** C62: two runs of the same program from graphs that mean the same, with any temporaries *)
Theorem C62_rerun {V E byte S T U} neq n (m : machine V E byte) dv1 dv2 blobs1 blobs2 h1 h2 g1 g2 q1 q2 th1 th2 (jb : job S T U V E) fr1 fr2 tmp1 tmp2 :
  situation neq m dv1 n blobs1 h1 g1 q1 th1 jb fr1 -> situation neq m dv2 n blobs2 h2 g2 q2 th2 jb fr2 -> same_graph n q1 q2 ->
  temporaries_ok neq m n fr1 tmp1 -> temporaries_ok neq m n fr2 tmp2 ->
  ((tmp1 = None /\ tmp2 = None) \/ (ignores_old (j_pg jb) /\ (pr_all_vertices (j_pg jb) = true \/ forall v, 1 <= v <= n -> gs_A q1 v <> Some false))) ->
  (exists k r1 r2 K bs1 bs2 q, run_job neq m th1 jb fr1 tmp1 g1 = Ok (r1, k) /\ run_job neq m th2 jb fr2 tmp2 g2 = Ok (r2, k) /\
     r_s r1 = r_s r2 /\ observed_as neq m n (r_g r1) q /\ observed_as neq m n (r_g r2) q /\ k = Z.of_nat K /\
     split_log m (r_g r1) (r_log r1) K bs1 /\ split_log m (r_g r2) (r_log r2) K bs2 /\
     forall i v, (i < K)%nat -> times bs1 i (Sent v) = times bs2 i (Sent v) /\ times bs1 i (Applied v) = times bs2 i (Applied v)) \/
  (run_job neq m th1 jb fr1 tmp1 g1 = Err NoFuel /\ run_job neq m th2 jb fr2 tmp2 g2 = Err NoFuel).
Proof. exact (rerun_claim neq m n dv1 dv2 blobs1 blobs2 h1 h2 g1 g2 q1 q2 th1 th2 jb fr1 fr2 tmp1 tmp2). Qed.
Print Assumptions C62_rerun.

(** *** Examples: the hypotheses are met *)
(** two ranks; shortest paths over five vertices; values are sent unserialized *)
Definition exm (nr nt : Z) (ser : bool) : machine Z Z (Z * Z) :=
  mkMach nr nt isort ksort (fun _ _ _ => 7) (fun _ _ _ => 8) (fun _ => 9) (fun _ => 10) None (Some true) ser (fun l => l) (fun l _ => Ok l).
Definition exf : frame Z Z (Z * Z) := mkF false false (fun l => l) (fun l _ => Ok l) (fun l => l) (fun l _ => Ok l) (fun _ => 4) (fun _ => 5) None None 77.
Definition exblobs : list (list (edge Z)) := [[mkE 1 2 1; mkE 2 3 2; mkE 1 3 9]; [mkE 3 4 1; mkE 5 1 1; mkE 1 2 5]].
Definition exblobs3 : list (list (edge Z)) := [[mkE 1 2 5]; []; [mkE 1 2 1; mkE 5 1 1; mkE 2 3 2; mkE 1 3 9; mkE 3 4 1]].
Definition exprog (d : direction) (allv : bool) (b : bool) : program Z Z Z Z Z :=
  mkP d allv true (fun _ v _ => (v, b)) (fun _ t e _ => t + e) (fun _ => Z.min) (fun _ u v => Z.min u v) (fun it s => s + 1).
Definition exj (d : direction) (allv b : bool) (its : Z) : job Z Z Z Z Z := mkJ (exprog d allv b) 0 its 55 66 20.
Definition neqZ (a b : Z) : bool := negb (a =? b).
Definition exh (t : Z) : list (Z * gcall Z Z (Z * Z)) := [(t, CSetAll 100); (t, CSet 1 0); (t, CAllInactive); (t, CActive 1)].
Definition exg (m : machine Z Z (Z * Z)) b h : graph Z Z (Z * Z) :=
  match (do g <- load m 100 5 b ;; run_calls neqZ m h g) with Ok g => g | _ => mkG 0 0 (mkM 0 0 0 0 [] []) (mkM 0 0 0 0 [] []) [] [] [] end.
Definition exq : gspec Z Z := mkGS (concat exblobs) (fun u => if u =? 1 then 0 else 100) (fun u => if u =? 1 then Some true else None).

Lemma exm_ok nr nt ser : 1 <= nr -> 1 <= nt -> machine_ok (exm nr nt ser).
Proof. intros. split; [auto|]. split; [auto|]. split; [apply isort_sorts|]. split; [apply ksort_sorts|]. reflexivity. Qed.
Lemma exj_ok d a b its : job_ok (exj d a b its).
Proof. intros s. split; intros x y; cbn; [lia|intros z; lia]. Qed.
Lemma exblobs_ok e : In e (concat exblobs) -> 1 <= e_src e <= 5 /\ 1 <= e_dst e <= 5.
Proof. cbn. intuition subst; cbn; lia. Qed.
Lemma exblobs3_ok e : In e (concat exblobs3) -> 1 <= e_src e <= 5 /\ 1 <= e_dst e <= 5.
Proof. cbn. intuition subst; cbn; lia. Qed.
Lemma exf_ok (m : machine Z Z (Z * Z)) th : 1 <= th -> frame_ok m th exf.
Proof. intros. split; [split; [auto|discriminate]|]. split; [split; [auto|discriminate]|]. split; reflexivity. Qed.
Lemma exth_ok th (h : list (Z * gcall Z Z (Z * Z))) nr nt : 1 <= th -> Forall (fun c => fst c = th /\ match snd c with CSet v _ => 1 <= v <= 5 | CActive v => 1 <= v <= 5 | CInactive v => 1 <= v <= 5 | CReduce _ _ _ => False | CRun _ _ => False | _ => True end) h -> calls_ok 5 (exm nr nt false) h.
Proof. intros Hth F. eapply Forall_impl; [|exact F]. intros [t c] [Et Hc]. cbn [fst snd] in *. subst t. split; [split; [auto|discriminate]|]. destruct c; auto; contradiction. Qed.

Example situation_example its d a b : situation neqZ (exm 2 3 false) 100 5 exblobs (exh 2) (exg (exm 2 3 false) exblobs (exh 2)) exq 4 (exj d a b its) exf.
Proof.
  split; [split; [apply exm_ok; lia|]; split; [lia|]; split; [reflexivity|]; exact exblobs_ok|].
  split; [apply exth_ok with (th := 2); [lia|repeat constructor; cbn; lia]|].
  split; [exists (exg (exm 2 3 false) exblobs []); split; vm_compute; reflexivity|].
  split; [repeat (eexists; split; [reflexivity|]); reflexivity|].
  split; [split; [lia|discriminate]|]. split; [apply exj_ok|apply exf_ok; lia].
Qed.
Example situation_example3 its d a b : situation neqZ (exm 3 1 false) 100 5 exblobs3 (exh 5) (exg (exm 3 1 false) exblobs3 (exh 5)) (mkGS (concat exblobs3) (gs_P exq) (gs_A exq)) 1 (exj d a b its) exf.
Proof.
  split; [split; [apply exm_ok; lia|]; split; [lia|]; split; [reflexivity|]; exact exblobs3_ok|].
  split; [apply exth_ok with (th := 5); [lia|repeat constructor; cbn; lia]|].
  split; [exists (exg (exm 3 1 false) exblobs3 []); split; vm_compute; reflexivity|].
  split; [repeat (eexists; split; [reflexivity|]); reflexivity|].
  split; [split; [lia|discriminate]|]. split; [apply exj_ok|apply exf_ok; lia].
Qed.
Definition exrun m th b h jb : option (Z * Z * list Z) :=
  match run_job neqZ m th jb exf None (exg m b h) with
  | Ok (r, k) => Some (k, r_s r, map (fun v => fold_right Z.max (-1) (map (fun p => match read_property m (r_g r) p v (-1) with Ok (Some x) => x | _ => -1 end) (zrange 0 (m_nr m)))) (zrange 1 6))
  | Err _ => None end.
(** the shortest paths, found in four supersteps, on two and on three ranks *)
Example run_example : exrun (exm 2 3 false) 4 exblobs (exh 2) (exj OUT_EDGES false true 0) = Some (4, 4, [0; 1; 3; 4; 100]).
Proof. vm_compute. reflexivity. Qed.
Example C07_example : exrun (exm 3 1 false) 1 exblobs3 (exh 5) (exj OUT_EDGES false true 0) = Some (4, 4, [0; 1; 3; 4; 100]) /\
  same_graph 5 exq (mkGS (concat exblobs3) (gs_P exq) (gs_A exq)).
Proof.
  split; [vm_compute; reflexivity|]. split; [|intros; split; reflexivity]. cbn.
  apply (Permutation_trans (l' := [mkE 1 2 5; mkE 1 2 1; mkE 2 3 2; mkE 1 3 9; mkE 3 4 1; mkE 5 1 1])).
  - apply (Permutation_trans (Permutation_cons_append _ _)). cbn. symmetry. apply (Permutation_trans (Permutation_cons_append [mkE 1 2 1; mkE 2 3 2; mkE 1 3 9; mkE 3 4 1; mkE 5 1 1] (mkE 1 2 5))). cbn.
    change [mkE 1 2 1; mkE 2 3 2; mkE 1 3 9; mkE 3 4 1; mkE 5 1 1; mkE 1 2 5] with ([mkE 1 2 1] ++ [mkE 2 3 2; mkE 1 3 9; mkE 3 4 1; mkE 5 1 1; mkE 1 2 5]). apply Permutation_app_comm.
  - do 2 constructor. change [mkE 2 3 2; mkE 1 3 9; mkE 3 4 1; mkE 5 1 1] with ([mkE 2 3 2; mkE 1 3 9; mkE 3 4 1] ++ [mkE 5 1 1]). apply Permutation_app_comm.
Qed.
(** 600 vertices, so that several ranks own some: the paths cross between ranks *)
Definition exspread (m : machine Z Z (Z * Z)) (th : Z) (b : list (list (edge Z))) : R (Z * list Z) :=
  do g <- load m 100 600 b ;; do g <- run_calls neqZ m (exh th) g ;; do r <- run_job neqZ m th (exj OUT_EDGES false true 0) exf None g ;;
  do l <- mapR (fun v => do l <- mapR (fun p => do o <- owns m (r_g (fst r)) p v ;; do x <- read_property m (r_g (fst r)) p v (-1) ;; Ok (if o then [(p, x)] else [])) (zrange 0 (m_nr m)) ;; Ok (concat l)) [1; 20; 300; 599; 600; 450; 7] ;;
  Ok (snd r, map (fun x => match x with (_, Some x) => x | _ => -1 end) (concat l)).
Definition exfar : list (edge Z) := [mkE 1 300 1; mkE 300 599 2; mkE 1 599 9; mkE 599 20 1; mkE 20 600 1; mkE 300 450 5; mkE 600 450 1; mkE 450 1 3].
Example C07_example_spread : exspread (exm 1 2 false) 3 [exfar] = Ok (5, [0; 4; 1; 3; 5; 6; 100]) /\
  exspread (exm 2 1 false) 4 [skipn 3 exfar; firstn 3 exfar] = Ok (5, [0; 4; 1; 3; 5; 6; 100]) /\
  exspread (exm 4 2 false) 1 [[]; skipn 6 exfar; firstn 6 exfar; []] = Ok (5, [0; 4; 1; 3; 5; 6; 100]) /\
  (forall p, 0 <= p < 2 -> exists v, 1 <= v <= 600 /\ g_vertexNodeOwner 600 2 1 p v = Ok true) /\
  (forall p, 0 <= p < 3 -> exists v, 1 <= v <= 600 /\ g_vertexNodeOwner 600 4 2 p v = Ok true).
Proof.
  split; [vm_compute; reflexivity|]. split; [vm_compute; reflexivity|]. split; [vm_compute; reflexivity|]. split; intros p Hp.
  - assert (p = 0 \/ p = 1) as [-> | ->] by lia; [exists 1|exists 600]; (split; [lia|vm_compute; reflexivity]).
  - assert (p = 0 \/ p = 1 \/ p = 2) as [-> | [-> | ->]] by lia; [exists 1|exists 450|exists 600]; (split; [lia|vm_compute; reflexivity]).
Qed.
(** C06: exactly one, exactly nine, and until nothing changes *)
Example C06_example : exrun (exm 2 3 false) 4 exblobs (exh 2) (exj OUT_EDGES false true 1) = Some (1, 1, [0; 1; 9; 100; 100]) /\
  exrun (exm 2 3 false) 4 exblobs (exh 2) (exj OUT_EDGES false true 9) = Some (9, 9, [0; 1; 3; 4; 100]).
Proof. split; vm_compute; reflexivity. Qed.
(** C09: returning false changes nothing *)
Example C09_example : same_job (exj OUT_EDGES false true 0) (exj OUT_EDGES false false 0) /\
  exrun (exm 2 3 false) 4 exblobs (exh 2) (exj OUT_EDGES false false 0) = Some (4, 4, [0; 1; 3; 4; 100]).
Proof. split; [|vm_compute; reflexivity]. repeat split. Qed.
(** C10: right after loading, everybody sends the contents of the message variable (55) *)
Definition exh0 (t : Z) : list (Z * gcall Z Z (Z * Z)) := [(t, CSetAll 100); (t, CSet 1 0)].
Example C10_example : Forall (fun c => no_activity (snd c)) (exh0 2) /\ exrun (exm 2 3 false) 4 exblobs (exh0 2) (exj OUT_EDGES false true 1) = Some (1, 1, [0; 56; 57; 56; 100]).
Proof. split; [repeat constructor|vm_compute; reflexivity]. Qed.
(** C11, and both directions *)
Example C11_example : exrun (exm 2 3 false) 4 exblobs (exh 2) (exj ALL_EDGES true true 0) = Some (4, 4, [0; 1; 3; 4; 1]).
Proof. vm_compute. reflexivity. Qed.
(** C04: a history with repeated calls for the same vertex *)
Example C04_example : member false [(1, (3, true)); (2, (4, true)); (1, (3, false)); (1, (4, true))] 4 = true /\ member false [(1, (3, true)); (2, (4, true)); (1, (3, false)); (1, (4, true))] 3 = false /\
  exh 2 = [(2, CSetAll 100); (2, CSet 1 0)] ++ (2, if false then CAllActive else CAllInactive) :: activity_calls [(2, (1, true))].
Proof. repeat split. Qed.
(** C14: two ranks, initial value 10 on each *)
Example C14_example : match g_applyReduceAllVertices 2 4 (fun v : Z => (v + 1, v)) Z.add (fun _ => 10) (exg (exm 2 3 false) exblobs (exh 2)) with Ok (_, l) => l = [420; 420] | _ => False end.
Proof. vm_compute. reflexivity. Qed.
(** and 10 on the first, 0 on the second *)
Example C14_example_neutral : (forall r, 1 <= r < m_nr (exm 2 3 false) -> forall x, (if r =? 0 then 10 else 0) + x = x) /\
  match g_applyReduceAllVertices 2 4 (fun v : Z => (v + 1, v)) Z.add (fun r => if r =? 0 then 10 else 0) (exg (exm 2 3 false) exblobs (exh 2)) with Ok (_, l) => l = [410; 410] | _ => False end.
Proof. split; [|vm_compute; reflexivity]. intros r Hr x. destruct (Z.eqb_spec r 0); lia. Qed.
(** C05, C08, C12: in the situation above vertex 1 is active, with three out-edges, two of them to vertex 2; the
    calls on the two ranks in the first two supersteps *)
Example C05_example : (forall v, gs_A exq v <> Some false) /\
  map (inbox (exj OUT_EDGES false true 1) exq) [1; 2; 3; 4; 5] = [[]; [1; 5]; [9]; []; []] /\
  map (inbox (exj IN_EDGES false true 1) exq) [1; 2; 3; 4; 5] = [[]; []; []; []; [1]] /\
  map (inbox (exj ALL_EDGES false true 1) exq) [1; 2; 3; 4; 5] = [[]; [1; 5]; [9]; []; [1]].
Proof. split; [|vm_compute; auto]. intros v. cbn. destruct (v =? 1); discriminate. Qed.
Example C08_example : pr_all_vertices (j_pg (exj OUT_EDGES false true 2)) = false /\
  changes neqZ (exj OUT_EDGES false true 2) exq 0 2 /\ changes neqZ (exj OUT_EDGES false true 2) exq 0 3 /\ ~ changes neqZ (exj OUT_EDGES false true 2) exq 0 1 /\
  ~ changes neqZ (exj OUT_EDGES false true 2) exq 1 2.
Proof.
  split; [reflexivity|]. split; [split; [vm_compute; discriminate|vm_compute; reflexivity]|]. split; [split; [vm_compute; discriminate|vm_compute; reflexivity]|].
  split; intros [H H']; vm_compute in H, H'; congruence.
Qed.
Example C12_example : match run_job neqZ (exm 2 3 false) 4 (exj OUT_EDGES false true 2) exf None (exg (exm 2 3 false) exblobs (exh 2)) with
  | Ok (r, k) => k = 2 /\ mapR (mapR (event_vertex (exm 2 3 false) (r_g r))) (r_log r) =
      Ok [[Sent 1; Applied 2; Applied 3; Every 0; Sent 2; Sent 3; Applied 3; Applied 4; Every 1]; [Every 0; Every 1]]
  | Err _ => False end.
Proof. vm_compute. auto. Qed.
(** C13 *)
Example C13_example : match (do g <- g_applyToAllVertices 2 4 (fun a b : Z => a * 1000 + b) (exg (exm 2 3 false) exblobs (exh 2)) ;;
    mapR (fun v => read_property (exm 2 3 false) g 0 v (-1)) (zrange 1 6)) with Ok l => l = map Some [0; 100100; 100100; 100100; 100100] | _ => False end.
Proof. vm_compute. reflexivity. Qed.
(** C16 *)
Example C16_example : match (do f <- read_edges (exm 2 3 false) (exg (exm 2 3 false) exblobs (exh 2)) ;; do b <- read_transposed (exm 2 3 false) (exg (exm 2 3 false) exblobs (exh 2)) ;; Ok (f, b)) with
  | Ok (f, b) => map zlen f = [6; 0] /\ In (mkE 2 3 2) (concat f) /\ In (mkE 3 2 2) (concat b) /\ ~ In (mkE 2 3 2) (concat b) | Err _ => False end.
Proof. vm_compute. split; [reflexivity|]. split; [tauto|]. split; [tauto|]. intuition discriminate. Qed.
(** C15 *)
Example C15_example : match (do g <- g_applyToAllEdges false (fun l => l) (fun l _ => Ok l) 2 4 (fun e a b : Z => e * 1000 + a - b) (exg (exm 2 3 false) exblobs (exh 2)) ;; read_edges (exm 2 3 false) g) with Ok l => map e_val (concat l) = [1100; 900; 4900; 8900; 2000; 1000] | _ => False end.
Proof. vm_compute. reflexivity. Qed.
(** C62: reusing the temporaries of an earlier run *)
Definition extmp : list (list (seg Z (Z * Z))) * list (list (seg Z (Z * Z))) :=
  match new_temps 2 4 (fun _ => 4) (fun _ => 5) None None 55 77 5 with Ok xy => xy | _ => ([], []) end.
Lemma extmp_ok : temporaries neqZ (exm 2 3 false) 5 false false extmp.
Proof. apply (T_init neqZ (exm 2 3 false) 5 false false 4 exf 55); [apply exf_ok; lia|reflexivity|reflexivity|vm_compute; reflexivity]. Qed.
Definition exused (jb : job Z Z Z Z Z) : list (list (seg Z (Z * Z))) * list (list (seg Z (Z * Z))) :=
  match run_job neqZ (exm 2 3 false) 4 jb exf (Some extmp) (exg (exm 2 3 false) exblobs (exh 2)) with Ok (r, _) => (r_x r, r_y r) | _ => ([], []) end.
Definition exrun_tmp tmp (jb : job Z Z Z Z Z) : option (Z * list Z) :=
  match run_job neqZ (exm 2 3 false) 4 jb exf tmp (exg (exm 2 3 false) exblobs (exh 2)) with
  | Ok (r, k) => Some (k, map (fun v => fold_right Z.max (-1) (map (fun p => match read_property (exm 2 3 false) (r_g r) p v (-1) with Ok (Some x) => x | _ => -1 end) (zrange 0 2))) (zrange 1 6))
  | Err _ => None end.
Lemma exused_ok : temporaries neqZ (exm 2 3 false) 5 false false (exused (exj OUT_EDGES false true 0)).
Proof.
  pose proof (situation_example 0 OUT_EDGES false true) as Hs. unfold exused.
  destruct (run_job neqZ (exm 2 3 false) 4 (exj OUT_EDGES false true 0) exf (Some extmp) (exg (exm 2 3 false) exblobs (exh 2))) as [[r k]|e] eqn:Er.
  - exact (T_used neqZ (exm 2 3 false) 5 false false Z 100 exblobs (exh 2) _ exq 4 _ exf extmp r k Hs eq_refl eq_refl extmp_ok Er).
  - exfalso. assert (match run_job neqZ (exm 2 3 false) 4 (exj OUT_EDGES false true 0) exf (Some extmp) (exg (exm 2 3 false) exblobs (exh 2)) with Ok _ => True | _ => False end) as H by (vm_compute; exact I). rewrite Er in H. exact H.
Qed.
Example C62_example : ignores_old (j_pg (exj OUT_EDGES false true 0)) /\ (forall v, 1 <= v <= 5 -> gs_A exq v <> Some false) /\
  temporaries_ok neqZ (exm 2 3 false) 5 exf (Some (exused (exj OUT_EDGES false true 0))) /\
  exrun_tmp (Some (exused (exj OUT_EDGES false true 0))) (exj OUT_EDGES false true 0) = Some (4, [0; 1; 3; 4; 100]).
Proof.
  split; [intros s v t t'; reflexivity|]. split; [intros v _; cbn; destruct (v =? 1); discriminate|]. split; [exact exused_ok|vm_compute; reflexivity].
Qed.
(** A program whose send_message reads the message variable sees what earlier runs left there: its
    second run differs. *)
Definition exold : job Z Z Z Z Z := mkJ (mkP OUT_EDGES false true (fun _ v t => (t + 1, true)) (fun _ t e _ => t) (fun _ => Z.min) (fun _ u v => u) (fun it s => s)) 0 1 55 66 20.
Theorem C62_old_messages_refuted : exists (jb : job Z Z Z Z Z) q xy r1 r2,
  situation neqZ (exm 2 3 false) 100 5 exblobs (exh 2) (exg (exm 2 3 false) exblobs (exh 2)) q 4 jb exf /\ temporaries neqZ (exm 2 3 false) 5 false false xy /\
  run_job neqZ (exm 2 3 false) 4 jb exf None (exg (exm 2 3 false) exblobs (exh 2)) = Ok (r1, 1) /\
  run_job neqZ (exm 2 3 false) 4 jb exf (Some xy) (exg (exm 2 3 false) exblobs (exh 2)) = Ok (r2, 1) /\
  exists p v, 1 <= v <= 5 /\ owns (exm 2 3 false) (r_g r1) p v = Ok true /\ read_property (exm 2 3 false) (r_g r1) p v 0 <> read_property (exm 2 3 false) (r_g r2) p v 0.
Proof.
  exists exold, exq, (exused (exj OUT_EDGES false true 0)).
  exists (match run_job neqZ (exm 2 3 false) 4 exold exf None (exg (exm 2 3 false) exblobs (exh 2)) with Ok (r, _) => r | _ => mkR 0 (exg (exm 2 3 false) [] []) [] [] [] end).
  exists (match run_job neqZ (exm 2 3 false) 4 exold exf (Some (exused (exj OUT_EDGES false true 0))) (exg (exm 2 3 false) exblobs (exh 2)) with Ok (r, _) => r | _ => mkR 0 (exg (exm 2 3 false) [] []) [] [] [] end).
  split; [|split; [exact exused_ok|]].
  - pose proof (situation_example 1 OUT_EDGES false true) as (A & B & C & D & F & _). refine (conj A (conj B (conj C (conj D (conj F (conj _ (exf_ok _ 4 _))))))); [|lia]. intros s. split; intros x y; cbn; [lia|intros z; lia].
  - split; [vm_compute; reflexivity|]. split; [vm_compute; reflexivity|]. exists 0, 2. split; [lia|]. split; [vm_compute; reflexivity|]. vm_compute. discriminate.
Qed.
Print Assumptions C62_old_messages_refuted.

(** C63: programs whose reduction is not commutative or not associative *)
Theorem C63_any_reduction {V E byte} neq (m : machine V E byte) (dv : V) n blobs h :
  setting m n blobs -> calls_fit n m h ->
  exists g0, load m dv n blobs = Ok g0 /\
    ((exists g q, run_calls neq m h g0 = Ok g /\ can_mean neq dv n blobs h q /\ shows_properties n m g (gs_P q) /\ shows_edges m g (gs_es q)) \/
     (run_calls neq m h g0 = Err NoFuel /\ can_calls neq n h (loaded dv (concat blobs)) None)).
Proof. exact (fun H => history_any neq m dv n blobs H h). Qed.
Print Assumptions C63_any_reduction.
(** what a combination can be *)
Theorem C63_one_outcome_if_order_is_irrelevant {U} (op : U -> U -> U) l o : commutative op -> associative op -> combined_of op l o -> o = red op l.
Proof. exact (combined_of_unique op l o). Qed.
Print Assumptions C63_one_outcome_if_order_is_irrelevant.
Theorem C63_choosing_operation {U} (op : U -> U -> U) l u : (forall a b, op a b = a \/ op a b = b) -> combined_of op l (Some u) -> In u l.
Proof. exact (combination_in op l u). Qed.
Print Assumptions C63_choosing_operation.

(** a program that keeps the last message it sees, [a = b]: it fits although it is not commutative *)
Definition exlast : job Z Z Z Z Z := mkJ (mkP OUT_EDGES false false (fun _ v _ => (v, true)) (fun _ t e _ => t + e) (fun _ _ b => b) (fun _ u _ => u) (fun _ s => s)) 0 1 55 66 20.
Example C63_example : ~ commutative (pr_reduce (j_pg exlast) 0) /\ call_fits 5 (exm 2 3 false) 4 (CRun exlast exf) /\
  calls_fit 5 (exm 2 3 false) (exh 2 ++ [(4, CRun exlast exf)]) /\
  exrun (exm 2 3 false) 4 exblobs (exh 2) exlast = Some (1, 0, [0; 5; 9; 100; 100]).
Proof.
  split; [intros H; discriminate (H 0 1)|]. assert (call_fits 5 (exm 2 3 false) 4 (CRun exlast exf)) as F by (split; [split; [lia|discriminate]|apply exf_ok; lia]). split; [exact F|].
  split; [|vm_compute; reflexivity]. apply Forall_app. split; [|constructor; auto]. repeat (constructor; [split; [split; [simpl; lia|discriminate]|simpl; try lia; auto]|]). constructor.
Qed.
