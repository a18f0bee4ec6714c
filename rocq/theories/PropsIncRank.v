(** Properties of src/IncrementalPageRank.cpp (C68) and of src/PageRank.cpp with exact arithmetic (C57).
    Notation as in PropsApps.v; the equation both programs are about is [solves_within] in FlowSpec.v. *)
From Coq Require Import QArith Qabs Qcanon Lqa.
Local Open Scope Z_scope.
From Verif Require Import Base BaseLemmas Layout Reduce Segment DCSC MatSpec TileProofs SpMat Vec GraphVert Graph Runtime RunSpec GraphOps GraphHist.
From Verif Require Import RunFinal PropsMat Apps AppSpec RankSpec AppExample PropsApps PageRankProofs IncRank FlowSpec FlowProofs IncRankProofs RankFlow.

(** ** C68: incremental PageRank *)
(** With exact arithmetic: the program stops, after at most 1 + n|start|/(alpha*eps) supersteps; each
    vertex then holds its out-degree and a rank; a vertex without in-edges has rank [start]; the ranks
    solve rank(v) = start + (1-alpha) * sum of rank(u)/out_degree(u) over the in-edges, up to [eps] at
    each vertex. *)
Theorem C68_incremental_solves {E byte} (alpha start eps : Qc) (m : machine (ip_vertex Qc) E byte) n blobs th fr1 fr2 dt1 dt2 dv fuel :
  setting m n blobs -> zlen (concat blobs) < 2 ^ 31 -> threads_ok m (m_serv m) th -> frame_ok m th fr1 -> frame_ok m th fr2 ->
  (0 < alpha)%Q -> (alpha <= 1)%Q -> (0 < eps)%Q -> (eps < Qabs start)%Q -> (inject_Z n * Qabs start < inject_Z (Z.of_nat fuel) * (alpha * eps))%Q ->
  exists g K P, run_increment (qdoubles alpha start eps) m th fr1 fr2 dt1 dt2 dv fuel n blobs = Ok (g, Z.of_nat K) /\ (1 <= K)%nat /\
    (inject_Z (Z.of_nat K - 1) * (alpha * eps) <= inject_Z n * Qabs start)%Q /\ shows_properties n m g P /\
    (forall v, 1 <= v <= n -> ip_degree (P v) = out_degree (concat blobs) v) /\
    (forall v, 1 <= v <= n -> in_degree (concat blobs) v = 0 -> ip_rank (P v) = start) /\
    solves_within n (concat blobs) alpha start eps (fun v => ip_rank (P v)).
Proof. exact (fun H Hl Ht H1 H2 A0 A1 => run_increment_spec alpha start eps m n blobs H Hl th fr1 fr2 dt1 dt2 dv fuel Ht H1 H2 (conj A0 A1)). Qed.
Print Assumptions C68_incremental_solves.
(** Two such solutions are near each other: the differences add up to at most n(e1+e2)/alpha.  So the
    ranks are within n*eps/alpha of the exact ones, and the equation has at most one exact solution. *)
Theorem C68_solutions_close {E} n (es : list (edge E)) alpha start e1 e2 x y :
  0 <= n -> (forall e, In e es -> 1 <= e_src e <= n /\ 1 <= e_dst e <= n) -> (alpha <= 1)%Q ->
  solves_within n es alpha start e1 x -> solves_within n es alpha start e2 y -> (alpha * apart n x y <= inject_Z n * (e1 + e2))%Q.
Proof. exact (fun Hn Hin => solutions_close n es Hin Hn alpha start e1 e2 x y). Qed.
Print Assumptions C68_solutions_close.

(** ** C57, continued *)
(** With exact arithmetic and alpha as the start value, as in the source, PageRank stops within any
    number of supersteps k with (1-alpha)^k * n * alpha <= eps; its ranks are then near every
    solution of the equation. *)
Theorem C57_pagerank_converges {E byte} (alpha eps : Qc) (m : machine (pr_vertex Qc) E byte) n blobs th fr1 fr2 dt1 dt2 dv fuel :
  setting m n blobs -> zlen (concat blobs) < 2 ^ 31 -> threads_ok m (m_serv m) th -> frame_ok m th fr1 -> frame_ok m th fr2 ->
  (0 < alpha)%Q -> (alpha <= 1)%Q -> (0 <= eps)%Q -> (1 <= fuel)%nat -> ((1 - alpha) ^ Z.of_nat fuel * (inject_Z n * alpha) <= eps)%Q ->
  exists g K P, run_pagerank (qfloats alpha alpha (qfar eps)) m th fr1 fr2 dt1 dt2 dv fuel n blobs = Ok (g, Z.of_nat K) /\ (1 <= K <= fuel)%nat /\ shows_properties n m g P /\
    (forall v, 1 <= v <= n -> p_degree (P v) = out_degree (concat blobs) v) /\
    forall e x, solves_within n (concat blobs) alpha alpha e x -> (alpha * apart n (fun v => p_rank (P v)) x <= inject_Z n * ((1 - alpha) * eps + e))%Q.
Proof. exact (pagerank_converges alpha eps m n blobs th fr1 fr2 dt1 dt2 dv fuel). Qed.
Print Assumptions C57_pagerank_converges.

Definition q_to (q : Qc) : list Z := [Qnum q; Zpos (Qden q)].
Definition q_of (l : list Z) : R Qc := match l with [a; Zpos b] => Ok (Q2Qc (a # b)) | _ => Err Uninit end.
Lemma q_back (q : Qc) : Q2Qc (Qnum q # Qden q) = q.
Proof. destruct q as [[a b] c]. apply Qc_is_canon. apply Qred_correct. Qed.
Lemma q_ok a : q_of (q_to a) = Ok a. Proof. unfold q_to, q_of. rewrite q_back. reflexivity. Qed.
Definition ip_to (p : ip_vertex Qc) : list Z := q_to (ip_delta p) ++ q_to (ip_rank p) ++ [ip_degree p].
Definition ip_of (l : list Z) : R (ip_vertex Qc) := match l with [a; b; c; d; e] => do x <- q_of [a; b] ;; do y <- q_of [c; d] ;; Ok (mkIP x y e) | _ => Err Uninit end.
Lemma ip_ok a : ip_of (ip_to a) = Ok a. Proof. destruct a as [a b c]. unfold ip_to, ip_of, q_to. cbn [app ip_delta ip_rank ip_degree q_of bind]. rewrite !q_back. reflexivity. Qed.
Definition pq_to (p : pr_vertex Qc) : list Z := q_to (p_rank p) ++ [p_degree p].
Definition pq_of (l : list Z) : R (pr_vertex Qc) := match l with [a; b; c] => do x <- q_of [a; b] ;; Ok (mkPR x c) | _ => Err Uninit end.
Lemma pq_ok a : pq_of (pq_to a) = Ok a. Proof. destruct a as [a c]. unfold pq_to, pq_of, q_to. cbn [app p_rank p_degree q_of bind]. rewrite q_back. reflexivity. Qed.
Definition axf_q : frame Qc Qc (list Z) := ax_f q_to q_of q_to q_of true (Q2Qc (77 # 1)).
Definition half : Qc := Q2Qc (1 # 2).
Definition tenth : Qc := Q2Qc (1 # 10).
Definition ranks_of {V} (f : V -> Qc) (l : list V) : list Q := map (fun v => this (f v)) l.
(** 1 -> 2 -> 3 -> 4 -> 2, 1 -> 3 and 5 -> 1, on two ranks *)
Example C68_example : let m := ax_m ip_to ip_of true in
  (setting m 5 ax_blobs /\ threads_ok m (m_serv m) 3 /\ frame_ok m 3 axf_z /\ frame_ok m 3 axf_q /\ (inject_Z 5 * Qabs half < inject_Z (Z.of_nat 51) * (half * tenth))%Q) /\
  (do q <- run_increment (qdoubles half half tenth) m 3 axf_z axf_q 6 half (mkIP half half 9) 51 5 ax_blobs ;; do l <- ax_read m (fst q) (mkIP half half 0) 5 ;; Ok (ranks_of ip_rank l, map ip_degree l, snd q))
  = Ok ([3 # 4; 39 # 32; 83 # 64; 17 # 16; 1 # 2]%Q, [2; 1; 1; 1; 1], 6).
Proof. split; [|vm_compute; reflexivity]. split; [apply ax_setting, ip_ok|]. split; [split; [lia|reflexivity]|]. split; [apply ax_f_ok; auto using z_ok|]. split; [apply ax_f_ok; auto using q_ok|reflexivity]. Qed.
Example C57_converges_example : let m := ax_m pq_to pq_of true in
  (setting m 5 ax_blobs /\ threads_ok m (m_serv m) 3 /\ frame_ok m 3 axf_z /\ frame_ok m 3 axf_q /\ ((1 - half) ^ Z.of_nat 5 * (inject_Z 5 * half) <= tenth)%Q) /\
  (do q <- run_pagerank (qfloats half half (qfar tenth)) m 3 axf_z axf_q 6 half (mkPR half 9) 5 5 ax_blobs ;; do l <- ax_read m (fst q) (mkPR half 0) 5 ;; Ok (ranks_of p_rank l, map p_degree l, snd q))
  = Ok ([3 # 4; 39 # 32; 81 # 64; 71 # 64; 1 # 2]%Q, [2; 1; 1; 1; 1], 4).
Proof. split; [|vm_compute; reflexivity]. split; [apply ax_setting, pq_ok|]. split; [split; [lia|reflexivity]|]. split; [apply ax_f_ok; auto using z_ok|]. split; [apply ax_f_ok; auto using q_ok|]. vm_compute. discriminate. Qed.
