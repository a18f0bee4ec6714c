(** src/PageRank.cpp in floating point stops (C81).  [rank_in] and [monotone] are in FloatOrder.v,
    [rounds] in FloatSpec.v, IEEE-754 single precision is [float32] in Float32.v. *)
From Coq Require Import SpecFloat QArith Qabs Qpower Lqa.
Local Open Scope Z_scope.
From Verif Require Import Base BaseLemmas Layout Reduce Segment DCSC MatSpec TileProofs SpMat Vec GraphVert Graph Runtime RunSpec GraphOps GraphHist.
From Verif Require Import RunFinal PropsMat Apps AppSpec RankSpec AppExample PropsApps FlowSpec FloatSpec Float32 Float32Proofs Tree FloatOrder FloatMono FloatStop Float32Mono PropsFloat.

(** ** C81 *)
(** In any arithmetic: there is one order of the additions at each vertex, with every in-edge once, and
    every superstep follows it.  So the ranks are a function of that order. *)
Theorem C81_one_order {F E byte} (fl : floats F) (m : machine (pr_vertex F) E byte) n blobs th fr1 fr2 dt1 dt2 dv fuel :
  setting m n blobs -> zlen (concat blobs) < 2 ^ 31 -> threads_ok m (m_serv m) th -> frame_ok m th fr1 -> frame_ok m th fr2 ->
  exists (ord : Z -> tree (edge E)) (rank : nat -> Z -> F), adds n (concat blobs) ord /\ (forall v, 1 <= v <= n -> rank O v = fl_start fl) /\
    (forall k v, 1 <= v <= n -> rank (S k) v = rank_in fl (concat blobs) ord (rank k) v) /\
    ((exists g K P, run_pagerank fl m th fr1 fr2 dt1 dt2 dv fuel n blobs = Ok (g, Z.of_nat K) /\ (1 <= K <= fuel)%nat /\ shows_properties n m g P /\
        (forall v, 1 <= v <= n -> P v = mkPR (rank K v) (out_degree (concat blobs) v)) /\
        settled fl n (concat blobs) (rank (K - 1)%nat) (rank K) /\ forall k, (S k < K)%nat -> ~ settled fl n (concat blobs) (rank k) (rank (S k))) \/
     (run_pagerank fl m th fr1 fr2 dt1 dt2 dv fuel n blobs = Err NoFuel /\ forall k, (k < fuel)%nat -> ~ settled fl n (concat blobs) (rank k) (rank (S k)))).
Proof. exact (fun Hs Hl Ht H1 H2 => run_pagerank_in fl m n blobs Hs Hl th fr1 fr2 dt1 dt2 dv fuel Ht H1 H2). Qed.
Print Assumptions C81_one_order.

(** In an accurate and monotone arithmetic PageRank stops: every superstep but the last raises the
    total of the ranks by at least [least], and the total stays below 2n. *)
Theorem C81_stops {F E byte} (fl : floats F) val fin alpha p top tol least (m : machine (pr_vertex F) E byte) n D blobs th fr1 fr2 dt1 dt2 dv fuel :
  rounds fl val fin alpha p top tol least -> monotone fl val fin alpha top -> (1 <= p)%Q -> (0 < alpha)%Q -> (alpha <= 1)%Q -> (0 <= tol)%Q ->
  setting m n blobs -> zlen (concat blobs) < 2 ^ 31 -> threads_ok m (m_serv m) th -> frame_ok m th fr1 -> frame_ok m th fr2 ->
  (forall v, 1 <= v <= n -> in_degree (concat blobs) v <= D) -> 0 <= D -> (p ^ (D + 3) <= 1 + alpha / 4)%Q -> (inject_Z (3 * n) <= top)%Q ->
  ((2 - alpha) * inject_Z n < inject_Z (Z.of_nat fuel) * least)%Q ->
  exists g K P, run_pagerank fl m th fr1 fr2 dt1 dt2 dv fuel n blobs = Ok (g, Z.of_nat K) /\ (1 <= K)%nat /\
    (inject_Z (Z.of_nat (K - 1)) * least <= (2 - alpha) * inject_Z n)%Q /\ shows_properties n m g P /\
    (forall v, 1 <= v <= n -> p_degree (P v) = out_degree (concat blobs) v /\ fin (p_rank (P v)) /\ (alpha <= val (p_rank (P v)))%Q) /\
    forall e x, solves_within n (concat blobs) alpha alpha e x ->
      (alpha * apart n (fun v => val (p_rank (P v))) x <= inject_Z n * ((1 - alpha) * tol + e + 2 * (p ^ (D + 3) - 1)))%Q.
Proof.
  exact (fun Hr Hm Hp A0 A1 Ht Hs Hl Hth H1 H2 HD HD0 HP Htop Hf =>
    pagerank_stops fl val fin alpha p top tol least m n D blobs th fr1 fr2 dt1 dt2 dv fuel Hr Hm Hp (conj A0 A1) Ht Hs Hl Hth H1 H2 HD HD0 HP Htop Hf).
Qed.
Print Assumptions C81_stops.

(** Single precision is such an arithmetic. *)
Theorem C81_float32_monotone : monotone float32 fval finite32 alphaQ top32.
Proof. exact float32_monotone. Qed.
Print Assumptions C81_float32_monotone.

(** The program as it is, in single precision, on any graph with in-degrees up to 2^20: it stops after
    at most 170002 * n + 1 supersteps, no rank is infinite, NaN or below alpha, and the ranks are as near
    to the exact ones as C79 says. *)
Theorem C81_stops_float32 {E byte} (m : machine (pr_vertex spec_float) E byte) n D blobs th fr1 fr2 dt1 dt2 dv fuel :
  setting m n blobs -> n < 2 ^ 31 -> zlen (concat blobs) < 2 ^ 31 -> threads_ok m (m_serv m) th -> frame_ok m th fr1 -> frame_ok m th fr2 ->
  (forall v, 1 <= v <= n -> in_degree (concat blobs) v <= D) -> 0 <= D <= 2 ^ 20 -> 170002 * n + 1 <= Z.of_nat fuel ->
  exists g K P, run_pagerank float32 m th fr1 fr2 dt1 dt2 dv fuel n blobs = Ok (g, K) /\ 1 <= K <= 170002 * n + 1 /\ shows_properties n m g P /\
    (forall v, 1 <= v <= n -> p_degree (P v) = out_degree (concat blobs) v /\ finite32 (p_rank (P v)) /\ (alphaQ <= fval (p_rank (P v)))%Q) /\
    forall e x, solves_within n (concat blobs) alphaQ alphaQ e x ->
      (alphaQ * apart n (fun v => fval (p_rank (P v))) x <= inject_Z n * ((1 - alphaQ) * (100001 # 10000000000) + e + inject_Z (D + 3) * (9 # 67108864)))%Q.
Proof. exact (pagerank_stops32 m n D blobs th fr1 fr2 dt1 dt2 dv fuel). Qed.
Print Assumptions C81_stops_float32.

(** The graph of C79_example: the conditions hold, and the run takes 31 supersteps. *)
Example C81_example : let m := ax_m pf_to pf_of true in
  (setting m 5 ax_blobs /\ threads_ok m (m_serv m) 3 /\ frame_ok m 3 axf_z /\ frame_ok m 3 axf_f) /\
  (forall v, 1 <= v <= 5 -> in_degree (concat ax_blobs) v <= 2) /\ zlen (concat ax_blobs) < 2 ^ 31 /\ 170002 * 5 + 1 <= Z.of_nat (Z.to_nat 850011) /\
  (do q <- run_pagerank float32 m 3 axf_z axf_f 6 S754_nan (mkPR S754_nan 9) 60 5 ax_blobs ;; Ok (snd q)) = Ok 31.
Proof.
  destruct C79_example as (H1 & H2 & _). split; [exact H1|]. split; [exact H2|]. split; [reflexivity|]. split; [rewrite Z2Nat.id; lia|].
  vm_compute. reflexivity.
Qed.
