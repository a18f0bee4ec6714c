(** Properties of src/PageRank.cpp in floating point (C79).  What is asked of the arithmetic is
    [rounds] in FloatSpec.v, IEEE-754 single precision is [float32] in Float32.v, the PageRank equation
    is [solves_within] in FlowSpec.v, [apart] there is the sum of all differences. *)
From Coq Require Import SpecFloat QArith Qabs Qpower Lqa.
Local Open Scope Z_scope.
From Verif Require Import Base BaseLemmas Layout Reduce Segment DCSC MatSpec TileProofs SpMat Vec GraphVert Graph Runtime RunSpec GraphOps GraphHist.
From Verif Require Import RunFinal PropsMat Apps AppSpec RankSpec AppExample PropsApps FlowSpec FloatSpec FloatProofs FloatRun Float32 Float32Proofs Float32Run.

(** ** C79 *)
(** Single precision is such an arithmetic: every operation of the program changes its exact result by
    a factor of at most 1 + 2^-24 per rounding, [alphaQ] is the float nearest to 0.3. *)
Theorem C79_float32 : rounds float32 fval finite32 alphaQ p24 top32 (100001 # 10000000000) (99999 # 10000000000).
Proof. exact float32_rounds. Qed.
Print Assumptions C79_float32.

(** One step at a vertex with k > 0 in-edges, the additions done in any order: the new rank is finite,
    and off the exact value by a factor of at most p^(k+3). *)
Theorem C79_step {F E} (fl : floats F) val fin alpha p top tol least n (es : list (edge E)) R v x :
  rounds fl val fin alpha p top tol least -> (1 <= p)%Q -> (0 < alpha)%Q -> (alpha <= 1)%Q ->
  (forall e, In e es -> 1 <= e_src e <= n /\ 1 <= e_dst e <= n) -> zlen es < 2 ^ 31 ->
  rank_step fl es R v x -> in_degree es v <> 0 ->
  (forall u, 1 <= u <= n -> fin (R u) /\ (alpha / 2 <= val (R u) <= top)%Q) -> (p ^ (in_degree es v + 2) * inflow es (fun u => val (R u)) v <= top)%Q ->
  fin x /\ (Qabs (val x - exact_step es alpha (fun u => val (R u)) v) <= (p ^ (in_degree es v + 3) - 1) * exact_step es alpha (fun u => val (R u)) v)%Q.
Proof. exact (fun Hr Hp A0 A1 Hin Hl => step_accurate fl val fin alpha p top tol least n es Hr Hp (conj A0 A1) Hin Hl R v x). Qed.
Print Assumptions C79_step.

(** Any such arithmetic, any order of the additions in any superstep: if PageRank stops, every rank is
    finite and positive, and the ranks are near every solution of the PageRank equation: the differences
    add up to at most n/alpha * ((1-alpha)*tol + e + 2*(p^(D+3)-1)), where D bounds the in-degrees and [e] is
    by how much the solution fails.  If it does not stop within [fuel] supersteps, rounding is to blame. *)
Theorem C79_pagerank_rounded {F E byte} (fl : floats F) val fin alpha p top tol least (m : machine (pr_vertex F) E byte) n D blobs th fr1 fr2 dt1 dt2 dv fuel :
  rounds fl val fin alpha p top tol least -> (1 <= p)%Q -> (0 < alpha)%Q -> (alpha <= 1)%Q -> (0 <= tol)%Q ->
  setting m n blobs -> zlen (concat blobs) < 2 ^ 31 -> threads_ok m (m_serv m) th -> frame_ok m th fr1 -> frame_ok m th fr2 ->
  (forall v, 1 <= v <= n -> in_degree (concat blobs) v <= D) -> 0 <= D -> (p ^ (D + 3) <= 1 + alpha / 4)%Q -> (inject_Z (3 * n) <= top)%Q ->
  (exists g K P, run_pagerank fl m th fr1 fr2 dt1 dt2 dv fuel n blobs = Ok (g, Z.of_nat K) /\ (1 <= K <= fuel)%nat /\ shows_properties n m g P /\
    (forall v, 1 <= v <= n -> p_degree (P v) = out_degree (concat blobs) v /\ fin (p_rank (P v)) /\ (alpha / 2 <= val (p_rank (P v)))%Q) /\
    forall e x, solves_within n (concat blobs) alpha alpha e x ->
      (alpha * apart n (fun v => val (p_rank (P v))) x <= inject_Z n * ((1 - alpha) * tol + e + 2 * (p ^ (D + 3) - 1)))%Q) \/
  (run_pagerank fl m th fr1 fr2 dt1 dt2 dv fuel n blobs = Err NoFuel /\
    forall k, (k < fuel)%nat -> (alpha * least < (1 - alpha) ^ Z.of_nat k * (2 * inject_Z n) + 4 * inject_Z n * (p ^ (D + 3) - 1))%Q).
Proof.
  exact (fun Hr Hp A0 A1 Ht Hs Hl Hth H1 H2 HD HD0 HP Htop =>
    pagerank_rounded fl val fin alpha p top tol least m n D blobs th fr1 fr2 dt1 dt2 dv fuel Hr Hp (conj A0 A1) Ht Hs Hl Hth H1 H2 HD HD0 HP Htop).
Qed.
Print Assumptions C79_pagerank_rounded.

(** The program as it is, in single precision, for in-degrees up to D <= 2^20: when it stops, no rank is
    infinite or NaN, and the differences to a solution add up to at most
    n/alpha * ((1-alpha) * 1.00001e-5 + e + 9*(D+3)/2^26). *)
Theorem C79_pagerank_float32 {E byte} (m : machine (pr_vertex spec_float) E byte) n D blobs th fr1 fr2 dt1 dt2 dv fuel g K :
  setting m n blobs -> n < 2 ^ 31 -> zlen (concat blobs) < 2 ^ 31 -> threads_ok m (m_serv m) th -> frame_ok m th fr1 -> frame_ok m th fr2 ->
  (forall v, 1 <= v <= n -> in_degree (concat blobs) v <= D) -> 0 <= D <= 2 ^ 20 ->
  run_pagerank float32 m th fr1 fr2 dt1 dt2 dv fuel n blobs = Ok (g, K) ->
  exists P, shows_properties n m g P /\
    (forall v, 1 <= v <= n -> p_degree (P v) = out_degree (concat blobs) v /\ finite32 (p_rank (P v)) /\ (0 < fval (p_rank (P v)))%Q) /\
    forall e x, solves_within n (concat blobs) alphaQ alphaQ e x ->
      (alphaQ * apart n (fun v => fval (p_rank (P v))) x <= inject_Z n * ((1 - alphaQ) * (100001 # 10000000000) + e + inject_Z (D + 3) * (9 # 67108864)))%Q.
Proof. exact (pagerank_float32 m n D blobs th fr1 fr2 dt1 dt2 dv fuel g K). Qed.
Print Assumptions C79_pagerank_float32.

(** Values for the examples: floats travel as lists of numbers. *)
Definition f_to (x : spec_float) : list Z :=
  match x with S754_zero s => [0; if s then 1 else 0] | S754_infinity s => [1; if s then 1 else 0] | S754_nan => [2] | S754_finite s m e => [signed s m; e; 3] end.
Definition f_of (l : list Z) : R spec_float :=
  match l with
  | [Zpos m; e; _] => Ok (S754_finite false m e) | [Zneg m; e; _] => Ok (S754_finite true m e)
  | [a; b] => Ok (if a =? 0 then S754_zero (b =? 1) else S754_infinity (b =? 1)) | [_] => Ok S754_nan | _ => Err Uninit
  end.
Lemma f_ok x : f_of (f_to x) = Ok x. Proof. destruct x as [[]|[]| |[] m e]; reflexivity. Qed.
Definition pf_to (p : pr_vertex spec_float) : list Z := p_degree p :: f_to (p_rank p).
Definition pf_of (l : list Z) : R (pr_vertex spec_float) := match l with d :: r => do x <- f_of r ;; Ok (mkPR x d) | [] => Err Uninit end.
Lemma pf_ok p : pf_of (pf_to p) = Ok p. Proof. destruct p as [x d]. unfold pf_of, pf_to. cbn [p_degree p_rank]. rewrite f_ok. reflexivity. Qed.
Definition axf_f : frame spec_float spec_float (list Z) := ax_f f_to f_of f_to f_of true S754_nan.
(** PageRank on [m], and what the owners read: each rank as mantissa and exponent *)
Definition f_ranks (m : machine (pr_vertex spec_float) Z (list Z)) th n blobs : R (list (list Z)) :=
  do q <- run_pagerank float32 m th axf_z axf_f 6 S754_nan (mkPR S754_nan 9) 60 n blobs ;; do l <- ax_read m (fst q) (mkPR S754_nan 0) n ;; Ok (map (fun p => f_to (p_rank p)) l).

(** The additions are not in a fixed order: the same program on the same edges computes different ranks
    on one rank with one thread and on two ranks with three.  Vertex 32 gets 0.3 from vertex 1, 0.15 from
    vertex 2 and 0.075 from vertex 17. *)
Definition o_edges : list (edge Z) := map (fun p => mkE (fst p) (snd p) 1) [(1, 32); (2, 32); (2, 3); (17, 32); (17, 3); (17, 4); (17, 5)].
Definition one_m : machine (pr_vertex spec_float) Z (list Z) :=
  mkMach 1 1 isort ksort (fun _ _ _ => 7) (fun _ _ _ => 8) (fun _ => 9) (fun _ => 10) None (Some true) true (c_enc pf_to) (c_dec pf_of).
Theorem C79_same_ranks_refuted : let m1 := one_m in let m2 := ax_m pf_to pf_of true in
  setting m1 32 [o_edges] /\ setting m2 32 [o_edges; []] /\
  threads_ok m1 (m_serv m1) 1 /\ threads_ok m2 (m_serv m2) 3 /\ frame_ok m1 1 axf_z /\ frame_ok m1 1 axf_f /\ frame_ok m2 3 axf_z /\ frame_ok m2 3 axf_f /\
  exists l1 l2 x1 x2, f_ranks m1 1 32 [o_edges] = Ok l1 /\ f_ranks m2 3 32 [o_edges; []] = Ok l2 /\ rd l1 31 = Ok x1 /\ rd l2 31 = Ok x2 /\ x1 <> x2.
Proof.
  assert (Hin : forall e, In e o_edges -> 1 <= e_src e <= 32 /\ 1 <= e_dst e <= 32) by (intros e He; cbn in He; repeat (destruct He as [<-|He]; [cbn; lia|]); destruct He).
  assert (M1 : machine_ok one_m) by (split; [cbn; lia|]; split; [cbn; lia|]; split; [apply isort_sorts|]; split; [apply ksort_sorts|]; apply c_ok, pf_ok).
  assert (F1 : forall {T} (to : T -> list Z) of d, (forall a, of (to a) = Ok a) -> frame_ok one_m 1 (ax_f to of to of true d)) by (intros T to of d H; split; [split; [lia|reflexivity]|]; split; [split; [lia|reflexivity]|]; split; apply c_ok, H).
  cbv zeta. split; [split; [exact M1|]; split; [lia|]; split; [reflexivity|]; intros e He; apply Hin; cbn in He |- *; tauto|].
  split; [split; [apply ax_m_ok, pf_ok|]; split; [lia|]; split; [reflexivity|]; intros e He; apply Hin; cbn in He |- *; tauto|].
  split; [split; [lia|reflexivity]|]. split; [split; [lia|reflexivity]|]. split; [apply F1, z_ok|]. split; [apply F1, f_ok|]. split; [apply ax_f_ok; auto using z_ok|]. split; [apply ax_f_ok; auto using f_ok|].
  eexists _, _, _, _. split; [vm_compute; reflexivity|]. split; [vm_compute; reflexivity|]. split; [reflexivity|]. split; [reflexivity|]. discriminate.
Qed.
Print Assumptions C79_same_ranks_refuted.

(** 1 -> 2 -> 3 -> 4 -> 2, 1 -> 3 and 5 -> 1, on two ranks, in-degrees up to 2; a solution of the
    equation up to 10^-6 *)
Definition ax_solution (v : Z) : Q := nth (Z.to_nat (v - 1)) [510000 # 1000000; 1404817 # 1000000; 1461872 # 1000000; 1323310 # 1000000; 300000 # 1000000]%Q 0%Q.
Example C79_example : let m := ax_m pf_to pf_of true in
  (setting m 5 ax_blobs /\ threads_ok m (m_serv m) 3 /\ frame_ok m 3 axf_z /\ frame_ok m 3 axf_f) /\
  (forall v, 1 <= v <= 5 -> in_degree (concat ax_blobs) v <= 2) /\ (p24 ^ (2 + 3) <= 1 + alphaQ / 4)%Q /\ (inject_Z (3 * 5) <= top32)%Q /\
  solves_within 5 (concat ax_blobs) alphaQ alphaQ (1 # 1000000) ax_solution /\
  f_ranks m 3 5 ax_blobs = Ok [[8556380; -24; 3]; [11784313; -23; 3]; [12262912; -23; 3]; [11100579; -23; 3]; [10066330; -25; 3]].
Proof.
  assert (V : forall v, 1 <= v <= 5 -> v = 1 \/ v = 2 \/ v = 3 \/ v = 4 \/ v = 5) by lia.
  split; [split; [apply ax_setting, pf_ok|]; split; [split; [lia|reflexivity]|]; split; [apply ax_f_ok; auto using z_ok|apply ax_f_ok; auto using f_ok]|].
  split; [intros v Hv; destruct (V v Hv) as [->|[->|[->|[->| ->]]]]; vm_compute; discriminate|]. split; [vm_compute; discriminate|]. split; [vm_compute; discriminate|].
  split; [intros v Hv; destruct (V v Hv) as [->|[->|[->|[->| ->]]]]; vm_compute; discriminate|]. vm_compute. reflexivity.
Qed.
