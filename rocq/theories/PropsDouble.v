(** Properties of src/IncrementalPageRank.cpp in double precision (C82).  What is asked of the arithmetic is
    [rounds_db] in DoubleSpec.v, IEEE-754 double precision is [float64] in Double64.v, [inflow] and
    [solves_within] are in FlowSpec.v. *)
From Coq Require Import SpecFloat QArith Qabs Qpower Lqa.
Local Open Scope Z_scope.
From Verif Require Import Base BaseLemmas Layout Reduce Segment DCSC MatSpec TileProofs SpMat Vec GraphVert Graph Runtime RunSpec GraphOps GraphHist.
From Verif Require Import RunFinal PropsMat Apps AppSpec RankSpec AppExample PropsApps FlowSpec FloatSpec FloatProofs FloatRun Float32 Float32Proofs PropsFloat.
From Verif Require Import IncRank DoubleSpec DoubleProofs Double64 Double64Proofs Double64Run.

(** ** C82 *)
(** Double precision is such an arithmetic: each rounding changes a result by a factor of at most 1 + 2^-53;
    [startQ64] is the double nearest to 0.3 and [litQ64] the one nearest to 1e-8. *)
Theorem C82_float64 : rounds_db float64 fval finite64 startQ64 startQ64 p53 litQ64 (99999999 # 10000000000000000) (100000001 # 10000000000000000) top64.
Proof. exact float64_rounds. Qed.
Print Assumptions C82_float64.

(** Any such arithmetic, the additions in any order in any superstep: the program stops.  Each vertex
    then holds its out-degree and a finite rank, not below the start value; a vertex without in-edges
    has the start value.  [T] is what the PageRank equation asks for at [v].  A rank exceeds [T] only by the
    factor of the roundings.  It falls short of [T] by [lit], the roundings, and what the raises in
    [drops u] at the in-neighbours [u] would have sent: raises above [lit] that are in the rank of [u] but were
    not sent, because the difference of the rounded ranks is not above 1e-8. *)
Theorem C82_increment_rounded {F E byte} (db : doubles F) val fin alpha start p lit least most top (m : machine (ip_vertex F) E byte) n D blobs th fr1 fr2 dt1 dt2 dv fuel :
  rounds_db db val fin alpha start p lit least most top -> (1 <= p)%Q -> (0 < alpha)%Q -> (alpha <= 1 # 2)%Q -> (0 < lit)%Q -> (lit < start)%Q -> (0 <= least)%Q ->
  setting m n blobs -> zlen (concat blobs) < 2 ^ 31 -> threads_ok m (m_serv m) th -> frame_ok m th fr1 -> frame_ok m th fr2 ->
  (forall v, 1 <= v <= n -> in_degree (concat blobs) v <= D) -> 0 <= D -> ((p + (p - 1) * inject_Z (2 ^ 34)) * p ^ (D + 3) <= 1 + alpha / 2)%Q ->
  (16 * (inject_Z n * start) <= alpha * top)%Q -> (4 * (inject_Z n * start) < inject_Z (Z.of_nat fuel) * (alpha * least))%Q ->
  exists g K P drops, run_increment db m th fr1 fr2 dt1 dt2 dv fuel n blobs = Ok (g, Z.of_nat K) /\ (1 <= K)%nat /\
    (inject_Z (Z.of_nat K - 1) * (alpha * least) <= 4 * (inject_Z n * start))%Q /\ shows_properties n m g P /\
    (forall v, 1 <= v <= n -> ip_degree (P v) = out_degree (concat blobs) v /\ fin (ip_rank (P v)) /\ (start <= val (ip_rank (P v)))%Q /\
      (in_degree (concat blobs) v = 0 -> ip_rank (P v) = db_start db)) /\
    (forall v, 1 <= v <= n -> zlen (drops v) <= Z.of_nat K /\ forall x, In x (drops v) -> (lit < x)%Q /\ (x <= p * most + (p - 1) * val (ip_rank (P v)))%Q) /\
    forall v, 1 <= v <= n -> let T := (start + (1 - alpha) * inflow (concat blobs) (fun u => val (ip_rank (P u))) v)%Q in
      (val (ip_rank (P v)) <= p ^ (D + 4 + 3 * Z.of_nat K) * T)%Q /\
      (T <= p ^ (D + 4 + 3 * Z.of_nat K) * (val (ip_rank (P v)) + lit + (1 - alpha) * inflow (concat blobs) (fun u => qtotal (drops u)) v))%Q.
Proof.
  exact (fun Hr Hp A0 A1 He Hs Hle Hset Hl Ht H1 H2 HD HD0 HP Htop Hf =>
    increment_rounded db val fin alpha start p lit least most top m n D blobs th fr1 fr2 dt1 dt2 dv fuel Hr Hp (conj A0 A1) He Hs Hle Hset Hl Ht H1 H2 HD HD0 HP Htop Hf).
Qed.
Print Assumptions C82_increment_rounded.

(** The program as it is, in double precision, on every graph with less than 2^31 vertices and edges. *)
Theorem C82_increment_float64 {E byte} (m : machine (ip_vertex spec_float) E byte) n D blobs th fr1 fr2 dt1 dt2 dv fuel :
  setting m n blobs -> n < 2 ^ 31 -> zlen (concat blobs) < 2 ^ 31 -> threads_ok m (m_serv m) th -> frame_ok m th fr1 -> frame_ok m th fr2 ->
  (forall v, 1 <= v <= n -> in_degree (concat blobs) v <= D) -> 0 <= D < 2 ^ 31 -> 400000005 * n + 1 <= Z.of_nat fuel ->
  exists g K P drops, run_increment float64 m th fr1 fr2 dt1 dt2 dv fuel n blobs = Ok (g, K) /\ 1 <= K <= 400000005 * n + 1 /\ shows_properties n m g P /\
    (forall v, 1 <= v <= n -> ip_degree (P v) = out_degree (concat blobs) v /\ finite64 (ip_rank (P v)) /\ (startQ64 <= fval (ip_rank (P v)))%Q /\
      (in_degree (concat blobs) v = 0 -> ip_rank (P v) = lit_03)) /\
    (forall v, 1 <= v <= n -> zlen (drops v) <= K /\ forall x, In x (drops v) -> (litQ64 < x)%Q /\ (x <= p53 * (100000001 # 10000000000000000) + (p53 - 1) * fval (ip_rank (P v)))%Q) /\
    forall v, 1 <= v <= n -> let T := (startQ64 + (1 - startQ64) * inflow (concat blobs) (fun u => fval (ip_rank (P u))) v)%Q in
      (fval (ip_rank (P v)) <= p53 ^ (D + 4 + 3 * K) * T)%Q /\
      (T <= p53 ^ (D + 4 + 3 * K) * (fval (ip_rank (P v)) + litQ64 + (1 - startQ64) * inflow (concat blobs) (fun u => qtotal (drops u)) v))%Q.
Proof. exact (increment64 m n D blobs th fr1 fr2 dt1 dt2 dv fuel). Qed.
Print Assumptions C82_increment_float64.

(** Values for the examples, as in PropsFloat.v *)
Definition df_to (p : ip_vertex spec_float) : list Z := ip_degree p :: zlen (f_to (ip_delta p)) :: f_to (ip_delta p) ++ f_to (ip_rank p).
Definition df_of (l : list Z) : R (ip_vertex spec_float) :=
  match l with d :: k :: r => do x <- f_of (firstn (Z.to_nat k) r) ;; do y <- f_of (skipn (Z.to_nat k) r) ;; Ok (mkIP x y d) | _ => Err Uninit end.
Lemma df_ok p : df_of (df_to p) = Ok p.
Proof. destruct p as [x y d]. unfold df_of, df_to. cbn [ip_degree ip_delta ip_rank]. destruct x as [[]|[]| |[] ? ?], y as [[]|[]| |[] ? ?]; reflexivity. Qed.
Definition d_ranks (m : machine (ip_vertex spec_float) Z (list Z)) th n blobs : R (list spec_float * Z) :=
  do q <- run_increment float64 m th axf_z axf_f 6 S754_nan (mkIP S754_nan S754_nan 9) 60 n blobs ;; do l <- ax_read m (fst q) (mkIP S754_nan S754_nan 0) n ;; Ok (map ip_rank l, snd q).

(** In double precision the equation can fail by more than 1e-7 at a vertex, ten times the tolerance of the
    program: two chains 1..7 and 8..14 lead to the vertices 16..31, and each of these to 32; the other edges
    of the chains, given by the degrees, go to 15.  In the last superstep but one the ranks of 16..31 are raised by a
    little more than 1e-8, the difference of the rounded ranks is a little less, and nothing is sent to 32. *)
Definition chain (first : Z) (degrees : list Z) : list (Z * Z) :=
  concat (map (fun i => let v := first + i in let d := nth (Z.to_nat i) degrees 0 in
    (if i <? 6 then [(v, v + 1)] else map (fun u => (v, u)) (zrange 16 32)) ++ repeat (v, 15) (Z.to_nat (if i <? 6 then d - 1 else d - 16))) (zrange 0 7)).
Definition d_edges : list (edge Z) := map (fun p => mkE (fst p) (snd p) 1)
  (chain 1 [4; 6; 6; 8; 8; 17; 17] ++ chain 8 [9; 10; 11; 12; 13; 13; 17] ++ map (fun u => (u, 32)) (zrange 16 32)).
Theorem C82_equation_refuted : let m := ax_m df_to df_of true in
  (setting m 32 [d_edges; []] /\ zlen (concat [d_edges; []]) < 2 ^ 31 /\ threads_ok m (m_serv m) 3 /\ frame_ok m 3 axf_z /\ frame_ok m 3 axf_f) /\
  exists l K, d_ranks m 3 32 [d_edges; []] = Ok (l, K) /\
    ~ solves_within 32 (concat [d_edges; []]) startQ64 startQ64 (1 # 10000000) (fun v => fval (nth (Z.to_nat (v - 1)) l S754_nan)).
Proof.
  cbv zeta. split.
  - split; [split; [apply ax_m_ok, df_ok|]; split; [lia|]; split; [reflexivity|]; intros e He|].
    + assert (forallb (fun e => (1 <=? e_src e) && (e_src e <=? 32) && ((1 <=? e_dst e) && (e_dst e <=? 32)))%bool (concat [d_edges; []]) = true) as X by (vm_compute; reflexivity).
      rewrite forallb_forall in X. specialize (X e He). rewrite !Bool.andb_true_iff, !Z.leb_le in X. lia.
    + split; [reflexivity|]. split; [split; [lia|reflexivity]|]. split; [apply ax_f_ok; auto using z_ok|apply ax_f_ok; auto using f_ok].
  - eexists _, _. split; [vm_compute; reflexivity|]. intros H. specialize (H 32 ltac:(lia)). vm_compute in H. apply H. reflexivity.
Qed.
Print Assumptions C82_equation_refuted.

(** 1 -> 2 -> 3 -> 4 -> 2, 1 -> 3 and 5 -> 1, on two ranks *)
Example C82_example : let m := ax_m df_to df_of true in
  (setting m 5 ax_blobs /\ threads_ok m (m_serv m) 3 /\ frame_ok m 3 axf_z /\ frame_ok m 3 axf_f) /\
  (forall v, 1 <= v <= 5 -> in_degree (concat ax_blobs) v <= 2) /\
  400000005 * 5 + 1 <= Z.of_nat (Z.to_nat 2000000026) /\
  ((p53 + (p53 - 1) * inject_Z (2 ^ 34)) * p53 ^ (2 + 3) <= 1 + startQ64 / 2)%Q /\ (16 * (inject_Z 5 * startQ64) <= startQ64 * top64)%Q /\
  (do r <- d_ranks m 3 5 ax_blobs ;; Ok (map f_to (fst r), snd r)) =
    Ok ([[4593671619917906; -53; 3]; [6326734856400896; -52; 3]; [6583686821177405; -52; 3]; [5959660621005875; -52; 3]; [5404319552844595; -54; 3]], 54).
Proof.
  assert (V : forall v, 1 <= v <= 5 -> v = 1 \/ v = 2 \/ v = 3 \/ v = 4 \/ v = 5) by lia.
  split; [split; [apply ax_setting, df_ok|]; split; [split; [lia|reflexivity]|]; split; [apply ax_f_ok; auto using z_ok|apply ax_f_ok; auto using f_ok]|].
  split; [intros v Hv; destruct (V v Hv) as [->|[->|[->|[->| ->]]]]; vm_compute; discriminate|]. split; [lia|]. split; [vm_compute; discriminate|]. split; [vm_compute; discriminate|].
  vm_compute. reflexivity.
Qed.
