(** Properties of src/LDA.cpp (C70).  Notation as in PropsApps.v; what is computed is said in LdaSpec.v. *)
From Coq Require Import QArith Qcanon.
Local Open Scope Z_scope.
From Verif Require Import Base BaseLemmas Layout Reduce Segment DCSC MatSpec TileProofs SpMat Vec GraphVert Graph Runtime RunSpec GraphOps GraphHist.
From Verif Require Import RunFinal PropsMat Apps AppSpec RankSpec AppExample PropsApps PropsIncRank Sgd SgdSpec PropsSgd Lda LdaSpec LdaProofs LdaCounts.

(** ** C70: latent Dirichlet allocation *)
(** With exact arithmetic and any function for the logarithm: each vertex ends with the array it gets
    by the given number of rounds from the random start, all vertices moving at once, and every rank
    gets the log-likelihood of the result.  [junk v] is what the array of vertex [v] held before. *)
Theorem C70_lda_rounds {byte} far log K rnd alpha eta (m : machine (ld_vertex Qc) Z byte) n blobs th fr fr2 dt dv fresh junk ndoc nterms niterations :
  setting m n blobs -> threads_ok m (m_serv m) th -> frame_ok m th fr -> frame_ok m th fr2 -> ndoc + nterms = n -> 1 <= niterations -> (1 < eta)%Qc ->
  let x := rounds K ndoc n (concat blobs) alpha eta (Z.to_nat niterations) (seeded K (concat blobs) rnd junk) in
  exists g P, run_lda (qlogs far log) K rnd alpha eta m th fr fr2 dt dv fresh junk ndoc nterms niterations n blobs =
      Ok (g, map (fun _ => loglik K ndoc n (concat blobs) eta log x) (zrange 0 (m_nr m))) /\
    shows_properties n m g P /\ forall v, 1 <= v <= n -> ld_N (P v) = map (x v) (seq 0 K).
Proof.
  intros H Ht H1 H2 Hs Hi He x. destruct (run_lda_spec far log K m n blobs H th fr fr2 dt dv fresh Ht H1 H2 rnd alpha eta ndoc nterms junk Hs niterations Hi He) as (s & g0 & g & P0 & P & E0 & E1 & _ & _ & HP & Hx).
  exists g, P. unfold run_lda. rewrite E0. cbn [bind fst snd]. auto.
Qed.
Print Assumptions C70_lda_rounds.
(** Numbers of documents and terms that do not add up to the number of vertices end the program. *)
Theorem C70_lda_stops {F byte} (lg : lreals F) K rnd alpha eta (m : machine (ld_vertex F) Z byte) n blobs th fr fr2 dt dv fresh junk ndoc nterms niterations :
  setting m n blobs -> ndoc + nterms <> n -> run_lda lg K rnd alpha eta m th fr fr2 dt dv fresh junk ndoc nterms niterations n blobs = Err ExitCall.
Proof. exact (run_lda_stops lg K rnd alpha eta m n blobs th fr fr2 dt dv fresh junk ndoc nterms niterations). Qed.
Print Assumptions C70_lda_stops.
(** If every edge goes from a document to a term and has a positive weight, the random numbers are not
    negative and not all zero, [alpha >= 1] and [eta > 1], and no term without edges has negative
    numbers in its unset memory, then after any number of rounds:
    - every vertex with edges has numbers that are not negative and add up to the weights of its edges;
    - documents and terms have the same total of every topic;
    - nothing is divided by zero in the next round;
    - the logarithm is taken of a positive number up to 1, and in every document with edges these
      numbers add up to 1 over all terms. *)
Theorem C70_counts K ndoc n (es : list (edge Z)) rnd alpha eta junk k :
  (forall e, In e es -> 1 <= e_src e <= ndoc /\ ndoc < e_dst e <= n /\ 0 < e_val e) ->
  (forall e, In e es -> (forall i, (i < K)%nat -> (0 <= rnd (e_val e) i)%Qc) /\ (0 < qover K (rnd (e_val e)))%Qc) ->
  (forall v i, ndoc < v <= n -> touched es v = false -> (i < K)%nat -> (0 <= junk v i)%Qc) -> (1 <= alpha)%Qc -> (1 < eta)%Qc ->
  let x := rounds K ndoc n es alpha eta k (seeded K es rnd junk) in
  (forall v, touched es v = true -> (forall i, (i < K)%nat -> (0 <= x v i)%Qc) /\ qover K (x v) = occurrences es v) /\
  (forall i, (i < K)%nat -> qsum (map (fun v => x v i) (filter (fun v => (v <=? ndoc) && touched es v) (zrange 1 (n + 1)))) =
                            qsum (map (fun v => x v i) (filter (fun v => (ndoc <? v) && touched es v) (zrange 1 (n + 1))))) /\
  (forall e, In e es -> (forall i, (i < K)%nat -> (0 < smoothed ndoc n eta x i)%Qc) /\
     (0 < qover K (belief ndoc n alpha eta x (e_src e) (e_dst e)))%Qc /\ (0 < qover K (belief ndoc n alpha eta x (e_dst e) (e_src e)))%Qc) /\
  forall e, In e es -> let p := chance K ndoc n eta x (e_src e) in
    (0 < p (e_dst e))%Qc /\ (p (e_dst e) <= 1)%Qc /\ qsum (map p (filter (fun t => ndoc <? t) (zrange 1 (n + 1)))) = 1%Qc.
Proof. exact (lda_counts K ndoc n es rnd alpha eta junk k). Qed.
Print Assumptions C70_counts.
(** The arrays are never set before the first round.  If every term has an edge this does not show: the
    arrays of vertices with edges, and the log-likelihood, do not depend on what they held. *)
Theorem C70_unset_memory K ndoc n (es : list (edge Z)) rnd alpha eta junk junk' k log :
  (forall v, 1 <= v <= n -> ndoc < v -> touched es v = true) ->
  let x := rounds K ndoc n es alpha eta k (seeded K es rnd junk) in
  let x' := rounds K ndoc n es alpha eta k (seeded K es rnd junk') in
  (forall v i, touched es v = true -> x v i = x' v i) /\ loglik K ndoc n es eta log x = loglik K ndoc n es eta log x'.
Proof. exact (lda_unset K ndoc n es rnd alpha eta junk junk' k log). Qed.
Print Assumptions C70_unset_memory.

Definition ld_to (p : ld_vertex Qc) : list Z := (if ld_doc p then 1 else 0) :: ql_to (ld_ll p :: ld_N p).
Definition ld_of (l : list Z) : R (ld_vertex Qc) := match l with d :: l => do l <- ql_of l ;; match l with e :: l => Ok (mkLD l (d =? 1) e) | [] => Err Uninit end | [] => Err Uninit end.
Lemma ld_ok a : ld_of (ld_to a) = Ok a. Proof. unfold ld_of, ld_to. rewrite ql_ok. destruct a as [l [|] e]; reflexivity. Qed.
(** two documents over three terms, the last of which occurs nowhere; two topics, one round, the
    identity for the logarithm.  What the unset memory of the last term held changes all results. *)
Definition ld_blobs : list (list (edge Z)) := [[mkE 1 3 2; mkE 1 4 1]; [mkE 2 4 3; mkE 2 3 1]].
Definition ld_rnd (w : Z) (i : nat) : Qc := Q2Qc (inject_Z (w + Z.of_nat i)).
Definition ld_junk (c : Q) (v : Z) (i : nat) : Qc := Q2Qc c.
Definition ld_show (l : list (ld_vertex Qc)) : list (list Q) := map (fun p => map this (ld_N p)) l.
Definition ld_run (c : Q) (n nterms : Z) := let m := ax_m ld_to ld_of true in
  do q <- run_lda (qlogs (fun _ _ => true) (fun x => x)) 2 ld_rnd 1%Qc (1 + 1)%Qc m 3 axf_ll axf_lq [] (mkLD [] true half) (mkLD [half] false half) (ld_junk c) 2 nterms 1 n ld_blobs ;;
  do l <- ax_read m (fst q) (mkLD [] true half) n ;; Ok (ld_show l, map this (snd q)).
Example C70_example : let m := ax_m ld_to ld_of true in
  (setting m 5 ld_blobs /\ threads_ok m (m_serv m) 3 /\ frame_ok m 3 axf_ll /\ frame_ok m 3 axf_lq) /\ (1 < 1 + 1)%Qc /\
  ld_run (1 # 2) 5 3 = Ok ([[922063463947 # 849000332055; 1624937532218 # 849000332055]; [308668991177 # 196576606548; 477637435015 # 196576606548]; [520657883984 # 471932213685; 895138757071 # 471932213685];
    [549212952607 # 353638932444; 865342777169 # 353638932444]; [1 # 2; 1 # 2]]%Q, let r := 12502494605540925759654470027830696175419922655293 # 4483308073909402086766089339609149720985088353330 in [r; r]) /\
  ld_run 4 5 3 = Ok ([[63598374671 # 61338864645; 120418219264 # 61338864645]; [15941860772 # 10611520353; 26504220640 # 10611520353]; [1121360681 # 1064208195; 2071263904 # 1064208195];
    [908540706524 # 611627136183; 1537967838208 # 611627136183]; [4; 4]]%Q, let r := 10692793781340539174022825361762598978650283 # 5718316624569039919779421129357419349889460 in [r; r]) /\
  ld_run 4 5 2 = Err ExitCall.
Proof.
  split. { split; [split; [apply ax_m_ok, ld_ok|]; split; [lia|]; split; [reflexivity|]; cbn; intuition subst; cbn; lia|].
  split; [split; [lia|reflexivity]|]. split; apply ax_f_ok; auto using ql_ok, q_ok. }
  split; [reflexivity|]. split; [vm_compute; reflexivity|]. split; vm_compute; reflexivity.
Qed.
(** the hypotheses of [C70_counts] and [C70_unset_memory] hold for it *)
Example C70_counts_example :
  (forall e, In e (concat ld_blobs) -> 1 <= e_src e <= 2 /\ 2 < e_dst e <= 5 /\ 0 < e_val e) /\
  (forall e, In e (concat ld_blobs) -> (forall i, (i < 2)%nat -> (0 <= ld_rnd (e_val e) i)%Qc) /\ (0 < qover 2 (ld_rnd (e_val e)))%Qc) /\
  (forall v i, 2 < v <= 5 -> touched (concat ld_blobs) v = false -> (i < 2)%nat -> (0 <= ld_junk 4 v i)%Qc) /\ (1 <= 1)%Qc /\ (1 < 1 + 1)%Qc /\
  (forall v, 1 <= v <= 4 -> 2 < v -> touched (concat ld_blobs) v = true).
Proof.
  split; [cbn; intuition subst; cbn; lia|]. split.
  { intros e He. cbn in He. intuition subst; try (unfold Qcle, Qclt; vm_compute; congruence); destruct i as [|[|i]]; try lia; unfold Qcle; vm_compute; congruence. }
  split; [intros; unfold Qcle; vm_compute; congruence|]. split; [apply Qcle_refl|]. split; [reflexivity|]. intros v H1 H2. assert (v = 3 \/ v = 4) as [->| ->] by lia; reflexivity.
Qed.
