(** C94: SGD and LDA as commands, from the arguments and the edge files to the printed text, in exact arithmetic
    (SgdSpec.v, LdaSpec.v).  The files are those of C87 ([usable]: CmdSpec.v).  [show2], [show6], [rms], [log]: how
    printf writes a number with two and six decimals, the root of e / k, the logarithm: any functions. *)
From Coq Require Import String QArith Qcanon Permutation.
From Verif Require Import Base BaseLemmas ListLemmas Layout Reduce Segment DCSC MatSpec SpMat Vec GraphVert Graph Runtime GraphOps GraphHist Apps AppSpec AppExample.
From Verif Require Import RankSpec PropsApps PropsIncRank Sgd SgdSpec PropsSgd Lda LdaSpec LdaProofs GraphHistProofs PropsLda EdgeList FileIO FileSpec CmdSpec Cmd CmdProofs ConvertCmd ConvertCmdSpec CmdArgs CmdArgsProofs PropsCmd PropsCmdArgs VertexIdProofs PropsVertexIds PropsEdgeIds PropsFileIds SgdCmd SgdCmdProofs.
Local Open Scope Z_scope.

(** Every rank prints the root of the squared error per edge, before and after ten steps down the gradient (C69),
    and those of the first ten vertices that it owns with their vectors. *)
Theorem C94_sgd {byte} far K show2 show6 rms (m : machine (sg_vertex Qc) Z byte) wide ffuel th d fs lambda step fr1 fr2 dt1 dt2 dv fresh init :
  machine_ok m -> usable d fs ffuel -> threads_ok m (m_serv m) th -> frame_ok m th fr1 -> frame_ok m th fr2 ->
  let n := folder_size fs in let es := folder_edges fs in let x := descent K es lambda step 10 init in
  exists owner, (forall v, 1 <= v <= n -> 0 <= owner v < m_nr m) /\
    sgd_cmd (qreals far) K show2 show6 rms wide ffuel th d lambda step m fr1 fr2 dt1 dt2 dv fresh init = Ok (map (fun r =>
      text "RMSE error = " ++ show6 (rms (squared_error K es init) (zlen es)) ++ text " per edge " ++ newline ++
      text "RMSE error = " ++ show6 (rms (squared_error K es x) (zlen es)) ++ text " per edge " ++ newline ++
      lines_of_rank owner 10 n (fun v => dec v ++ text " : " ++ concat (map (fun i => text " " ++ show2 (x v i) ++ text " ") (seq 0 K)) ++ newline) r) (zrange 0 (m_nr m))).
Proof.
  intros Hm HU Ht Hf1 Hf2 n es x. destruct (cmd_setting m wide ffuel d fs Hm HU) as (blobs & Er & Pe & Hset & Bn). fold n in Er, Hset, Bn. fold es in Pe.
  assert (Le : zlen (concat blobs) = zlen es) by (unfold zlen; rewrite (Permutation_length Pe); reflexivity). assert (Ln : zlen es < 2 ^ 31) by apply HU.
  destruct (C69_sgd_descends far K lambda step m n blobs th fr1 fr2 dt1 dt2 dv fresh init 10 Hset Ht Hf1 Hf2 ltac:(lia)) as (g & P & Eg & HP & Hx). change (Z.to_nat 10) with 10%nat in *.
  destruct (sgd_keeps _ _ _ _ _ _ _ _ _ _ _ _ _ _ _ _ _ _ _ Eg) as (Hg & g0 & E0 & En). pose proof (load_nnz m fresh n blobs g0 Hset ltac:(lia) E0) as Hz. rewrite <- En, Le in Hz.
  assert (forall v i, descent K (concat blobs) lambda step 10 init v i = x v i) as Hd by (intros; apply descent_perm; auto).
  exists (owner_of m g). split; [intros v Bv; apply (owner_is m n g P HP v Bv)|]. unfold sgd_cmd. rewrite Er. cbn [bind fst snd]. rewrite Eg. cbn [bind]. apply mapR_exact. intros r Ir. apply in_zrange in Ir.
  rewrite (Hz r) by lia. cbn [bind]. rewrite !rd_const by lia. cbn [bind]. rewrite (print_owned_ok m n g P HP Hg) by lia. cbn [bind]. f_equal. unfold rmse_line.
  rewrite (error_perm K _ _ Pe init init) by reflexivity. rewrite (error_perm K _ _ Pe _ x Hd). rewrite <- !app_assoc. do 8 f_equal.
  apply lines_ext. intros v Bv. unfold sgd_line. rewrite Hx by auto. assert (0 <= n) by apply Hset. rewrite print_d_dec by (unfold is_int; lia). do 2 f_equal. f_equal. rewrite map_map. f_equal. apply map_ext. intros i. rewrite Hd. reflexivity.
Qed.
Print Assumptions C94_sgd.

(** LDA: after the rounds (C70) every rank prints those of the first five documents (vertices 1..ndoc) and then of the
    first five terms (the vertices after them) that it owns, with their kind and numbers, and rank 0 the
    log-likelihood; numbers of documents and terms that do not add up to n end the program.  More documents than
    vertices go unnoticed if there are five vertices. *)
Definition topic_lines (owner : Z -> Z) (K : nat) (show2 : Qc -> list Z) (kind : string) (x : Z -> nat -> Qc) (from k r : Z) : list Z :=
  concat (map (fun v => dec v ++ text " : " ++ text kind ++ text " " ++ concat (map (fun i => text " " ++ show2 (x v i) ++ text " ") (seq 0 K)) ++ newline)
    (filter (fun v => owner v =? r) (zrange (from + 1) (from + Z.min 5 k + 1)))).
Lemma topic_lines_are {byte} K show2 (m : machine (ld_vertex Qc) Z byte) n ndoc g P x b from k r :
  (forall v, 1 <= v <= n -> ld_N (P v) = map (x v) (seq 0 K) /\ ld_doc (P v) = (v <=? ndoc)) -> 0 <= from -> (1 <= k -> from + Z.min 5 k <= n) -> 0 <= n < 2 ^ 31 -> (forall v, from < v <= from + k -> (v <=? ndoc) = b) ->
  concat (map (fun v => lda_line show2 v (P v)) (filter (fun v => owner_of m g v =? r) (map (fun i => i + from) (zrange 1 (Z.min 5 k + 1))))) = topic_lines (owner_of m g) K show2 (if b then "d" else "w") x from k r.
Proof.
  intros Hx Bf Bk Bn Hb. unfold topic_lines. replace (map (fun i => i + from) (zrange 1 (Z.min 5 k + 1))) with (zrange (from + 1) (from + Z.min 5 k + 1)).
  - f_equal. apply map_ext_in. intros v Iv. apply filter_In in Iv as [Iv _]. apply in_zrange in Iv. destruct (Hx v ltac:(lia)) as [HN Hd]. unfold lda_line. rewrite HN, Hd, Hb by lia. rewrite print_d_dec by (unfold is_int; lia). rewrite map_map. destruct b; reflexivity.
  - assert (forall c z, zseq (z + from) c = map (fun i => i + from) (zseq z c)) as G.
    { intros c z. unfold zseq. rewrite map_map. apply map_ext. intros i. lia. }
    unfold zrange. rewrite <- G. f_equal; [lia|]. f_equal. lia.
Qed.
Theorem C94_lda {byte} far log K show2 show6 (m : machine (ld_vertex Qc) Z byte) wide ffuel th d fs rnd alpha eta fr fr2 dt dv fresh junk ndoc nterms niterations :
  machine_ok m -> usable d fs ffuel -> threads_ok m (m_serv m) th -> frame_ok m th fr -> frame_ok m th fr2 ->
  let n := folder_size fs in let es := folder_edges fs in let x := rounds K ndoc n es alpha eta (Z.to_nat niterations) (seeded K es rnd junk) in
  let cmd := lda_cmd (qlogs far log) K show2 show6 wide ffuel th d rnd alpha eta m fr fr2 dt dv fresh junk ndoc nterms niterations in
  (ndoc + nterms <> n -> cmd = Err ExitCall) /\
  (ndoc + nterms = n -> 0 <= ndoc -> Z.min 5 ndoc <= n -> 1 <= niterations -> (1 < eta)%Qc ->
   exists owner, (forall v, 1 <= v <= n -> 0 <= owner v < m_nr m) /\
   cmd = Ok (map (fun r =>
     topic_lines owner K show2 "d" x 0 ndoc r ++ topic_lines owner K show2 "w" x ndoc nterms r ++
     on_rank_0 (text "Total Loglikelihood = " ++ show6 (loglik K ndoc n es eta log x) ++ text " " ++ newline) r) (zrange 0 (m_nr m)))).
Proof.
  intros Hm HU Ht Hf1 Hf2 n es x cmd. unfold cmd. destruct (cmd_setting m wide ffuel d fs Hm HU) as (blobs & Er & Pe & Hset & Bn). fold n in Er, Hset, Bn. fold es in Pe. unfold lda_cmd. rewrite Er. cbn [bind fst snd]. split.
  - intros Hne. pose proof Hset as (_ & Hn & Lb & Hin). unfold lda_topics. destruct (load_is m Hm n Hn fresh blobs Lb Hin) as (g0 & -> & _). cbn [bind]. destruct (Z.eqb_spec (ndoc + nterms) n); [contradiction|]. reflexivity.
  - intros Hs Hd0 Ht0 Hi He. destruct (run_lda_spec far log K m n blobs Hset th fr fr2 dt dv fresh Ht Hf1 Hf2 rnd alpha eta ndoc nterms junk Hs niterations Hi He) as (s & g & g' & P & P' & E0 & E1 & HP & Hx & _).
    assert (Hp : forall v i, rounds K ndoc n (concat blobs) alpha eta (Z.to_nat niterations) (seeded K (concat blobs) rnd junk) v i = x v i).
    { apply rounds_perm; [exact Pe|]. intros v i. unfold seeded. apply gather_perm; [exact Pe|reflexivity|reflexivity]. }
    exists (owner_of m g). split; [intros v Bv; apply (owner_is m n g P HP v Bv)|]. rewrite E0. cbn [bind fst snd]. rewrite E1. cbn [bind snd].
    apply mapR_exact. intros r Ir. apply in_zrange in Ir. rewrite !(lda_print_ok show2 m n g P HP) by lia. cbn [bind]. rewrite rd_const by lia. cbn [bind]. unfold on_rank_0.
    rewrite (loglik_perm K _ _ Pe ndoc n eta log _ x Hp). do 2 f_equal; [|f_equal].
    + apply (topic_lines_are K show2 m n ndoc g P x true); try lia. intros v Bv. destruct (Hx v Bv) as [-> ->]. split; [|reflexivity]. apply map_ext. auto.
    + apply (topic_lines_are K show2 m n ndoc g P x false); try lia. intros v Bv. destruct (Hx v Bv) as [-> ->]. split; [|reflexivity]. apply map_ext. auto.
Qed.
Print Assumptions C94_lda.

(** If one of these documents or terms is no vertex ([no_vertex]: PropsVertexIds.v), for example because one of the two
    numbers is negative, the program fails. *)
Theorem C94_lda_refused {byte} far log K show2 show6 (m : machine (ld_vertex Qc) Z byte) wide ffuel th d fs rnd alpha eta fr fr2 dt dv fresh junk ndoc nterms niterations i :
  machine_ok m -> usable d fs ffuel -> threads_ok m (m_serv m) th -> frame_ok m th fr ->
  let n := folder_size fs in 1 <= niterations -> 1 <= i <= 5 ->
  (i <= ndoc /\ no_vertex (m_nt m) (m_nr m) n i) \/ (i <= nterms /\ no_vertex (m_nt m) (m_nr m) n (i + ndoc)) ->
  exists e, lda_cmd (qlogs far log) K show2 show6 wide ffuel th d rnd alpha eta m fr fr2 dt dv fresh junk ndoc nterms niterations = Err e.
Proof.
  intros Hm HU Ht Hf1 n Hi Bi Hv. destruct (cmd_setting m wide ffuel d fs Hm HU) as (blobs & Er & Pe & Hset & Bn). fold n in Er, Hset, Bn. unfold lda_cmd. rewrite Er. cbn [bind fst snd].
  destruct (Z.eq_dec (ndoc + nterms) n) as [Hs|Hne].
  - destruct (topics_spec far log K m n blobs Hset th fr dt dv fresh Ht Hf1 rnd alpha eta ndoc nterms junk Hs niterations Hi) as (s & g & P & E0 & Hg & _). rewrite E0. cbn [bind fst snd].
    assert (Sz : sized m n g) by (destruct Hg as (_ & (Gn & Gt & _) & _); split; assumption). assert (0 <= n) as Hn by apply Hset.
    assert (Ho : forall v r, no_vertex (m_nt m) (m_nr m) n v -> exists e, owns m g r v = Err e).
    { intros v r [Hv' Nt]. destruct (source_cases m n v Hm Hn Hv') as [_ C2]. destruct (C2 Nt) as (w & Ew & Hw). eapply owns_out; eauto. }
    assert (Hp : forall from k r, i <= k -> no_vertex (m_nt m) (m_nr m) n (i + from) -> exists e, lda_print show2 m fresh from k g r = Err e).
    { intros from k r Bk Nv. unfold lda_print. destruct (Ho _ r Nv) as (e & Ee). edestruct (mapR_fails (fun i => do o <- owns m g r (i + from) ;; if o : bool then do a <- read_property m g r (i + from) fresh ;; do a <- need a ;; Ok (lda_line show2 (i + from) a) else Ok []) (zrange 1 (Z.min 5 k + 1)) i) as (e' & ->).
      - apply in_zrange. lia.
      - rewrite Ee. exists e. reflexivity.
      - exists e'. reflexivity. }
    destruct (lda_total _ _ _ _ _ _ _ _ _ _ _) as [t|e]; [|exists e; reflexivity]. cbn [bind].
    apply mapR_fails with (x := 0); [apply in_zrange; destruct Hm as (Hr & _); lia|]. destruct Hv as [[Bk Nv]|[Bk Nv]].
    + destruct (Hp 0 ndoc 0 Bk) as (e & ->); [rewrite Z.add_0_r; exact Nv|]. exists e. reflexivity.
    + destruct (lda_print show2 m fresh 0 ndoc g 0) as [a|e]; [|exists e; reflexivity]. cbn [bind]. destruct (Hp ndoc nterms 0 Bk Nv) as (e & ->). exists e. reflexivity.
  - exists ExitCall. pose proof Hset as (_ & Hn & Lb & Hin). unfold lda_topics. destruct (load_is m Hm n Hn fresh blobs Lb Hin) as (g0 & -> & _). cbn [bind]. destruct (Z.eqb_spec (ndoc + nterms) n); [contradiction|]. reflexivity.
Qed.
Print Assumptions C94_lda_refused.

(** Deviation: with a negative number of documents the numbers of the first terms are below 1.  Those that are taken for
    vertex 1 ([number_used]: PropsVertexIds.v) get a line with the numbers of vertex 1. *)
Theorem C94_lda_taken_for_1 {byte} far log K show2 show6 (m : machine (ld_vertex Qc) Z byte) wide ffuel th d fs rnd alpha eta fr fr2 dt dv fresh junk ndoc nterms niterations :
  machine_ok m -> usable d fs ffuel -> threads_ok m (m_serv m) th -> frame_ok m th fr -> frame_ok m th fr2 ->
  let n := folder_size fs in let es := folder_edges fs in let x := rounds K ndoc n es alpha eta (Z.to_nat niterations) (seeded K es rnd junk) in let used := number_used (m_nt m) (m_nr m) n in
  ndoc + nterms = n -> 1 <= n -> is_int ndoc -> ndoc < 0 -> (forall i, 1 <= i <= Z.min 5 nterms -> ~ no_vertex (m_nt m) (m_nr m) n (i + ndoc)) -> 1 <= niterations -> (1 < eta)%Qc ->
  exists owner, (forall v, 1 <= v <= n -> 0 <= owner v < m_nr m) /\
    lda_cmd (qlogs far log) K show2 show6 wide ffuel th d rnd alpha eta m fr fr2 dt dv fresh junk ndoc nterms niterations = Ok (map (fun r =>
      topic_lines (fun v => owner (used v)) K show2 "w" (fun v => x (used v)) ndoc nterms r ++
      on_rank_0 (text "Total Loglikelihood = " ++ show6 (loglik K ndoc n es eta log x) ++ text " " ++ newline) r) (zrange 0 (m_nr m))).
Proof.
  intros Hm HU Ht Hf1 Hf2 n es x used Hs Hn1 Bd Nd Hv Hi He. destruct (cmd_setting m wide ffuel d fs Hm HU) as (blobs & Er & Pe & Hset & Bn). fold n in Er, Hset, Bn. fold es in Pe. unfold lda_cmd. rewrite Er. cbn [bind fst snd].
  destruct (run_lda_spec far log K m n blobs Hset th fr fr2 dt dv fresh Ht Hf1 Hf2 rnd alpha eta ndoc nterms junk Hs niterations Hi He) as (s & g & g' & P & P' & E0 & E1 & HP & Hx & _).
  assert (Sz : sized m n g).
  { destruct (topics_spec far log K m n blobs Hset th fr dt dv fresh Ht Hf1 rnd alpha eta ndoc nterms junk Hs niterations Hi) as (s' & g1 & P1 & E0' & Hg & _). rewrite E0 in E0'. injection E0' as <- <-. destruct Hg as (_ & (Gn & Gt & _) & _). split; assumption. }
  assert (Hp : forall v i, rounds K ndoc n (concat blobs) alpha eta (Z.to_nat niterations) (seeded K (concat blobs) rnd junk) v i = x v i).
  { apply rounds_perm; [exact Pe|]. intros v i. unfold seeded. apply gather_perm; [exact Pe|reflexivity|reflexivity]. }
  assert (Hu : forall i, 1 <= i <= Z.min 5 nterms -> 1 <= used (i + ndoc) <= n).
  { intros i Bi. unfold used, number_used. destruct (_ && _ && _) eqn:Q; [lia|]. specialize (Hv i Bi). unfold no_vertex, taken_for_1 in Hv. lia. }
  exists (owner_of m g). split; [intros v Bv; apply (owner_is m n g P HP v Bv)|]. rewrite E0. cbn [bind fst snd]. rewrite E1. cbn [bind snd].
  apply mapR_exact. intros r Ir. apply in_zrange in Ir. unfold lda_print at 1. replace (zrange 1 (Z.min 5 ndoc + 1)) with (@nil Z) by (unfold zrange; replace (Z.to_nat (Z.min 5 ndoc + 1 - 1)) with 0%nat by lia; reflexivity). cbn [mapR bind concat].
  assert (lda_print show2 m fresh ndoc nterms g r = Ok (topic_lines (fun v => owner_of m g (used v)) K show2 "w" (fun v => x (used v)) ndoc nterms r)) as ->.
  { unfold lda_print, topic_lines.
    replace (zrange (ndoc + 1) (ndoc + Z.min 5 nterms + 1)) with (map (fun i => i + ndoc) (zrange 1 (Z.min 5 nterms + 1))).
    - assert (forall l, (forall i, In i l -> 1 <= i <= Z.min 5 nterms) -> mapR (fun i => do o <- owns m g r (i + ndoc) ;; if o : bool then do a <- read_property m g r (i + ndoc) fresh ;; do a <- need a ;; Ok (lda_line show2 (i + ndoc) a) else Ok []) l
        = Ok (map (fun v => if owner_of m g (used v) =? r then dec v ++ text " : " ++ text "w" ++ text " " ++ concat (map (fun i => text " " ++ show2 (x (used v) i) ++ text " ") (seq 0 K)) ++ newline else []) (map (fun i => i + ndoc) l))) as G.
      { induction l as [|v l IH]; intros Hl; [reflexivity|]. cbn [mapR map]. pose proof (Hl v (or_introl eq_refl)) as Bv. destruct (owner_is m n g P HP _ (Hu v Bv)) as (_ & Ho & Hr).
        rewrite (owns_same m n (v + ndoc) (used (v + ndoc)) (used_same m n (v + ndoc) Hm ltac:(lia)) g r Sz), Ho. cbn [bind]. rewrite IH by (intros; apply Hl; right; auto).
        destruct (owner_of m g (used (v + ndoc)) =? r) eqn:Q; [|reflexivity]. rewrite (read_same m n (v + ndoc) (used (v + ndoc)) (used_same m n (v + ndoc) Hm ltac:(lia)) g r fresh Sz), Hr by auto. rewrite Q. cbn [need bind]. do 2 f_equal.
        unfold lda_line. destruct (Hx _ (Hu v Bv)) as [-> ->]. replace (used (v + ndoc) <=? ndoc) with false by (specialize (Hu v Bv); lia). rewrite print_d_dec by (unfold is_int in *; lia). rewrite map_map.
        rewrite (map_ext _ _ (fun i => f_equal (fun q => chars " " ++ show2 q ++ chars " ") (Hp (used (v + ndoc)) i)) (seq 0 K)). reflexivity. }
      rewrite G by (intros v Iv; apply in_zrange in Iv; lia). cbn [bind]. f_equal. generalize (map (fun i => i + ndoc) (zrange 1 (Z.min 5 nterms + 1))).
      induction l as [|v l IH]; [reflexivity|]. cbn [map concat filter]. destruct (owner_of m g (used v) =? r); cbn [map concat app]; rewrite IH; reflexivity.
    - unfold zrange, zseq. rewrite map_map. replace (ndoc + Z.min 5 nterms + 1 - (ndoc + 1)) with (Z.min 5 nterms + 1 - 1) by lia. apply map_ext. intros i. lia. }
  cbn [bind]. rewrite rd_const by lia. cbn [bind app]. unfold on_rank_0. rewrite (loglik_perm K _ _ Pe ndoc n eta log _ x Hp). reflexivity.
Qed.
Print Assumptions C94_lda_taken_for_1.

(** The arguments: too few, and every rank prints how the program is used; the numbers are decimal, what follows a
    number in its argument does not count, and without a fourth argument LDA makes ten rounds. *)
Theorem C94_arguments {F byte} (re : reals F) (lg : lreals F) K show2 show6 rms wide ffuel th disk prog lambda step rnd alpha eta fresh init junk :
  (forall (m : machine (sg_vertex F) Z byte) fr1 fr2 dt1 dt2 dv,
    let main := sgd_main re K show2 show6 rms wide ffuel th disk prog lambda step m fr1 fr2 dt1 dt2 dv fresh init in
    main [] = Ok (map (fun _ => usage_line prog " A.mtx ") (zrange 0 (m_nr m))) /\
    forall file more, main (file :: more) = sgd_cmd re K show2 show6 rms wide ffuel th (disk file) lambda step m fr1 fr2 dt1 dt2 dv fresh init) /\
  (forall (m : machine (ld_vertex F) Z byte) fr fr2 dt dv vfresh,
    let main := lda_main lg K show2 show6 wide ffuel th disk prog rnd alpha eta m fr fr2 dt dv vfresh junk in
    let cmd file := lda_cmd lg K show2 show6 wide ffuel th (disk file) rnd alpha eta m fr fr2 dt dv vfresh junk in
    (forall args, (List.length args < 3)%nat -> main args = Ok (map (fun _ => usage_line prog " A.mtx #DOC #TERMS {#iterations (default 10)}") (zrange 0 (m_nr m)))) /\
    forall file ndoc nterms k rest rest' rest'' more, is_int ndoc -> is_int nterms -> is_int k -> ends_number rest -> ends_number rest' -> ends_number rest'' ->
      main [file; (decimal ndoc ++ rest)%string; (decimal nterms ++ rest')%string] = cmd file ndoc nterms 10 /\
      main (file :: (decimal ndoc ++ rest)%string :: (decimal nterms ++ rest')%string :: (decimal k ++ rest'')%string :: more) = cmd file ndoc nterms k).
Proof.
  split.
  - intros m fr1 fr2 dt1 dt2 dv. cbv zeta. split; [reflexivity|]. reflexivity.
  - intros m fr fr2 dt dv vfresh. cbv zeta. split.
    + intros args L. destruct args as [|a [|b [|c l]]]; cbn in L; try lia; reflexivity.
    + intros file ndoc nterms k rest rest' rest'' more B1 B2 B3 H1 H2 H3. cbn [lda_main]. rewrite !atoi_decimal by auto. split; f_equal.
Qed.
Print Assumptions C94_arguments.

(** Vertex numbers that do not exist, as for the other programs (C93). *)
Theorem C94_numbers {F byte} (re : reals F) (lg : lreals F) K show2 show6 rms wide ffuel th lambda step rnd alpha eta vs init junk :
  (forall (m : machine (sg_vertex F) Z byte) fr1 fr2 dt1 dt2 dv, machine_ok m ->
    checks_numbers (m_nt m) (m_nr m) ffuel all_files (fun d => sgd_cmd re K show2 show6 rms wide ffuel th d lambda step m fr1 fr2 dt1 dt2 dv vs init)) /\
  (forall (m : machine (ld_vertex F) Z byte) fr fr2 dt dv vfresh ndoc nterms k, machine_ok m ->
    checks_numbers (m_nt m) (m_nr m) ffuel all_files (fun d => lda_cmd lg K show2 show6 wide ffuel th d rnd alpha eta m fr fr2 dt dv vfresh junk ndoc nterms k)).
Proof.
  split.
  - intros m fr1 fr2 dt1 dt2 dv Hm. unfold sgd_cmd, run_sgd. by_loading m wide ffuel Hm vs.
  - intros m fr fr2 dt dv vfresh ndoc nterms k Hm. unfold lda_cmd, lda_topics. by_loading m wide ffuel Hm vfresh.
Qed.
Print Assumptions C94_numbers.

(** five vertices, of which the first four have edges; one step solves the equation of the first edge, the other is
    solved from the start.  A number is shown by its numerator. *)
Definition c94_blobs : list (list (edge Z)) := [[mkE 1 2 1]; [mkE 3 4 4]].
Definition c94_init (v : Z) (i : nat) : Qc := match i with O => if v =? 1 then 1%Qc else if v =? 2 then 0%Qc else qint 2 | _ => 0%Qc end.
Definition c94_show (q : Qc) : list Z := dec (Qnum (this q)).
Definition c94_sgd (args : list string) : R (list (list Z)) :=
  sgd_main (qreals (fun _ _ => true)) 2 c94_show c94_show (fun e k => (e / qint k)%Qc) (fun z => z) 10 3 (fun _ => c87_dir c94_blobs) "SGD" 0%Qc 1%Qc
    (ax_m sg_to sg_of true) axf_ll axf_lq [] [] (mkSG [] half) (mkSG [half] half) c94_init args.
Definition c94_lda (args : list string) : R (list (list Z)) :=
  lda_main (qlogs (fun _ _ => true) (fun q => q)) 2 c94_show c94_show (fun z => z) 10 3 (fun _ => c87_dir ld_blobs) "LDA" ld_rnd 1%Qc (1 + 1)%Qc
    (ax_m ld_to ld_of true) axf_ll axf_lq [] (mkLD [] true half) (mkLD [half] true half) (ld_junk 4) args.
Example C94_example :
  machine_ok (ax_m sg_to sg_of true) /\ machine_ok (ax_m ld_to ld_of true) /\ usable (c87_dir c94_blobs) (c87_files c94_blobs) 10 /\ usable (c87_dir ld_blobs) (c87_files ld_blobs) 10 /\
  frame_ok (ax_m sg_to sg_of true) 3 axf_ll /\ frame_ok (ax_m sg_to sg_of true) 3 axf_lq /\ threads_ok (ax_m sg_to sg_of true) (m_serv (ax_m sg_to sg_of true)) 3 /\ ends_number " " /\ (1 < 1 + 1)%Qc /\
  c94_sgd ["A"]%string = Ok (let l := ["RMSE error = 1 per edge "; "RMSE error = 0 per edge "]%string in
    [c87_text (l ++ ["1 :  1  0 "; "2 :  1  0 "; "3 :  2  0 "; "4 :  2  0 "; "5 :  2  0 "]%string)%list; c87_text l]) /\
  c94_lda ["A"; "2"; "3"; "1"]%string = Ok [c87_text ["1 : d  63598374671  120418219264 "; "2 : d  15941860772  26504220640 "; "3 : w  1121360681  2071263904 "; "4 : w  908540706524  1537967838208 "; "5 : w  4  4 ";
    "Total Loglikelihood = 10692793781340539174022825361762598978650283 "]%string; []] /\
  c94_lda ["A"; "2"; "2"; "1"]%string = Err ExitCall /\ (exists out, c94_lda ["A"; "6"; "-1"; "1"]%string = Ok out) /\
  c94_lda ["A"; "-1"; "6"; "1"]%string = Ok [c87_text ["0 : w  47483243864  84799887931 "; "1 : w  47483243864  84799887931 "; "2 : w  551961066  903388522 "; "3 : w  47483243864  84799887931 "; "4 : w  551961066  903388522 "; "Total Loglikelihood = 423187619620642042923119314352219991171519 "]%string; []] /\
  no_vertex 3 2 5 (1 + -96) /\ c94_lda ["A"; "-96"; "101"; "1"]%string = Err AssertFail /\
  c94_lda ["A"; "2"]%string = Ok (let u := c87_text ["Correct format: LDA A.mtx #DOC #TERMS {#iterations (default 10)}"]%string in [u; u]).
Proof.
  split; [apply ax_m_ok, sg_ok|]. split; [apply ax_m_ok, ld_ok|].
  split; [apply c87_usable; [cbn; intuition subst; cbn; unfold is_int; lia|reflexivity]|]. split; [apply c87_usable; [cbn; intuition subst; cbn; unfold is_int; lia|reflexivity]|].
  split; [apply ax_f_ok; auto using ql_ok, q_ok|]. split; [apply ax_f_ok; auto using ql_ok, q_ok|]. split; [split; [lia|reflexivity]|]. split; [cbn; lia|]. split; [reflexivity|].
  split; [vm_compute; reflexivity|]. split; [vm_compute; reflexivity|]. split; [vm_compute; reflexivity|]. split; [eexists; vm_compute; reflexivity|]. split; [vm_compute; reflexivity|]. split; [split; [lia|unfold taken_for_1; lia]|]. split; vm_compute; reflexivity.
Qed.
