(** The arguments of the programs (C90): their number, how the source is read, and a source that is no vertex.
    Together with C87 and C88 this goes from the command line to the printed text. *)
From Coq Require Import String Ascii SpecFloat.
From Verif Require Import Base BaseLemmas ListLemmas Layout LayoutProofs DCSC SpMat MatSpec GraphHist Apps IncRank EdgeList FileIO FileSpec FileProofs FileFinal CmdSpec Cmd CmdProofs CmdRank ConvertCmd ConvertCmdSpec ConvertCmdProofs CmdArgs CmdArgsProofs AppExample PropsApps PropsApps2 PropsCmd.

(** ** The number of arguments *)
Definition usage_line (prog rest : string) : list Z := text "Correct format: " ++ text prog ++ text rest ++ newline.
(** With too few arguments every rank prints how to use the program, and nothing else happens. *)
Theorem C90_usage {byte} wide ffuel fuel th disk prog args :
  ((List.length args < 2)%nat -> forall (m : machine bfs_vertex Z byte) fr dt dv,
     bfs_main wide ffuel fuel th disk prog m fr dt dv args = Ok (map (fun _ => usage_line prog " A.mtx source_vertex (1-based index)") (zrange 0 (m_nr m)))) /\
  ((List.length args < 2)%nat -> forall (m : machine Z Z byte) fr dt dv,
     sssp_main wide ffuel fuel th disk prog m fr dt dv args = Ok (map (fun _ => usage_line prog " A.mtx source_vertex (1-based index)") (zrange 0 (m_nr m)))) /\
  ((List.length args < 3)%nat -> forall (m : machine ds_vertex Z byte) fr dt dv rounds,
     delta_main wide ffuel fuel th disk prog m fr dt dv rounds args = Ok (map (fun _ => usage_line prog " A.mtx delta source") (zrange 0 (m_nr m)))) /\
  (args = [] ->
     (forall (m : machine top_vertex Z byte) fr1 fr2 dt1 dt2 dv, topsort_main wide ffuel fuel th disk prog m fr1 fr2 dt1 dt2 dv args = Ok (map (fun _ => usage_line prog " A.mtx") (zrange 0 (m_nr m)))) /\
     (forall srt (m : machine tc_vertex Z byte) fr1 fr2 dt1 dt2 dv junk, triangles_main wide ffuel th disk prog srt m fr1 fr2 dt1 dt2 dv junk args = Ok (map (fun _ => usage_line prog " A.mtx") (zrange 0 (m_nr m)))) /\
     (forall (m : machine (pr_vertex spec_float) Z byte) fr1 fr2 dt1 dt2 dv, pagerank_main wide ffuel fuel th disk prog m fr1 fr2 dt1 dt2 dv args = Ok (map (fun _ => usage_line prog " A.mtx") (zrange 0 (m_nr m)))) /\
     (forall (m : machine (ip_vertex spec_float) Z byte) fr1 fr2 dt1 dt2 dv, increment_main wide ffuel fuel th disk prog m fr1 fr2 dt1 dt2 dv args = Ok (map (fun _ => usage_line prog " A.mtx") (zrange 0 (m_nr m))))).
Proof.
  split; [|split; [|split]].
  - intros L. destruct args as [|a [|b l]]; cbn in L; try lia; reflexivity.
  - intros L. destruct args as [|a [|b l]]; cbn in L; try lia; reflexivity.
  - intros L. destruct args as [|a [|b [|c l]]]; cbn in L; try lia; reflexivity.
  - intros ->. repeat split.
Qed.
Print Assumptions C90_usage.

(** ** Numbers *)
(** what comes after a number: nothing that could belong to it *)
Definition ends_number (s : string) : Prop := match s with EmptyString => True | String c _ => let z := Z.of_nat (nat_of_ascii c) in ~ 48 <= z <= 57 end.
Definition no_number (s : string) : Prop := match s with EmptyString => True | String c _ => let z := Z.of_nat (nat_of_ascii c) in ~ 48 <= z <= 57 /\ z <> 43 /\ z <> 45 /\ z <> 32 /\ ~ 9 <= z <= 13 end.
Lemma chars_app a b : chars (a ++ b) = chars a ++ chars b.
Proof. unfold chars. induction a as [|c a IH]; cbn; [reflexivity|]. rewrite <- IH. reflexivity. Qed.
Lemma number_stops s acc : ends_number s -> number 10 acc (chars s) = acc.
Proof.
  destruct s as [|c r]; [reflexivity|]. unfold chars. cbn [ends_number list_ascii_of_string map number]. set (z := Z.of_nat (nat_of_ascii c)). intros H. clearbody z.
  assert (digit_of z <? 10 = false) as ->; [|reflexivity]. unfold digit_of. assert (is_digit z = false) as -> by (unfold is_digit; lia). destruct ((97 <=? z) && (z <=? 102)) eqn:Q1; [lia|]. destruct ((65 <=? z) && (z <=? 70)) eqn:Q2; lia.
Qed.
Lemma number_app l s : forall acc, forallb is_digit l = true -> ends_number s -> number 10 acc (l ++ chars s) = fold_left (fun a c => 10 * a + (c - 48)) l acc.
Proof.
  induction l as [|c l IH]; intros acc H Hs; [apply number_stops; exact Hs|]. cbn [forallb] in H. apply andb_true_iff in H as [Hc Hl]. cbn [number fold_left List.app]. destruct (digit_of_digit c Hc) as [E B]. rewrite E in *.
  destruct (Z.ltb_spec (c - 48) 10); [|lia]. apply IH; auto.
Qed.
Lemma atoi_decimal wide z rest : is_int z -> ends_number rest -> atoi wide (decimal z ++ rest) = z.
Proof.
  intros B Hr. unfold atoi. rewrite chars_app. change (chars (decimal z)) with (dec z). rewrite <- print_d_dec by exact B. unfold is_int in B.
  assert (as_d wide z = z) as Ez by (unfold as_d; destruct (Z.leb_spec (- 2 ^ 31) z), (Z.ltb_spec z (2 ^ 31)); try lia; reflexivity).
  assert (forall n, 0 <= n <= 2 ^ 31 -> number 10 0 (dec_digits 10 n ++ chars rest) = n) as N.
  { intros n Bn. rewrite number_app by (try apply dec_digits_digit; auto; lia). apply (dec_digits_val 10 n). change (10 ^ Z.of_nat 10) with 10000000000. lia. }
  unfold print_d. destruct (Z.ltb_spec z 0) as [L|L].
  - cbn [List.app skip_ws]. change (is_space 45) with false. cbn iota. change (45 =? 45) with true. cbn iota. rewrite N by lia. rewrite Z.opp_involutive. exact Ez.
  - pose proof (N z ltac:(lia)) as Nz. destruct (dec_digits_cons 9 z ltac:(lia)) as (c & l & El & Hc). change (dec_digits 10 z) with (dec_digits (S 9) z) in *. rewrite El in *. cbn [List.app] in *.
    assert (is_space c = false /\ c <> 45 /\ c <> 43) as (S1 & S2 & S3) by (unfold is_digit in Hc; unfold is_space; lia).
    cbn [skip_ws]. rewrite S1. destruct (Z.eqb_spec c 45); [contradiction|]. destruct (Z.eqb_spec c 43); [contradiction|]. rewrite Nz. exact Ez.
Qed.
Lemma atoi_no_number wide s : no_number s -> atoi wide s = 0.
Proof.
  intros H. assert (number 10 0 (chars s) = 0) as E by (apply number_stops; destruct s; [exact I|apply H]). revert H E. unfold atoi. destruct s as [|c r]; [reflexivity|]. unfold chars. cbn [no_number list_ascii_of_string map]. set (z := Z.of_nat (nat_of_ascii c)). intros H E. clearbody z.
  assert (is_space z = false) as Es by (unfold is_space; lia). cbn [skip_ws]. rewrite Es. destruct (Z.eqb_spec z 45); [lia|]. destruct (Z.eqb_spec z 43); [lia|]. rewrite E. reflexivity.
Qed.

(** With enough arguments the program runs on the named files with these numbers; what follows a number in
    its argument, and all further arguments, are ignored. *)
Theorem C90_arguments {byte} wide ffuel fuel th disk prog file s z rest rest' more : is_int s -> is_int z -> ends_number rest -> ends_number rest' ->
  (forall (m : machine bfs_vertex Z byte) fr dt dv, bfs_main wide ffuel fuel th disk prog m fr dt dv (file :: (decimal s ++ rest)%string :: more) = bfs_cmd wide ffuel fuel th (disk file) m fr dt dv s) /\
  (forall (m : machine Z Z byte) fr dt dv, sssp_main wide ffuel fuel th disk prog m fr dt dv (file :: (decimal s ++ rest)%string :: more) = sssp_cmd wide ffuel fuel th (disk file) m fr dt dv s) /\
  (forall (m : machine ds_vertex Z byte) fr dt dv rounds, delta_main wide ffuel fuel th disk prog m fr dt dv rounds (file :: (decimal z ++ rest')%string :: (decimal s ++ rest)%string :: more) = delta_cmd wide ffuel fuel th (disk file) m fr dt dv rounds z s) /\
  (forall (m : machine top_vertex Z byte) fr1 fr2 dt1 dt2 dv, topsort_main wide ffuel fuel th disk prog m fr1 fr2 dt1 dt2 dv (file :: more) = topsort_cmd wide ffuel fuel th (disk file) m fr1 fr2 dt1 dt2 dv) /\
  (forall srt (m : machine tc_vertex Z byte) fr1 fr2 dt1 dt2 dv junk, triangles_main wide ffuel th disk prog srt m fr1 fr2 dt1 dt2 dv junk (file :: more) = triangles_cmd wide ffuel th (disk file) srt m fr1 fr2 dt1 dt2 dv junk) /\
  (forall (m : machine (pr_vertex spec_float) Z byte) fr1 fr2 dt1 dt2 dv, pagerank_main wide ffuel fuel th disk prog m fr1 fr2 dt1 dt2 dv (file :: more) = pagerank_cmd wide ffuel fuel th (disk file) m fr1 fr2 dt1 dt2 dv) /\
  (forall (m : machine (ip_vertex spec_float) Z byte) fr1 fr2 dt1 dt2 dv, increment_main wide ffuel fuel th disk prog m fr1 fr2 dt1 dt2 dv (file :: more) = increment_cmd wide ffuel fuel th (disk file) m fr1 fr2 dt1 dt2 dv).
Proof.
  intros Bs Bz Hr Hr'. split; [|split; [|split]].
  - intros. cbn [bfs_main]. rewrite atoi_decimal by auto. reflexivity.
  - intros. cbn [sssp_main]. rewrite atoi_decimal by auto. reflexivity.
  - intros. cbn [delta_main]. rewrite !atoi_decimal by auto. reflexivity.
  - repeat split.
Qed.
Print Assumptions C90_arguments.

(** ** A source that is no vertex *)
(** T: threads when the graph was loaded.  If the graph has at least 16 * T * ranks vertices, the program always fails.
    Deviation: otherwise a source that is 0 or not far below it is taken for vertex 1. *)
Definition taken_for_1 (T ranks n s : Z) : Prop := n < 16 * T * ranks /\ - (16 * T * ranks) < s - 1 < 0.
Lemma source_cases {V E byte} (m : machine V E byte) n s : machine_ok m -> 0 <= n -> ~ 1 <= s <= n ->
  (taken_for_1 (m_nt m) (m_nr m) n s -> vertexToNative (m_nt m) (m_nr m) n s = vertexToNative (m_nt m) (m_nr m) n 1) /\
  (~ taken_for_1 (m_nt m) (m_nr m) n s -> exists w, vertexToNative (m_nt m) (m_nr m) n s = Ok w /\ ~ 1 <= w <= n).
Proof.
  intros (H1 & H2 & _) Hn Hs. assert (16 * m_nt m * m_nr m = m_nt m * 16 * m_nr m) as Enp by ring. unfold taken_for_1. rewrite Enp. split.
  - intros [A B]. rewrite native_before, native_1 by auto. reflexivity.
  - intros N. apply native_out; auto.
Qed.
Lemma size_nonneg {V byte} (m : machine V Z byte) (wide : Z -> Z) ffuel d fs : machine_ok m -> usable d fs ffuel -> 0 <= folder_size fs.
Proof. intros Hm HU. destruct (cmd_setting m wide ffuel d fs Hm HU) as (b & _ & _ & (_ & H & _) & _). exact H. Qed.
Theorem C90_bfs_source {byte} (m : machine bfs_vertex Z byte) wide ffuel fuel th d fs fr dt dv s :
  machine_ok m -> usable d fs ffuel -> let n := folder_size fs in ~ 1 <= s <= n ->
  (taken_for_1 (m_nt m) (m_nr m) n s -> bfs_cmd wide ffuel fuel th d m fr dt dv s = bfs_cmd wide ffuel fuel th d m fr dt dv 1) /\
  (~ taken_for_1 (m_nt m) (m_nr m) n s -> exists e, bfs_cmd wide ffuel fuel th d m fr dt dv s = Err e).
Proof.
  intros Hm HU n Hs. destruct (cmd_setting m wide ffuel d fs Hm HU) as (blobs & Er & _ & Hset & _). fold n in Er, Hset. assert (0 <= n) as Hn by (apply Hset).
  destruct (source_cases m n s Hm Hn Hs) as [C1 C2]. unfold bfs_cmd. rewrite Er. cbn [bind fst snd]. split; intros T.
  - rewrite (bfs_same m th fr dt dv fuel n blobs s 1 (C1 T)). reflexivity.
  - destruct (C2 T) as (w & Ew & Hw). destruct (bfs_out m th fr dt dv fuel n blobs s w Hm Hn Ew Hw) as (e & ->). exists e. reflexivity.
Qed.
Print Assumptions C90_bfs_source.
Theorem C90_sssp_source {byte} (m : machine Z Z byte) wide ffuel fuel th d fs fr dt dv s :
  machine_ok m -> usable d fs ffuel -> let n := folder_size fs in ~ 1 <= s <= n ->
  (taken_for_1 (m_nt m) (m_nr m) n s -> sssp_cmd wide ffuel fuel th d m fr dt dv s = sssp_cmd wide ffuel fuel th d m fr dt dv 1) /\
  (~ taken_for_1 (m_nt m) (m_nr m) n s -> exists e, sssp_cmd wide ffuel fuel th d m fr dt dv s = Err e).
Proof.
  intros Hm HU n Hs. destruct (cmd_setting m wide ffuel d fs Hm HU) as (blobs & Er & _ & Hset & _). fold n in Er, Hset. assert (0 <= n) as Hn by (apply Hset).
  destruct (source_cases m n s Hm Hn Hs) as [C1 C2]. unfold sssp_cmd. rewrite Er. cbn [bind fst snd]. split; intros T.
  - rewrite (sssp_same m th fr dt dv fuel n blobs s 1 (C1 T)). reflexivity.
  - destruct (C2 T) as (w & Ew & Hw). destruct (sssp_out m th fr dt dv fuel n blobs s w Hm Hn Ew Hw) as (e & ->). exists e. reflexivity.
Qed.
Print Assumptions C90_sssp_source.
Theorem C90_deltastepping_source {byte} (m : machine ds_vertex Z byte) wide ffuel fuel th d fs fr dt dv rounds delta s :
  machine_ok m -> usable d fs ffuel -> square fs -> let n := folder_size fs in ~ 1 <= s <= n ->
  (taken_for_1 (m_nt m) (m_nr m) n s -> delta_cmd wide ffuel fuel th d m fr dt dv rounds delta s = delta_cmd wide ffuel fuel th d m fr dt dv rounds delta 1) /\
  (~ taken_for_1 (m_nt m) (m_nr m) n s -> exists e, delta_cmd wide ffuel fuel th d m fr dt dv rounds delta s = Err e).
Proof.
  intros Hm HU Hsq n Hs. pose proof (size_nonneg m wide ffuel d fs Hm HU) as Hn. fold n in Hn. destruct HU as (HD & Hi & HL1 & HL2). assert (1 <= m_nr m) as Hn1 by (apply Hm).
  destruct (read_els wide d fs (m_nr m) ffuel Hn1 HD HL1 HL2) as (em & en & EL & EM & Em & En).
  destruct (filtered_els d fs (m_nr m) ffuel Hn1 HL1 HL2 (fun e => e_val e <=? delta) em en) as (light & El & _ & (l1 & l2 & -> & M1 & N1)).
  destruct (filtered_els d fs (m_nr m) ffuel Hn1 HL1 HL2 (fun e => e_val e >? delta) em en) as (heavy & Eh & _).
  assert (el_m l1 = n) as Hl. { unfold square in Hsq. unfold n. lia. }
  destruct (source_cases m n s Hm Hn Hs) as [C1 C2]. unfold delta_cmd. change (mkFmt true true true) with mtx. rewrite EL. cbn [bind]. rewrite El. cbn [bind]. rewrite Eh. cbn [bind].
  destruct (read_elists m ds_new (l1 :: l2)) as [g|e] eqn:E; cbn [bind]; [|split; [reflexivity|intros _; exists e; reflexivity]]. apply read_sized in E. rewrite Hl in E.
  destruct (read_elists m ds_new heavy) as [g2|e]; cbn [bind]; [|split; [reflexivity|intros _; exists e; reflexivity]]. split; intros T.
  - rewrite (delta_same m th fr dt dv fuel delta rounds n g g2 s 1 (C1 T) E). reflexivity.
  - destruct (C2 T) as (w & Ew & Hw). destruct (delta_out m th fr dt dv fuel delta rounds n g g2 s w Hm Hn Ew Hw E) as (e & ->). exists e. reflexivity.
Qed.
Print Assumptions C90_deltastepping_source.

(** So an argument that is no number at all stands for the vertex 1 of a small graph. *)
Theorem C90_no_number_refuted {byte} (m : machine Z Z byte) wide ffuel fuel th disk prog file word more fs fr dt dv :
  machine_ok m -> usable (disk file) fs ffuel -> 1 <= folder_size fs < 16 * m_nt m * m_nr m -> no_number word ->
  sssp_main wide ffuel fuel th disk prog m fr dt dv (file :: word :: more) = sssp_main wide ffuel fuel th disk prog m fr dt dv [file; "1"%string].
Proof.
  intros Hm HU Hn Hw. cbn [sssp_main]. rewrite atoi_no_number by exact Hw. change (atoi wide "1") with 1.
  apply (C90_sssp_source m wide ffuel fuel th (disk file) fs fr dt dv 0 Hm HU); [lia|]. unfold taken_for_1. lia.
Qed.
Print Assumptions C90_no_number_refuted.

Definition c90_disk (name : string) : dirt := if String.eqb name "g" then c87_dir ax_blobs else [].
Example C90_example :
  machine_ok (ax_m z_to z_of true) /\ usable (c90_disk "g") (c87_files ax_blobs) 10 /\ folder_size (c87_files ax_blobs) = 5 /\ ends_number "th" /\ no_number "first" /\
  m_nt (ax_m z_to z_of true) = 3 /\ m_nr (ax_m z_to z_of true) = 2 /\ taken_for_1 3 2 5 0 /\ ~ taken_for_1 3 2 5 6 /\ ~ taken_for_1 3 2 5 (-96) /\
  sssp_main (fun z => z) 10 5 3 c90_disk "SSSP" (ax_m z_to z_of true) axf_z 6 7 ["g"]%string =
    Ok [c87_text ["Correct format: SSSP A.mtx source_vertex (1-based index)"]; c87_text ["Correct format: SSSP A.mtx source_vertex (1-based index)"]]%string /\
  (forall a, In a ["1"; "1th"; " +01"; "first"; "-7"]%string -> sssp_main (fun z => z) 10 5 3 c90_disk "SSSP" (ax_m z_to z_of true) axf_z 6 7 ["g"; a; "more"]%string = Ok
    [c87_text ["Reachable vertices = 4 "; "1 : distance = 0"; "2 : distance = 4"; "3 : distance = 5"; "4 : distance = 7"; "5 : distance = INF"]; []]%string) /\
  sssp_main (fun z => z) 10 5 3 c90_disk "SSSP" (ax_m z_to z_of true) axf_z 6 7 ["g"; "6"]%string = Err AssertFail /\
  bfs_main (fun z => z) 10 5 3 c90_disk "BFS" (ax_m b_to b_of true) axf_z 6 bfs_new ["g"; "6"]%string = Err AssertFail /\
  delta_main (fun z => z) 10 5 3 c90_disk "DeltaStepping" (ax_m d_to d_of true) axf_z 6 ds_new 17 ["g"; "3"; "-96"]%string = Err AssertFail.
Proof.
  split; [apply ax_m_ok; auto using z_ok|]. split; [apply c87_usable; [cbn; intuition subst; cbn; unfold is_int; lia|reflexivity]|]. split; [reflexivity|]. split; [vm_compute; intuition discriminate|]. split; [vm_compute; intuition discriminate|].
  do 2 (split; [reflexivity|]). unfold taken_for_1. do 3 (split; [lia|]). split; [vm_compute; reflexivity|]. split; [|split; [|split]; vm_compute; reflexivity].
  intros a Ia. cbn [In] in Ia. repeat (destruct Ia as [<-|Ia]; [vm_compute; reflexivity|]). destruct Ia.
Qed.
