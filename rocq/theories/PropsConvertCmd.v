(** The command line of graph_converter (C89).  ConvertCmdSpec.v says how a user writes it: [word], [written],
    [wanted].  [process o i f t]: the conversion of file [i] to [f] with options [o] and weight type [t] (C60). *)
From Coq Require Import String Ascii.
From Verif Require Import Base BaseLemmas ListLemmas FileIO FileSpec Cmd CmdProofs Convert ConvertSpec PropsConvert ConvertCmd ConvertCmdSpec ConvertCmdProofs.

(** Options and names of files in any order and form: if there are two names, the conversion runs with
    the last value given to each option, the default if there is none, and the first name for the input,
    provided these options are acceptable (C60); otherwise nothing is read or written. *)
Theorem C89_command_line {A} wide half ws more (process : options -> string -> string -> Z -> R A) : (forall w, In w ws -> proper w) ->
  let o := wanted ws in
  match files_of ws ++ match more with Some l => l | None => [] end with
  | [i; f] => (acceptable o -> converter_cmd wide half (concat (map written ws) ++ after_dashes more) process = Converter o (Ran (process o i f (o_edgeweighttype o)))) /\
      (~ acceptable o -> exists e, converter_cmd wide half (concat (map written ws) ++ after_dashes more) process = Converter o (Refused e))
  | _ => converter_cmd wide half (concat (map written ws) ++ after_dashes more) process = HelpShown
  end.
Proof.
  intros H o. assert (E : parse wide half (concat (map written ws) ++ after_dashes more) None initOptions [] = Ok (inr (o, files_of ws ++ match more with Some l => l | None => [] end))).
  { rewrite parse_words by exact H. rewrite options_at_end. fold o. cbn [List.app]. destruct more as [l|]; [|rewrite app_nil_r; reflexivity]. reflexivity. }
  unfold converter_cmd. rewrite E. destruct (files_of ws ++ _) as [|i [|f [|x l]]]; try reflexivity. destruct (C60_refused_options o) as [Ha Hn]. split.
  - intros Ac. rewrite (Ha Ac). reflexivity.
  - intros Na. destruct (Hn Na) as (e & He). exists e. rewrite He. reflexivity.
Qed.
Print Assumptions C89_command_line.

Lemma parse_only wide half ws o fs : (forall w, In w ws -> proper w) ->
  parse wide half (concat (map written ws)) None o fs = parse wide half [] None (fold_left (fun o w => after w o) ws o) (fs ++ files_of ws).
Proof. intros H. rewrite <- (parse_words wide half ws [] o fs H), app_nil_r. reflexivity. Qed.

(** --help, or -h with anything after it, prints the help and does nothing else.  -h as the last argument is ignored. *)
Theorem C89_help {A} wide half ws rest x (process : options -> string -> string -> Z -> R A) : (forall w, In w ws -> proper w) ->
  (forall h, In h [["--help"]; ["-h"; x]; ["-h" ++ x]]%string -> (h = ["-h" ++ x]%string -> x <> ""%string) ->
     converter_cmd wide half (concat (map written ws) ++ h ++ rest) process = HelpShown) /\
  converter_cmd wide half (concat (map written ws) ++ ["-h"%string]) process = converter_cmd wide half (concat (map written ws)) process.
Proof.
  intros H. split.
  - intros h Ih Nx. unfold converter_cmd. rewrite parse_words by exact H. destruct Ih as [<-|[<-|[<-|[]]]]; [reflexivity..|]. specialize (Nx eq_refl). destruct x as [|c r]; [contradiction Nx; reflexivity|]. reflexivity.
  - unfold converter_cmd. rewrite parse_words by exact H. rewrite parse_only by exact H. reflexivity.
Qed.
Print Assumptions C89_help.

(** Deviation: a long option that is not one of the names, spelled out, reads past the end of the table of
    options; abbreviations, which the documentation of getopt_long promises, do so too. *)
Definition known_name (s : string) : Prop := (exists k, s = key_name k) \/ (exists f, s = flag_name f) \/ s = "help"%string.
Fixpoint no_equals (s : string) : bool := match s with String c r => negb (Ascii.eqb c "=") && no_equals r | EmptyString => true end.
Lemma split_plain s v : no_equals s = true -> split_eq s = (s, None) /\ split_eq (s ++ "=" ++ v) = (s, Some v).
Proof.
  induction s as [|c s IH]; cbn [no_equals]; [split; reflexivity|]. intros H. apply andb_true_iff in H as [Hc Hs]. apply negb_true_iff in Hc. destruct (IH Hs) as [I1 I2]. cbn [append split_eq]. rewrite Hc.
  cbn [append] in I2. rewrite I1, I2. split; reflexivity.
Qed.
Lemma not_found s : ~ known_name s -> find (fun p : string * bool * target => String.eqb (fst (fst p)) s) longOptions = None.
Proof.
  intros N. assert (forall x, known_name x -> String.eqb x s = false) as E by (intros x K; apply String.eqb_neq; intros ->; contradiction).
  assert (forall k, String.eqb (key_name k) s = false) as Ek by (intros; apply E; left; eauto). assert (forall f, String.eqb (flag_name f) s = false) as Ef by (intros; apply E; right; left; eauto).
  assert (String.eqb "help" s = false) as Eh by (apply E; right; right; auto). unfold longOptions. cbn [find fst].
  rewrite (Ef Uppertriangular : String.eqb "uppertriangular" s = false), (Ef Bidirectional : String.eqb "bidirectional" s = false), (Ek Selfloops : String.eqb "selfloops" s = false), (Ek Duplicatededges : String.eqb "duplicatededges" s = false),
    (Ek Inputformat : String.eqb "inputformat" s = false), (Ek Outputformat : String.eqb "outputformat" s = false), (Ek Inputheader : String.eqb "inputheader" s = false), (Ek Outputheader : String.eqb "outputheader" s = false),
    (Ek Inputedgeweights : String.eqb "inputedgeweights" s = false), (Ek Outputedgeweights : String.eqb "outputedgeweights" s = false), (Ek Edgeweighttype : String.eqb "edgeweighttype" s = false), (Ek Range : String.eqb "r" s = false),
    (Ek Nvertices : String.eqb "nvertices" s = false), (Ek Split : String.eqb "split" s = false), (Ef RandomizeID : String.eqb "randomizeID" s = false), Eh. reflexivity.
Qed.
Theorem C89_other_names_read_past_the_table {A} wide half ws name v rest (process : options -> string -> string -> Z -> R A) : (forall w, In w ws -> proper w) ->
  no_equals name = true -> ~ known_name name ->
  (name <> ""%string -> converter_cmd wide half (concat (map written ws) ++ ("--" ++ name)%string :: rest) process = Crashed OOB) /\
  converter_cmd wide half (concat (map written ws) ++ ("--" ++ name ++ "=" ++ v)%string :: rest) process = Crashed OOB.
Proof.
  intros H Ne Nk. destruct (split_plain name v Ne) as [S1 S2]. pose proof (not_found name Nk) as Nf. split; [intros N0|]; unfold converter_cmd; rewrite parse_words by exact H.
  - destruct name as [|c r]; [contradiction N0; reflexivity|]. cbn [append parse]. rewrite !Ascii.eqb_refl. cbn iota. unfold long. rewrite S1. cbn iota. rewrite Nf. reflexivity.
  - assert (exists c r, (name ++ "=" ++ v)%string = String c r) as (c & r & Ec) by (destruct name; eexists _, _; reflexivity). rewrite Ec in *. cbn [append parse]. rewrite !Ascii.eqb_refl. cbn iota. unfold long. rewrite S2. cbn iota. rewrite Nf. reflexivity.
Qed.
Print Assumptions C89_other_names_read_past_the_table.

(** Deviation: -p, the letter of --split, takes no argument and reads the null pointer. *)
Theorem C89_p_reads_null {A} wide half ws x rest (process : options -> string -> string -> Z -> R A) : (forall w, In w ws -> proper w) ->
  converter_cmd wide half (concat (map written ws) ++ ("-p" ++ x)%string :: rest) process = Crashed NullDeref.
Proof. intros H. unfold converter_cmd. rewrite parse_words by exact H. destruct x; reflexivity. Qed.
Print Assumptions C89_p_reads_null.

(** Deviation: a value that does not begin like a number is ignored, without any sign of it, and so is an
    option whose value is missing because it comes last. *)
Definition no_number (s : string) : Prop := match s with EmptyString => True | String c _ => let z := Z.of_nat (nat_of_ascii c) in ~ (48 <= z <= 57) /\ z <> 43 /\ z <> 45 /\ z <> 32 /\ ~ (9 <= z <= 13) end.
Theorem C89_other_values_are_ignored {A} wide half ws k v rest (process : options -> string -> string -> Z -> R A) : (forall w, In w ws -> proper w) -> no_number v ->
  converter_cmd wide half (concat (map written ws) ++ ("--" ++ key_name k)%string :: v :: rest) process = converter_cmd wide half (concat (map written ws) ++ rest) process /\
  converter_cmd wide half (concat (map written ws) ++ [("--" ++ key_name k)%string]) process = converter_cmd wide half (concat (map written ws)) process.
Proof.
  intros H Hv. unfold converter_cmd. split.
  - rewrite !parse_words by exact H. rewrite parse_name. cbn [parse]. set (o := fold_left _ ws initOptions). set (fs := [] ++ files_of ws).
    assert (handle wide half (kchar k) (Some v) o = Ok (inr o)) as ->; [|reflexivity].
    unfold handle. assert (Ascii.eqb (kchar k) "h" = false) as -> by (destruct k; reflexivity).
    assert (scan_i wide half (chars v) = None) as ->; [|reflexivity]. rewrite scan_unsigned. destruct v as [|c r]; [reflexivity|]. cbn [no_number] in Hv. unfold chars. cbn [list_ascii_of_string map]. set (z := Z.of_nat (nat_of_ascii c)) in *.
    fold (chars r). clearbody z. assert (is_space z = false) as Es by (unfold is_space; lia). cbn [skip_ws]. rewrite Es. destruct (Z.eqb_spec z 45); [lia|]. destruct (Z.eqb_spec z 43); [lia|].
    assert (digit_first 10 (z :: chars r) = false) as Ed.
    { unfold digit_first, digit_of. assert (is_digit z = false) as -> by (unfold is_digit; lia). destruct ((97 <=? z) && (z <=? 102)) eqn:Q1; [lia|]. destruct ((65 <=? z) && (z <=? 70)) eqn:Q2; [lia|]. reflexivity. }
    unfold unsigned. rewrite Ed. destruct (chars r) as [|c' r']; [reflexivity|]. destruct (Z.eqb_spec z 48); [lia|reflexivity].
  - rewrite parse_words by exact H. rewrite parse_name. rewrite parse_only by exact H. reflexivity.
Qed.
Print Assumptions C89_other_values_are_ignored.

(** Letters that are no options, and values for the options that take none, are left out (getopt_long prints
    a message); the conversion runs as if they were not there. *)
Definition no_letter (c : ascii) : Prop := ~ In c (list_ascii_of_string "hsdionuewtvrp").
Lemma unknown_short c : no_letter c -> short_option c = None.
Proof.
  intros N. assert (forall x, In x (list_ascii_of_string "hsdionuewtvrp") -> Ascii.eqb x c = false) as E by (intros x I; apply Ascii.eqb_neq; intros ->; contradiction).
  unfold short_option, shortOptions. destruct (Ascii.eqb_spec c ":") as [->|N1]; [reflexivity|]. destruct (Ascii.eqb c ";"); [reflexivity|]. cbn [orb].
  assert (Ascii.eqb ":" c = false) as Ec by (apply Ascii.eqb_neq; congruence). cbn [find_letter]. rewrite Ec, !E by (cbn; tauto). reflexivity.
Qed.
Theorem C89_left_out {A} wide half ws d c f v rest (process : options -> string -> string -> Z -> R A) : (forall w, In w ws -> proper w) ->
  (no_letter d -> d <> "-"%char -> Forall no_letter (list_ascii_of_string c) ->
     converter_cmd wide half (concat (map written ws) ++ ("-" ++ String d c)%string :: rest) process = converter_cmd wide half (concat (map written ws) ++ rest) process) /\
  converter_cmd wide half (concat (map written ws) ++ ("--" ++ flag_name f ++ "=" ++ v)%string :: rest) process = converter_cmd wide half (concat (map written ws) ++ rest) process.
Proof.
  intros H. unfold converter_cmd. split.
  - intros Nd Nm Nc. rewrite !parse_words by exact H. cbn [append parse]. rewrite Ascii.eqb_refl. cbn iota. apply Ascii.eqb_neq in Nm. rewrite Nm. cbn iota.
    assert (forall o, short wide half (String d c) o = Ok (inr (o, None))) as ->; [|reflexivity]. intros o. cbn [short]. rewrite unknown_short by exact Nd. clear -Nc. induction c as [|x c IH]; [reflexivity|].
    inversion Nc as [|? ? Nx Nc']; subst. cbn [short]. rewrite unknown_short by exact Nx. exact (IH Nc').
  - rewrite !parse_words by exact H. destruct f; reflexivity.
Qed.
Print Assumptions C89_left_out.

(** Deviation: a number with a leading 0 is read as octal, so the number meant is not always the one used. *)
Theorem C89_leading_zero_refuted : exists v, v = "010"%string /\
  forall A wide half (process : options -> string -> string -> Z -> R A),
    converter_cmd wide half ["--nvertices"; v; "in"; "out"]%string process = converter_cmd wide half (concat (map written [Long Nvertices 8; File "in"; File "out"])) process.
Proof. exists "010"%string. split; [reflexivity|]. reflexivity. Qed.
Print Assumptions C89_leading_zero_refuted.

Definition c89_words : list word := [File "in"; Short Selfloops 0; Flag Bidirectional; Equals Inputformat 0; Joined Selfloops 1; Long Nvertices 12; Long Edgeweighttype 2]%string.
Definition c89_process (o : options) (i f : string) (t : Z) : R (string * string * Z) := Ok (i, f, t).
Example C89_example :
  concat (map written c89_words) ++ after_dashes (Some ["-out"%string]) = ["in"; "-s"; "0"; "--bidirectional"; "--inputformat=0"; "-s1"; "--nvertices"; "12"; "--edgeweighttype"; "2"; "--"; "-out"]%string /\
  (forall w, In w c89_words -> proper w) /\ wanted c89_words = mkO 1 0 0 1 0 0 1 1 1 1 2 12 128 1 0 /\ acceptable (wanted c89_words) /\
  converter_cmd (fun z => z) None (concat (map written c89_words) ++ after_dashes (Some ["-out"%string])) c89_process = Converter (wanted c89_words) (Ran (Ok ("in", "-out", 2)))%string /\
  converter_cmd (fun z => z) None (concat (map written [Flag Bidirectional; Flag Uppertriangular; File "in"%string; File "out"%string])) c89_process = Converter (mkO 0 0 1 1 1 0 1 1 1 1 0 0 128 1 0) (Refused AssertFail) /\
  converter_cmd (fun z => z) None ["in"; "--help"; "out"]%string c89_process = HelpShown /\ converter_cmd (fun z => z) None ["in"]%string c89_process = HelpShown /\
  converter_cmd (fun z => z) None ["--self"; "1"; "in"; "out"]%string c89_process = Crashed OOB /\ ~ known_name "self" /\
  converter_cmd (fun z => z) None ["-p"; "1"; "in"; "out"]%string c89_process = Crashed NullDeref /\ no_number "yes" /\
  no_letter "z" /\ no_letter "q" /\ converter_cmd (fun z => z) None ["in"; "-zq"; "--bidirectional=0"; "out"]%string c89_process = Converter initOptions (Ran (Ok ("in", "out", 0)))%string /\
  converter_cmd (fun z => z) None ["--selfloops"; "yes"; "in"; "out"]%string c89_process = converter_cmd (fun z => z) None ["in"; "out"]%string c89_process.
Proof.
  split; [reflexivity|]. split; [intros w Hw; cbn [In c89_words] in Hw; repeat (destruct Hw as [<-|Hw]; [vm_compute; intuition discriminate|]); destruct Hw|]. split; [reflexivity|]. split; [unfold acceptable; vm_compute; intuition discriminate|].
  do 5 (split; [reflexivity|]). split; [intros [[[] H]|[[[] H]|H]]; discriminate|]. split; [reflexivity|]. split; [vm_compute; intuition discriminate|].
  do 2 (split; [intros I; cbn in I; intuition discriminate|]). split; reflexivity.
Qed.
