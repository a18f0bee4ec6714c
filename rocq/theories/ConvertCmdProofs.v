(** Proofs about the command line of graph_converter (C89). *)
From Coq Require Import String Ascii DecimalString.
From Verif Require Import Base BaseLemmas ListLemmas FileIO FileSpec FileProofs CmdSpec Cmd CmdProofs Convert ConvertCmd ConvertCmdSpec.

(** ** numbers *)
Lemma digit_of_digit c : is_digit c = true -> digit_of c = c - 48 /\ digit_of c < 10.
Proof. unfold digit_of. intros H. rewrite H. unfold is_digit in H. lia. Qed.
Lemma number_digits l : forall acc, forallb is_digit l = true -> number 10 acc l = fold_left (fun a c => 10 * a + (c - 48)) l acc.
Proof.
  induction l as [|c l IH]; intros acc H; [reflexivity|]. cbn [forallb] in H. apply andb_true_iff in H as [Hc Hl]. cbn [number fold_left]. destruct (digit_of_digit c Hc) as [E B]. rewrite E in *.
  destruct (Z.ltb_spec (c - 48) 10); [|lia]. apply IH, Hl.
Qed.
Section Scan.
  Variables (wide : Z -> Z) (half : option Z).
  Definition unsigned (neg : bool) (s : list Z) : option Z :=
    let signed v := Some (as_d wide (if neg then - v else v)) in
    let plain := if digit_first 10 s then signed (number 10 0 s) else None in
    match s with
    | c0 :: c :: r => if c0 =? 48 then if (c =? 120) || (c =? 88) then if digit_first 16 r then signed (number 16 0 r) else half else signed (number 8 0 (c :: r)) else plain
    | _ => plain
    end.
  Lemma scan_unsigned s : scan_i wide half s = let '(neg, s) := match skip_ws s with c :: r => if c =? 45 then (true, r) else if c =? 43 then (false, r) else (false, c :: r) | [] => (false, []) end in unsigned neg s.
  Proof. unfold scan_i. destruct (skip_ws s) as [|c r]; [reflexivity|]. destruct (c =? 45); [reflexivity|]. destruct (c =? 43); reflexivity. Qed.
  Lemma unsigned_dec neg n : 0 <= n < 10 ^ Z.of_nat 10 -> unsigned neg (dec_digits 10 n) = Some (as_d wide (if neg then - n else n)).
  Proof.
    intros B. pose proof (dec_digits_digit 10 n ltac:(lia)) as Hd. pose proof (dec_digits_val 10 n B) as Hv.
    destruct (Z.eq_dec n 0) as [->|N0]; [destruct neg; reflexivity|]. destruct (no_leading 10 n ltac:(lia)) as (c & l & El & Nc). rewrite El in *.
    assert (is_digit c = true) as Hc by (cbn [forallb] in Hd; apply andb_true_iff in Hd; tauto). destruct (digit_of_digit c Hc) as [_ Bc].
    assert (unsigned neg (c :: l) = if digit_first 10 (c :: l) then Some (as_d wide (if neg then - number 10 0 (c :: l) else number 10 0 (c :: l))) else None) as ->.
    { unfold unsigned. destruct l as [|c' l]; [reflexivity|]. destruct (Z.eqb_spec c 48); [contradiction|reflexivity]. }
    unfold digit_first. destruct (Z.ltb_spec (digit_of c) 10); [|lia]. rewrite number_digits by exact Hd. unfold digits_val in Hv. rewrite Hv. reflexivity.
  Qed.
  Lemma scan_decimal z : is_int z -> scan_i wide half (chars (decimal z)) = Some z.
  Proof.
    intros B. rewrite scan_unsigned. change (chars (decimal z)) with (dec z). rewrite <- print_d_dec by exact B. unfold is_int in B.
    assert (as_d wide z = z) as Ez by (unfold as_d; destruct (Z.leb_spec (- 2 ^ 31) z), (Z.ltb_spec z (2 ^ 31)); try lia; reflexivity).
    unfold print_d. destruct (Z.ltb_spec z 0) as [L|L].
    - cbn [skip_ws]. change (is_space 45) with false. cbn iota. change (45 =? 45) with true. cbn iota. rewrite unsigned_dec by (change (10 ^ Z.of_nat 10) with 10000000000; lia). rewrite Z.opp_involutive, Ez. reflexivity.
    - pose proof (dec_digits_digit 10 z ltac:(lia)) as Hd. pose proof (unsigned_dec false z) as U. destruct (dec_digits_cons 9 z ltac:(lia)) as (c & l & El & Hc). change (dec_digits 10 z) with (dec_digits (S 9) z) in *. rewrite El in *.
      assert (is_space c = false /\ c <> 45 /\ c <> 43) as (S1 & S2 & S3) by (unfold is_digit in Hc; unfold is_space; lia).
      cbn [skip_ws]. rewrite S1. destruct (Z.eqb_spec c 45); [contradiction|]. destruct (Z.eqb_spec c 43); [contradiction|]. rewrite U by (change (10 ^ Z.of_nat 10) with 10000000000; lia). rewrite Ez. reflexivity.
  Qed.
End Scan.

(** ** one word *)
Definition kchar (k : key) : ascii :=
  match k with
  | Selfloops => "s" | Duplicatededges => "d" | Inputformat => "i" | Outputformat => "o" | Inputheader => "n" | Outputheader => "u"
  | Inputedgeweights => "e" | Outputedgeweights => "w" | Edgeweighttype => "t" | Range => "r" | Nvertices => "v" | Split => "p"
  end%char.
Definition setk (k : key) (z : Z) (o : options) : options := match stored (kchar k) z o with Some o => o | None => o end.
Definition setf (f : flag) (o : options) : options := match f with Uppertriangular => set_upper o | Bidirectional => set_bidir o | RandomizeID => set_random o end.
Definition after (w : word) (o : options) : options :=
  match w with Long k z | Equals k z | Short k z | Joined k z => setk k z o | Flag f => setf f o | File _ => o end.
Section Words.
  Variables (wide : Z -> Z) (half : option Z).
  Notation handle := (handle wide half).
  Notation short := (short wide half).
  Notation long := (long wide half).
  Notation parse := (parse wide half).
  Lemma handle_key k z o : is_int z -> handle (kchar k) (Some (decimal z)) o = Ok (inr (setk k z o)).
  Proof. intros B. unfold ConvertCmd.handle. rewrite (scan_decimal wide half z B). unfold setk. destruct o, k; reflexivity. Qed.
  Lemma decimal_cons z : exists c r, decimal z = String c r.
  Proof. unfold decimal, NilZero.string_of_int, NilZero.string_of_uint. destruct (Z.to_int z) as [u|u]; [|eexists _, _; reflexivity]. destruct u; cbn; eexists _, _; reflexivity. Qed.
  Lemma long_next k o : long (key_name k) o = Ok (inr (o, Some (kchar k))).
  Proof. destruct k; reflexivity. Qed.
  Lemma long_equals k z o : is_int z -> long (key_name k ++ "=" ++ decimal z) o = Ok (inr (setk k z o, None)).
  Proof. intros B. pose proof (handle_key k z o B) as H. revert H. destruct k; cbn -[ConvertCmd.handle setk decimal]; intros H; rewrite H; reflexivity. Qed.
  Lemma long_flag f o : long (flag_name f) o = Ok (inr (setf f o, None)).
  Proof. destruct f; reflexivity. Qed.
  Lemma short_next k o : key_letter k <> None -> short (letter k) o = Ok (inr (o, Some (kchar k))).
  Proof. destruct k; try reflexivity. intros H. contradiction H. reflexivity. Qed.
  Lemma short_joined k z o : is_int z -> key_letter k <> None -> short (letter k ++ decimal z) o = Ok (inr (setk k z o, None)).
  Proof.
    intros B N. pose proof (handle_key k z o B) as H. destruct (decimal_cons z) as (c & r & Ed). rewrite Ed in *.
    destruct k; try (contradiction N; reflexivity); (cbn [letter key_letter append ConvertCmd.short]; match goal with |- context [short_option ?x] => change (short_option x) with (Some true) end; cbn iota; cbn [kchar] in H; rewrite H; reflexivity).
  Qed.
  Lemma parse_name k rest o fs : parse (("--" ++ key_name k)%string :: rest) None o fs = parse rest (Some (kchar k)) o fs.
  Proof. destruct k; reflexivity. Qed.
  Lemma parse_word w rest o fs : proper w -> parse (written w ++ rest) None o fs = parse rest None (after w o) (fs ++ match w with File s => [s] | _ => [] end).
  Proof.
    destruct w as [k z|k z|k z|k z|f|s]; cbn [proper written after List.app]; intros H; rewrite ?app_nil_r.
    - rewrite parse_name. cbn [ConvertCmd.parse]. rewrite handle_key by exact H. reflexivity.
    - pose proof (long_equals k z o H) as L. destruct k; cbn [append key_name ConvertCmd.parse] in *; rewrite Ascii.eqb_refl; cbn iota; rewrite L; reflexivity.
    - destruct H as [B N]. pose proof (short_next k o N) as L. destruct k; try (contradiction N; reflexivity); cbn [append letter key_letter ConvertCmd.parse] in *; rewrite Ascii.eqb_refl; cbn iota; rewrite L; cbn [bind]; rewrite handle_key by exact B; reflexivity.
    - destruct H as [B N]. pose proof (short_joined k z o B N) as L. destruct k; try (contradiction N; reflexivity); cbn [append letter key_letter ConvertCmd.parse] in *; rewrite Ascii.eqb_refl; cbn iota; rewrite L; reflexivity.
    - destruct f; reflexivity.
    - destruct H as [->|H]; [reflexivity|]. destruct s as [|d [|c r]]; [reflexivity|reflexivity|]. cbn [ConvertCmd.parse]. cbn [String.prefix] in H. destruct (Ascii.eqb_spec d "-") as [->|N]; [|reflexivity]. destruct r; discriminate H.
  Qed.
  Lemma parse_words ws : forall rest o fs, (forall w, In w ws -> proper w) -> parse (concat (map written ws) ++ rest) None o fs = parse rest None (fold_left (fun o w => after w o) ws o) (fs ++ files_of ws).
  Proof.
    induction ws as [|w ws IH]; intros rest o fs H; cbn [map concat fold_left]; [unfold files_of; cbn; rewrite app_nil_r; reflexivity|].
    rewrite <- app_assoc, parse_word by (apply H; left; auto). rewrite IH by (intros; apply H; right; auto). unfold files_of. cbn [map concat]. rewrite app_assoc. reflexivity.
  Qed.
End Words.

(** ** the options at the end *)
Definition setting_of (k : key) (o : options) : Z :=
  match k with
  | Selfloops => o_selfloops o | Duplicatededges => o_duplicatededges o | Inputformat => o_inputformat o | Outputformat => o_outputformat o | Inputheader => o_inputheader o | Outputheader => o_outputheader o
  | Inputedgeweights => o_inputedgeweights o | Outputedgeweights => o_outputedgeweights o | Edgeweighttype => o_edgeweighttype o | Range => o_random_range o | Nvertices => o_nvertices o | Split => o_nsplits o
  end.
Definition flag_of (f : flag) (o : options) : Z := match f with Uppertriangular => o_uppertriangular o | Bidirectional => o_bidirectional o | RandomizeID => o_randomizeID o end.
Lemma setk_value k k' z o : setting_of k (setk k' z o) = if key_eqb k k' then z else setting_of k o.
Proof. destruct o, k, k'; reflexivity. Qed.
Lemma setk_flag f k z o : flag_of f (setk k z o) = flag_of f o.
Proof. destruct o, f, k; reflexivity. Qed.
Lemma setf_value k f o : setting_of k (setf f o) = setting_of k o.
Proof. destruct o, k, f; reflexivity. Qed.
Lemma setf_flag f g o : flag_of f (setf g o) = if String.eqb (flag_name f) (flag_name g) then 1 else flag_of f o.
Proof. destruct o, f, g; reflexivity. Qed.
Lemma values_at_end k ws : forall o, setting_of k (fold_left (fun o w => after w o) ws o) = last_value k (setting_of k o) ws.
Proof. induction ws as [|w ws IH]; intros o; [reflexivity|]. cbn [fold_left]. rewrite IH. destruct w; cbn [after last_value]; rewrite ?setk_value, ?setf_value; reflexivity. Qed.
Lemma flags_at_end f ws : forall o, flag_of f (fold_left (fun o w => after w o) ws o) = if existsb (fun w => match w with Flag g => String.eqb (flag_name f) (flag_name g) | _ => false end) ws then 1 else flag_of f o.
Proof.
  induction ws as [|w ws IH]; intros o; [reflexivity|]. cbn [fold_left existsb]. rewrite IH. destruct w; cbn [after orb]; rewrite ?setk_flag, ?setf_flag; try reflexivity.
  destruct (String.eqb _ _); cbn [orb]; [destruct (existsb _ ws); reflexivity|reflexivity].
Qed.
Lemma options_at_end ws : fold_left (fun o w => after w o) ws initOptions = wanted ws.
Proof.
  pose proof (fun k => values_at_end k ws initOptions) as V. pose proof (fun f => flags_at_end f ws initOptions) as F. unfold wanted, is_given.
  set (o := fold_left _ ws initOptions) in *. clearbody o.
  pose proof (V Selfloops) as V1. pose proof (V Duplicatededges) as V2. pose proof (V Inputformat) as V3. pose proof (V Outputformat) as V4. pose proof (V Inputheader) as V5. pose proof (V Outputheader) as V6.
  pose proof (V Inputedgeweights) as V7. pose proof (V Outputedgeweights) as V8. pose proof (V Edgeweighttype) as V9. pose proof (V Nvertices) as V10. pose proof (V Range) as V11. pose proof (V Split) as V12.
  pose proof (F Uppertriangular) as F1. pose proof (F Bidirectional) as F2. pose proof (F RandomizeID) as F3. clear V F. destruct o. cbn in V1, V2, V3, V4, V5, V6, V7, V8, V9, V10, V11, V12, F1, F2, F3 |- *. subst. reflexivity.
Qed.
