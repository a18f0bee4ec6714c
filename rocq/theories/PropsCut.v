(** * C83: edge files left behind by a write that was interrupted *)
From Verif Require Import Base BaseLemmas ListLemmas DCSC EdgeList EdgeSpec Apps FileIO FileSpec FileProofs FileFinal FileClaims FileCutSpec FileCut FileCutClaims FileCutText FileCutTextClaims.

(** The crash points. [write_edgelist] of [els] into an empty directory would have left [d']. In [d''] some
    of those files are missing and the others have only their first [K i] bytes, for any [K]. Then [d'']
    satisfies [holds_cut], which the following theorems start from, and the counts in the headers (if they
    got that far) are those of the complete files. *)
Theorem C83_interrupted_write {E} (w : wtype E) fm d els ls d' d'' K : Forall2 holds els ls ->
  (forall el, In el els -> is_int (el_m el) /\ is_int (el_n el)) -> edges_fit w fm (concat ls) -> zlen (concat ls) < 2 ^ 31 ->
  (forall i, 0 <= i -> file_at d i = None) -> write_edgelist w fm d els = Ok d' -> interrupted d' d'' K ->
  holds_cut w fm d'' (written_file els ls) K /\ forall i, ef_count (written_file els ls i) = zlen (ef_edges (written_file els ls i)).
Proof. exact (cut_of_write w fm d els ls d' d'' K). Qed.
Print Assumptions C83_interrupted_write.

(** Binary with a header, cut inside the header of a file some rank reads: the load stops with an assertion. *)
Theorem C83_cut_header_stops {E} (w : wtype E) wide fm fuel nr d F K r i : binary fm = true -> header fm = true ->
  1 <= nr -> holds_cut w fm d F K -> enough fuel d F -> 0 <= r < nr -> In i (read_by nr d r) -> K i < 12 ->
  load_edgelist w wide fuel fm nr d = Err AssertFail.
Proof.
  intros Hb Hh Hn Hd Hf Hr Hi HK. apply (load_short w wide fm Hb fuel nr d F K Hn Hd Hf r i Hr Hi). unfold head_size. rewrite Hh. exact HK.
Qed.
Print Assumptions C83_cut_header_stops.

(** Binary with a header, every header complete: the load succeeds whatever is missing. Every rank counts
    all edges that should be there; the array has those that are there completely, in order, and for each
    lost one an uninitialised element at the end. *)
Theorem C83_cut_after_header {E} (w : wtype E) wide fm fuel nr d F K : binary fm = true -> header fm = true ->
  1 <= nr -> holds_cut w fm d F K -> enough fuel d F -> (forall i, ef_count (F i) = zlen (ef_edges (F i))) ->
  (forall r i, 0 <= r < nr -> In i (read_by nr d r) -> 12 <= K i) ->
  (forall r, 0 <= r < nr -> zlen (concat (map (fun i => ef_edges (F i)) (read_by nr d r))) < 2 ^ 31) ->
  exists els, load_edgelist w wide fuel fm nr d = Ok els /\ zlen els = nr /\ forall r, 0 <= r < nr ->
    exists el, rd els r = Ok el /\ el_nnz el = zlen (concat (map (fun i => ef_edges (F i)) (read_by nr d r))) /\
      el_m el = maxl (concat (map (fun r => map (fun i => ef_m (F i)) (read_by nr d r)) (zrange 0 nr))) /\
      el_n el = maxl (concat (map (fun r => map (fun i => ef_n (F i)) (read_by nr d r)) (zrange 0 nr))) /\
      el_arr el = map Some (map (back w fm) (left_over w fm nr d F K r)) ++
        repeat None (Z.to_nat (zlen (concat (map (fun i => ef_edges (F i)) (read_by nr d r))) - zlen (left_over w fm nr d F K r))).
Proof. intros Hb Hh Hn Hd Hf Hc HK Ht. exact (with_header w wide fm Hb fuel nr d F K Hn Hd Hf Hh Hc HK Ht). Qed.
Print Assumptions C83_cut_after_header.

(** Binary without a header, and no rank is left with a piece of an edge after its last complete edge: the
    load returns exactly the complete edges, with dimensions computed from them. Nothing tells that
    edges are missing. *)
Theorem C83_cut_without_header_is_silent {E} (w : wtype E) wide fm fuel nr d F K : binary fm = true -> header fm = false ->
  1 <= nr -> holds_cut w fm d F K -> enough fuel d F ->
  (forall r, 0 <= r < nr -> zlen (left_over w fm nr d F K r) < 2 ^ 31) ->
  (forall r p i q, 0 <= r < nr -> read_by nr d r = p ++ i :: q -> torn w fm (K i) -> exists j, In j q /\ whole w fm (F j) (K j) <> []) ->
  let all := concat (map (fun r => left_over w fm nr d F K r) (zrange 0 nr)) in
  load_edgelist w wide fuel fm nr d =
    Ok (map (fun r => mkEL (map Some (map (back w fm) (left_over w fm nr d F K r))) (maxl (map (@e_src E) all)) (maxl (map (@e_dst E) all)) (zlen (left_over w fm nr d F K r))) (zrange 0 nr)).
Proof. intros Hb Hh Hn Hd Hf Ht Hto. exact (without_header w wide fm Hb fuel nr d F K Hn Hd Hf Hh Ht Hto). Qed.
Print Assumptions C83_cut_without_header_is_silent.

(** Otherwise the piece is stored past the end of the array. *)
Theorem C83_torn_edge_overflows {E} (w : wtype E) wide fm fuel nr d F K r p i q : binary fm = true -> header fm = false ->
  1 <= nr -> holds_cut w fm d F K -> enough fuel d F -> 0 <= r < nr -> zlen (left_over w fm nr d F K r) < 2 ^ 31 ->
  read_by nr d r = p ++ i :: q -> torn w fm (K i) -> (forall j, In j q -> whole w fm (F j) (K j) = []) ->
  load_edgelist w wide fuel fm nr d = Err OOB.
Proof. intros Hb Hh Hn Hd Hf Hr Ht Eq Hti Hq. exact (overflow w wide fm Hb fuel nr d F K Hn Hd Hf r p i q Hh Hr Ht Eq Hti Hq). Qed.
Print Assumptions C83_torn_edge_overflows.

(** In text files a cut can change an edge instead of losing it: without the last newline and the digit
    before it, the weight [v] comes back as [v / 10], and the load, header and all, looks complete. *)
Theorem C83_text_weight_kept_refuted wide fuel m n l s t v : is_int m -> is_int n ->
  edges_fit (w_int wide) (mkFmt false true true) (l ++ [mkE s t v]) -> 10 <= v < 2 ^ 31 -> zlen l + 1 < 2 ^ 31 -> (length l + 1 < fuel)%nat ->
  let b := content (w_int wide) (mkFmt false true true) (mkEF m n (zlen l + 1) (l ++ [mkE s t v]) true) in
  load_edgelist (w_int wide) wide fuel (mkFmt false true true) 1 [Some (removelast (removelast b))] =
    Ok [mkEL (map Some (l ++ [mkE s t (v / 10)])) (Z.max m 0) (Z.max n 0) (zlen l + 1)].
Proof. exact (text_digit wide fuel m n l s t v). Qed.
Print Assumptions C83_text_weight_kept_refuted.

(** Text files, cut at any byte. [C83_interrupted_write] covers them too. If the header line of each file is
    complete (or the format has none), what is left is the header, some complete lines and the beginning of
    the next one. *)
Theorem C83_text_cuts {E} (w : wtype E) fm d F K : holds_cut w fm d F K -> (forall i, ef_newline (F i) = true) ->
  (forall i b, 0 <= i -> file_at d i = Some b -> zlen (header_bytes fm (ef_m (F i)) (ef_n (F i)) (ef_count (F i))) <= K i) ->
  exists C T, holds_text_cut w fm d F C T.
Proof. exact (text_form w fm d F K). Qed.
Print Assumptions C83_text_cuts.

(** Text, cut before the third number of the header of a file some rank reads: the load stops with an
    assertion, whatever the other files are. *)
Theorem C83_text_cut_header_stops {E} (w : wtype E) wide fm fuel nr d r i t m n y : binary fm = false -> header fm = true ->
  1 <= nr -> (length d < fuel)%nat -> 0 <= r < nr -> In i (read_by nr d r) -> file_at d i = Some t ->
  is_int m -> is_int n -> print_d m ++ [32] ++ print_d n ++ [32] = t ++ y ->
  load_edgelist w wide fuel fm nr d = Err AssertFail.
Proof. intros Hb Hh. exact (text_short w wide fm Hb Hh fuel nr d r i t m n y). Qed.
Print Assumptions C83_text_cut_header_stops.

(** All other cuts of text files with headers have this form: the header is complete, or it ends within its third
    number (the count of the edges), of which at least one digit is left. *)
Theorem C83_text_header_cuts {E} (w : wtype E) fm d F K : binary fm = false -> header fm = true -> holds_cut w fm d F K -> (forall i, ef_newline (F i) = true) ->
  (forall i b, 0 <= i -> file_at d i = Some b -> zlen (print_d (ef_m (F i)) ++ [32] ++ print_d (ef_n (F i)) ++ [32]) < K i) ->
  exists C T G, holds_header_cut w fm d F C T G.
Proof. exact (header_form w fm d F K). Qed.
Print Assumptions C83_text_header_cuts.

(** Then the load succeeds whatever is missing. A count without its last k digits is taken for a smaller one.
    Every rank counts the edges its files announce. The array has the edges whose lines are complete, in order;
    of the elements after them all but the first are uninitialised. The first can hold what could be read of one
    torn line. *)
Theorem C83_text_cut_with_header {E} (w : wtype E) wide fm fuel nr d F C T G : binary fm = false -> header fm = true ->
  cuttable_files w fm d F -> 1 <= nr -> holds_header_cut w fm d F C T G -> enough fuel d F -> (forall i, ef_count (F i) = zlen (ef_edges (F i))) ->
  (forall r, 0 <= r < nr -> fold_right Z.add 0 (map (announced F G) (read_by nr d r)) < 2 ^ 31) ->
  exists els, load_edgelist w wide fuel fm nr d = Ok els /\ zlen els = nr /\ forall r, 0 <= r < nr ->
    exists el rest, rd els r = Ok el /\ el_nnz el = fold_right Z.add 0 (map (announced F G) (read_by nr d r)) /\
      el_m el = maxl (concat (map (fun r => map (fun i => ef_m (F i)) (read_by nr d r)) (zrange 0 nr))) /\
      el_n el = maxl (concat (map (fun r => map (fun i => ef_n (F i)) (read_by nr d r)) (zrange 0 nr))) /\
      el_arr el = map Some (map (back w fm) (left_lines nr d F C r)) ++ rest /\
      zlen rest = el_nnz el - zlen (left_lines nr d F C r) /\ Forall (fun x => x = None) (tl rest).
Proof.
  intros Hb Hh Hw Hn Hd Hf Hc Ht. exact (text_with_header w wide fm Hb fuel nr d F C T G Hw Hn Hd ltac:(congruence) (fun _ => Hc) Hf Hh Ht).
Qed.
Print Assumptions C83_text_cut_with_header.

(** In particular, with complete header lines every rank counts all edges that should be there. *)
Theorem C83_text_cut_after_header {E} (w : wtype E) wide fm fuel nr d F C T : binary fm = false -> header fm = true ->
  cuttable_files w fm d F ->
  1 <= nr -> holds_text_cut w fm d F C T -> enough fuel d F -> (forall i, ef_count (F i) = zlen (ef_edges (F i))) ->
  (forall r, 0 <= r < nr -> zlen (concat (map (fun i => ef_edges (F i)) (read_by nr d r))) < 2 ^ 31) ->
  exists els, load_edgelist w wide fuel fm nr d = Ok els /\ zlen els = nr /\ forall r, 0 <= r < nr ->
    exists el rest, rd els r = Ok el /\ el_nnz el = zlen (concat (map (fun i => ef_edges (F i)) (read_by nr d r))) /\
      el_m el = maxl (concat (map (fun r => map (fun i => ef_m (F i)) (read_by nr d r)) (zrange 0 nr))) /\
      el_n el = maxl (concat (map (fun r => map (fun i => ef_n (F i)) (read_by nr d r)) (zrange 0 nr))) /\
      el_arr el = map Some (map (back w fm) (left_lines nr d F C r)) ++ rest /\
      zlen rest = el_nnz el - zlen (left_lines nr d F C r) /\ Forall (fun x => x = None) (tl rest).
Proof. exact (text_after_header w wide fm fuel nr d F C T). Qed.
Print Assumptions C83_text_cut_after_header.

(** Text without a header: the load returns exactly the edges with complete lines, if no rank is left with a
    digit of a torn line after its last complete line ... *)
Theorem C83_text_cut_without_header_is_silent {E} (w : wtype E) wide fm fuel nr d F C T : binary fm = false -> header fm = false ->
  cuttable_files w fm d F ->
  1 <= nr -> holds_text_cut w fm d F C T -> enough fuel d F ->
  (forall r, 0 <= r < nr -> zlen (left_lines nr d F C r) < 2 ^ 31) ->
  (forall r p i q, 0 <= r < nr -> read_by nr d r = p ++ i :: q -> has_digit (T i) -> exists j, In j q /\ firstn (C j) (ef_edges (F j)) <> []) ->
  let all := concat (map (fun r => left_lines nr d F C r) (zrange 0 nr)) in
  load_edgelist w wide fuel fm nr d =
    Ok (map (fun r => mkEL (map Some (map (back w fm) (left_lines nr d F C r))) (maxl (map (@e_src E) all)) (maxl (map (@e_dst E) all)) (zlen (left_lines nr d F C r))) (zrange 0 nr)).
Proof. intros Hb Hh Hw Hn Hd Hf Ht Hto. exact (text_without_header w wide fm Hb fuel nr d F C T (fun _ => None) Hw Hn (whole_headers w fm d F C T Hd) (fun _ _ => eq_refl) ltac:(congruence) Hf Hh Ht Hto). Qed.
Print Assumptions C83_text_cut_without_header_is_silent.

(** ... and otherwise stores past the end of the array. Leaving out only the newline at the end of the last
    file of a rank is enough for that. *)
Theorem C83_text_torn_line_overflows {E} (w : wtype E) wide fm fuel nr d F C T r p i q : binary fm = false -> header fm = false ->
  cuttable_files w fm d F ->
  1 <= nr -> holds_text_cut w fm d F C T -> enough fuel d F -> 0 <= r < nr -> zlen (left_lines nr d F C r) < 2 ^ 31 ->
  read_by nr d r = p ++ i :: q -> has_digit (T i) -> (forall j, In j q -> firstn (C j) (ef_edges (F j)) = []) ->
  load_edgelist w wide fuel fm nr d = Err OOB.
Proof. intros Hb Hh Hw Hn Hd Hf Hr Ht Eq Hti Hq. exact (text_overflow w wide fm Hb fuel nr d F C T (fun _ => None) Hw Hn (whole_headers w fm d F C T Hd) (fun _ _ => eq_refl) ltac:(congruence) Hf r p i q Hh Hr Ht Eq Hti Hq). Qed.
Print Assumptions C83_text_torn_line_overflows.
(** The weights the theorems speak of: int and unsigned (for float and double see PropsCutFloat.v). *)
Theorem C83_text_number_weights wide v : cuttable (w_int wide) v /\ cuttable (w_uint wide) v.
Proof. exact (conj (w_int_cuttable wide v) (w_uint_cuttable wide v)). Qed.
Print Assumptions C83_text_number_weights.

(** Two ranks wrote two edges and one; the cuts are given as numbers of bytes. *)
Definition c83_w := w_int (fun z => z).
Definition c83_ls : list (list (edge Z)) := [[mkE 1 2 7; mkE 3 1 (-4)]; [mkE 2 2 300]].
Definition c83_els : list (elist Z) := map (fun l => mkEL (map Some l) 3 3 (zlen l)) c83_ls.
Definition c83_cut (h : bool) (k0 k1 : Z) : R dirt :=
  do d <- write_edgelist c83_w (mkFmt true h true) [] c83_els ;;
  Ok (map (fun p => option_map (firstn (Z.to_nat (fst p))) (snd p)) (combine [k0; k1] d)).
Definition c83_load (h : bool) (nr k0 k1 : Z) : R (list (elist Z)) := do d <- c83_cut h k0 k1 ;; load_edgelist c83_w (fun z => z) 8 (mkFmt true h true) nr d.
Example C83_example_loads :
  (* nothing missing *)
  c83_load true 1 36 24 = Ok [mkEL [Some (mkE 1 2 7); Some (mkE 3 1 (-4)); Some (mkE 2 2 300)] 3 3 3] /\
  (* one byte missing in the first file *)
  c83_load true 1 35 24 = Ok [mkEL [Some (mkE 1 2 7); Some (mkE 2 2 300); None] 3 3 3] /\
  c83_load true 2 35 12 = Ok [mkEL [Some (mkE 1 2 7); None] 3 3 2; mkEL [None] 3 3 1] /\
  c83_load true 2 36 11 = Err AssertFail /\
  c83_load false 1 23 12 = Ok [mkEL [Some (mkE 1 2 7); Some (mkE 2 2 300)] 2 2 2] /\
  c83_load false 1 24 11 = Err OOB /\ c83_load false 2 23 12 = Err OOB.
Proof. repeat split; vm_compute; reflexivity. Qed.
(** The hypotheses of the theorems hold in these cases. *)
Example C83_example_hypotheses : exists d' d'',
  write_edgelist c83_w (mkFmt true true true) [] c83_els = Ok d' /\ c83_cut true 35 12 = Ok d'' /\
  interrupted d' d'' (fun i => if i =? 0 then 35 else 12) /\ Forall2 holds c83_els c83_ls /\
  edges_fit c83_w (mkFmt true true true) (concat c83_ls) /\ read_by 1 d'' 0 = [0; 1] /\ enough 8 d'' (written_file c83_els c83_ls) /\
  left_over c83_w (mkFmt true true true) 1 d'' (written_file c83_els c83_ls) (fun i => if i =? 0 then 35 else 12) 0 = [mkE 1 2 7] /\
  torn c83_w (mkFmt true true true) 35.
Proof.
  do 2 eexists. split; [vm_compute; reflexivity|]. split; [vm_compute; reflexivity|]. split; [|split; [|split; [|split; [|split; [|split]]]]].
  - intros i b Hi Hb. unfold file_at in *. destruct (Z.eq_dec i 0) as [->|N]; [injection Hb as <-; eexists; split; [reflexivity|]; split; [cbn; lia|reflexivity]|]. destruct (Z.eq_dec i 1) as [->|N1]; [injection Hb as <-; eexists; split; [reflexivity|]; split; [cbn; lia|reflexivity]|].
    destruct (Z.to_nat i) as [|[|k]] eqn:Ei; try lia. destruct k; discriminate.
  - repeat constructor; exists []; reflexivity.
  - intros e He. cbn in He. repeat (destruct He as [<-|He]; [cbn [e_src e_dst e_val]; split; [unfold is_int; lia|]; split; [unfold is_int; lia|]; apply w_int_ok; unfold is_int; lia|]). destruct He.
  - reflexivity.
  - split; [cbn; lia|]. intros i Hi. change (0 <= i < 2) in Hi. assert (i = 0 \/ i = 1) as [->| ->] by lia; apply Nat.ltb_lt; reflexivity.
  - vm_compute. reflexivity.
  - vm_compute. discriminate.
Qed.
(** "9 9 1\n1 2 57\n" of which "9 9 1\n1 2 5" is there *)
Example C83_example_text : load_edgelist c83_w (fun z => z) 8 (mkFmt false true true) 1 [Some [57; 32; 57; 32; 49; 10; 49; 32; 50; 32; 53]] = Ok [mkEL [Some (mkE 1 2 5)] 9 9 1] /\
  content c83_w (mkFmt false true true) (mkEF 9 9 1 [mkE 1 2 57] true) = [57; 32; 57; 32; 49; 10; 49; 32; 50; 32; 53; 55; 10].
Proof. split; vm_compute; reflexivity. Qed.
(** The same two files in text: "3 3 2\n1 2 7\n3 1 -4\n" and "3 3 1\n2 2 300\n" (without the first lines if
    [h] is false), cut after [k0] and [k1] bytes. *)
Definition c83_tcut (h : bool) (k0 k1 : Z) : R dirt :=
  do d <- write_edgelist c83_w (mkFmt false h true) [] c83_els ;;
  Ok (map (fun p => option_map (firstn (Z.to_nat (fst p))) (snd p)) (combine [k0; k1] d)).
Definition c83_tload (h : bool) (nr k0 k1 : Z) : R (list (elist Z)) := do d <- c83_tcut h k0 k1 ;; load_edgelist c83_w (fun z => z) 8 (mkFmt false h true) nr d.
Example C83_example_text_loads :
  c83_tload true 1 19 14 = Ok [mkEL [Some (mkE 1 2 7); Some (mkE 3 1 (-4)); Some (mkE 2 2 300)] 3 3 3] /\
  (* "3 1 " of the second line: overwritten by the other file, or left as it is *)
  c83_tload true 1 16 14 = Ok [mkEL [Some (mkE 1 2 7); Some (mkE 2 2 300); None] 3 3 3] /\
  c83_tload true 2 16 13 = Ok [mkEL [Some (mkE 1 2 7); None] 3 3 2; mkEL [Some (mkE 2 2 300)] 3 3 1] /\
  c83_tload true 2 16 12 = Ok [mkEL [Some (mkE 1 2 7); None] 3 3 2; mkEL [Some (mkE 2 2 30)] 3 3 1] /\
  c83_tload true 2 19 4 = Err AssertFail /\
  c83_tload false 1 9 8 = Ok [mkEL [Some (mkE 1 2 7); Some (mkE 2 2 300)] 2 2 2] /\
  c83_tload false 1 13 7 = Err OOB /\ c83_tload false 2 12 8 = Err OOB.
Proof. repeat split; vm_compute; reflexivity. Qed.
(** A header whose count, 12, has lost its last digit and the newline: one edge is announced, none is there. *)
Definition c83_F : efile Z := mkEF 9 9 12 (repeat (mkE 1 2 5) 12) true.
Definition c83_short (k : nat) : dirt := [Some (firstn k (content c83_w (mkFmt false true true) c83_F)); Some (content c83_w (mkFmt false true true) (mkEF 9 9 1 [mkE 4 5 6] true))].
Example C83_example_count :
  load_edgelist c83_w (fun z => z) 20 (mkFmt false true true) 1 (c83_short 5) = Ok [mkEL [Some (mkE 4 5 6); None] 9 9 2] /\
  load_edgelist c83_w (fun z => z) 20 (mkFmt false true true) 1 (c83_short 6) = Ok [mkEL (Some (mkE 4 5 6) :: repeat None 12) 9 9 13] /\
  load_edgelist c83_w (fun z => z) 20 (mkFmt false true true) 1 (c83_short 4) = Err AssertFail.
Proof. repeat split; vm_compute; reflexivity. Qed.
Example C83_example_count_hypotheses :
  let F := fun i => if i =? 0 then c83_F else mkEF 9 9 1 [mkE 4 5 6] true in let G := fun i => if i =? 0 then Some 1%nat else None in
  holds_header_cut c83_w (mkFmt false true true) (c83_short 5) F (fun i => if i =? 0 then 0%nat else 1%nat) (fun _ => []) G /\
  map (announced F G) (read_by 1 (c83_short 5) 0) = [1; 1] /\ cuttable_files c83_w (mkFmt false true true) (c83_short 5) F.
Proof.
  cbv zeta. split; [|split; [vm_compute; reflexivity|split; [intros _ _; discriminate|intros _ i b e _ _ _; apply w_int_cuttable]]].
  intros i b Hi Hb. assert (i = 0 \/ i = 1) as [-> | ->].
  { unfold file_at in Hb. destruct (Z.to_nat i) as [|[|k]] eqn:Ei; try lia. cbn in Hb. destruct k; discriminate. }
  - injection Hb as <-. cbn [Z.eqb]. split; [|split; [lia|split; [reflexivity|split; [reflexivity|split; [apply Nat.ltb_lt; vm_compute; reflexivity|vm_compute; reflexivity]]]]].
    split; [split; vm_compute; [discriminate|reflexivity]|]. split; [split; vm_compute; [discriminate|reflexivity]|]. split; [split; vm_compute; [discriminate|reflexivity]|]. split; [discriminate|]. intros e He. apply repeat_spec in He. subst e.
    cbn [e_src e_dst e_val]; split; [unfold is_int; lia|]; split; [unfold is_int; lia|]; apply w_int_ok; unfold is_int; lia.
  - injection Hb as <-. cbn [Z.eqb Pos.eqb]. split; [|split; [cbn; lia|split; [left; reflexivity|vm_compute; reflexivity]]].
    split; [split; vm_compute; [discriminate|reflexivity]|]. split; [split; vm_compute; [discriminate|reflexivity]|]. split; [split; vm_compute; [discriminate|reflexivity]|]. split; [discriminate|]. intros e [<-|[]].
    cbn [e_src e_dst e_val]; split; [unfold is_int; lia|]; split; [unfold is_int; lia|]; apply w_int_ok; unfold is_int; lia.
Qed.
Example C83_example_text_hypotheses : exists d,
  c83_tcut false 9 8 = Ok d /\ holds_text_cut c83_w (mkFmt false false true) d (written_file c83_els c83_ls) (fun _ => 1%nat) (fun i => if i =? 0 then [51; 32; 49] else []) /\
  has_digit [51; 32; 49] /\ read_by 1 d 0 = [] ++ 0 :: [1] /\ enough 8 d (written_file c83_els c83_ls) /\
  left_lines 1 d (written_file c83_els c83_ls) (fun _ => 1%nat) 0 = [mkE 1 2 7; mkE 2 2 300].
Proof.
  eexists. split; [vm_compute; reflexivity|]. split; [|split; [reflexivity|split; [reflexivity|split]]].
  - assert (forall e, In e (concat c83_ls) -> is_int (e_src e) /\ is_int (e_dst e) /\ weight_ok c83_w (mkFmt false false true) (e_val e)) as W.
    { intros e He. cbn in He. repeat (destruct He as [<-|He]; [cbn [e_src e_dst e_val]; split; [unfold is_int; lia|]; split; [unfold is_int; lia|]; apply w_int_ok; unfold is_int; lia|]). destruct He. }
    intros i b Hi Hb. assert (i = 0 \/ i = 1) as [-> | ->].
    { unfold file_at in Hb. destruct (Z.to_nat i) as [|[|k]] eqn:Ei; try lia. destruct k; discriminate. }
    + injection Hb as <-. split; [|split; [apply Nat.leb_le; reflexivity|split; [|reflexivity]]].
      * split; [split; vm_compute; [discriminate|reflexivity]|]. split; [split; vm_compute; [discriminate|reflexivity]|]. split; [split; vm_compute; [discriminate|reflexivity]|]. split; [discriminate|]. intros e He. apply W. cbn in *. tauto.
      * right. exists (mkE 3 1 (-4)), [32; 45; 52; 10]. split; [reflexivity|]. split; [discriminate|reflexivity].
    + injection Hb as <-. split; [|split; [apply Nat.leb_le; reflexivity|split; [left; reflexivity|reflexivity]]].
      split; [split; vm_compute; [discriminate|reflexivity]|]. split; [split; vm_compute; [discriminate|reflexivity]|]. split; [split; vm_compute; [discriminate|reflexivity]|]. split; [discriminate|]. intros e He. apply W. cbn in *. tauto.
  - split; [cbn; lia|]. intros i Hi. change (0 <= i < 2) in Hi. assert (i = 0 \/ i = 1) as [-> | ->] by lia; apply Nat.ltb_lt; reflexivity.
  - vm_compute. reflexivity.
Qed.
