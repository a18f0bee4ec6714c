(** * Edge files: what writing and loading them does *)
From Verif Require Import Base BaseLemmas ListLemmas DCSC EdgeList EdgeSpec Apps FileIO FileSpec FileProofs FileFinal FileClaims.

(** ** C46 *)
(** Every rank of a run writes its edge list [ls_i]; afterwards [nr] ranks load the files (no file of a
    higher number is in the way). Rank r gets the edges of the files i with i mod nr = r, in order, the
    same as were written (with the weight 1 if the files carry no weights). With a header the dimensions
    are the largest of the written ones, without it the largest ids. Stated for every format whose
    encoding of a weight can be decoded; the numbers are 32-bit. *)
Theorem C46_binary_round_trip {E} (w : wtype E) wide fm d els ls nr :
  binary fm = true -> Forall2 holds els ls ->
  (forall el, In el els -> is_int (el_m el) /\ is_int (el_n el)) ->
  (forall e, In e (concat ls) -> is_int (e_src e) /\ is_int (e_dst e) /\
     (weights fm = true -> length (w_enc w (e_val e)) = w_size w /\ w_dec w (w_enc w (e_val e)) = e_val e)) ->
  zlen (concat ls) < 2 ^ 31 -> 1 <= nr -> (forall i, zlen els <= i -> file_at d i = None) ->
  exists d', write_edgelist w fm d els = Ok d' /\ exists f0, forall fuel, (f0 <= fuel)%nat ->
    let m := if header fm then maxl (map (@el_m E) els) else maxl (map (@e_src E) (concat ls)) in
    let n := if header fm then maxl (map (@el_n E) els) else maxl (map (@e_dst E) (concat ls)) in
    load_edgelist w wide fuel fm nr d' =
      Ok (map (fun r => mkEL (map Some (map (back w fm) (dealt nr ls r))) m n (zlen (dealt nr ls r))) (zrange 0 nr)).
Proof.
  intros Hb Hh Hd He. apply (round_trip w wide fm d els ls nr); auto; [intros X; congruence|].
  intros e Ie. destruct (He e Ie) as (H1 & H2 & H3). split; [auto|]. split; [auto|]. unfold weight_ok. rewrite Hb. destruct (weights fm); auto.
Qed.
Print Assumptions C46_binary_round_trip.
(** All ranks together get every written edge once. *)
Theorem C46_no_edge_lost {E} nr (ls : list (list (edge E))) : 1 <= nr ->
  Permutation (concat (map (dealt nr ls) (zrange 0 nr))) (concat ls).
Proof. exact (dealt_perm (fun z => z) nr ls). Qed.
Print Assumptions C46_no_edge_lost.
(** Files left over from a run with more ranks are loaded too: the result is that of all the files present. *)
Theorem C46_load_reads_what_is_there {E} (w : wtype E) wide fm fuel nr d F :
  supported w fm -> 1 <= nr -> holds_files w fm d F -> enough fuel d F -> (forall i, ef_newline (F i) = true) ->
  (forall i, ef_count (F i) = zlen (ef_edges (F i))) ->
  (forall r, 0 <= r < nr -> zlen (concat (map (@ef_edges E) (map F (read_by nr d r)))) < 2 ^ 31) ->
  exists els, load_edgelist w wide fuel fm nr d = Ok els /\ forall r, 0 <= r < nr -> exists el, rd els r = Ok el /\
    el_arr el = map Some (map (back w fm) (concat (map (@ef_edges E) (map F (read_by nr d r))))) /\
    el_nnz el = zlen (concat (map (@ef_edges E) (map F (read_by nr d r)))).
Proof. exact (load_complete w wide fm fuel nr d F). Qed.
Print Assumptions C46_load_reads_what_is_there.

Definition c46_l : list (list (edge Z)) := [[mkE 1 2 7; mkE 3 1 (-4)]; []; [mkE 2 2 300]].
Definition c46_els : list (elist Z) := map (fun l => mkEL (map Some l) 3 3 (zlen l)) c46_l.
Definition c46_fm : fmt := mkFmt true true true.
Example C46_example :
  (exists d', write_edgelist (w_int (fun z => z)) c46_fm [] c46_els = Ok d' /\
    load_edgelist (w_int (fun z => z)) (fun z => z) 8 c46_fm 2 d' =
      Ok [mkEL [Some (mkE 1 2 7); Some (mkE 3 1 (-4)); Some (mkE 2 2 300)] 3 3 3; mkEL [] 3 3 0]) /\
  Forall2 holds c46_els c46_l /\ (forall e, In e (concat c46_l) -> is_int (e_src e) /\ is_int (e_dst e) /\ is_int (e_val e)).
Proof.
  split; [|split].
  - eexists. split; [vm_compute; reflexivity|vm_compute; reflexivity].
  - repeat constructor; exists []; reflexivity.
  - cbn. intros e [<-|[<-|[<-|[]]]]; unfold is_int; cbn; lia.
Qed.

(** ** C47 *)
(** The same for text files of int weights (or none). *)
Theorem C47_text_round_trip wide fm d (els : list (elist Z)) ls nr :
  binary fm = false -> Forall2 holds els ls ->
  (forall el, In el els -> is_int (el_m el) /\ is_int (el_n el)) ->
  (forall e, In e (concat ls) -> is_int (e_src e) /\ is_int (e_dst e) /\ is_int (e_val e)) ->
  zlen (concat ls) < 2 ^ 31 -> 1 <= nr -> (forall i, zlen els <= i -> file_at d i = None) ->
  exists d', write_edgelist (w_int wide) fm d els = Ok d' /\ exists f0, forall fuel, (f0 <= fuel)%nat ->
    let m := if header fm then maxl (map (@el_m Z) els) else maxl (map (@e_src Z) (concat ls)) in
    let n := if header fm then maxl (map (@el_n Z) els) else maxl (map (@e_dst Z) (concat ls)) in
    load_edgelist (w_int wide) wide fuel fm nr d' =
      Ok (map (fun r => mkEL (map Some (map (fun e => if weights fm then e else mkE (e_src e) (e_dst e) 1) (dealt nr ls r))) m n (zlen (dealt nr ls r))) (zrange 0 nr)).
Proof.
  intros Hb Hh Hd He. apply (round_trip (w_int wide) wide fm d els ls nr); auto; [intros _ _; discriminate|].
  intros e Ie. destruct (He e Ie) as (H1 & H2 & H3). auto using w_int_ok.
Qed.
Print Assumptions C47_text_round_trip.
(** ... and of unsigned weights. *)
Theorem C47_text_round_trip_unsigned wide fm d (els : list (elist Z)) ls nr :
  binary fm = false -> Forall2 holds els ls ->
  (forall el, In el els -> is_int (el_m el) /\ is_int (el_n el)) ->
  (forall e, In e (concat ls) -> is_int (e_src e) /\ is_int (e_dst e) /\ 0 <= e_val e < 2 ^ 32) ->
  zlen (concat ls) < 2 ^ 31 -> 1 <= nr -> (forall i, zlen els <= i -> file_at d i = None) ->
  exists d', write_edgelist (w_uint wide) fm d els = Ok d' /\ exists f0, forall fuel, (f0 <= fuel)%nat ->
    let m := if header fm then maxl (map (@el_m Z) els) else maxl (map (@e_src Z) (concat ls)) in
    let n := if header fm then maxl (map (@el_n Z) els) else maxl (map (@e_dst Z) (concat ls)) in
    load_edgelist (w_uint wide) wide fuel fm nr d' =
      Ok (map (fun r => mkEL (map Some (map (fun e => if weights fm then e else mkE (e_src e) (e_dst e) 1) (dealt nr ls r))) m n (zlen (dealt nr ls r))) (zrange 0 nr)).
Proof.
  intros Hb Hh Hd He. apply (round_trip (w_uint wide) wide fm d els ls nr); auto; [intros _ _; discriminate|].
  intros e Ie. destruct (He e Ie) as (H1 & H2 & H3). auto using w_uint_ok.
Qed.
Print Assumptions C47_text_round_trip_unsigned.
(** A last line without newline. (1) With a (correct) header it is harmless in the last file each rank reads. *)
Theorem C47_unended_last_line_with_header {E} (w : wtype E) wide fm fuel nr d F :
  supported w fm -> 1 <= nr -> header fm = true -> holds_files w fm d F -> enough fuel d F ->
  (forall i, ef_count (F i) = zlen (ef_edges (F i))) ->
  (forall r, 0 <= r < nr -> zlen (concat (map (@ef_edges E) (map F (read_by nr d r)))) < 2 ^ 31) ->
  (forall r, 0 <= r < nr -> forall i, In i (removelast (read_by nr d r)) -> ef_newline (F i) = true) ->
  exists els, load_edgelist w wide fuel fm nr d = Ok els /\ forall r, 0 <= r < nr -> exists el, rd els r = Ok el /\
    el_arr el = map Some (map (back w fm) (concat (map (@ef_edges E) (map F (read_by nr d r))))) /\
    el_nnz el = zlen (concat (map (@ef_edges E) (map F (read_by nr d r)))).
Proof. exact (last_unended_ok w wide fm fuel nr d F). Qed.
Print Assumptions C47_unended_last_line_with_header.
(** (2) In a file [i] that the same rank reads before files with more lines, exactly that edge [e] is lost;
    with a header the list then also counts one more edge than were stored, the last being uninitialised. *)
Theorem C47_unended_inner_line_lost {E} (w : wtype E) wide fm fuel nr d F r p i q l e :
  supported w fm -> 1 <= nr -> holds_files w fm d F -> enough fuel d F ->
  (forall i, ef_count (F i) = zlen (ef_edges (F i))) ->
  (forall r, 0 <= r < nr -> zlen (concat (map (@ef_edges E) (map F (read_by nr d r)))) < 2 ^ 31) ->
  0 <= r < nr -> read_by nr d r = p ++ i :: q -> ef_newline (F i) = false -> ef_edges (F i) = l ++ [e] ->
  concat (map (@ef_edges E) (map F q)) <> [] -> (forall k, k <> i -> ef_newline (F k) = true) ->
  ~ In i p -> ~ In i q -> (forall r', 0 <= r' < nr -> r' <> r -> ~ In i (read_by nr d r')) ->
  let rest := concat (map (@ef_edges E) (map F p)) ++ l ++ concat (map (@ef_edges E) (map F q)) in
  exists els el, load_edgelist w wide fuel fm nr d = Ok els /\ rd els r = Ok el /\
    el_arr el = map Some (map (back w fm) rest) ++ (if header fm then [None] else []) /\
    el_nnz el = zlen rest + (if header fm then 1 else 0).
Proof. exact (inner_unended w wide fm fuel nr d F r p i q l e). Qed.
Print Assumptions C47_unended_inner_line_lost.
(** (3) Without a header, in the last file a rank reads, the edge is stored past the end of the buffer. *)
Theorem C47_unended_last_line_overflows {E} (w : wtype E) wide fm fuel nr d F r p i l e :
  supported w fm -> 1 <= nr -> header fm = false -> holds_files w fm d F -> enough fuel d F ->
  0 <= r < nr -> zlen (concat (map (@ef_edges E) (map F (read_by nr d r)))) < 2 ^ 31 -> read_by nr d r = p ++ [i] ->
  ef_newline (F i) = false -> ef_edges (F i) = l ++ [e] -> (forall k, In k p -> ef_newline (F k) = true) ->
  load_edgelist w wide fuel fm nr d = Err OOB.
Proof. exact (last_unended_oob w wide fm fuel nr d F r p i l e). Qed.
Print Assumptions C47_unended_last_line_overflows.

(** "1 2 5\n3 4 6" without final newline, then a second file "5 6 7\n" *)
Definition c47_1 : list Z := [49; 32; 50; 32; 53; 10; 51; 32; 52; 32; 54].
Definition c47_2 : list Z := [53; 32; 54; 32; 55; 10].
Definition c47_F (i : Z) : efile Z := if i =? 0 then mkEF 9 9 2 [mkE 1 2 5; mkE 3 4 6] false else mkEF 9 9 1 [mkE 5 6 7] true.
Definition c47_fm : fmt := mkFmt false false true.
Definition c47_w := w_int (fun z => z).
Example C47_example_files :
  supported c47_w c47_fm /\ holds_files c47_w c47_fm [Some c47_1; Some c47_2] c47_F /\ enough 8 [Some c47_1; Some c47_2] c47_F /\
  read_by 1 [Some c47_1; Some c47_2] 0 = [0; 1] /\ (forall i, ef_count (c47_F i) = zlen (ef_edges (c47_F i))) /\
  concat (map (@ef_edges Z) (map c47_F [1])) <> [].
Proof.
  split; [discriminate|]. split; [|split; [|split; [reflexivity|split; [|discriminate]]]].
  - assert (forall i, fits c47_w c47_fm (c47_F i)) as HF.
    { intros i. unfold c47_F. destruct (i =? 0); (split; [cbn; unfold is_int; lia|]); (split; [cbn; unfold is_int; lia|]); (split; [cbn; unfold is_int; lia|]); (split; [discriminate|]); cbn [ef_edges]; intros e He; cbn in He; repeat (destruct He as [<-|He]; [cbn [e_src e_dst e_val]; split; [unfold is_int; lia|]; split; [unfold is_int; lia|]; apply w_int_ok; unfold is_int; lia|]); destruct He. }
    intros i b Hi Hb. split; [|apply HF]. unfold file_at in Hb. destruct (Z.eq_dec i 0) as [->|N]; [injection Hb as <-; reflexivity|]. destruct (Z.eq_dec i 1) as [->|N1]; [injection Hb as <-; reflexivity|].
    destruct (Z.to_nat i) as [|[|[|k]]] eqn:Ei; cbn in Hb; try lia; discriminate.
  - split; [cbn; lia|]. intros i _. unfold c47_F. destruct (i =? 0); cbn; lia.
  - intros i. unfold c47_F. destruct (i =? 0); reflexivity.
Qed.
Example C47_example :
  load_edgelist c47_w (fun z => z) 8 c47_fm 1 [Some c47_1; Some c47_2] = Ok [mkEL [Some (mkE 1 2 5); Some (mkE 5 6 7)] 5 6 2] /\
  load_edgelist c47_w (fun z => z) 8 c47_fm 1 [Some c47_1] = Err OOB /\
  (* the same with headers "9 9 2\n" and "9 9 1\n" *)
  (let h n f := [57; 32; 57; 32; n; 10] ++ f in
   load_edgelist c47_w (fun z => z) 8 (mkFmt false true true) 1 [Some (h 50 c47_1); Some (h 49 c47_2)] = Ok [mkEL [Some (mkE 1 2 5); Some (mkE 5 6 7); None] 9 9 3] /\
   load_edgelist c47_w (fun z => z) 8 (mkFmt false true true) 1 [Some (h 50 c47_1)] = Ok [mkEL [Some (mkE 1 2 5); Some (mkE 3 4 6)] 9 9 2]).
Proof. split; [vm_compute; reflexivity|]. split; [vm_compute; reflexivity|]. split; vm_compute; reflexivity. Qed.

(** ** C48 *)
(** The header counts are trusted. [lines r] are the edges in the files rank r reads, [total r] the sum of
    the counts in their headers (as a C int). *)
Theorem C48_header_exact {E} (w : wtype E) wide fm fuel nr d F :
  supported w fm -> 1 <= nr -> header fm = true -> holds_files w fm d F -> enough fuel d F -> (forall i, ef_newline (F i) = true) ->
  let lines r := concat (map (@ef_edges E) (map F (read_by nr d r))) in
  let total r := i32 (fold_right Z.add 0 (map (@ef_count E) (map F (read_by nr d r)))) in
  ((forall r, 0 <= r < nr -> zlen (lines r) <= Z.max 0 (total r)) ->
    exists els, load_edgelist w wide fuel fm nr d = Ok els /\ zlen els = nr /\ forall r, 0 <= r < nr ->
      exists el, rd els r = Ok el /\ el_nnz el = total r /\
        el_arr el = map Some (map (back w fm) (lines r)) ++ repeat None (Z.to_nat (total r - zlen (lines r)))) /\
  ((exists r, 0 <= r < nr /\ Z.max 0 (total r) < zlen (lines r)) -> load_edgelist w wide fuel fm nr d = Err OOB).
Proof. exact (header_exact w wide fm fuel nr d F). Qed.
Print Assumptions C48_header_exact.
(** The load goes well, giving every rank a list all of whose edges are initialised, exactly when on every
    rank the counts add up to the number of edges. *)
Theorem C48_safe_iff_counts_right {E} (w : wtype E) wide fm fuel nr d F :
  supported w fm -> 1 <= nr -> header fm = true -> holds_files w fm d F -> enough fuel d F -> (forall i, ef_newline (F i) = true) ->
  (exists els, load_edgelist w wide fuel fm nr d = Ok els /\ forall el, In el els -> exists l, holds el l) <->
  (forall r, 0 <= r < nr -> i32 (fold_right Z.add 0 (map (@ef_count E) (map F (read_by nr d r)))) = zlen (concat (map (@ef_edges E) (map F (read_by nr d r))))).
Proof. exact (header_safe_iff w wide fm fuel nr d F). Qed.
Print Assumptions C48_safe_iff_counts_right.
(** "9 9 2\n1 2 5\n" (too many announced), "9 9 0\n1 2 5\n" (too few) *)
Example C48_example :
  load_edgelist c47_w (fun z => z) 8 (mkFmt false true true) 1 [Some [57; 32; 57; 32; 50; 10; 49; 32; 50; 32; 53; 10]] = Ok [mkEL [Some (mkE 1 2 5); None] 9 9 2] /\
  load_edgelist c47_w (fun z => z) 8 (mkFmt false true true) 1 [Some [57; 32; 57; 32; 48; 10; 49; 32; 50; 32; 53; 10]] = Err OOB /\
  content c47_w (mkFmt false true true) (mkEF 9 9 2 [mkE 1 2 5] true) = [57; 32; 57; 32; 50; 10; 49; 32; 50; 32; 53; 10].
Proof. split; [vm_compute; reflexivity|]. split; vm_compute; reflexivity. Qed.

(** ** C65 *)
(** Text files with a header and weights of a type other than int, unsigned, float and double: if there is
    a file at all, the load never comes to an end, whatever follows the header. *)
Theorem C65_other_weight_types_never_finish {E} (w : wtype E) wide fm nr d :
  binary fm = false -> weights fm = true -> header fm = true -> w_text w = None -> 1 <= nr -> file_at d 0 <> None ->
  (forall i b, file_at d i = Some b -> exists m n c rest, is_int m /\ is_int n /\ is_int c /\ b = header_bytes fm m n c ++ rest) ->
  forall fuel, load_edgelist w wide fuel fm nr d = Err NoFuel.
Proof. intros. apply (text_untyped_stuck w wide fm nr d fuel); auto. Qed.
Print Assumptions C65_other_weight_types_never_finish.
(** What write_edgelist writes for such a type has the header and nothing else. *)
Theorem C65_other_weight_types_write_no_edges {E} (w : wtype E) fm (el : elist E) l :
  binary fm = false -> weights fm = true -> w_text w = None -> holds el l ->
  write_bytes w fm el = Ok (header_bytes fm (el_m el) (el_n el) (el_nnz el)).
Proof. exact (text_untyped_written w (fun z => z) fm el l). Qed.
Print Assumptions C65_other_weight_types_write_no_edges.
Definition c65_w : wtype Z := mkW 8 (fun z => enc32 z ++ enc32 0) dec32 1 None.
Example C65_example :
  exists b, write_bytes c65_w (mkFmt false true true) (mkEL [Some (mkE 1 2 5)] 9 9 1) = Ok b /\ b = [57; 32; 57; 32; 49; 10] /\
    file_at [Some b] 0 <> None /\ load_edgelist c65_w (fun z => z) 50 (mkFmt false true true) 1 [Some b] = Err NoFuel.
Proof. eexists. split; [vm_compute; reflexivity|]. split; [reflexivity|]. split; [discriminate|vm_compute; reflexivity]. Qed.
