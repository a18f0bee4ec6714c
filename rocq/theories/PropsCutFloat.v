(** * Text edge files of float and double weights that were cut short *)
From Coq Require Import ZArith SpecFloat QArith.
From Verif Require Import Base BaseLemmas ListLemmas DCSC EdgeList EdgeSpec Apps FileIO FileSpec FileFinal FileCutSpec FileCutTextClaims Float32 Double64 FloatText FloatTextScan FloatTextSpec FloatTextProofs FloatCut PropsCut.
Local Open Scope Z_scope.

(** ** C83 *)
(** What [C83_text_cut_with_header] and the other theorems on text files ask of the weights holds of all finite floats
    and doubles. *)
Theorem C83_text_float_weights other v :
  (finite32 v -> cuttable (w_float other) v) /\ (finite64 v -> cuttable (w_double other) v).
Proof. exact (conj (float_cuttable other v) (double_cuttable other v)). Qed.
Print Assumptions C83_text_float_weights.

(** A file of float weights is, byte for byte, the file of the weights that can be read back from it ([f v] for [v],
    as in C84), and that one fits the format. So those theorems say of every text file of finite weights, cut
    anywhere, that its complete lines come back with the weights [f v]. *)
Theorem C83_text_float_files : exists f, through_text finite32 8 (1 # 8) f /\ forall other fm F,
  binary fm = false -> weights fm = true -> is_int (ef_m F) -> is_int (ef_n F) -> is_int (ef_count F) ->
  (forall e, In e (ef_edges F) -> is_int (e_src e) /\ is_int (e_dst e) /\ finite32 (e_val e)) ->
  let F' := mkEF (ef_m F) (ef_n F) (ef_count F) (map (reweigh f) (ef_edges F)) (ef_newline F) in
  content (w_float other) fm F' = content (w_float other) fm F /\ fits (w_float other) fm F' /\
  forall e, In e (ef_edges F') -> cuttable (w_float other) (e_val e).
Proof.
  exists (reread 24 128 8). split; [exact through32|]. intros other fm F Hb Hw.
  exact (float_file (w_float other) fm (reread 24 128 8) finite32 (print_f 8) (scan_f 24 128 other) Hb Hw eq_refl print32 (fun v => text_ok32 other fm v Hb)
    (fun v Hv => proj1 (tt_near _ _ _ _ through32 v Hv)) (float_cuttable other) F).
Qed.
Print Assumptions C83_text_float_files.
Theorem C83_text_double_files : exists f, through_text finite64 15 8 f /\ forall other fm F,
  binary fm = false -> weights fm = true -> is_int (ef_m F) -> is_int (ef_n F) -> is_int (ef_count F) ->
  (forall e, In e (ef_edges F) -> is_int (e_src e) /\ is_int (e_dst e) /\ finite64 (e_val e)) ->
  let F' := mkEF (ef_m F) (ef_n F) (ef_count F) (map (reweigh f) (ef_edges F)) (ef_newline F) in
  content (w_double other) fm F' = content (w_double other) fm F /\ fits (w_double other) fm F' /\
  forall e, In e (ef_edges F') -> cuttable (w_double other) (e_val e).
Proof.
  exists (reread 53 1024 15). split; [exact through64|]. intros other fm F Hb Hw.
  exact (float_file (w_double other) fm (reread 53 1024 15) finite64 (print_f 15) (scan_f 53 1024 other) Hb Hw eq_refl print64 (fun v => text_ok64 other fm v Hb)
    (fun v Hv => proj1 (tt_near _ _ _ _ through64 v Hv)) (double_cuttable other) F).
Qed.
Print Assumptions C83_text_double_files.

(** "9 9 2\n1 2 0.50000000\n2 1 0.10000000\n", cut in the second weight after "0.1", after "0.", and after "2 1 ": the
    torn line is taken for the whole one, or changes to the weight 0, or is lost. *)
Definition c83_half := S754_finite false 8388608 (-24).
Definition c83_tenth := S754_finite false 13421773 (-27).
Definition c83_ff : efile spec_float := mkEF 9 9 2 [mkE 1 2 c83_half; mkE 2 1 c83_tenth] true.
Definition c83_fcut (k : nat) : dirt := [Some (firstn k (content (w_float (fun f => (None, f))) (mkFmt false true true) c83_ff))].
Example C83_example_floats :
  map (fun k => load_edgelist (w_float (fun f => (None, f))) (fun z => z) 8 (mkFmt false true true) 1 (c83_fcut k)) [28; 27; 25]%nat =
    [Ok [mkEL [Some (mkE 1 2 c83_half); Some (mkE 2 1 c83_tenth)] 9 9 2];
     Ok [mkEL [Some (mkE 1 2 c83_half); Some (mkE 2 1 (S754_zero false))] 9 9 2];
     Ok [mkEL [Some (mkE 1 2 c83_half); None] 9 9 2]] /\
  (forall e, In e (ef_edges c83_ff) -> is_int (e_src e) /\ is_int (e_dst e) /\ finite32 (e_val e)).
Proof.
  split; [vm_compute; reflexivity|]. intros e He. cbn in He. destruct He as [<-|[<-|[]]]; cbn [e_src e_dst e_val]; (split; [unfold is_int; lia|]); (split; [unfold is_int; lia|]); split; reflexivity || exact I.
Qed.
