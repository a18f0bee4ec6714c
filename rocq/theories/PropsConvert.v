(** C60: the converter of graph files. *)
From Coq Require Import QArith.
From Verif Require Import Base BaseLemmas DCSC EdgeList EdgeSpec EdgeFinal Apps FileIO FileSpec FileProofs MatSpec SpMat Graph GraphOps GraphHist GraphBin Convert ConvertSpec ConvertProofs.
From Verif Require Import PropsMat PropsRun.
Open Scope Z_scope.

(** For all options and all inputs that are a graph ([input_is]: edge files in the chosen format, or
    GraphMat files written with as many ranks and threads) with [n] vertices and edges [es]: the
    conversion ends normally, and the files then contain, distributed over the ranks, edges that
    result from [es] by the selected steps ([converted], [output_is]). *)
Theorem C60_conversion {E byte} (w : wtype E) wide (m : machine Z E byte) dv srt fl cast rmax rndw rnd fuel o din gin dout gout n es :
  machine_ok m -> 0 <= n -> input_is w m fuel o din gin n es ->
  (forall e, In e es -> 1 <= e_src e <= n /\ 1 <= e_dst e <= n) -> 2 * zlen es < 2 ^ 31 ->
  (o_outputedgeweights o = 3 -> 1 <= o_random_range o) -> (forall r, sorts_ends (srt r)) -> (forall i, 0 <= rnd i) ->
  exists parts dout' gout', process_graph w wide m dv srt fl cast rmax rndw rnd fuel o din gin dout gout = Ok (dout', gout') /\
    converted cast o n es (concat parts) /\ output_is w m dv o n parts dout gout dout' gout'.
Proof.
  intros Hm Hn HI HR HL. apply (converter_ok w wide m dv srt fl cast rmax rndw rnd fuel n Hm Hn o din gin es dout gout HI HR).
  pose proof (zlen_nonneg es). lia.
Qed.
Print Assumptions C60_conversion.

(** Options are refused, before anything is read or written, unless they are [acceptable]. *)
Theorem C60_refused_options o :
  (acceptable o -> forall A (process : Z -> R A), converter_main o process = Ran (process (o_edgeweighttype o))) /\
  (~ acceptable o -> exists e, forall A (process : Z -> R A), converter_main o process = Refused e).
Proof. exact (refused o). Qed.
Print Assumptions C60_refused_options.

(** A vertex count smaller than what the files need stops the converter before it writes. *)
Theorem C60_too_few_vertices {E byte} (w : wtype E) wide (m : machine Z E byte) dv srt fl cast rmax rndw rnd fuel o din gin dout gout fs :
  machine_ok m -> (o_inputformat o = 0 \/ o_inputformat o = 1) -> edge_files w m fuel o din fs -> zlen (file_edges w o fs) < 2 ^ 31 ->
  0 < o_nvertices o < largest (in_format o) fs ->
  process_graph w wide m dv srt fl cast rmax rndw rnd fuel o din gin dout gout = Err AssertFail.
Proof. exact (fun Hm => small_nvertices w wide m dv srt fl cast rmax rndw rnd fuel 0 Hm o din gin fs dout gout). Qed.
Print Assumptions C60_too_few_vertices.

(** "--outputedgeweights 2" (documented: unit weights) does the same as 1, and with it, as with every
    value but 3, each weight written is the weight of an edge of the input. *)
Theorem C60_unit_weights_are_not_created {E byte} (w : wtype E) wide (m : machine Z E byte) dv srt fl cast rmax rndw rnd fuel o din gin dout gout :
  process_graph w wide m dv srt fl cast rmax rndw rnd fuel (with_weights o 2) din gin dout gout =
  process_graph w wide m dv srt fl cast rmax rndw rnd fuel (with_weights o 1) din gin dout gout.
Proof. exact (unit_weights w wide m dv srt fl cast rmax rndw rnd fuel o din gin dout gout). Qed.
Print Assumptions C60_unit_weights_are_not_created.
Theorem C60_weights_kept {E} (cast : Q -> E) o n es out : o_outputedgeweights o <> 3 -> converted cast o n es out ->
  forall e, In e out -> exists e0, In e0 es /\ e_val e = e_val e0.
Proof. exact (weights_kept cast o n es out). Qed.
Print Assumptions C60_weights_kept.

(** Two ranks read three binary files of unsigned weights; loops and duplicates are removed, edges
    doubled, vertices renamed; the output is text, over an old file of number 0 and one of number 2. *)
Definition c60_o : options := mkO 0 0 0 1 0 1 1 0 1 2 0 0 128 1 1.
Definition c60_l : list (list (edge Z)) := [[mkE 1 2 7; mkE 3 1 40]; [mkE 2 2 5]; [mkE 2 1 300; mkE 4 3 1]].
Definition c60_F (i : Z) : efile Z := match rd c60_l i with Ok l => mkEF 4 4 (zlen l) l true | _ => mkEF 0 0 0 [] true end.
Definition c60_w := w_uint (fun z => z).
Definition c60_din : dirt := map (fun i => Some (content c60_w (mkFmt true true true) (c60_F i))) [0; 1; 2].
Definition c60_run := process_graph c60_w (fun z => z) (exm 2 3 false) 0 (fun _ => esort) (fun q => q) (fun _ => 0) 100 (fun _ _ => 0) (fun i => 2 * i + 1) 10 c60_o c60_din (fun _ => None) [Some [65]; None; Some [66]] (fun _ => None).
Example C60_example_input : input_is c60_w (exm 2 3 false) 10 c60_o c60_din (fun _ => None) 4 (concat [[mkE 1 2 7; mkE 3 1 40; mkE 2 1 300; mkE 4 3 1]; [mkE 2 2 5]]).
Proof.
  exists (files_read (exm 2 3 false) c60_din c60_F). split; [|split; [reflexivity|split; [vm_compute; discriminate|reflexivity]]].
  exists c60_F. split; [discriminate|]. split; [|split; [|split; [|split; [|reflexivity]]]].
  - assert (forall i, In i [0; 1; 2] -> FileSpec.fits c60_w (in_format c60_o) (c60_F i)) as HF.
    { intros i Hi. assert (forall l, In l c60_l -> FileSpec.fits c60_w (in_format c60_o) (mkEF 4 4 (zlen l) l true)) as G.
      { intros l Hl. split; [unfold is_int; cbn; lia|]. split; [unfold is_int; cbn; lia|]. split; [destruct Hl as [<-|[<-|[<-|[]]]]; unfold is_int; cbn; lia|]. split; [auto|].
        intros e He. assert (In e (concat c60_l)) as Hc by (apply in_concat; eauto). cbn in Hc. intuition (subst e; unfold is_int; cbn; try lia; auto). }
      destruct Hi as [<-|[<-|[<-|[]]]]; apply G; cbn; auto. }
    intros i b Hi Hb. assert (i = 0 \/ i = 1 \/ i = 2) as Hi3.
    { unfold file_at in Hb. destruct (Z.to_nat i) as [|[|[|k]]] eqn:Ek; try lia. cbn [c60_din map nth_error] in Hb. destruct k; discriminate. }
    change (in_format c60_o) with (mkFmt true true true) in *.
    destruct Hi3 as [-> |[-> | ->]]; (split; [injection Hb as <-; reflexivity|apply HF; cbn; auto]).
  - split; [cbn; lia|]. intros i Hi. change (zlen c60_din) with 3 in Hi. assert (i = 0 \/ i = 1 \/ i = 2) as Hi3 by lia. destruct Hi3 as [-> |[-> | ->]]; apply Nat.ltb_lt; vm_compute; reflexivity.
  - intros i. unfold c60_F. destruct (rd c60_l i); reflexivity.
  - intros i. unfold c60_F. destruct (rd c60_l i); reflexivity.
Qed.
Definition c60_out (d : dirt) (i : Z) : option (list (option (edge Z))) :=
  match file_at d i with
  | Some b => match load_edgelist c60_w (fun z => z) 20 (mkFmt false false true) 1 [Some b] with Ok [el] => Some (el_arr el) | _ => None end
  | None => None
  end.
Example C60_example_run : match c60_run with
  | Ok (d, _) => c60_out d 0 = Some [Some (mkE 2 3 7); Some (mkE 2 4 40); Some (mkE 4 2 40); Some (mkE 4 1 1)] /\
      c60_out d 1 = Some [Some (mkE 3 2 7); Some (mkE 1 4 1)] /\ file_at d 2 = Some [66] /\ file_at d 3 = None
  | _ => False end.
Proof. vm_compute. auto. Qed.
Example C60_example_options : acceptable c60_o /\ ~ acceptable (mkO 0 0 1 1 0 1 1 0 1 2 0 0 128 1 1) /\ ~ acceptable (mkO 0 0 0 1 0 1 1 0 0 1 0 0 128 1 1) /\ acceptable initOptions.
Proof. unfold acceptable. cbn. repeat split; try lia; intros H; lia. Qed.
