(** Properties C36-C45, C72: the edge list utilities (include/GMDP/utils/edgelist.h and
    include/GMDP/utils/edgelist_transformation.h).  [holds el l]: the edge list [el] contains
    exactly the edges [l], in this order (EdgeSpec.v). *)
From Coq Require Import QArith Qround Sorting.Sorted Lia.
From Verif Require Import BaseLemmas DCSC EdgeList EdgeSpec EdgeListProofs ShuffleProofs EdgeListProofs2 EdgeFinal DimProofs.
Open Scope Z_scope.

(** C36 *)
Theorem C36_remove_selfedges {E} (el : elist E) l : holds el l ->
  exists el', remove_selfedges el = Ok el' /\ holds el' (filter (fun e => negb (e_src e =? e_dst e)) l) /\ same_dims el' el.
Proof. exact (remove_selfedges_spec el l). Qed.
Print Assumptions C36_remove_selfedges.

Definition sample : list (edge Z) := [mkE 3 1 10; mkE 2 2 20; mkE 1 3 30; mkE 3 1 40; mkE 4 3 50].
Definition sample_el : elist Z := mkEL (map Some sample ++ [None]) 4 4 5.
Example sample_holds : holds sample_el sample.
Proof. split; [reflexivity|]. exists [None]. reflexivity. Qed.
Example C36_example : exists el', remove_selfedges sample_el = Ok el' /\ holds el' [mkE 3 1 10; mkE 1 3 30; mkE 3 1 40; mkE 4 3 50].
Proof. destruct (C36_remove_selfedges _ _ sample_holds) as (el' & E1 & E2 & _). exists el'. split; auto. Qed.

(** C37.  For every number of ranks and threads and every outcome of the sorts: over all ranks
    together no pair of endpoints twice, every edge one of the given edges (with its weight),
    and every given pair present. *)
Theorem C37_remove_duplicate_edges {E} nt (srt : Z -> list (edge E) -> list (edge E)) els ls :
  1 <= nt -> 1 <= zlen els -> (forall r, sorts_ends (srt r)) -> all_hold els ls -> (forall l e, In l ls -> In e l -> 1 <= e_src e) ->
  exists els' ls', remove_duplicate_edges nt srt els = Ok els' /\ all_hold els' ls' /\ Forall2 same_dims els' els /\
    NoDup (map ends (concat ls')) /\ (forall e, In e (concat ls') -> In e (concat ls)) /\
    (forall e, In e (concat ls) -> In (ends e) (map ends (concat ls'))).
Proof. exact (remove_dup_spec nt srt els ls). Qed.
Print Assumptions C37_remove_duplicate_edges.

(** ... and which weight survives is not determined: two correct sorts, two results. *)
Theorem C37_kept_weight_not_determined : exists (srt1 srt2 : list (edge Z) -> list (edge Z)) el r1 r2 l1 l2,
  sorts_ends srt1 /\ sorts_ends srt2 /\
  remove_duplicate_edges 1 (fun _ => srt1) [el] = Ok [r1] /\ holds r1 l1 /\
  remove_duplicate_edges 1 (fun _ => srt2) [el] = Ok [r2] /\ holds r2 l2 /\
  In (mkE 3 1 10) l1 /\ In (mkE 3 1 40) l2 /\ ~ In (mkE 3 1 40) l1.
Proof.
  exists esort, esort_rev, sample_el. eexists _, _, [mkE 1 3 30; mkE 2 2 20; mkE 3 1 10; mkE 4 3 50], [mkE 1 3 30; mkE 2 2 20; mkE 3 1 40; mkE 4 3 50].
  split; [exact esort_sorts|]. split; [exact esort_rev_sorts|].
  split; [vm_compute; reflexivity|]. split; [split; [reflexivity|eexists; reflexivity]|].
  split; [vm_compute; reflexivity|]. split; [split; [reflexivity|eexists; reflexivity]|].
  split; [simpl; auto|]. split; [simpl; auto|]. simpl. intros [H|[H|[H|[H|[] ] ] ] ]; discriminate.
Qed.
Print Assumptions C37_kept_weight_not_determined.

Example C37_example : all_hold [sample_el; mkEL [Some (mkE 3 1 7)] 4 4 1] [sample; [mkE 3 1 7] ] /\
  (forall l e, In l [sample; [mkE 3 1 7] ] -> In e l -> 1 <= e_src e) /\ sorts_ends (E:=Z) esort.
Proof.
  split; [|split; [|exact esort_sorts] ].
  - constructor; [exact sample_holds|]. constructor; [|constructor]. split; [reflexivity|exists []; reflexivity].
  - intros l e [<-|[<-|[] ] ] He; simpl in He; repeat destruct He as [<-|He]; simpl; try lia; contradiction.
Qed.

(** C38 *)
Theorem C38_create_bidirectional {E} (el : elist E) l : holds el l ->
  exists el', create_bidirectional_edges el = Ok el' /\ holds el' (flat_map (fun e => [e; mkE (e_dst e) (e_src e) (e_val e)]) l) /\ same_dims el' el.
Proof. exact (create_bidirectional_spec el l). Qed.
Print Assumptions C38_create_bidirectional.
Example C38_example : exists el', create_bidirectional_edges sample_el = Ok el' /\ el_nnz el' = 10.
Proof. destruct (C38_create_bidirectional _ _ sample_holds) as (el' & E1 & [E2 _] & _). exists el'. split; auto. Qed.

(** C39.  [reach l u v]: there is a directed path of at least one edge from [u] to [v]. *)
Theorem C39_convert_to_dag {E} (el : elist E) l : holds el l ->
  exists el' l', convert_to_dag el = Ok el' /\ holds el' l' /\ same_dims el' el /\
    Forall2 (fun e e' => e_val e' = e_val e /\ e_src e' <= e_dst e' /\ (ends e' = (e_src e, e_dst e) \/ ends e' = (e_dst e, e_src e))) l l' /\
    ((forall e, In e l -> e_src e <> e_dst e) -> forall v, ~ reach l' v v).
Proof. exact (convert_to_dag_claim el l). Qed.
Print Assumptions C39_convert_to_dag.
(** an instance with a cycle before *)
Example C39_example : reach [mkE 3 1 10; mkE 1 3 30] 3 3 /\ holds (mkEL [Some (mkE 3 1 10); Some (mkE 1 3 30)] 3 3 2) [mkE 3 1 10; mkE 1 3 30] /\
  (forall e, In e [mkE 3 1 10; mkE 1 3 30] -> e_src e <> e_dst e).
Proof.
  split; [|split].
  - apply (Relation_Operators.t_trans _ _ _ 1 _); apply Relation_Operators.t_step; [exists (mkE 3 1 10)|exists (mkE 1 3 30)]; (split; [simpl; auto|split; reflexivity]).
  - split; [reflexivity|exists []; reflexivity].
  - simpl. intros e [<-|[<-|[] ] ]; simpl; lia.
Qed.

(** C40.  The multiset of edges over all ranks is kept and every edge ends up on the rank its
    source determines. *)
Theorem C40_shuffle_edges {E} nt (els : list (elist E)) ls : 1 <= nt -> 1 <= zlen els -> all_hold els ls -> (forall e, In e (concat ls) -> 1 <= e_src e) ->
  exists els' ls', shuffle_edges nt els = Ok els' /\ all_hold els' ls' /\ Forall2 same_dims els' els /\
    Permutation (concat ls') (concat ls) /\
    forall r l' e, rd ls' r = Ok l' -> In e l' -> (e_src e - 1) mod zlen els = r.
Proof. exact (shuffle_claim nt els ls). Qed.
Print Assumptions C40_shuffle_edges.

(** On each rank the threads together write as many scratch slots as there are edges, and no
    slot twice. *)
Theorem C40_no_slot_written_twice {E} nt nr (el : elist E) l : 1 <= nt -> 1 <= nr -> holds el l -> (forall e, In e l -> 1 <= e_src e) ->
  exists ms slots, shuffle_local nt nr el = Ok (ms, slots) /\ NoDup slots /\ zlen slots = zlen l.
Proof.
  intros Ht Hr Hl Hs. destruct (local_spec nt nr Ht Hr el l Hl Hs) as (slots & E1 & E2 & E3). exists (map (fun b => map Some (filter (fun e => ShuffleProofs.bin nr e =? b) l)) (zrange 0 nr)), slots.
  split; [exact E1|]. split; [exact E2|exact E3].
Qed.
Print Assumptions C40_no_slot_written_twice.
Example C40_example : all_hold [sample_el; mkEL [Some (mkE 3 1 7)] 4 4 1] [sample; [mkE 3 1 7] ] /\
  exists a b, shuffle_edges 3 [sample_el; mkEL [Some (mkE 3 1 7)] 4 4 1] = Ok [a; b] /\
    holds a [mkE 3 1 10; mkE 1 3 30; mkE 3 1 40; mkE 3 1 7] /\ holds b [mkE 2 2 20; mkE 4 3 50].
Proof.
  split; [apply C37_example|]. do 2 eexists. split; [vm_compute; reflexivity|].
  split; (split; [reflexivity|exists []; reflexivity]).
Qed.

(** C41.  The first component of the result is the caller's list after the call. *)
Theorem C41_filter_edges {E} (f : edge E -> bool) el l : holds el l ->
  exists el', filter_edges f el = Ok (el, el') /\ holds el' (filter f l) /\ same_dims el' el.
Proof. exact (filter_edges_spec f el l). Qed.
Print Assumptions C41_filter_edges.
Example C41_example : exists el', filter_edges (fun e => e_val e <? 30) sample_el = Ok (sample_el, el') /\ holds el' [mkE 3 1 10; mkE 2 2 20].
Proof. destruct (C41_filter_edges (fun e => e_val e <? 30) _ _ sample_holds) as (el' & E1 & E2 & _). exists el'. split; auto. Qed.

(** C42.  For every rounding [fl] of exact results to doubles, every conversion [cast] to the
    weight type and every random sequence. *)
Theorem C42_random_edge_weights {E} fl (cast : Q -> E) rmax rnd range el l : 1 <= range -> holds el l ->
  exists el' l' ws, random_edge_weights fl cast rmax rnd range el = Ok el' /\ holds el' l' /\ same_dims el' el /\
    Forall2 (fun e p => ends (fst p) = ends e /\ e_val (fst p) = cast (snd p)) l (combine l' ws) /\ zlen l' = zlen l /\ zlen ws = zlen l /\
    Forall (fun w => (1 <= w <= inject_Z range)%Q /\ 1 <= Qfloor w <= range) ws /\
    (forall i w, rd ws i = Ok w -> w = random_weight fl rmax range (rnd i)).
Proof. exact (random_weights_claim fl cast rmax rnd range el l). Qed.
Print Assumptions C42_random_edge_weights.
(** the documented exclusive upper bound is reached, if integers are exact doubles *)
Theorem C42_upper_bound_reached (fl : Q -> Q) rmax range : 1 <= range -> 1 <= rmax -> (forall x k, (x == inject_Z k)%Q -> (fl x == inject_Z k)%Q) ->
  (random_weight fl rmax range rmax == inject_Z range)%Q.
Proof. exact (random_weight_top fl rmax range). Qed.
Print Assumptions C42_upper_bound_reached.
Example C42_example : exists el', random_edge_weights (fun q => q) Qfloor 2147483647 (fun i => nth (Z.to_nat i) [2147483647; 5; 1200000000; 7; 2000000000] 0) 128 sample_el = Ok el' /\
  holds el' [mkE 3 1 128; mkE 2 2 1; mkE 1 3 71; mkE 3 1 1; mkE 4 3 119].
Proof. eexists. split; [vm_compute; reflexivity|]. split; [reflexivity|exists [None]; reflexivity]. Qed.

(** C43.  One permutation, the same for all ranks, whatever the random sequence. *)
Theorem C43_randomize_edgelist_square {E} rnd m : (forall i, 0 <= rnd i) -> 0 <= m ->
  exists p, permutes m p /\ forall (els : list (elist E)) ls, all_hold els ls -> (forall el, In el els -> el_m el = m) ->
    (forall e, In e (concat ls) -> 1 <= e_src e <= m /\ 1 <= e_dst e <= m) ->
    exists els', randomize_edgelist_square rnd els = Ok els' /\ all_hold els' (map (map (rename p)) ls) /\ Forall2 same_dims els' els.
Proof. exact (randomize_spec rnd m). Qed.
Print Assumptions C43_randomize_edgelist_square.
Example C43_example : (forall i, 0 <= Z.abs i) /\ all_hold [sample_el; mkEL [Some (mkE 3 1 7)] 4 4 1] [sample; [mkE 3 1 7] ] /\
  (forall el, In el [sample_el; mkEL [Some (mkE 3 1 7)] 4 4 1] -> el_m el = 4) /\
  (forall e, In e (concat [sample; [mkE 3 1 7] ]) -> 1 <= e_src e <= 4 /\ 1 <= e_dst e <= 4) /\
  random_mapping (fun i => nth (Z.to_nat i) [3; 2; 9; 7] 0) 4 = Ok [3; 1; 2; 0].
Proof.
  split; [lia|]. split; [apply C37_example|]. split; [intros el [<-|[<-|[] ] ]; reflexivity|]. split; [|reflexivity].
  simpl. intros e He; repeat destruct He as [<-|He]; simpl; try lia; contradiction.
Qed.

(** C44.  [idx] is the returned array: the destinations in use, in increasing order; the new
    destination [d] of an edge is the place of its old one. *)
Theorem C44_remove_empty_columns {E} (el : elist E) l : holds el l -> (forall e, In e l -> 1 <= e_dst e <= el_n el) ->
  exists el' idx l', remove_empty_columns el = Ok (el', map Some idx) /\ holds el' l' /\ el_m el' = el_m el /\ el_n el' = zlen idx /\
    StronglySorted Z.lt idx /\ (forall c, In c idx <-> In c (map e_dst l)) /\
    Forall2 (fun e e' => e_src e' = e_src e /\ e_val e' = e_val e /\ rd idx (e_dst e' - 1) = Ok (e_dst e)) l l'.
Proof. exact (remove_empty_columns_spec el l). Qed.
Print Assumptions C44_remove_empty_columns.
Example C44_example : (forall e, In e [mkE 3 4 10; mkE 1 2 5; mkE 2 4 6] -> 1 <= e_dst e <= 5) /\
  remove_empty_columns (mkEL [Some (mkE 3 4 10); Some (mkE 1 2 5); Some (mkE 2 4 6)] 5 5 3)
    = Ok (mkEL [Some (mkE 3 2 10); Some (mkE 1 1 5); Some (mkE 2 2 6)] 5 2 3, [Some 2; Some 4]).
Proof. split; [|reflexivity]. simpl. intros e He; repeat destruct He as [<-|He]; simpl; try lia; contradiction. Qed.

(** C45 *)
Theorem C45_filter_edges_by_row {E} s e (el : elist E) l : holds el l ->
  exists el', filter_edges_by_row s e el = Ok el' /\
    holds el' (map (fun x => mkE (e_src x - s) (e_dst x) (e_val x)) (filter (fun x => (s <? e_src x) && (e_src x <=? e)) l)) /\
    el_m el' = e - s /\ el_n el' = el_n el.
Proof. exact (filter_by_row_spec s e el l). Qed.
Print Assumptions C45_filter_edges_by_row.
Example C45_example : exists el', filter_edges_by_row 2 4 sample_el = Ok el' /\ holds el' [mkE 1 1 10; mkE 1 1 40; mkE 2 3 50].
Proof. destruct (C45_filter_edges_by_row 2 4 _ _ sample_holds) as (el' & E1 & E2 & _). exists el'. split; auto. Qed.

(** C72.  [randomize_edge_direction] reverses exactly the edges whose random number is below one half
    and keeps places and weights. *)
Theorem C72_randomize_edge_direction {E} rand_max rnd (el : elist E) l : holds el l ->
  exists el' l', randomize_edge_direction rand_max rnd el = Ok el' /\ holds el' l' /\ same_dims el' el /\ zlen l' = zlen l /\
    forall i e, rd l i = Ok e -> rd l' i = Ok (if 2 * rnd i <? rand_max then mkE (e_dst e) (e_src e) (e_val e) else e).
Proof. exact (direction_spec rand_max rnd el l). Qed.
Print Assumptions C72_randomize_edge_direction.
(** [get_dimensions] gives every rank the largest source and the largest destination of all edges of
    all ranks, however the edges of a rank are dealt out to its threads; 0 if there is no positive one. *)
Theorem C72_get_dimensions {E} int_min (ranks : list (list (list (edge E)))) : int_min <= 0 -> 1 <= zlen ranks ->
  exists m n, get_dimensions int_min ranks = Ok (m, n) /\
    let es := concat (map (@concat (edge E)) ranks) in
    0 <= m /\ 0 <= n /\ (forall e, In e es -> e_src e <= m /\ e_dst e <= n) /\
    (m = 0 \/ exists e, In e es /\ e_src e = m) /\ (n = 0 \/ exists e, In e es /\ e_dst e = n).
Proof. exact (dimensions_spec int_min ranks). Qed.
Print Assumptions C72_get_dimensions.
Example C72_example : randomize_edge_direction 2147483647 (fun i => nth (Z.to_nat i) [5; 1200000000; 7; 2000000000; 1073741823] 0) sample_el
    = Ok (mkEL [Some (mkE 1 3 10); Some (mkE 2 2 20); Some (mkE 3 1 30); Some (mkE 3 1 40); Some (mkE 3 4 50); None] 4 4 5) /\
  get_dimensions (-2147483648) [[sample; []]; [[]; [mkE 2 9 1; mkE 1 1 1]]] = Ok (4, 9).
Proof. split; reflexivity. Qed.
