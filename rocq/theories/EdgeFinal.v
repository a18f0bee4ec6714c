From Coq Require Import QArith Qround Lia.
From Coq Require Import Sorting.Sorted.
From Verif Require Import BaseLemmas Segment SegmentProofs VecProofs2 ListLemmas BucketProofs DCSC EdgeList EdgeSpec EdgeListProofs ShuffleProofs EdgeListProofs2.
Open Scope Z_scope.

Section F.
  Context {E : Type}.
  Notation edge := (edge E).
  Notation elist := (elist E).

  (** ** two sorts by endpoints that disagree on the order of parallel edges *)
  Fixpoint eins (e : edge) (l : list edge) : list edge :=
    match l with [] => [e] | y :: t => if compare_for_duplicates y e then y :: eins e t else e :: y :: t end.
  Definition esort (l : list edge) : list edge := fold_right eins [] l.
  Definition esort_rev (l : list edge) : list edge := esort (rev l).

  Lemma eins_perm e l : Permutation (eins e l) (e :: l).
  Proof. induction l as [|y t IH]; simpl; auto. destruct (compare_for_duplicates y e); auto. rewrite IH. apply perm_swap. Qed.
  Lemma esort_perm l : Permutation (esort l) l.
  Proof. induction l as [|e t IH]; simpl; auto. rewrite eins_perm. auto. Qed.
  Lemma cfd_le (y e : edge) : compare_for_duplicates y e = true -> le_ends y e.
  Proof. unfold compare_for_duplicates, le_ends. destruct (Z.ltb_spec (e_src y) (e_src e)), (Z.ltb_spec (e_src e) (e_src y)); intros; try discriminate; lia. Qed.
  Lemma cfd_ge (y e : edge) : compare_for_duplicates y e = false -> le_ends e y.
  Proof. unfold compare_for_duplicates, le_ends. destruct (Z.ltb_spec (e_src y) (e_src e)), (Z.ltb_spec (e_src e) (e_src y)); intros; try discriminate; lia. Qed.
  Lemma le_ends_trans (a b c : edge) : le_ends a b -> le_ends b c -> le_ends a c.
  Proof. unfold le_ends. lia. Qed.
  Lemma eins_sorted e l : StronglySorted le_ends l -> StronglySorted le_ends (eins e l).
  Proof.
    induction 1 as [|y t St IH Fa]; simpl; [repeat constructor|]. destruct (compare_for_duplicates y e) eqn:C.
    - constructor; auto. apply Forall_forall. intros x Hx. apply (Permutation_in _ (eins_perm e t)) in Hx as [<-|Hx]; [apply cfd_le; auto|].
      rewrite Forall_forall in Fa. auto.
    - constructor; [constructor; auto|]. constructor; [apply cfd_ge; auto|]. apply Forall_forall. intros x Hx. rewrite Forall_forall in Fa.
      eapply le_ends_trans; [apply cfd_ge; eauto|auto].
  Qed.
  Lemma esort_sorts : sorts_ends esort.
  Proof. intros l. split; [apply esort_perm|]. change (StronglySorted le_ends (esort l)). induction l as [|e t IH]; simpl; [constructor|apply eins_sorted; auto]. Qed.
  Lemma esort_rev_sorts : sorts_ends esort_rev.
  Proof. intros l. destruct (esort_sorts (rev l)) as [P S]. split; auto. rewrite P. symmetry. apply Permutation_rev. Qed.

  (** ** C39 *)
  Lemma convert_to_dag_claim (el : elist) l : holds el l ->
    exists el' l', convert_to_dag el = Ok el' /\ holds el' l' /\ same_dims el' el /\
      Forall2 (fun e e' => e_val e' = e_val e /\ e_src e' <= e_dst e' /\ (ends e' = (e_src e, e_dst e) \/ ends e' = (e_dst e, e_src e))) l l' /\
      ((forall e, In e l -> e_src e <> e_dst e) -> forall v, ~ reach l' v v).
  Proof.
    intros H. destruct (convert_to_dag_spec el l H) as (el' & -> & Hl & D). exists el'. eexists. split; [reflexivity|]. split; [exact Hl|]. split; auto. split.
    - clear. induction l as [|e t IH]; simpl; constructor; auto. destruct (Z.ltb_spec (e_dst e) (e_src e)); simpl; unfold ends; simpl; auto 6. split; auto. split; [lia|auto].
    - intros NL. apply dag_acyclic. intros e' He. apply in_map_iff in He as (e & <- & He). specialize (NL e He).
      destruct (Z.ltb_spec (e_dst e) (e_src e)); simpl; lia.
  Qed.

  (** ** C40 *)
  Lemma shuffle_claim nt (els : list elist) ls : 1 <= nt -> 1 <= zlen els -> all_hold els ls -> (forall e, In e (concat ls) -> 1 <= e_src e) ->
    exists els' ls', shuffle_edges nt els = Ok els' /\ all_hold els' ls' /\ Forall2 same_dims els' els /\
      Permutation (concat ls') (concat ls) /\
      forall r l' e, rd ls' r = Ok l' -> In e l' -> (e_src e - 1) mod zlen els = r.
  Proof.
    intros Ht Hr HH Hs. assert (forall l e, In l ls -> In e l -> 1 <= e_src e) as Hs' by (intros l e Hl He; apply Hs; apply in_concat; eauto).
    destruct (shuffle_edges_spec nt els ls Ht Hr HH Hs') as (els' & E1 & E2 & E3). exists els'. eexists. split; [exact E1|]. split; [exact E2|]. split; auto. split.
    - apply shuffle_perm; auto.
    - intros r l' e Hr' He. assert (0 <= r < zlen els) as B. { apply rd_bounds in Hr'. rewrite zlen_map, zlen_zrange in Hr' by lia. lia. }
      rewrite rd_map_list, rd_zrange in Hr' by lia. injection Hr' as <-. apply filter_In in He as [He Hb]. apply Z.eqb_eq in Hb.
      rewrite <- Hb. rewrite Z.rem_mod_nonneg; auto; [|lia]. specialize (Hs e He). lia.
  Qed.

  (** ** C42 *)
  Lemma random_weights_claim fl cast rmax rnd range (el : elist) l : 1 <= range -> holds el l ->
    exists el' l' ws, random_edge_weights fl cast rmax rnd range el = Ok el' /\ holds el' l' /\ same_dims el' el /\
      Forall2 (fun e p => ends (fst p) = ends e /\ e_val (fst p) = cast (snd p)) l (combine l' ws) /\ zlen l' = zlen l /\ zlen ws = zlen l /\
      Forall (fun w => (1 <= w <= inject_Z range)%Q /\ 1 <= Qfloor w <= range) ws /\
      (forall i w, rd ws i = Ok w -> w = random_weight fl rmax range (rnd i)).
  Proof.
    intros Hr H. unfold random_edge_weights.
    destruct (rewrite_edges_spec (fun i e => Ok (mkE (e_src e) (e_dst e) (cast (random_weight fl rmax range (rnd i)))))
       (fun i e => mkE (e_src e) (e_dst e) (cast (random_weight fl rmax range (rnd i)))) el l H) as (el' & -> & Hl & D & _); auto.
    exists el'. eexists. exists (map (fun i => random_weight fl rmax range (rnd i)) (zrange 0 (zlen l))).
    split; [reflexivity|]. split; [exact Hl|]. split; auto.
    assert (length (zrange 0 (zlen l)) = length l) as L. { unfold zlen. pose proof (zlen_zrange 0 (zlen l) ltac:(unfold zlen; lia)) as Z0. unfold zlen in *. lia. }
    split; [|split; [|split; [|split] ] ].
    - revert L. generalize (zrange 0 (zlen l)) as z. clear. induction l as [|e t IH]; intros [|i z] L; simpl in *; try discriminate; constructor; auto. 
    - rewrite zlen_map. change (Z.of_nat (length (combine (zrange 0 (zlen l)) l)) = Z.of_nat (length l)). rewrite combine_length, L. lia.
    - rewrite zlen_map. change (Z.of_nat (length (zrange 0 (zlen l))) = Z.of_nat (length l)). lia.
    - apply Forall_forall. intros w Hw. apply in_map_iff in Hw as (i & <- & _). split; [apply random_weight_range|apply random_weight_int]; auto.
    - intros i w Hw. pose proof (zlen_nonneg l) as NN. pose proof (rd_bounds _ _ _ Hw) as B. rewrite zlen_map, zlen_zrange in B by lia. rewrite rd_map_list, rd_zrange in Hw by lia. injection Hw as <-. reflexivity.
  Qed.
End F.
