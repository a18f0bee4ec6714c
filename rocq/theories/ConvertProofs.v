From Coq Require Import QArith.
From Verif Require Import Base BaseLemmas ListLemmas BitsProofs Segment DCSC EdgeList EdgeSpec EdgeListProofs EdgeListProofs2 SegmentProofs ShuffleProofs EdgeFinal Apps FileIO FileSpec FileProofs FileFinal FileClaims.
From Verif Require Import MatSpec SpMat SpMatProofs Vec GraphVert Graph GraphProofs GraphOps GraphHist GraphHistProofs RunFinal GraphBin GraphBinProofs Convert ConvertSpec.
Open Scope Z_scope.

Section CP.
  Context {E byte : Type}.
  Variables (w : wtype E) (wide : Z -> Z) (m : machine Z E byte) (dv : Z).
  Variables (srt : Z -> list (edge E) -> list (edge E)) (fl : Q -> Q) (cast : Q -> E) (rmax : Z)
    (rndw : Z -> Z -> Z) (rnd : Z -> Z) (fuel : nat).
  Notation edges := (list (edge E)).
  Notation nr := (m_nr m).
  Variable n : Z.
  Definition inr2 (e : edge E) : Prop := 1 <= e_src e <= n /\ 1 <= e_dst e <= n.
  Definition inv (els : list (elist E)) (ls : list edges) : Prop :=
    all_hold els ls /\ zlen els = nr /\ Forall (fun el => el_m el = n /\ el_n el = n) els /\ forall e, In e (concat ls) -> inr2 e.

  Lemma dims_same els els' : Forall2 same_dims els' els -> Forall (fun el : elist E => el_m el = n /\ el_n el = n) els -> Forall (fun el => el_m el = n /\ el_n el = n) els'.
  Proof. induction 1 as [|a b l l' [H1 H2] H IH]; intros F; inversion F as [|? ? [Q1 Q2] F']; subst; constructor; auto. rewrite H1, H2. auto. Qed.
  Lemma F2_len {A B} (P : A -> B -> Prop) l l' : Forall2 P l l' -> zlen l = zlen l'.
  Proof. induction 1; [reflexivity|]. rewrite !zlen_cons. lia. Qed.

  (** a step made by every rank on its own list *)
  Lemma own_step (f : elist E -> R (elist E)) (G : edges -> edges) els ls :
    (forall el l, holds el l -> exists el', f el = Ok el' /\ holds el' (G l) /\ same_dims el' el) ->
    inv els ls -> (forall l, (forall e, In e l -> inr2 e) -> forall e, In e (G l) -> inr2 e) ->
    exists els', mapR f els = Ok els' /\ inv els' (map G ls).
  Proof.
    intros Hf (HH & HL & HD & HR) HG.
    assert (exists els', mapR f els = Ok els' /\ all_hold els' (map G ls) /\ Forall2 same_dims els' els) as (els' & E1 & H1 & D1).
    { clear HL HD HR. induction HH as [|el l els ls Hh HH IH]; [exists []; repeat split; constructor|]. destruct (Hf el l Hh) as (el' & E1 & H1 & D1). destruct IH as (els' & E2 & H2 & D2).
      exists (el' :: els'). cbn [mapR map]. rewrite E1, E2. cbn [bind]. split; [reflexivity|]. split; constructor; auto. }
    exists els'. split; [auto|]. split; [auto|]. split; [rewrite (F2_len _ _ _ D1); auto|]. split; [eapply dims_same; eauto|].
    intros e He. apply in_concat in He as (l' & I1 & I2). apply in_map_iff in I1 as (l & <- & I1). apply (HG l); auto. intros e0 He0. apply HR. apply in_concat. eauto.
  Qed.

  Lemma filter_concat (p : edge E -> bool) (ls : list edges) : concat (map (filter p) ls) = filter p (concat ls).
  Proof. induction ls as [|l ls IH]; [reflexivity|]. cbn [map concat]. rewrite filter_app, IH. reflexivity. Qed.
  Lemma flat_concat (f : edge E -> edges) (ls : list edges) : concat (map (flat_map f) ls) = flat_map f (concat ls).
  Proof. induction ls as [|l ls IH]; [reflexivity|]. cbn [map concat]. rewrite flat_map_app, IH. reflexivity. Qed.

  Lemma reweight_step range els ls : 1 <= range -> inv els ls ->
    exists els' ls', each (fun r el => random_edge_weights fl cast rmax (rndw r) range el) els = Ok els' /\ inv els' ls' /\ reweighted cast range (concat ls) (concat ls').
  Proof.
    intros Hr (HH & HL & HD & HR).
    assert (forall k, exists els' ls', mapR (fun p => random_edge_weights fl cast rmax (rndw (fst p)) range (snd p)) (combine (zrange k (k + zlen els)) els) = Ok els' /\ all_hold els' ls' /\ Forall2 same_dims els' els /\
      map ends (concat ls') = map ends (concat ls) /\ forall e, In e (concat ls') -> exists t, (1 <= t <= inject_Z range)%Q /\ e_val e = cast t) as X.
    { clear HL HD HR. induction HH as [|el l els ls Hh HH IH]; intros k.
      - exists [], []. rewrite combine_nil. split; [reflexivity|]. split; [constructor|]. split; [constructor|]. split; [reflexivity|]. intros e [].
      - rewrite zlen_cons. pose proof (zlen_nonneg els). rewrite zrange_cons by lia. cbn [combine mapR fst snd].
        destruct (random_weights_claim fl cast rmax (rndw k) range el l Hr Hh) as (el' & l' & ws & E1 & H1 & D1 & F1 & L1 & L2 & W1 & _). rewrite E1. cbn [bind].
        destruct (IH (k + 1)) as (els' & ls' & E2 & H2 & D2 & M2 & V2). replace (k + 1 + zlen els) with (k + (1 + zlen els)) in E2 by lia. rewrite E2. cbn [bind].
        exists (el' :: els'), (l' :: ls'). split; [reflexivity|]. split; [constructor; auto|]. split; [constructor; auto|]. cbn [concat]. rewrite !map_app, M2.
        assert (length ws = length l') as L3 by (unfold zlen in *; lia).
        split.
        + f_equal. clear - F1 L3. revert ws l' F1 L3. induction l as [|e l IH]; intros [|t ws] [|e' l'] F1 L3; try discriminate; inversion F1; subst; [reflexivity|]. cbn [map]. f_equal; [tauto|]. eapply IH; eauto.
        + intros e He. apply in_app_iff in He as [He|He]; auto. clear - F1 L3 W1 He. revert ws l' F1 L3 W1 He. induction l as [|e0 l IH]; intros [|t ws] [|e' l'] F1 L3 W1 He; try discriminate; inversion F1 as [|? ? ? ? [Q1 Q2] F2]; subst; [destruct He|]. inversion W1 as [|? ? [W2 _] W3]; subst.
          destruct He as [<-|He]; [exists t; auto|]. eapply (IH ws l'); eauto. }
    destruct (X 0) as (els' & ls' & E1 & H1 & D1 & M1 & V1). rewrite Z.add_0_l in E1. exists els', ls'. split; [exact E1|]. split; [|split; [rewrite M1; auto|auto]].
    split; [auto|]. split; [rewrite (F2_len _ _ _ D1); auto|]. split; [eapply dims_same; eauto|]. intros e He. assert (In (ends e) (map ends (concat ls))) as I1 by (rewrite <- M1; apply in_map; auto).
    apply in_map_iff in I1 as (e1 & Q1 & I1). specialize (HR e1 I1). unfold ends in Q1. injection Q1 as Q1 Q2. unfold inr2 in *. rewrite <- Q1, <- Q2. auto.
  Qed.

  Lemma both_perm (l : edges) : Permutation (flat_map (fun e => [e; swap e]) l) (l ++ map (fun e => mkE (e_dst e) (e_src e) (e_val e)) l).
  Proof. induction l as [|e l IH]; [constructor|]. cbn [flat_map app map]. constructor. rewrite <- Permutation_middle. apply Permutation_cons; [reflexivity|auto]. Qed.
  Lemma upward_eq (e : edge E) : (if e_dst e <? e_src e then swap e else e) = mkE (Z.min (e_src e) (e_dst e)) (Z.max (e_src e) (e_dst e)) (e_val e).
  Proof. destruct e as [s d v]. cbn. unfold swap. cbn. destruct (Z.ltb_spec d s); f_equal; lia. Qed.

  Hypothesis Hm : machine_ok m.
  Hypothesis Hn : 0 <= n.
  Let Hr : 1 <= nr. Proof. apply Hm. Qed.
  Let Hnt : 1 <= m_nt m. Proof. apply Hm. Qed.

  Lemma shuffle_step els ls : inv els ls -> exists els' ls', shuffle_edges (m_nt m) els = Ok els' /\ inv els' ls' /\ Permutation (concat ls') (concat ls).
  Proof.
    intros (HH & HL & HD & HR). destruct (shuffle_claim (m_nt m) els ls Hnt) as (els' & ls' & E1 & H1 & D1 & P1 & _); [lia|auto|intros e He; apply HR in He; apply He|].
    exists els', ls'. split; [auto|]. split; [|auto]. split; [auto|]. split; [rewrite (F2_len _ _ _ D1); auto|]. split; [eapply dims_same; eauto|]. intros e He. apply HR. eapply Permutation_in; eauto.
  Qed.
  Lemma dedup_step els ls : (forall r, sorts_ends (srt r)) -> inv els ls -> exists els' ls', remove_duplicate_edges (m_nt m) srt els = Ok els' /\ inv els' ls' /\ one_per_pair (concat ls) (concat ls').
  Proof.
    intros Hs (HH & HL & HD & HR). destruct (remove_dup_spec (m_nt m) srt els ls Hnt) as (els' & ls' & E1 & H1 & D1 & N1 & I1 & C1); [lia|auto|auto| |].
    { intros l e Il Ie. apply (HR e). apply in_concat. eauto. }
    exists els', ls'. split; [auto|]. split; [|split; [auto|split; [exact I1|]]].
    - split; [auto|]. split; [rewrite (F2_len _ _ _ D1); auto|]. split; [eapply dims_same; eauto|]. intros e He. apply HR. auto.
    - intros x Hx. apply in_map_iff in Hx as (e & <- & He). auto.
  Qed.
  Lemma rename_step els ls : (forall i, 0 <= rnd i) -> inv els ls -> exists els' ls', randomize_edgelist_square rnd els = Ok els' /\ inv els' ls' /\ renamed n (concat ls) (concat ls').
  Proof.
    intros Hs (HH & HL & HD & HR). destruct (randomize_spec (E:=E) rnd n Hs Hn) as (p & Hp & X). destruct (X els ls HH) as (els' & E1 & H1 & D1).
    { intros el Hel. rewrite Forall_forall in HD. apply HD. auto. } { exact HR. }
    exists els', (map (map (rename p)) ls). split; [auto|]. split; [|exists p; split; [auto|rewrite concat_map; reflexivity]].
    split; [auto|]. split; [rewrite (F2_len _ _ _ D1); auto|]. split; [eapply dims_same; eauto|]. intros e He. rewrite <- concat_map in He. apply in_map_iff in He as (e0 & <- & He). apply HR in He as [B1 B2]. destruct Hp as [Hp _]. split; apply Hp; auto.
  Qed.

  Lemma transform_ok o els ls : (o_outputedgeweights o = 3 -> 1 <= o_random_range o) -> (forall r, sorts_ends (srt r)) -> (forall i, 0 <= rnd i) -> inv els ls ->
    exists els' ls', transform m srt fl cast rmax rndw rnd o els = Ok els' /\ inv els' ls' /\ converted cast o n (concat ls) (concat ls').
  Proof.
    intros Hrg Hs Hrn H0. unfold transform.
    assert (exists els1 ls1, (if o_outputedgeweights o =? 3 then each (fun r el => random_edge_weights fl cast rmax (rndw r) (o_random_range o) el) els else Ok els) = Ok els1 /\ inv els1 ls1 /\
      when (o_outputedgeweights o =? 3) (reweighted cast (o_random_range o)) (concat ls) (concat ls1)) as (els1 & ls1 & -> & I1 & W1).
    { destruct (Z.eqb_spec (o_outputedgeweights o) 3); [apply reweight_step; auto|]. exists els, ls. split; [reflexivity|]. split; [auto|apply Permutation_refl]. }
    cbn [bind]. destruct (shuffle_step els1 ls1 I1) as (els2 & ls2 & -> & I2 & P2). cbn [bind].
    assert (exists els3 ls3, (if o_selfloops o =? 0 then mapR remove_selfedges els2 else Ok els2) = Ok els3 /\ inv els3 ls3 /\ when (o_selfloops o =? 0) without_loops (concat ls2) (concat ls3)) as (els3 & ls3 & -> & I3 & W3).
    { destruct (o_selfloops o =? 0).
      - destruct (own_step remove_selfedges (filter (fun e => negb (e_src e =? e_dst e))) els2 ls2) as (e3 & E3 & I3); [apply remove_selfedges_spec|auto| |].
        + intros l Hl e He. apply filter_In in He. apply Hl. tauto.
        + exists e3. eexists. split; [exact E3|]. split; [exact I3|]. unfold when, without_loops. rewrite filter_concat. reflexivity.
      - exists els2, ls2. split; [reflexivity|]. split; [auto|apply Permutation_refl]. }
    cbn [bind].
    assert (exists els4 ls4, (if o_bidirectional o =? 1 then mapR create_bidirectional_edges els3 else Ok els3) = Ok els4 /\ inv els4 ls4 /\ when (o_bidirectional o =? 1) both_ways (concat ls3) (concat ls4)) as (els4 & ls4 & -> & I4 & W4).
    { destruct (o_bidirectional o =? 1).
      - destruct (own_step create_bidirectional_edges (flat_map (fun e => [e; swap e])) els3 ls3) as (e3 & E3 & J3); [apply create_bidirectional_spec|auto| |].
        + intros l Hl e He. apply in_flat_map in He as (x & Hx & [<-|[<-|[]]]); [auto|]. apply Hl in Hx as [? ?]. split; auto.
        + exists e3. eexists. split; [exact E3|]. split; [exact J3|]. unfold when, both_ways. rewrite flat_concat. apply both_perm.
      - exists els3, ls3. split; [reflexivity|]. split; [auto|apply Permutation_refl]. }
    cbn [bind].
    assert (exists els5 ls5, (if o_uppertriangular o =? 1 then mapR convert_to_dag els4 else Ok els4) = Ok els5 /\ inv els5 ls5 /\ when (o_uppertriangular o =? 1) upwards (concat ls4) (concat ls5)) as (els5 & ls5 & -> & I5 & W5).
    { destruct (o_uppertriangular o =? 1).
      - destruct (own_step convert_to_dag (map (fun e => if e_dst e <? e_src e then swap e else e)) els4 ls4) as (e3 & E3 & J3); [apply convert_to_dag_spec|auto| |].
        + intros l Hl e He. apply in_map_iff in He as (x & <- & Hx). apply Hl in Hx as [? ?]. destruct (e_dst x <? e_src x); split; auto.
        + exists e3. eexists. split; [exact E3|]. split; [exact J3|]. unfold when, upwards. rewrite <- concat_map. erewrite map_ext; [reflexivity|]. intros e. apply upward_eq.
      - exists els4, ls4. split; [reflexivity|]. split; [auto|apply Permutation_refl]. }
    cbn [bind].
    assert (exists els6 ls6, (if o_duplicatededges o =? 0 then remove_duplicate_edges (m_nt m) srt els5 else Ok els5) = Ok els6 /\ inv els6 ls6 /\ when (o_duplicatededges o =? 0) one_per_pair (concat ls5) (concat ls6)) as (els6 & ls6 & -> & I6 & W6).
    { destruct (o_duplicatededges o =? 0); [apply dedup_step; auto|]. exists els5, ls5. split; [reflexivity|]. split; [auto|apply Permutation_refl]. }
    cbn [bind].
    assert (exists els7 ls7, (if o_randomizeID o =? 1 then randomize_edgelist_square rnd els6 else Ok els6) = Ok els7 /\ inv els7 ls7 /\ when (o_randomizeID o =? 1) (renamed n) (concat ls6) (concat ls7)) as (els7 & ls7 & E7 & I7 & W7).
    { destruct (o_randomizeID o =? 1); [apply rename_step; auto|]. exists els6, ls6. split; [reflexivity|]. split; [auto|apply Permutation_refl]. }
    exists els7, ls7. split; [exact E7|]. split; [exact I7|].
    exists (concat ls2), (concat ls3), (concat ls4), (concat ls5), (concat ls6). split; [|auto].
    unfold when in *. destruct (o_outputedgeweights o =? 3); [|rewrite P2; auto]. destruct W1 as [V1 V2]. split; [rewrite P2; auto|]. intros e He. apply V2. eapply Permutation_in; eauto.
  Qed.

  (** *** input *)
  Lemma maxl_app l l' : maxl (l ++ l') = Z.max (maxl l) (maxl l').
  Proof. unfold maxl. induction l as [|a l IH]; cbn [app fold_right]; [|rewrite IH; lia]. assert (0 <= fold_right Z.max 0 l') by (clear; induction l'; cbn [fold_right]; lia). lia. Qed.
  Lemma files_m d F (f : efile E -> Z) : maxl (concat (map (fun r => map f (map F (read_by nr d r))) (zrange 0 nr))) = maxl (map f (files_read m d F)).
  Proof. unfold files_read. f_equal. rewrite map_map, concat_map, map_map. f_equal. apply map_ext. intros r. rewrite map_map. reflexivity. Qed.

  Lemma load_files o din fs : edge_files w m fuel o din fs -> zlen (file_edges w o fs) < 2 ^ 31 ->
    exists els ls, load_edgelist w wide fuel (in_format o) nr din = Ok els /\ all_hold els ls /\ zlen els = nr /\ concat ls = file_edges w o fs /\
      Forall (fun el => Z.max (el_n el) (el_m el) = largest (in_format o) fs) els.
  Proof.
    intros (F & Hs & HF & HE & Hnl & Hc & ->) Hlen. set (fm := in_format o) in *.
    assert (file_edges w o (files_read m din F) = concat (map (fun r => map (back w fm) (concat (map (@ef_edges E) (map F (read_by nr din r))))) (zrange 0 nr))) as EQ.
    { unfold file_edges, files_read. fold fm. induction (zrange 0 nr) as [|r l IH]; [reflexivity|]. cbn [map concat]. rewrite !map_app, !concat_app, !map_app, IH. reflexivity. }
    assert (forall r, 0 <= r < nr -> zlen (concat (map (@ef_edges E) (map F (read_by nr din r)))) < 2 ^ 31) as HLr.
    { intros r Br. eapply Z.le_lt_trans; [|exact Hlen]. rewrite EQ. assert (In r (zrange 0 nr)) as Ir by (apply in_zrange; lia). clear - Ir. induction (zrange 0 nr) as [|r0 l IH]; [destruct Ir|]. cbn [map concat]. rewrite zlen_app, zlen_map.
      destruct Ir as [->|Ir].
      - match goal with |- _ <= _ + zlen ?x => pose proof (zlen_nonneg x) end. lia.
      - specialize (IH Ir). match goal with |- _ <= zlen ?x + _ => pose proof (zlen_nonneg x) end. lia. }
    pose proof (load_exact w wide fm fuel nr din F Hs Hr HF HE) as EL. cbn zeta in EL.
    assert (forall r, kept (map F (read_by nr din r)) = concat (map (@ef_edges E) (map F (read_by nr din r)))) as Hk by (intros r; apply kept_ended, Forall_map, Forall_forall; auto).
    assert (forall r, 0 <= r < nr -> count fm (map F (read_by nr din r)) = zlen (concat (map (@ef_edges E) (map F (read_by nr din r))))) as Hcn.
    { intros r Br. destruct (header fm) eqn:Hh; [rewrite count_sum|rewrite count_ended, ended_all]; auto; try (apply i32_id, is_int_len; auto); apply Forall_map, Forall_forall; auto. }
    rewrite EL. rewrite (proj2 (forallb_forall _ _)).
    2:{ intros r Ir. apply in_zrange in Ir. rewrite Hk, Hcn by auto. apply Z.leb_le. lia. }
    eexists. exists (map (fun r => map (back w fm) (concat (map (@ef_edges E) (map F (read_by nr din r))))) (zrange 0 nr)). split; [reflexivity|]. unfold FileSpec.loaded. split; [|split; [|split; [auto|]]].
    - assert (forall r, In r (zrange 0 nr) -> 0 <= r < nr) as Hi by (intros r; apply in_zrange). revert Hi. generalize (zrange 0 nr) at 1 4 5. intros l Hi.
      induction l as [|r l IH]; cbn [map]; [constructor|]. constructor; [|apply IH; intros; apply Hi; right; auto]. split; cbn [el_nnz el_arr]; rewrite ?Hk, Hcn by (apply Hi; left; auto); [rewrite zlen_map; reflexivity|].
      rewrite Z.sub_diag. exists []. reflexivity.
    - rewrite zlen_map, zlen_zrange by lia. lia.
    - apply Forall_map, Forall_forall. intros r _. cbn [el_n el_m]. rewrite !files_m. unfold largest. rewrite maxl_app. lia.
  Qed.

  Lemma set_dims o D els ls : all_hold els ls -> zlen els = nr -> Forall (fun el => Z.max (el_n el) (el_m el) = D) els -> D <= n -> n = (if 0 <? o_nvertices o then o_nvertices o else D) ->
    (forall e, In e (concat ls) -> inr2 e) -> exists els', mapR (set_dimensions o) els = Ok els' /\ inv els' ls.
  Proof.
    intros HH HL HD Hle Hnv HR.
    assert (exists els', mapR (set_dimensions o) els = Ok els' /\ all_hold els' ls /\ zlen els' = zlen els /\ Forall (fun el => el_m el = n /\ el_n el = n) els') as (els' & E1 & H1 & L1 & D1).
    { clear HL HR. induction HH as [|el l els ls Hh HH IH]; [exists []; repeat split; constructor|]. apply Forall_cons_iff in HD as [D1 D2]. destruct (IH D2) as (els' & E1 & H1 & L1 & D1').
      assert (set_dimensions o el = Ok (mkEL (el_arr el) n n (el_nnz el))) as Es.
      { unfold set_dimensions. destruct (0 <? o_nvertices o); [|rewrite D1, Hnv; reflexivity]. rewrite Hnv. destruct (Z.leb_spec (Z.max (el_n el) (el_m el)) (o_nvertices o)); [reflexivity|lia]. }
      cbn [mapR]. rewrite Es, E1. cbn [bind]. eexists. split; [reflexivity|]. split; [constructor; auto|]. split; [rewrite !zlen_cons; lia|]. constructor; auto. }
    exists els'. split; [auto|]. split; [auto|]. split; [lia|]. auto.
  Qed.

  Lemma read_ok o din gin es : input_is w m fuel o din gin n es -> (forall e, In e es -> inr2 e) -> zlen es < 2 ^ 31 ->
    exists els ls, read_input w wide m dv fuel o din gin = Ok els /\ inv els ls /\ Permutation (concat ls) es.
  Proof.
    intros HI HR Hlen. unfold read_input, input_is in *.
    destruct ((o_inputformat o =? 0) || (o_inputformat o =? 1)) eqn:Ef.
    - destruct HI as (fs & HE & -> & Hle & Hnv). destruct (load_files o din fs HE Hlen) as (els & ls & El & HH & HL & HC & HD).
      change (mkFmt (o_inputformat o =? 0) (o_inputheader o =? 1) (o_inputedgeweights o =? 1)) with (in_format o). rewrite El. cbn [bind].
      destruct (set_dims o (largest (in_format o) fs) els ls HH HL HD Hle Hnv) as (els' & E1 & I1); [rewrite HC; auto|]. rewrite E1. cbn [bind].
      assert (o_inputformat o =? 2 = false) as -> by (destruct (Z.eqb_spec (o_inputformat o) 0), (Z.eqb_spec (o_inputformat o) 1); try discriminate; apply Z.eqb_neq; lia).
      exists els', ls. split; [reflexivity|]. split; [auto|]. rewrite HC. reflexivity.
    - cbn [bind]. destruct (o_inputformat o =? 2) eqn:E2.
      + destruct HI as (neq & m0 & dv0 & blobs & h & g & q & dir & Hset & Hok & Hre & Hme & Enr & Ent & Ew & <-).
        assert (GraphHistProofs.is m0 n g q) as Hg by (eapply reach_is; eauto). assert (machine_ok m0) as Hm0 by apply Hset.
        destruct (reload m0 n g q Hm0 Hn Hg dir gin m dv Ew Hm) as (g' & Er & _ & _ & _ & _ & (HX & HG)); [auto|auto|]. rewrite Er. cbn [bind gs_es GraphHist.loaded] in *.
        destruct HG as (He & _). destruct (export_edges nr (m_nt m) Hnt Hr (m_junkA m) (m_junkT m) (m_vjunk m) (m_ajunk m) n Hn g' (gs_es q) He HR) as (outs & Eo & Lo & Po).
        pose proof He as (_ & _ & ids & _ & HA & _). pose proof (mh_m _ _ _ _ _ _ _ _ HA) as M1. pose proof (mh_n _ _ _ _ _ _ _ _ HA) as M2.
        exists (map (fun l => mkEL (map Some l) n n (zlen l)) outs), outs. split; [|split; [|exact Po]].
        * unfold edgelist_of. rewrite M1, M2. revert outs Eo Lo Po. intros outs Eo _ _. revert outs Eo. induction (zrange 0 nr) as [|r l IH]; intros outs Eo; cbn [mapR] in *; [injection Eo as <-; reflexivity|].
          apply bind_Ok in Eo as (x & E3 & Eo). apply bind_Ok in Eo as (y & E4 & Eo). injection Eo as <-. rewrite E3. cbn [bind]. rewrite (IH y E4). reflexivity.
        * split; [|split; [rewrite zlen_map; auto|split]].
          -- clear. induction outs; constructor; auto. split; [reflexivity|]. exists []. rewrite app_nil_r. reflexivity.
          -- apply Forall_map, Forall_forall. auto.
          -- intros e He'. apply HR. eapply Permutation_in; eauto.
      + destruct HI as [H0 ->]. exists (repeat (mkEL [] 0 0 0) (Z.to_nat nr)), (repeat [] (Z.to_nat nr)). split; [reflexivity|].
        assert (concat (repeat (@nil (edge E)) (Z.to_nat nr)) = []) as Ec by (clear; induction (Z.to_nat nr); auto). rewrite Ec. split; [|reflexivity].
        split; [|split; [unfold zlen; rewrite repeat_length; lia|split; [apply Forall_forall; intros x Hx; apply repeat_spec in Hx; subst; auto|rewrite Ec; intros e []]]].
        clear. induction (Z.to_nat nr); cbn [repeat]; constructor; auto. split; [reflexivity|]. exists []. reflexivity.
  Qed.

  (** *** output *)
  Lemma write_out o els ls dout gout : inv els ls ->
    exists dout' gout', write_output w m dv o els dout gout = Ok (dout', gout') /\ output_is w m dv o n ls dout gout dout' gout'.
  Proof.
    intros (HH & HL & HD & HR). unfold write_output, output_is. pose proof (F2_len _ _ _ HH) as LL. rewrite HL in LL.
    change (mkFmt (o_outputformat o =? 0) (o_outputheader o =? 1) (negb (o_outputedgeweights o =? 0))) with (out_format o).
    assert (exists d', (if (o_outputformat o =? 0) || (o_outputformat o =? 1) then write_edgelist w (out_format o) dout els else Ok dout) = Ok d' /\
      (if (o_outputformat o =? 0) || (o_outputformat o =? 1) then forall i, 0 <= i -> file_at d' i = match rd ls i with Ok l => Some (content w (out_format o) (mkEF n n (zlen l) l true)) | Err _ => file_at dout i end else d' = dout)) as (d' & -> & W).
    { destruct ((o_outputformat o =? 0) || (o_outputformat o =? 1)); [|eauto]. destruct (write_exact w wide (out_format o) dout els ls HH) as (d' & E1 & E2). exists d'. split; [auto|]. intros i Hi. rewrite E2 by auto.
      destruct (rd els i) as [el|] eqn:Eel.
      - pose proof (rd_bounds _ _ _ Eel) as Be. destruct (rd_ok ls i) as [l El]; [lia|]. rewrite El. apply rd_nth in Eel as [_ Eel]. apply rd_nth in El as [_ El].
        assert (holds el l) as [Hz _]. { clear - HH Eel El. revert Eel El. generalize (Z.to_nat i). induction HH as [|a b l1 l2 H HH IH]; intros [|k] Q1 Q2; try discriminate; cbn in *; [congruence|eauto]. }
        apply nth_error_In in Eel. rewrite Forall_forall in HD. destruct (HD el Eel) as [D1 D2]. unfold file_of. rewrite D1, D2, Hz. reflexivity.
      - destruct (rd ls i) as [l|] eqn:El; auto. pose proof (rd_bounds _ _ _ El). destruct (rd_ok els i) as [x Ex]; [lia|congruence]. }
    cbn [bind]. destruct (o_outputformat o =? 2); [|exists d', gout; auto].
    assert (graph_of m dv els = load m dv n ls) as ->.
    { unfold graph_of. assert (mapR (fun el => mapR (fun i => rde el i) (zrange 0 (el_nnz el))) els = Ok ls) as ->.
      { clear - HH. induction HH as [|el l els ls Hh HH IH]; [reflexivity|]. cbn [mapR]. rewrite (mapR_rde el l Hh), IH. reflexivity. }
      cbn [bind]. destruct els as [|el els]; [change (zlen (@nil (elist E))) with 0 in HL; lia|]. inversion HD as [|? ? [D1 D2] _]; subst. unfold load. rewrite D1, D2. reflexivity. }
    destruct (load_is m Hm n Hn dv ls) as (g & El & Hg); [auto|exact HR|]. rewrite El. cbn [bind].
    destruct (write_ok m n g _ Hm Hg gout) as (gout' & Ew & _). unfold write_bin. rewrite Ew. cbn [bind]. exists d', gout'. split; [reflexivity|]. split; [auto|]. split; [auto|]. exists g. auto.
  Qed.

  Lemma converter_ok o din gin es dout gout : input_is w m fuel o din gin n es -> (forall e, In e es -> inr2 e) -> zlen es < 2 ^ 31 ->
    (o_outputedgeweights o = 3 -> 1 <= o_random_range o) -> (forall r, sorts_ends (srt r)) -> (forall i, 0 <= rnd i) ->
    exists parts dout' gout', process_graph w wide m dv srt fl cast rmax rndw rnd fuel o din gin dout gout = Ok (dout', gout') /\
      converted cast o n es (concat parts) /\ output_is w m dv o n parts dout gout dout' gout'.
  Proof.
    intros HI HR HL Hrg Hs Hrn. destruct (read_ok o din gin es HI HR HL) as (els & ls & E1 & I1 & P1). destruct (transform_ok o els ls Hrg Hs Hrn I1) as (els2 & ls2 & E2 & I2 & C2).
    destruct (write_out o els2 ls2 dout gout I2) as (d' & g' & E3 & O3). exists ls2, d', g'. unfold process_graph. rewrite E1. cbn [bind]. rewrite E2. cbn [bind]. split; [auto|]. split; [|auto].
    destruct C2 as (l1 & l2 & l3 & l4 & l5 & C1 & C2). exists l1, l2, l3, l4, l5. split; [|auto]. unfold when in *. destruct (o_outputedgeweights o =? 3); [|rewrite C1; auto]. destruct C1 as [C1 C1']. split; [|auto]. rewrite C1. apply Permutation_map. auto.
  Qed.

  Lemma small_nvertices o din gin fs dout gout : (o_inputformat o = 0 \/ o_inputformat o = 1) -> edge_files w m fuel o din fs -> zlen (file_edges w o fs) < 2 ^ 31 ->
    0 < o_nvertices o < largest (in_format o) fs ->
    process_graph w wide m dv srt fl cast rmax rndw rnd fuel o din gin dout gout = Err AssertFail.
  Proof.
    intros Hf HE HL Hv. destruct (load_files o din fs HE HL) as (els & ls & El & HH & HZ & HC & HD). unfold process_graph, read_input.
    replace ((o_inputformat o =? 0) || (o_inputformat o =? 1)) with true by (destruct Hf as [-> | ->]; reflexivity).
    change (mkFmt (o_inputformat o =? 0) (o_inputheader o =? 1) (o_inputedgeweights o =? 1)) with (in_format o). rewrite El. cbn [bind].
    destruct els as [|el els]; [change (zlen (@nil (elist E))) with 0 in HZ; lia|]. apply Forall_cons_iff in HD as [D1 _]. cbn [mapR]. unfold set_dimensions at 1. rewrite D1.
    destruct (Z.ltb_spec 0 (o_nvertices o)); [|lia]. destruct (Z.leb_spec (largest (in_format o) fs) (o_nvertices o)); [lia|]. reflexivity.
  Qed.
End CP.

Lemma unit_weights {E byte} (w : wtype E) wide (m : machine Z E byte) dv srt fl cast rmax rndw rnd fuel o din gin dout gout :
  process_graph w wide m dv srt fl cast rmax rndw rnd fuel (with_weights o 2) din gin dout gout =
  process_graph w wide m dv srt fl cast rmax rndw rnd fuel (with_weights o 1) din gin dout gout.
Proof. reflexivity. Qed.

Lemma weights_kept {E} (cast : Q -> E) o n es out : o_outputedgeweights o <> 3 -> converted cast o n es out -> forall e, In e out -> exists e0, In e0 es /\ e_val e = e_val e0.
Proof.
  intros Hw (l1 & l2 & l3 & l4 & l5 & W1 & W2 & W3 & W4 & W5 & W6).
  assert (forall b step (l l' : list (edge E)), when b step l l' -> (step l l' -> forall e, In e l' -> exists e0, In e0 l /\ e_val e = e_val e0) -> forall e, In e l' -> exists e0, In e0 l /\ e_val e = e_val e0) as X.
  { intros b step l l' H G e He. destruct b; [auto|]. exists e. split; auto. eapply Permutation_in; eauto. }
  intros e6 H6. destruct (X _ _ _ _ W6) with (e := e6) as (e5 & H5 & ->); auto.
  { intros (p & _ & P) e He. apply (Permutation_in _ P), in_map_iff in He as (x & <- & Hx). exists x. auto. }
  destruct (X _ _ _ _ W5) with (e := e5) as (e4 & H4 & ->); auto. { intros (_ & I & _) e He. exists e. auto. }
  destruct (X _ _ _ _ W4) with (e := e4) as (e3 & H3 & ->); auto. { intros P e He. apply (Permutation_in _ P), in_map_iff in He as (x & <- & Hx). exists x. auto. }
  destruct (X _ _ _ _ W3) with (e := e3) as (e2 & H2 & ->); auto. { intros P e He. apply (Permutation_in _ P), in_app_iff in He as [He|He]; [exists e; auto|]. apply in_map_iff in He as (x & <- & Hx). exists x. auto. }
  destruct (X _ _ _ _ W2) with (e := e2) as (e1 & H1 & ->); auto. { intros P e He. apply (Permutation_in _ P), filter_In in He as [He _]. exists e. auto. }
  unfold when in W1. apply Z.eqb_neq in Hw. rewrite Hw in W1. exists e1. split; auto. eapply Permutation_in; eauto.
Qed.

Lemma refused o : (acceptable o -> forall A (process : Z -> R A), converter_main o process = Ran (process (o_edgeweighttype o))) /\
  (~ acceptable o -> exists e, forall A (process : Z -> R A), converter_main o process = Refused e).
Proof.
  unfold converter_main, validateOptions, acceptable.
  destruct (Z.eqb_spec (o_selfloops o) 0), (Z.eqb_spec (o_selfloops o) 1), (Z.eqb_spec (o_uppertriangular o) 1), (Z.eqb_spec (o_bidirectional o) 1), (Z.eqb_spec (o_inputedgeweights o) 0), (Z.eqb_spec (o_outputedgeweights o) 1); cbn [negb andb];
    try (split; [intros; exfalso; intuition lia|intros _; eexists; reflexivity]).
  all: destruct (Z.ltb_spec (o_nsplits o) 0), (Z.eqb_spec (o_nsplits o) 1); cbn [negb andb]; try (split; [intros; exfalso; intuition lia|intros _; eexists; reflexivity]).
  all: destruct (Z.eqb_spec (o_edgeweighttype o) 0), (Z.eqb_spec (o_edgeweighttype o) 1), (Z.eqb_spec (o_edgeweighttype o) 2); cbn [orb]; (split; [intros HA; solve [intros; reflexivity|exfalso; intuition lia]|intros HA; solve [eexists; reflexivity|exfalso; apply HA; intuition lia]]).
Qed.
