From Coq Require Import Sorting.Sorted.
From Verif Require Import BaseLemmas Layout LayoutProofs Bits Segment SegmentProofs BucketProofs Vec VecProofs VecProofs2 ListLemmas DCSC DCSCFinal DCSCBuild MatSpec TileProofs GraphVert GraphVertProofs SpMat SpMatProofs Graph.

Section Held2.
  Context {E : Type}.
  Variables (nr m n ntx nty : Z).
  Hypothesis Hnr : 1 <= nr.
  Hypothesis Hm : 0 <= m.
  Hypothesis Hn : 0 <= n.
  Hypothesis Hx : 1 <= ntx.
  Hypothesis Hy : 1 <= nty.

  Lemma mat_holds_perm ids a (es es' : list (edge E)) : Permutation es es' -> mat_holds nr m n ntx nty ids a es -> mat_holds nr m n ntx nty ids a es'.
  Proof.
    intros P [? ? ? ? ? ? ? Hin Ht Hd]. constructor; auto.
    - intros e He. apply Hin. eapply Permutation_in; [symmetry; exact P|auto].
    - intros r i j Hr Hi Hj. destruct (Ht r i j Hr Hi Hj) as (t & Et & Q). exists t. split; auto. intros o Eo. specialize (Q o Eo). destruct (o =? r); auto.
      destruct Q as (t' & T & -> & Tt & Pt). exists t', T. split; auto. split; auto. rewrite Pt. apply perm_filter; auto.
  Qed.

  Variables (ids : list Z) (a : spmat E) (es : list (edge E)).
  Hypothesis Ha : mat_holds nr m n ntx nty ids a es.

  Lemma exported : exists outs, mapR (mat_get_edges a) (zrange 0 nr) = Ok outs /\ zlen outs = nr /\ Permutation (concat outs) es /\
    forall r, 0 <= r < nr -> rd outs r = Ok (rank_entries m n ntx nty ids a r).
  Proof.
    exists (map (rank_entries m n ntx nty ids a) (zrange 0 nr)). split; [|split; [rewrite zlen_map, zlen_zrange; lia|split]].
    - apply mapR_map. intros r Hr. apply in_zrange in Hr. apply (mat_get_edges_spec nr m n ntx nty Hm Hn Hx Hy ids a es Ha r Hr).
    - rewrite <- flat_map_concat_map. eapply all_entries; eauto.
    - intros r Hr. rewrite rd_map_list, rd_zrange by lia. rewrite Z.add_0_l. auto.
  Qed.

  Lemma fold_low32 l : (forall x, In x l -> 0 <= x) -> fold_right (fun x acc => (x mod 2 ^ 32 + acc) mod 2 ^ 32) 0 l = zsum l mod 2 ^ 32.
  Proof.
    induction l as [|x l IH]; intros H; [reflexivity|]. cbn [fold_right zsum]. change (zsum (x :: l)) with (x + zsum l). rewrite IH by (intros; apply H; simpl; auto).
    rewrite <- Zplus_mod. reflexivity.
  Qed.

  Lemma nnz_spec : exists outs, mapR (mat_get_edges a) (zrange 0 nr) = Ok outs /\ Permutation (concat outs) es /\
    mat_getNNZ nr a = Ok (map (fun out => zlen out / 2 ^ 32 * 2 ^ 32 + zlen es mod 2 ^ 32) outs).
  Proof.
    destruct exported as (outs & Eo & Lo & Po & Ro). exists outs. split; auto. split; auto. unfold mat_getNNZ.
    assert (mapR (mat_local_nnz a) (zrange 0 nr) = Ok (map zlen outs)) as ->.
    { assert (map zlen outs = map (fun r => zlen (rank_entries m n ntx nty ids a r)) (zrange 0 nr)) as ->.
      { apply rd_ext; rewrite !zlen_map, ?zlen_zrange by lia; [lia|]. intros i Hi. rewrite !rd_map_list, Ro, rd_zrange by lia. rewrite Z.add_0_l. auto. }
      apply mapR_map. intros r Hr. apply in_zrange in Hr. eapply local_nnz_eq; eauto. }
    cbn [bind]. f_equal. rewrite map_map. apply map_ext. intros out. unfold allreduce_int_in_u64. rewrite fold_low32 by (intros x Hx'; apply in_map_iff in Hx' as (y & <- & _); apply zlen_nonneg).
    f_equal. f_equal. unfold zlen at 2. rewrite <- (Permutation_length Po). fold (zlen (concat outs)).
    clear. induction outs as [|o l IH]; simpl; auto. rewrite zlen_app. lia.
  Qed.
End Held2.

Section Load.
  Context {V E byte : Type}.
  Variables srt tsrt : list (tedge E) -> list (tedge E).
  Variables (nr threads : Z).
  Hypothesis Hsrt : sorts srt.
  Hypothesis Htsrt : sorts_by_key tsrt.
  Hypothesis Hth : 1 <= threads.
  Hypothesis Hnr : 1 <= nr.

  Lemma swap_swap (e : edge E) : swap_ends (swap_ends e) = e.
  Proof. destruct e; reflexivity. Qed.
  Lemma in_mat_swap m n (e : edge E) : in_mat m n e -> in_mat n m (swap_ends e).
  Proof. unfold in_mat, in_rect, swap_ends. simpl. tauto. Qed.

  Lemma transpose_spec junk m n ntx nty ids (a : spmat E) es ntx' nty' : 0 <= m -> 0 <= n -> 1 <= ntx -> 1 <= nty -> 1 <= ntx' -> 1 <= nty' ->
    mat_holds nr m n ntx nty ids a es ->
    exists b ids', mat_transpose srt tsrt nr threads junk a ntx' nty' = Ok b /\ mat_nodeIds ntx' nty' nr = Ok ids' /\ mat_holds nr n m ntx' nty' ids' b (map swap_ends es).
  Proof.
    intros Hm Hn Hx Hy Hx' Hy' Ha. unfold mat_transpose.
    destruct (exported nr m n ntx nty Hnr Hm Hn Hx Hy ids a es Ha) as (outs & -> & Lo & Po & _). cbn [bind].
    rewrite (mh_m _ _ _ _ _ _ _ _ Ha), (mh_n _ _ _ _ _ _ _ _ Ha).
    assert (Permutation (concat (map (map swap_ends) outs)) (map swap_ends es)) as P by (rewrite <- concat_map; apply Permutation_map; auto).
    destruct (mat_new_spec srt tsrt nr threads Hsrt Htsrt Hth Hnr junk n m ntx' nty' (map (map swap_ends) outs)) as (b & bl & ids' & -> & Ei & Hb & _); auto.
    - rewrite zlen_map; auto.
    - intros e He. apply (Permutation_in _ P) in He. apply in_map_iff in He as (e' & <- & He'). apply in_mat_swap. eapply mh_in; eauto.
    - cbn [bind fst]. exists b, ids'. split; auto. split; auto. eapply mat_holds_perm; eauto.
  Qed.

  (** an edge with both ends renamed *)
  Definition ren (f : Z -> Z) (e : edge E) : edge E := mkE (f (e_src e)) (f (e_dst e)) (e_val e).
  Lemma ren_ren f g (e : edge E) : g (f (e_src e)) = e_src e -> g (f (e_dst e)) = e_dst e -> ren g (ren f e) = e.
  Proof. intros H1 H2. destruct e; unfold ren; simpl in *. rewrite H1, H2. auto. Qed.

  (** what a loaded graph holds on the edge side: [es] in user ids *)
  Definition edges_held (g : graph V E byte) (n : Z) (es : list (edge E)) : Prop :=
    g_n g = n /\ g_nt g = threads /\ exists ids, mat_nodeIds nr nr nr = Ok ids /\
      mat_holds nr n n nr nr ids (g_A g) (map (ren (v2n threads nr n)) es) /\
      mat_holds nr n n nr nr ids (g_AT g) (map swap_ends (map (ren (v2n threads nr n)) es)).

  Lemma g_vectors_ok n vjunk ajunk vfresh afresh (dv : V) : 0 <= n -> exists vp act,
    @g_vectors V byte nr threads vjunk ajunk vfresh afresh dv n = Ok (vp, act) /\
    gall n nr threads vp (fun _ => dv) /\ gall n nr threads act (fun _ => false).
  Proof.
    intros Hn. unfold g_vectors.
    destruct (mapR_seq_all (fun r => g_new_vp n nr vjunk vfresh threads r dv : R (list (seg V byte))) (fun r segs => gok n nr threads r segs (fun _ => dv)) nr) as (vp & -> & Lv & Iv); [lia| |].
    { intros r Hr. apply (@gok_new V byte n nr threads); auto. }
    cbn [bind].
    destruct (mapR_seq_all (fun r => g_new_active n nr ajunk afresh threads r : R (list (seg bool byte))) (fun r segs => gok n nr threads r segs (fun _ => false)) nr) as (act & -> & La & Ia); [lia| |].
    { intros r Hr. apply (@gok_new bool byte n nr threads); auto. }
    cbn [bind]. eexists _, _. split; [reflexivity|]. split; split; auto; intros r segs Hs; [apply Iv in Hs|apply Ia in Hs]; tauto.
  Qed.

  Variables (junkA junkT : Z -> Z -> Z -> Z) (vjunk ajunk : Z -> Z) (vfresh : option V) (afresh : option bool) (dv : V).
  Variable n : Z.
  Hypothesis Hn : 0 <= n.
  Definition in_range (e : edge E) : Prop := 1 <= e_src e <= n /\ 1 <= e_dst e <= n.

  Lemma ren_in e : in_range e -> in_mat n n (ren (v2n threads nr n) e).
  Proof. intros [H1 H2]. destruct (v2n_ok threads nr n _ Hth Hnr H1). destruct (v2n_ok threads nr n _ Hth Hnr H2). unfold in_mat, in_rect, ren. simpl. lia. Qed.

  Lemma load_spec (blobs : list (list (edge E))) : zlen blobs = nr -> (forall e, In e (concat blobs) -> in_range e) ->
    exists g blobs', @g_ReadEdgelist V E byte srt tsrt nr threads junkA junkT vjunk ajunk vfresh afresh dv n n blobs = Ok (g, blobs') /\
      edges_held g n (concat blobs) /\ gall n nr threads (g_vp g) (fun _ => dv) /\ gall n nr threads (g_act g) (fun _ => false) /\
      mat_getNNZ nr (g_A g) = Ok (g_nnz g) /\
      Forall2 (fun b b' => Permutation (map (ren (v2n threads nr n)) b) b') blobs blobs'.
  Proof.
    intros Lb Hin. unfold g_ReadEdgelist.
    assert (mapR (mapR (edge_to_native nr threads n)) blobs = Ok (map (map (ren (v2n threads nr n))) blobs)) as ->.
    { apply concat_mapR_map. intros e He. destruct (Hin e He) as [H1 H2]. unfold edge_to_native. rewrite (proj1 (v2n_ok threads nr n _ Hth Hnr H1)). cbn [bind]. rewrite (proj1 (v2n_ok threads nr n _ Hth Hnr H2)). reflexivity. }
    cbn [bind].
    destruct (mat_new_spec srt tsrt nr threads Hsrt Htsrt Hth Hnr junkA n n nr nr (map (map (ren (v2n threads nr n))) blobs)) as (a & bl & ids & -> & Ei & Ha & Pb); auto.
    { rewrite zlen_map; auto. }
    { intros e He. rewrite <- concat_map in He. apply in_map_iff in He as (e' & <- & He). apply ren_in; auto. }
    rewrite <- concat_map in Ha. cbn [bind fst snd].
    destruct (transpose_spec junkT n n nr nr ids a _ nr nr Hn Hn Hnr Hnr Hnr Hnr Ha) as (b & ids' & -> & Ei' & Hb). rewrite Ei in Ei'. injection Ei' as <-. cbn [bind].
    rewrite Z.eqb_refl. cbn [assertb bind].
    destruct (nnz_spec nr n n nr nr Hnr Hn Hn Hnr Hnr ids a _ Ha) as (outs & _ & _ & Ez). rewrite Ez. cbn [bind].
    destruct (g_vectors_ok n vjunk ajunk vfresh afresh dv Hn) as (vp & act & -> & Gv & Ga). cbn [bind fst snd].
    eexists _, _. split; [reflexivity|]. cbn [g_vp g_act g_A g_nnz]. split; [|split; [exact Gv|split; [exact Ga|split; auto]]].
    - split; auto. split; auto. exists ids. auto.
    - clear - Pb. remember (map (map (ren (v2n threads nr n))) blobs) as l eqn:El. revert blobs El. induction Pb as [|x y l l' P F IH]; intros [|b bl] El; try discriminate; constructor; injection El as -> ->; auto.
  Qed.

  Lemma export_edges (g : graph V E byte) es : edges_held g n es -> (forall e, In e es -> in_range e) ->
    exists outs, mapR (g_getEdgelist nr g) (zrange 0 nr) = Ok outs /\ zlen outs = nr /\ Permutation (concat outs) es.
  Proof.
    intros (Gn & Gt & ids & Ei & Ha & _) Hin. unfold g_getEdgelist. rewrite Gn, Gt.
    destruct (exported nr n n nr nr Hnr Hn Hn Hnr Hnr ids (g_A g) _ Ha) as (outs & Eo & Lo & Po & _).
    erewrite mapR_bind by exact Eo. rewrite (concat_mapR_map _ (ren (n2v threads nr n))).
    - eexists. split; [reflexivity|]. split; [rewrite zlen_map; auto|]. rewrite <- concat_map, Po, map_map. rewrite <- (map_id es) at 2. erewrite map_ext_in; [reflexivity|].
      intros e He. destruct (Hin e He). apply ren_ren; apply n2v_v2n; auto.
    - intros e He. apply (Permutation_in _ Po) in He. apply in_map_iff in He as (e' & <- & He'). destruct (ren_in e' (Hin _ He')) as [H1 H2].
      set (e2 := ren (v2n threads nr n) e') in *. assert (1 <= e_src e2 <= n) as B1 by lia. assert (1 <= e_dst e2 <= n) as B2 by lia.
      rewrite (proj1 (n2v_ok threads nr n _ Hth Hnr B1)). cbn [bind]. rewrite (proj1 (n2v_ok threads nr n _ Hth Hnr B2)). reflexivity.
  Qed.
End Load.

(** *** the edge count *)
Definition count_as_reported (own total : Z) : Z := own / 2 ^ 32 * 2 ^ 32 + total mod 2 ^ 32.

Lemma zlen_filter_repeat {A} (p : A -> bool) e N : 0 <= N -> zlen (filter p (repeat e (Z.to_nat N))) = if p e then N else 0.
Proof.
  intros HN. replace (if p e then N else 0) with (if p e then Z.of_nat (Z.to_nat N) else 0) by (destruct (p e); lia). generalize (Z.to_nat N) as k. clear.
  induction k as [|k IH]; simpl; [destruct (p e); auto|]. destruct (p e) eqn:Ep; [rewrite zlen_cons; lia|auto].
Qed.

Section Count.
  Context {E : Type}.
  Variables srt tsrt : list (tedge E) -> list (tedge E).
  Hypothesis Hsrt : sorts srt.
  Hypothesis Htsrt : sorts_by_key tsrt.
  Variables (nr threads : Z).
  Hypothesis Hth : 1 <= threads.
  Hypothesis Hnr : 1 <= nr.

  Lemma count_spec junk m n ntx nty (blobs : list (list (edge E))) : 0 <= m -> 0 <= n -> 1 <= ntx -> 1 <= nty -> zlen blobs = nr ->
    (forall e, In e (concat blobs) -> in_rect m n 0 0 e) ->
    exists a blobs' outs, mat_new srt tsrt nr threads junk m n ntx nty blobs = Ok (a, blobs') /\
      mapR (mat_get_edges a) (zrange 0 nr) = Ok outs /\ Permutation (concat outs) (concat blobs) /\
      mat_getNNZ nr a = Ok (map (fun out => count_as_reported (zlen out) (zlen (concat blobs))) outs).
  Proof.
    intros Hm Hn Hx Hy Lb Hin. destruct (mat_new_spec srt tsrt nr threads Hsrt Htsrt Hth Hnr junk m n ntx nty blobs Hm Hn Hx Hy Lb Hin) as (a & bl & ids & En & Ei & Ha & _).
    destruct (nnz_spec nr m n ntx nty Hnr Hm Hn Hx Hy ids a _ Ha) as (outs & Eo & Po & Ez). exists a, bl, outs. auto.
  Qed.
  Lemma reported_small own total : 0 <= own <= total -> total < 2 ^ 32 -> count_as_reported own total = total.
  Proof. intros H1 H2. unfold count_as_reported. rewrite Z.div_small, Z.mod_small by lia. lia. Qed.
  Lemma reported_mod own total : 0 <= own -> count_as_reported own total mod 2 ^ 32 = total mod 2 ^ 32.
  Proof. intros H. unfold count_as_reported. rewrite Z.add_comm, Z.mod_add, Z.mod_mod by lia. auto. Qed.
  Lemma reported_all total : count_as_reported total total = total.
  Proof. unfold count_as_reported. pose proof (Z.div_mod total (2 ^ 32)). lia. Qed.
End Count.

Lemma zlen_in_concat {A} (l : list A) ls : In l ls -> zlen l <= zlen (concat ls).
Proof. induction ls as [|x ls IH]; simpl; intros []; rewrite zlen_app; [subst; pose proof (zlen_nonneg (concat ls)); lia|pose proof (zlen_nonneg x); specialize (IH H); lia]. Qed.

(** two ranks, four tiles, each with as many edges as an [int] can count *)
Section Wrong.
  Context {E : Type}.
  Variables srt tsrt : list (tedge E) -> list (tedge E).
  Hypothesis Hsrt : sorts srt.
  Hypothesis Htsrt : sorts_by_key tsrt.
  Variable w : E.
  Definition four (N : Z) : list (edge E) := flat_map (fun e => repeat e (Z.to_nat N)) [mkE 1 1 w; mkE 257 1 w; mkE 1 257 w; mkE 257 257 w].
  Lemma zlen_filter_four (p : edge E -> bool) N : 0 <= N ->
    zlen (filter p (four N)) = (if p (mkE 1 1 w) then N else 0) + ((if p (mkE 257 1 w) then N else 0) + ((if p (mkE 1 257 w) then N else 0) + (if p (mkE 257 257 w) then N else 0))).
  Proof. intros HN. unfold four. cbn [flat_map]. rewrite !filter_app, !zlen_app, !zlen_filter_repeat by auto. change (zlen (filter p [])) with 0. lia. Qed.
  Lemma zlen_four N : 0 <= N -> zlen (four N) = 4 * N.
  Proof. intros HN. unfold four. cbn [flat_map]. rewrite !zlen_app, !zlen_repeat. change (zlen (@nil (edge E))) with 0. lia. Qed.
  Lemma four_in N e : In e (four N) -> in_rect 512 512 0 0 e.
  Proof.
    unfold four. intros H. apply in_flat_map in H as (x & Hx & He). apply repeat_spec in He as ->. unfold in_rect.
    destruct Hx as [<-|[<-|[<-|[<-|[]]]]]; simpl; lia.
  Qed.

  Lemma count_wrong N junk : 2 ^ 30 <= N < 2 ^ 31 ->
    exists a blobs', mat_new srt tsrt 2 1 junk 512 512 2 2 [four N; []] = Ok (a, blobs') /\ mat_getNNZ 2 a = Ok [4 * N - 2 ^ 32; 4 * N - 2 ^ 32].
  Proof.
    intros HN.
    destruct (mat_new_spec srt tsrt 2 1 Hsrt Htsrt ltac:(lia) ltac:(lia) junk 512 512 2 2 [four N; []]) as (a & bl & ids & En & Ei & Ha & _); try lia; [reflexivity| |].
    { simpl. rewrite app_nil_r. apply four_in. }
    destruct (exported 2 512 512 2 2 ltac:(lia) ltac:(lia) ltac:(lia) ltac:(lia) ltac:(lia) ids a _ Ha) as (outs & Eo & Lo & Po & Ro).
    destruct (nnz_spec 2 512 512 2 2 ltac:(lia) ltac:(lia) ltac:(lia) ltac:(lia) ltac:(lia) ids a _ Ha) as (outs' & Eo' & _ & Ez). rewrite Eo in Eo'. injection Eo' as <-.
    assert (concat [four N; []] = four N) as Ec by (simpl; apply app_nil_r). rewrite Ec in *.
    assert (forall r, 0 <= r < 2 -> zlen (rank_entries 512 512 2 2 ids a r) = 2 * N) as Hc.
    { intros r Hr. pose proof (rank_entries_perm 2 512 512 2 2 ltac:(lia) ltac:(lia) ltac:(lia) ltac:(lia) ids a (four N) Ha r Hr) as P. unfold zlen. rewrite (Permutation_length P). fold (zlen (filter (fun e => owner 512 512 2 2 ids e =? r) (four N))).
      rewrite zlen_filter_four by lia. vm_compute in Ei. injection Ei as <-. assert (r = 0 \/ r = 1) as [-> | ->] by lia; 
      match goal with |- (if ?a then _ else _) + ((if ?b then _ else _) + ((if ?c then _ else _) + (if ?d then _ else _))) = _ =>
        let a' := eval vm_compute in a in let b' := eval vm_compute in b in let c' := eval vm_compute in c in let d' := eval vm_compute in d in
        change a with a'; change b with b'; change c with c'; change d with d' end; cbn iota; lia. }
    exists a, bl. split; auto. rewrite Ez, zlen_four by lia. f_equal.
    destruct outs as [|o1 [|o2 [|o3 l]]]; try (unfold zlen in Lo; simpl in Lo; lia). pose proof (Ro 0 ltac:(lia)) as R0. pose proof (Ro 1 ltac:(lia)) as R1. injection R0 as ->. injection R1 as ->.
    cbn [map]. rewrite !Hc by lia. rewrite (Z.div_small (2 * N)) by lia.
    assert ((4 * N) mod 2 ^ 32 = 4 * N - 2 ^ 32) as ->; [|reflexivity]. symmetry. apply Z.mod_unique with 1; lia.
  Qed.
End Wrong.

(** *** statements as used in the property files *)
Lemma load_export {V E byte} srt tsrt nr threads junkA junkT vjunk ajunk (vfresh : option V) (afresh : option bool) (dv : V) n (blobs : list (list (edge E))) :
  sorts srt -> sorts_by_key tsrt -> 1 <= threads -> 1 <= nr -> 0 <= n -> zlen blobs = nr ->
  (forall e, In e (concat blobs) -> 1 <= e_src e <= n /\ 1 <= e_dst e <= n) ->
  exists g blobs' outs,
    @g_ReadEdgelist V E byte srt tsrt nr threads junkA junkT vjunk ajunk vfresh afresh dv n n blobs = Ok (g, blobs') /\
    mapR (g_getEdgelist nr g) (zrange 0 nr) = Ok outs /\ Permutation (concat outs) (concat blobs).
Proof.
  intros S T Ht Hr Hn Lb Hin.
  destruct (@load_spec V E byte srt tsrt nr threads S T Ht Hr junkA junkT vjunk ajunk vfresh afresh dv n Hn blobs Lb Hin) as (g & bl & El & Hh & _).
  edestruct (@export_edges V E byte nr threads) with (g := g) as (outs & Eo & _ & Po); eauto 10.
Qed.
Lemma load_callers {V E byte} srt tsrt nr threads junkA junkT vjunk ajunk (vfresh : option V) (afresh : option bool) (dv : V) n (blobs : list (list (edge E))) g blobs' :
  sorts srt -> sorts_by_key tsrt -> 1 <= threads -> 1 <= nr -> 0 <= n -> zlen blobs = nr ->
  (forall e, In e (concat blobs) -> 1 <= e_src e <= n /\ 1 <= e_dst e <= n) ->
  @g_ReadEdgelist V E byte srt tsrt nr threads junkA junkT vjunk ajunk vfresh afresh dv n n blobs = Ok (g, blobs') ->
  exists pi : Z -> Z, (forall v, 1 <= v <= n -> vertexToNative threads nr n v = Ok (pi v)) /\
    Forall2 (fun b b' => Permutation (map (fun e => mkE (pi (e_src e)) (pi (e_dst e)) (e_val e)) b) b') blobs blobs'.
Proof.
  intros S T Ht Hr Hn Lb Hin El'.
  destruct (@load_spec V E byte srt tsrt nr threads S T Ht Hr junkA junkT vjunk ajunk vfresh afresh dv n Hn blobs Lb Hin) as (g2 & bl & El & _ & _ & _ & _ & F). rewrite El' in El. injection El as <- <-.
  exists (v2n threads nr n). split; auto. intros v Hv. apply v2n_ok; auto.
Qed.
Lemma count_exact {E} srt tsrt (S : sorts srt) (T : sorts_by_key tsrt) nr threads (H1 : 1 <= threads) (H2 : 1 <= nr) junk m n ntx nty (blobs : list (list (edge E))) :
  0 <= m -> 0 <= n -> 1 <= ntx -> 1 <= nty -> zlen blobs = nr ->
  (forall e, In e (concat blobs) -> in_rect m n 0 0 e) ->
  exists a blobs' counts, mat_new srt tsrt nr threads junk m n ntx nty blobs = Ok (a, blobs') /\ mat_getNNZ nr a = Ok counts /\ zlen counts = nr /\
    (forall c, In c counts -> c mod 2 ^ 32 = zlen (concat blobs) mod 2 ^ 32) /\
    (zlen (concat blobs) < 2 ^ 32 \/ nr = 1 -> forall c, In c counts -> c = zlen (concat blobs)).
Proof.
  intros Hm Hn Hx Hy Lb Hin. destruct (count_spec srt tsrt S T nr threads H1 H2 junk m n ntx nty blobs Hm Hn Hx Hy Lb Hin) as (a & bl & outs & En & Eo & Po & Ez).
  assert (zlen outs = nr) as Lo. { pose proof (mapR_length _ _ _ Eo) as L. unfold zlen. rewrite L. fold (zlen (zrange 0 nr)). rewrite zlen_zrange; lia. }
  assert (zlen (concat outs) = zlen (concat blobs)) as Lc. { unfold zlen. rewrite (Permutation_length Po). auto. }
  exists a, bl. eexists. conjs; eauto.
  - rewrite zlen_map; auto.
  - intros c Hc. apply in_map_iff in Hc as (o & <- & Ho). apply reported_mod. apply zlen_nonneg.
  - intros Hs c Hc. apply in_map_iff in Hc as (o & <- & Ho). destruct Hs as [Hs | ->].
    + apply reported_small; auto. pose proof (zlen_nonneg o). pose proof (zlen_in_concat _ _ Ho). lia.
    + destruct outs as [|o1 [|o2 l]]; try (unfold zlen in Lo; simpl in Lo; lia). destruct Ho as [<-|[]]. simpl in Lc. rewrite app_nil_r in Lc. rewrite Lc. apply reported_all.
Qed.
Lemma count_refuted {E} srt tsrt (w : E) junk N :
  sorts srt -> sorts_by_key tsrt -> 2 ^ 30 <= N < 2 ^ 31 ->
  exists a blobs', mat_new srt tsrt 2 1 junk 512 512 2 2 [four w N; []] = Ok (a, blobs') /\
    zlen (concat [four w N; []]) = 4 * N /\ mat_getNNZ 2 a = Ok [4 * N - 2 ^ 32; 4 * N - 2 ^ 32].
Proof.
  intros S T HN. destruct (count_wrong srt tsrt S T w N junk HN) as (a & bl & E1 & E2). exists a, bl. conjs; auto. simpl. rewrite app_nil_r. apply zlen_four. lia.
Qed.
