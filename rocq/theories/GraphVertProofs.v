From Verif Require Import BaseLemmas Layout LayoutProofs Bits BitsProofs Segment SegmentProofs SegHistory SegHistoryProofs TransferProofs Bucket BucketProofs Vec VecProofs VecProofs2 GraphVert.

Lemma bounded_live {T byte} (s : seg T byte) k x : sabs s k = Some x -> live s.
Proof. unfold sabs, babs. destruct (s_prop s) as [b|] eqn:E; [|discriminate]. destruct (b_uninit b) eqn:U; [discriminate|]. exists b; auto. Qed.

Lemma mapR_ext {A B} (f g : A -> R B) l : (forall a, In a l -> f a = g a) -> mapR f l = mapR g l.
Proof. induction l as [|a l IH]; intros H; simpl; auto. rewrite H by (simpl; auto). rewrite IH; auto. intros; apply H; simpl; auto. Qed.
Lemma mapR_seq_all {B} (f : Z -> R B) (P : Z -> B -> Prop) m : 0 <= m -> (forall r, 0 <= r < m -> exists b, f r = Ok b /\ P r b) ->
  exists l, mapR f (zrange 0 m) = Ok l /\ zlen l = m /\ forall r b, rd l r = Ok b -> f r = Ok b /\ P r b.
Proof.
  intros Hm H. destruct (mapR_zrange f P m Hm H) as (l & E & L & I). exists l. conjs; auto; intros r b Hb; destruct (I r) as (b' & E1 & E2 & E3); try (pose proof (rd_bounds _ _ _ Hb); lia); rewrite Hb in E1; oki E1; auto.
Qed.

Section VF.
  Context {T byte : Type}.
  Notation sg := (seg T byte).
  Variables n ns nr : Z.
  Hypothesis Hn : 0 <= n.
  Hypothesis Hs : 1 <= ns.
  Hypothesis Hr : 1 <= nr.
  Notation ow := (ow nr).
  Notation st := (st n ns).
  Notation cap := (cap n ns).
  Notation rwf := (rwf (T:=T) (byte:=byte) false 1 n ns).
  Notation rholds := (rholds (T:=T) (byte:=byte) n ns nr).
  Notation vwf := (vwf (T:=T) (byte:=byte) false 1 n ns nr).
  Notation vholds := (vholds (T:=T) (byte:=byte) n ns nr).
  Notation owner id := (ow (vpart n ns id)).

  Lemma rholds_ext r (segs : list sg) M M' : rwf segs -> (forall id, 1 <= id <= n -> owner id = r -> M id = M' id) -> rholds r segs M -> rholds r segs M'.
  Proof.
    intros [L _] E H j s Ej O k. rewrite (H j s Ej O k). f_equal. unfold restr.
    destruct (Z.leb_spec 1 (k + 1)); destruct (Z.leb_spec (k+1) (cap j)); simpl; auto.
    pose proof (rd_bounds _ _ _ Ej). destruct (seg_ids n ns Hn Hs j (st j + (k+1)) ltac:(lia)) as [_ S].
    destruct S as [S1 S2]; [lia|]. apply E; auto. rewrite S2. auto.
  Qed.

  Lemma thok1 threads : 1 <= threads -> thok false 1 threads.
  Proof. intros H. split; auto. discriminate. Qed.

  (** histories of vector operations, each rank with its own list *)
  Notation vec_history := (@vec_history T byte n ns nr).
  Lemma vec_history_spec junk fresh threads r (ops : list (sop T)) : 1 <= threads -> Forall (sop_in_range n) ops ->
    exists segs, vec_history junk fresh threads r ops = Ok segs /\ rwf segs /\ rholds r segs (spec_sops n ops).
  Proof.
    intros Ht Ho. destruct (@rwf_new T byte false 1 n ns nr Hn Hs junk fresh) as (segs0 & E0 & W0 & I0).
    destruct (run_vops_spec false 1 n ns nr Hn Hs Hr threads r ops segs0 _ (thok1 _ Ht) W0 (rholds_new false 1 n ns nr Hn Hs junk fresh r segs0 E0) Ho) as (segs & E & W & H & _).
    exists segs. unfold Vec.vec_history. rewrite E0. cbn [bind]. auto.
  Qed.

  Lemma vholds_ranks (v : list (list sg)) (M : Z -> Z -> option T) : vwf v -> (forall r segs, rd v r = Ok segs -> rholds r segs (M r)) ->
    vholds v (fun id => M (owner id) id).
  Proof.
    intros [L W] H r segs E. eapply rholds_ext; [eauto| |eauto]. intros id Hi <-. auto.
  Qed.

  Lemma vec_nnz_history junk fresh threads (ops : Z -> list (sop T)) : 1 <= threads -> (forall r, 0 <= r < nr -> Forall (sop_in_range n) (ops r)) ->
    exists v, mapR (fun r => vec_history junk fresh threads r (ops r)) (zrange 0 nr) = Ok v /\
     exists own, (forall id r, 1 <= id <= n -> vec_node_owner n ns nr r id = Ok (own id =? r)) /\
     vec_getNNZ ns nr v = Ok (zlen (members n (fun id => spec_sops n (ops (own id)) id))).
  Proof.
    intros Ht Ho.
    destruct (mapR_seq_all (fun r => vec_history junk fresh threads r (ops r)) (fun r segs => rwf segs /\ rholds r segs (spec_sops n (ops r))) nr) as (v & E & L & I); [lia| |].
    { intros r Hb. destruct (vec_history_spec junk fresh threads r (ops r) Ht (Ho r Hb)) as (segs & E & W). eauto. }
    exists v. split; auto. exists (fun id => owner id). split; [intros; apply node_owner_spec; auto|].
    assert (vwf v) as W by (split; auto; intros r segs Es; apply (I r segs Es)).
    eapply getNNZ_spec; eauto. apply (vholds_ranks v (fun r => spec_sops n (ops r))); auto. intros r segs Es. apply (I r segs Es).
  Qed.

  (** at most one segment per rank *)
  Hypothesis Hle : ns <= nr.

  Lemma ow_id j : 0 <= j < ns -> ow j = j.
  Proof. intros H. unfold VecProofs.ow. apply Z.mod_small. lia. Qed.

  Lemma one_live r (segs : list sg) M : rwf segs -> rholds r segs M ->
    forall j s, rd segs j = Ok s -> ow j = r -> flat_map (fun j => if ow j =? r then seg_members n ns M j else []) (zrange 0 ns) <> [] -> live s.
  Proof.
    intros [L W] H j s Ej O NE. pose proof (rd_bounds _ _ _ Ej) as B.
    assert (flat_map (fun j => if ow j =? r then seg_members n ns M j else []) (zrange 0 ns) = seg_members n ns M j) as F.
    { rewrite <- (flat_map_pick (seg_members n ns M j) j 0 ns) by lia. apply flat_map_ext_in. intros i Hi. apply in_zrange in Hi.
      rewrite (ow_id i) by lia. rewrite (ow_id j) in O by lia. subst r. rewrite Z.eqb_sym. destruct (Z.eqb_spec j i); subst; auto. }
    rewrite F in NE. unfold seg_members in NE. destruct (members (cap j) (restr n ns M j)) as [|i l] eqn:Em; [contradiction|].
    assert (In i (members (cap j) (restr n ns M j))) as Hi by (rewrite Em; simpl; auto).
    apply filter_In in Hi as [_ Hi]. destruct (restr n ns M j i) as [a|] eqn:R; [|discriminate].
    apply (bounded_live s (i - 1) (Some a)). rewrite (H j s Ej O). replace (i - 1 + 1) with i by lia. rewrite R. auto.
  Qed.

  Lemma export_spec (v : list (list sg)) M : vwf v -> vholds v M ->
    exists out, mapR (fun r => do segs <- rd v r ;; vec_get_edges n ns nr r segs) (zrange 0 nr) = Ok out /\
      Permutation (concat out) (entries M (members n M)) /\
      out = map (fun r => entries M (flat_map (fun j => if ow j =? r then seg_members n ns M j else []) (zrange 0 ns))) (zrange 0 nr).
  Proof.
    intros [L W] H.
    rewrite (mapR_map _ (fun r => entries M (flat_map (fun j => if ow j =? r then seg_members n ns M j else []) (zrange 0 ns)))).
    - eexists. split; [reflexivity|]. split; [|reflexivity].
      rewrite (members_segs n ns nr Hn Hs).
      unfold entries. rewrite <- flat_map_concat_map.
      transitivity (map (fun id => (id, M id)) (flat_map (fun r => flat_map (fun j => if ow j =? r then seg_members n ns M j else []) (zrange 0 ns)) (zrange 0 nr))).
      + rewrite !flat_map_concat_map, concat_map, map_map. auto.
      + apply Permutation_map. apply (by_owner_perm (seg_members n ns M)). intros; apply ow_range; auto.
    - intros r Hi. apply in_zrange in Hi. destruct (rd_ok v r) as [segs Es]; [lia|]. rewrite Es. cbn [bind].
      apply (get_edges_spec false 1); eauto. apply one_live; eauto.
  Qed.
End VF.

Section GV.
  Context {V byte : Type}.
  Notation sg := (seg V byte).
  Variables n nr nt : Z.
  Hypothesis Hn : 0 <= n.
  Hypothesis Hr : 1 <= nr.
  Hypothesis Hnt : 1 <= nt.
  Notation ow := (ow nr).
  Notation rwf := (rwf (T:=V) (byte:=byte) false 1 n nr).
  Notation rholds := (rholds (T:=V) (byte:=byte) n nr nr).
  Notation vwf := (vwf (T:=V) (byte:=byte) false 1 n nr nr).
  Notation vholds := (vholds (T:=V) (byte:=byte) n nr nr).

  (** a total map over user ids, in native ids *)
  Definition native (P : Z -> V) (id : Z) : option V := if (1 <=? id) && (id <=? n) then Some (P (n2v nt nr n id)) else None.

  Definition gok (r : Z) (segs : list sg) (P : Z -> V) : Prop :=
    rwf segs /\ rholds r segs (native P) /\ (forall j s, rd segs j = Ok s -> ow j = r -> live s).

  Lemma native_at (P : Z -> V) v : 1 <= v <= n -> native P (v2n nt nr n v) = Some (P v).
  Proof.
    intros H. destruct (v2n_ok nt nr n v Hnt Hr H) as [_ B]. unfold native.
    destruct (Z.leb_spec 1 (v2n nt nr n v)); [|lia]. destruct (Z.leb_spec (v2n nt nr n v) n); [|lia]. simpl. rewrite n2v_v2n; auto.
  Qed.

  Lemma gok_new junk fresh threads r (dv : V) : 1 <= threads ->
    exists segs, g_new_vp n nr junk fresh threads r dv = Ok segs /\ gok r segs (fun _ => dv).
  Proof.
    intros Ht. unfold g_new_vp. destruct (@rwf_new V byte false 1 n nr nr Hn Hr junk fresh) as (segs0 & E0 & W0 & I0). rewrite E0. cbn [bind].
    destruct (vop_spec false 1 n nr nr Hn Hr Hr threads r segs0 _ (OSetAll dv) (thok1 _ Ht) W0 (rholds_new false 1 n nr nr Hn Hr junk fresh r segs0 E0) I) as (segs & E & W & H & _ & Lv).
    exists segs. split; [exact E|]. split; auto.
  Qed.

  Lemma gok_op threads r segs P o : 1 <= threads -> gok r segs P -> gop_in_range n o ->
    exists segs', run_gop n nr nt threads r segs o = Ok segs' /\ gok r segs' (fun v => match o with GSet u a => if u =? v then a else P v | GSetAll a => a end).
  Proof.
    intros Ht (W & H & Lv) Ho. destruct o as [u a|a]; simpl in Ho.
    - destruct (v2n_ok nt nr n u Hnt Hr Ho) as [E B]. simpl. unfold g_setVertexproperty. rewrite E. cbn [bind].
      destruct (vop_spec false 1 n nr nr Hn Hr Hr threads r segs _ (OSet (v2n nt nr n u) a) (thok1 _ Ht) W H B) as (segs' & E' & W' & H' & K & Lv').
      exists segs'. split; [exact E'|]. split; auto. split.
      + eapply rholds_ext; [auto|auto|eauto| |exact H']. intros id Hi _. simpl. unfold native.
        destruct (Z.leb_spec 1 id); [|lia]. destruct (Z.leb_spec id n); [|lia]. simpl.
        destruct (Z.eqb_spec id (v2n nt nr n u)) as [->|N].
        * rewrite n2v_v2n, Z.eqb_refl; auto.
        * destruct (Z.eqb_spec u (n2v nt nr n id)) as [->|]; auto. exfalso. apply N. rewrite v2n_n2v; auto.
      + intros j s Ej O. destruct (rd_ok segs j) as [s0 E0]; [pose proof (rd_bounds _ _ _ Ej); destruct W, W'; lia|]. eauto.
    - simpl. unfold g_setAllVertexproperty.
      destruct (vop_spec false 1 n nr nr Hn Hr Hr threads r segs _ (OSetAll a) (thok1 _ Ht) W H I) as (segs' & E' & W' & H' & K & Lv').
      exists segs'. split; [exact E'|]. split; auto.
  Qed.

  Lemma gok_ops threads r ops : 1 <= threads -> Forall (gop_in_range n) ops -> forall segs P, gok r segs P ->
    exists segs', run_gops n nr nt threads r ops segs = Ok segs' /\ gok r segs' (fun v => latest (P v) ops v).
  Proof.
    intros Ht. induction ops as [|o ops IH]; intros Ho segs P G.
    - exists segs. split; auto.
    - inversion Ho as [|? ? O1 O2]; subst. destruct (gok_op threads r segs P o Ht G O1) as (segs1 & E1 & G1).
      destruct (IH O2 segs1 _ G1) as (segs2 & E2 & G2). exists segs2. unfold run_gops in *. simpl. rewrite E1. cbn [bind]. split; auto.
  Qed.

  Lemma graph_history_ok junk fresh threads r dv ops : 1 <= threads -> Forall (gop_in_range n) ops ->
    exists segs, run_graph_history n nr nt junk fresh threads r dv ops = Ok segs /\ gok r segs (latest dv ops).
  Proof.
    intros Ht Ho. destruct (gok_new junk fresh threads r dv Ht) as (segs0 & E0 & G0).
    destruct (gok_ops threads r ops Ht Ho segs0 _ G0) as (segs & E & G). exists segs. unfold run_graph_history. rewrite E0. auto.
  Qed.

  Lemma owner_spec r v : 1 <= v <= n -> g_vertexNodeOwner n nr nt r v = Ok (ow (vpart n nr (v2n nt nr n v)) =? r).
  Proof.
    intros H. unfold g_vertexNodeOwner. destruct (v2n_ok nt nr n v Hnt Hr H) as [E B]. rewrite E. cbn [bind]. apply node_owner_spec; auto.
  Qed.
  Lemma get_spec r v dv segs P : gok r segs P -> 1 <= v <= n ->
    g_getVertexproperty n nr nt r v dv segs = Ok (Some (if ow (vpart n nr (v2n nt nr n v)) =? r then P v else dv)).
  Proof.
    intros (W & H & _) Hv. unfold g_getVertexproperty. destruct (v2n_ok nt nr n v Hnt Hr Hv) as [E B]. rewrite E. cbn [bind].
    rewrite (vec_get_spec false 1 n nr nr Hn Hr Hr r _ _ segs (native P) (P v) W H B (native_at P v Hv)).
    destruct (_ =? r); auto.
  Qed.

  Lemma history_map junk fresh threads dv (hist : Z -> list (@gop V)) : 1 <= threads -> (forall r, 0 <= r < nr -> Forall (gop_in_range n) (hist r)) ->
    (forall v, 1 <= v <= n -> exists o, 0 <= o < nr /\ forall r, 0 <= r < nr -> g_vertexNodeOwner n nr nt r v = Ok (o =? r)) /\
    (forall r, 0 <= r < nr -> exists segs : list sg, run_graph_history n nr nt junk fresh threads r dv (hist r) = Ok segs /\
      forall v d, 1 <= v <= n -> exists o, g_vertexNodeOwner n nr nt r v = Ok o /\
        g_getVertexproperty n nr nt r v d segs = Ok (Some (if o : bool then latest dv (hist r) v else d))).
  Proof.
    intros Ht Ho. split.
    - intros v Hv. exists (ow (vpart n nr (v2n nt nr n v))). split; [apply ow_range; auto|]. intros; apply owner_spec; auto.
    - intros r Hb. destruct (graph_history_ok junk fresh threads r dv (hist r) Ht (Ho r Hb)) as (segs & E & G). exists segs. split; auto.
      intros v d Hv. eexists. split; [apply owner_spec; auto|]. apply get_spec; auto.
  Qed.

  (** ** exporting and saving *)
  Lemma native_members (P : Z -> V) : members n (native P) = zrange 1 (n + 1).
  Proof.
    unfold members. assert (forall l, (forall x, In x l -> 1 <= x <= n) -> filter (fun id => is_some (native P id)) l = l) as G.
    { induction l as [|x l IH]; intros H; simpl; auto. assert (1 <= x <= n) as B by (apply H; simpl; auto).
      unfold native at 1. destruct (Z.leb_spec 1 x); [|lia]. destruct (Z.leb_spec x n); [|lia]. simpl. f_equal. apply IH. intros; apply H; simpl; auto. }
    apply G. intros x Hx. apply in_zrange in Hx. lia.
  Qed.

  Lemma perm_native : Permutation (map (n2v nt nr n) (zrange 1 (n + 1))) (zrange 1 (n + 1)).
  Proof.
    apply NoDup_Permutation.
    - assert (forall l, (forall x, In x l -> 1 <= x <= n) -> NoDup l -> NoDup (map (n2v nt nr n) l)) as G.
      { induction l as [|x l IH]; intros H N; simpl; constructor; inv N.
        - intros Hin. apply in_map_iff in Hin as (y & E & Hy). apply H2.
          assert (y = x) as <-; auto. rewrite <- (v2n_n2v nt nr n y), <- (v2n_n2v nt nr n x), E; auto; apply H; simpl; auto.
        - apply IH; auto. intros; apply H; simpl; auto. }
      apply G; [intros x Hx; apply in_zrange in Hx; lia|apply NoDup_zrange].
    - apply NoDup_zrange.
    - intros x. rewrite in_map_iff, in_zrange. split.
      + intros (y & <- & Hy). apply in_zrange in Hy. destruct (n2v_ok nt nr n y Hnt Hr); lia.
      + intros Hx. exists (v2n nt nr n x). destruct (v2n_ok nt nr n x Hnt Hr); [lia|]. rewrite n2v_v2n, in_zrange by (auto; lia). lia.
  Qed.

  Definition gall (vp : list (list sg)) (P : Z -> V) : Prop := zlen vp = nr /\ forall r segs, rd vp r = Ok segs -> gok r segs P.

  Lemma concat_mapR_map {A B} (f : A -> R B) (g : A -> B) (ls : list (list A)) : (forall a, In a (concat ls) -> f a = Ok (g a)) ->
    mapR (fun l => mapR f l) ls = Ok (map (map g) ls).
  Proof.
    intros H. apply mapR_map. intros l Hl. apply mapR_map. intros a Ha. apply H. apply in_concat. eauto.
  Qed.

  Lemma mapR_bind {A B C} (f : A -> R B) (g : B -> R C) l bs : mapR f l = Ok bs -> mapR (fun a => do b <- f a ;; g b) l = mapR g bs.
  Proof.
    revert bs. induction l as [|a l IH]; intros bs H; simpl in *; [inv H; auto|].
    apply bind_Ok in H as (b & Eb & H). apply bind_Ok in H as (bs' & E & H). inv H. rewrite Eb. cbn [bind mapR]. rewrite (IH _ E). auto.
  Qed.

  Lemma vertex_export vp P : gall vp P ->
    exists blobs, mapR (fun r => do segs <- rd vp r ;; g_getVertexEdgelist n nr nt r segs) (zrange 0 nr) = Ok blobs /\ zlen blobs = nr /\
      Permutation (concat blobs) (map (fun v => (v, P v)) (zrange 1 (n + 1))).
  Proof.
    intros [L G]. assert (vwf vp) as W by (split; auto; intros r segs E; apply (G r segs E)).
    assert (vholds vp (native P)) as H by (intros r segs E; apply (G r segs E)).
    destruct (export_spec n nr nr Hn Hr Hr ltac:(lia) vp (native P) W H) as (out & E & Pm & Eo).
    set (conv := fun e : Z * option V => do a <- need (snd e) ;; do v <- nativeToVertex nt nr n (fst e) ;; Ok (v, a)).
    set (cv := fun e : Z * option V => (n2v nt nr n (fst e), P (n2v nt nr n (fst e)))).
    exists (map (map cv) out). split; [|split].
    - transitivity (mapR (fun es => mapR conv es) out).
      + rewrite <- (mapR_bind _ (fun es => mapR conv es) _ _ E). apply mapR_ext.
        intros r _. unfold g_getVertexEdgelist. destruct (rd vp r) as [segs|e]; cbn [bind]; auto.
      + apply concat_mapR_map. intros e He. eapply Permutation_in in He; [|exact Pm]. apply in_map_iff in He as (id & <- & Hid).
        rewrite native_members in Hid. apply in_zrange in Hid. unfold conv, cv. simpl. unfold native.
        destruct (Z.leb_spec 1 id); [|lia]. destruct (Z.leb_spec id n); [|lia]. simpl.
        destruct (n2v_ok nt nr n id Hnt Hr ltac:(lia)) as [Ev _]. rewrite Ev. auto.
    - rewrite Eo. rewrite !zlen_map, zlen_zrange; lia.
    - rewrite <- concat_map. transitivity (map cv (entries (native P) (members n (native P)))); [apply Permutation_map; auto|].
      rewrite native_members. unfold entries, cv. rewrite map_map. simpl.
      transitivity (map (fun v => (v, P v)) (map (n2v nt nr n) (zrange 1 (n + 1)))); [rewrite map_map; auto|].
      apply Permutation_map, perm_native.
  Qed.

  Lemma save_spec junk fresh threads vp P : 1 <= threads -> gall vp P ->
    exists file : Z -> list (Z * option V),
      g_saveVertexproperty n nr nt junk fresh threads vp = Ok (map (fun r => [(r, file r)]) (zrange 0 nr)) /\
      concat (map file (zrange 0 nr)) = map (fun v => (v - 1, Some (P v))) (zrange 1 (n + 1)).
  Proof.
    intros Ht G. destruct (vertex_export vp P G) as (blobs & Eb & Lb & Pb).
    unfold g_saveVertexproperty. rewrite Eb. cbn [bind].
    destruct (mapR_seq_all (fun _ => @vec_new V byte n nr junk fresh) (fun r segs => rwf segs /\ rholds r segs (fun _ => None)) nr ltac:(lia)) as (v2 & E2 & L2 & I2).
    { intros r Hb. destruct (@rwf_new V byte false 1 n nr nr Hn Hr junk fresh) as (segs0 & E0 & W0 & _). exists segs0. split; auto. split; auto.
      eapply (rholds_new false 1); eauto. }
    rewrite E2. cbn [bind].
    assert (forall x, In x (concat blobs) <-> exists v, 1 <= v <= n /\ x = (v, P v)) as Inb.
    { intros x. split.
      - intros Hx. eapply Permutation_in in Hx; [|exact Pb]. apply in_map_iff in Hx as (v & <- & Hv). apply in_zrange in Hv. exists v. split; [lia|auto].
      - intros (v & Hv & ->). eapply Permutation_in; [symmetry; exact Pb|]. apply in_map_iff. exists v. split; auto. apply in_zrange. lia. }
    destruct (ingest_spec false 1 n nr nr Hn Hr Hr threads blobs v2 (fun _ => None) (thok1 _ Ht)) as (v3 & E3 & W3 & H3 & K3).
    { split; auto. intros r segs Q. apply (I2 r segs Q). }
    { intros r segs Q. apply (I2 r segs Q). }
    { auto. }
    { intros e He. apply Inb in He as (v & Hv & ->). auto. }
    rewrite E3. cbn [bind]. set (M2 := ingested (fun _ : Z => None) (concat blobs)) in *.
    assert (forall id, 1 <= id <= n -> M2 id = Some (P id)) as M2at.
    { intros id Hi. unfold M2, ingested. rewrite (lastv_unique (concat blobs) id (P id)); auto.
      - eapply Permutation_NoDup; [apply Permutation_map; symmetry; exact Pb|]. rewrite map_map. simpl. rewrite map_id. apply NoDup_zrange.
      - apply Inb. eauto. }
    exists (fun j => map (fun id => (id - 1, M2 id)) (seg_members n nr M2 j)). split.
    - apply mapR_map. intros r Hb. apply in_zrange in Hb. destruct W3 as [L3 W3]. destruct (rd_ok v3 r) as [segs Es]; [lia|]. rewrite Es. cbn [bind].
      rewrite (vec_save_spec false 1 n nr nr Hn Hr Hr r segs M2); [|exact (W3 r segs Es)|exact (H3 r segs Es)|].
      + f_equal. rewrite <- (flat_map_pick [(r, map (fun id => (id - 1, M2 id)) (seg_members n nr M2 r))] r 0 nr) by lia.
        apply flat_map_ext_in. intros j Hj. apply in_zrange in Hj. rewrite (ow_id nr nr ltac:(lia) j Hj).
        destruct (Z.eqb_spec j r) as [->|N]; [rewrite Z.eqb_refl; auto|]. destruct (Z.eqb_spec r j); [lia|auto].
      + intros j s Ej O. destruct (W3 r segs Es) as [Ls Ws]. pose proof (rd_bounds _ _ _ Ej) as Bj. destruct (Ws j s Ej) as [_ C].
        destruct (Z.eq_dec (s_cap s) 0) as [|Nz]; auto. right.
        pose proof (cap_nonneg n nr Hn Hr j) as Cn. rewrite C in Nz.
        destruct (seg_ids n nr Hn Hr j (st n nr j + 1) ltac:(lia)) as [_ S]. destruct S as [S1 S2]; [lia|].
        destruct (rd_ok v2 r) as [segs2 Es2]; [lia|]. destruct (I2 r segs2 Es2) as (_ & [L2' _] & _). destruct (rd_ok segs2 j) as [s2 Ej2]; [lia|].
        destruct (K3 r segs2 segs j s2 s Es2 Es Ej2 Ej) as (_ & _ & K). apply K; auto.
        exists (st n nr j + 1, P (st n nr j + 1)). split; [apply Inb; eauto|auto].
    - rewrite <- flat_map_concat_map.
      transitivity (map (fun id => (id - 1, M2 id)) (flat_map (seg_members n nr M2) (zrange 0 nr))).
      { rewrite !flat_map_concat_map, concat_map, map_map. auto. }
      pose proof (members_segs n nr nr Hn Hr M2) as Ms. fold (seg_members n nr M2) in Ms. change (fun j => map (fun i => st n nr j + i) (members (cap n nr j) (restr n nr M2 j))) with (seg_members n nr M2) in Ms. rewrite <- Ms. clear Ms.
      assert (members n M2 = zrange 1 (n + 1)) as ->.
      { unfold members. assert (forall l, (forall x, In x l -> 1 <= x <= n) -> filter (fun id => is_some (M2 id)) l = l) as F.
        { induction l as [|x l IH]; intros Hl; simpl; auto. rewrite M2at by (apply Hl; simpl; auto). simpl. f_equal. apply IH. intros; apply Hl; simpl; auto. }
        apply F. intros x Hx. apply in_zrange in Hx. lia. }
      apply map_ext_in. intros id Hi. apply in_zrange in Hi. rewrite M2at by lia. auto.
  Qed.

  Lemma save_history junk fresh threads dv ops : 1 <= threads -> Forall (gop_in_range n) ops ->
    exists vp : list (list sg), mapR (fun r => run_graph_history n nr nt junk fresh threads r dv ops) (zrange 0 nr) = Ok vp /\
    exists file : Z -> list (Z * option V),
      g_saveVertexproperty n nr nt junk fresh threads vp = Ok (map (fun r => [(r, file r)]) (zrange 0 nr)) /\
      concat (map file (zrange 0 nr)) = map (fun v => (v - 1, Some (latest dv ops v))) (zrange 1 (n + 1)).
  Proof.
    intros Ht Ho.
    destruct (mapR_seq_all (fun r => run_graph_history n nr nt junk fresh threads r dv ops) (fun r segs => gok r segs (latest dv ops)) nr ltac:(lia)) as (vp & E & L & I).
    { intros r Hb. apply graph_history_ok; auto. }
    exists vp. split; auto. apply (save_spec junk fresh threads vp (latest dv ops)); auto. split; auto. intros r segs Q. apply (I r segs Q).
  Qed.
End GV.

Section Ingest.
  Context {T byte : Type}.
  Notation sg := (seg T byte).
  Variables n ns nr : Z.
  Hypothesis Hn : 0 <= n.
  Hypothesis Hs : 1 <= ns.
  Hypothesis Hr : 1 <= nr.

  Lemma ingest_fresh junk fresh threads (blobs : list (list (Z * T))) : 1 <= threads -> zlen blobs = nr ->
    (forall e, In e (concat blobs) -> 1 <= fst e <= n) ->
    exists v v' : list (list sg), mapR (fun _ => vec_new n ns junk fresh) (zrange 0 nr) = Ok v /\ vec_ingest n ns nr threads blobs v = Ok v' /\
      vwf false 1 n ns nr v' /\ vholds n ns nr v' (fun id => lastv (concat blobs) id).
  Proof.
    intros Ht Lb He.
    destruct (mapR_seq_all (fun _ => @vec_new T byte n ns junk fresh) (fun r segs => rwf false 1 n ns segs /\ rholds n ns nr r segs (fun _ => None)) nr ltac:(lia)) as (v & E & L & I).
    { intros r Hb. destruct (@rwf_new T byte false 1 n ns nr Hn Hs junk fresh) as (segs0 & E0 & W0 & _). exists segs0. split; auto. split; auto.
      eapply (rholds_new false 1); eauto. }
    destruct (ingest_spec false 1 n ns nr Hn Hs Hr threads blobs v (fun _ => None) (thok1 _ Ht)) as (v' & E' & W' & H' & _); auto.
    { split; auto. intros r segs Q. apply (I r segs Q). }
    { intros r segs Q. apply (I r segs Q). }
    exists v, v'. split; auto. split; auto. split; auto. intros r segs Q. eapply (rholds_ext n ns nr Hn Hs); [apply (proj2 W' r segs Q)| |apply (H' r segs Q)].
    intros id _ _. unfold ingested. destruct (lastv (concat blobs) id); auto.
  Qed.

  Lemma members_nodup (M : Z -> option T) : NoDup (members n M).
  Proof. apply NoDup_filter, NoDup_zrange. Qed.

  Lemma ingest_lookup junk fresh threads (blobs : list (list (Z * T))) : 1 <= threads -> zlen blobs = nr ->
    (forall e, In e (concat blobs) -> 1 <= fst e <= n) ->
    exists v v' : list (list sg), mapR (fun _ => vec_new n ns junk fresh) (zrange 0 nr) = Ok v /\ vec_ingest n ns nr threads blobs v = Ok v' /\
      vec_getNNZ ns nr v' = Ok (zlen (nodup Z.eq_dec (map fst (concat blobs)))) /\
      (forall id a, lastv (concat blobs) id = Some a -> exists o, 0 <= o < nr /\ exists segs, rd v' o = Ok segs /\
          vec_node_owner n ns nr o id = Ok true /\ forall d, vec_get n ns nr o id d segs = Ok (Some a)) /\
      (ns <= nr -> exists out, mapR (fun r => do segs <- rd v' r ;; vec_get_edges n ns nr r segs) (zrange 0 nr) = Ok out /\
          Permutation (concat out) (map (fun id => (id, lastv (concat blobs) id)) (nodup Z.eq_dec (map fst (concat blobs))))).
  Proof.
    intros Ht Lb He. destruct (ingest_fresh junk fresh threads blobs Ht Lb He) as (v & v' & E & E' & W & H).
    exists v, v'. split; auto. split; auto.
    assert (Permutation (members n (fun id => lastv (concat blobs) id)) (nodup Z.eq_dec (map fst (concat blobs)))) as P.
    { apply NoDup_Permutation; [apply members_nodup|apply NoDup_nodup|]. intros id. rewrite nodup_In. unfold members. rewrite filter_In, in_zrange. split.
      - intros [_ S]. destruct (lastv (concat blobs) id) as [a|] eqn:Q; [|discriminate]. apply lastv_In in Q. apply (in_map fst) in Q. auto.
      - intros Hin. split.
        + apply in_map_iff in Hin as (e & <- & Hin). apply He in Hin. lia.
        + destruct (lastv (concat blobs) id) eqn:Q; auto. apply lastv_none in Q. contradiction. }
    split; [|split].
    - rewrite (getNNZ_spec false 1 n ns nr Hn Hs Hr v' _ W H). f_equal. unfold zlen. f_equal. apply Permutation_length; auto.
    - intros id a Q. pose proof (lastv_In _ _ _ Q) as Hin. apply He in Hin. simpl in Hin.
      exists (ow nr (vpart n ns id)). pose proof (ow_range nr Hr (vpart n ns id)) as B. split; auto. destruct W as [L W].
      destruct (rd_ok v' (ow nr (vpart n ns id))) as [segs Es]; [lia|]. exists segs. split; auto.
      split; [rewrite (node_owner_spec n ns nr Hn Hs Hr) by auto; rewrite Z.eqb_refl; auto|].
      intros d. rewrite (vec_get_spec false 1 n ns nr Hn Hs Hr _ _ _ segs (fun id => lastv (concat blobs) id) a (W _ _ Es) (H _ _ Es) Hin Q), Z.eqb_refl. auto.
    - intros Hle. destruct (export_spec n ns nr Hn Hs Hr Hle v' _ W H) as (out & Eo & Po & _). exists out. split; auto.
      rewrite Po. unfold entries. apply Permutation_map. auto.
  Qed.

End Ingest.

Lemma nodup_id (l : list Z) : NoDup l -> nodup Z.eq_dec l = l.
Proof. apply nodup_fixed_point. Qed.

Lemma ingest_distinct {T byte : Type} n ns nr (Hn : 0 <= n) (Hs : 1 <= ns <= nr) junk fresh threads (blobs : list (list (Z * T))) :
  1 <= threads -> zlen blobs = nr -> (forall e, In e (concat blobs) -> 1 <= fst e <= n) -> NoDup (map fst (concat blobs)) ->
  exists v v' : list (list (seg T byte)), mapR (fun _ => vec_new n ns junk fresh) (zrange 0 nr) = Ok v /\ vec_ingest n ns nr threads blobs v = Ok v' /\
    vec_getNNZ ns nr v' = Ok (zlen (concat blobs)) /\
    exists out, mapR (fun r => do segs <- rd v' r ;; vec_get_edges n ns nr r segs) (zrange 0 nr) = Ok out /\
        Permutation (concat out) (map (fun e => (fst e, Some (snd e))) (concat blobs)).
Proof.
  intros Ht Lb He Nd. destruct (@ingest_lookup T byte n ns nr Hn ltac:(lia) ltac:(lia) junk fresh threads blobs Ht Lb He) as (v & v' & E & E' & N & _ & X).
  rewrite nodup_id in N, X by exact Nd. rewrite zlen_map in N. exists v, v'. split; auto. split; auto. split; auto.
  destruct (X ltac:(lia)) as (out & Eo & P). exists out. split; auto. rewrite P. rewrite map_map.
  assert (map (fun x : Z * T => (fst x, lastv (concat blobs) (fst x))) (concat blobs) = map (fun e => (fst e, Some (snd e))) (concat blobs)) as ->; auto.
  apply map_ext_in. intros [id a] Hin. simpl. rewrite (lastv_unique _ id a); auto.
Qed.

Lemma export_many_segments_bad : exists (v v' : list (list (seg Z unit))),
  mapR (fun _ => vec_new 512 2 (fun _ => 0) None) (zrange 0 1) = Ok v /\ vec_ingest 512 2 1 1 [[(1, 5)]] v = Ok v' /\
  mapR (fun r => do segs <- rd v' r ;; vec_get_edges 512 2 1 r segs) (zrange 0 1) = Err NullDeref.
Proof. do 2 eexists. split; [vm_compute; reflexivity|]. split; [vm_compute; reflexivity|]. vm_compute; reflexivity. Qed.
