(** Edges whose vertex numbers do not exist (C92). *)
From Coq Require Import Permutation.
From Verif Require Import Base BaseLemmas ListLemmas Layout LayoutProofs DCSC SpMat MatSpec GraphVert Graph Runtime GraphOps GraphHist Apps EdgeList FileIO Cmd CmdProofs CmdArgsProofs AppExample PropsMat PropsApps PropsCmdArgs VertexIdProofs PropsVertexIds.

Lemma mapR_fails {A B} (f : A -> R B) l x : In x l -> (exists e, f x = Err e) -> exists e, mapR f l = Err e.
Proof.
  intros I (e & Ee). induction l as [|a l IH]; [destruct I|]. cbn [mapR]. destruct I as [->|I]; [rewrite Ee; exists e; reflexivity|]. destruct (f a) as [b|e']; [|exists e'; reflexivity]. cbn [bind]. destruct (IH I) as (e' & ->). exists e'. reflexivity.
Qed.
Lemma mapR_same {A B} (f g : A -> R B) l : (forall a, In a l -> f a = g a) -> mapR f l = mapR g l.
Proof. intros H. induction l as [|a l IH]; [reflexivity|]. cbn [mapR]. rewrite (H a) by (left; auto). rewrite IH by (intros; apply H; right; auto). reflexivity. Qed.
Lemma mapR_of_map {A B C} (f : B -> R C) (g : A -> B) l : mapR f (map g l) = mapR (fun a => f (g a)) l.
Proof. induction l as [|a l IH]; [reflexivity|]. cbn [map mapR]. rewrite IH. reflexivity. Qed.
Lemma mat_part_out n ns s d : 0 <= n -> 1 <= ns -> ~ (1 <= s <= n) \/ ~ (1 <= d <= n) -> exists i j, mat_getPartition n n ns ns s d = Ok (i, j, -1).
Proof.
  intros Hn Hs H. unfold mat_getPartition. rewrite !mat_starts_eq. fold (vec_getPartition n ns s). fold (vec_getPartition n ns d).
  rewrite (vpart_ok n ns s), (vpart_ok n ns d) by auto. cbn [bind]. exists (vpart n ns s), (vpart n ns d).
  assert ((vpart n ns s =? -1) || (vpart n ns d =? -1) = true) as ->; [|reflexivity].
  destruct H as [H|H]; unfold vpart; rewrite (vec_getPartition_out _ _ _ Hn Hs H); [reflexivity|apply orb_true_r].
Qed.

Lemma Forall2_left {A B} (P : A -> B -> Prop) l l' x : Forall2 P l l' -> In x l -> exists y, In y l' /\ P x y.
Proof. induction 1 as [|a b l l' Hab _ IH]; intros I; [destruct I|]. destruct I as [->|I]; [exists b; split; [left; auto|auto]|]. destruct (IH I) as (y & Iy & Py). exists y. split; [right; auto|auto]. Qed.

(** the edge with 1 in the place of a number that is taken for it *)
Definition edge_used {E} (T ranks n : Z) (e : edge E) : edge E := mkE (number_used T ranks n (e_src e)) (number_used T ranks n (e_dst e)) (e_val e).

Section Edges.
  Context {V E byte : Type}.
  Variables (m : machine V E byte) (dv : V) (n : Z).
  Hypothesis (Hm : machine_ok m) (Hn : 0 <= n).
  Lemma native_defined v : exists w, vertexToNative (m_nt m) (m_nr m) n v = Ok w.
  Proof. destruct Hm as (H1 & H2 & _). unfold vertexToNative, npartitions. destruct (Z.eqb_spec (m_nt m * 16 * m_nr m) 0); [nia|]. cbv zeta. destruct (_ <=? _); eauto. Qed.
  Lemma mat_new_fails blobs e : zlen blobs = m_nr m -> In e (concat blobs) -> ~ (1 <= e_src e <= n) \/ ~ (1 <= e_dst e <= n) ->
    exists x, mat_new (m_srt m) (m_tsrt m) (m_nr m) (m_nt m) (m_junkA m) n n (m_nr m) (m_nr m) blobs = Err x.
  Proof.
    intros L I H. assert (1 <= m_nr m) as Hr by (apply Hm). destruct (mat_part_out n (m_nr m) _ _ Hn Hr H) as (i & j & Ep). apply in_concat in I as (b & Ib & Ie).
    unfold mat_new. destruct (assertb (0 <? m_nr m)); [|eexists; reflexivity]. cbn [bind]. destruct (mat_nodeIds _ _ _) as [ids|]; [|eexists; reflexivity]. cbn [bind]. destruct (Z.eqb_spec (m_nr m) 1) as [e1|N1].
    - destruct blobs as [|b0 [|b1 l]]; [destruct Ib| |unfold zlen in L; cbn in L; lia]. destruct Ib as [->|[]].
      match goal with |- context [mapR ?f (zrange 0 (m_nr m))] => destruct (mapR_fails f (zrange 0 (m_nr m)) 0) as (x & ->) end; [apply in_zrange; lia| |exists x; reflexivity].
      cbn [rd]. unfold rd. cbn. unfold ingest_recv. destruct (mapR_fails (tag_tile n n (m_nr m) (m_nr m)) b e Ie) as (x & ->); [|exists x; reflexivity]. unfold tag_tile. rewrite Ep. exists AssertFail. reflexivity.
    - match goal with |- context [mapR ?f blobs] => destruct (mapR_fails f blobs b Ib) as (x & ->) end; [|exists x; reflexivity].
      unfold ingest_send. destruct (mapR_fails (tag_owner n n (m_nr m) (m_nr m) ids) b e Ie) as (x & ->); [|exists x; reflexivity]. unfold tag_owner. rewrite Ep. exists AssertFail. reflexivity.
  Qed.

  Lemma edges_refused blobs e : zlen blobs = m_nr m -> In e (concat blobs) -> no_vertex (m_nt m) (m_nr m) n (e_src e) \/ no_vertex (m_nt m) (m_nr m) n (e_dst e) ->
    exists x, load m dv n blobs = Err x.
  Proof.
    intros L I H. unfold load, g_ReadEdgelist. destruct (mapR _ blobs) as [nb|x] eqn:En; [|exists x; reflexivity]. cbn [bind].
    assert (exists e', In e' (concat nb) /\ (~ (1 <= e_src e' <= n) \/ ~ (1 <= e_dst e' <= n))) as (e' & I' & H').
    { apply in_concat in I as (b & Ib & Ie). apply mapR_Ok in En.
      destruct (Forall2_left _ _ _ _ En Ib) as (b' & Ib' & Eb). apply mapR_Ok in Eb. destruct (Forall2_left _ _ _ _ Eb Ie) as (e' & Ie' & Ee). exists e'. split; [apply in_concat; eauto|].
      unfold edge_to_native in Ee. apply bind_ok in Ee as (s & Es & Ee). apply bind_ok in Ee as (t & Et & Ee). injection Ee as <-. cbn [e_src e_dst].
      destruct H as [[Hv Nt]|[Hv Nt]]; destruct (source_cases m n _ Hm Hn Hv) as [_ C2]; destruct (C2 Nt) as (w & Ew & Hw); [left|right]; congruence. }
    destruct (mat_new_fails nb e') as (x & ->); [|exact I'|exact H'|exists x; reflexivity].
    unfold zlen in *. rewrite (mapR_length _ _ _ En). exact L.
  Qed.

  Lemma edges_taken blobs : load m dv n blobs = load m dv n (map (map (edge_used (m_nt m) (m_nr m) n)) blobs).
  Proof.
    unfold load, g_ReadEdgelist. rewrite mapR_of_map.
    assert (mapR (mapR (edge_to_native (m_nr m) (m_nt m) n)) blobs = mapR (fun b => mapR (edge_to_native (m_nr m) (m_nt m) n) (map (edge_used (m_nt m) (m_nr m) n) b)) blobs) as <-; [|reflexivity].
    apply mapR_same. intros b _. rewrite mapR_of_map. apply mapR_same. intros e _. unfold edge_to_native. cbn [edge_used e_src e_dst e_val]. rewrite <- !used_same by auto. reflexivity.
  Qed.

  Lemma edges_loaded blobs : zlen blobs = m_nr m ->
    (forall e, In e (concat blobs) -> (1 <= e_src e <= n \/ taken_for_1 (m_nt m) (m_nr m) n (e_src e)) /\ (1 <= e_dst e <= n \/ taken_for_1 (m_nt m) (m_nr m) n (e_dst e))) -> 1 <= n ->
    exists g outs, load m dv n blobs = Ok g /\ GraphHist.read_edges m g = Ok outs /\ Permutation (concat outs) (map (edge_used (m_nt m) (m_nr m) n) (concat blobs)).
  Proof.
    intros L H N1. rewrite edges_taken. unfold load. destruct Hm as (H1 & H2 & S1 & S2 & _).
    assert (forall v, 1 <= v <= n \/ taken_for_1 (m_nt m) (m_nr m) n v -> 1 <= number_used (m_nt m) (m_nr m) n v <= n) as U.
    { intros v Hv. unfold number_used, taken_for_1 in *. destruct ((n <? 16 * m_nt m * m_nr m) && (- (16 * m_nt m * m_nr m) <? v - 1) && (v - 1 <? 0)) eqn:Q; lia. }
    destruct (C02_load_then_export (byte := byte) (m_srt m) (m_tsrt m) (m_nr m) (m_nt m) (m_junkA m) (m_junkT m) (m_vjunk m) (m_ajunk m) (m_vfresh m) (m_afresh m) dv n (map (map (edge_used (m_nt m) (m_nr m) n)) blobs)) as (g & b' & outs & Eg & Eo & P); auto.
    - unfold zlen in *. rewrite map_length. exact L.
    - intros e I. rewrite <- concat_map in I. apply in_map_iff in I as (e0 & <- & I). destruct (H e0 I). cbn [edge_used e_src e_dst]. auto.
    - exists g, outs. rewrite Eg. split; [reflexivity|]. split; [exact Eo|]. rewrite concat_map. exact P.
  Qed.
End Edges.

(** [blobs]: the edges each rank passes.  If any end of any edge on any rank is no vertex, and not taken for
    vertex 1, the graph is not loaded. *)
Theorem C92_refused {V E byte} (m : machine V E byte) (dv : V) n blobs e : machine_ok m -> 0 <= n -> zlen blobs = m_nr m ->
  In e (concat blobs) -> no_vertex (m_nt m) (m_nr m) n (e_src e) \/ no_vertex (m_nt m) (m_nr m) n (e_dst e) -> exists x, load m dv n blobs = Err x.
Proof. intros Hm Hn. apply edges_refused; auto. Qed.
Print Assumptions C92_refused.

(** Deviation: numbers taken for vertex 1 are not refused, and the graph is the one with 1 in their place. *)
Theorem C92_taken_for_1 {V E byte} (m : machine V E byte) (dv : V) n blobs : machine_ok m -> 0 <= n ->
  load m dv n blobs = load m dv n (map (map (edge_used (m_nt m) (m_nr m) n)) blobs).
Proof. intros Hm Hn. apply edges_taken; auto. Qed.
Print Assumptions C92_taken_for_1.

(** All together: what is loaded, if no number is refused. *)
Theorem C92_loaded {V E byte} (m : machine V E byte) (dv : V) n blobs : machine_ok m -> 1 <= n -> zlen blobs = m_nr m ->
  (forall e, In e (concat blobs) -> (1 <= e_src e <= n \/ taken_for_1 (m_nt m) (m_nr m) n (e_src e)) /\ (1 <= e_dst e <= n \/ taken_for_1 (m_nt m) (m_nr m) n (e_dst e))) ->
  exists g outs, load m dv n blobs = Ok g /\ GraphHist.read_edges m g = Ok outs /\ Permutation (concat outs) (map (edge_used (m_nt m) (m_nr m) n) (concat blobs)).
Proof. intros Hm Hn L H. apply edges_loaded; auto. lia. Qed.
Print Assumptions C92_loaded.

(** Edges counted from 0, as other tools write them: on a graph of fewer than 16 * threads * ranks vertices they are
    loaded without any sign, with vertices 0 and 1 merged. *)
Theorem C92_counted_from_0 {V E byte} (m : machine V E byte) (dv : V) n blobs : machine_ok m -> 1 <= n < 16 * m_nt m * m_nr m -> zlen blobs = m_nr m ->
  (forall e, In e (concat blobs) -> 0 <= e_src e < n /\ 0 <= e_dst e < n) ->
  exists g outs, load m dv n blobs = Ok g /\ GraphHist.read_edges m g = Ok outs /\
    Permutation (concat outs) (map (fun e => mkE (Z.max 1 (e_src e)) (Z.max 1 (e_dst e)) (e_val e)) (concat blobs)).
Proof.
  intros Hm Hn L H. destruct (C92_loaded m dv n blobs Hm ltac:(lia) L) as (g & outs & Eg & Eo & P).
  - intros e I. destruct (H e I). unfold taken_for_1. lia.
  - exists g, outs. split; [exact Eg|]. split; [exact Eo|]. rewrite P. apply Permutation_refl'. apply map_ext_in. intros e I. destruct (H e I). unfold edge_used, number_used.
    f_equal; match goal with |- context [if ?b then _ else _] => destruct b eqn:Q end; lia.
Qed.
Print Assumptions C92_counted_from_0.

(** a path 0 - 1 - 2 - 3 - 4 counted from 0 becomes a loop at 1 and the path 1 - 2 - 3 - 4 *)
Definition c92_blobs : list (list (edge Z)) := [[mkE 0 1 5; mkE 1 2 6]; [mkE 2 3 7; mkE 3 4 8]].
Definition c92_load (n : Z) (blobs : list (list (edge Z))) : R (list (list (edge Z))) := do g <- load (ax_m z_to z_of true) 4 n blobs ;; GraphHist.read_edges (ax_m z_to z_of true) g.
Example C92_example :
  machine_ok (ax_m z_to z_of true) /\ (forall e, In e (concat c92_blobs) -> 0 <= e_src e < 5 /\ 0 <= e_dst e < 5) /\ 5 < 16 * m_nt (ax_m z_to z_of true) * m_nr (ax_m z_to z_of true) /\
  (exists outs, c92_load 5 c92_blobs = Ok outs /\ Permutation (concat outs) [mkE 1 1 5; mkE 1 2 6; mkE 2 3 7; mkE 3 4 8]) /\
  no_vertex 3 2 5 6 /\ c92_load 5 [[mkE 1 2 6]; [mkE 6 1 7]] = Err AssertFail /\ no_vertex 3 2 96 0 /\ c92_load 96 c92_blobs = Err AssertFail.
Proof.
  assert (forall e, In e (concat c92_blobs) -> 0 <= e_src e < 5 /\ 0 <= e_dst e < 5) as B by (cbn; intuition subst; cbn; lia).
  assert (machine_ok (ax_m z_to z_of true)) as M by (apply ax_m_ok, z_ok). split; [exact M|]. split; [exact B|]. split; [cbn; lia|]. split.
  - destruct (C92_counted_from_0 (ax_m z_to z_of true) 4 5 c92_blobs M ltac:(cbn; lia) eq_refl B) as (g & outs & Eg & Eo & P). exists outs. unfold c92_load. rewrite Eg. cbn [bind]. split; [exact Eo|exact P].
  - unfold no_vertex, taken_for_1. split; [lia|]. split; [vm_compute; reflexivity|]. split; [lia|vm_compute; reflexivity].
Qed.
