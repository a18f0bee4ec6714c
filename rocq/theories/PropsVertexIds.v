(** Calls with vertex numbers that do not exist (C91). *)
From Verif Require Import Base BaseLemmas ListLemmas Layout LayoutProofs DCSC SpMat MatSpec GraphVert Graph Runtime GraphOps GraphHist Apps EdgeList FileIO Cmd CmdProofs CmdArgsProofs VertexIdProofs AppExample PropsApps PropsCmdArgs.

(** A number outside 1..n that the library does not take for vertex 1 ([taken_for_1]: PropsCmdArgs.v) *)
Definition no_vertex (T ranks n v : Z) : Prop := ~ 1 <= v <= n /\ ~ taken_for_1 T ranks n v.
(** In every graph reached by any calls: with such a number every call fails. *)
Theorem C91_refused {V E byte} neq (m : machine V E byte) dv n blobs h g v :
  machine_ok m -> 0 <= n -> reached neq m dv n blobs h g -> no_vertex (m_nt m) (m_nr m) n v ->
  (forall th a, exists e, run_call neq m th (CSet v a) g = Err e) /\ (forall th, exists e, run_call neq m th (CActive v) g = Err e) /\ (forall th, exists e, run_call neq m th (CInactive v) g = Err e) /\
  (forall r d, exists e, read_property m g r v d = Err e) /\ (forall r, exists e, owns m g r v = Err e).
Proof.
  intros Hm Hn (g0 & E0 & Eh) [Hv Nt]. apply load_sized in E0. apply (calls_sized m n) in Eh; [|exact E0]. destruct (source_cases m n v Hm Hn Hv) as [_ C2]. destruct (C2 Nt) as (w & Ew & Hw).
  split; [intros; eapply set_out; eauto|]. split; [intros; eapply active_out; eauto|]. split; [intros; eapply inactive_out; eauto|]. split; [intros; eapply read_out; eauto|]. intros; eapply owns_out; eauto.
Qed.
Print Assumptions C91_refused.

(** Deviation: numbers that are taken for vertex 1 are not refused; reading, and every history of calls, gives what
    it gives with 1 in their place. *)
Definition number_used (T ranks n v : Z) : Z := if (n <? 16 * T * ranks) && (- (16 * T * ranks) <? v - 1) && (v - 1 <? 0) then 1 else v.
Definition call_used {V E byte} (T ranks n : Z) (c : gcall V E byte) : gcall V E byte :=
  match c with
  | CSet v a => CSet (number_used T ranks n v) a
  | CActive v => CActive (number_used T ranks n v)
  | CInactive v => CInactive (number_used T ranks n v)
  | c => c
  end.
Lemma used_same {V E byte} (m : machine V E byte) n v : machine_ok m -> 0 <= n -> vertexToNative (m_nt m) (m_nr m) n v = vertexToNative (m_nt m) (m_nr m) n (number_used (m_nt m) (m_nr m) n v).
Proof.
  intros Hm Hn. unfold number_used. destruct ((n <? 16 * m_nt m * m_nr m) && (- (16 * m_nt m * m_nr m) <? v - 1) && (v - 1 <? 0)) eqn:Q; [|reflexivity].
  apply (source_cases m n v Hm Hn); [lia|]. unfold taken_for_1. lia.
Qed.
Theorem C91_taken_for_1 {V E byte} neq (m : machine V E byte) dv n blobs g0 h :
  machine_ok m -> 0 <= n -> load m dv n blobs = Ok g0 ->
  let T := m_nt m in let ranks := m_nr m in
  (forall v, number_used T ranks n v = 1 <-> v = 1 \/ taken_for_1 T ranks n v) /\ (forall v, number_used T ranks n v <> 1 -> number_used T ranks n v = v) /\
  run_calls neq m h g0 = run_calls neq m (map (fun c => (fst c, call_used T ranks n (snd c))) h) g0 /\
  (forall g, run_calls neq m h g0 = Ok g -> forall r v, (forall d, read_property m g r v d = read_property m g r (number_used T ranks n v) d) /\ owns m g r v = owns m g r (number_used T ranks n v)).
Proof.
  intros Hm Hn E0 T ranks. apply load_sized in E0. split; [|split; [|split]].
  - intros v. unfold number_used, taken_for_1. destruct ((n <? 16 * T * ranks) && (- (16 * T * ranks) <? v - 1) && (v - 1 <? 0)) eqn:Q; lia.
  - intros v. unfold number_used. destruct (_ && _); [congruence|reflexivity].
  - revert g0 E0. induction h as [|[th c] h IH]; intros g0 S0; [reflexivity|]. cbn [run_calls map fst snd].
    assert (run_call neq m th c g0 = run_call neq m th (call_used T ranks n c) g0) as <-.
    { destruct c; try reflexivity; cbn [call_used]; [apply (set_same m n)|apply (active_same m n)|apply (inactive_same m n)]; try exact S0; apply used_same; auto. }
    destruct (run_call neq m th c g0) as [g1|e] eqn:E1; [|reflexivity]. cbn [bind]. apply IH. eapply (any_call_sized m n); eauto.
  - intros g Eg r v. apply (calls_sized m n) in Eg; [|exact E0]. split; [intros d; apply (read_same m n)|apply (owns_same m n)]; try exact Eg; apply used_same; auto.
Qed.
Print Assumptions C91_taken_for_1.

(** five vertices, three threads and two ranks: -94..0 stand for vertex 1; with one thread, one rank and 16
    vertices nothing else does *)
Definition c91_h : list (Z * gcall Z Z (list Z)) := [(3, CSetAll 7); (3, CSet 2 8); (3, CSet 0 9); (3, CActive (-94))].
Definition c91_read (h : list (Z * gcall Z Z (list Z))) (v : Z) : R (list (option Z)) :=
  do g <- load (ax_m z_to z_of true) 4 5 ax_blobs ;; do g <- run_calls sssp_neq (ax_m z_to z_of true) h g ;;
  mapR (fun r => do o <- owns (ax_m z_to z_of true) g r v ;; if o : bool then read_property (ax_m z_to z_of true) g r v 0 else Ok None) (zrange 0 2).
Example C91_example :
  machine_ok (ax_m z_to z_of true) /\ taken_for_1 3 2 5 0 /\ taken_for_1 3 2 5 (-94) /\ no_vertex 3 2 5 6 /\ no_vertex 3 2 5 (-95) /\ no_vertex 1 1 16 0 /\
  c91_read c91_h 1 = Ok [Some 9; None] /\ c91_read c91_h 2 = Ok [Some 8; None] /\ c91_read c91_h 3 = Ok [Some 7; None] /\ c91_read c91_h (-50) = Ok [Some 9; None] /\
  c91_read c91_h 6 = Err AssertFail /\ c91_read (c91_h ++ [(3, CInactive (-95))]) 1 = Err AssertFail.
Proof.
  split; [apply ax_m_ok, z_ok|]. unfold no_vertex, taken_for_1. do 5 (split; [lia|]). repeat split; vm_compute; reflexivity.
Qed.
