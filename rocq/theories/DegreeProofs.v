From Verif Require Import BaseLemmas Layout Reduce ReduceProofs DCSC MatSpec Segment Vec SpMat GraphVert Graph Runtime RunSpec RuntimeProofs GraphOps GraphHist GraphHistProofs Apps AppSpec AppBase.

(** *** what arrives when every sender sends *)
Section Received.
  Context {S T U V E : Type}.
  Variable pg : program S T U V E.
  Variables (es : list (edge E)) (dv : V) (st : @vstate S T V) (f : Z -> T).
  Lemma arriving_all (dir : edge E -> Z * Z) v : (forall e, In e es -> message pg st (fst (dir e)) = Some (f (fst (dir e)))) ->
    arriving es pg dv st dir v = map (fun e => pr_process pg (v_s st) (f (fst (dir e))) (e_val e) (seen pg dv st v)) (filter (fun e => snd (dir e) =? v) es).
  Proof.
    intros H. unfold arriving. induction es as [|e l IH]; [reflexivity|]. cbn [flat_map filter]. rewrite IH by (intros; apply H; simpl; auto).
    destruct (snd (dir e) =? v); [|reflexivity]. rewrite (H e) by (simpl; auto). reflexivity.
  Qed.
  Lemma received_all_out v : pr_order pg = OUT_EDGES -> (forall e, In e es -> message pg st (e_src e) = Some (f (e_src e))) ->
    received es pg dv st v = map (fun e => pr_process pg (v_s st) (f (e_src e)) (e_val e) (seen pg dv st v)) (filter (fun e => e_dst e =? v) es).
  Proof. intros Ho H. unfold received. rewrite Ho. apply (arriving_all along). exact H. Qed.
  Lemma received_all_in v : pr_order pg = IN_EDGES -> (forall e, In e es -> message pg st (e_dst e) = Some (f (e_dst e))) ->
    received es pg dv st v = map (fun e => pr_process pg (v_s st) (f (e_dst e)) (e_val e) (seen pg dv st v)) (filter (fun e => e_src e =? v) es).
  Proof. intros Ho H. unfold received. rewrite Ho. apply (arriving_all against). exact H. Qed.
End Received.

(** *** runs of one superstep *)
Section Once.
  Context {V E byte : Type}.
  Variable neq : V -> V -> bool.
  Variable m : machine V E byte.
  Hypothesis Hm : machine_ok m.
  Variable n : Z.
  Hypothesis Hn : 0 <= n.

  Lemma run_once {S T U} th (pg : program S T U V E) s dt dv fuel (fr : frame T U byte) tmp C (g : graph V E byte) q : threads_ok m (m_serv m) th -> frame_ok m th fr -> is m n g q ->
    match tmp with None => C = (fun _ => dt) | Some xy => trep (f_sert fr) (f_seru fr) n (m_nr m) (m_nt m) (fst xy) (snd xy) C end -> (1 <= fuel)%nat ->
    let st := begin pg (mkV s (gs_P q) (gs_A q) C) in
    exists Y r, run_job neq m th (mkJ pg s 1 dt dv fuel) fr tmp g = Ok (r, 1) /\
      (forall v, 1 <= v <= n -> combined_of (pr_reduce pg s) (received (gs_es q) pg dv st v) (Y v)) /\
      is m n (r_g r) (mkGS (gs_es q) (updated_with pg Y st) (fun v => if pr_all_vertices pg || changed_with pg neq Y st v then Some true else None)) /\
      trep (f_sert fr) (f_seru fr) n (m_nr m) (m_nt m) (r_x r) (r_y r) (fun v => match message pg st v with Some t => t | None => C v end).
  Proof.
    intros Ht Hfr Hg Htmp Hf st. destruct (run_op_any neq m Hm n Hn th (mkJ pg s 1 dt dv fuel) fr tmp C g q Ht Hfr Hg Htmp) as (Y & [(K & r & HK & Er & _ & Hr & Hx)|[[_ He] _]]).
    - assert (K = 1%nat) as ->.
      { destruct HK as (B & _ & _ & Hne). destruct K as [|[|K]]; [lia|reflexivity|]. exfalso. apply (Hne 1%nat); [lia|]. left. reflexivity. }
      exists (Y O), r. split; [exact Er|]. split; [|split; [exact Hr|exact Hx]]. intros v Bv. destruct HK as (_ & Hred & _). apply (Hred O v); auto.
    - exfalso. apply (He 1%nat); [cbn [j_fuel]; lia|]. left. reflexivity.
  Qed.
End Once.

(** *** counting edges *)
Lemma combination_some {U} (op : U -> U -> U) l u : combination op l u -> l <> [].
Proof. induction 1 as [|l l1 l2 a b H1 IH1 H2 IH2 Hp]; [discriminate|]. intros ->. apply Permutation_nil in Hp. apply app_eq_nil in Hp as [-> _]. congruence. Qed.
Lemma ones_sum {A} (l : list A) : sum (map (fun _ => 1) l) = zlen l.
Proof. induction l as [|x l IH]; cbn [map sum]; [reflexivity|]. rewrite IH, zlen_cons. lia. Qed.
Lemma counted {A} (l : list A) o : combined_of i32_add (map (fun _ => 1) l) o -> zlen l < 2 ^ 31 -> (o = None /\ l = []) \/ (o = Some (zlen l) /\ l <> []).
Proof.
  intros H B. destruct o as [u|]; cbn [combined_of] in H.
  - right. split.
    + f_equal. rewrite (combination_i32 _ _ H), ones_sum; [apply i32_id; pose proof (zlen_nonneg l); lia|]. intros x Hx. apply in_map_iff in Hx as (? & <- & _). lia.
    + intros ->. exact (combination_some _ _ _ H eq_refl).
  - left. split; auto. destruct l; [auto|discriminate].
Qed.

Section Degree.
  Context {E byte F : Type}.
  Variable fl : floats F.
  Variable m : machine (pr_vertex F) E byte.
  Hypothesis Hm : machine_ok m.
  Variable n : Z.
  Hypothesis Hn : 0 <= n.
  (** src/PageRank.cpp:53-79 from a graph in which every vertex is active *)
  Lemma degree_is th dt dv fuel (fr : frame Z Z byte) tmp C (g : graph (pr_vertex F) E byte) q : threads_ok m (m_serv m) th -> frame_ok m th fr -> is m n g q ->
    match tmp with None => C = (fun _ => dt) | Some xy => trep (f_sert fr) (f_seru fr) n (m_nr m) (m_nt m) (fst xy) (snd xy) C end -> (1 <= fuel)%nat ->
    (forall v, 1 <= v <= n -> gs_A q v = Some true) -> zlen (gs_es q) < 2 ^ 31 ->
    exists r P A, run_job (pr_neq fl) m th (mkJ degree tt 1 dt dv fuel) fr tmp g = Ok (r, 1) /\ is m n (r_g r) (mkGS (gs_es q) P A) /\
      forall v, 1 <= v <= n -> P v = mkPR (p_rank (gs_P q v)) (let d := zlen (filter (fun e => e_src e =? v) (gs_es q)) in if d =? 0 then p_degree (gs_P q v) else d).
  Proof.
    intros Ht Hfr Hg Htmp Hf HA Hl. destruct (run_once (pr_neq fl) m Hm n Hn th degree tt dt dv fuel fr tmp C g q Ht Hfr Hg Htmp Hf) as (Y & r & Er & HY & Hr & _).
    exists r. eexists _, _. split; [exact Er|]. split; [exact Hr|]. intros v Bv. specialize (HY v Bv). cbn [gs_P]. unfold updated_with. cbn [v_P begin v_s pr_apply degree].
    rewrite (received_all_in degree _ dv _ (fun _ => 1)) in HY; [|reflexivity|].
    - cbn [pr_process degree pr_reduce] in HY. apply counted in HY; [|pose proof (zlen_filter_le (fun e => e_src e =? v) (gs_es q)); lia].
      destruct HY as [[-> El]|[-> Nl]].
      + rewrite El. cbn. destruct (gs_P q v); reflexivity.
      + destruct (Z.eqb_spec (zlen (filter (fun e => e_src e =? v) (gs_es q))) 0) as [E0|]; [|reflexivity]. destruct (filter _ _) as [|x l]; [congruence|]. rewrite zlen_cons in E0. pose proof (zlen_nonneg l). lia.
    - intros e He. destruct Hg as (Hin & _). specialize (Hin e He). unfold message. cbn [begin v_A pr_all_vertices degree]. rewrite HA by apply Hin. reflexivity.
  Qed.
End Degree.

Section InDegree.
  Context {byte : Type}.
  Variable m : machine top_vertex Z byte.
  Hypothesis Hm : machine_ok m.
  Variable n : Z.
  Hypothesis Hn : 0 <= n.
  (** src/TopologicalSort.cpp:59-86: all vertices take part *)
  Lemma indegree_is th dt dv fuel (fr : frame Z Z byte) tmp C (g : graph top_vertex Z byte) q : threads_ok m (m_serv m) th -> frame_ok m th fr -> is m n g q ->
    match tmp with None => C = (fun _ => dt) | Some xy => trep (f_sert fr) (f_seru fr) n (m_nr m) (m_nt m) (fst xy) (snd xy) C end -> (1 <= fuel)%nat ->
    zlen (gs_es q) < 2 ^ 31 ->
    exists r P A, run_job top_neq m th (mkJ indegree tt 1 dt dv fuel) fr tmp g = Ok (r, 1) /\ is m n (r_g r) (mkGS (gs_es q) P A) /\
      forall v, 1 <= v <= n -> P v = mkT (t_order (gs_P q v)) (let d := zlen (filter (fun e => e_dst e =? v) (gs_es q)) in if d =? 0 then t_deg (gs_P q v) else d) (t_failed (gs_P q v)).
  Proof.
    intros Ht Hfr Hg Htmp Hf Hl. destruct (run_once top_neq m Hm n Hn th indegree tt dt dv fuel fr tmp C g q Ht Hfr Hg Htmp Hf) as (Y & r & Er & HY & Hr & _).
    exists r. eexists _, _. split; [exact Er|]. split; [exact Hr|]. intros v Bv. specialize (HY v Bv). cbn [gs_P]. unfold updated_with. cbn [v_P begin v_s pr_apply indegree].
    rewrite (received_all_out indegree _ dv _ (fun _ => 1)) in HY; [|reflexivity|].
    - cbn [pr_process indegree pr_reduce] in HY. apply counted in HY; [|pose proof (zlen_filter_le (fun e => e_dst e =? v) (gs_es q)); lia].
      destruct HY as [[-> El]|[-> Nl]].
      + rewrite El. cbn. destruct (gs_P q v); reflexivity.
      + destruct (Z.eqb_spec (zlen (filter (fun e => e_dst e =? v) (gs_es q))) 0) as [E0|]; [|reflexivity]. destruct (filter _ _) as [|x l]; [congruence|]. rewrite zlen_cons in E0. pose proof (zlen_nonneg l). lia.
    - intros e He. reflexivity.
  Qed.
End InDegree.
