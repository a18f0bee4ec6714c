From Coq Require Import Sorting.Sorted.
From Verif Require Import BaseLemmas Layout LayoutProofs Reduce ReduceProofs Bits BitsProofs Segment SegmentProofs TransferProofs UnionProofs SegHistory SegHistoryProofs SegFinal Bucket BucketProofs Vec VecProofs VecProofs2 GraphVertProofs ListLemmas DCSC DCSCProofs DCSCBuild Kernel MatSpec TileProofs SpMat SpMatProofs SpMSpV DistProofs MultProofs GraphVert Graph GraphProofs Runtime RunSegProofs RunSpec HeldProofs RuntimeProofs GraphOps GraphOpsProofs GraphHist.

Lemma native_in {A} n nr nt (M : Z -> A) id : 1 <= id <= n -> native n nr nt M id = Some (M (n2v nt nr n id)).
Proof. intros H. unfold native. destruct (Z.leb_spec 1 id); [|lia]. destruct (Z.leb_spec id n); [|lia]. reflexivity. Qed.
Lemma nativeo_in {A} n nr nt (M : Z -> option A) id : 1 <= id <= n -> nativeo n nr nt M id = M (n2v nt nr n id).
Proof. intros H. unfold nativeo. destruct (Z.leb_spec 1 id); [|lia]. destruct (Z.leb_spec id n); [|lia]. reflexivity. Qed.

Lemma bwf0_false {T byte} ser thr thr' cap (b : buffer T byte) : bwf0 ser thr cap b -> bwf0 false thr' cap b.
Proof. unfold bwf0. intuition discriminate. Qed.
Lemma swf_false {T byte} ser thr thr' (s : seg T byte) : swf ser thr s -> swf false thr' s.
Proof.
  intros (A & B & C & D & F). split; [auto|]. split; [auto|]. split; [|split; eapply Forall_impl; try eassumption; intros a Ha; eapply bwf0_false; exact Ha].
  destruct (s_prop s); auto. destruct C as [C1 C2]. split; [eapply bwf0_false; exact C1|exact C2].
Qed.

Section Hist.
  Context {V E byte : Type}.
  Variable neq : V -> V -> bool.
  Variable m : machine V E byte.
  Hypothesis Hm : machine_ok m.
  Variable n : Z.
  Hypothesis Hn : 0 <= n.
  Notation gr := (graph V E byte).
  Notation nr := (m_nr m).
  Notation nt := (m_nt m).
  Notation pi := (v2n nt nr n).
  Notation po := (n2v nt nr n).

  Let Hr : 1 <= nr. Proof. apply Hm. Qed.
  Let Hnt : 1 <= nt. Proof. apply Hm. Qed.
  Let DEv : forall l, m_decv m (m_encv m l) (zlen l) = Ok l. Proof. apply Hm. Qed.

  Definition inr (e : edge E) : Prop := 1 <= e_src e <= n /\ 1 <= e_dst e <= n.
  Definition is (g : gr) (q : gspec V E) : Prop :=
    (forall e, In e (gs_es q) -> inr e) /\ grep (m_serv m) n nr nt (gs_es q) g (gs_P q) (gs_A q).

  Lemma thok_of ser th : threads_ok m ser th -> thok ser nt th.
  Proof. intros H. exact H. Qed.
  Lemma thok_false ser th : threads_ok m ser th -> thok false nt th.
  Proof. intros [H _]. split; auto. discriminate. Qed.

  (** *** loading *)
  Lemma load_is dv (blobs : list (list (edge E))) : zlen blobs = nr -> (forall e, In e (concat blobs) -> inr e) ->
    exists g, load m dv n blobs = Ok g /\ is g (loaded dv (concat blobs)).
  Proof.
    intros Lb Hin. unfold load. destruct Hm as (_ & _ & Hs & Hts & _).
    destruct (@load_spec V E byte (m_srt m) (m_tsrt m) nr nt Hs Hts Hnt Hr (m_junkA m) (m_junkT m) (m_vjunk m) (m_ajunk m) (m_vfresh m) (m_afresh m) dv n Hn blobs Lb Hin)
      as (g & bl & El & He & _ & _ & _ & _). exists g. rewrite El. cbn [bind fst]. split; auto. split; [exact Hin|]. cbn [loaded gs_es gs_P gs_A].
    assert (exists vp act, g_vectors (byte:=byte) nr nt (m_vjunk m) (m_ajunk m) (m_vfresh m) (m_afresh m) dv n = Ok (vp, act) /\
      held (m_serv m) nt n nr nr vp (native n nr nt (fun _ => dv)) /\ hlive nr vp /\ held false nt n nr nr act (nativeo n nr nt (fun _ => Some false)) /\ hlive nr act) as (vp & act & Ev & R1 & R2 & R3 & R4).
    { unfold g_vectors, g_new_vp, g_new_active.
      destruct (held_new (byte:=byte) (m_serv m) nt n nr nr Hn Hr Hr nt (m_vjunk m) (m_vfresh m) dv) as (vp & E1 & V1 & L1); [split; auto|]. rewrite E1. cbn [bind].
      destruct (held_new (byte:=byte) false nt n nr nr Hn Hr Hr nt (m_ajunk m) (m_afresh m) false) as (act & E2 & V2 & L2); [split; auto|]. rewrite E2. cbn [bind].
      exists vp, act. split; [reflexivity|]. auto. }
    assert (g_vp g = vp /\ g_act g = act) as [Q1 Q2].
    { revert El. unfold g_ReadEdgelist. intros El.
      repeat (apply bind_Ok in El as (? & ? & El)).
      match goal with H : g_vectors _ _ _ _ _ _ _ _ = Ok ?x |- _ => rewrite Ev in H; injection H as <- end. cbn [fst snd] in El. injection El as <- _. auto. }
    split; [exact He|]. rewrite Q1, Q2. auto.
  Qed.

  (** *** one call *)
  Lemma vp_op th o (g : gr) q : threads_ok m (m_serv m) th -> gop_in_range n o -> is g q ->
    exists g', g_vp_all nr th o g = Ok g' /\ is g' (mkGS (gs_es q) (match o with GSet v a => fun u => if u =? v then a else gs_P q u | GSetAll a => fun _ => a end) (gs_A q)).
  Proof.
    intros Ht Ho (Hin & He & Hv & Lv & Ha & La). pose proof He as (Gn & Gt & _). unfold g_vp_all. rewrite Gn, Gt.
    set (so := match o with GSet v a => OSet (pi v) a | GSetAll a => OSetAll a end).
    assert (sop_in_range n so) as So. { destruct o as [v a|a]; cbn; auto. apply (proj2 (v2n_ok nt nr n v Hnt Hr Ho)). }
    destruct (held_vop (m_serv m) nt n nr nr Hn Hr Hr th (g_vp g) _ so Ht Hv So) as (vp & Ev & Hvp & Lvp).
    assert (on_ranks nr (fun r segs => run_gop n nr nt th r segs o) (g_vp g) = Ok vp) as ->.
    { rewrite <- Ev. unfold on_ranks. apply mapR_ext. intros r _. destruct (rd (g_vp g) r) as [segs|]; auto. cbn [bind]. destruct o as [v a|a]; auto.
      cbn [run_gop so]. unfold g_setVertexproperty. rewrite (proj1 (v2n_ok nt nr n v Hnt Hr Ho)). reflexivity. }
    cbn [bind]. eexists. split; [reflexivity|]. split; [exact Hin|]. cbn [gs_es gs_P gs_A]. split; [exact He|]. cbn [set_vp g_vp g_act]. split; [|split; [apply Lvp; destruct o; cbn; auto|split; auto]].
    eapply held_ext; [auto|auto| |exact Hvp]. intros id Hi. destruct o as [v a|a]; cbn [so spec_sop].
    - rewrite !native_in by auto. destruct (Z.eqb_spec id (pi v)) as [->|N].
      + rewrite n2v_v2n, Z.eqb_refl; auto.
      + destruct (Z.eqb_spec (po id) v) as [<-|]; auto. exfalso. apply N. rewrite v2n_n2v; auto.
    - rewrite native_in by auto. destruct (Z.leb_spec 1 id); [|lia]. destruct (Z.leb_spec id n); [|lia]. reflexivity.
  Qed.

  Lemma act_op ser th o (g : gr) q : threads_ok m ser th -> match o with AActive v => 1 <= v <= n | AInactive v => 1 <= v <= n | _ => True end -> is g q ->
    exists g', g_act_all nr th o g = Ok g' /\ is g' (mkGS (gs_es q) (gs_P q) (match o with AActive v => fun u => if u =? v then Some true else gs_A q u | AInactive v => fun u => if u =? v then None else gs_A q u
      | AAllActive => fun _ => Some true | AAllInactive => fun _ => None end)).
  Proof.
    intros Ht Ho (Hin & He & Hv & Lv & Ha & La). pose proof He as (Gn & Gt & _). unfold g_act_all. rewrite Gn, Gt.
    set (so := match o with AActive v => OSet (pi v) true | AInactive v => OUnset (pi v) | AAllActive => OSetAll true | AAllInactive => OSetInactive false end).
    assert (sop_in_range n so) as So. { destruct o as [v|v| |]; cbn; auto; apply (proj2 (v2n_ok nt nr n v Hnt Hr Ho)). }
    destruct (held_vop false nt n nr nr Hn Hr Hr th (g_act g) _ so (thok_false _ _ Ht) Ha So) as (act & Ev & Hact & Lact).
    assert (on_ranks nr (fun r segs => run_aop n nr nt th r segs o) (g_act g) = Ok act) as ->.
    { rewrite <- Ev. unfold on_ranks. apply mapR_ext. intros r _. destruct (rd (g_act g) r) as [segs|]; auto. cbn [bind]. destruct o as [v|v| |]; auto;
      cbn [run_aop so]; rewrite (proj1 (v2n_ok nt nr n v Hnt Hr Ho)); reflexivity. }
    cbn [bind]. eexists. split; [reflexivity|]. split; [exact Hin|]. cbn [gs_es gs_P gs_A]. split; [exact He|]. cbn [set_act g_vp g_act]. split; [auto|split; [auto|split; [|apply Lact; destruct o; cbn; auto]]].
    eapply held_ext; [auto|auto| |exact Hact]. intros id Hi. destruct o as [v|v| |]; cbn [so spec_sop].
    - rewrite !nativeo_in by auto. destruct (Z.eqb_spec id (pi v)) as [->|N].
      + rewrite n2v_v2n, Z.eqb_refl; auto.
      + destruct (Z.eqb_spec (po id) v) as [<-|]; auto. exfalso. apply N. rewrite v2n_n2v; auto.
    - rewrite !nativeo_in by auto. destruct (Z.eqb_spec id (pi v)) as [->|N].
      + rewrite n2v_v2n, Z.eqb_refl; auto.
      + destruct (Z.eqb_spec (po id) v) as [<-|]; auto. exfalso. apply N. rewrite v2n_n2v; auto.
    - rewrite nativeo_in by auto. destruct (Z.leb_spec 1 id); [|lia]. destruct (Z.leb_spec id n); [|lia]. reflexivity.
    - rewrite nativeo_in by auto. reflexivity.
  Qed.

  Lemma apply_op th f (g : gr) q : threads_ok m (m_serv m) th -> is g q ->
    exists g', g_applyToAllVertices nr th f g = Ok g' /\ is g' (mkGS (gs_es q) (fun u => f (gs_P q u) (gs_P q u)) (gs_A q)).
  Proof.
    intros Ht (Hin & He & Hv & Lv & Ha & La). unfold g_applyToAllVertices.
    destruct (held_apply (m_serv m) nt n nr nr Hr Hr th Ht f (g_vp g) _ Hv) as (vp & Ev & Hvp & Lvp). rewrite Ev. cbn [bind].
    eexists. split; [reflexivity|]. split; [exact Hin|]. cbn [gs_es gs_P gs_A]. split; [exact He|]. cbn [set_vp g_vp g_act]. split; [|auto].
    eapply held_ext; [auto|auto| |exact Hvp]. intros id Hi. cbv beta. rewrite !native_in by auto. reflexivity.
  Qed.

  (** reduction over native positions, rank by rank, is the reduction over vertices *)
  Lemma rank_mapped_ids {W} (mp : V -> V * W) (P : Z -> V) r : 0 <= r < nr ->
    rank_mapped n nr nr mp (native n nr nt P) r = map (fun id => snd (mp (P (po id)))) (rank_ids n nr r).
  Proof.
    intros Br. unfold rank_mapped. set (h := fun j => mapped mp (restr n nr (native n nr nt P) j) 0 (cap n nr j)).
    assert (flat_map (fun j => if ow nr j =? r then h j else []) (zrange 0 nr) = h r) as Q.
    { pose proof (flat_map_one (fun j => if ow nr j =? r then h j else []) (zrange 0 nr) r r) as F. cbv beta in F. rewrite F.
      - rewrite (ow_id nr nr), Z.eqb_refl by lia. reflexivity.
      - rewrite rd_zrange by lia. f_equal.
      - intros j b Eb N. pose proof (rd_bounds _ _ _ Eb) as Bj. rewrite zlen_zrange in Bj by lia. rewrite rd_zrange in Eb by lia. injection Eb as <-. rewrite (ow_id nr nr) by lia.
        destruct (Z.eqb_spec j r); [lia|auto]. }
    transitivity (h r); [exact Q|]. unfold h, mapped, rank_ids, cap.
    pose proof (st_bounds n nr Hn Hr r ltac:(lia)) as B1. pose proof (st_bounds n nr Hn Hr (r + 1) ltac:(lia)) as B2. pose proof (start_at_mono n nr r (r+1) Hn Hr ltac:(lia)) as B3. fold (st n nr r) in B3. fold (st n nr (r + 1)) in B3.
    replace (zrange (st n nr r + 1) (st n nr (r + 1) + 1)) with (map (fun k => st n nr r + (k + 1)) (zrange 0 (st n nr (r + 1) - st n nr r))).
    2:{ apply rd_ext; rewrite ?zlen_map, ?zlen_zrange by lia; [lia|]. intros i Hi. rewrite rd_map_list, !rd_zrange by lia. f_equal. lia. }
    rewrite map_map. rewrite flat_map_concat_map. rewrite <- (map_map (fun k => snd (mp (P (po (st n nr r + (k + 1)))))) (fun x => x)), map_id.
    erewrite map_ext_in with (g := fun k => [snd (mp (P (po (st n nr r + (k + 1)))))]).
    - rewrite <- flat_map_concat_map. generalize (zrange 0 (st n nr (r + 1) - st n nr r)). intros l. induction l as [|a l IH]; simpl; [auto|f_equal; exact IH].
    - intros k Hk. apply in_zrange in Hk. unfold restr, native, cap.
      destruct (Z.leb_spec 1 (k + 1)); [|lia]. destruct (Z.leb_spec (k + 1) (st n nr (r + 1) - st n nr r)); [|lia]. cbn [andb].
      destruct (Z.leb_spec 1 (st n nr r + (k + 1))); [|lia]. destruct (Z.leb_spec (st n nr r + (k + 1)) n); [|lia]. reflexivity.
  Qed.

  Lemma all_rank_ids : flat_map (rank_ids n nr) (zrange 0 nr) = zrange 1 (n + 1).
  Proof.
    unfold rank_ids. rewrite (zrange_flat 1 (fun r => st n nr r + 1) nr).
    - f_equal. rewrite st_end; auto.
    - lia.
    - pose proof (st_bounds n nr Hn Hr 0 ltac:(lia)). unfold st, start_at in *. lia.
    - intros i Hi. apply Zplus_le_compat_r. apply (start_at_mono n nr i (i+1) Hn Hr); lia.
  Qed.

  Lemma reduce_op {W} th (mp : V -> V * W) op init (g : gr) q : threads_ok m (m_serv m) th -> associative op -> is g q ->
    exists g' res, g_applyReduceAllVertices nr th mp op init g = Ok (g', map (fun _ => res) (zrange 0 nr)) /\
      is g' (mkGS (gs_es q) (fun u => fst (mp (gs_P q u))) (gs_A q)) /\
      (commutative op -> Some res = red op (map init (zrange 0 nr) ++ map (fun v => snd (mp (gs_P q v))) (zrange 1 (n + 1)))).
  Proof.
    intros Ht Hop (Hin & He & Hv & Lv & Ha & La). unfold g_applyReduceAllVertices.
    destruct (held_reduce (m_serv m) nt n nr nr Hr Hr th Ht mp op Hop (g_vp g) _ init Hv) as (vp & res & Ev & Hvp & Lvp & Er). rewrite Ev. cbn [bind fst snd].
    eexists _, res. split; [reflexivity|]. split.
    - split; [exact Hin|]. cbn [gs_es gs_P gs_A]. split; [exact He|]. cbn [set_vp g_vp g_act]. split; [|auto].
      eapply held_ext; [auto|auto| |exact Hvp]. intros id Hi. unfold remap. rewrite !native_in by auto. reflexivity.
    - intros Hc. rewrite Er. apply red_perm; auto.
      transitivity (flat_map (fun r => init r :: map (fun id => snd (mp (gs_P q (po id)))) (rank_ids n nr r)) (zrange 0 nr)).
      { rewrite (flat_map_ext_in _ (fun r => init r :: map (fun id => snd (mp (gs_P q (po id)))) (rank_ids n nr r))); [reflexivity|].
        intros r Hi. apply in_zrange in Hi. rewrite rank_mapped_ids; auto. }
      transitivity (map init (zrange 0 nr) ++ flat_map (fun r => map (fun id => snd (mp (gs_P q (po id)))) (rank_ids n nr r)) (zrange 0 nr)).
      { generalize (zrange 0 nr). intros l. induction l as [|r l IH]; simpl; auto. constructor. rewrite IH. rewrite !app_assoc. apply Permutation_app_tail. apply Permutation_app_comm. }
      apply Permutation_app_head. 
      transitivity (map (fun id => snd (mp (gs_P q (po id)))) (flat_map (rank_ids n nr) (zrange 0 nr))).
      { rewrite !flat_map_concat_map, concat_map, map_map. reflexivity. }
      rewrite all_rank_ids. rewrite <- (map_map po (fun v => snd (mp (gs_P q v)))). apply Permutation_map. apply perm_native; auto.
  Qed.

  Lemma edges_op th f (g : gr) q : threads_ok m (m_serv m) th -> is g q ->
    exists g', g_applyToAllEdges (m_serv m) (m_encv m) (m_decv m) nr th f g = Ok g' /\ is g' (mkGS (map (newedge f (gs_P q)) (gs_es q)) (gs_P q) (gs_A q)).
  Proof.
    intros Ht (Hin & He & Hv & Lv & Ha & La). unfold g_applyToAllEdges. destruct He as (Gn & Gt & ids & Ei & HA & HT).
    destruct (apply_tiles_spec nr n nr Hr Hn Hr (m_serv m) nt th (m_encv m) (m_decv m) DEv Ht ids (g_AT g) _ HT f (fun id => gs_P q (po id)) (g_vp g) Hv Lv) as (at_ & vp1 & E1 & T1 & V1 & L1).
    rewrite E1. cbn [bind fst snd].
    destruct (apply_tiles_spec nr n nr Hr Hn Hr (m_serv m) nt th (m_encv m) (m_decv m) DEv Ht ids (g_A g) _ HA (fun e src dst => f e dst src) (fun id => gs_P q (po id)) vp1 V1 L1) as (a & vp2 & E2 & T2 & V2 & L2).
    rewrite E2. cbn [bind fst snd]. eexists. split; [reflexivity|].
    assert (forall e, In e (gs_es q) -> po (pi (e_src e)) = e_src e /\ po (pi (e_dst e)) = e_dst e) as PP.
    { intros e H. destruct (Hin e H) as [H1 H2]. split; apply n2v_v2n; auto. }
    split; [|split; [|cbn [g_vp g_act gs_P gs_A]; auto]]; cbn [gs_es gs_P gs_A].
    - intros e He. apply in_map_iff in He as (e0 & <- & He). apply Hin in He. exact He.
    - split; [exact Gn|]. split; [exact Gt|]. exists ids. split; auto. cbn [g_A g_AT]. split.
      + replace (map (ren pi) (map (newedge f (gs_P q)) (gs_es q))) with (map (newval (fun e src dst => f e dst src) (fun id => gs_P q (po id))) (map (ren pi) (gs_es q))); auto.
        rewrite !map_map. apply map_ext_in. intros e H. destruct (PP e H) as [Q1 Q2]. unfold newval, ren, newedge. cbn [e_src e_dst e_val]. rewrite Q1, Q2. reflexivity.
      + replace (map swap_ends (map (ren pi) (map (newedge f (gs_P q)) (gs_es q)))) with (map (newval f (fun id => gs_P q (po id))) (map swap_ends (map (ren pi) (gs_es q)))); auto.
        rewrite !map_map. apply map_ext_in. intros e H. destruct (PP e H) as [Q1 Q2]. unfold newval, ren, newedge, swap_ends. cbn [e_src e_dst e_val]. rewrite Q1, Q2. reflexivity.
  Qed.

  (** *** running a program *)
  Definition logs {S T U} (jb : job S T U V E) (C : Z -> T) (q : gspec V E) (K : nat) (log : list (list event)) : Prop :=
    logged n nr nt (j_dv jb) neq (j_pg jb) (gs_es q) (start jb C q) K log.
  Lemma run_op {S T U} th (jb : job S T U V E) (fr : frame T U byte) tmp C (g : gr) q : threads_ok m (m_serv m) th -> job_ok jb -> frame_ok m th fr -> is g q ->
    match tmp with None => C = (fun _ => j_dt jb) | Some xy => trep (f_sert fr) (f_seru fr) n nr nt (fst xy) (snd xy) C end ->
    (exists K r, job_takes neq n jb C q K /\ run_job neq m th jb fr tmp g = Ok (r, Z.of_nat K) /\
       r_s r = v_s (job_after neq jb C q K) /\
       is (r_g r) (mkGS (gs_es q) (v_P (job_after neq jb C q K)) (v_A (job_after neq jb C q K))) /\
       trep (f_sert fr) (f_seru fr) n nr nt (r_x r) (r_y r) (v_C (job_after neq jb C q K)) /\
       logs jb C q K (r_log r)) \/
    (job_endless neq n jb C q /\ run_job neq m th jb fr tmp g = Err NoFuel).
  Proof.
    intros Ht Hj (Ft & Fu & Dt & Du) (Hin & Hg) Htmp. unfold run_job.
    destruct (run_spec (f_sert fr) (m_serv m) (f_seru fr) (f_enct fr) (f_dect fr) (m_encv m) (m_decv m) (f_encu fr) (f_decu fr) Dt DEv Du n nr nt th Hn Hr Hnt Ft Ht Fu
      (f_tjunk fr) (f_ujunk fr) (f_tfresh fr) (f_ufresh fr) (j_dt jb) (f_du fr) (j_dv jb) neq (j_pg jb) (gs_es q) Hin (fun s => proj1 (Hj s)) (fun s => proj2 (Hj s))
      (j_fuel jb) (j_s jb) g (gs_P q) (gs_A q) (j_iterations jb) tmp C Hg Htmp) as [(K & r & B & He & Hl & Er & (R1 & R2 & R3) & Lr)|[He Er]].
    - left. exists K, r. split; [split; [auto|split; [exact He|exact Hl]]|]. split; [exact Er|]. split; [exact R1|]. split; [split; [exact Hin|exact R2]|]. split; [exact R3|exact Lr].
    - right. split; [exact He|exact Er].
  Qed.

  (** the same for any reduction *)
  Lemma run_op_any {S T U} th (jb : job S T U V E) (fr : frame T U byte) tmp C (g : gr) q : threads_ok m (m_serv m) th -> frame_ok m th fr -> is g q ->
    match tmp with None => C = (fun _ => j_dt jb) | Some xy => trep (f_sert fr) (f_seru fr) n nr nt (fst xy) (snd xy) C end ->
    exists Y,
    (exists K r, job_takes_with neq n jb Y C q K /\ run_job neq m th jb fr tmp g = Ok (r, Z.of_nat K) /\
       r_s r = v_s (job_after_with neq jb Y C q K) /\
       is (r_g r) (mkGS (gs_es q) (v_P (job_after_with neq jb Y C q K)) (v_A (job_after_with neq jb Y C q K))) /\
       trep (f_sert fr) (f_seru fr) n nr nt (r_x r) (r_y r) (v_C (job_after_with neq jb Y C q K))) \/
    (job_endless_with neq n jb Y C q /\ run_job neq m th jb fr tmp g = Err NoFuel).
  Proof.
    intros Ht (Ft & Fu & Dt & Du) (Hin & Hg) Htmp. unfold run_job.
    destruct (run_with (f_sert fr) (m_serv m) (f_seru fr) (f_enct fr) (f_dect fr) (m_encv m) (m_decv m) (f_encu fr) (f_decu fr) Dt DEv Du n nr nt th Hn Hr Hnt Ft Ht Fu
      (f_tjunk fr) (f_ujunk fr) (f_tfresh fr) (f_ufresh fr) (j_dt jb) (f_du fr) (j_dv jb) neq (j_pg jb) (gs_es q) Hin (fun q0 Y => outcome n (gs_es q) (j_pg jb) (j_dv jb) q0 Y)
      (j_fuel jb) (j_s jb) g (gs_P q) (gs_A q) (j_iterations jb) tmp C) as (Y & [(K & r & B & HA & He & Hl & Er & (R1 & R2 & R3) & _)|(HA & He & Er)]); auto.
    - intros q0 Y HY _. exists Y. auto.
    - exists Y. left. exists K, r. split; [split; [auto|split; [|split; [exact He|exact Hl]]]|].
      + intros k v Hk Hv. apply (HA k Hk v Hv).
      + split; [exact Er|]. split; [exact R1|]. split; [split; [exact Hin|exact R2]|exact R3].
    - exists Y. right. split; [|exact Er]. split; [|exact He]. intros k v Hk Hv. apply (HA k Hk v Hv).
  Qed.

  Lemma call_spec th c (g : gr) q : call_ok n m th c -> is g q ->
    exists o, spec_call neq n c q o /\ match o with Some q' => exists g', run_call neq m th c g = Ok g' /\ is g' q' | None => run_call neq m th c g = Err NoFuel end.
  Proof.
    intros [Ht Hc] Hg. destruct c as [v a|a|a|v|v| | |f|W mp op init|f|S T U jb fr]; cbn [spec_call run_call] in *.
    - eexists. split; [reflexivity|]. exact (vp_op th (GSet v a) g q Ht Hc Hg).
    - eexists. split; [reflexivity|]. exact (vp_op th (GSetAll a) g q Ht I Hg).
    - eexists. split; [reflexivity|]. unfold g_reset. destruct (act_op _ th AAllInactive g q Ht I Hg) as (g1 & E1 & H1). rewrite E1. cbn [bind]. exact (vp_op th (GSetAll a) g1 _ Ht I H1).
    - eexists. split; [reflexivity|]. exact (act_op _ th (AActive v) g q Ht Hc Hg).
    - eexists. split; [reflexivity|]. exact (act_op _ th (AInactive v) g q Ht Hc Hg).
    - eexists. split; [reflexivity|]. exact (act_op _ th AAllActive g q Ht I Hg).
    - eexists. split; [reflexivity|]. exact (act_op _ th AAllInactive g q Ht I Hg).
    - eexists. split; [reflexivity|]. exact (apply_op th f g q Ht Hg).
    - eexists. split; [reflexivity|]. destruct (reduce_op th mp op init g q Ht Hc Hg) as (g' & res & Er & Hg' & _). exists g'. rewrite Er. auto.
    - eexists. split; [reflexivity|]. exact (edges_op th f g q Ht Hg).
    - destruct Hc as [Hj Hf]. destruct (run_op th jb fr None (fun _ => j_dt jb) g q Ht Hj Hf Hg eq_refl) as [(K & r & Tk & Er & _ & Hg' & _)|[En Er]].
      + eexists. split; [left; exists K; split; [exact Tk|reflexivity]|]. cbv beta iota. exists (r_g r). rewrite Er. auto.
      + exists None. split; [right; auto|]. rewrite Er. reflexivity.
  Qed.

  Lemma calls_spec h : forall (g : gr) q, calls_ok n m h -> is g q ->
    exists o, spec_calls neq n h q o /\ match o with Some q' => exists g', run_calls neq m h g = Ok g' /\ is g' q' | None => run_calls neq m h g = Err NoFuel end.
  Proof.
    induction h as [|[th c] h IH]; intros g q Hok Hg; cbn [spec_calls run_calls].
    - exists (Some q). split; auto. exists g. auto.
    - inversion Hok as [|? ? H1 H2]; subst. cbn [fst snd] in *. destruct (call_spec th c g q H1 Hg) as ([q1|] & S1 & R1).
      + destruct R1 as (g1 & E1 & Hg1). rewrite E1. cbn [bind]. destruct (IH g1 q1 H2 Hg1) as (o & S2 & R2). exists o. split; [|exact R2]. exists (Some q1). auto.
      + exists None. rewrite R1. split; [|reflexivity]. exists None. auto.
  Qed.

  Lemma call_any th c (g : gr) q : call_fits n m th c -> is g q ->
    exists o, can_call neq n c q o /\ match o with Some q' => exists g', run_call neq m th c g = Ok g' /\ is g' q' | None => run_call neq m th c g = Err NoFuel end.
  Proof.
    intros Hc Hg. destruct c as [v a|a|a|v|v| | |f|W mp op init|f|S T U jb fr]; cbn [can_call call_fits] in *; try (apply call_spec; auto; fail).
    destruct Hc as [Ht Hf]. cbn [run_call]. destruct (run_op_any th jb fr None (fun _ => j_dt jb) g q Ht Hf Hg eq_refl) as (Y & [(K & r & Tk & Er & _ & Hg' & _)|[En Er]]).
    - eexists. split; [exists Y; left; exists K; split; [exact Tk|reflexivity]|]. cbv beta iota. exists (r_g r). rewrite Er. auto.
    - exists None. split; [exists Y; right; auto|]. rewrite Er. reflexivity.
  Qed.
  Lemma calls_any h : forall (g : gr) q, calls_fit n m h -> is g q ->
    exists o, can_calls neq n h q o /\ match o with Some q' => exists g', run_calls neq m h g = Ok g' /\ is g' q' | None => run_calls neq m h g = Err NoFuel end.
  Proof.
    induction h as [|[th c] h IH]; intros g q Hok Hg; cbn [can_calls run_calls].
    - exists (Some q). split; auto. exists g. auto.
    - inversion Hok as [|? ? H1 H2]; subst. cbn [fst snd] in *. destruct (call_any th c g q H1 Hg) as ([q1|] & S1 & R1).
      + destruct R1 as (g1 & E1 & Hg1). rewrite E1. cbn [bind]. destruct (IH g1 q1 H2 Hg1) as (o & S2 & R2). exists o. split; [|exact R2]. exists (Some q1). auto.
      + exists None. rewrite R1. split; [|reflexivity]. exists None. auto.
  Qed.

  (** *** what is seen *)
  Lemma held_gall {A} ser (v : list (list (seg A byte))) P : held ser nt n nr nr v (native n nr nt P) -> hlive nr v -> gall n nr nt v P.
  Proof.
    intros Hv Lv. pose proof Hv as [[Dl Dr] F]. split; auto. intros r segs Er.
    destruct (held_row ser nt n nr nr v _ r segs Hv Er) as [[Wl W] H]. split; [split; [auto|]|split].
    - intros j s Es. destruct (W j s Es) as [W1 W2]. split; auto. eapply swf_false; eauto.
    - exact H.
    - intros j s Es O. apply (Lv j s). rewrite O. eapply rd2_ok; eauto.
  Qed.

  Lemma is_properties (g : gr) q : is g q -> shows_properties n m g (gs_P q).
  Proof.
    intros (_ & (Gn & Gt & _) & Hv & Lv & _) v Bv. exists (owner n nr nt v).
    split; [apply ow_range; auto|]. split.
    - intros r. unfold owns. rewrite Gn, Gt. apply owner_spec; auto.
    - intros r d Br. destruct (held_gall _ _ _ Hv Lv) as [L G]. unfold read_property. destruct (rd_ok (g_vp g) r) as [segs Es]; [lia|]. rewrite Es. cbn [bind]. rewrite Gn, Gt.
      apply get_spec; auto.
  Qed.

  Lemma is_edges (g : gr) q : is g q -> shows_edges m g (gs_es q).
  Proof.
    intros (Hin & (Gn & Gt & ids & Ei & HA & HT) & _).
    destruct (export_edges (V:=V) (byte:=byte) nr nt Hnt Hr (m_junkA m) (m_junkT m) (m_vjunk m) (m_ajunk m) n Hn g (gs_es q)) as (out & E1 & _ & P1); [split; [auto|split; [auto|exists ids; auto]]|exact Hin|].
    set (g' := mkG (g_n g) (g_nt g) (g_AT g) (g_A g) (g_nnz g) (g_vp g) (g_act g)).
    destruct (export_edges (V:=V) (byte:=byte) nr nt Hnt Hr (m_junkA m) (m_junkT m) (m_vjunk m) (m_ajunk m) n Hn g' (map swap_ends (gs_es q))) as (out' & E2 & _ & P2).
    - split; [auto|]. split; [auto|]. exists ids. split; auto. unfold g'. cbn [g_A g_AT].
      assert (map (ren pi) (map swap_ends (gs_es q)) = map swap_ends (map (ren pi) (gs_es q))) as -> by (rewrite !map_map; reflexivity).
      split; auto. rewrite map_map, (map_ext _ (fun e => e)), map_id; auto. intros []; reflexivity.
    - intros e He. apply in_map_iff in He as (e0 & <- & He). destruct (Hin e0 He). split; auto.
    - exists out, out'. split; [exact E1|]. split; [exact P1|]. split; [exact E2|exact P2].
  Qed.

  Lemma is_calls {S T U} (jb : job S T U V E) C q K log (g : gr) q' : is g q' -> logs jb C q K log -> shows_calls neq n m g jb C q K log.
  Proof.
    intros (_ & (Gn & Gt & _) & _) [Ll Lg]. exists (owner n nr nt). split; [|split; [exact Ll|]].
    { intros v r Bv. unfold owns. rewrite Gn, Gt. apply owner_spec; auto. }
    intros r Br. destruct (Lg r Br) as (ls & El & Ln & Ic). rewrite El. cbn [bind].
    set (un := fun e => match e with Sent id => Sent (po id) | Applied id => Applied (po id) | Every it => Every it end).
    assert (forall i l, nth_error ls i = Some l -> calls n (gs_es q) (j_pg jb) (j_dv jb) (fun v => v) (owner n nr nt) r (Z.of_nat i) (job_after neq jb C q i) (map un l) /\
       (forall e, In e l -> event_vertex m g e = Ok (un e))) as Un.
    { intros i l Ei. assert (i < K)%nat as Bi by (rewrite <- Ln; apply nth_error_Some; rewrite Ei; discriminate).
      destruct (Ic i Bi) as (l' & El' & vs & ws & -> & N1 & I1 & N2 & I2). rewrite Ei in El'. injection El' as ->.
      assert (forall v, In v vs \/ In v ws -> 1 <= v <= n) as Bvs by (intros v [H|H]; [apply I1 in H|apply I2 in H]; tauto).
      split.
      - exists vs, ws. split; [|auto]. rewrite !map_app, !map_map. f_equal; [|f_equal]; apply map_ext_in; intros v Hv; cbn [un]; rewrite n2v_v2n; auto.
      - intros e He. assert (exists v, (e = Sent (pi v) \/ e = Applied (pi v)) /\ 1 <= v <= n \/ e = Every (Z.of_nat i)) as (v & [[He' Bv]| ->]).
        { rewrite !in_app_iff, !in_map_iff in He. destruct He as [(v & <- & Hv)|[(v & <- & Hv)|[<-|[]]]]; [exists v; left; auto|exists v; left; auto|exists 0; auto]. }
        + destruct (v2n_ok nt nr n v Hnt Hr Bv) as [_ Bp]. pose proof (proj1 (n2v_ok nt nr n _ Hnt Hr Bp)) as Ep. unfold event_vertex. rewrite Gn, Gt. destruct He' as [-> | ->]; rewrite Ep; reflexivity.
        + reflexivity. }
    exists (map (map un) ls). split; [|split; [rewrite map_length; exact Ln|]].
    - rewrite <- concat_map. apply mapR_map. intros e He. apply in_concat in He as (l & Hl & He). apply In_nth_error in Hl as (i & Ei). apply (Un i l Ei); auto.
    - intros i Bi. destruct (Ic i Bi) as (l & Ei & _). exists (map un l). split; [|apply Un; auto]. rewrite nth_error_map, Ei. reflexivity.
  Qed.
End Hist.
