(** What loading GraphMat's binary files gives. *)
From Verif Require Import BaseLemmas BucketProofs SegmentProofs UnionProofs VecProofs2 SearchProofs Layout LayoutProofs Reduce Bits Segment Vec VecProofs GraphVertProofs ListLemmas DCSC DCSCFinal MatSpec TileProofs SpMat SpMatProofs GraphVert Graph GraphProofs Runtime RunSegProofs RunSpec DistProofs MultProofs HeldProofs RuntimeProofs GraphOps GraphHist GraphHistProofs RunFinal GraphBin.

Section Arch.
  Context {E : Type}.
  Notation archive := (list (item E)).
  Definition round {A} (put : A -> R archive) (get : archive -> R (A * archive)) (a : A) : Prop :=
    exists ar, put a = Ok ar /\ forall rest, get (ar ++ rest) = Ok (a, rest).
  Lemma round_int z : round (@put_int E) get_int z.
  Proof. exists [IInt z]. split; [reflexivity|]. reflexivity. Qed.
  Lemma round_vec {A} (put : A -> R archive) get l : (forall a, In a l -> round put get a) -> round (put_vec put) (get_vec get) l.
  Proof.
    intros H. assert (exists xs, mapR put l = Ok xs /\ forall rest, get_many get (length l) (concat xs ++ rest) = Ok (l, rest)) as (xs & E1 & E2).
    { induction l as [|a l IH]; [exists []; split; reflexivity|]. destruct (H a (or_introl eq_refl)) as (ar & Ea & Ga). destruct IH as (xs & Ex & Gx); [intros; apply H; simpl; auto|].
      exists (ar :: xs). cbn [mapR]. rewrite Ea. cbn [bind]. rewrite Ex. split; [reflexivity|]. intros rest. cbn [concat length get_many]. rewrite <- app_assoc, Ga. cbn [bind snd fst]. rewrite Gx. reflexivity. }
    unfold round, put_vec, get_vec. rewrite E1. cbn [bind]. eexists. split; [reflexivity|]. intros rest. cbn [app get_int bind fst snd]. unfold zlen. rewrite Nat2Z.id. apply E2.
  Qed.
  Lemma round_ptr (t : option (dcsc E)) : match t with Some t => shaped t | None => True end -> round put_ptr get_ptr t.
  Proof.
    destruct t as [t|]; intros H; [|exists [IInt 0]; split; reflexivity]. destruct (save_load t [] H) as (ar & Es & _). exists (IInt 1 :: ar). unfold put_ptr. rewrite Es. split; [reflexivity|].
    intros rest. unfold get_ptr. cbn [app get_int bind fst snd]. change (1 =? 0) with false. cbv iota. destruct (save_load t rest H) as (ar' & Es' & El). rewrite Es in Es'. injection Es' as <-. rewrite El. reflexivity.
  Qed.
  Definition part_shaped (p : matpart E) : Prop := forall row t, In row (p_tiles p) -> In (Some t) row -> shaped t.
  Lemma round_part p : part_shaped p -> round part_save part_load p.
  Proof.
    intros H. destruct p as [ntx nty m n ts sx sy ids]. unfold round, part_save. cbn [p_tiles p_startx p_starty p_ids p_ntx p_nty p_m p_n].
    destruct (round_vec (put_vec put_ptr) (get_vec get_ptr) ts) as (a1 & P1 & G1). { intros row Hr. apply round_vec. intros t Ht. apply round_ptr. destruct t as [t|]; auto. exact (H row t Hr Ht). }
    destruct (round_vec put_int get_int sx) as (a2 & P2 & G2); [intros; apply round_int|].
    destruct (round_vec put_int get_int sy) as (a3 & P3 & G3); [intros; apply round_int|].
    destruct (round_vec put_int get_int ids) as (a4 & P4 & G4); [intros; apply round_int|].
    rewrite P1, P2, P3, P4. cbn [bind]. eexists. split; [reflexivity|]. intros rest. unfold part_load. cbn [app get_int bind].
    rewrite <- !app_assoc. rewrite G1. cbn [bind]. rewrite G2. cbn [bind]. rewrite G3. cbn [bind]. rewrite G4. reflexivity.
  Qed.
End Arch.

Section Parts.
  Context {E : Type}.
  Variables (nr m n ntx nty : Z).
  Hypothesis Hx : 1 <= ntx.
  Hypothesis Hy : 1 <= nty.
  Hypothesis Hnr : 1 <= nr.
  Variables (ids : list Z) (a : spmat E) (es : list (edge E)).
  Hypothesis Ha : mat_holds nr m n ntx nty ids a es.

  Lemma part_of r : 0 <= r < nr -> exists tab, rd (mt_tiles a) r = Ok tab /\
    mat_part a r = Ok (mkPart ntx nty m n tab (mat_starts n ntx) (mat_starts m nty) ids) /\ part_shaped (mkPart ntx nty m n tab (mat_starts n ntx) (mat_starts m nty) ids).
  Proof.
    intros Br. destruct Ha as [H1 H2 H3 H4 H5 H6 H7 H8 H9 [L D]]. destruct (rd_ok (mt_tiles a) r) as [tab Et]; [lia|]. exists tab. split; [auto|]. unfold mat_part. rewrite Et, H1, H2, H3, H4, H5. split; [reflexivity|].
    intros row t Hrow Ht. cbn [p_tiles] in Hrow. destruct (D r tab Et) as [L1 D1]. apply In_rd in Hrow as (i & Bi & Ei). apply In_rd in Ht as (j & Bj & Ej). rewrite (D1 i row Ei) in Bj. rewrite L1 in Bi.
    destruct (H9 r i j Br Bi Bj) as (t0 & Et0 & Q). unfold mat_tile in Et0. rewrite Et in Et0. cbn [bind] in Et0. unfold rd2 in Et0. rewrite Ei in Et0. cbn [bind] in Et0. rewrite Ej in Et0. injection Et0 as <-.
    destruct (ids_rd ntx nty Hx Hy ids i j H6 Bi Bj) as [o Eo]. specialize (Q o Eo). destruct (o =? r); [|discriminate]. destruct Q as (t' & T & Q & Tt & _). injection Q as <-. eapply tile_shaped; eauto.
  Qed.
  Lemma ints_eqb_refl l : ints_eqb l l = true.
  Proof. unfold ints_eqb. destruct (list_eq_dec Z.eq_dec l l); congruence. Qed.
  Lemma join_of ps : mapR (mat_part a) (zrange 0 nr) = Ok ps -> mat_join ps = Ok a.
  Proof.
    intros H. destruct Ha as [H1 H2 H3 H4 H5 H6 H7 H8 H9 [L D]].
    assert (map p_tiles ps = mt_tiles a) as Et.
    { pose proof (mapR_length _ _ _ H) as Lp. apply rd_ext.
      - rewrite zlen_map. unfold zlen at 1. rewrite Lp. fold (zlen (zrange 0 nr)). rewrite zlen_zrange by lia. lia.
      - intros i Bi. rewrite zlen_map in Bi. rewrite rd_map_list. destruct (rd_ok ps i Bi) as [p Ep]. rewrite Ep.
        destruct (mapR_zrange_rd _ _ _ _ _ H Ep) as [_ Ei]. unfold mat_part in Ei. destruct (rd (mt_tiles a) i); [|discriminate]. injection Ei as <-. reflexivity. }
    assert (forall p, In p ps -> p_ntx p = ntx /\ p_nty p = nty /\ p_m p = m /\ p_n p = n /\ p_ids p = ids /\ p_startx p = mat_starts n ntx /\ p_starty p = mat_starts m nty) as Hp.
    { intros p Hp. apply In_rd in Hp as (i & _ & Ei). destruct (mapR_zrange_rd _ _ _ _ _ H Ei) as [Bi Em]. unfold mat_part in Em. destruct (rd (mt_tiles a) i); [|discriminate]. injection Em as <-. cbn. rewrite H1, H2, H3, H4, H5. auto 10. }
    unfold mat_join. destruct ps as [|p ps']. { apply mapR_length in H. cbn in H. pose proof (zlen_zrange 0 nr). unfold zlen in *. rewrite <- H in *. cbn in *. lia. }
    assert (forallb (fits p) (p :: ps') = true) as ->.
    { apply forallb_forall. intros q Hq. destruct (Hp p (or_introl eq_refl)) as (Q1 & Q2 & Q3 & Q4 & Q5 & Q6 & Q7). destruct (Hp q Hq) as (R1 & R2 & R3 & R4 & R5 & R6 & R7). unfold fits.
      rewrite Q1, Q2, Q3, Q4, Q5, Q6, Q7, R1, R2, R3, R4, R5, !Z.eqb_refl, !ints_eqb_refl. reflexivity. }
    rewrite Et. destruct (Hp p (or_introl eq_refl)) as (Q1 & Q2 & Q3 & Q4 & Q5 & _). rewrite Q1, Q2, Q3, Q4, Q5. rewrite <- H1, <- H2, <- H3, <- H4, <- H5. destruct a; reflexivity.
  Qed.
End Parts.

Lemma mapR_of_rd {B} (f : Z -> R B) l m : 0 <= m -> zlen l = m -> (forall r b, rd l r = Ok b -> f r = Ok b) -> mapR f (zrange 0 m) = Ok l.
Proof.
  intros Hm L H. destruct (mapR_seq_all f (fun _ _ => True) m Hm) as (l' & E & L' & I).
  - intros r Br. destruct (rd_ok l r) as [b Eb]; [lia|]. eauto.
  - rewrite E. f_equal. apply rd_ext; [lia|]. intros i Bi. destruct (rd_ok l' i Bi) as [b Eb]. destruct (rd_ok l i) as [c Ec]; [lia|]. apply I in Eb as Eb'. apply H in Ec as Ec'. destruct Eb'. congruence.
Qed.

Section Files.
  Context {V E byte : Type}.
  Variables (nr nt n : Z) (g : graph V E byte) (es : list (edge E)).
  Hypothesis Hnr : 1 <= nr.
  Hypothesis Hg : edges_held nr nt g n es.

  Lemma written dir : exists dir', g_WriteGraphMatBin nr g dir = Ok dir' /\
    (forall k, ~ (0 <= k < nr) -> dir' k = dir k) /\
    forall r, 0 <= r < nr -> exists pa pt, mat_part (g_A g) r = Ok pa /\ mat_part (g_AT g) r = Ok pt /\ dir' r <> None /\
      forall nr' th dir1, dir1 r = dir' r -> rank_read nr' th dir1 r = if (nr' =? nr) && (th =? nt) then Ok (pa, pt, nt) else Err ExitCall.
  Proof.
    destruct Hg as (Gn & Gt & ids & Ei & HA & HT). unfold g_WriteGraphMatBin.
    assert (forall r, 0 <= r < nr -> exists ar pa pt, rank_write g r = Ok ar /\ mat_part (g_A g) r = Ok pa /\ mat_part (g_AT g) r = Ok pt /\
      forall nr' th (dir1 : folder E), dir1 r = Some ar -> rank_read nr' th dir1 r = if (nr' =? nr) && (th =? nt) then Ok (pa, pt, nt) else Err ExitCall) as W.
    { intros r Br. destruct (part_of nr n n nr nr Hnr Hnr ids _ _ HA r Br) as (ta & _ & Ea & Sa). destruct (part_of nr n n nr nr Hnr Hnr ids _ _ HT r Br) as (tt & _ & Et & St).
      destruct (round_part _ Sa) as (aa & Pa & La). destruct (round_part _ St) as (at_ & Pt & Lt).
      unfold rank_write. rewrite Ea. cbn [bind]. rewrite Pa. cbn [bind]. rewrite Et. cbn [bind]. rewrite Pt. cbn [bind]. eexists _, _, _. split; [reflexivity|]. split; [reflexivity|]. split; [reflexivity|].
      intros nr' th dir1 Ed. unfold rank_read. rewrite Ed, La. cbn [bind fst snd]. rewrite Lt. cbn [bind fst snd p_ntx p_nty get_int]. rewrite (Z.eqb_sym nr nr'). destruct (nr' =? nr); [|reflexivity]. cbn [negb orb andb]. rewrite Gt, (Z.eqb_sym nt th). destruct (th =? nt); reflexivity. }
    destruct (mapR_seq_all (rank_write g) (fun r ar => exists pa pt, mat_part (g_A g) r = Ok pa /\ mat_part (g_AT g) r = Ok pt /\
      forall nr' th (dir1 : folder E), dir1 r = Some ar -> rank_read nr' th dir1 r = if (nr' =? nr) && (th =? nt) then Ok (pa, pt, nt) else Err ExitCall) nr) as (files & Ef & Lf & If); [lia| |].
    { intros r Br. destruct (W r Br) as (ar & pa & pt & H). exists ar. intuition eauto. }
    rewrite Ef. cbn [bind]. eexists. split; [reflexivity|]. cbv beta. split.
    - intros k Bk. destruct (Z.leb_spec 0 k); [|reflexivity]. destruct (Z.ltb_spec k nr); [lia|reflexivity].
    - intros r Br. destruct (rd_ok files r) as [ar Er]; [lia|]. destruct (If r ar Er) as (_ & pa & pt & Ea & Et & Rd). exists pa, pt. split; [auto|]. split; [auto|].
      destruct (Z.leb_spec 0 r); [|lia]. destruct (Z.ltb_spec r nr); [|lia]. cbn [andb]. rewrite Er. split; [discriminate|]. intros. apply Rd. auto.
  Qed.
End Files.

Section Reload.
  Context {V V' E byte byte' : Type}.
  Variables (m : machine V E byte) (n : Z) (g : graph V E byte) (q : gspec V E).
  Hypothesis Hm : machine_ok m.
  Hypothesis Hn : 0 <= n.
  Hypothesis Hg : is m n g q.

  Lemma fresh_held (m' : machine V' E byte') dv : machine_ok m' -> exists vp act,
    g_vectors (byte:=byte') (m_nr m') (m_nt m') (m_vjunk m') (m_ajunk m') (m_vfresh m') (m_afresh m') dv n = Ok (vp, act) /\
    held (m_serv m') (m_nt m') n (m_nr m') (m_nr m') vp (native n (m_nr m') (m_nt m') (fun _ => dv)) /\ hlive (m_nr m') vp /\
    held false (m_nt m') n (m_nr m') (m_nr m') act (nativeo n (m_nr m') (m_nt m') (fun _ => Some false)) /\ hlive (m_nr m') act.
  Proof.
    intros (Hr & Hnt & _). unfold g_vectors, g_new_vp, g_new_active.
    destruct (held_new (byte:=byte') (m_serv m') (m_nt m') n (m_nr m') (m_nr m') Hn Hr Hr (m_nt m') (m_vjunk m') (m_vfresh m') dv) as (vp & E1 & V1 & L1); [split; auto|]. rewrite E1. cbn [bind].
    destruct (held_new (byte:=byte') false (m_nt m') n (m_nr m') (m_nr m') Hn Hr Hr (m_nt m') (m_ajunk m') (m_afresh m') false) as (act & E2 & V2 & L2); [split; auto|]. rewrite E2. cbn [bind].
    exists vp, act. split; [reflexivity|]. auto.
  Qed.

  Lemma reload (dir dir' : folder E) (m' : machine V' E byte') dv : g_WriteGraphMatBin (m_nr m) g dir = Ok dir' -> machine_ok m' ->
    m_nr m' = m_nr m -> m_nt m' = m_nt m ->
    exists g', read_bin m' dv dir' = Ok g' /\ g_n g' = g_n g /\ g_nt g' = g_nt g /\ g_A g' = g_A g /\ g_AT g' = g_AT g /\ is m' n g' (loaded dv (gs_es q)).
  Proof.
    intros Ew Hm' En Et. destruct Hg as (Hin & He & _). pose proof Hm as (Hr & Hnt & _).
    destruct (written (m_nr m) (m_nt m) n g _ Hr He dir) as (d & Ed & _ & Rd). rewrite Ew in Ed. injection Ed as <-.
    pose proof He as (Gn & Gt & ids & Ei & HA & HT). unfold read_bin, g_ReadGraphMatBin. rewrite En.
    destruct (mapR_seq_all (rank_read (m_nr m) (m_nt m') dir') (fun r p => mat_part (g_A g) r = Ok (fst (fst p)) /\ mat_part (g_AT g) r = Ok (snd (fst p))) (m_nr m)) as (parts & Ep & Lp & Ip); [lia| |].
    { intros r Br. destruct (Rd r Br) as (pa & pt & Ea & Eat & _ & Q). exists (pa, pt, m_nt m). split; [|auto]. rewrite (Q (m_nr m) (m_nt m') dir' eq_refl), Et, !Z.eqb_refl. reflexivity. }
    rewrite Ep. cbn [bind].
    assert (mapR (mat_part (g_A g)) (zrange 0 (m_nr m)) = Ok (map (fun p => fst (fst p)) parts)) as J1.
    { apply mapR_of_rd; [lia|rewrite zlen_map; auto|]. intros r b Eb. rewrite rd_map_list in Eb. destruct (rd parts r) eqn:Er; [|discriminate]. injection Eb as <-. apply Ip in Er. tauto. }
    assert (mapR (mat_part (g_AT g)) (zrange 0 (m_nr m)) = Ok (map (fun p => snd (fst p)) parts)) as J2.
    { apply mapR_of_rd; [lia|rewrite zlen_map; auto|]. intros r b Eb. rewrite rd_map_list in Eb. destruct (rd parts r) eqn:Er; [|discriminate]. injection Eb as <-. apply Ip in Er. tauto. }
    rewrite (join_of _ _ _ _ _ Hr _ _ _ HA _ J1). cbn [bind]. rewrite (join_of _ _ _ _ _ Hr _ _ _ HT _ J2). cbn [bind].
    destruct (fresh_held m' dv Hm') as (vp & act & Ev & R1 & R2 & R3 & R4). rewrite En in Ev. rewrite (mh_m _ _ _ _ _ _ _ _ HA). rewrite Ev. cbn [bind].
    destruct (nnz_spec (m_nr m) n n (m_nr m) (m_nr m) Hr Hn Hn Hr Hr ids (g_A g) _ HA) as (outs & _ & _ & Ez). rewrite Ez. cbn [bind fst snd].
    eexists. split; [reflexivity|]. cbn [g_n g_nt g_A g_AT]. rewrite Gn, Gt. do 4 (split; [auto|]). split; [exact Hin|]. cbn [loaded gs_es gs_P gs_A]. split; [|cbn [g_vp g_act]; auto].
    split; [reflexivity|]. split; [reflexivity|]. exists ids. cbn [g_A g_AT]. rewrite En, Et. auto.
  Qed.

  (** other numbers of ranks or threads *)
  Lemma reload_other (dir dir' : folder E) nr' th : g_WriteGraphMatBin (m_nr m) g dir = Ok dir' -> (nr' =? m_nr m) && (th =? m_nt m) = false ->
    forall r, 0 <= r < m_nr m -> rank_read nr' th dir' r = Err ExitCall.
  Proof.
    intros Ew N r Br. destruct Hg as (_ & He & _). pose proof Hm as (Hr & Hnt & _).
    destruct (written (m_nr m) (m_nt m) n g _ Hr He dir) as (d & Ed & _ & Rd). rewrite Ew in Ed. injection Ed as <-.
    destruct (Rd r Br) as (pa & pt & _ & _ & _ & Q). rewrite (Q nr' th dir' eq_refl), N. reflexivity.
  Qed.
  Lemma write_ok dir : exists dir', g_WriteGraphMatBin (m_nr m) g dir = Ok dir' /\ (forall k, ~ (0 <= k < m_nr m) -> dir' k = dir k).
  Proof.
    destruct Hg as (_ & He & _). pose proof Hm as (Hr & Hnt & _).
    destruct (written (m_nr m) (m_nt m) n g _ Hr He dir) as (d & Ed & Q & Rd). eauto.
  Qed.
End Reload.

Section Claims.
  Context {V E byte : Type}.
  Variable neq : V -> V -> bool.
  Variables (m : machine V E byte) (dv : V) (n : Z) (blobs : list (list (edge E))) (h : list (Z * gcall V E byte)) (g : graph V E byte) (q : gspec V E).
  Hypothesis Hset : setting m n blobs.
  Hypothesis Hok : calls_ok n m h.
  Hypothesis Hre : reached neq m dv n blobs h g.
  Hypothesis Hme : means neq dv n blobs h q.

  Let Hg : is m n g q. Proof. eapply reach_is; eauto. Qed.
  Let Hm : machine_ok m. Proof. apply Hset. Qed.
  Let Hn : 0 <= n. Proof. apply Hset. Qed.

  Lemma round_trip {V' byte'} (neq' : V' -> V' -> bool) (m' : machine V' E byte') dv' dir :
    machine_ok m' -> m_nr m' = m_nr m -> m_nt m' = m_nt m ->
    exists dir' g', write_bin m g dir = Ok dir' /\ read_bin m' dv' dir' = Ok g' /\
      g_n g' = g_n g /\ g_nt g' = g_nt g /\ g_A g' = g_A g /\ g_AT g' = g_AT g /\
      forall h', calls_ok n m' h' ->
        (exists g2 q2, run_calls neq' m' h' g' = Ok g2 /\ spec_calls neq' n h' (loaded dv' (gs_es q)) (Some q2) /\ shows_properties n m' g2 (gs_P q2) /\ shows_edges m' g2 (gs_es q2)) \/
        (run_calls neq' m' h' g' = Err NoFuel /\ spec_calls neq' n h' (loaded dv' (gs_es q)) None).
  Proof.
    intros Hm' En Et. destruct (write_ok m n g q Hm Hg dir) as (dir' & Ew & _). destruct (reload m n g q Hm Hn Hg dir dir' m' dv' Ew Hm' En Et) as (g' & Er & G1 & G2 & G3 & G4 & Hi).
    exists dir', g'. split; [exact Ew|]. split; [exact Er|]. do 4 (split; [auto|]). intros h' Hok'. destruct (calls_spec neq' m' Hm' n Hn h' g' _ Hok' Hi) as ([q2|] & So & R); [left|right; auto].
    destruct R as (g2 & E2 & H2). exists g2, q2. split; [auto|]. split; [auto|]. split; [apply is_properties; auto|eapply is_edges; eauto].
  Qed.
  Lemma other_configuration {V' byte'} (m' : machine V' E byte') dv' dir : 1 <= m_nr m' -> m_nr m' <> m_nr m \/ m_nt m' <> m_nt m ->
    exists dir', write_bin m g dir = Ok dir' /\ read_bin m' dv' dir' = Err ExitCall /\
      forall r, 0 <= r < m_nr m' -> (r < m_nr m -> rank_read (m_nr m') (m_nt m') dir' r = Err ExitCall) /\
        (m_nr m <= r -> dir r = None -> rank_read (m_nr m') (m_nt m') dir' r = Err AssertFail).
  Proof.
    intros H1 N. destruct (write_ok m n g q Hm Hg dir) as (dir' & Ew & O). exists dir'. split; [exact Ew|].
    assert (forall r, 0 <= r < m_nr m -> rank_read (m_nr m') (m_nt m') dir' r = Err ExitCall) as Q.
    { apply (reload_other m n g q Hm Hg dir dir' _ _ Ew). destruct (Z.eqb_spec (m_nr m') (m_nr m)); [|reflexivity]. destruct (Z.eqb_spec (m_nt m') (m_nt m)); [|reflexivity]. destruct N; contradiction. }
    split.
    - unfold read_bin, g_ReadGraphMatBin. rewrite (zrange_cons 0 (m_nr m')) by lia. cbn [mapR]. rewrite Q; [reflexivity|]. destruct Hm. lia.
    - intros r Br. split; [intros; apply Q; lia|]. intros B Ed. unfold rank_read. rewrite O by lia. rewrite Ed. reflexivity.
  Qed.
End Claims.
