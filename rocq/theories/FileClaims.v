(** Consequences for particular kinds of edge files. *)
From Verif Require Import Base BaseLemmas ListLemmas BitsProofs Segment DCSC EdgeList EdgeSpec Apps FileIO FileSpec FileProofs FileFinal.

Section FC.
  Context {E : Type}.
  Variables (w : wtype E) (wide : Z -> Z) (fm : fmt).
  Notation lines_of fs := (concat (map (@ef_edges E) fs)).

  Lemma forallb_F {A} (p : A -> bool) l : (exists a, In a l /\ p a = false) -> forallb p l = false.
  Proof. intros (a & I0 & Ha). destruct (forallb p l) eqn:Ef; [|reflexivity]. rewrite forallb_forall in Ef. rewrite Ef in Ha by auto. discriminate. Qed.
  Lemma kept_last p F : Forall (fun G : efile E => ef_newline G = true) p -> kept (p ++ [F]) = lines_of (p ++ [F]).
  Proof.
    induction 1 as [|G p Hg H IH]; cbn [app map concat].
    - rewrite kept_cons. cbn [forallb kept]. rewrite orb_true_r. reflexivity.
    - rewrite kept_cons, Hg, IH. reflexivity.
  Qed.
  Lemma kept_inner p F q l e : Forall (fun G : efile E => ef_newline G = true) p -> Forall (fun G : efile E => ef_newline G = true) q -> ef_newline F = false -> ef_edges F = l ++ [e] -> lines_of q <> [] ->
    kept (p ++ F :: q) = lines_of p ++ l ++ lines_of q.
  Proof.
    intros Hp Hq Hn Hl Hne. induction Hp as [|G p Hg H IH]; cbn [app map concat].
    - rewrite kept_cons, Hn, (kept_ended q Hq). replace (forallb no_lines q) with false; [cbn [orb]; unfold ended; rewrite Hn, Hl, removelast_last; reflexivity|]. symmetry. apply forallb_F. clear - Hne.
      induction q as [|G q IH]; [contradiction|]. cbn in Hne. destruct (ef_edges G) as [|x r] eqn:El.
      + destruct (IH Hne) as (a & Ia & Ha). exists a. split; [right|]; auto.
      + exists G. split; [left; auto|]. unfold no_lines. rewrite El. reflexivity.
    - rewrite kept_cons, Hg, IH. cbn [orb]. rewrite app_assoc. reflexivity.
  Qed.
  Lemma count_sum fs : header fm = true -> Forall (fun G : efile E => ef_count G = zlen (ef_edges G)) fs -> count fm fs = i32 (zlen (lines_of fs)).
  Proof.
    intros Hh H. unfold count. f_equal. induction H as [|G r Hg H IH]; [reflexivity|]. cbn [map fold_right concat]. rewrite zlen_app, IH. unfold file_count at 1. rewrite Hh, Hg. reflexivity.
  Qed.
  Lemma count_ended fs : header fm = false -> count fm fs = i32 (zlen (concat (map (@ended E) fs))).
  Proof. intros Hh. unfold count. f_equal. induction fs as [|G r IH]; [reflexivity|]. cbn [map fold_right concat]. rewrite zlen_app, IH. unfold file_count at 1. rewrite Hh. reflexivity. Qed.
  Lemma ended_all fs : Forall (fun G : efile E => ef_newline G = true) fs -> concat (map (@ended E) fs) = lines_of fs.
  Proof. induction 1 as [|G r Hg H IH]; [reflexivity|]. cbn [map concat]. unfold ended at 1. rewrite Hg, IH. reflexivity. Qed.
  Lemma is_int_len (l : list (edge E)) : zlen l < 2 ^ 31 -> is_int (zlen l).
  Proof. pose proof (zlen_nonneg l). unfold is_int. lia. Qed.

  (** C48 *)
  Lemma header_exact fuel nr d F : supported w fm -> 1 <= nr -> header fm = true -> holds_files w fm d F -> enough fuel d F -> (forall i, ef_newline (F i) = true) ->
    let lines r := lines_of (map F (read_by nr d r)) in
    let total r := i32 (fold_right Z.add 0 (map (@ef_count E) (map F (read_by nr d r)))) in
    ((forall r, 0 <= r < nr -> zlen (lines r) <= Z.max 0 (total r)) ->
      exists els, load_edgelist w wide fuel fm nr d = Ok els /\ zlen els = nr /\ forall r, 0 <= r < nr ->
        exists el, rd els r = Ok el /\ el_nnz el = total r /\ el_arr el = map Some (map (back w fm) (lines r)) ++ repeat None (Z.to_nat (total r - zlen (lines r)))) /\
    ((exists r, 0 <= r < nr /\ Z.max 0 (total r) < zlen (lines r)) -> load_edgelist w wide fuel fm nr d = Err OOB).
  Proof.
    intros Hs Hn Hh HF HE Hnl lines total.
    pose proof (load_exact w wide fm fuel nr d F Hs Hn HF HE) as EL. cbn zeta in EL.
    assert (forall r, kept (map F (read_by nr d r)) = lines r) as Hk by (intros r; apply kept_ended, Forall_map, Forall_forall; auto).
    assert (forall r, count fm (map F (read_by nr d r)) = total r) as Hc by (intros r; unfold count, total; f_equal; f_equal; apply map_ext; intros G; unfold file_count; rewrite Hh; reflexivity).
    split; intros H.
    - rewrite EL. rewrite (proj2 (forallb_forall _ _)).
      2:{ intros r Ir. apply in_zrange in Ir. rewrite Hk, Hc. apply Z.leb_le. auto. }
      eexists. split; [reflexivity|]. unfold loaded. split; [unfold zlen; rewrite map_length; pose proof (zlen_zrange 0 nr); unfold zlen in *; lia|].
      intros r Br. eexists. split; [apply rd_map, rd_zrange; lia|]. cbn [el_nnz el_arr]. rewrite Z.add_0_l. rewrite Hk, Hc. auto.
    - destruct H as (r & Br & H). rewrite EL. rewrite forallb_F; [reflexivity|]. exists r. split; [apply in_zrange; lia|]. rewrite Hk, Hc. apply Z.leb_gt. lia.
  Qed.

  Lemma header_safe_iff fuel nr d F : supported w fm -> 1 <= nr -> header fm = true -> holds_files w fm d F -> enough fuel d F -> (forall i, ef_newline (F i) = true) ->
    (exists els, load_edgelist w wide fuel fm nr d = Ok els /\ forall el, In el els -> exists l, holds el l) <->
    (forall r, 0 <= r < nr -> i32 (fold_right Z.add 0 (map (@ef_count E) (map F (read_by nr d r)))) = zlen (lines_of (map F (read_by nr d r)))).
  Proof.
    intros Hs Hn Hh HF HE Hnl. pose proof (header_exact fuel nr d F Hs Hn Hh HF HE Hnl) as HX. cbv zeta in HX.
    pose (lines := fun r => lines_of (map F (read_by nr d r))). pose (total := fun r => i32 (fold_right Z.add 0 (map (@ef_count E) (map F (read_by nr d r))))).
    change (((forall r, 0 <= r < nr -> zlen (lines r) <= Z.max 0 (total r)) ->
      exists els, load_edgelist w wide fuel fm nr d = Ok els /\ zlen els = nr /\ forall r, 0 <= r < nr ->
        exists el, rd els r = Ok el /\ el_nnz el = total r /\ el_arr el = map Some (map (back w fm) (lines r)) ++ repeat None (Z.to_nat (total r - zlen (lines r)))) /\
    ((exists r, 0 <= r < nr /\ Z.max 0 (total r) < zlen (lines r)) -> load_edgelist w wide fuel fm nr d = Err OOB)) in HX.
    change ((exists els, load_edgelist w wide fuel fm nr d = Ok els /\ forall el, In el els -> exists l, holds el l) <-> (forall r, 0 <= r < nr -> total r = zlen (lines r))).
    clearbody lines total. destruct HX as [H1 H2].
    split.
    - intros (els & El & Hh2) r Br.
      assert (forall r, 0 <= r < nr -> zlen (lines r) <= Z.max 0 (total r)) as HA.
      { intros r' Br'. destruct (Z.le_gt_cases (zlen (lines r')) (Z.max 0 (total r'))) as [L|L]; [auto|]. rewrite H2 in El by eauto. discriminate. }
      destruct (H1 HA) as (els' & El' & _ & Hr). rewrite El in El'. injection El' as <-. destruct (Hr r Br) as (el & Hel & Hnn & Harr).
      assert (In el els) as Iel by (apply rd_nth in Hel as [_ Hel]; eapply nth_error_In; eauto). destruct (Hh2 el Iel) as (l & Hn2 & rest & Ea). specialize (HA r Br).
      rewrite Hnn in Hn2. pose proof (zlen_nonneg l). pose proof (zlen_nonneg (lines r)). destruct (Z.eq_dec (total r) (zlen (lines r))) as [|N]; [auto|exfalso].
      rewrite Harr in Ea. assert (zlen (lines r) < zlen l) as L by lia.
      assert (nth_error (map Some (map (back w fm) (lines r)) ++ repeat None (Z.to_nat (total r - zlen (lines r)))) (length (lines r)) = Some None) as N1.
      { rewrite nth_error_app2 by (rewrite !map_length; lia). rewrite !map_length, Nat.sub_diag. destruct (Z.to_nat (total r - zlen (lines r))) eqn:Ez; [lia|reflexivity]. }
      rewrite Ea in N1. rewrite nth_error_app1 in N1 by (rewrite map_length; unfold zlen in L; lia). apply nth_error_In in N1. apply in_map_iff in N1 as (? & ? & _). discriminate.
    - intros Ht. assert (forall r, 0 <= r < nr -> zlen (lines r) <= Z.max 0 (total r)) as HA by (intros r Br; specialize (Ht r Br); lia).
      destruct (H1 HA) as (els & El & Lz & Hr). exists els. split; [exact El|]. intros el Iel. apply In_nth_error in Iel as (k & Hk). assert (k < length els)%nat as Lk by (apply nth_error_Some; congruence).
      destruct (Hr (Z.of_nat k) ltac:(unfold zlen in Lz; lia)) as (el' & Hel & Hnn & Harr). apply rd_nth in Hel as [_ Hel]. rewrite Nat2Z.id, Hk in Hel. injection Hel as <-.
      exists (map (back w fm) (lines (Z.of_nat k))). assert (total (Z.of_nat k) = zlen (lines (Z.of_nat k))) as Et by (apply Ht; unfold zlen in Lz; lia). split; [unfold zlen in *; rewrite map_length; lia|]. exists []. rewrite app_nil_r, Harr, Et, Z.sub_diag. cbn. rewrite app_nil_r. reflexivity.
  Qed.

  (** C47: text files *)
  Lemma loaded_rd nr (fs : Z -> list (efile E)) r : 0 <= r < nr -> exists m n, rd (loaded w fm nr fs) r = Ok (mkEL (map Some (map (back w fm) (kept (fs r))) ++ repeat None (Z.to_nat (count fm (fs r) - zlen (kept (fs r))))) m n (count fm (fs r))).
  Proof. intros Br. unfold loaded. eexists _, _. erewrite rd_map; [|apply rd_zrange; lia]. rewrite Z.add_0_l. reflexivity. Qed.
  (** (A) with a header, the last file of each rank may lack its newline *)
  Lemma last_unended_ok fuel nr d F : supported w fm -> 1 <= nr -> header fm = true -> holds_files w fm d F -> enough fuel d F -> (forall i, ef_count (F i) = zlen (ef_edges (F i))) ->
    (forall r, 0 <= r < nr -> zlen (lines_of (map F (read_by nr d r))) < 2 ^ 31) ->
    (forall r, 0 <= r < nr -> forall i, In i (removelast (read_by nr d r)) -> ef_newline (F i) = true) ->
    exists els, load_edgelist w wide fuel fm nr d = Ok els /\ forall r, 0 <= r < nr -> exists el, rd els r = Ok el /\
      el_arr el = map Some (map (back w fm) (lines_of (map F (read_by nr d r)))) /\ el_nnz el = zlen (lines_of (map F (read_by nr d r))).
  Proof.
    intros Hs Hn Hh HF HE Hc Hlen Hnl. pose proof (load_exact w wide fm fuel nr d F Hs Hn HF HE) as EL. cbn zeta in EL.
    assert (forall r, 0 <= r < nr -> kept (map F (read_by nr d r)) = lines_of (map F (read_by nr d r))) as Hk.
    { intros r Br. specialize (Hnl r Br). destruct (read_by nr d r) as [|i0 l0] eqn:Er; [reflexivity|]. rewrite (app_removelast_last i0 (l := i0 :: l0)) by discriminate. rewrite map_app. apply kept_last. apply Forall_map, Forall_forall. auto. }
    assert (forall r, 0 <= r < nr -> count fm (map F (read_by nr d r)) = zlen (lines_of (map F (read_by nr d r)))) as Hcn.
    { intros r Br. rewrite count_sum; auto; [apply i32_id, is_int_len; auto|]. apply Forall_map, Forall_forall. auto. }
    rewrite EL. rewrite (proj2 (forallb_forall _ _)).
    2:{ intros r Ir. apply in_zrange in Ir. rewrite Hk, Hcn by auto. apply Z.leb_le. lia. }
    eexists. split; [reflexivity|]. intros r Br. destruct (loaded_rd nr (fun r => map F (read_by nr d r)) r Br) as (m & n & Hrd). eexists. split; [exact Hrd|]. cbn [el_arr el_nnz]. rewrite Hk, Hcn, Z.sub_diag by auto. cbn. rewrite app_nil_r. auto.
  Qed.
  (** (B, C) an unended line before another line is lost *)
  Lemma inner_unended fuel nr d F r p i q l e : supported w fm -> 1 <= nr -> holds_files w fm d F -> enough fuel d F -> (forall i, ef_count (F i) = zlen (ef_edges (F i))) ->
    (forall r, 0 <= r < nr -> zlen (lines_of (map F (read_by nr d r))) < 2 ^ 31) ->
    0 <= r < nr -> read_by nr d r = p ++ i :: q -> ef_newline (F i) = false -> ef_edges (F i) = l ++ [e] -> lines_of (map F q) <> [] -> (forall k, k <> i -> ef_newline (F k) = true) ->
    ~ In i p -> ~ In i q -> (forall r', 0 <= r' < nr -> r' <> r -> ~ In i (read_by nr d r')) ->
    exists els el, load_edgelist w wide fuel fm nr d = Ok els /\ rd els r = Ok el /\
      el_arr el = map Some (map (back w fm) (lines_of (map F p) ++ l ++ lines_of (map F q))) ++ (if header fm then [None] else []) /\
      el_nnz el = zlen (lines_of (map F p) ++ l ++ lines_of (map F q)) + (if header fm then 1 else 0).
  Proof.
    intros Hs Hn HF HE Hc Hlen Br Hr Hni Hl Hne Hnk Hip Hiq Hir. pose proof (load_exact w wide fm fuel nr d F Hs Hn HF HE) as EL. cbn zeta in EL.
    assert (forall p, ~ In i p -> Forall (fun G : efile E => ef_newline G = true) (map F p)) as Hnp by (intros p0 H; apply Forall_map, Forall_forall; intros x Hx; apply Hnk; intros ->; auto).
    assert (kept (map F (read_by nr d r)) = lines_of (map F p) ++ l ++ lines_of (map F q)) as Hk by (rewrite Hr, map_app; cbn [map]; apply (kept_inner _ _ _ l e); auto).
    assert (lines_of (map F (read_by nr d r)) = lines_of (map F p) ++ (l ++ [e]) ++ lines_of (map F q)) as Hln by (rewrite Hr, map_app, map_app, concat_app; cbn [map concat]; rewrite Hl; reflexivity).
    assert (zlen (lines_of (map F (read_by nr d r))) = zlen (lines_of (map F p) ++ l ++ lines_of (map F q)) + 1) as Hzl by (rewrite Hln, !zlen_app; cbn; change (zlen [e]) with 1; lia).
    assert (count fm (map F (read_by nr d r)) = zlen (lines_of (map F p) ++ l ++ lines_of (map F q)) + (if header fm then 1 else 0)) as Hcn.
    { pose proof (Hlen r Br) as HL. pose proof (zlen_nonneg (lines_of (map F p) ++ l ++ lines_of (map F q))). destruct (header fm) eqn:Hh.
      - rewrite count_sum, Hzl; auto; [|apply Forall_map, Forall_forall; auto]. apply i32_id. unfold is_int. lia.
      - rewrite count_ended by auto. rewrite Hr, map_app, map_app, concat_app. cbn [map concat]. rewrite !ended_all by auto. unfold ended. rewrite Hni, Hl, removelast_last, Z.add_0_r. apply i32_id. unfold is_int. lia. }
    rewrite EL. rewrite (proj2 (forallb_forall _ _)).
    2:{ intros r' Ir. apply in_zrange in Ir. apply Z.leb_le. destruct (Z.eq_dec r' r) as [->|N].
        - rewrite Hk, Hcn. destruct (header fm); lia.
        - pose proof (Hnp _ (Hir r' Ir N)) as Hall. rewrite kept_ended by auto. pose proof (Hlen r' Ir). destruct (header fm) eqn:Hh; [rewrite count_sum|rewrite count_ended, ended_all]; auto; try (rewrite i32_id by (apply is_int_len; auto); lia). apply Forall_map, Forall_forall; auto. }
    destruct (loaded_rd nr (fun r => map F (read_by nr d r)) r Br) as (m & n & Hrd). eexists _, _. split; [reflexivity|]. split; [exact Hrd|]. cbn [el_arr el_nnz]. rewrite Hk, Hcn. split; [|reflexivity]. f_equal. destruct (header fm); [replace (_ + 1 - _) with 1 by lia|replace (_ + 0 - _) with 0 by lia]; reflexivity.
  Qed.
  (** (D) without a header, an unended line at the very end is written past the buffer *)
  Lemma last_unended_oob fuel nr d F r p i l e : supported w fm -> 1 <= nr -> header fm = false -> holds_files w fm d F -> enough fuel d F ->
    0 <= r < nr -> zlen (lines_of (map F (read_by nr d r))) < 2 ^ 31 -> read_by nr d r = p ++ [i] -> ef_newline (F i) = false -> ef_edges (F i) = l ++ [e] -> (forall k, In k p -> ef_newline (F k) = true) ->
    load_edgelist w wide fuel fm nr d = Err OOB.
  Proof.
    intros Hs Hn Hh HF HE Br HL Hr Hni Hl Hnp. pose proof (load_exact w wide fm fuel nr d F Hs Hn HF HE) as EL. cbn zeta in EL. rewrite EL. rewrite forallb_F; [reflexivity|]. exists r. split; [apply in_zrange; lia|]. apply Z.leb_gt.
    assert (Forall (fun G : efile E => ef_newline G = true) (map F p)) as Hp by (apply Forall_map, Forall_forall; auto).
    rewrite Hr in *. rewrite map_app in *. cbn [map] in *. rewrite kept_last, count_ended by auto. rewrite !map_app, !concat_app in *. cbn [map concat] in *. rewrite ended_all by auto. unfold ended. rewrite Hni, Hl, removelast_last in *. rewrite !app_nil_r in *. rewrite !zlen_app in *. change (zlen [e]) with 1 in *.
    pose proof (zlen_nonneg (concat (map (@ef_edges E) (map F p)))). pose proof (zlen_nonneg l). rewrite i32_id by (unfold is_int; lia). lia.
  Qed.

  (** C65: a weight type without text conversion *)
  Lemma read_edges_stuck : binary fm = false -> weights fm = true -> w_text w = None -> forall fuel b (a : list (@cell E)) p, read_edges w wide fuel fm (mkS b false) a p = Err NoFuel.
  Proof. intros Hb Hw Ht. induction fuel as [|k IH]; intros b a p; [reflexivity|]. cbn [read_edges s_eof]. unfold readLine. rewrite Hb, Hw, Ht. cbn [s_eof negb bind]. apply IH. Qed.

  Definition headed (b : list Z) : Prop := exists m n c rest, is_int m /\ is_int n /\ is_int c /\ b = header_bytes fm m n c ++ rest.
  Lemma opened_stuck nr d : (forall i b, file_at d i = Some b -> headed b) -> forall fuel i, opened fuel nr i d = Err NoFuel \/ exists bs, opened fuel nr i d = Ok bs /\ Forall headed bs /\ (file_at d i <> None -> bs <> []).
  Proof.
    intros Hd. induction fuel as [|k IH]; intros i; cbn [opened]; [auto|]. destruct (file_at d i) as [b|] eqn:Ef.
    - destruct (IH (i + nr)) as [E0|(bs & E0 & Fb & _)]; rewrite E0; cbn [bind]; [auto|]. right. eexists. split; [reflexivity|]. split; [constructor; eauto|]. discriminate.
    - right. eexists. split; [reflexivity|]. split; [constructor|]. congruence.
  Qed.
  Lemma pass1_headed fuel : header fm = true -> forall bs st, Forall headed bs ->
    exists st', foldR (fun st b => let '(m, n, z) := st in do q <- get_maxid_and_nnz w wide fuel fm (f_open b) ;; let '(m_, n_, z_) := q in Ok (Z.max m_ m, Z.max n_ n, i32 (z + z_))) bs st = Ok st'.
  Proof.
    intros Hh. induction bs as [|b bs IH]; intros [[m n] z] Fb; cbn [foldR]; [eauto|]. inversion Fb as [|? ? (hm & hn & hc & rest & Im & In_ & Ic & ->) Fb']; subst.
    unfold get_maxid_and_nnz at 1. rewrite Hh. unfold f_open at 1. rewrite read_header_ok by auto. cbn [bind]. apply IH. auto.
  Qed.
  Lemma text_untyped_stuck nr d fuel : binary fm = false -> weights fm = true -> header fm = true -> w_text w = None -> 1 <= nr -> file_at d 0 <> None -> (forall i b, file_at d i = Some b -> headed b) ->
    load_edgelist w wide fuel fm nr d = Err NoFuel.
  Proof.
    intros Hb Hw Hh Ht Hn H0 Hd. unfold load_edgelist. rewrite (zrange_cons 0 nr) by lia. cbn [mapR].
    destruct (opened_stuck nr d Hd fuel 0) as [E0|(bs & E0 & Fb & Nb)]; rewrite E0; cbn [bind]; [reflexivity|]. specialize (Nb H0).
    assert (forall l, mapR (fun r => opened fuel nr r d) l = Err NoFuel \/ exists fss, mapR (fun r => opened fuel nr r d) l = Ok fss /\ Forall (Forall headed) fss) as HM.
    { induction l as [|r l IH]; cbn [mapR]; [eauto|]. destruct (opened_stuck nr d Hd fuel r) as [E1|(bs1 & E1 & Fb1 & _)]; rewrite E1; cbn [bind]; [auto|]. destruct IH as [IH|(fss & IH & Fs)]; rewrite IH; cbn [bind]; eauto. }
    destruct (HM (zrange (0 + 1) nr)) as [E1|(fss & E1 & Fs)]; rewrite E1; cbn [bind]; [reflexivity|]. clear HM.
    assert (forall fss, Forall (Forall headed) fss -> exists ps, mapR (pass1 w wide fuel fm) fss = Ok ps) as HP.
    { clear - Hh. induction 1 as [|bs fss Fb Fs [ps IH]]; cbn [mapR]; [eauto|]. unfold pass1 at 1. destruct (pass1_headed fuel Hh bs (0, 0, 0) Fb) as [st ->]. cbn [bind]. rewrite IH. cbn [bind]. eauto. }
    cbn [mapR]. unfold pass1 at 1. destruct (pass1_headed fuel Hh bs (0, 0, 0) Fb) as [st ->]. cbn [bind]. destruct (HP fss Fs) as [ps ->]. cbn [bind combine mapR fst snd].
    destruct bs as [|b bs]; [congruence|]. inversion Fb as [|? ? (hm & hn & hc & rest & Im & In_ & Ic & ->) Fb']; subst. unfold pass2 at 1. cbn [foldR]. rewrite Hh. unfold f_open at 1. rewrite read_header_ok by auto. cbn [bind snd fst]. rewrite read_edges_stuck by auto. reflexivity.
  Qed.

  Lemma text_untyped_written (el : elist E) l : binary fm = false -> weights fm = true -> w_text w = None -> holds el l -> write_bytes w fm el = Ok (header_bytes fm (el_m el) (el_n el) (el_nnz el)).
  Proof.
    intros Hb Hw Ht (Hn & rest & Ha). unfold write_bytes. rewrite forZ_foldR. set (b := header_bytes fm (el_m el) (el_n el) (el_nnz el)). clearbody b.
    assert (forall is b, (forall i, In i is -> 0 <= i < el_nnz el) -> foldR (fun b i => do e <- rde el i ;; Ok (b ++ line w fm e)) is b = Ok b) as X; [|apply X; intros i; apply in_zrange].
    induction is as [|i is IH]; intros b0 Hi; cbn [foldR]; [reflexivity|]. destruct (nth_error l (Z.to_nat i)) as [e|] eqn:Ee.
    2:{ apply nth_error_None in Ee. specialize (Hi i (or_introl eq_refl)). unfold zlen in Hn. lia. }
    unfold rde, rdi. replace (rd (el_arr el) i) with (Ok (Some e)); [cbn [bind need]|].
    2:{ symmetry. apply rd_nth. split; [specialize (Hi i (or_introl eq_refl)); lia|]. rewrite Ha, nth_error_app1 by (rewrite map_length; apply nth_error_Some; congruence). rewrite nth_error_map, Ee. reflexivity. }
    replace (line w fm e) with (@nil Z) by (unfold line; rewrite Hb, Hw, Ht; reflexivity). rewrite app_nil_r. apply IH. intros k Ik. apply Hi. right. exact Ik.
  Qed.
  Lemma load_complete fuel nr d F : supported w fm -> 1 <= nr -> holds_files w fm d F -> enough fuel d F -> (forall i, ef_newline (F i) = true) -> (forall i, ef_count (F i) = zlen (ef_edges (F i))) ->
    (forall r, 0 <= r < nr -> zlen (lines_of (map F (read_by nr d r))) < 2 ^ 31) ->
    exists els, load_edgelist w wide fuel fm nr d = Ok els /\ forall r, 0 <= r < nr -> exists el, rd els r = Ok el /\
      el_arr el = map Some (map (back w fm) (lines_of (map F (read_by nr d r)))) /\ el_nnz el = zlen (lines_of (map F (read_by nr d r))).
  Proof.
    intros Hs Hn HF HE Hnl Hc Hlen. pose proof (load_exact w wide fm fuel nr d F Hs Hn HF HE) as EL. cbn zeta in EL.
    assert (forall l, Forall (fun G : efile E => ef_newline G = true) (map F l)) as Hall by (intros l; apply Forall_map, Forall_forall; auto).
    assert (forall r, kept (map F (read_by nr d r)) = lines_of (map F (read_by nr d r))) as Hk by (intros r; apply kept_ended; auto).
    assert (forall r, 0 <= r < nr -> count fm (map F (read_by nr d r)) = zlen (lines_of (map F (read_by nr d r)))) as Hcn.
    { intros r Br. destruct (header fm) eqn:Hh; [rewrite count_sum|rewrite count_ended, ended_all]; auto; try (apply i32_id, is_int_len; auto). apply Forall_map, Forall_forall; auto. }
    rewrite EL. rewrite (proj2 (forallb_forall _ _)).
    2:{ intros r Ir. apply in_zrange in Ir. rewrite Hk, Hcn by auto. apply Z.leb_le. lia. }
    eexists. split; [reflexivity|]. intros r Br. destruct (loaded_rd nr (fun r => map F (read_by nr d r)) r Br) as (m & n & Hrd). eexists. split; [exact Hrd|]. cbn [el_arr el_nnz]. rewrite Hk, Hcn, Z.sub_diag by auto. cbn. rewrite app_nil_r. auto.
  Qed.
End FC.
