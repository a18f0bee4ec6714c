(** Loading binary edge files that were cut short. *)
From Verif Require Import Base BaseLemmas ListLemmas BitsProofs Segment DCSC EdgeList EdgeSpec Apps FileIO FileSpec FileProofs FileFinal FileCutSpec.

Section Cut.
  Context {E : Type}.
  Variables (w : wtype E) (wide : Z -> Z) (fm : fmt).
  Hypothesis Hbin : binary fm = true.
  Notation cell := (@cell E).
  Notation es := (edge_size w fm).
  Notation hs := (head_size fm).
  Notation eok := (edge_ok w fm).
  Lemma es_pos : 8 <= es. Proof. unfold edge_size. destruct (weights fm); lia. Qed.

  Lemma line_size e : eok e -> zlen (line w fm e) = es.
  Proof.
    intros (_ & _ & Iw). unfold line, edge_size, weight_ok in *. rewrite Hbin in *. destruct (weights fm).
    - destruct Iw as [L _]. unfold zlen. rewrite !app_length, L, !length_enc32. lia.
    - reflexivity.
  Qed.

  (** reading fewer bytes than an edge has *)
  Lemma rd_field_part {X} n (dec : list Z -> X) st (t : list Z) (a : list cell) : (length t < n)%nat ->
    rd_field n dec st (mkS t false) a = (do a <- (if zlen t =? 0 then Ok a else st a None) ;; Ok (false, mkS [] true, a)).
  Proof. intros L. unfold rd_field, f_read. cbn [s_rest]. destruct (Nat.leb_spec n (length t)); [lia|]. reflexivity. Qed.
  Lemma rd_field_full {X} n (dec : list Z -> X) st (t : list Z) (a : list cell) : (n <= length t)%nat ->
    rd_field n dec st (mkS t false) a = (do a <- st a (Some (dec (firstn n t))) ;; Ok (true, mkS (skipn n t) false, a)).
  Proof. intros L. unfold rd_field, f_read. cbn [s_rest s_eof]. destruct (Nat.leb_spec n (length t)); [|lia]. reflexivity. Qed.

  Definition torn_at (a : list cell) (p : Z) (r : R (list cell)) : Prop :=
    (exists c c', rd a p = Ok c /\ (snd c' = snd c \/ snd c' = None) /\ r = Ok (upd a (Z.to_nat p) c')) \/ (~ (0 <= p < zlen a) /\ r = Err OOB).
  Lemma readLine_part (t : list Z) (a : list cell) p : zlen t < es ->
    exists r, readLine w wide fm (mkS t false) a p = (do a <- r ;; Ok (false, mkS [] true, a)) /\ (t = [] -> r = Ok a) /\ (t <> [] -> torn_at a p r).
  Proof.
    intros Lt. unfold readLine. rewrite Hbin. destruct t as [|t0 t'] eqn:Et.
    { exists (Ok a). rewrite rd_field_part by (cbn; lia). split; [reflexivity|]. split; [auto|congruence]. }
    rewrite <- Et in *. assert (zlen t <> 0) as Nz by (rewrite Et, zlen_cons; pose proof (zlen_nonneg t'); lia). assert (t <> []) as Nt by (rewrite Et; discriminate). clear t0 t' Et.
    assert (0 <= p < zlen a \/ ~ (0 <= p < zlen a)) as [B|B] by lia.
    - destruct (rd_ok a p B) as (c & Ec). destruct (Nat.lt_ge_cases (length t) 4) as [L4|L4].
      { rewrite rd_field_part by auto. destruct (Z.eqb_spec (zlen t) 0); [contradiction|]. rewrite (st_src_ok a p c _ Ec). cbn [bind negb].
        exists (Ok (upd a (Z.to_nat p) (None, snd (fst c), snd c))). split; [reflexivity|]. split; [contradiction|]. intros _. left. exists c. eexists. split; [exact Ec|]. split; [|reflexivity]. auto. }
      rewrite rd_field_full by auto. rewrite (st_src_ok a p c _ Ec). cbn [bind negb]. set (s := dec32 (firstn 4 t)). set (t2 := skipn 4 t). assert (length t2 = length t - 4)%nat as L2 by (apply skipn_length).
      pose proof (rd_upd_same a p (Some s, snd (fst c), snd c) B) as E1.
      destruct (Nat.lt_ge_cases (length t2) 4) as [M4|M4].
      { rewrite rd_field_part by auto. destruct (zlen t2 =? 0).
        - cbn [bind negb]. exists (Ok (upd a (Z.to_nat p) (Some s, snd (fst c), snd c))). split; [reflexivity|]. split; [contradiction|]. intros _. left. exists c. eexists. split; [exact Ec|]. split; [|reflexivity]. auto.
        - rewrite (st_dst_ok _ p _ _ E1). cbn [bind negb fst snd]. rewrite upd_upd. exists (Ok (upd a (Z.to_nat p) (Some s, None, snd c))). split; [reflexivity|]. split; [contradiction|]. intros _. left. exists c. eexists. split; [exact Ec|]. split; [|reflexivity]. auto. }
      rewrite rd_field_full by auto. rewrite (st_dst_ok _ p _ _ E1). cbn [bind negb fst snd]. rewrite upd_upd. set (dd := dec32 (firstn 4 t2)). set (t3 := skipn 4 t2). assert (length t3 = length t2 - 4)%nat as L3 by (apply skipn_length).
      unfold edge_size in Lt. destruct (weights fm); [|unfold zlen in Lt; lia].
      rewrite rd_field_part by (unfold zlen in Lt; lia). pose proof (rd_upd_same a p (Some s, Some dd, snd c) B) as E2. destruct (zlen t3 =? 0).
      + cbn [bind]. exists (Ok (upd a (Z.to_nat p) (Some s, Some dd, snd c))). split; [reflexivity|]. split; [contradiction|]. intros _. left. exists c. eexists. split; [exact Ec|]. split; [|reflexivity]. auto.
      + rewrite (st_val_ok _ p _ _ E2). cbn [bind fst snd]. rewrite upd_upd. exists (Ok (upd a (Z.to_nat p) (Some s, Some dd, None))). split; [reflexivity|]. split; [contradiction|]. intros _. left. exists c. eexists. split; [exact Ec|]. split; [|reflexivity]. auto.
    - assert (forall x, st_src a p x = Err OOB) as Ho by (intros x; unfold st_src; rewrite rd_OOB by auto; reflexivity). exists (Err OOB). split; [|split; [contradiction|intros _; right; auto]].
      destruct (Nat.lt_ge_cases (length t) 4) as [L4|L4].
      + rewrite rd_field_part by auto. destruct (Z.eqb_spec (zlen t) 0); [contradiction|]. rewrite Ho. reflexivity.
      + rewrite rd_field_full by auto. rewrite Ho. reflexivity.
  Qed.

  (** *** a file of whole edges [l] and a part [t] *)
  Lemma read_edges_part (t : list Z) l : zlen t < es -> forall fuel (a : list cell) p, Forall eok l -> (length l < fuel)%nat ->
    exists ar, read_edges w wide fuel fm (mkS (lines w fm l ++ t) false) a p = (do q <- put_all (map (back w fm) l) (a, p) ;; do a <- ar (fst q) (snd q) ;; Ok (a, snd q)) /\
      forall a p, (t = [] -> ar a p = Ok a) /\ (t <> [] -> torn_at a p (ar a p)).
  Proof.
    intros Lt. induction l as [|e l IH]; intros [|fuel] a p Hl Hf; try (cbn in Hf; lia).
    - assert (forall a p, exists r, readLine w wide fm (mkS t false) a p = (do a <- r ;; Ok (false, mkS [] true, a)) /\ (t = [] -> r = Ok a) /\ (t <> [] -> torn_at a p r)) as Hr by (intros; apply readLine_part; auto).
      exists (fun a p => do q <- readLine w wide fm (mkS t false) a p ;; Ok (snd q)). split.
      + unfold lines. cbn [map concat app read_edges s_eof put_all foldR bind fst snd]. destruct (Hr a p) as (r & -> & _). destruct r; reflexivity.
      + intros a0 p0. destruct (Hr a0 p0) as (r & -> & H1 & H2). assert ((do q <- (do a <- r ;; Ok (false, mkS [] true, a)) ;; Ok (snd q)) = r) as -> by (destruct r; reflexivity). auto.
    - apply Forall_cons_iff in Hl as [He Hl]. cbn [length] in Hf. unfold lines in *. cbn [map concat]. rewrite <- app_assoc.
      assert (pre_ok fm []) as Pn by (split; auto). pose proof (readLine_ok w wide fm [] e (concat (map (line w fm) l) ++ t) a p Pn He) as R. cbn [app] in R.
      destruct (wr a p (full (back w fm e))) as [a'|x] eqn:Ew.
      + destruct (IH fuel a' (p + 1) Hl ltac:(lia)) as (ar & Hr & Har). exists ar. split; [|exact Har]. cbn [read_edges s_eof]. rewrite R. cbn [bind negb]. unfold post. rewrite Hbin. cbn [app]. rewrite Hr. unfold put_all. cbn [foldR fst snd]. rewrite Ew. reflexivity.
      + destruct (IH fuel a (p + 1) Hl ltac:(lia)) as (ar & _ & Har). exists ar. split; [|exact Har]. cbn [read_edges s_eof]. rewrite R. cbn [bind]. unfold put_all. cbn [foldR fst snd]. rewrite Ew. reflexivity.
  Qed.
  Lemma count_lines_part (t : list Z) l : zlen t < es -> forall fuel mx nx cnt c, Forall eok l -> (length l < fuel)%nat ->
    count_lines w wide fuel fm (mkS (lines w fm l ++ t) false) mx nx cnt [c] = Ok (fold_left Z.max (map (@e_src E) l) mx, fold_left Z.max (map (@e_dst E) l) nx, cnt + zlen l).
  Proof.
    intros Lt. induction l as [|e l IH]; intros [|fuel] mx nx cnt c Hl Hf; try (cbn in Hf; lia).
    - unfold lines. cbn [count_lines s_eof map concat app fold_left]. destruct (readLine_part t [c] 0 Lt) as (r & -> & H1 & H2).
      assert (exists a', r = Ok a') as (a' & ->). { destruct t as [|t0 t']; [eauto|]. destruct (H2 ltac:(discriminate)) as [(? & ? & _ & _ & ->)|[N _]]; [eauto|]. exfalso. apply N. cbn. lia. }
      cbn. rewrite Z.add_0_r. reflexivity.
    - apply Forall_cons_iff in Hl as [He Hl]. cbn [length] in Hf. unfold lines in *. cbn [count_lines s_eof map concat fold_left]. rewrite <- app_assoc.
      assert (pre_ok fm []) as Pn by (split; auto). pose proof (readLine_ok w wide fm [] e (concat (map (line w fm) l) ++ t) [c] 0 Pn He) as R. cbn [app] in R. rewrite R.
      change (wr [c] 0 (full (back w fm e))) with (Ok [full (back w fm e)]). cbn [bind negb]. change (rd [full (back w fm e)] 0) with (Ok (full (back w fm e))). cbn [bind full fst snd need].
      unfold post. rewrite Hbin. cbn [app]. rewrite IH by (auto; lia). rewrite back_src, back_dst, !(max_if wide), zlen_cons. do 2 f_equal. lia.
  Qed.

  (** *** the first [k] bytes of a file *)
  Lemma lines_cut l : Forall eok l -> forall k, 0 <= k <= zlen (lines w fm l) ->
    exists t, firstn (Z.to_nat k) (lines w fm l) = lines w fm (firstn (Z.to_nat (k / es)) l) ++ t /\ zlen t = k mod es /\ (k / es = zlen l -> t = []) /\ k / es <= zlen l.
  Proof.
    pose proof es_pos as Pe. induction l as [|e l IH]; intros Hl k Bk.
    - cbn in Bk. assert (k = 0) as -> by lia. exists []. rewrite Z.mod_0_l, Z.div_0_l by lia. cbn. split; [reflexivity|]. split; [reflexivity|]. split; [auto|lia].
    - apply Forall_cons_iff in Hl as [He Hl]. unfold lines in *. cbn [map concat] in *. pose proof (line_size e He) as Le. rewrite zlen_app, Le in Bk.
      destruct (Z.lt_ge_cases k es) as [L|L].
      + exists (firstn (Z.to_nat k) (line w fm e)). rewrite Z.div_small, Z.mod_small by lia. cbn [firstn Z.to_nat map concat app]. rewrite zlen_cons. pose proof (zlen_nonneg l). split; [|split; [|split; [|]]]; [| |intros; lia|lia].
        * rewrite firstn_app. assert (Z.to_nat k - length (line w fm e) = 0)%nat as -> by (unfold zlen in Le; lia). cbn [firstn]. apply app_nil_r.
        * unfold zlen in *. rewrite firstn_length. lia.
      + destruct (IH Hl (k - es) ltac:(lia)) as (t & E1 & E2 & E3 & E4). assert (k / es = (k - es) / es + 1) as Ed. { replace k with (k - es + 1 * es) at 1 by lia. rewrite Z.div_add by lia. reflexivity. }
        assert (k mod es = (k - es) mod es) as Em. { replace k with (k - es + 1 * es) at 1 by lia. apply Z.mod_add. lia. }
        assert (0 <= (k - es) / es) by (apply Z.div_pos; lia). exists t. rewrite Ed, Em, zlen_cons. replace (Z.to_nat ((k - es) / es + 1)) with (S (Z.to_nat ((k - es) / es))) by lia. cbn [firstn map concat].
        split; [|split; [auto|split; [intros; apply E3; lia|lia]]]. rewrite <- app_assoc, <- E1. rewrite firstn_app. rewrite firstn_all2 by (unfold zlen in Le; lia). do 2 f_equal. unfold zlen in Le. lia.
  Qed.

  Definition cut_ok (F : efile E) (k : Z) : Prop := fits w fm F /\ 0 <= k <= zlen (content w fm F).
  Definition cut (F : efile E) (k : Z) : list Z := firstn (Z.to_nat k) (content w fm F).
  Definition tornb (k : Z) : bool := negb ((k - hs) mod es =? 0).
  Lemma head_length m n c : zlen (header_bytes fm m n c) = hs.
  Proof. unfold header_bytes, head_size. rewrite Hbin. destruct (header fm); reflexivity. Qed.
  Lemma content_bin F : fits w fm F -> content w fm F = header_bytes fm (ef_m F) (ef_n F) (ef_count F) ++ lines w fm (ef_edges F).
  Proof. intros (_ & _ & _ & Hb & _). unfold content. rewrite (Hb Hbin). reflexivity. Qed.
  Lemma cut_form F k : cut_ok F k -> hs <= k ->
    exists t, cut F k = header_bytes fm (ef_m F) (ef_n F) (ef_count F) ++ lines w fm (whole w fm F k) ++ t /\ zlen t = (k - hs) mod es /\
      Forall eok (whole w fm F k) /\ zlen (whole w fm F k) + (if tornb k then 1 else 0) <= zlen (ef_edges F).
  Proof.
    intros [Hf Bk] Hk. unfold cut, whole. rewrite (content_bin F Hf) in *. rewrite zlen_app, head_length in Bk. assert (Forall eok (ef_edges F)) as Fe by (apply Forall_forall; intros e He; apply Hf; auto).
    destruct (lines_cut (ef_edges F) Fe (k - hs) ltac:(lia)) as (t & E1 & E2 & E3 & E4). exists t. split; [|split; [exact E2|split]].
    - rewrite firstn_app. rewrite firstn_all2 by (pose proof (head_length (ef_m F) (ef_n F) (ef_count F)) as X; unfold zlen in X; lia). f_equal. rewrite <- E1. f_equal. pose proof (head_length (ef_m F) (ef_n F) (ef_count F)) as X. unfold zlen in X. lia.
    - apply Forall_forall. intros e He. eapply Forall_forall; [exact Fe|]. rewrite <- (firstn_skipn (Z.to_nat ((k - hs) / es)) (ef_edges F)). apply in_or_app. left. exact He.
    - pose proof es_pos. assert (0 <= (k - hs) / es) by (apply Z.div_pos; lia). assert (zlen (firstn (Z.to_nat ((k - hs) / es)) (ef_edges F)) = (k - hs) / es) as -> by (unfold zlen in E4 |- *; rewrite firstn_length, Nat.min_l by (apply Nat2Z.inj_le; rewrite Z2Nat.id by auto; exact E4); apply Z2Nat.id; auto).
      unfold tornb. destruct (Z.eqb_spec ((k - hs) mod es) 0) as [Z0|N0]; cbn [negb]; [lia|]. destruct (Z.eq_dec ((k - hs) / es) (zlen (ef_edges F))) as [Q|Q]; [|lia]. exfalso. apply N0. rewrite <- E2, (E3 Q). reflexivity.
  Qed.

  (** first pass *)
  Definition cut_count (F : efile E) (k : Z) : Z := if header fm then ef_count F else zlen (whole w fm F k).
  Definition cut_m (F : efile E) (k : Z) : Z := if header fm then ef_m F else maxl (map (@e_src E) (whole w fm F k)).
  Definition cut_n (F : efile E) (k : Z) : Z := if header fm then ef_n F else maxl (map (@e_dst E) (whole w fm F k)).
  Lemma get_cut fuel F k : cut_ok F k -> hs <= k -> (length (ef_edges F) < fuel)%nat ->
    get_maxid_and_nnz w wide fuel fm (f_open (cut F k)) = Ok (cut_m F k, cut_n F k, cut_count F k).
  Proof.
    intros Hc Hk Hl. destruct (cut_form F k Hc Hk) as (t & -> & Lt & Fw & Lw). destruct Hc as [(Im & In_ & Ic & _) _]. unfold get_maxid_and_nnz, cut_m, cut_n, cut_count, f_open. pose proof es_pos. pose proof (Z.mod_pos_bound (k - hs) es ltac:(lia)).
    destruct (header fm) eqn:Hh.
    - rewrite read_header_ok by auto. reflexivity.
    - unfold header_bytes. rewrite Hh. cbn [app]. rewrite <- (maxl_fold0 wide (map (@e_src E) (whole w fm F k))), <- (maxl_fold0 wide (map (@e_dst E) (whole w fm F k))). apply count_lines_part; auto; [lia|]. unfold zlen in *. destruct (tornb k); lia.
  Qed.
  Lemma get_short fuel F k : fits w fm F -> 0 <= k < hs -> get_maxid_and_nnz w wide fuel fm (f_open (cut F k)) = Err AssertFail.
  Proof.
    intros Hf Hk. unfold get_maxid_and_nnz, cut, f_open. unfold head_size in Hk. destruct (header fm) eqn:Hh; [|lia]. unfold read_header. rewrite Hbin. unfold f_read. cbn [s_rest].
    rewrite firstn_length. destruct (Nat.leb_spec 12 (Nat.min (Z.to_nat k) (length (content w fm F)))); [lia|]. reflexivity.
  Qed.

  (** second pass: files as (whole edges, torn or not) *)
  Fixpoint room (fs : list (list (edge E) * bool)) : Z :=
    match fs with [] => 0 | (l, t) :: r => zlen l + Z.max (if t then 1 else 0) (room r) end.
  Lemma room_nonneg fs : 0 <= room fs.
  Proof. induction fs as [|[l t] r IH]; cbn [room]; [lia|]. pose proof (zlen_nonneg l). lia. Qed.
  Definition pairs (fs : list (efile E * Z)) : list (list (edge E) * bool) := map (fun x => (whole w fm (fst x) (snd x), tornb (snd x))) fs.
  Definition blank (c : cell) : Prop := snd c = None.
  Notation rdf fuel := (fun (st : list cell * Z) b => do f <- (if header fm then do q <- read_header wide fm (f_open b) ;; Ok (snd q) else Ok (f_open b)) ;; read_edges w wide fuel fm f (fst st) (snd st)).
  Lemma upd_app_at {A} (l : list A) c r x : upd (l ++ c :: r) (length l) x = l ++ x :: r.
  Proof. induction l as [|y l IH]; cbn; [reflexivity|rewrite IH; reflexivity]. Qed.
  Lemma rd_app_at {A} (l : list A) c r : rd (l ++ c :: r) (zlen l) = Ok c.
  Proof. unfold rd, zlen. destruct (Z.ltb_spec (Z.of_nat (length l)) 0); [lia|]. rewrite Nat2Z.id, nth_error_app2, Nat.sub_diag by lia. reflexivity. Qed.
  Lemma Forall_skipn {A} (P : A -> Prop) n l : Forall P l -> Forall P (skipn n l).
  Proof. revert l. induction n as [|n IH]; intros l H; [exact H|]. destruct l; [exact H|]. cbn. apply IH. inversion H; auto. Qed.
  Lemma cut_all fuel fs : Forall (fun x => cut_ok (fst x) (snd x) /\ hs <= snd x /\ (length (ef_edges (fst x)) < fuel)%nat) fs -> forall (D : list (edge E)) rest, Forall blank rest ->
    let fin := map (back w fm) (concat (map fst (pairs fs))) in
    if room (pairs fs) <=? zlen rest then
      exists rest' pos, foldR (rdf fuel) (map (fun x => cut (fst x) (snd x)) fs) (map full D ++ rest, zlen D) = Ok (map full (D ++ fin) ++ rest', pos) /\ Forall blank rest' /\ zlen rest' = zlen rest - zlen fin
    else foldR (rdf fuel) (map (fun x => cut (fst x) (snd x)) fs) (map full D ++ rest, zlen D) = Err OOB.
  Proof.
    induction fs as [|[F k] fs IH]; intros Hfs D rest Hb fin.
    - cbn [room pairs map]. pose proof (zlen_nonneg rest). destruct (Z.leb_spec 0 (zlen rest)); [|lia]. exists rest, (zlen D). subst fin. cbn. rewrite app_nil_r. split; [reflexivity|]. split; [auto|lia].
    - apply Forall_cons_iff in Hfs as [(Hc & Hk & Hl) Hfs]. cbn [fst snd] in *. cbn [map foldR pairs room fst snd]. fold (pairs fs).
      destruct (cut_form F k Hc Hk) as (t & Ec & Lt & Fw & Lw). pose proof es_pos as Pe. pose proof (Z.mod_pos_bound (k - hs) es ltac:(lia)) as Bm. rewrite Ec. set (l := whole w fm F k) in *.
      destruct (read_edges_part t l ltac:(lia) fuel (map full D ++ rest) (zlen D) Fw ltac:(unfold zlen in Lw; destruct (tornb k); lia)) as (ar & Hr & Har).
      assert ((do f <- (if header fm then do q <- read_header wide fm (f_open (header_bytes fm (ef_m F) (ef_n F) (ef_count F) ++ lines w fm l ++ t)) ;; Ok (snd q) else Ok (f_open (header_bytes fm (ef_m F) (ef_n F) (ef_count F) ++ lines w fm l ++ t))) ;; read_edges w wide fuel fm f (map full D ++ rest) (zlen D))
        = read_edges w wide fuel fm (mkS (lines w fm l ++ t) false) (map full D ++ rest) (zlen D)) as ->.
      { destruct Hc as [(Im & In_ & Ic & _) _]. unfold f_open. destruct (header fm) eqn:Hh; [rewrite read_header_ok by auto; cbn [bind snd]; unfold post; rewrite Hbin; reflexivity|unfold header_bytes; rewrite Hh; reflexivity]. }
      rewrite Hr. clear Hr. rewrite (put_all_eq wide), map_length. assert (tornb k = negb (zlen t =? 0)) as Et by (unfold tornb; rewrite Lt; reflexivity).
      pose proof (room_nonneg (pairs fs)) as Rn.
      destruct (Nat.leb_spec (length l) (length rest)) as [L1|L1].
      + cbn [bind fst snd]. assert (zlen D + zlen (map (back w fm) l) = zlen (D ++ map (back w fm) l)) as Ez by (rewrite zlen_app; lia). rewrite Ez. set (D' := D ++ map (back w fm) l) in *.
        set (rest1 := skipn (length l) rest). assert (zlen rest1 = zlen rest - zlen l) as Lr by (unfold rest1, zlen; rewrite skipn_length; lia). assert (Forall blank rest1) as Fb by (apply Forall_skipn; auto).
        destruct (Har (map full D' ++ rest1) (zlen D')) as [H1 H2].
        assert (zlen (map full D') = zlen D') as Zd by (unfold zlen; rewrite map_length; reflexivity).
        destruct t as [|t0 t'].
        * cbn in Et. rewrite Et. rewrite H1 by auto. cbn [bind]. specialize (IH Hfs D' rest1 Fb). cbn zeta in IH. rewrite Lr in IH. replace (Z.max 0 (room (pairs fs))) with (room (pairs fs)) by lia.
          destruct (Z.leb_spec (zlen l + room (pairs fs)) (zlen rest)) as [L|L]; destruct (Z.leb_spec (room (pairs fs)) (zlen rest - zlen l)) as [L'|L']; try lia; [|exact IH].
          destruct IH as (rest' & pos & E1 & E2 & E3). exists rest', pos. rewrite E1. subst fin D'. cbn [pairs map concat fst]. rewrite !map_app, <- !app_assoc. split; [reflexivity|]. split; auto. fold l. rewrite zlen_app, E3. cbn [snd]. fold (pairs fs). fold l. unfold zlen. rewrite !map_length. lia.
        * assert (tornb k = true) as Et2. { rewrite Et, zlen_cons. pose proof (zlen_nonneg t'). destruct (Z.eqb_spec (1 + zlen t') 0); [lia|reflexivity]. } rewrite Et2.
          destruct (H2 ltac:(discriminate)) as [(c & c' & Er & Hcc & Ea)|[N Ea]].
          -- destruct rest1 as [|c0 rest2] eqn:Er1. { exfalso. apply rd_bounds in Er. rewrite app_nil_r, Zd in Er. lia. }
             assert (c = c0) as -> by (rewrite <- Zd, rd_app_at in Er; congruence). rewrite Ea. cbn [bind]. assert (upd (map full D' ++ c0 :: rest2) (Z.to_nat (zlen D')) c' = map full D' ++ c' :: rest2) as ->.
             { unfold zlen. rewrite Nat2Z.id, <- (map_length full D'). apply upd_app_at. }
             apply Forall_cons_iff in Fb as [Fc Fb]. assert (Forall blank (c' :: rest2)) as Fb' by (constructor; auto; unfold blank in *; destruct Hcc as [-> | ->]; auto).
             specialize (IH Hfs D' (c' :: rest2) Fb'). cbn zeta in IH. rewrite !zlen_cons in *. rewrite Lr in IH. pose proof (zlen_nonneg rest2).
             destruct (Z.leb_spec (zlen l + Z.max 1 (room (pairs fs))) (zlen rest)) as [L|L]; destruct (Z.leb_spec (room (pairs fs)) (zlen rest - zlen l)) as [L'|L']; try lia; [|exact IH].
             destruct IH as (rest' & pos & E1 & E2 & E3). exists rest', pos. rewrite E1. subst fin D'. cbn [pairs map concat fst]. rewrite !map_app, <- !app_assoc. split; [reflexivity|]. split; auto. fold l. rewrite zlen_app, E3. cbn [snd]. fold (pairs fs). fold l. unfold zlen. rewrite !map_length. lia.
          -- rewrite Ea. cbn [bind]. destruct (Z.leb_spec (zlen l + Z.max 1 (room (pairs fs))) (zlen rest)) as [L|L]; [|reflexivity]. exfalso. apply N. rewrite zlen_app, Zd, Lr. pose proof (zlen_nonneg D'). lia.
      + cbn [bind]. destruct (Z.leb_spec (zlen l + Z.max (if tornb k then 1 else 0) (room (pairs fs))) (zlen rest)) as [L|L]; [unfold zlen in *; lia|reflexivity].
  Qed.

  Definition gcount (fs : list (efile E * Z)) : Z := i32 (fold_right Z.add 0 (map (fun x => cut_count (fst x) (snd x)) fs)).
  Lemma pass1_cut fuel fs : Forall (fun x => cut_ok (fst x) (snd x) /\ hs <= snd x /\ (length (ef_edges (fst x)) < fuel)%nat) fs ->
    pass1 w wide fuel fm (map (fun x => cut (fst x) (snd x)) fs) = Ok (maxl (map (fun x => cut_m (fst x) (snd x)) fs), maxl (map (fun x => cut_n (fst x) (snd x)) fs), gcount fs).
  Proof.
    intros Hfs. unfold pass1, gcount.
    assert (forall a b c, 0 <= a -> 0 <= b -> foldR (fun st b => let '(m, n, z) := st in do q <- get_maxid_and_nnz w wide fuel fm (f_open b) ;; let '(m_, n_, z_) := q in Ok (Z.max m_ m, Z.max n_ n, i32 (z + z_))) (map (fun x => cut (fst x) (snd x)) fs) (a, b, i32 c)
      = Ok (Z.max a (maxl (map (fun x => cut_m (fst x) (snd x)) fs)), Z.max b (maxl (map (fun x => cut_n (fst x) (snd x)) fs)), i32 (c + fold_right Z.add 0 (map (fun x => cut_count (fst x) (snd x)) fs)))) as H.
    { induction fs as [|[F k] r IH]; intros a b c Ha Hb; [cbn; rewrite Z.add_0_r; repeat f_equal; lia|]. apply Forall_cons_iff in Hfs as [(Hc & Hk & Hl) Hfs]. cbn [map foldR fst snd] in *. rewrite get_cut by auto. cbn [bind]. rewrite i32_add_l, IH by (auto; lia).
      cbn [maxl fold_right]. unfold maxl. rewrite <- Z.add_assoc. do 3 f_equal; [lia|]. lia. }
    pose proof (H 0 0 0 ltac:(lia) ltac:(lia)) as H0. change (i32 0) with 0 in H0. rewrite H0. pose proof (maxl_nonneg wide (map (fun x => cut_m (fst x) (snd x)) fs)). pose proof (maxl_nonneg wide (map (fun x => cut_n (fst x) (snd x)) fs)). rewrite Z.add_0_l. do 3 f_equal; lia.
  Qed.
  Lemma pass2_cut fuel fs c : Forall (fun x => cut_ok (fst x) (snd x) /\ hs <= snd x /\ (length (ef_edges (fst x)) < fuel)%nat) fs ->
    let fin := map (back w fm) (concat (map fst (pairs fs))) in
    (do a <- pass2 w wide fuel fm (map (fun x => cut (fst x) (snd x)) fs) c ;; Ok (map as_edge (fst a))) =
    if room (pairs fs) <=? Z.max 0 c then Ok (map Some fin ++ repeat None (Z.to_nat (c - zlen fin))) else Err OOB.
  Proof.
    intros Hfs fin. unfold pass2. assert (Forall blank (repeat (@fresh E) (Z.to_nat c))) as Fb by (apply Forall_forall; intros x Hx; apply repeat_spec in Hx; subst; reflexivity).
    pose proof (cut_all fuel fs Hfs [] (repeat fresh (Z.to_nat c)) Fb) as H. cbn zeta in H. fold fin in H. cbn [map app] in H. change (zlen []) with 0 in H. assert (zlen (repeat (@fresh E) (Z.to_nat c)) = Z.max 0 c) as Lz by (unfold zlen; rewrite repeat_length; lia). rewrite Lz in H.
    destruct (Z.leb_spec (room (pairs fs)) (Z.max 0 c)) as [L|L]; [|rewrite H; reflexivity]. destruct H as (rest' & pos & -> & Fr & Lr). cbn [bind fst]. rewrite map_app, map_map. f_equal. f_equal.
    - apply map_ext. intros e. apply as_edge_full.
    - assert (Z.to_nat (c - zlen fin) = length rest') as -> by (unfold zlen in Lr; pose proof (zlen_nonneg fin); unfold zlen in *; lia). clear Lr. induction Fr as [|[[s d] v] r Hx Hr IH]; [reflexivity|]. cbn [map length repeat]. rewrite IH. unfold blank in Hx. cbn in Hx. subst v. destruct s, d; reflexivity.
  Qed.

  (** *** the directory *)
  Variables (fuel : nat) (nr : Z) (d : dirt) (F : Z -> efile E) (K : Z -> Z).
  Hypothesis Hn : 1 <= nr.
  Hypothesis Hd : holds_cut w fm d F K.
  Hypothesis Hf : enough fuel d F.
  Definition fsr (r : Z) : list (efile E * Z) := map (fun i => (F i, K i)) (read_by nr d r).
  Lemma opened_cut r : 0 <= r -> opened fuel nr r d = Ok (map (fun x => cut (fst x) (snd x)) (fsr r)).
  Proof.
    intros Hr. destruct Hf as [Hf1 _]. rewrite (opened_eq nr d Hn (length d)); [|lia| |auto]. 2:{ unfold zlen. pose proof (Zle_0_nat (length d)). nia. }
    change (present d (map (fun k => r + nr * k) (zrange 0 (Z.of_nat (length d))))) with (read_by nr d r). unfold fsr. rewrite map_map. f_equal. apply map_ext_in. intros i Hi. apply read_by_in in Hi as [Bi [b Hb]]; auto. unfold bytes_at. rewrite Hb.
    apply (Hd i b); [lia|auto].
  Qed.
  Lemma fsr_ok r : 0 <= r -> (forall i, In i (read_by nr d r) -> hs <= K i) -> Forall (fun x => cut_ok (fst x) (snd x) /\ hs <= snd x /\ (length (ef_edges (fst x)) < fuel)%nat) (fsr r).
  Proof.
    intros Hr HK. unfold fsr. rewrite Forall_map. apply Forall_forall. intros i Hi. cbn [fst snd]. pose proof (HK i Hi). apply read_by_in in Hi as [Bi [b Hb]]; auto. destruct (Hd i b ltac:(lia) Hb) as (H1 & H2 & _). split; [split; auto|]. split; auto. apply Hf; auto.
  Qed.
  Lemma fin_left r : concat (map fst (pairs (fsr r))) = left_over w fm nr d F K r.
  Proof. unfold pairs, fsr, left_over. rewrite !map_map. reflexivity. Qed.
  Definition res (r : Z) : elist E :=
    mkEL (map Some (map (back w fm) (left_over w fm nr d F K r)) ++ repeat None (Z.to_nat (gcount (fsr r) - zlen (left_over w fm nr d F K r))))
      (maxl (concat (map (fun r => map (fun i => cut_m (F i) (K i)) (read_by nr d r)) (zrange 0 nr)))) (maxl (concat (map (fun r => map (fun i => cut_n (F i) (K i)) (read_by nr d r)) (zrange 0 nr)))) (gcount (fsr r)).
  Lemma load_cut : (forall r i, 0 <= r < nr -> In i (read_by nr d r) -> hs <= K i) ->
    load_edgelist w wide fuel fm nr d = if forallb (fun r => room (pairs (fsr r)) <=? Z.max 0 (gcount (fsr r))) (zrange 0 nr) then Ok (map res (zrange 0 nr)) else Err OOB.
  Proof.
    intros HK. unfold load_edgelist. rewrite (mapR_map _ (fun r => map (fun x => cut (fst x) (snd x)) (fsr r))) by (intros r Ir; apply in_zrange in Ir; apply opened_cut; lia).
    cbn [bind]. rewrite mapR_map_dom. rewrite (mapR_map _ (fun r => (maxl (map (fun x => cut_m (fst x) (snd x)) (fsr r)), maxl (map (fun x => cut_n (fst x) (snd x)) (fsr r)), gcount (fsr r)))).
    2:{ intros r Ir. apply in_zrange in Ir. apply pass1_cut, fsr_ok; [lia|]. intros i Hi. apply (HK r); auto. }
    cbn [bind]. rewrite combine_map2, mapR_map_dom. rewrite !map_map. cbn [fst snd].
    assert (forall g : efile E -> Z -> Z, maxl (concat (map (fun r => map (fun i => g (F i) (K i)) (read_by nr d r)) (zrange 0 nr))) = fold_right Z.max 0 (map (fun r => maxl (map (fun x => g (fst x) (snd x)) (fsr r))) (zrange 0 nr))) as Hm.
    { intros g. rewrite (maxl_concat wide), map_map. unfold maxl at 1. f_equal. apply map_ext. intros r. unfold fsr. rewrite map_map. reflexivity. }
    unfold res. rewrite !Hm. apply mapR_if. intros r Ir. apply in_zrange in Ir. pose proof (pass2_cut fuel (fsr r) (gcount (fsr r)) (fsr_ok r ltac:(lia) (fun i Hi => HK r i Ir Hi))) as P. cbn zeta in P. rewrite fin_left in P.
    assert (zlen (map (back w fm) (left_over w fm nr d F K r)) = zlen (left_over w fm nr d F K r)) as Lz by (unfold zlen; rewrite map_length; reflexivity). rewrite Lz in P.
    destruct (pass2 w wide fuel fm _ (gcount (fsr r))) as [a|x]; cbn [bind] in P |- *.
    - destruct (_ <=? _); [|discriminate]. injection P as ->. reflexivity.
    - destruct (_ <=? _); [discriminate|]. congruence.
  Qed.

  Lemma load_short r i : 0 <= r < nr -> In i (read_by nr d r) -> K i < hs -> load_edgelist w wide fuel fm nr d = Err AssertFail.
  Proof.
    intros Hr Hi HK. unfold load_edgelist. rewrite (mapR_map _ (fun r => map (fun x => cut (fst x) (snd x)) (fsr r))) by (intros r' Ir; apply in_zrange in Ir; apply opened_cut; lia).
    cbn [bind]. rewrite mapR_map_dom.
    assert (forall r', 0 <= r' -> forall st, (exists q, foldR (fun st b => let '(m, n, z) := st in do q <- get_maxid_and_nnz w wide fuel fm (f_open b) ;; let '(m_, n_, z_) := q in Ok (Z.max m_ m, Z.max n_ n, i32 (z + z_))) (map (fun x => cut (fst x) (snd x)) (fsr r')) st = Ok q) \/
      foldR (fun st b => let '(m, n, z) := st in do q <- get_maxid_and_nnz w wide fuel fm (f_open b) ;; let '(m_, n_, z_) := q in Ok (Z.max m_ m, Z.max n_ n, i32 (z + z_))) (map (fun x => cut (fst x) (snd x)) (fsr r')) st = Err AssertFail) as G.
    { intros r' Hr'. assert (forall j, In j (read_by nr d r') -> cut_ok (F j) (K j) /\ (length (ef_edges (F j)) < fuel)%nat) as Hj.
      { intros j Hj. apply read_by_in in Hj as [Bj [b Hb]]; auto. destruct (Hd j b ltac:(lia) Hb) as (H1 & H2 & _). split; [split; auto|apply Hf; auto]. }
      unfold fsr. rewrite map_map. cbn [fst snd]. induction (read_by nr d r') as [|j l IH]; intros [[m n] z]; [left; eexists; reflexivity|]. cbn [map foldR]. destruct (Hj j (or_introl eq_refl)) as [Hc Hl].
      destruct (Z.lt_ge_cases (K j) hs) as [L|L]; [rewrite get_short by (try apply Hc; destruct Hc as [_ Bk]; lia); right; reflexivity|]. rewrite get_cut by auto. cbn [bind]. apply IH. intros; apply Hj; right; auto. }
    assert (pass1 w wide fuel fm (map (fun x => cut (fst x) (snd x)) (fsr r)) = Err AssertFail) as Er.
    { unfold pass1. generalize (0, 0, 0). assert (forall j, In j (read_by nr d r) -> cut_ok (F j) (K j) /\ (length (ef_edges (F j)) < fuel)%nat) as Hj.
      { intros j Hj. apply read_by_in in Hj as [Bj [b Hb]]; auto; [|lia]. destruct (Hd j b ltac:(lia) Hb) as (H1 & H2 & _). split; [split; auto|apply Hf; auto]. }
      unfold fsr. rewrite map_map. cbn [fst snd]. revert Hi Hj. induction (read_by nr d r) as [|j l IH]; intros Hi Hj [[m n] z]; [destruct Hi|]. cbn [map foldR]. destruct (Hj j (or_introl eq_refl)) as [Hc Hl].
      destruct (Z.lt_ge_cases (K j) hs) as [L|L]; [rewrite get_short by (try apply Hc; destruct Hc as [_ Bk]; lia); reflexivity|]. rewrite get_cut by auto. cbn [bind]. destruct Hi as [->|Hi]; [lia|]. apply IH; auto. intros; apply Hj; right; auto. }
    assert (In r (zrange 0 nr)) as Ir by (apply in_zrange; lia). assert (forall x, In x (zrange 0 nr) -> 0 <= x) as Hx by (intros x Ix; apply in_zrange in Ix; lia).
    match goal with |- (do ps <- ?m ;; _) = _ => assert (m = Err AssertFail) as -> end; [|reflexivity].
    induction (zrange 0 nr) as [|x l IH]; [destruct Ir|]. cbn [mapR]. destruct (G x (Hx x (or_introl eq_refl)) (0, 0, 0)) as [(q & Eq)|Eq].
    - unfold pass1 at 1. rewrite Eq. cbn [bind]. destruct Ir as [->|Ir]; [unfold pass1 in Er; rewrite Eq in Er; discriminate|]. rewrite IH; auto. intros; apply Hx; right; auto.
    - unfold pass1 at 1. rewrite Eq. reflexivity.
  Qed.

  (** with a header there is always room *)
  Lemma room_header (l : list Z) : (forall i, In i l -> cut_ok (F i) (K i) /\ hs <= K i) -> (forall i, ef_count (F i) = zlen (ef_edges (F i))) ->
    room (pairs (map (fun i => (F i, K i)) l)) <= zlen (concat (map (fun i => ef_edges (F i)) l)).
  Proof.
    intros Hl Hc. induction l as [|i l IH]; [cbn; lia|]. cbn [map pairs room fst snd concat]. fold (pairs (map (fun i => (F i, K i)) l)). rewrite zlen_app. destruct (Hl i (or_introl eq_refl)) as [H1 H2]. destruct (cut_form (F i) (K i) H1 H2) as (_ & _ & _ & _ & L).
    specialize (IH (fun j Hj => Hl j (or_intror Hj))). pose proof (zlen_nonneg (concat (map (fun i => ef_edges (F i)) l))). pose proof (zlen_nonneg (whole w fm (F i) (K i))). destruct (tornb (K i)); lia.
  Qed.
  (** without a header there is room unless a torn edge comes after all whole ones *)
  Lemma room_plain (l : list Z) : (forall p i q, l = p ++ i :: q -> torn w fm (K i) -> concat (map (fun j => whole w fm (F j) (K j)) q) <> []) ->
    room (pairs (map (fun i => (F i, K i)) l)) = zlen (concat (map (fun i => whole w fm (F i) (K i)) l)).
  Proof.
    induction l as [|i l IH]; intros H; [reflexivity|]. cbn [map pairs room fst snd concat]. fold (pairs (map (fun i => (F i, K i)) l)). rewrite zlen_app, IH by (intros p j q E1; apply (H (i :: p) j q); rewrite E1; reflexivity).
    pose proof (zlen_nonneg (concat (map (fun i => whole w fm (F i) (K i)) l))) as N. unfold tornb. destruct (Z.eqb_spec ((K i - hs) mod es) 0) as [Z0|N0]; cbn [negb]; [lia|].
    pose proof (H [] i l eq_refl N0) as X. destruct (concat (map (fun j => whole w fm (F j) (K j)) l)); [contradiction|]. rewrite zlen_cons in *. pose proof (zlen_nonneg l0). lia.
  Qed.
  Lemma room_overflow (p : list Z) i q : torn w fm (K i) -> concat (map (fun j => whole w fm (F j) (K j)) q) = [] ->
    zlen (concat (map (fun j => whole w fm (F j) (K j)) (p ++ i :: q))) < room (pairs (map (fun i => (F i, K i)) (p ++ i :: q))).
  Proof.
    intros Ht Hq. induction p as [|j p IH]; cbn [app map pairs room fst snd concat].
    - fold (pairs (map (fun i => (F i, K i)) q)). rewrite Hq, app_nil_r. unfold tornb. destruct (Z.eqb_spec ((K i - hs) mod es) 0); [contradiction|]. cbn [negb]. lia.
    - fold (pairs (map (fun i => (F i, K i)) (p ++ i :: q))). rewrite zlen_app. lia.
  Qed.
End Cut.
