(** Loading text edge files that were cut short. *)
From Verif Require Import Base BaseLemmas ListLemmas BitsProofs Segment DCSC EdgeList EdgeSpec GraphProofs Apps FileIO FileSpec FileProofs FileFinal FileClaims FileCutSpec FileCut FileCutClaims.

(** a printed whole number *)
Definition numeral (b : list Z) : Prop :=
  exists s ds, b = s ++ ds /\ (s = [] \/ s = [45]) /\ ds <> [] /\ forallb is_digit ds = true.
Lemma digit_not_space c : is_digit c = true -> is_space c = false.
Proof. unfold is_digit, is_space. intros H. apply andb_true_iff in H as [H1 H2]. apply Z.leb_le in H1, H2. destruct (Z.eqb_spec c 32); [lia|]. destruct (Z.leb_spec 9 c); destruct (Z.leb_spec c 13); cbn; auto; lia. Qed.
Lemma digit_no_sign c : is_digit c = true -> (c =? 45) = false /\ (c =? 43) = false.
Proof. unfold is_digit. intros H. apply andb_true_iff in H as [H1 H2]. apply Z.leb_le in H1, H2. split; apply Z.eqb_neq; lia. Qed.
Lemma span_digits_all d : forallb is_digit d = true -> span_digits d = (d, []).
Proof. induction d as [|c d IH]; intros H; [reflexivity|]. cbn in H. apply andb_true_iff in H as [H1 H2]. cbn [span_digits]. rewrite H1, IH by auto. reflexivity. Qed.
Lemma print_d_numeral z : numeral (print_d z).
Proof.
  unfold print_d. destruct (Z.ltb_spec z 0).
  - exists [45], (dec_digits 10 (- z)). split; [reflexivity|]. split; [auto|]. split; [|apply dec_digits_digit; lia]. destruct (dec_digits_cons 9 (- z) ltac:(lia)) as (c & r & -> & _). discriminate.
  - exists [], (dec_digits 10 z). split; [reflexivity|]. split; [auto|]. split; [|apply dec_digits_digit; lia]. destruct (dec_digits_cons 9 z ltac:(lia)) as (c & r & -> & _). discriminate.
Qed.
Lemma print_u_numeral z : numeral (print_u z).
Proof. pose proof (u32_range z). exists [], (dec_digits 10 (u32 z)). split; [reflexivity|]. split; [auto|]. split; [|apply dec_digits_digit; lia]. destruct (dec_digits_cons 9 (u32 z) ltac:(lia)) as (c & r & -> & _). discriminate. Qed.
Lemma numeral_digit b : numeral b -> existsb is_digit b = true.
Proof. intros (s & ds & -> & _ & N & D). rewrite existsb_app. destruct ds as [|c ds]; [contradiction|]. cbn in *. apply andb_true_iff in D as [-> _]. rewrite orb_true_r. reflexivity. Qed.

(** scanning the beginning of a number *)
Lemma scan_prefix sp b x y eof : numeral b -> b = x ++ y -> forallb is_space sp = true ->
  exists o, scan_num (mkS (sp ++ x) eof) = (o, mkS [] true) /\ (o = None <-> existsb is_digit x = false).
Proof.
  intros (s & ds & -> & Hs & _ & Hd) Hxy Hsp.
  assert (exists s' ds', x = s' ++ ds' /\ (s' = [] \/ s' = [45]) /\ forallb is_digit ds' = true) as (s' & ds' & -> & Hs' & Hd').
  { destruct Hs as [-> | ->].
    - exists [], x. split; [reflexivity|]. split; [auto|]. cbn in Hxy. subst ds. rewrite forallb_app in Hd. apply andb_true_iff in Hd. apply Hd.
    - destruct x as [|c x]; [exists [], []; auto|]. injection Hxy as <- Hxy. exists [45], x. split; [reflexivity|]. split; [auto|]. subst ds. rewrite forallb_app in Hd. apply andb_true_iff in Hd. apply Hd. }
  clear Hxy Hd Hs. unfold scan_num. cbn [s_rest s_eof]. rewrite skip_ws_app by auto.
  assert (existsb is_digit (s' ++ ds') = existsb is_digit ds') as -> by (rewrite existsb_app; destruct Hs' as [-> | ->]; reflexivity).
  destruct Hs' as [-> | ->]; cbn [app].
  - destruct ds' as [|c r]; [cbn; rewrite orb_true_r; eexists; split; [reflexivity|tauto]|].
    pose proof Hd' as D. cbn in D. apply andb_true_iff in D as [Dc _]. cbn [skip_ws]. rewrite (digit_not_space c Dc). destruct (digit_no_sign c Dc) as [-> ->]. rewrite (span_digits_all _ Hd'). cbn [at_end]. rewrite orb_true_r. eexists. split; [reflexivity|]. cbn [existsb]. rewrite Dc. split; discriminate.
  - cbn [skip_ws]. change (is_space 45) with false. cbn [Z.eqb Pos.eqb]. rewrite (span_digits_all _ Hd'). cbn [at_end]. rewrite orb_true_r. eexists. split; [reflexivity|].
    destruct ds' as [|c r]; [cbn; tauto|]. cbn in Hd'. apply andb_true_iff in Hd' as [Dc _]. cbn [existsb]. rewrite Dc. split; discriminate.
Qed.

Section T.
  Context {E : Type}.
  Variables (w : wtype E) (wide : Z -> Z) (fm : fmt).
  Hypothesis Htx : binary fm = false.
  Hypothesis sup : supported w fm.
  Notation cell := (@cell E).
  Notation eok := (edge_ok w fm).
  Definition cut_ok (e : edge E) : Prop := weights fm = true -> cuttable w (e_val e).

  Definition changed_at (a : list cell) (p : Z) (r : R (list cell)) : Prop :=
    (0 <= p < zlen a /\ exists c', r = Ok (upd a (Z.to_nat p) c')) \/ (~ (0 <= p < zlen a) /\ r = Err OOB).

  (** one field of a line that ends there or before *)
  Lemma scan_d_prefix sp z x y eof : is_int z -> print_d z = x ++ y -> forallb is_space sp = true ->
    exists o, scan_d wide (mkS (sp ++ x) eof) = (o, mkS [] true) /\ (o = None <-> existsb is_digit x = false).
  Proof.
    intros Hz Hx Hsp. destruct (scan_prefix sp (print_d z) x y eof (print_d_numeral z) Hx Hsp) as (o & E1 & E2). unfold scan_d. rewrite E1. destruct o; (eexists; split; [reflexivity|]); [|tauto]. split; [discriminate|]. intros H. apply E2 in H. discriminate.
  Qed.
  Lemma scan_d_done : scan_d wide (mkS [] true) = (None, mkS [] true).
  Proof. reflexivity. Qed.

  Lemma readLine_part pre e t y (a : list cell) p : pre_ok fm pre -> eok e -> cut_ok e -> line w fm e = t ++ y -> y <> [] ->
    exists r, readLine w wide fm (mkS (pre ++ t) false) a p = (do a <- r ;; Ok (false, mkS [] true, a)) /\
      (existsb is_digit t = false -> r = Ok a) /\ (existsb is_digit t = true -> changed_at a p r).
  Proof.
    intros [Hp _] He Hw Ht Hy. destruct (line_body w fm e Htx He) as [El Eb]. rewrite El in Ht.
    assert (exists y', body w fm e = t ++ y') as (y' & Hb).
    { destruct (exists_last Hy) as (y' & z & ->). rewrite app_assoc in Ht. apply app_inj_tail in Ht as [Ht _]. eauto. }
    clear El Ht Hy. rewrite Eb in Hb. clear Eb. destruct He as (Is & Id & _).
    pose proof Hw as Hw'. unfold cut_ok, cuttable in Hw'.
    apply app_eq_app in Hb as (l & [[H1 H2]|[H1 H2]]).
    { (* the source is cut *)
      assert (print_d (e_src e) = t ++ l) as Hs by exact H1.
      destruct (scan_d_prefix pre (e_src e) t l false Is Hs Hp) as (o & Eo & Ho). unfold readLine. rewrite Htx.
      destruct o as [v|].
      - assert (existsb is_digit t = true) as Hd by (destruct (existsb is_digit t); auto; destruct Ho as [_ Ho]; discriminate (Ho eq_refl)).
        exists (st_src a p (Some v)). split; [|split; [congruence|]].
        + destruct (weights fm); [destruct (Hw' eq_refl) as (pr & g & -> & _)|]; unfold sc_field; rewrite Eo; destruct (st_src a p (Some v)); cbn [bind negb]; try reflexivity.
        + intros _. assert (0 <= p < zlen a \/ ~ (0 <= p < zlen a)) as [B|B] by lia; [left|right]; split; auto.
          * destruct (rd_ok a p B) as (c & Ec). eexists. apply (st_src_ok a p c _ Ec).
          * unfold st_src. rewrite rd_OOB by auto. reflexivity.
      - exists (Ok a). assert (existsb is_digit t = false) as Hd by (apply Ho; reflexivity). split; [|split; [auto|congruence]]. destruct (weights fm); [destruct (Hw' eq_refl) as (pr & g & -> & _)|]; unfold sc_field; rewrite Eo; reflexivity. }
    destruct l as [|c0 l].
    { (* just after the source *)
      rewrite app_nil_r in H1. subst t. destruct (scan_d_prefix pre (e_src e) (print_d (e_src e)) [] false Is ltac:(rewrite app_nil_r; reflexivity) Hp) as (o & Eo & Ho).
      pose proof (numeral_digit _ (print_d_numeral (e_src e))) as Hd. destruct o as [v|]; [|destruct Ho as [Ho _]; specialize (Ho eq_refl); congruence].
      exists (st_src a p (Some v)). split; [|split; [congruence|]].
      + unfold readLine. rewrite Htx. destruct (weights fm); [destruct (Hw' eq_refl) as (pr & g & -> & _)|]; unfold sc_field; rewrite Eo; destruct (st_src a p (Some v)); reflexivity.
      + intros _. assert (0 <= p < zlen a \/ ~ (0 <= p < zlen a)) as [B|B] by lia; [left|right]; split; auto.
        * destruct (rd_ok a p B) as (c & Ec). eexists. apply (st_src_ok a p c _ Ec).
        * unfold st_src. rewrite rd_OOB by auto. reflexivity. }
    injection H2 as <- H2. subst t. assert (existsb is_digit (print_d (e_src e) ++ 32 :: l) = true) as Hd by (rewrite existsb_app, (numeral_digit _ (print_d_numeral (e_src e))); reflexivity).
    pose proof (scan_d_sp wide pre (e_src e) l Hp Is) as Es.
    assert (0 <= p < zlen a \/ ~ (0 <= p < zlen a)) as [B|B] by lia.
    2:{ exists (Err OOB). split; [|split; [congruence|right; auto]]. unfold readLine. rewrite Htx. assert (forall x, st_src a p x = Err OOB) as Hoob by (intros x; unfold st_src; rewrite rd_OOB by auto; reflexivity).
        destruct (weights fm); [destruct (Hw' eq_refl) as (pr & g & -> & _)|]; rewrite (sc_field_ok _ _ _ _ _ _ Es), Hoob; reflexivity. }
    destruct (rd_ok a p B) as (c & Ec). pose proof (st_src_ok a p c (Some (e_src e)) Ec) as Es1. set (c1 := (Some (e_src e), snd (fst c), snd c)) in *. pose proof (rd_upd_same a p c1 B) as Ec1.
    assert (forall c', changed_at a p (Ok (upd a (Z.to_nat p) c'))) as Hch by (intros c'; left; split; eauto).
    assert (forall l', print_d (e_dst e) = l ++ l' -> exists r, readLine w wide fm (mkS (pre ++ print_d (e_src e) ++ 32 :: l) false) a p = (do a <- r ;; Ok (false, mkS [] true, a)) /\ changed_at a p r) as Hdst.
    { intros l' Hl. destruct (scan_d_prefix [32] (e_dst e) l l' false Id Hl eq_refl) as (o & Eo & _). cbn [app] in Eo. unfold readLine. rewrite Htx. destruct o as [v|].
      - destruct (weights fm) eqn:We.
        + exists (Ok (upd a (Z.to_nat p) (fst (fst c1), Some v, snd c1))). split; [|apply Hch]. destruct (Hw' eq_refl) as (pr & g & -> & He & _). rewrite (sc_field_ok _ _ _ _ _ _ Es), Es1. cbn [bind negb]. rewrite (sc_field_ok _ _ _ _ _ _ Eo), (st_dst_ok _ p _ _ Ec1). cbn [bind negb]. rewrite upd_upd. unfold sc_field. rewrite He. reflexivity.
        + exists (Ok (upd a (Z.to_nat p) (fst (fst c1), Some v, Some (w_one w)))). split; [|apply Hch]. rewrite (sc_field_ok _ _ _ _ _ _ Es), Es1. cbn [bind negb]. rewrite (sc_field_ok _ _ _ _ _ _ Eo), (st_dst_ok _ p _ _ Ec1). cbn [bind negb]. rewrite upd_upd. rewrite (st_val_ok _ p _ _ (rd_upd_same a p _ B)). cbn [bind negb fst snd s_eof]. rewrite upd_upd. reflexivity.
      - exists (Ok (upd a (Z.to_nat p) c1)). split; [|apply Hch]. destruct (weights fm); [destruct (Hw' eq_refl) as (pr & g & -> & _)|]; rewrite (sc_field_ok _ _ _ _ _ _ Es), Es1; cbn [bind negb]; unfold sc_field; rewrite Eo; reflexivity. }
    apply app_eq_app in H2 as (l2 & [[G1 G2]|[G1 G2]]).
    { destruct (Hdst l2 G1) as (r & E1 & E2). exists r. split; [exact E1|]. split; [congruence|auto]. }
    destruct l2 as [|c2 l2].
    { rewrite app_nil_r in G1. destruct (Hdst [] ltac:(rewrite app_nil_r; auto)) as (r & E1 & E2). exists r. split; [exact E1|]. split; [congruence|auto]. }
    destruct (weights fm) eqn:We; [|discriminate]. destruct (Hw' eq_refl) as (pr & g & Ew & _ & Hn). rewrite Ew in G2. injection G2 as <- G2. subst l.
    destruct (Hn l2 y' G2) as (o & Eo). pose proof (scan_d_sp' wide (e_dst e) l2 Id) as Ed.
    unfold readLine. rewrite Htx, We, Ew. rewrite (sc_field_ok _ _ _ _ _ _ Es), Es1. cbn [bind negb]. rewrite (sc_field_ok _ _ _ _ _ _ Ed), (st_dst_ok _ p _ _ Ec1). cbn [bind negb]. rewrite upd_upd. unfold sc_field. rewrite Eo. destruct o as [v|].
    - rewrite (st_val_ok _ p _ _ (rd_upd_same a p _ B)). cbn [bind s_eof negb andb fst snd]. rewrite upd_upd. eexists (Ok _). split; [reflexivity|]. split; [congruence|auto].
    - cbn [bind andb]. eexists (Ok _). split; [reflexivity|]. split; [congruence|auto].
  Qed.

  Definition torn_line (t : list Z) : Prop := t = [] \/ exists e y, eok e /\ cut_ok e /\ y <> [] /\ line w fm e = t ++ y.
  Lemma readLine_tail pre t (a : list cell) p : pre_ok fm pre -> torn_line t ->
    exists r, readLine w wide fm (mkS (pre ++ t) false) a p = (do a <- r ;; Ok (false, mkS [] true, a)) /\
      (existsb is_digit t = false -> r = Ok a) /\ (existsb is_digit t = true -> changed_at a p r).
  Proof.
    intros Hp [->|(e & y & He & Hc & Hy & Hl)]; [|eapply readLine_part; eauto]. exists (Ok a). rewrite app_nil_r, (readLine_end w wide fm pre a p sup Hp). split; [reflexivity|]. split; [auto|discriminate].
  Qed.

  Lemma read_edges_text t l : torn_line t -> forall fuel pre (a : list cell) p, pre_ok fm pre -> Forall eok l -> (length l < fuel)%nat ->
    exists ar, read_edges w wide fuel fm (mkS (pre ++ lines w fm l ++ t) false) a p = (do q <- put_all (map (back w fm) l) (a, p) ;; do a <- ar (fst q) (snd q) ;; Ok (a, snd q)) /\
      forall a p, (existsb is_digit t = false -> ar a p = Ok a) /\ (existsb is_digit t = true -> changed_at a p (ar a p)).
  Proof.
    intros Lt. induction l as [|e l IH]; intros [|fuel] pre a p Hp Hl Hf; try (cbn in Hf; lia).
    - exists (fun a p => do q <- readLine w wide fm (mkS (pre ++ t) false) a p ;; Ok (snd q)). split.
      + unfold lines. cbn [map concat app read_edges s_eof put_all foldR bind fst snd]. destruct (readLine_tail pre t a p Hp Lt) as (r & -> & _). destruct r; reflexivity.
      + intros a0 p0. destruct (readLine_tail pre t a0 p0 Hp Lt) as (r & -> & H1 & H2). assert ((do q <- (do a <- r ;; Ok (false, mkS [] true, a)) ;; Ok (snd q)) = r) as -> by (destruct r; reflexivity). auto.
    - apply Forall_cons_iff in Hl as [He Hl]. cbn [length] in Hf. unfold lines in *. cbn [map concat]. rewrite <- app_assoc.
      pose proof (readLine_ok w wide fm pre e (concat (map (line w fm) l) ++ t) a p Hp He) as R.
      destruct (wr a p (full (back w fm e))) as [a'|x] eqn:Ew.
      + destruct (IH fuel (post fm) a' (p + 1) (post_ok fm) Hl ltac:(lia)) as (ar & Hr & Har). exists ar. split; [|exact Har]. cbn [read_edges s_eof]. rewrite R. cbn [bind negb]. rewrite Hr. unfold put_all. cbn [foldR fst snd]. rewrite Ew. reflexivity.
      + destruct (IH fuel (post fm) a (p + 1) (post_ok fm) Hl ltac:(lia)) as (ar & _ & Har). exists ar. split; [|exact Har]. cbn [read_edges s_eof]. rewrite R. cbn [bind]. unfold put_all. cbn [foldR fst snd]. rewrite Ew. reflexivity.
  Qed.
  Lemma count_lines_text t l : torn_line t -> forall fuel pre mx nx cnt c, pre_ok fm pre -> Forall eok l -> (length l < fuel)%nat ->
    count_lines w wide fuel fm (mkS (pre ++ lines w fm l ++ t) false) mx nx cnt [c] = Ok (fold_left Z.max (map (@e_src E) l) mx, fold_left Z.max (map (@e_dst E) l) nx, cnt + zlen l).
  Proof.
    intros Lt. induction l as [|e l IH]; intros [|fuel] pre mx nx cnt c Hp Hl Hf; try (cbn in Hf; lia).
    - unfold lines. cbn [count_lines s_eof map concat app fold_left]. destruct (readLine_tail pre t [c] 0 Hp Lt) as (r & -> & H1 & H2).
      assert (exists a', r = Ok a') as (a' & ->). { destruct (existsb is_digit t); [|eauto]. destruct (H2 eq_refl) as [(_ & ? & ->)|[N _]]; [eauto|]. exfalso. apply N. cbn. lia. }
      cbn. rewrite Z.add_0_r. reflexivity.
    - apply Forall_cons_iff in Hl as [He Hl]. cbn [length] in Hf. unfold lines in *. cbn [count_lines s_eof map concat fold_left]. rewrite <- app_assoc.
      rewrite (readLine_ok w wide fm pre e (concat (map (line w fm) l) ++ t) [c] 0 Hp He).
      change (wr [c] 0 (full (back w fm e))) with (Ok [full (back w fm e)]). cbn [bind negb]. change (rd [full (back w fm e)] 0) with (Ok (full (back w fm e))). cbn [bind full fst snd need].
      rewrite IH by (auto using post_ok; lia). rewrite back_src, back_dst, !(max_if wide), zlen_cons. do 2 f_equal. lia.
  Qed.

  Lemma room_pos (fs : list (list (edge E) * bool)) : 0 <= room fs.
  Proof. induction fs as [|[l t] r IH]; cbn [room]; [lia|]. pose proof (zlen_nonneg l). lia. Qed.
  (** *** a file: the numbers of its header, its complete lines, the part of a line after them, and whether
      its header is complete *)
  Record cutf := mkCut { c_m : Z; c_n : Z; c_c : Z; c_l : list (edge E); c_t : list Z; c_h : bool }.
  Definition short_header (x : cutf) : list Z := print_d (c_m x) ++ [32] ++ print_d (c_n x) ++ [32] ++ print_u (c_c x).
  Definition cbytes (x : cutf) : list Z := if c_h x then header_bytes fm (c_m x) (c_n x) (c_c x) ++ lines w fm (c_l x) ++ c_t x else short_header x.
  Definition cok (fuel : nat) (x : cutf) : Prop :=
    (is_int (c_m x) /\ is_int (c_n x) /\ is_int (c_c x)) /\ Forall eok (c_l x) /\ torn_line (c_t x) /\ (length (c_l x) < fuel)%nat /\
    (c_h x = false -> header fm = true /\ c_l x = [] /\ c_t x = []).
  Definition ccount (x : cutf) : Z := if header fm then c_c x else zlen (c_l x).
  Definition cm (x : cutf) : Z := if header fm then c_m x else maxl (map (@e_src E) (c_l x)).
  Definition cn (x : cutf) : Z := if header fm then c_n x else maxl (map (@e_dst E) (c_l x)).
  Lemma read_short x : header fm = true -> is_int (c_m x) -> is_int (c_n x) -> is_int (c_c x) -> read_header wide fm (mkS (short_header x) false) = Ok (c_m x, c_n x, c_c x, mkS [] true).
  Proof.
    intros Hh Im In_ Ic. rewrite <- (read_header_cut wide fm (c_m x) (c_n x) (c_c x)) by auto. unfold header_bytes, short_header. rewrite Hh, Htx.
    rewrite !app_assoc, removelast_last. reflexivity.
  Qed.
  Definition cpairs (fs : list cutf) : list (list (edge E) * bool) := map (fun x => (c_l x, existsb is_digit (c_t x))) fs.
  Lemma nil_pre : pre_ok fm [].
  Proof. split; auto. Qed.
  Lemma get_text fuel x : cok fuel x -> get_maxid_and_nnz w wide fuel fm (f_open (cbytes x)) = Ok (cm x, cn x, ccount x).
  Proof.
    intros ((Im & In_ & Ic) & Fl & Lt & Hf & Hs). unfold get_maxid_and_nnz, cm, cn, ccount, f_open, cbytes.
    destruct (c_h x); [|destruct (Hs eq_refl) as [Hh _]; rewrite Hh, read_short by auto; reflexivity]. destruct (header fm) eqn:Hh; [rewrite read_header_ok by auto; reflexivity|].
    unfold header_bytes. rewrite Hh. cbn [app]. rewrite <- (maxl_fold0 wide (map (@e_src E) (c_l x))), <- (maxl_fold0 wide (map (@e_dst E) (c_l x))). apply (count_lines_text (c_t x) (c_l x) Lt fuel [] 0 0 0 fresh nil_pre Fl Hf).
  Qed.
  Definition unset (c : cell) : Prop := as_edge c = None.
  Notation rdf fuel := (fun (st : list cell * Z) b => do f <- (if header fm then do q <- read_header wide fm (f_open b) ;; Ok (snd q) else Ok (f_open b)) ;; read_edges w wide fuel fm f (fst st) (snd st)).
  Lemma tl_skipn (l : list cell) n : Forall unset (tl l) -> Forall unset (tl (skipn n l)).
  Proof. destruct l as [|c l]; cbn [tl]; intros H; [rewrite skipn_nil; constructor|]. destruct n as [|n]; [exact H|]. cbn [skipn]. pose proof (Forall_skipn unset n l H) as X. destruct (skipn n l); cbn [tl]; [constructor|]. inversion X; auto. Qed.
  Lemma text_all fuel fs : Forall (cok fuel) fs -> forall (D : list (edge E)) rest, Forall unset (tl rest) ->
    let fin := map (back w fm) (concat (map fst (cpairs fs))) in
    if room (cpairs fs) <=? zlen rest then
      exists rest' pos, foldR (rdf fuel) (map cbytes fs) (map full D ++ rest, zlen D) = Ok (map full (D ++ fin) ++ rest', pos) /\ Forall unset (tl rest') /\ zlen rest' = zlen rest - zlen fin
    else foldR (rdf fuel) (map cbytes fs) (map full D ++ rest, zlen D) = Err OOB.
  Proof.
    induction fs as [|x fs IH]; intros Hfs D rest Hb fin.
    - cbn [room cpairs map]. pose proof (zlen_nonneg rest). destruct (Z.leb_spec 0 (zlen rest)); [|lia]. exists rest, (zlen D). subst fin. cbn. rewrite app_nil_r. split; [reflexivity|]. split; [auto|lia].
    - apply Forall_cons_iff in Hfs as [Hx Hfs]. cbn [map foldR cpairs room fst snd]. fold (cpairs fs).
      pose proof Hx as ((Im & In_ & Ic) & Fl & Lt & Hf & Hs). set (l := c_l x) in *. set (t := c_t x) in *.
      assert (exists pre, pre_ok fm pre /\ (do f <- (if header fm then do q <- read_header wide fm (f_open (cbytes x)) ;; Ok (snd q) else Ok (f_open (cbytes x))) ;; read_edges w wide fuel fm f (map full D ++ rest) (zlen D))
        = read_edges w wide fuel fm (mkS (pre ++ lines w fm l ++ t) false) (map full D ++ rest) (zlen D)) as (pre & Hp & ->).
      { unfold f_open, cbytes. fold l t. destruct (c_h x).
        2:{ destruct (Hs eq_refl) as (Hh & El & Et). exists []. split; [apply nil_pre|]. rewrite Hh, read_short by auto. cbn [bind snd app]. fold l in El. fold t in Et. rewrite El, Et. destruct fuel; [lia|]. cbn [read_edges s_eof lines map concat app].
            pose proof (readLine_end w wide fm [] (map full D ++ rest) (zlen D) sup nil_pre) as X. unfold lines. cbn [app map concat]. rewrite X. reflexivity. }
        destruct (header fm) eqn:Hh; [exists (post fm); split; [apply post_ok|]; rewrite read_header_ok by auto; reflexivity|exists []; split; [apply nil_pre|]; unfold header_bytes; rewrite Hh; reflexivity]. }
      destruct (read_edges_text t l Lt fuel pre (map full D ++ rest) (zlen D) Hp Fl Hf) as (ar & -> & Har).
      rewrite (put_all_eq wide), map_length. pose proof (room_pos (cpairs fs)) as Rn. fold l t. set (b := existsb is_digit t) in *.
      assert (forall X : Z, zlen rest - zlen l - zlen (map (back w fm) (concat (map fst (cpairs fs)))) = X -> X = zlen rest - zlen fin) as Hfin.
      { intros X <-. subst fin. cbn [cpairs map concat fst]. fold (cpairs fs). fold l. rewrite map_app, zlen_app. unfold zlen. rewrite !map_length. lia. }
      destruct (Nat.leb_spec (length l) (length rest)) as [L1|L1].
      + cbn [bind fst snd]. assert (zlen D + zlen (map (back w fm) l) = zlen (D ++ map (back w fm) l)) as Ez by (rewrite zlen_app; lia). rewrite Ez. set (D' := D ++ map (back w fm) l) in *.
        set (rest1 := skipn (length l) rest). assert (zlen rest1 = zlen rest - zlen l) as Lr by (unfold rest1, zlen; rewrite skipn_length; lia). assert (Forall unset (tl rest1)) as Fb by (apply tl_skipn; auto).
        destruct (Har (map full D' ++ rest1) (zlen D')) as [H1 H2].
        assert (zlen (map full D') = zlen D') as Zd by (unfold zlen; rewrite map_length; reflexivity).
        assert (forall rest2, zlen rest2 = zlen rest1 -> Forall unset (tl rest2) -> if zlen l + Z.max (if b then 1 else 0) (room (cpairs fs)) <=? zlen rest then
            exists rest' pos, foldR (rdf fuel) (map cbytes fs) (map full D' ++ rest2, zlen D') = Ok (map full (D ++ fin) ++ rest', pos) /\ Forall unset (tl rest') /\ zlen rest' = zlen rest - zlen fin
          else (b = true -> 1 <= zlen rest1) -> foldR (rdf fuel) (map cbytes fs) (map full D' ++ rest2, zlen D') = Err OOB) as Hgo.
        { intros rest2 L2 F2. specialize (IH Hfs D' rest2 F2). cbn zeta in IH. rewrite L2, Lr in IH.
          destruct (Z.leb_spec (zlen l + Z.max (if b then 1 else 0) (room (cpairs fs))) (zlen rest)) as [L|L]; destruct (Z.leb_spec (room (cpairs fs)) (zlen rest - zlen l)) as [L'|L']; try lia.
          - destruct IH as (rest' & pos & E1 & E2 & E3). exists rest', pos. rewrite E1. split; [|split; [auto|apply Hfin; auto]]. subst fin D'. cbn [cpairs map concat fst]. fold (cpairs fs). fold l. rewrite !map_app, <- !app_assoc. reflexivity.
          - intros Hb1. exfalso. destruct b; [specialize (Hb1 eq_refl); lia|lia].
          - intros _. exact IH. }
        destruct b eqn:Eb.
        * destruct (H2 eq_refl) as [(B & c' & Ea)|[N Ea]].
          -- destruct rest1 as [|c0 rest2] eqn:Er1. { exfalso. rewrite app_nil_r, Zd in B. lia. }
             rewrite Ea. cbn [bind]. assert (upd (map full D' ++ c0 :: rest2) (Z.to_nat (zlen D')) c' = map full D' ++ c' :: rest2) as ->.
             { unfold zlen. rewrite Nat2Z.id, <- (map_length full D'). apply upd_app_at. }
             specialize (Hgo (c' :: rest2) ltac:(rewrite !zlen_cons; reflexivity) Fb). destruct (_ <=? _); [exact Hgo|]. apply Hgo. intros _. rewrite zlen_cons. pose proof (zlen_nonneg rest2). lia.
          -- rewrite Ea. cbn [bind]. destruct (Z.leb_spec (zlen l + Z.max 1 (room (cpairs fs))) (zlen rest)) as [L|L]; [|reflexivity]. exfalso. apply N. rewrite zlen_app, Zd, Lr. pose proof (zlen_nonneg D'). lia.
        * rewrite H1 by auto. cbn [bind]. specialize (Hgo rest1 eq_refl Fb). destruct (_ <=? _); [exact Hgo|]. apply Hgo. discriminate.
      + cbn [bind]. destruct (Z.leb_spec (zlen l + Z.max (if b then 1 else 0) (room (cpairs fs))) (zlen rest)) as [L|L]; [unfold zlen in *; lia|reflexivity].
  Qed.

  Definition tcount (fs : list cutf) : Z := i32 (fold_right Z.add 0 (map ccount fs)).
  Lemma pass1_text fuel fs : Forall (cok fuel) fs -> pass1 w wide fuel fm (map cbytes fs) = Ok (maxl (map cm fs), maxl (map cn fs), tcount fs).
  Proof.
    intros Hfs. unfold pass1, tcount.
    assert (forall a b c, 0 <= a -> 0 <= b -> foldR (fun st b => let '(m, n, z) := st in do q <- get_maxid_and_nnz w wide fuel fm (f_open b) ;; let '(m_, n_, z_) := q in Ok (Z.max m_ m, Z.max n_ n, i32 (z + z_))) (map cbytes fs) (a, b, i32 c)
      = Ok (Z.max a (maxl (map cm fs)), Z.max b (maxl (map cn fs)), i32 (c + fold_right Z.add 0 (map ccount fs)))) as H.
    { induction fs as [|x r IH]; intros a b c Ha Hb; [cbn; rewrite Z.add_0_r; repeat f_equal; lia|]. apply Forall_cons_iff in Hfs as [Hx Hfs]. cbn [map foldR]. rewrite get_text by auto. cbn [bind]. rewrite i32_add_l, IH by (auto; lia).
      cbn [maxl fold_right]. unfold maxl. rewrite <- Z.add_assoc. do 3 f_equal; [lia|]. lia. }
    pose proof (H 0 0 0 ltac:(lia) ltac:(lia)) as H0. change (i32 0) with 0 in H0. rewrite H0. pose proof (maxl_nonneg wide (map cm fs)). pose proof (maxl_nonneg wide (map cn fs)). rewrite Z.add_0_l. do 3 f_equal; lia.
  Qed.
  Lemma pass2_text fuel fs c : Forall (cok fuel) fs ->
    let fin := map (back w fm) (concat (map fst (cpairs fs))) in
    if room (cpairs fs) <=? Z.max 0 c then
      exists o, (do a <- pass2 w wide fuel fm (map cbytes fs) c ;; Ok (map as_edge (fst a))) = Ok (map Some fin ++ o) /\ zlen o = Z.max 0 c - zlen fin /\ Forall (fun x => x = None) (tl o)
    else pass2 w wide fuel fm (map cbytes fs) c = Err OOB.
  Proof.
    intros Hfs fin. unfold pass2. assert (Forall unset (tl (repeat (@fresh E) (Z.to_nat c)))) as Fb. { assert (Forall unset (repeat (@fresh E) (Z.to_nat c))) as X by (apply Forall_forall; intros x Hx; apply repeat_spec in Hx; subst; reflexivity). destruct (repeat fresh (Z.to_nat c)); cbn [tl]; [constructor|inversion X; auto]. }
    pose proof (text_all fuel fs Hfs [] (repeat fresh (Z.to_nat c)) Fb) as H. cbn zeta in H. fold fin in H. cbn [map app] in H. change (zlen []) with 0 in H. assert (zlen (repeat (@fresh E) (Z.to_nat c)) = Z.max 0 c) as Lz by (unfold zlen; rewrite repeat_length; lia). rewrite Lz in H.
    destruct (Z.leb_spec (room (cpairs fs)) (Z.max 0 c)) as [L|L]; [|exact H]. destruct H as (rest' & pos & -> & Fr & Lr). cbn [bind fst]. rewrite map_app, map_map. exists (map as_edge rest'). split; [|split].
    - f_equal. f_equal. apply map_ext. intros e. apply as_edge_full.
    - unfold zlen in *. rewrite map_length. exact Lr.
    - destruct rest' as [|c0 r]; cbn [tl map] in *; [constructor|]. rewrite Forall_map. exact Fr.
  Qed.

  (** *** the directory *)
  Variables (fuel : nat) (nr : Z) (d : dirt) (cf : Z -> cutf).
  Hypothesis Hn : 1 <= nr.
  Hypothesis Hf : (length d < fuel)%nat.
  Hypothesis file_ok : forall i b, 0 <= i < zlen d -> file_at d i = Some b -> b = cbytes (cf i) /\ cok fuel (cf i).
  Definition tsr (r : Z) : list cutf := map cf (read_by nr d r).
  Definition lft (r : Z) : list (edge E) := concat (map (fun i => c_l (cf i)) (read_by nr d r)).
  Lemma opened_text r : 0 <= r -> opened fuel nr r d = Ok (map cbytes (tsr r)).
  Proof.
    intros Hr. rewrite (opened_eq nr d Hn (length d)); [|lia| |auto]. 2:{ unfold zlen. pose proof (Zle_0_nat (length d)). nia. }
    change (present d (map (fun k => r + nr * k) (zrange 0 (Z.of_nat (length d))))) with (read_by nr d r). unfold tsr. rewrite map_map. f_equal. apply map_ext_in. intros i Hi. apply read_by_in in Hi as [Bi [b Hb]]; auto. unfold bytes_at. rewrite Hb.
    apply (file_ok i b Bi Hb).
  Qed.
  Lemma tsr_ok r : 0 <= r -> Forall (cok fuel) (tsr r).
  Proof. intros Hr. unfold tsr. rewrite Forall_map. apply Forall_forall. intros i Hi. apply read_by_in in Hi as [Bi [b Hb]]; auto. apply (file_ok i b Bi Hb). Qed.
  Lemma tfin r : concat (map fst (cpairs (tsr r))) = lft r.
  Proof. unfold cpairs, tsr, lft. rewrite !map_map. reflexivity. Qed.
  Definition mall := maxl (concat (map (fun r => map cm (tsr r)) (zrange 0 nr))).
  Definition nall := maxl (concat (map (fun r => map cn (tsr r)) (zrange 0 nr))).
  Lemma load_text :
    if forallb (fun r => room (cpairs (tsr r)) <=? Z.max 0 (tcount (tsr r))) (zrange 0 nr) then
      exists os, load_edgelist w wide fuel fm nr d = Ok (map (fun r => mkEL (map Some (map (back w fm) (lft r)) ++ os r) mall nall (tcount (tsr r))) (zrange 0 nr)) /\
        forall r, 0 <= r < nr -> zlen (os r) = Z.max 0 (tcount (tsr r)) - zlen (lft r) /\ Forall (fun x => x = None) (tl (os r))
    else load_edgelist w wide fuel fm nr d = Err OOB.
  Proof.
    unfold load_edgelist. rewrite (mapR_map _ (fun r => map cbytes (tsr r))) by (intros r Ir; apply in_zrange in Ir; apply opened_text; lia).
    cbn [bind]. rewrite mapR_map_dom. rewrite (mapR_map _ (fun r => (maxl (map cm (tsr r)), maxl (map cn (tsr r)), tcount (tsr r)))).
    2:{ intros r Ir. apply in_zrange in Ir. apply pass1_text, tsr_ok. lia. }
    cbn [bind]. rewrite combine_map2, mapR_map_dom. rewrite !map_map. cbn [fst snd].
    assert (forall g : cutf -> Z, maxl (concat (map (fun r => map g (tsr r)) (zrange 0 nr))) = fold_right Z.max 0 (map (fun r => maxl (map g (tsr r))) (zrange 0 nr))) as Hm.
    { intros g. rewrite (maxl_concat wide), map_map. reflexivity. }
    unfold mall, nall. rewrite !Hm. set (M := fold_right Z.max 0 _). set (N := fold_right Z.max 0 _).
    set (os := fun r => match pass2 w wide fuel fm (map cbytes (tsr r)) (tcount (tsr r)) with Ok a => skipn (length (lft r)) (map as_edge (fst a)) | Err _ => [] end).
    assert (forall r, 0 <= r < nr -> if room (cpairs (tsr r)) <=? Z.max 0 (tcount (tsr r)) then
      (do a <- pass2 w wide fuel fm (map cbytes (tsr r)) (tcount (tsr r)) ;; Ok (map as_edge (fst a))) = Ok (map Some (map (back w fm) (lft r)) ++ os r) /\ zlen (os r) = Z.max 0 (tcount (tsr r)) - zlen (lft r) /\ Forall (fun x => x = None) (tl (os r))
      else pass2 w wide fuel fm (map cbytes (tsr r)) (tcount (tsr r)) = Err OOB) as Hr.
    { intros r Br. pose proof (pass2_text fuel (tsr r) (tcount (tsr r)) (tsr_ok r ltac:(lia))) as P. cbn zeta in P. rewrite tfin in P. destruct (_ <=? _); [|exact P]. destruct P as (o & E1 & E2 & E3).
      assert (os r = o) as ->. { unfold os. destruct (pass2 _ _ _ _ _ _) as [a|x]; cbn [bind] in E1; [|discriminate]. injection E1 as ->. rewrite skipn_app, skipn_all2 by (rewrite !map_length; lia). rewrite !map_length, Nat.sub_diag. reflexivity. }
      split; [exact E1|]. split; [|exact E3]. rewrite E2. unfold zlen. rewrite map_length. reflexivity. }
    assert (mapR (fun a : Z => do a0 <- pass2 w wide fuel fm (map cbytes (tsr a)) (tcount (tsr a)) ;; Ok (mkEL (map as_edge (fst a0)) M N (tcount (tsr a)))) (zrange 0 nr) =
      if forallb (fun r => room (cpairs (tsr r)) <=? Z.max 0 (tcount (tsr r))) (zrange 0 nr) then Ok (map (fun r => mkEL (map Some (map (back w fm) (lft r)) ++ os r) M N (tcount (tsr r))) (zrange 0 nr)) else Err OOB) as EM.
    { apply mapR_if. intros r Ir. apply in_zrange in Ir. specialize (Hr r Ir). destruct (_ <=? _).
      - destruct Hr as [E1 _]. destruct (pass2 _ _ _ _ _ _) as [a|x]; cbn [bind] in E1 |- *; [|discriminate]. injection E1 as ->. reflexivity.
      - rewrite Hr. reflexivity. }
    rewrite EM. destruct (forallb _ (zrange 0 nr)) eqn:Eb; [|reflexivity]. exists os. split; [reflexivity|]. intros r Br. rewrite forallb_forall in Eb. specialize (Eb r ltac:(apply in_zrange; lia)). specialize (Hr r Br). rewrite Eb in Hr. apply Hr.
  Qed.
End T.
