(** The claims about text files cut short. *)
From Verif Require Import Base BaseLemmas ListLemmas BitsProofs Segment DCSC EdgeList EdgeSpec GraphProofs Apps FileIO FileSpec FileProofs FileFinal FileClaims FileCutSpec FileCut FileCutClaims FileCutText.

Lemma w_int_cuttable wide v : cuttable (w_int wide) v.
Proof. do 2 eexists. split; [reflexivity|]. split; [reflexivity|]. intros x y H. destruct (scan_prefix [32] _ x y false (print_d_numeral v) H eq_refl) as (o & E & _). cbn [app] in E. rewrite E. destruct o; eauto. Qed.
Lemma w_uint_cuttable wide v : cuttable (w_uint wide) v.
Proof. do 2 eexists. split; [reflexivity|]. split; [reflexivity|]. intros x y H. destruct (scan_prefix [32] _ x y false (print_u_numeral v) H eq_refl) as (o & E & _). cbn [app] in E. rewrite E. destruct o; eauto. Qed.

(** the first digits of a number *)
Lemma dec_digits_short k v : 0 <= v < 10 -> length (dec_digits (S k) v) = 1%nat.
Proof. intros B. cbn [dec_digits]. rewrite Z.div_small by lia. reflexivity. Qed.
Lemma dec_digits_front v : 10 <= v < 2 ^ 32 -> dec_digits 10 v = dec_digits 10 (v / 10) ++ [48 + v mod 10].
Proof.
  intros B. assert (1 <= v / 10) as L by (apply Z.div_le_lower_bound; lia). assert (v / 10 < 10 ^ 9) by (apply Z.div_lt_upper_bound; lia).
  rewrite (dec_digits_fuel 8 (v / 10)) by (split; [lia|exact H]).
  change (dec_digits 10 v) with ((if v / 10 =? 0 then [] else dec_digits 9 (v / 10)) ++ [48 + v mod 10]). destruct (Z.eqb_spec (v / 10) 0); [lia|]. reflexivity.
Qed.
Lemma print_u_front c k : 0 <= c < 2 ^ 31 -> (k < length (print_u c))%nat -> print_u (c / 10 ^ Z.of_nat k) = firstn (length (print_u c) - k) (print_u c).
Proof.
  intros B. assert (forall z, 0 <= z < 2 ^ 31 -> print_u z = dec_digits 10 z) as P by (intros z Bz; unfold print_u; unfold u32; rewrite Z.mod_small by lia; reflexivity).
  assert (forall k, 0 <= c / 10 ^ Z.of_nat k < 2 ^ 31) as Bk.
  { intros j. assert (0 < 10 ^ Z.of_nat j) by (apply Z.pow_pos_nonneg; lia). split; [apply Z.div_pos; lia|]. apply Z.le_lt_trans with c; [apply Z.div_le_upper_bound; nia|lia]. }
  induction k as [|k IH]; intros L; [rewrite Nat.sub_0_r, firstn_all; change (10 ^ Z.of_nat 0) with 1; rewrite Z.div_1_r; reflexivity|].
  specialize (IH ltac:(lia)). assert (c / 10 ^ Z.of_nat (S k) = c / 10 ^ Z.of_nat k / 10) as Ed.
  { rewrite Nat2Z.inj_succ, Z.pow_succ_r by lia. rewrite (Z.mul_comm 10), Z.div_div; [reflexivity| |lia]. assert (0 < 10 ^ Z.of_nat k) by (apply Z.pow_pos_nonneg; lia). lia. }
  pose proof (Bk k) as B1. pose proof (Bk (S k)) as B2. rewrite Ed in *. set (v := c / 10 ^ Z.of_nat k) in *.
  assert (length (print_u v) = length (print_u c) - k)%nat as Lv by (rewrite IH, firstn_length; lia).
  assert (10 <= v) as V. { destruct (Z_lt_le_dec v 10) as [X|X]; [|exact X]. rewrite P, (dec_digits_short 9) in Lv by lia. lia. }
  rewrite P in IH by lia. rewrite (dec_digits_front v) in IH by lia. rewrite <- P in IH by lia.
  rewrite P in Lv by lia. rewrite (dec_digits_front v), app_length, <- P in Lv by lia. cbn [length] in Lv.
  assert (firstn (length (print_u (v / 10))) (firstn (length (print_u c) - k) (print_u c)) = print_u (v / 10)) as X by (rewrite <- IH, firstn_app, Nat.sub_diag, firstn_all; cbn [firstn]; apply app_nil_r).
  rewrite firstn_firstn in X. rewrite <- X at 1. f_equal. lia.
Qed.

(** *** every cut has this form *)
Section Form.
  Context {E : Type}.
  Variables (w : wtype E) (fm : fmt).
  Lemma lines_cut_text (l : list (edge E)) : forall k, 0 <= k <= zlen (concat (map (line w fm) l)) ->
    { c & { t | (c <= length l)%nat /\ begins_line w fm l c t /\ firstn (Z.to_nat k) (concat (map (line w fm) l)) = concat (map (line w fm) (firstn c l)) ++ t } }.
  Proof.
    induction l as [|e l IH]; intros k Bk.
    - exists 0%nat, []. cbn in Bk. assert (k = 0) as -> by lia. split; [cbn; lia|]. split; [left; reflexivity|reflexivity].
    - cbn [map concat] in Bk |- *. rewrite zlen_app in Bk. destruct (Z_lt_le_dec k (zlen (line w fm e))) as [L|L].
      + exists 0%nat, (firstn (Z.to_nat k) (line w fm e)). split; [cbn; lia|]. split.
        * right. exists e, (skipn (Z.to_nat k) (line w fm e)). split; [reflexivity|]. split; [|symmetry; apply firstn_skipn]. intros X. apply (f_equal (@length Z)) in X. rewrite skipn_length in X. unfold zlen in L. cbn in X. lia.
        * cbn [firstn map concat app]. rewrite firstn_app. assert (Z.to_nat k - length (line w fm e) = 0)%nat as -> by (unfold zlen in L; lia). apply app_nil_r.
      + destruct (IH (k - zlen (line w fm e)) ltac:(lia)) as (c & t & H1 & H2 & H3). exists (S c), t. split; [cbn; lia|]. split; [exact H2|]. cbn [firstn map concat]. rewrite <- app_assoc, <- H3, firstn_app. unfold zlen in *. rewrite firstn_all2 by lia. do 2 f_equal. lia.
  Qed.
  Lemma text_form d F K : holds_cut w fm d F K -> (forall i, ef_newline (F i) = true) ->
    (forall i b, 0 <= i -> file_at d i = Some b -> zlen (header_bytes fm (ef_m (F i)) (ef_n (F i)) (ef_count (F i))) <= K i) ->
    exists C T, holds_text_cut w fm d F C T.
  Proof.
    intros Hd Hnl HK. set (h := fun i => zlen (header_bytes fm (ef_m (F i)) (ef_n (F i)) (ef_count (F i)))).
    set (k := fun i => Z.max 0 (Z.min (zlen (concat (map (line w fm) (ef_edges (F i))))) (K i - h i))).
    assert (forall i, 0 <= k i <= zlen (concat (map (line w fm) (ef_edges (F i))))) as Bk by (intros i; unfold k; pose proof (zlen_nonneg (concat (map (line w fm) (ef_edges (F i))))); lia).
    exists (fun i => projT1 (lines_cut_text (ef_edges (F i)) (k i) (Bk i))), (fun i => proj1_sig (projT2 (lines_cut_text (ef_edges (F i)) (k i) (Bk i)))).
    intros i b Bi Hb. destruct (lines_cut_text (ef_edges (F i)) (k i) (Bk i)) as (c & t & H1 & H2 & H3). cbn [projT1 projT2 proj1_sig]. destruct (Hd i b Bi Hb) as (Hf & Bi' & ->). split; [exact Hf|]. split; [exact H1|]. split; [exact H2|].
    rewrite <- H3. unfold content in *. rewrite Hnl in *. specialize (HK i _ Bi Hb). fold (h i) in HK. rewrite zlen_app in Bi'. fold (h i) in Bi'. assert (k i = K i - h i) as -> by (unfold k; lia). unfold h, zlen in *. rewrite firstn_app, firstn_all2 by lia. f_equal. f_equal. lia.
  Qed.
  Lemma header_form d F K : binary fm = false -> header fm = true -> holds_cut w fm d F K -> (forall i, ef_newline (F i) = true) ->
    (forall i b, 0 <= i -> file_at d i = Some b -> zlen (print_d (ef_m (F i)) ++ [32] ++ print_d (ef_n (F i)) ++ [32]) < K i) ->
    exists C T G, holds_header_cut w fm d F C T G.
  Proof.
    intros Htx Hh Hd Hnl HK. set (h := fun i => zlen (header_bytes fm (ef_m (F i)) (ef_n (F i)) (ef_count (F i)))).
    set (p := fun i => print_d (ef_m (F i)) ++ [32] ++ print_d (ef_n (F i)) ++ [32]). set (u := fun i => print_u (ef_count (F i))).
    assert (forall i, header_bytes fm (ef_m (F i)) (ef_n (F i)) (ef_count (F i)) = p i ++ u i ++ [10]) as Eh by (intros i; unfold header_bytes, p, u; rewrite Htx, Hh, <- !app_assoc; reflexivity).
    set (k := fun i => Z.max 0 (Z.min (zlen (concat (map (line w fm) (ef_edges (F i))))) (K i - h i))).
    assert (forall i, 0 <= k i <= zlen (concat (map (line w fm) (ef_edges (F i))))) as Bk by (intros i; unfold k; pose proof (zlen_nonneg (concat (map (line w fm) (ef_edges (F i))))); lia).
    exists (fun i => if h i <=? K i then projT1 (lines_cut_text (ef_edges (F i)) (k i) (Bk i)) else 0%nat), (fun i => if h i <=? K i then proj1_sig (projT2 (lines_cut_text (ef_edges (F i)) (k i) (Bk i))) else []),
      (fun i => if h i <=? K i then None else Some (Z.to_nat (h i - 1 - K i))).
    intros i b Bi Hb. destruct (lines_cut_text (ef_edges (F i)) (k i) (Bk i)) as (c & t & H1 & H2 & H3). cbn [projT1 projT2 proj1_sig]. destruct (Hd i b Bi Hb) as (Hf & Bi' & ->). split; [exact Hf|].
    specialize (HK i _ Bi Hb). fold (p i) in HK. unfold content in *. rewrite Hnl in *. destruct (Z.leb_spec (h i) (K i)) as [L|L].
    - split; [exact H1|]. split; [exact H2|]. rewrite <- H3. rewrite zlen_app in Bi'. fold (h i) in Bi'. assert (k i = K i - h i) as -> by (unfold k; lia). unfold h, zlen in *. rewrite firstn_app, firstn_all2 by lia. f_equal. f_equal. lia.
    - split; [lia|]. split; [reflexivity|]. split; [reflexivity|]. fold (u i). assert (h i = zlen (p i) + zlen (u i) + 1) as Lh by (unfold h; rewrite Eh, !zlen_app; change (zlen [10]) with 1; lia). unfold zlen in *. split; [lia|].
      transitivity (p i ++ firstn (length (u i) - Z.to_nat (h i - 1 - K i)) (u i)); [|unfold p; rewrite <- !app_assoc; reflexivity].
      rewrite Eh, <- !app_assoc, firstn_app, firstn_all2 by lia. f_equal. rewrite firstn_app. assert (Z.to_nat (K i) - length (p i) - length (u i) = 0)%nat as -> by lia. rewrite firstn_O, app_nil_r. f_equal. lia.
  Qed.
End Form.

Section TCl.
  Context {E : Type}.
  Variables (w : wtype E) (wide : Z -> Z) (fm : fmt).
  Hypothesis Htx : binary fm = false.
  Variables (fuel : nat) (nr : Z) (d : dirt) (F : Z -> efile E) (C : Z -> nat) (T : Z -> list Z) (G : Z -> option nat).
  Hypothesis Hw : cuttable_files w fm d F.
  Hypothesis Hn : 1 <= nr.
  Hypothesis Hd : holds_header_cut w fm d F C T G.
  Hypothesis HG : header fm = false -> forall i, G i = None.
  Hypothesis HC : header fm = true -> forall i, ef_count (F i) = zlen (ef_edges (F i)).
  Hypothesis Hf : enough fuel d F.
  Notation left r := (left_lines nr d F C r).
  Notation kept i := (firstn (C i) (ef_edges (F i))).
  Definition cf (i : Z) : cutf := mkCut (ef_m (F i)) (ef_n (F i)) (announced F G i) (kept i) (T i) (match G i with None => true | Some _ => false end).
  Notation prs l := (cpairs (map cf l)).
  Notation tsr := (tsr nr d cf).
  Lemma file_ok i b : 0 <= i < zlen d -> file_at d i = Some b -> b = cbytes w fm (cf i) /\ cok w fm fuel (cf i).
  Proof.
    intros Bi Hb. destruct (Hd i b ltac:(lia) Hb) as (H1 & H2 & H3). assert (Forall (edge_ok w fm) (ef_edges (F i))) as Fe by (apply Forall_forall; intros e He; apply H1; auto).
    destruct H1 as (Im & In_ & Ic & _ & _). assert (length (kept i) < fuel)%nat as Lf by (rewrite firstn_length; pose proof (proj2 Hf i Bi); lia).
    assert (Forall (edge_ok w fm) (kept i)) as Fk by (apply Forall_forall; intros e He; eapply Forall_forall; [exact Fe|]; rewrite <- (firstn_skipn (C i) (ef_edges (F i))); apply in_or_app; auto).
    unfold cf, cbytes, cok, announced, short_header. cbn [c_m c_n c_c c_l c_t c_h]. destruct (G i) as [k|] eqn:Eg.
    - destruct H3 as (C0 & T0 & Lk & ->). assert (header fm = true) as Hh by (destruct (header fm) eqn:Hh; auto; rewrite HG in Eg by auto; discriminate).
      assert (0 <= ef_count (F i) < 2 ^ 31) as Bc by (rewrite HC in * by auto; pose proof (zlen_nonneg (ef_edges (F i))); unfold is_int in Ic; lia).
      assert (0 < 10 ^ Z.of_nat k) as Pk by (apply Z.pow_pos_nonneg; lia). assert (0 <= ef_count (F i) / 10 ^ Z.of_nat k <= ef_count (F i)) as Bq by (split; [apply Z.div_pos; lia|apply Z.div_le_upper_bound; nia]).
      split; [rewrite print_u_front by auto; reflexivity|]. split; [unfold is_int in *; split; [auto|split; [auto|lia]]|]. split; [exact Fk|]. split; [left; exact T0|]. split; [exact Lf|]. intros _. rewrite C0. auto.
    - destruct H3 as (H3 & ->). split; [reflexivity|]. split; [auto|]. split; [exact Fk|]. split; [|split; [exact Lf|discriminate]].
      destruct H3 as [->|(e & y & E1 & E2 & E3)]; [left; reflexivity|]. right. exists e, y. assert (In e (ef_edges (F i))) as Ie by (eapply nth_error_In; eauto). split; [eapply Forall_forall; [exact Fe|exact Ie]|]. split; [intros We|split; [exact E2|exact E3]]. eapply (proj2 Hw We i _ e); [lia|exact Hb|exact Ie].
  Qed.
  Definition load_text' := load_text w wide fm Htx (proj1 Hw) fuel nr d cf Hn (proj1 Hf) file_ok.

  Lemma sum_announced l : header fm = true -> 0 <= fold_right Z.add 0 (map (announced F G) l).
  Proof.
    intros Hh. induction l as [|j l IH]; cbn [map fold_right]; [lia|]. assert (0 <= announced F G j); [|lia]. unfold announced. rewrite HC by auto. pose proof (zlen_nonneg (ef_edges (F j))). destruct (G j); [|lia]. apply Z.div_pos; [lia|apply Z.pow_pos_nonneg; lia].
  Qed.
  Lemma room_head (l : list Z) : header fm = true -> (forall i, In i l -> exists b, 0 <= i /\ file_at d i = Some b) -> room (prs l) <= fold_right Z.add 0 (map (announced F G) l).
  Proof.
    intros Hh. induction l as [|i l IH]; intros Hl; [cbn; lia|]. cbn [map cpairs room fold_right]. fold (prs l). cbn [c_l c_t cf]. destruct (Hl i (or_introl eq_refl)) as (b & Bi & Hb). destruct (Hd i b Bi Hb) as (_ & H2 & H3).
    specialize (IH (fun j Hj => Hl j (or_intror Hj))).
    pose proof (sum_announced l Hh) as Np.
    assert (zlen (kept i) + (if existsb is_digit (T i) then 1 else 0) <= announced F G i) as X.
    { unfold announced. destruct (G i) as [k|].
      - destruct H3 as (-> & -> & _). cbn [firstn existsb]. rewrite HC by auto. apply Z.div_pos; [apply zlen_nonneg|apply Z.pow_pos_nonneg; lia].
      - destruct H3 as [H3 _]. rewrite HC by auto. unfold zlen. rewrite firstn_length, Nat.min_l by auto. destruct (existsb is_digit (T i)) eqn:Ed; [|lia]. destruct H3 as [H3|(e & y & H3 & _)]; [rewrite H3 in Ed; discriminate|]. assert (C i < length (ef_edges (F i)))%nat by (apply nth_error_Some; congruence). lia. }
    pose proof (zlen_nonneg (kept i)). destruct (existsb is_digit (T i)); lia.
  Qed.
  Lemma room_flat (l : list Z) : (forall p i q, l = p ++ i :: q -> has_digit (T i) -> concat (map (fun j => kept j) q) <> []) ->
    room (prs l) = zlen (concat (map (fun i => kept i) l)).
  Proof.
    induction l as [|i l IH]; intros H; [reflexivity|]. cbn [map cpairs room concat c_l c_t cf]. fold (prs l). rewrite zlen_app, IH by (intros p j q E1; apply (H (i :: p) j q); rewrite E1; reflexivity).
    pose proof (zlen_nonneg (concat (map (fun i => kept i) l))) as N. destruct (existsb is_digit (T i)) eqn:Ed; [|lia].
    pose proof (H [] i l eq_refl Ed) as X. destruct (concat (map (fun j => kept j) l)) as [|e0 l0]; [contradiction|]. rewrite zlen_cons in *. pose proof (zlen_nonneg l0). lia.
  Qed.
  Lemma room_past (p : list Z) i q : has_digit (T i) -> concat (map (fun j => kept j) q) = [] ->
    zlen (concat (map (fun j => kept j) (p ++ i :: q))) < room (prs (p ++ i :: q)).
  Proof.
    unfold has_digit. intros Ht Hq. induction p as [|j p IH]; cbn [app map cpairs room concat c_l c_t cf].
    - fold (prs q). rewrite Hq, app_nil_r, Ht. lia.
    - fold (prs (p ++ i :: q)). rewrite zlen_app. lia.
  Qed.

  Lemma text_with_header : header fm = true ->
    (forall r, 0 <= r < nr -> fold_right Z.add 0 (map (announced F G) (read_by nr d r)) < 2 ^ 31) ->
    exists els, load_edgelist w wide fuel fm nr d = Ok els /\ zlen els = nr /\ forall r, 0 <= r < nr ->
      exists el rest, rd els r = Ok el /\ el_nnz el = fold_right Z.add 0 (map (announced F G) (read_by nr d r)) /\
        el_m el = maxl (concat (map (fun r => map (fun i => ef_m (F i)) (read_by nr d r)) (zrange 0 nr))) /\
        el_n el = maxl (concat (map (fun r => map (fun i => ef_n (F i)) (read_by nr d r)) (zrange 0 nr))) /\
        el_arr el = map Some (map (back w fm) (left r)) ++ rest /\
        zlen rest = el_nnz el - zlen (left r) /\ Forall (fun x => x = None) (tl rest).
  Proof.
    intros Hh Ht.
    assert (forall r, 0 <= r < nr -> tcount fm (tsr r) = fold_right Z.add 0 (map (announced F G) (read_by nr d r))) as Hg.
    { intros r Hr. unfold tcount, FileCutText.tsr. rewrite map_map. rewrite (map_ext _ (announced F G)) by (intros i; unfold ccount; rewrite Hh; reflexivity). apply i32_id. unfold is_int. pose proof (sum_announced (read_by nr d r) Hh). pose proof (Ht r Hr). lia. }
    pose proof load_text' as L.
    assert (forallb (fun r => room (cpairs (tsr r)) <=? Z.max 0 (tcount fm (tsr r))) (zrange 0 nr) = true) as Hall.
    { apply forallb_forall. intros r Ir. apply in_zrange in Ir. apply Z.leb_le. rewrite Hg by auto. etransitivity; [|apply Z.le_max_r]. unfold FileCutText.tsr. apply room_head; [exact Hh|]. intros i Hi. apply read_by_in in Hi as [Bi [b Hb]]; auto; try lia. exists b. split; [lia|auto]. }
    rewrite Hall in L. destruct L as (os & -> & Hos). eexists. split; [reflexivity|]. split; [unfold zlen; rewrite map_length; pose proof (zlen_zrange 0 nr ltac:(lia)); unfold zlen in *; lia|].
    intros r Hr. destruct (Hos r Hr) as [L1 L2]. eexists. exists (os r). split; [apply rd_map, rd_zrange; lia|]. cbn [el_arr el_m el_n el_nnz]. rewrite !Z.add_0_l, Hg by auto. rewrite Hg in L1 by auto.
    split; [reflexivity|]. split; [|split; [|split; [reflexivity|split; [|exact L2]]]].
    - unfold mall, FileCutText.tsr. f_equal. f_equal. apply map_ext. intros r'. rewrite map_map. apply map_ext. intros i. unfold cm. rewrite Hh. reflexivity.
    - unfold nall, FileCutText.tsr. f_equal. f_equal. apply map_ext. intros r'. rewrite map_map. apply map_ext. intros i. unfold cn. rewrite Hh. reflexivity.
    - rewrite L1. pose proof (sum_announced (read_by nr d r) Hh). change (lft nr d cf r) with (left r). lia.
  Qed.

  Lemma plain_counts r : header fm = false -> zlen (left r) < 2 ^ 31 -> tcount fm (tsr r) = zlen (left r).
  Proof.
    intros Hh Ht. unfold tcount, FileCutText.tsr. rewrite map_map. rewrite (map_ext _ (fun i => zlen (kept i))) by (intros i; unfold ccount; rewrite Hh; reflexivity). rewrite zlen_sum. fold (left r). apply i32_id. unfold is_int. pose proof (zlen_nonneg (left r)). lia.
  Qed.
  Lemma text_without_header : header fm = false ->
    (forall r, 0 <= r < nr -> zlen (left r) < 2 ^ 31) ->
    (forall r p i q, 0 <= r < nr -> read_by nr d r = p ++ i :: q -> has_digit (T i) -> exists j, In j q /\ kept j <> []) ->
    let all := concat (map (fun r => left r) (zrange 0 nr)) in
    load_edgelist w wide fuel fm nr d =
      Ok (map (fun r => mkEL (map Some (map (back w fm) (left r))) (maxl (map (@e_src E) all)) (maxl (map (@e_dst E) all)) (zlen (left r))) (zrange 0 nr)).
  Proof.
    intros Hh Ht Hto all. pose proof load_text' as L.
    assert (forallb (fun r => room (cpairs (tsr r)) <=? Z.max 0 (tcount fm (tsr r))) (zrange 0 nr) = true) as Hall.
    { apply forallb_forall. intros r Ir. apply in_zrange in Ir. apply Z.leb_le. rewrite plain_counts by auto. etransitivity; [|apply Z.le_max_r]. unfold FileCutText.tsr. rewrite room_flat; [unfold left_lines; lia|].
      intros p i q Eq Hti. destruct (Hto r p i q Ir Eq Hti) as (j & Hj & Nj). intros X. apply Nj. assert (forall l, concat (map (fun j => kept j) l) = [] -> In j l -> kept j = []) as G0.
      { induction l as [|x l IH]; intros X0 I0; [destruct I0|]. cbn [map concat] in X0. apply app_eq_nil in X0 as [X1 X2]. destruct I0 as [->|I0]; auto. } exact (G0 q X Hj). }
    rewrite Hall in L. destruct L as (os & -> & Hos). f_equal. apply map_ext_in. intros r Ir. apply in_zrange in Ir. destruct (Hos r Ir) as [L1 _]. change (lft nr d cf r) with (left r) in *. rewrite plain_counts in * by auto.
    assert (os r = []) as ->. { pose proof (zlen_nonneg (left r)). destruct (os r) as [|x o]; [reflexivity|]. rewrite zlen_cons in L1. pose proof (zlen_nonneg o). lia. }
    rewrite app_nil_r.
    assert (forall (g : edge E -> Z), maxl (concat (map (fun r => map (fun i => maxl (map g (kept i))) (read_by nr d r)) (zrange 0 nr))) = maxl (map g all)) as Hm.
    { intros g. unfold all. rewrite (maxl_concat wide), map_map. rewrite concat_map, (maxl_concat wide), !map_map. f_equal. apply map_ext. intros r'. unfold left_lines. rewrite concat_map, (maxl_concat wide), !map_map. reflexivity. }
    rewrite <- !Hm. unfold mall, nall, FileCutText.tsr. f_equal.
    - f_equal. f_equal. apply map_ext. intros r'. rewrite map_map. apply map_ext. intros i. unfold cm. rewrite Hh. reflexivity.
    - f_equal. f_equal. apply map_ext. intros r'. rewrite map_map. apply map_ext. intros i. unfold cn. rewrite Hh. reflexivity.
  Qed.
  Lemma text_overflow r p i q : header fm = false -> 0 <= r < nr -> zlen (left r) < 2 ^ 31 ->
    read_by nr d r = p ++ i :: q -> has_digit (T i) -> (forall j, In j q -> kept j = []) -> load_edgelist w wide fuel fm nr d = Err OOB.
  Proof.
    intros Hh Hr Ht Eq Hti Hq. pose proof load_text' as L0.
    assert (concat (map (fun j => kept j) q) = []) as Hq' by (clear Eq; induction q as [|j q IH]; [reflexivity|]; cbn [map concat]; rewrite (Hq j) by (left; auto); apply IH; intros; apply Hq; right; auto).
    pose proof (room_past p i q Hti Hq') as L. rewrite <- Eq in L. fold (left r) in L. fold (tsr r) in L.
    destruct (forallb _ (zrange 0 nr)) eqn:Eb; [|exact L0]. exfalso. rewrite forallb_forall in Eb. specialize (Eb r ltac:(apply in_zrange; lia)). apply Z.leb_le in Eb. rewrite plain_counts in Eb by auto. pose proof (zlen_nonneg (left r)). lia.
  Qed.
End TCl.

Lemma whole_headers {E} (w : wtype E) fm d F C T : holds_text_cut w fm d F C T -> holds_header_cut w fm d F C T (fun _ => None).
Proof. intros H i b Hi Hb. destruct (H i b Hi Hb) as (A & B & X). auto. Qed.
Lemma text_after_header {E} (w : wtype E) wide fm fuel nr d F C T : binary fm = false -> header fm = true -> cuttable_files w fm d F ->
  1 <= nr -> holds_text_cut w fm d F C T -> enough fuel d F -> (forall i, ef_count (F i) = zlen (ef_edges (F i))) ->
  (forall r, 0 <= r < nr -> zlen (concat (map (fun i => ef_edges (F i)) (read_by nr d r))) < 2 ^ 31) ->
  exists els, load_edgelist w wide fuel fm nr d = Ok els /\ zlen els = nr /\ forall r, 0 <= r < nr ->
    exists el rest, rd els r = Ok el /\ el_nnz el = zlen (concat (map (fun i => ef_edges (F i)) (read_by nr d r))) /\
      el_m el = maxl (concat (map (fun r => map (fun i => ef_m (F i)) (read_by nr d r)) (zrange 0 nr))) /\
      el_n el = maxl (concat (map (fun r => map (fun i => ef_n (F i)) (read_by nr d r)) (zrange 0 nr))) /\
      el_arr el = map Some (map (back w fm) (left_lines nr d F C r)) ++ rest /\
      zlen rest = el_nnz el - zlen (left_lines nr d F C r) /\ Forall (fun x => x = None) (tl rest).
Proof.
  intros Hb Hh Hw Hn Hd Hf Hc Ht.
  assert (forall r, fold_right Z.add 0 (map (announced F (fun _ => None)) (read_by nr d r)) = zlen (concat (map (fun i => ef_edges (F i)) (read_by nr d r)))) as Hs.
  { intros r. rewrite <- zlen_sum. f_equal. apply map_ext. intros i. apply Hc. }
  destruct (text_with_header w wide fm Hb fuel nr d F C T (fun _ => None) Hw Hn (whole_headers w fm d F C T Hd) (fun _ _ => eq_refl) (fun _ => Hc) Hf Hh) as (els & E1 & E2 & E3).
  { intros r Hr. rewrite Hs. auto. }
  exists els. split; [exact E1|]. split; [exact E2|]. intros r Hr. destruct (E3 r Hr) as (el & rest & A & B & X). exists el, rest. rewrite <- Hs. auto.
Qed.

(** *** a text header cut before its third number *)
Section Short.
  Context {E : Type}.
  Variables (w : wtype E) (wide : Z -> Z) (fm : fmt).
  Hypothesis Htx : binary fm = false.
  Hypothesis Hh : header fm = true.
  Lemma get_any fuel b : (exists q, get_maxid_and_nnz w wide fuel fm b = Ok q) \/ get_maxid_and_nnz w wide fuel fm b = Err AssertFail.
  Proof.
    unfold get_maxid_and_nnz. rewrite Hh. unfold read_header. rewrite Htx. destruct (scan_d wide b) as [[m|] f1]; [|right; reflexivity]. destruct (scan_d wide f1) as [[n|] f2]; [|right; reflexivity]. destruct (scan_num f2) as [[z|] f3]; [left; eexists; reflexivity|right; reflexivity].
  Qed.
  Lemma get_cut_header fuel m n t y : is_int m -> is_int n -> print_d m ++ [32] ++ print_d n ++ [32] = t ++ y -> get_maxid_and_nnz w wide fuel fm (f_open t) = Err AssertFail.
  Proof.
    intros Im In_ Ht. unfold get_maxid_and_nnz. rewrite Hh. unfold read_header. rewrite Htx. unfold f_open.
    assert (forall x l, print_d x = t ++ l -> (let '(m, f) := scan_d wide (mkS t false) in match m with None => Err AssertFail | Some m => let '(n, f) := scan_d wide f in match n with None => Err AssertFail | Some n => let '(z, f) := scan_num f in match z with None => Err AssertFail | Some z => Ok (m, n, i32 (as_u wide z), f) end end end) = Err AssertFail (A := Z * Z * Z * stream)) as H0.
    { intros x l Hx. destruct (scan_prefix [] (print_d x) t l false (print_d_numeral x) Hx eq_refl) as (o & Eo & _). cbn [app] in Eo. unfold scan_d at 1. rewrite Eo. destruct o; reflexivity. }
    apply app_eq_app in Ht as (l & [[H1 H2]|[H1 H2]]).
    { rewrite (H0 m l H1). reflexivity. }
    destruct l as [|c l]. { rewrite app_nil_r in H1. rewrite (H0 m []) by (rewrite app_nil_r; auto). reflexivity. }
    injection H2 as <- H2. rewrite H1. pose proof (scan_d_sp wide [] m l eq_refl Im) as Es. cbn [app] in Es. rewrite Es.
    assert (forall l', print_d n = l ++ l' -> exists o, scan_d wide (mkS (32 :: l) false) = (o, mkS [] true)) as Hl.
    { intros l' Hl. destruct (scan_prefix [32] (print_d n) l l' false (print_d_numeral n) Hl eq_refl) as (o & Eo & _). unfold scan_d. cbn [app] in Eo. rewrite Eo. destruct o; eauto. }
    apply app_eq_app in H2 as (l2 & [[G1 G2]|[G1 G2]]).
    { destruct (Hl l2 G1) as (o & ->). destruct o; reflexivity. }
    destruct l2 as [|c l2]. { rewrite app_nil_r in G1. destruct (Hl [] ltac:(rewrite app_nil_r; auto)) as (o & ->). destruct o; reflexivity. }
    injection G2 as <- G2. symmetry in G2. apply app_eq_nil in G2 as [-> _]. subst l. rewrite (scan_d_sp' wide n [] In_). reflexivity.
  Qed.
  Lemma text_short fuel nr d r i t m n y : 1 <= nr -> (length d < fuel)%nat -> 0 <= r < nr -> In i (read_by nr d r) -> file_at d i = Some t ->
    is_int m -> is_int n -> print_d m ++ [32] ++ print_d n ++ [32] = t ++ y -> load_edgelist w wide fuel fm nr d = Err AssertFail.
  Proof.
    intros Hn Hf Hr Hi Hb Im In_ Ht. unfold load_edgelist. rewrite (mapR_map _ (fun r => map (bytes_at d) (read_by nr d r))).
    2:{ intros r' Ir. apply in_zrange in Ir. rewrite (opened_eq nr d Hn (length d)); [reflexivity|lia| |auto]. unfold zlen. pose proof (Zle_0_nat (length d)). nia. }
    cbn [bind]. rewrite mapR_map_dom.
    set (stp := fun (st : Z * Z * Z) b => let '(m, n, z) := st in do q <- get_maxid_and_nnz w wide fuel fm (f_open b) ;; let '(m_, n_, z_) := q in Ok (Z.max m_ m, Z.max n_ n, i32 (z + z_))).
    assert (forall bs st, (exists q, foldR stp bs st = Ok q) \/ foldR stp bs st = Err AssertFail) as G.
    { induction bs as [|b bs IH]; intros st; [left; eexists; reflexivity|]. cbn [foldR]. assert ((exists q, stp st b = Ok q) \/ stp st b = Err AssertFail) as [(q & ->)| ->]; [|cbn [bind]; apply IH|right; reflexivity]. destruct st as [[a0 b0] c0]. unfold stp. destruct (get_any fuel (f_open b)) as [([[m1 n1] z1] & ->)| ->]; [left; eexists; reflexivity|right; reflexivity]. }
    assert (pass1 w wide fuel fm (map (bytes_at d) (read_by nr d r)) = Err AssertFail) as Er.
    { unfold pass1. fold stp. generalize (0, 0, 0). assert (In t (map (bytes_at d) (read_by nr d r))) as It by (apply in_map_iff; exists i; split; [unfold bytes_at; rewrite Hb; reflexivity|exact Hi]).
      induction (map (bytes_at d) (read_by nr d r)) as [|b bs IH]; intros [[a0 b0] c0]; [destruct It|]. cbn [foldR]. unfold stp at 1. destruct It as [->|It]; [rewrite (get_cut_header fuel m n t y) by auto; reflexivity|]. destruct (get_any fuel (f_open b)) as [([[m1 n1] z1] & ->)| ->]; [cbn [bind]; apply IH; auto|reflexivity]. }
    assert (In r (zrange 0 nr)) as Ir by (apply in_zrange; lia).
    match goal with |- (do ps <- ?m ;; _) = _ => assert (m = Err AssertFail) as -> end; [|reflexivity].
    induction (zrange 0 nr) as [|x l IH]; [destruct Ir|]. cbn [mapR]. unfold pass1 at 1. fold stp. destruct (G (map (bytes_at d) (read_by nr d x)) (0, 0, 0)) as [(q & Eq)|Eq].
    - rewrite Eq. cbn [bind]. destruct Ir as [->|Ir]; [unfold pass1 in Er; fold stp in Er; rewrite Eq in Er; discriminate|]. rewrite IH; auto.
    - rewrite Eq. reflexivity.
  Qed.
End Short.
