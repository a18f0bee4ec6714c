(** The claims about files cut short. *)
From Verif Require Import Base BaseLemmas ListLemmas BitsProofs Segment DCSC EdgeList EdgeSpec GraphProofs Apps FileIO FileSpec FileProofs FileFinal FileClaims FileCutSpec FileCut.

Lemma F2_rd {A B} (Q : A -> B -> Prop) l l' i a : Forall2 Q l l' -> rd l i = Ok a -> exists b, rd l' i = Ok b /\ Q a b.
Proof.
  intros H. unfold rd. destruct (i <? 0); [discriminate|]. generalize (Z.to_nat i). induction H as [|x y l l' Hx H IH]; intros [|n] E; cbn in *; try discriminate; [injection E as <-; eauto|apply IH; auto].
Qed.
Section CC.
  Context {E : Type}.
  Variables (w : wtype E) (wide : Z -> Z) (fm : fmt).
  Hypothesis Hbin : binary fm = true.
  Variables (fuel : nat) (nr : Z) (d : dirt) (F : Z -> efile E) (K : Z -> Z).
  Hypothesis Hn : 1 <= nr.
  Hypothesis Hd : holds_cut w fm d F K.
  Hypothesis Hf : enough fuel d F.

  Lemma zlen_sum {A} (f : Z -> list A) l : fold_right Z.add 0 (map (fun i => zlen (f i)) l) = zlen (concat (map f l)).
  Proof. induction l as [|i l IH]; [reflexivity|]. cbn [map fold_right concat]. rewrite zlen_app, IH. reflexivity. Qed.
  Lemma whole_le i : zlen (whole w fm (F i) (K i)) <= zlen (ef_edges (F i)).
  Proof. unfold whole, zlen. rewrite firstn_length. lia. Qed.
  Lemma left_le r : zlen (left_over w fm nr d F K r) <= zlen (concat (map (fun i => ef_edges (F i)) (read_by nr d r))).
  Proof. unfold left_over. induction (read_by nr d r) as [|i l IH]; [cbn; lia|]. cbn [map concat]. rewrite !zlen_app. pose proof (whole_le i). lia. Qed.

  Lemma with_header : header fm = true -> (forall i, ef_count (F i) = zlen (ef_edges (F i))) ->
    (forall r i, 0 <= r < nr -> In i (read_by nr d r) -> 12 <= K i) ->
    (forall r, 0 <= r < nr -> zlen (concat (map (fun i => ef_edges (F i)) (read_by nr d r))) < 2 ^ 31) ->
    exists els, load_edgelist w wide fuel fm nr d = Ok els /\ zlen els = nr /\ forall r, 0 <= r < nr ->
      exists el, rd els r = Ok el /\ el_nnz el = zlen (concat (map (fun i => ef_edges (F i)) (read_by nr d r))) /\
        el_m el = maxl (concat (map (fun r => map (fun i => ef_m (F i)) (read_by nr d r)) (zrange 0 nr))) /\
        el_n el = maxl (concat (map (fun r => map (fun i => ef_n (F i)) (read_by nr d r)) (zrange 0 nr))) /\
        el_arr el = map Some (map (back w fm) (left_over w fm nr d F K r)) ++
          repeat None (Z.to_nat (zlen (concat (map (fun i => ef_edges (F i)) (read_by nr d r))) - zlen (left_over w fm nr d F K r))).
  Proof.
    intros Hh Hc HK Ht. assert (head_size fm = 12) as Eh by (unfold head_size; rewrite Hh; reflexivity).
    assert (forall r, 0 <= r < nr -> gcount w fm (fsr nr d F K r) = zlen (concat (map (fun i => ef_edges (F i)) (read_by nr d r)))) as Hg.
    { intros r Hr. unfold gcount, fsr. rewrite map_map. cbn [fst snd]. rewrite (map_ext _ (fun i => zlen (ef_edges (F i)))) by (intros i; unfold cut_count; rewrite Hh; apply Hc). rewrite zlen_sum. apply i32_id. unfold is_int. pose proof (zlen_nonneg (concat (map (fun i => ef_edges (F i)) (read_by nr d r)))). pose proof (Ht r Hr). lia. }
    rewrite (load_cut w wide fm Hbin fuel nr d F K Hn Hd Hf) by (rewrite Eh; auto).
    assert (forallb (fun r => room (pairs w fm (fsr nr d F K r)) <=? Z.max 0 (gcount w fm (fsr nr d F K r))) (zrange 0 nr) = true) as ->.
    { apply forallb_forall. intros r Ir. apply in_zrange in Ir. apply Z.leb_le. rewrite Hg by auto. etransitivity; [|apply Z.le_max_r]. unfold fsr.
      eapply room_header; eauto. intros i Hi. pose proof (HK r i Ir Hi). apply (read_by_in) in Hi as [Bi [b Hb]]; auto; try lia. destruct (Hd i b ltac:(lia) Hb) as (H1 & H2 & _). split; [split; auto|]. lia. }
    eexists. split; [reflexivity|]. split; [unfold zlen; rewrite map_length; pose proof (zlen_zrange 0 nr ltac:(lia)); unfold zlen in *; lia|].
    intros r Hr. exists (res w fm nr d F K r). split; [rewrite <- (Z.add_0_l r) at 2; apply rd_map, rd_zrange; lia|]. unfold res. cbn [el_arr el_m el_n el_nnz]. rewrite Hg by auto. split; [reflexivity|]. unfold cut_m, cut_n. rewrite Hh. auto.
  Qed.

  Lemma no_header_counts r : header fm = false -> zlen (left_over w fm nr d F K r) < 2 ^ 31 -> gcount w fm (fsr nr d F K r) = zlen (left_over w fm nr d F K r).
  Proof.
    intros Hh Ht. unfold gcount, fsr. rewrite map_map. cbn [fst snd]. rewrite (map_ext _ (fun i => zlen (whole w fm (F i) (K i)))) by (intros i; unfold cut_count; rewrite Hh; reflexivity). rewrite zlen_sum. fold (left_over w fm nr d F K r). apply i32_id. unfold is_int. pose proof (zlen_nonneg (left_over w fm nr d F K r)). lia.
  Qed.
  Lemma no_header_K r i : header fm = false -> 0 <= r < nr -> In i (read_by nr d r) -> head_size fm <= K i.
  Proof. intros Hh Hr Hi. apply read_by_in in Hi as [Bi [b Hb]]; auto; try lia. destruct (Hd i b ltac:(lia) Hb) as (_ & H2 & _). unfold head_size. rewrite Hh. lia. Qed.

  Lemma without_header : header fm = false ->
    (forall r, 0 <= r < nr -> zlen (left_over w fm nr d F K r) < 2 ^ 31) ->
    (forall r p i q, 0 <= r < nr -> read_by nr d r = p ++ i :: q -> torn w fm (K i) -> exists j, In j q /\ whole w fm (F j) (K j) <> []) ->
    let all := concat (map (fun r => left_over w fm nr d F K r) (zrange 0 nr)) in
    load_edgelist w wide fuel fm nr d =
      Ok (map (fun r => mkEL (map Some (map (back w fm) (left_over w fm nr d F K r))) (maxl (map (@e_src E) all)) (maxl (map (@e_dst E) all)) (zlen (left_over w fm nr d F K r))) (zrange 0 nr)).
  Proof.
    intros Hh Ht Hto all. rewrite (load_cut w wide fm Hbin fuel nr d F K Hn Hd Hf) by (intros; eapply no_header_K; eauto).
    assert (forallb (fun r => room (pairs w fm (fsr nr d F K r)) <=? Z.max 0 (gcount w fm (fsr nr d F K r))) (zrange 0 nr) = true) as ->.
    { apply forallb_forall. intros r Ir. apply in_zrange in Ir. apply Z.leb_le. rewrite no_header_counts by auto. etransitivity; [|apply Z.le_max_r]. unfold fsr. rewrite (room_plain w wide fm F K); [unfold left_over; lia|].
      intros p i q Eq Hti. destruct (Hto r p i q Ir Eq Hti) as (j & Hj & Nj). intros X. apply Nj. assert (forall l, concat (map (fun j => whole w fm (F j) (K j)) l) = [] -> In j l -> whole w fm (F j) (K j) = []) as G.
      { induction l as [|x l IH]; intros X0 I0; [destruct I0|]. cbn [map concat] in X0. apply app_eq_nil in X0 as [X1 X2]. destruct I0 as [->|I0]; auto. } exact (G q X Hj). }
    f_equal. apply map_ext_in. intros r Ir. apply in_zrange in Ir. unfold res. rewrite no_header_counts by auto. rewrite Z.sub_diag. cbn [Z.to_nat repeat]. rewrite app_nil_r.
    assert (forall (g : edge E -> Z), maxl (concat (map (fun r => map (fun i => maxl (map g (whole w fm (F i) (K i)))) (read_by nr d r)) (zrange 0 nr))) = maxl (map g all)) as Hm.
    { intros g. unfold all. rewrite (maxl_concat wide), map_map. rewrite concat_map, (maxl_concat wide), !map_map. f_equal. apply map_ext. intros r'. unfold left_over. rewrite concat_map, (maxl_concat wide), !map_map. reflexivity. }
    unfold cut_m, cut_n. rewrite Hh. rewrite !Hm. reflexivity.
  Qed.

  Lemma overflow r p i q : header fm = false -> 0 <= r < nr -> zlen (left_over w fm nr d F K r) < 2 ^ 31 ->
    read_by nr d r = p ++ i :: q -> torn w fm (K i) -> (forall j, In j q -> whole w fm (F j) (K j) = []) -> load_edgelist w wide fuel fm nr d = Err OOB.
  Proof.
    intros Hh Hr Ht Eq Hti Hq. rewrite (load_cut w wide fm Hbin fuel nr d F K Hn Hd Hf) by (intros; eapply no_header_K; eauto).
    assert (concat (map (fun j => whole w fm (F j) (K j)) q) = []) as Hq' by (clear Eq; induction q as [|j q IH]; [reflexivity|]; cbn [map concat]; rewrite (Hq j) by (left; auto); apply IH; intros; apply Hq; right; auto).
    pose proof (room_overflow w wide fm F K p i q Hti Hq') as L. rewrite <- Eq in L. fold (left_over w fm nr d F K r) in L. fold (fsr nr d F K r) in L.
    destruct (forallb _ (zrange 0 nr)) eqn:Eb; [|reflexivity]. exfalso. rewrite forallb_forall in Eb. specialize (Eb r ltac:(apply in_zrange; lia)). apply Z.leb_le in Eb. rewrite no_header_counts in Eb by auto. pose proof (zlen_nonneg (left_over w fm nr d F K r)). lia.
  Qed.
End CC.

Lemma cut_of_write {E} (w : wtype E) fm d els ls d' d'' K : Forall2 holds els ls ->
  (forall el, In el els -> is_int (el_m el) /\ is_int (el_n el)) -> edges_fit w fm (concat ls) -> zlen (concat ls) < 2 ^ 31 ->
  (forall i, 0 <= i -> file_at d i = None) -> write_edgelist w fm d els = Ok d' -> interrupted d' d'' K ->
  holds_cut w fm d'' (written_file els ls) K /\ forall i, ef_count (written_file els ls i) = zlen (ef_edges (written_file els ls i)).
Proof.
  intros H Hel He Hl H0 Hw Hi. destruct (write_exact w (fun z => z) fm d els ls H) as (d1 & E1 & E2). assert (d1 = d') as -> by congruence. split.
  - intros i b'' Bi Hb. destruct (Hi i b'' Bi Hb) as (b & Eb & Bk & ->). rewrite (E2 i Bi) in Eb. unfold written_file in *. destruct (rd els i) as [el|] eqn:Er; [|rewrite H0 in Eb by auto; discriminate]. destruct (rd ls i) as [l|] eqn:El; [|rewrite H0 in Eb by auto; discriminate].
    injection Eb as <-. unfold file_of in *. split; [|auto]. destruct (F2_rd _ _ _ _ _ H Er) as (l' & El' & Hh). assert (l' = l) as -> by congruence.
    destruct (Hel el (rd_In _ _ _ Er)) as [I1 I2]. split; [exact I1|]. split; [exact I2|]. cbn [ef_count ef_edges ef_newline]. split; [|split; [reflexivity|]].
    + destruct Hh as (En & _). rewrite En. pose proof (zlen_nonneg l). assert (zlen l <= zlen (concat ls)) by (apply zlen_in_concat, (rd_In _ _ _ El)). unfold is_int. lia.
    + intros e Ie. apply He. apply in_concat. exists l. split; [apply (rd_In _ _ _ El)|auto].
  - intros i. unfold written_file. destruct (rd els i) as [el|] eqn:Er; [|reflexivity]. destruct (rd ls i) as [l|] eqn:El; [|reflexivity]. cbn [ef_count ef_edges]. destruct (F2_rd _ _ _ _ _ H Er) as (l' & El' & Hh). assert (l' = l) as -> by congruence. destruct Hh as (En & _). exact En.
Qed.

(** *** text: the last digit is missing *)
Lemma dec_digits_fuel k : forall n, 0 <= n < 10 ^ Z.of_nat (S k) -> dec_digits (S (S k)) n = dec_digits (S k) n.
Proof.
  induction k as [|k IH]; intros n B.
  - change (10 ^ Z.of_nat 1) with 10 in B. cbn [dec_digits]. rewrite Z.div_small by lia. reflexivity.
  - change (dec_digits (S (S (S k))) n) with ((if n / 10 =? 0 then [] else dec_digits (S (S k)) (n / 10)) ++ [48 + n mod 10]).
    change (dec_digits (S (S k)) n) with ((if n / 10 =? 0 then [] else dec_digits (S k) (n / 10)) ++ [48 + n mod 10]). rewrite IH; [reflexivity|].
    rewrite (Nat2Z.inj_succ (S k)), Z.pow_succ_r in B by lia. split; [apply Z.div_pos; lia|apply Z.div_lt_upper_bound; lia].
Qed.
Lemma print_d_last v : 10 <= v < 2 ^ 31 -> print_d v = print_d (v / 10) ++ [48 + v mod 10].
Proof.
  intros B. assert (1 <= v / 10) as L by (apply Z.div_le_lower_bound; lia). assert (v / 10 < 10 ^ 9) by (apply Z.div_lt_upper_bound; lia).
  unfold print_d. destruct (Z.ltb_spec v 0); [lia|]. destruct (Z.ltb_spec (v / 10) 0); [lia|]. rewrite (dec_digits_fuel 8 (v / 10)) by (split; [lia|exact H]).
  change (dec_digits 10 v) with ((if v / 10 =? 0 then [] else dec_digits 9 (v / 10)) ++ [48 + v mod 10]). destruct (Z.eqb_spec (v / 10) 0); [lia|]. reflexivity.
Qed.
Lemma text_digit wide fuel m n l s t v : is_int m -> is_int n -> edges_fit (w_int wide) (mkFmt false true true) (l ++ [mkE s t v]) -> 10 <= v < 2 ^ 31 -> zlen l + 1 < 2 ^ 31 -> (length l + 1 < fuel)%nat ->
  let b := content (w_int wide) (mkFmt false true true) (mkEF m n (zlen l + 1) (l ++ [mkE s t v]) true) in
  load_edgelist (w_int wide) wide fuel (mkFmt false true true) 1 [Some (removelast (removelast b))] =
    Ok [mkEL (map Some (l ++ [mkE s t (v / 10)])) (Z.max m 0) (Z.max n 0) (zlen l + 1)].
Proof.
  intros Im In_ He Bv Bl Hf b. set (fm := mkFmt false true true) in *. set (w := w_int wide) in *. set (F := mkEF m n (zlen l + 1) (l ++ [mkE s t (v / 10)]) false).
  assert (1 <= v / 10 /\ v / 10 < v) as Bd by (split; [apply Z.div_le_lower_bound; lia|apply Z.div_lt; lia]).
  assert (removelast (removelast b) = content w fm F) as Eb.
  { unfold b, F, content. cbn [ef_m ef_n ef_count ef_edges ef_newline]. rewrite !map_app, !concat_app. cbn [map concat]. rewrite !app_nil_r. assert (forall x, line w fm (mkE s t x) = print_d s ++ [32] ++ print_d t ++ [32] ++ print_d x ++ [10]) as El by reflexivity. rewrite !El, (print_d_last v Bv).
    set (h := header_bytes fm m n (zlen l + 1)). set (c := concat (map (line w fm) l)).
    assert (h ++ c ++ print_d s ++ [32] ++ print_d t ++ [32] ++ (print_d (v / 10) ++ [48 + v mod 10]) ++ [10] = ((h ++ c ++ print_d s ++ [32] ++ print_d t ++ [32] ++ print_d (v / 10)) ++ [48 + v mod 10]) ++ [10]) as -> by (rewrite <- !app_assoc; reflexivity).
    rewrite removelast_last, removelast_last.
    assert (h ++ c ++ print_d s ++ [32] ++ print_d t ++ [32] ++ print_d (v / 10) ++ [10] = (h ++ c ++ print_d s ++ [32] ++ print_d t ++ [32] ++ print_d (v / 10)) ++ [10]) as -> by (rewrite <- !app_assoc; reflexivity).
    rewrite removelast_last. reflexivity. }
  rewrite Eb. pose proof (zlen_nonneg l) as Nl.
  assert (holds_files w fm [Some (content w fm F)] (fun _ => F)) as HF.
  { intros i x Hi Hx. unfold file_at in Hx. destruct (Z.to_nat i) as [|k]; cbn in Hx; [|destruct k; discriminate]. injection Hx as <-. split; [reflexivity|]. split; [exact Im|]. split; [exact In_|]. split; [cbn [ef_count F]; unfold is_int; lia|]. split; [discriminate|].
    cbn [ef_edges F]. intros e Ie. apply in_app_or in Ie as [Ie|[<-|[]]]; [apply He, in_or_app; auto|]. destruct (He (mkE s t v) ltac:(apply in_or_app; right; left; reflexivity)) as (H1 & H2 & _). split; [exact H1|]. split; [exact H2|]. apply w_int_ok. unfold is_int. cbn [e_val]. lia. }
  pose proof (load_exact w wide fm fuel 1 [Some (content w fm F)] (fun _ => F) ltac:(intros _ _; discriminate) ltac:(lia) HF) as L. cbn zeta in L.
  assert (read_by 1 [Some (content w fm F)] 0 = [0]) as Er by reflexivity.
  rewrite L by (split; [cbn [length]; lia|intros i _; cbn [ef_edges F]; rewrite app_length; cbn [length]; lia]). clear L.
  assert (i32 (zlen l + 1) = zlen l + 1) as Ei by (apply i32_id; unfold is_int; lia).
  assert (zrange 0 1 = [0]) as Ez by reflexivity. unfold loaded. rewrite Ez. cbn [forallb map]. rewrite Er. unfold kept, count, file_count, file_m, file_n, F. cbn [map forallb ef_newline orb ef_edges fold_right ef_count header fm ef_m ef_n concat app maxl]. rewrite !app_nil_r, Z.add_0_r, Ei.
  assert (zlen (l ++ [mkE s t (v / 10)]) = zlen l + 1) as -> by (rewrite zlen_app; reflexivity). destruct (Z.leb_spec (zlen l + 1) (Z.max 0 (zlen l + 1))); [|lia]. cbn [andb]. rewrite Z.sub_diag. cbn [Z.to_nat repeat]. rewrite app_nil_r.
  do 3 f_equal. f_equal. unfold back. cbn [weights fm]. apply map_id.
Qed.
