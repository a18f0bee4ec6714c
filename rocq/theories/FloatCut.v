(** Text files of float and double weights that were cut short: proofs. *)
From Coq Require Import ZArith SpecFloat QArith.
From Verif Require Import Base BaseLemmas ListLemmas DCSC EdgeList EdgeSpec Apps FileIO FileSpec FileProofs FileFinal FileCutSpec FileCutText Float32 Double64 FloatText FloatTextScan FloatTextSpec FloatTextProofs.
Local Open Scope Z_scope.

Lemma scan_f_end prec emax other s d1 r : (s = [] \/ s = [45]) -> forallb is_digit d1 = true -> (r = [] \/ exists d2, r = 46 :: d2 /\ forallb is_digit d2 = true) ->
  exists o, scan_f prec emax other (mkS (32 :: s ++ d1 ++ r) false) = (o, mkS [] true).
Proof.
  intros Hs Hd Hr. unfold scan_f. cbn [s_rest s_eof skip_ws]. change (is_space 32) with true. cbv iota.
  assert (A1 : span_digits (d1 ++ r) = (d1, r)) by (apply span_all; [exact Hd|]; destruct Hr as [->|(d2 & -> & _)]; [exact I|reflexivity]).
  assert (A2 : exists d2, match r with c :: r' => if c =? 46 then span_digits r' else ([], r) | [] => ([], []) end = (d2, [])).
  { destruct Hr as [->|(d2 & -> & Hd2)]; [eexists; reflexivity|]. change (46 =? 46) with true. cbv iota. exists d2. apply span_digits_all. exact Hd2. }
  destruct A2 as (d2 & A2).
  assert (A0 : exists neg, (let b := skip_ws (s ++ d1 ++ r) in match b with c :: r' => if c =? 45 then (true, r') else if c =? 43 then (false, r') else (false, b) | [] => (false, []) end) = (neg, d1 ++ r)).
  { destruct Hs as [-> | ->].
    - cbn [app]. destruct d1 as [|c d1].
      + cbn [app]. destruct Hr as [->|(d & -> & _)]; exists false; reflexivity.
      + cbn [app skip_ws]. cbn [forallb] in Hd. apply andb_true_iff in Hd as [Hc _]. destruct (digit_facts c Hc) as (F1 & F2 & F3). rewrite F1. cbv zeta. rewrite F2, F3. exists false. reflexivity.
    - cbn [app skip_ws]. change (is_space 45) with false. cbv zeta iota. change (45 =? 45) with true. exists true. reflexivity. }
  destruct A0 as (neg & A0). cbv zeta in A0. rewrite A0, A1, A2. cbn [at_end orb]. eexists. reflexivity.
Qed.
Lemma prefix_digits d x y : forallb is_digit d = true -> d = x ++ y -> forallb is_digit x = true.
Proof. intros H ->. rewrite forallb_app in H. apply andb_true_iff in H. apply H. Qed.
Lemma prefix_fixed s d1 d2 x y : (s = [] \/ s = [45]) -> forallb is_digit d1 = true -> forallb is_digit d2 = true -> s ++ d1 ++ [46] ++ d2 = x ++ y ->
  exists s' d1' r, x = s' ++ d1' ++ r /\ (s' = [] \/ s' = [45]) /\ forallb is_digit d1' = true /\ (r = [] \/ exists d2, r = 46 :: d2 /\ forallb is_digit d2 = true).
Proof.
  intros Hs H1 H2 E. apply app_eq_app in E as (l & [[E1 E2]|[E1 E2]]).
  - exists x, [], []. split; [rewrite !app_nil_r; reflexivity|]. split; [|split; [reflexivity|left; reflexivity]]. destruct Hs as [-> | ->]; [symmetry in E1; apply app_eq_nil in E1; left; apply E1|]. destruct x as [|c x]; [left; reflexivity|]. injection E1 as <- E1. symmetry in E1. apply app_eq_nil in E1 as [-> _]. right. reflexivity.
  - symmetry in E2. subst x. apply app_eq_app in E2 as (l2 & [[G1 G2]|[G1 G2]]).
    + (* l is longer than the whole part *) subst l. destruct l2 as [|c l2].
      * exists s, d1, []. rewrite !app_nil_r. split; [reflexivity|]. split; [exact Hs|]. split; [exact H1|]. left. reflexivity.
      * injection G2 as <- G2. exists s, d1, (46 :: l2). split; [reflexivity|]. split; [exact Hs|]. split; [exact H1|]. right. exists l2. split; [reflexivity|]. exact (prefix_digits d2 l2 y H2 G2).
    + exists s, l, []. rewrite app_nil_r. split; [reflexivity|]. split; [exact Hs|]. split; [exact (prefix_digits d1 l l2 H1 G1)|left; reflexivity].
Qed.
Lemma print_f_cut prec emax other k v x y : is_finite v -> print_f k v = x ++ y -> exists o, scan_f prec emax other (mkS (32 :: x) false) = (o, mkS [] true).
Proof.
  intros Hv E. assert (exists s n, 0 <= n /\ (s = [] \/ s = [45]) /\ print_f k v = s ++ print_fixed k n) as (s & n & Hn & Hs & Ep).
  { destruct v as [s|s| |s m e]; try destruct Hv; exists (if s then [45] else []).
    - exists 0. split; [lia|]. split; [destruct s; auto|reflexivity].
    - exists (scaled k (Zpos m) e). split; [apply scaled_nonneg; lia|]. split; [destruct s; auto|reflexivity]. }
  rewrite Ep in E. unfold print_fixed in E. assert (D : 0 <= n / 10 ^ Z.of_nat k) by (apply Z.div_pos; [exact Hn|apply Z.pow_pos_nonneg; lia]).
  destruct (prefix_fixed s _ _ x y Hs (dec_digits_digit _ _ D) (last_digits_digit k n) E) as (s' & d1 & r & -> & A & B & C).
  apply scan_f_end; auto.
Qed.
Lemma float_cuttable other v : finite32 v -> cuttable (w_float other) v.
Proof. intros [_ H]. do 2 eexists. split; [reflexivity|]. split; [reflexivity|]. intros x y E. eapply print_f_cut; [|exact E]. exact H. Qed.
Lemma double_cuttable other v : finite64 v -> cuttable (w_double other) v.
Proof. intros [_ H]. do 2 eexists. split; [reflexivity|]. split; [reflexivity|]. intros x y E. eapply print_f_cut; [|exact E]. exact H. Qed.

Definition reweighed (f : spec_float -> spec_float) (F : efile spec_float) : efile spec_float := mkEF (ef_m F) (ef_n F) (ef_count F) (map (reweigh f) (ef_edges F)) (ef_newline F).
Section Files.
  Variables (w : wtype spec_float) (fm : fmt) (f : spec_float -> spec_float) (fin : spec_float -> Prop) (pr : spec_float -> list Z) (sc : stream -> option spec_float * stream).
  Hypothesis Hb : binary fm = false.
  Hypothesis Hw : weights fm = true.
  Hypothesis Ht : w_text w = Some (pr, sc).
  Hypothesis Hpr : forall v, fin v -> pr (f v) = pr v.
  Hypothesis Hok : forall v, fin v -> weight_ok w fm (f v).
  Hypothesis Hfin : forall v, fin v -> fin (f v).
  Hypothesis Hcut : forall v, fin v -> cuttable w v.
  Lemma float_file F : is_int (ef_m F) -> is_int (ef_n F) -> is_int (ef_count F) -> (forall e, In e (ef_edges F) -> is_int (e_src e) /\ is_int (e_dst e) /\ fin (e_val e)) ->
    content w fm (reweighed f F) = content w fm F /\ fits w fm (reweighed f F) /\ forall e, In e (ef_edges (reweighed f F)) -> cuttable w (e_val e).
  Proof.
    intros Im In_ Ic He. split; [|split].
    - unfold content. cbn [reweighed ef_m ef_n ef_count ef_edges ef_newline]. rewrite (reweigh_lines w fm f fin pr sc Hb Hw Ht Hpr) by (intros e Ie; apply He; exact Ie). reflexivity.
    - split; [exact Im|]. split; [exact In_|]. split; [exact Ic|]. split; [congruence|]. cbn [reweighed ef_edges]. intros e Ie. apply in_map_iff in Ie as (e0 & <- & Ie). destruct (He e0 Ie) as (A & B & C). cbn [reweigh e_src e_dst e_val]. auto.
    - cbn [reweighed ef_edges]. intros e Ie. apply in_map_iff in Ie as (e0 & <- & Ie). destruct (He e0 Ie) as (A & B & C). cbn [reweigh e_val]. auto.
  Qed.
End Files.
