(** Edge files of float and double weights: lemmas behind PropsFloatText.v. *)
From Verif Require Import Base BaseLemmas ListLemmas DCSC EdgeList EdgeSpec Apps FileIO FileSpec FileProofs FileFinal Float32 Float32Proofs Double64 FloatText FloatTextScan FloatTextReal FloatTextSpec.
From Coq Require Import ZArith SpecFloat QArith Qabs Qreals Reals RMicromega Lra Lia.
From Flocq Require Import Core BinarySingleNaN.
Local Open Scope Z_scope.

(** ** Bytes *)
Lemma le_round n : forall z, 0 <= z < 256 ^ Z.of_nat n -> le_val (le_bytes n z) = z.
Proof.
  induction n as [|n IH]; intros z B; [cbn in *; lia|]. cbn [le_bytes le_val]. rewrite IH; [pose proof (Z.div_mod z 256 ltac:(lia)); lia|].
  rewrite Nat2Z.inj_succ, Z.pow_succ_r in B by lia. split; [apply Z.div_pos; lia|apply Z.div_lt_upper_bound; lia].
Qed.
Lemma le_length n : forall z, length (le_bytes n z) = n.
Proof. induction n as [|n IH]; intros z; [reflexivity|]. cbn. rewrite IH. reflexivity. Qed.

Section Bits.
  Variables prec emax : Z.
  Hypothesis Hp : 2 <= prec.
  Hypothesis Hpe : prec < emax.
  Notation em := (FloatText.emin prec emax).
  Lemma valid_cases m e : SpecFloat.bounded prec emax m e = true ->
    (Zpos m < 2 ^ (prec - 1) /\ e = em) \/ (2 ^ (prec - 1) <= Zpos m < 2 ^ prec /\ em <= e <= emax - prec).
  Proof using Hp Hpe.
    unfold SpecFloat.bounded, SpecFloat.canonical_mantissa. intros H. apply andb_prop in H as [H1 H2]. apply Zeq_bool_eq in H1. apply Z.leb_le in H2.
    rewrite Digits.Zpos_digits2_pos in H1. pose proof (Digits.Zdigits_correct radix2 (Zpos m)) as [D1 D2]. set (dg := Digits.Zdigits radix2 (Zpos m)) in *.
    change (radix_val radix2) with 2 in *. rewrite Z.abs_eq in D1, D2 by lia. unfold SpecFloat.fexp, SpecFloat.emin in H1. unfold FloatText.emin.
    destruct (Z.lt_ge_cases dg prec) as [L|L].
    - left. assert (Zpos m < 2 ^ (prec - 1)). { eapply Z.lt_le_trans; [exact D2|]. apply Z.pow_le_mono_r; lia. } split; [assumption|]. lia.
    - right. assert (dg = prec) by lia. split; [|lia]. rewrite H in D1, D2. split; assumption.
  Qed.
  Notation P := (2 ^ (prec - 1)).
  Lemma P_facts : 2 <= P /\ 2 ^ prec = 2 * P /\ 2 ^ (prec - 2) * 2 = P /\ 1 <= 2 ^ (prec - 2).
  Proof using Hp.
    assert (E : P = 2 * 2 ^ (prec - 2)) by (replace (prec - 1) with (Z.succ (prec - 2)) by lia; apply Z.pow_succ_r; lia). assert (1 <= 2 ^ (prec - 2)) by (pose proof (Z.pow_pos_nonneg 2 (prec - 2)); lia).
    assert (2 ^ prec = 2 * P) by (replace prec with (Z.succ (prec - 1)) at 1 by lia; apply Z.pow_succ_r; lia). lia.
  Qed.
  (** sign, exponent and mantissa of a word *)
  Lemma unbits_parts (s : bool) b m : 0 <= b < 2 * emax -> 0 <= m < P ->
    f_unbits prec emax ((if s then 2 * emax * P else 0) + b * P + m) =
    if b =? 2 * emax - 1 then (if m =? 0 then S754_infinity s else S754_nan)
    else if b =? 0 then (match m with Zpos p => S754_finite s p em | _ => S754_zero s end)
    else match m + P with Zpos p => S754_finite s p (b + em - 1) | _ => S754_nan end.
  Proof using Hp Hpe.
    intros Hb Hm. pose proof P_facts as (P1 & _). unfold f_unbits. set (h := (if s then 2 * emax else 0) + b).
    replace ((if s then 2 * emax * P else 0) + b * P + m) with (m + h * P) by (unfold h; destruct s; ring).
    rewrite Z_mod_plus_full, Z.div_add, (Z.mod_small m), (Z.div_small m) by lia. rewrite Z.add_0_l.
    assert (Es : (2 * emax <=? h) = s) by (unfold h; destruct s; [apply Z.leb_le|apply Z.leb_gt]; lia). rewrite Es.
    assert (Eb : h mod (2 * emax) = b). { unfold h. destruct s; [|rewrite Z.add_0_l; apply Z.mod_small; lia]. replace (2 * emax + b) with (b + 1 * (2 * emax)) by ring. rewrite Z_mod_plus_full. apply Z.mod_small. lia. }
    rewrite Eb. reflexivity.
  Qed.
  Lemma bits_parts x : valid_binary prec emax x = true -> exists (s : bool) b m, f_bits prec emax x = (if s then 2 * emax * P else 0) + b * P + m /\ 0 <= b < 2 * emax /\ 0 <= m < P /\
    x = if b =? 2 * emax - 1 then (if m =? 0 then S754_infinity s else S754_nan)
      else if b =? 0 then (match m with Zpos p => S754_finite s p em | _ => S754_zero s end)
      else match m + P with Zpos p => S754_finite s p (b + em - 1) | _ => S754_nan end.
  Proof using Hp Hpe.
    pose proof P_facts as (P1 & P2 & P3 & P4). destruct x as [s|s| |s m e]; intros V; cbn [f_bits].
    - exists s, 0, 0. split; [destruct s; ring|]. split; [lia|]. split; [lia|]. destruct (Z.eqb_spec 0 (2 * emax - 1)); [lia|reflexivity].
    - exists s, (2 * emax - 1), 0. split; [ring|]. split; [lia|]. split; [lia|]. rewrite Z.eqb_refl. reflexivity.
    - exists false, (2 * emax - 1), (2 ^ (prec - 2)). split; [ring|]. split; [lia|]. split; [lia|]. rewrite Z.eqb_refl. destruct (Z.eqb_spec (2 ^ (prec - 2)) 0); [lia|reflexivity].
    - apply valid_cases in V. destruct (Z.ltb_spec (Zpos m) P) as [L|L].
      + exists s, 0, (Zpos m). split; [ring|]. split; [lia|]. split; [lia|]. destruct (Z.eqb_spec 0 (2 * emax - 1)); [lia|]. cbn [Z.eqb]. destruct V as [[_ ->]|[V _]]; [reflexivity|lia].
      + destruct V as [[V _]|[V1 V2]]; [lia|]. exists s, (e - em + 1), (Zpos m - P). split; [ring|]. unfold FloatText.emin in *. split; [lia|]. split; [lia|].
        destruct (Z.eqb_spec (e - (3 - emax - prec) + 1) (2 * emax - 1)); [lia|]. destruct (Z.eqb_spec (e - (3 - emax - prec) + 1) 0); [lia|]. replace (Zpos m - P + P) with (Zpos m) by ring. f_equal. lia.
  Qed.
  Lemma bits_round x : valid_binary prec emax x = true -> f_unbits prec emax (f_bits prec emax x) = x /\ 0 <= f_bits prec emax x < 4 * emax * P.
  Proof using Hp Hpe.
    intros V. destruct (bits_parts x V) as (s & b & m & E & Hb & Hm & Ex). rewrite E. pose proof P_facts as (P1 & _). split; [rewrite unbits_parts by assumption; symmetry; exact Ex|]. destruct s; nia.
  Qed.
End Bits.

(** ** Instances *)
Section Instances.
  Variable other : stream -> option spec_float * stream.
  Notation f32 := (reread 24 128 8).
  Notation f64 := (reread 53 1024 15).
  Lemma h24 : Prec_gt_0 24. Proof. reflexivity. Qed.
  Lemma m24 : Prec_lt_emax 24 128. Proof. reflexivity. Qed.
  Lemma h53 : Prec_gt_0 53. Proof. reflexivity. Qed.
  Lemma m53 : Prec_lt_emax 53 1024. Proof. reflexivity. Qed.
  Local Open Scope R_scope.
  Lemma c8 : / ten 8 < bpow radix2 (-26).
  Proof. change (ten 8) with 100000000. change (bpow radix2 (-26)) with (/ 67108864). apply Rinv_lt_contravar; lra. Qed.
  Lemma t8 : exists n, bpow radix2 (-26 + 24 - 1) * ten 8 = IZR n.
  Proof. exists 12500000%Z. change (ten 8) with 100000000. change (bpow radix2 (-26 + 24 - 1)) with (/ 8). lra. Qed.
  Lemma e8 : bpow radix2 (-26 + 24 - 1) + / ten 8 < bpow radix2 128.
  Proof. apply Rlt_trans with (bpow radix2 1); [|apply bpow_lt; reflexivity]. change (ten 8) with 100000000. change (bpow radix2 (-26 + 24 - 1)) with (/ 8). change (bpow radix2 1) with 2. lra. Qed.
  Lemma c15 : / ten 15 < bpow radix2 (-49).
  Proof. change (ten 15) with 1000000000000000. change (bpow radix2 (-49)) with (/ 562949953421312). apply Rinv_lt_contravar; lra. Qed.
  Lemma t15 : exists n, bpow radix2 (-49 + 53 - 1) * ten 15 = IZR n.
  Proof. exists 8000000000000000%Z. change (ten 15) with 1000000000000000. change (bpow radix2 (-49 + 53 - 1)) with 8. lra. Qed.
  Lemma e15 : bpow radix2 (-49 + 53 - 1) + / ten 15 < bpow radix2 1024.
  Proof. apply Rlt_trans with (bpow radix2 4); [|apply bpow_lt; reflexivity]. change (ten 15) with 1000000000000000. change (bpow radix2 (-49 + 53 - 1)) with 8. change (bpow radix2 4) with 16. lra. Qed.

  Lemma Qabs_R q : Q2R (Qabs q) = Rabs (Q2R q).
  Proof.
    destruct (Qlt_le_dec q 0) as [L|L].
    - rewrite Qabs_neg by (apply Qlt_le_weak; exact L). rewrite Q2R_opp. apply Qlt_Rlt in L. rewrite RMicromega.Q2R_0 in L. rewrite Rabs_left by exact L. reflexivity.
    - rewrite Qabs_pos by exact L. apply Qle_Rle in L. rewrite RMicromega.Q2R_0 in L. rewrite Rabs_pos_eq by exact L. reflexivity.
  Qed.
  Lemma ten_Q k : Q2R (inject_Z (10 ^ Z.of_nat k)) = ten k.
  Proof. unfold Q2R, inject_Z, ten. cbn [Qnum Qden]. rewrite RMicromega.Rinv_1. ring. Qed.
  Lemma int_Q n : Q2R (inject_Z n) = IZR n.
  Proof. unfold Q2R, inject_Z. cbn [Qnum Qden]. rewrite RMicromega.Rinv_1. ring. Qed.
  Lemma signbit_sign (x : spec_float) : signbit x = sign_SF x. Proof. destruct x; reflexivity. Qed.

  Lemma through prec emax (Hp : Prec_gt_0 prec) (Hm : Prec_lt_emax prec emax) k c lim : / ten k < bpow radix2 c -> (exists n, bpow radix2 (c + prec - 1) * ten k = IZR n) ->
    bpow radix2 (c + prec - 1) + / ten k < bpow radix2 emax -> (SpecFloat.emin prec emax <= c)%Z -> Q2R lim = bpow radix2 (c + prec - 1) ->
    through_text (fok prec emax) (Z.of_nat k) lim (reread prec emax k).
  Proof.
    intros H1 H2 H3 H4 H5. pose proof (ten_pos k) as Tp. assert (T0 : ~ (inject_Z (10 ^ Z.of_nat k) == 0)%Q). { intros E. apply Qeq_eqR in E. rewrite ten_Q, RMicromega.Q2R_0 in E. lra. }
    split.
    - intros v Hv. split; [apply (reread_ok prec emax Hp Hm k c H1 H2 H3 H4 v Hv)|]. apply Rle_Qle. rewrite Qabs_R, Q2R_minus, Q2R_div, ten_Q, !fval_sv by exact T0.
      replace (Q2R 1) with 1 by (unfold Q2R; cbn; lra). unfold Rdiv. rewrite Rmult_1_l. apply (reread_near prec emax Hp Hm k c H1 H2 H3 H4 v Hv).
    - intros v Hv L. apply (reread_large prec emax Hp Hm k c H1 H2 H3 H4 v Hv). apply Qle_Rle in L. rewrite Qabs_R, fval_sv, H5 in L. exact L.
    - intros v n Hv E. apply (reread_exact prec emax Hp Hm k c H1 H2 H3 H4 v n Hv). apply Qeq_eqR in E. rewrite Q2R_mult, ten_Q, fval_sv, int_Q in E. exact E.
    - intros v Hv L. rewrite signbit_sign. apply (reread_tiny prec emax Hp Hm k c H1 H2 H3 H4 v Hv). apply Qlt_Rlt in L. rewrite Q2R_mult, Qabs_R, ten_Q, fval_sv in L. replace (Q2R (1 # 2)) with (/ 2) in L by (unfold Q2R; cbn; lra). exact L.
    - intros v w Hv Hw L. apply Rle_Qle. apply Qle_Rle in L. rewrite !fval_sv in *. apply (reread_mono prec emax Hp Hm k c H1 H2 H3 H4 v w Hv Hw L).
    - intros v Hv. apply (reread_twice prec emax Hp Hm k c H1 H2 H3 H4 v Hv).
  Qed.
  Lemma through32 : through_text finite32 8 (1 # 8) f32.
  Proof. apply (through 24 128 h24 m24 8 (-26) (1 # 8) c8 t8 e8); [discriminate|]. change (bpow radix2 (-26 + 24 - 1)) with (/ 8). unfold Q2R. cbn. lra. Qed.
  Lemma through64 : through_text finite64 15 8 f64.
  Proof. apply (through 53 1024 h53 m53 15 (-49) 8 c15 t15 e15); [discriminate|]. change (bpow radix2 (-49 + 53 - 1)) with 8. unfold Q2R. cbn. lra. Qed.
  Lemma print32 v : finite32 v -> print_f 8 (f32 v) = print_f 8 v.
  Proof. apply (reread_print 24 128 h24 m24 8 (-26) c8 t8 e8). discriminate. Qed.
  Lemma print64 v : finite64 v -> print_f 15 (f64 v) = print_f 15 v.
  Proof. apply (reread_print 53 1024 h53 m53 15 (-49) c15 t15 e15). discriminate. Qed.
  Local Close Scope R_scope.

  Lemma text_ok32 fm v : binary fm = false -> finite32 v -> weight_ok (w_float other) fm (f32 v).
  Proof.
    intros Hb Hv. unfold weight_ok. rewrite Hb. destruct (weights fm); [|exact I]. exists (print_f 8), (scan_f 24 128 other). split; [reflexivity|]. rewrite print32 by exact Hv.
    split; [intros b; apply (scan_print_f 24 128 other 8 v (10 :: b)); [apply Hv|reflexivity]|]. rewrite <- (app_nil_r (print_f 8 v)). apply (scan_print_f 24 128 other 8 v []); [apply Hv|exact I].
  Qed.
  Lemma text_ok64 fm v : binary fm = false -> finite64 v -> weight_ok (w_double other) fm (f64 v).
  Proof.
    intros Hb Hv. unfold weight_ok. rewrite Hb. destruct (weights fm); [|exact I]. exists (print_f 15), (scan_f 53 1024 other). split; [reflexivity|]. rewrite print64 by exact Hv.
    split; [intros b; apply (scan_print_f 53 1024 other 15 v (10 :: b)); [apply Hv|reflexivity]|]. rewrite <- (app_nil_r (print_f 15 v)). apply (scan_print_f 53 1024 other 15 v []); [apply Hv|exact I].
  Qed.
  Lemma bin_ok32 fm v : binary fm = true -> valid_binary 24 128 v = true -> weight_ok (w_float other) fm v.
  Proof.
    intros Hb V. unfold weight_ok. rewrite Hb. destruct (weights fm); [|exact I]. destruct (bits_round 24 128 ltac:(lia) ltac:(lia) v V) as [E B]. split; [apply le_length|].
    cbn [w_dec w_enc w_float]. rewrite le_round; [exact E|]. exact B.
  Qed.
  Lemma bin_ok64 fm v : binary fm = true -> valid_binary 53 1024 v = true -> weight_ok (w_double other) fm v.
  Proof.
    intros Hb V. unfold weight_ok. rewrite Hb. destruct (weights fm); [|exact I]. destruct (bits_round 53 1024 ltac:(lia) ltac:(lia) v V) as [E B]. split; [apply le_length|].
    cbn [w_dec w_enc w_double]. rewrite le_round; [exact E|]. exact B.
  Qed.
End Instances.

(** ** Files *)
Section Files.
  Variables (w : wtype spec_float) (wide : Z -> Z) (fm : FileIO.fmt) (f : spec_float -> spec_float) (fin : spec_float -> Prop) (pr : spec_float -> list Z) (sc : stream -> option spec_float * stream).
  Hypothesis Hb : binary fm = false.
  Hypothesis Hw : weights fm = true.
  Hypothesis Ht : w_text w = Some (pr, sc).
  Hypothesis Hpr : forall v, fin v -> pr (f v) = pr v.
  Hypothesis Hok : forall v, fin v -> weight_ok w fm (f v).
  Notation ed := (edge spec_float).

  Lemma reweigh_line e : fin (e_val e) -> line w fm (reweigh f e) = line w fm e.
  Proof using Hb Hw Ht Hpr. intros H. unfold line. rewrite Hb, Hw, Ht. cbn [reweigh e_src e_dst e_val]. rewrite Hpr by exact H. reflexivity. Qed.
  Lemma reweigh_lines (l : list ed) : (forall e, In e l -> fin (e_val e)) -> map (line w fm) (map (reweigh f) l) = map (line w fm) l.
  Proof using Hb Hw Ht Hpr. intros H. rewrite map_map. apply map_ext_in. intros e Ie. apply reweigh_line. auto. Qed.
  Lemma same_files (els els' : list (elist spec_float)) ls : Forall2 holds els ls -> Forall2 holds els' (map (map (reweigh f)) ls) ->
    map (@el_m _) els' = map (@el_m _) els -> map (@el_n _) els' = map (@el_n _) els -> (forall e, In e (concat ls) -> fin (e_val e)) ->
    forall d, write_edgelist w fm d els' = write_edgelist w fm d els.
  Proof using Hb Hw Ht Hpr.
    intros H H' Em En Hf d. unfold write_edgelist. assert (L : length els' = length els) by (rewrite <- (map_length (@el_m _) els'), Em, map_length; reflexivity).
    replace (zlen els') with (zlen els) by (unfold zlen; lia). generalize (zrange 0 (zlen els)). clear L. revert els' H' Em En d.
    induction H as [|el l els ls Hh H IH]; intros els' H' Em En d r.
    - inversion H'; subst. reflexivity.
    - cbn [map] in H'. destruct els' as [|el' els']; [inversion H'|]. inversion H' as [|? ? ? ? Hh' H2']; subst; clear H'; rename H2' into H'. cbn [map] in Em, En. injection Em as Em1 Em. injection En as En1 En.
      destruct r as [|i r]; [reflexivity|]. cbn [combine foldR fst snd]. rewrite (write_bytes_eq w fm el l Hh), (write_bytes_eq w fm el' _ Hh'). cbn [bind].
      assert (E : content w fm (file_of el' (map (reweigh f) l)) = content w fm (file_of el l)).
      { unfold content, file_of. cbn [ef_newline ef_m ef_n ef_count ef_edges]. rewrite reweigh_lines by (intros e Ie; apply Hf; cbn [concat]; apply in_or_app; left; exact Ie).
        rewrite Em1, En1. destruct Hh as [-> _]. destruct Hh' as [-> _]. unfold zlen. rewrite map_length. reflexivity. }
      rewrite E. apply IH; auto. intros e Ie. apply Hf. cbn [concat]. apply in_or_app. right. exact Ie.
  Qed.
  Lemma text_trip d (els : list (elist spec_float)) ls nr : Forall2 holds els ls ->
    (forall el, In el els -> is_int (el_m el) /\ is_int (el_n el)) ->
    (forall e, In e (concat ls) -> is_int (e_src e) /\ is_int (e_dst e) /\ fin (e_val e)) ->
    zlen (concat ls) < 2 ^ 31 -> 1 <= nr -> (forall i, zlen els <= i -> file_at d i = None) ->
    let ls' := map (map (reweigh f)) ls in
    exists d', write_edgelist w fm d els = Ok d' /\
      (forall els', Forall2 holds els' ls' -> map (@el_m _) els' = map (@el_m _) els -> map (@el_n _) els' = map (@el_n _) els -> write_edgelist w fm d els' = Ok d') /\
      exists f0, forall fuel, (f0 <= fuel)%nat ->
        let m := if header fm then maxl (map (@el_m _) els) else maxl (map (@e_src _) (concat ls)) in
        let n := if header fm then maxl (map (@el_n _) els) else maxl (map (@e_dst _) (concat ls)) in
        load_edgelist w wide fuel fm nr d' = Ok (map (fun r => mkEL (map Some (dealt nr ls' r)) m n (zlen (dealt nr ls' r))) (zrange 0 nr)).
  Proof using Hb Hw Ht Hpr Hok.
    intros Hh Hdim He Hlen Hn Habs ls'. assert (Hfin : forall e, In e (concat ls) -> fin (e_val e)) by (intros e Ie; apply He; exact Ie).
    set (els1 := map (fun p : elist spec_float * list ed => mkEL (map Some (map (reweigh f) (snd p))) (el_m (fst p)) (el_n (fst p)) (zlen (map (reweigh f) (snd p)))) (combine els ls)).
    assert (A : Forall2 holds els1 ls' /\ map (@el_m _) els1 = map (@el_m _) els /\ map (@el_n _) els1 = map (@el_n _) els).
    { unfold els1, ls'. clear - Hh. induction Hh as [|el l els ls H1 H2 IH]; [repeat split; constructor|]. destruct IH as (A & B & C). cbn [combine map fst snd]. split; [constructor; [split; [reflexivity|exists []; cbn [el_arr]; rewrite app_nil_r; reflexivity]|exact A]|]. cbn [el_m el_n]. split; congruence. }
    destruct A as (A1 & A2 & A3). assert (Hc : concat ls' = map (reweigh f) (concat ls)) by (unfold ls'; rewrite concat_map; reflexivity).
    assert (Lz : zlen els1 = zlen els) by (unfold zlen; rewrite <- (map_length (@el_m _) els1), A2, map_length; reflexivity).
    destruct (round_trip w wide fm d els1 ls' nr) as (d' & Ew & f0 & Hl); auto.
    - intros _ _. rewrite Ht. discriminate.
    - intros el Ie. assert (I1 : In (el_m el) (map (@el_m _) els)) by (rewrite <- A2; apply in_map; exact Ie). assert (I2 : In (el_n el) (map (@el_n _) els)) by (rewrite <- A3; apply in_map; exact Ie).
      apply in_map_iff in I1 as (x & <- & Ix). apply in_map_iff in I2 as (y & <- & Iy). split; [apply (Hdim x Ix)|apply (Hdim y Iy)].
    - intros e Ie. rewrite Hc in Ie. apply in_map_iff in Ie as (e0 & <- & Ie). destruct (He e0 Ie) as (B1 & B2 & B3). cbn [reweigh e_src e_dst e_val]. auto.
    - rewrite Hc. unfold zlen in *. rewrite map_length. exact Hlen.
    - rewrite Lz. exact Habs.
    - assert (Ew0 : write_edgelist w fm d els = Ok d') by (rewrite <- Ew; symmetry; apply (same_files els els1 ls); auto).
      exists d'. split; [exact Ew0|]. split; [intros els' H1 H2 H3; rewrite <- Ew0; apply (same_files els els' ls); auto|].
      exists f0. intros fuel Hfu. specialize (Hl fuel Hfu). cbv zeta in Hl |- *. rewrite Hl, A2, A3. f_equal. apply map_ext. intros r.
      rewrite Hc, !map_map. f_equal. unfold back. rewrite Hw. reflexivity.
  Qed.
End Files.
