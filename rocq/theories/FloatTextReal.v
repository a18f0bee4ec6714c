(** Proofs about FloatText.v: how far a printed float is from the one read back.  Through Flocq and the
    real numbers, so they rest on the axioms of Coq's Reals. *)
From Verif Require Import Base FileIO Float32 Float32Proofs FloatText FloatTextScan.
From Coq Require Import ZArith SpecFloat QArith Qabs Qreals Reals RMicromega Lra Lia.
From Flocq Require Import Core BinarySingleNaN.
Local Open Scope R_scope.

(** ** Rounding to an integer, ties to even *)
Definition near (X : R) (D : Z) : Prop := Rabs (X - IZR D) <= / 2 /\ (Rabs (X - IZR D) = / 2 -> Z.even D = true).
Lemma near_mono X Y C D : X <= Y -> near X C -> near Y D -> (C <= D)%Z.
Proof.
  intros L [A1 A2] [B1 B2]. destruct (Z_le_gt_dec C D) as [|G]; [assumption|exfalso].
  assert (H : IZR D + 1 <= IZR C) by (rewrite <- plus_IZR; apply IZR_le; lia).
  pose proof (Rabs_le_inv _ _ A1) as a. pose proof (Rabs_le_inv _ _ B1) as b.
  assert (E1 : X - IZR C = - / 2) by lra. assert (E2 : Y - IZR D = / 2) by lra. assert (E3 : IZR C = IZR (D + 1)) by (rewrite plus_IZR; lra). apply eq_IZR in E3.
  rewrite E1, E2 in *. rewrite Rabs_Ropp, Rabs_pos_eq in * by lra. specialize (A2 eq_refl). specialize (B2 eq_refl). subst C. rewrite Z.even_add, B2 in A2. discriminate.
Qed.
Lemma near_unique X C D : near X C -> near X D -> C = D.
Proof. intros A B. apply Z.le_antisymm; [apply (near_mono X X)|apply (near_mono X X)]; auto with real. Qed.
Lemma near_opp X D : near X D -> near (- X) (- D).
Proof.
  intros [A B]. unfold near. rewrite opp_IZR. replace (- X - - IZR D) with (- (X - IZR D)) by ring. rewrite Rabs_Ropp. split; [exact A|]. rewrite Z.even_opp. exact B.
Qed.
Lemma near_closer X Y D : near X D -> Rabs (Y - IZR D) <= Rabs (X - IZR D) -> near Y D.
Proof. intros [A B] L. split; [lra|]. intros E. apply B. lra. Qed.
Lemma near_int D : near (IZR D) D.
Proof. unfold near. replace (IZR D - IZR D) with 0 by ring. rewrite Rabs_R0. split; lra. Qed.

Definition ten (k : nat) : R := IZR (10 ^ Z.of_nat k).
Lemma ten_pos k : 0 < ten k.
Proof. apply IZR_lt. apply Z.pow_pos_nonneg; lia. Qed.
Lemma near_scaled k m e : (0 <= m)%Z -> near (F2R (Float radix2 m e) * ten k) (scaled k m e).
Proof.
  intros H. unfold F2R, ten, scaled. cbn [Fnum Fexp]. set (n := (m * 10 ^ Z.of_nat k)%Z).
  assert (E : IZR m * bpow radix2 e * IZR (10 ^ Z.of_nat k) = IZR n * bpow radix2 e) by (unfold n; rewrite mult_IZR; ring). rewrite E. clearbody n. clear E.
  destruct (Z.leb_spec 0 e).
  - rewrite <- IZR_Zpower by assumption. rewrite <- mult_IZR. change (radix2 : Z) with 2%Z. apply near_int.
  - set (d := (2 ^ (- e))%Z). assert (Dp : (0 < d)%Z) by (apply Z.pow_pos_nonneg; lia).
    assert (Ed : bpow radix2 e = / IZR d). { replace e with (- (- e))%Z at 1 by lia. rewrite bpow_opp. f_equal. rewrite <- IZR_Zpower by lia. reflexivity. }
    rewrite Ed. clearbody d. clear Ed. assert (Rp : 0 < IZR d) by (apply IZR_lt; lia). pose proof (Z.div_mod n d ltac:(lia)) as DM. pose proof (Z.mod_pos_bound n d Dp) as MB.
    set (q := (n / d)%Z) in *. set (r := (n mod d)%Z) in *. clearbody q r. cbv zeta.
    assert (Eq : IZR n * / IZR d = IZR q + IZR r * / IZR d) by (rewrite DM, plus_IZR, mult_IZR; field; lra). rewrite Eq. clear Eq.
    assert (Fr : forall x y, (x <= y)%Z -> IZR x * / IZR d <= IZR y * / IZR d) by (intros x y L; apply Rmult_le_compat_r; [left; apply Rinv_0_lt_compat; lra|apply IZR_le; exact L]).
    assert (Fl : forall x y, (x < y)%Z -> IZR x * / IZR d < IZR y * / IZR d) by (intros x y L; apply Rmult_lt_compat_r; [apply Rinv_0_lt_compat; lra|apply IZR_lt; exact L]).
    assert (D1 : IZR d * / IZR d = 1) by (field; lra).
    assert (T2 : IZR (2 * r) * / IZR d = 2 * (IZR r * / IZR d)) by (rewrite mult_IZR; ring).
    assert (Z0 : IZR 0 * / IZR d = 0) by ring.
    pose proof (Fr 0%Z r ltac:(lia)) as R0. pose proof (Fl r d ltac:(lia)) as R1. set (f := IZR r * / IZR d) in *.
    destruct (Z.ltb_spec (2 * r) d) as [L|L]; [|destruct (Z.ltb_spec d (2 * r)) as [L2|L2]].
    + pose proof (Fl _ _ L). unfold near. replace (IZR q + f - IZR q) with f by ring. rewrite Rabs_pos_eq by lra. split; [lra|]. intros. lra.
    + pose proof (Fl _ _ L2). unfold near. rewrite plus_IZR. replace (IZR q + f - (IZR q + 1)) with (- (1 - f)) by ring. rewrite Rabs_Ropp, Rabs_pos_eq by lra. split; [lra|]. intros. lra.
    + assert (E2 : (2 * r = d)%Z) by lia. assert (f = / 2) by (rewrite E2 in T2; lra). destruct (Z.even q) eqn:Ev.
      * unfold near. replace (IZR q + f - IZR q) with f by ring. rewrite Rabs_pos_eq by lra. split; [lra|auto].
      * unfold near. rewrite plus_IZR. replace (IZR q + f - (IZR q + 1)) with (- (1 - f)) by ring. rewrite Rabs_Ropp, Rabs_pos_eq by lra. split; [lra|]. intros _. rewrite Z.even_add, Ev. reflexivity.
Qed.

Section Format.
  Variables prec emax : Z.
  Context (Hprec : Prec_gt_0 prec) (Hmax : Prec_lt_emax prec emax).
  Variables (k : nat) (c : Z).
  Notation fexp := (SpecFloat.fexp prec emax).
  Notation rnd y := (round radix2 fexp (round_mode mode_NE) y).
  Notation fok := (fok prec emax).
  Notation T := (ten k).
  Notation rr := (reread prec emax k).
  Local Instance valid_fexp : Valid_exp fexp := fexp_correct prec emax Hprec.

  Lemma fok_format x : fok x -> generic_format radix2 fexp (sv x).
  Proof using. intros H. destruct (fok_B _ _ _ H) as (b & -> & _ & <-). apply generic_format_B2R. Qed.
  Lemma fok_small x : fok x -> Rabs (sv x) < bpow radix2 emax.
  Proof using. intros H. destruct (fok_B _ _ _ H) as (b & -> & _ & <-). apply abs_B2R_lt_emax. Qed.
  Lemma fok_eq x y : fok x -> fok y -> sv x = sv y -> sign_SF x = sign_SF y -> x = y.
  Proof using.
    intros Hx Hy E S. destruct (fok_B _ _ _ Hx) as (bx & -> & Fx & Ex). destruct (fok_B _ _ _ Hy) as (b_ & -> & Fy & Ey).
    f_equal. apply B2R_Bsign_inj; auto; [congruence|]. destruct bx, b_; exact S.
  Qed.

  (** reading a decimal *)
  Lemma read_dec_ok (s : bool) n : (0 <= n)%Z -> Rabs (rnd (IZR (cond_Zopp s n) / T)) < bpow radix2 emax ->
    fok (read_dec prec emax s n k) /\ sv (read_dec prec emax s n k) = rnd (IZR (cond_Zopp s n) / T) /\ sign_SF (read_dec prec emax s n k) = s.
  Proof using Hprec Hmax.
    intros Hn Hs. destruct n as [|m|m]; [| |lia].
    - cbn [read_dec]. assert (E : IZR (cond_Zopp s 0) / T = 0) by (destruct s; unfold Rdiv; cbn; ring). rewrite E, round_0 by auto with typeclass_instances. split; [split; [reflexivity|exact I]|]. split; reflexivity.
    - cbn [read_dec]. unfold SFdiv. pose proof (Bdiv_correct_aux prec emax Hprec Hmax mode_NE s m 0 false (Z.to_pos (10 ^ Z.of_nat k)) 0) as H. cbv zeta in H.
      assert (Tp : (0 < 10 ^ Z.of_nat k)%Z) by (apply Z.pow_pos_nonneg; lia).
      destruct (SFdiv_core_binary _ _ _ _ _ _) as [[mz ez] lz]. rewrite round_aux_equiv by assumption. destruct H as [V H].
      assert (E : F2R (Float radix2 (cond_Zopp s (Z.pos m)) 0) / F2R (Float radix2 (cond_Zopp false (Z.pos (Z.to_pos (10 ^ Z.of_nat k)))) 0) = IZR (cond_Zopp s (Z.pos m)) / T).
      { unfold F2R. cbn [Fnum Fexp cond_Zopp]. rewrite Z2Pos.id by exact Tp. change (bpow radix2 0) with 1. rewrite !Rmult_1_r. reflexivity. }
      rewrite E in H. rewrite Rlt_bool_true in H by exact Hs. destruct H as (H1 & H2 & H3). rewrite xorb_false_r in *.
      split; [split; [exact V|]|split; [exact H1|exact H3]]. destruct (binary_round_aux _ _ _ _ _ _ _); try discriminate; exact I.
  Qed.

  (** The number printed for [x], times 10^k. *)
  Definition dig (x : spec_float) : Z := match x with S754_finite s m e => cond_Zopp s (scaled k (Zpos m) e) | _ => 0%Z end.
  Lemma dig_near x : FloatTextScan.is_finite x -> near (sv x * T) (dig x).
  Proof using.
    destruct x as [s|s| |s m e]; try contradiction; intros _; cbn [dig].
    - unfold sv, SF2R. rewrite Rmult_0_l. apply near_int.
    - pose proof (near_scaled k (Zpos m) e ltac:(lia)) as N. unfold sv, SF2R. destruct s; cbn [cond_Zopp]; [|exact N]. change (Z.neg m) with (- Z.pos m)%Z. rewrite F2R_Zopp. rewrite Ropp_mult_distr_l_reverse. apply near_opp. exact N.
  Qed.

  Lemma T_div x D : Rabs (x * T - IZR D) = T * Rabs (x - IZR D / T).
  Proof using. pose proof (ten_pos k). rewrite <- (Rabs_pos_eq T) at 2 by lra. rewrite <- Rabs_mult. f_equal. field. lra. Qed.

  (** The float nearest to the decimal is as near to it as [x]. *)
  Lemma rnd_closer x : fok x -> Rabs (rnd (IZR (dig x) / T) - IZR (dig x) / T) <= Rabs (sv x - IZR (dig x) / T).
  Proof using Hprec.
    intros H. destruct (round_N_pt radix2 fexp (fun x => negb (Z.even x)) (IZR (dig x) / T)) as [_ N]. apply N. apply fok_format. exact H.
  Qed.

  (** ** Spacing of floats above 2^(c+prec-1) *)
  Hypothesis Hc : / T < bpow radix2 c.
  Hypothesis Ht : exists n, bpow radix2 (c + prec - 1) * T = IZR n.
  Hypothesis He : bpow radix2 (c + prec - 1) + / T < bpow radix2 emax.

  Lemma multiple x : generic_format radix2 fexp x -> bpow radix2 (c + prec - 1) <= Rabs x -> exists n, x = IZR n * bpow radix2 c.
  Proof using Hprec.
    intros G L. rewrite G. unfold F2R. cbn [Fnum Fexp]. set (m := Ztrunc _). assert (C : (c <= cexp radix2 fexp x)%Z).
    { unfold cexp, SpecFloat.fexp. apply Z.le_trans with (mag radix2 x - prec)%Z; [|lia]. pose proof (mag_ge_bpow radix2 x (c + prec) ltac:(replace (c + prec - 1)%Z with (c + prec - 1)%Z by lia; exact L)). lia. }
    exists (m * 2 ^ (cexp radix2 fexp x - c))%Z. rewrite mult_IZR. replace (cexp radix2 fexp x) with ((cexp radix2 fexp x - c) + c)%Z at 1 by lia. rewrite bpow_plus, <- IZR_Zpower by lia. change (radix2 : Z) with 2%Z. ring.
  Qed.
  Lemma spaced x y : generic_format radix2 fexp x -> generic_format radix2 fexp y -> bpow radix2 (c + prec - 1) <= Rabs x -> bpow radix2 (c + prec - 1) <= Rabs y ->
    Rabs (x - y) < bpow radix2 c -> x = y.
  Proof using Hprec.
    intros Gx Gy Lx Ly H. destruct (multiple x Gx Lx) as [a ->]. destruct (multiple y Gy Ly) as [b ->]. rewrite <- Rmult_minus_distr_r, Rabs_mult, (Rabs_pos_eq (bpow radix2 c)) in H by apply bpow_ge_0.
    pose proof (bpow_gt_0 radix2 c). rewrite <- minus_IZR, <- abs_IZR in H. assert (IZR (Z.abs (a - b)) < 1) by nra. apply lt_IZR in H1. f_equal. f_equal. lia.
  Qed.

  Lemma near_back x : fok x -> Rabs (rnd (IZR (dig x) / T) - sv x) <= / T.
  Proof using Hprec.
    intros H. pose proof (rnd_closer x H) as A. pose proof (ten_pos k) as Tp. destruct (dig_near x (proj2 H)) as [B _]. rewrite T_div in B.
    assert (B' : Rabs (sv x - IZR (dig x) / T) <= / T * / 2). { apply Rmult_le_reg_l with T; [exact Tp|]. rewrite <- Rmult_assoc, Rinv_r by lra. lra. }
    set (y := IZR (dig x) / T) in *. replace (rnd y - sv x) with ((rnd y - y) + - (sv x - y)) by ring. eapply Rle_trans; [apply Rabs_triang|]. rewrite Rabs_Ropp. lra.
  Qed.
  Lemma format_bpow : (SpecFloat.emin prec emax <= c)%Z -> generic_format radix2 fexp (bpow radix2 (c + prec - 1)).
  Proof using Hprec. intros L. apply generic_format_bpow. unfold SpecFloat.fexp. unfold Prec_gt_0 in Hprec. lia. Qed.
  Hypothesis Hmin : (SpecFloat.emin prec emax <= c)%Z.

  Lemma large_back x : fok x -> bpow radix2 (c + prec - 1) <= Rabs (sv x) -> rnd (IZR (dig x) / T) = sv x.
  Proof using Hprec Hc Ht Hmin.
    intros H L. pose proof (ten_pos k) as Tp. destruct Ht as [n Hn].
    apply spaced; auto.
    - apply generic_format_round; auto with typeclass_instances.
    - apply fok_format. exact H.
    - destruct (dig_near x (proj2 H)) as [B1 B2] eqn:EB. clear EB. pose proof (conj B1 B2 : near _ _) as N.
      assert (Gb : generic_format radix2 fexp (bpow radix2 (c + prec - 1))) by (apply format_bpow; exact Hmin).
      assert (En : bpow radix2 (c + prec - 1) = IZR n / T) by (rewrite <- Hn; field; lra).
      destruct (Rle_or_lt 0 (sv x)) as [P|P].
      + rewrite Rabs_pos_eq in L by exact P. assert (n <= dig x)%Z. { apply (near_mono (IZR n) (sv x * T)); [rewrite <- Hn; apply Rmult_le_compat_r; lra|apply near_int|exact N]. }
        assert (R1 : bpow radix2 (c + prec - 1) <= rnd (IZR (dig x) / T)). { apply round_ge_generic; auto with typeclass_instances. rewrite En. apply Rmult_le_compat_r; [left; apply Rinv_0_lt_compat; exact Tp|apply IZR_le; assumption]. }
        rewrite Rabs_pos_eq; [exact R1|]. pose proof (bpow_gt_0 radix2 (c + prec - 1)). lra.
      + rewrite Rabs_left in L by exact P. assert (dig x <= - n)%Z. { apply (near_mono (sv x * T) (IZR (- n))); [rewrite opp_IZR, <- Hn; nra|exact N|apply near_int]. }
        assert (R1 : rnd (IZR (dig x) / T) <= - bpow radix2 (c + prec - 1)). { apply round_le_generic; auto with typeclass_instances. apply generic_format_opp. exact Gb. rewrite En. unfold Rdiv. rewrite <- Ropp_mult_distr_l_reverse, <- opp_IZR. apply Rmult_le_compat_r; [left; apply Rinv_0_lt_compat; exact Tp|apply IZR_le; assumption]. }
        pose proof (bpow_gt_0 radix2 (c + prec - 1)). rewrite Rabs_left by lra. lra.
    - eapply Rle_lt_trans; [apply near_back; exact H|exact Hc].
  Qed.

  Lemma back_small x : fok x -> Rabs (rnd (IZR (dig x) / T)) < bpow radix2 emax.
  Proof using Hprec Hc Ht He Hmin.
    intros H. destruct (Rle_or_lt (bpow radix2 (c + prec - 1)) (Rabs (sv x))) as [L|L].
    - rewrite large_back by assumption. apply fok_small. exact H.
    - pose proof (near_back x H) as B. set (r := rnd _) in *. replace r with ((r - sv x) + sv x) by ring. eapply Rle_lt_trans; [apply Rabs_triang|]. lra.
  Qed.

  Definition sgn (x : spec_float) : bool := sign_SF x.
  Lemma dig_sign s m e : IZR (dig (S754_finite s m e)) = IZR (cond_Zopp s (scaled k (Zpos m) e)). Proof. reflexivity. Qed.
  (** what comes back *)
  Lemma reread_ok x : fok x -> fok (rr x) /\ sv (rr x) = rnd (IZR (dig x) / T) /\ sign_SF (rr x) = sign_SF x.
  Proof using Hprec Hmax Hc Ht He Hmin.
    intros H. destruct x as [s|s| |s m e]; try (destruct H; contradiction).
    - cbn [reread dig]. split; [exact H|]. split; [|reflexivity]. unfold Rdiv. rewrite Rmult_0_l, round_0 by auto with typeclass_instances. reflexivity.
    - cbn [reread]. apply (read_dec_ok s (scaled k (Zpos m) e)); [apply scaled_nonneg; lia|]. exact (back_small _ H).
  Qed.
  Lemma reread_near x : fok x -> Rabs (sv (rr x) - sv x) <= / T.
  Proof using Hprec Hmax Hc Ht He Hmin. intros H. destruct (reread_ok x H) as (_ & -> & _). apply near_back. exact H. Qed.
  Lemma reread_large x : fok x -> bpow radix2 (c + prec - 1) <= Rabs (sv x) -> rr x = x.
  Proof using Hprec Hmax Hc Ht He Hmin. intros H L. destruct (reread_ok x H) as (F & E & S). apply fok_eq; auto. rewrite E. apply large_back; assumption. Qed.
  Lemma reread_exact x n : fok x -> sv x * T = IZR n -> rr x = x.
  Proof using Hprec Hmax Hc Ht He Hmin.
    intros H E. destruct (reread_ok x H) as (F & V & S). apply fok_eq; auto. rewrite V. pose proof (dig_near x (proj2 H)) as N. rewrite E in N. rewrite (near_unique _ _ _ N (near_int n)). rewrite <- E. pose proof (ten_pos k).
    replace (sv x * T / T) with (sv x) by (field; lra). apply round_generic; auto with typeclass_instances. apply fok_format. exact H.
  Qed.
  Lemma reread_tiny x : fok x -> Rabs (sv x) * T < / 2 -> rr x = S754_zero (sign_SF x).
  Proof using Hprec Hmax Hc Ht He Hmin.
    intros H L. assert (N : near (sv x * T) 0). { unfold near. rewrite Rminus_0_r, Rabs_mult, (Rabs_pos_eq T) by (left; apply ten_pos). split; [lra|]. intros. lra. }
    destruct (reread_ok x H) as (F & V & S). apply fok_eq; auto; [split; [reflexivity|exact I]|]. rewrite V, (near_unique _ _ _ (dig_near x (proj2 H)) N). unfold Rdiv. rewrite Rmult_0_l. apply round_0. auto with typeclass_instances.
  Qed.
  Lemma reread_mono x y : fok x -> fok y -> sv x <= sv y -> sv (rr x) <= sv (rr y).
  Proof using Hprec Hmax Hc Ht He Hmin.
    intros Hx Hy L. destruct (reread_ok x Hx) as (_ & -> & _). destruct (reread_ok y Hy) as (_ & -> & _). apply round_le; auto with typeclass_instances.
    pose proof (ten_pos k). apply Rmult_le_compat_r; [left; apply Rinv_0_lt_compat; assumption|]. apply IZR_le. apply (near_mono (sv x * T) (sv y * T)); [apply Rmult_le_compat_r; lra|apply dig_near, Hx|apply dig_near, Hy].
  Qed.
  Lemma reread_dig x : fok x -> dig (rr x) = dig x.
  Proof using Hprec Hmax Hc Ht He Hmin.
    intros H. destruct (reread_ok x H) as (F & V & _). apply (near_unique (sv (rr x) * T)); [apply dig_near, F|]. apply (near_closer (sv x * T)); [apply dig_near, H|].
    rewrite !T_div. apply Rmult_le_compat_l; [left; apply ten_pos|]. rewrite V. apply rnd_closer. exact H.
  Qed.
  Lemma print_dig x : FloatTextScan.is_finite x -> print_f k x = (if sign_SF x then [45%Z] else []) ++ print_fixed k (Z.abs (dig x)).
  Proof using. destruct x as [s|s| |s m e]; try contradiction; intros _; [reflexivity|]. cbn [print_f dig sign_SF]. f_equal. f_equal. pose proof (scaled_nonneg k (Zpos m) e ltac:(lia)). destruct s; cbn [cond_Zopp]; lia. Qed.
  (** printed again, it looks the same *)
  Lemma reread_print x : fok x -> print_f k (rr x) = print_f k x.
  Proof using Hprec Hmax Hc Ht He Hmin.
    intros H. destruct (reread_ok x H) as (F & _ & S). rewrite !print_dig by (apply F || apply H). rewrite S, reread_dig by exact H. reflexivity.
  Qed.
  Lemma reread_twice x : fok x -> rr (rr x) = rr x.
  Proof using Hprec Hmax Hc Ht He Hmin.
    intros H. destruct (reread_ok x H) as (F & V & S). destruct (reread_ok _ F) as (F2 & V2 & S2). apply fok_eq; auto. rewrite V2, V, reread_dig by exact H. reflexivity.
  Qed.
End Format.
