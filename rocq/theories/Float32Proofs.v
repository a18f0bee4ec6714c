(** IEEE-754 single precision satisfies FloatSpec.rounds.  The proofs go through Flocq and the real
    numbers, so they rest on the axioms of Coq's Reals. *)
From Verif Require Import Base Apps FlowSpec FloatSpec Float32.
From Coq Require Import ZArith SpecFloat QArith Qreals Reals RMicromega Lra.
From Flocq Require Import Core BinarySingleNaN Plus_error Relative.
Local Open Scope R_scope.

Definition sv (x : spec_float) : R := SF2R radix2 x.
Lemma fval_sv x : Q2R (fval x) = sv x.
Proof.
  destruct x as [s|s| |s m e]; try exact RMicromega.Q2R_0. unfold fval, sv, SF2R, F2R. cbn [Fnum Fexp]. rewrite Q2R_mult. f_equal.
  - unfold Q2R, inject_Z. cbn [Qnum Qden]. rewrite RMicromega.Rinv_1. destruct s; reflexivity.
  - rewrite Q2RpowerRZ by (left; discriminate). rewrite bpow_powerRZ. f_equal. unfold Q2R. cbn [Qnum Qden]. change (IZR radix2) with 2. lra.
Qed.

Section Format.
  Variables prec emax : Z.
  Context (Hprec : Prec_gt_0 prec) (Hmax : Prec_lt_emax prec emax).
  Notation emin := (SpecFloat.emin prec emax).
  Notation fexp := (SpecFloat.fexp prec emax).
  Notation rnd y := (round radix2 fexp (round_mode mode_NE) y).
  Definition uu : R := u_ro radix2 prec.
  Definition close (r y : R) : Prop := Rabs y <= (1 + uu) * Rabs r /\ Rabs r <= (1 + uu) * Rabs y /\ (0 <= y -> 0 <= r).
  Definition fok (x : spec_float) : Prop := valid_binary prec emax x = true /\ match x with S754_zero _ | S754_finite _ _ _ => True | _ => False end.

  Lemma fok_B x : fok x -> exists b : binary_float prec emax, x = B2SF b /\ is_finite b = true /\ B2R b = sv x.
  Proof using.
    intros [H1 H2]. exists (SF2B x H1). split; [symmetry; apply B2SF_SF2B|]. split; [rewrite is_finite_SF2B; destruct x; tauto|apply B2R_SF2B].
  Qed.
  Lemma B_fok (b : binary_float prec emax) : is_finite b = true -> fok (B2SF b) /\ sv (B2SF b) = B2R b.
  Proof using. intros H. split; [split; [apply valid_binary_B2SF|destruct b; cbn in *; auto; discriminate]|apply SF2R_B2SF]. Qed.

  Lemma uu_pos : 0 <= uu <= 1.
  Proof using Hprec. split; [apply u_ro_pos|]. left. apply u_ro_lt_1. exact Hprec. Qed.
  Lemma eps_close y eps : Rabs eps <= uu / (1 + uu) -> close (y * (1 + eps)) y.
  Proof using Hprec.
    intros He. pose proof uu_pos as [U0 U1]. set (u := uu) in *. set (t := u / (1 + u)) in *.
    assert (Ht : t * (1 + u) = u) by (unfold t; field; lra). assert (Ht0 : 0 <= t) by (unfold t; apply Rmult_le_pos; [lra|left; apply Rinv_0_lt_compat; lra]). assert (Ht1 : t < 1) by nra.
    apply Rabs_le_inv in He. unfold close. rewrite Rabs_mult, (Rabs_pos_eq (1 + eps)) by lra. fold u. pose proof (Rabs_pos y) as Hy.
    split; [|split].
    - assert (1 <= (1 + u) * (1 + eps)) by nra. nra.
    - assert (1 + eps <= 1 + u) by nra. nra.
    - intros H. apply Rmult_le_pos; lra.
  Qed.
  Lemma rnd_close y : (y = 0 \/ bpow radix2 (emin + prec - 1) <= Rabs y) -> close (rnd y) y.
  Proof using Hprec.
    intros [->|H].
    - rewrite round_0 by auto with typeclass_instances. unfold close. rewrite Rabs_R0. lra.
    - change fexp with (FLT_exp emin prec). rewrite round_FLT_FLX by exact H. destruct (relative_error_N_FLX'_ex radix2 prec Hprec (fun x => negb (Z.even x)) y) as (eps & He & E).
      cbn [round_mode]. rewrite E. apply eps_close. exact He.
  Qed.
  Lemma close_small r y : close r y -> Rabs y <= bpow radix2 (emax - 2) -> Rabs r < bpow radix2 emax.
  Proof using Hprec.
    intros (_ & H & _) Hy. pose proof uu_pos. replace emax with ((emax - 2) + 2)%Z by lia. rewrite bpow_plus. change (bpow radix2 2) with 4. pose proof (bpow_gt_0 radix2 (emax - 2)). pose proof (Rabs_pos y). nra.
  Qed.
  Lemma fmt (b : binary_float prec emax) : generic_format radix2 (FLT_exp emin prec) (B2R b).
  Proof using. apply generic_format_B2R. Qed.

  Lemma nearest_equiv s m l : round_nearest_even m l = choice_mode mode_NE s m l.
  Proof using. destruct l as [|[| |]]; try reflexivity. cbn. unfold Round.cond_incr. destruct (Z.even m); reflexivity. Qed.
  Lemma round_aux_equiv sx mx ex lx : SpecFloat.binary_round_aux prec emax sx mx ex lx = binary_round_aux prec emax mode_NE sx mx ex lx.
  Proof using. unfold SpecFloat.binary_round_aux, binary_round_aux. destruct (shr_fexp _ _ _ _ _) as [mrs e]. rewrite (nearest_equiv sx). reflexivity. Qed.
  Lemma round_equiv s m e : SpecFloat.binary_round prec emax s m e = binary_round prec emax mode_NE s m e.
  Proof using. unfold SpecFloat.binary_round, binary_round, shl_align_fexp. destruct (shl_align _ _ _) as [mz ez]. apply round_aux_equiv. Qed.
  Lemma normalize_equiv m e s : SpecFloat.binary_normalize prec emax m e s = B2SF (binary_normalize prec emax Hprec Hmax mode_NE m e s).
  Proof using. destruct m as [|m|m]; [reflexivity| |]; cbn; rewrite B2SF_SF2B; apply round_equiv. Qed.

  Lemma add_equiv (x y : binary_float prec emax) : SFadd prec emax (B2SF x) (B2SF y) = B2SF (Bplus mode_NE x y).
  Proof using. destruct x as [sx|sx| |sx mx ex Bx]; destruct y as [sy|sy| |sy my ey By]; try (reflexivity || (cbn; destruct (Bool.eqb _ _); reflexivity)). apply normalize_equiv. Qed.
  Lemma sub_equiv (x y : binary_float prec emax) : SFsub prec emax (B2SF x) (B2SF y) = B2SF (Bminus mode_NE x y).
  Proof using.
    destruct x as [sx|sx| |sx mx ex Bx]; destruct y as [sy|sy| |sy my ey By]; try (reflexivity || (cbn; destruct (Bool.eqb _ _); reflexivity)).
    cbn. unfold Zminus. rewrite <- cond_Zopp_negb. apply normalize_equiv.
  Qed.
  Lemma mul_equiv (x y : binary_float prec emax) : SFmul prec emax (B2SF x) (B2SF y) = B2SF (Bmult mode_NE x y).
  Proof using. destruct x as [sx|sx| |sx mx ex Bx]; destruct y as [sy|sy| |sy my ey By]; try reflexivity. cbn. rewrite B2SF_SF2B. apply round_aux_equiv. Qed.
  Lemma div_equiv (x y : binary_float prec emax) : SFdiv prec emax (B2SF x) (B2SF y) = B2SF (Bdiv mode_NE x y).
  Proof using.
    destruct x as [sx|sx| |sx mx ex Bx]; destruct y as [sy|sy| |sy my ey By]; try reflexivity. cbn. rewrite B2SF_SF2B. destruct (SFdiv_core_binary _ _ _ _ _ _) as [[mz ez] lz]. apply round_aux_equiv.
  Qed.

  Lemma normalize_ok m e s : (m = 0%Z \/ bpow radix2 (emin + prec - 1) <= Rabs (F2R (Float radix2 m e))) -> Rabs (F2R (Float radix2 m e)) <= bpow radix2 (emax - 2) ->
    fok (SpecFloat.binary_normalize prec emax m e s) /\ close (sv (SpecFloat.binary_normalize prec emax m e s)) (F2R (Float radix2 m e)) /\ sv (SpecFloat.binary_normalize prec emax m e s) = rnd (F2R (Float radix2 m e)).
  Proof using Hprec Hmax.
    intros H1 H2. rewrite normalize_equiv. set (y := F2R _) in *. assert (C : close (rnd y) y) by (apply rnd_close; destruct H1 as [->|H1]; [left; apply F2R_0|right; exact H1]).
    pose proof (binary_normalize_correct prec emax Hprec Hmax mode_NE m e s) as HB. cbv zeta in HB. fold y in HB. rewrite Rlt_bool_true in HB by (apply (close_small _ y C H2)). destruct HB as (E & Hf & _).
    destruct (B_fok _ Hf) as [F1 F2]. split; [exact F1|]. rewrite F2, E. split; [exact C|reflexivity].
  Qed.
  Lemma add_ok x y : fok x -> fok y -> Rabs (sv x + sv y) <= bpow radix2 (emax - 2) -> fok (SFadd prec emax x y) /\ close (sv (SFadd prec emax x y)) (sv x + sv y) /\ sv (SFadd prec emax x y) = rnd (sv x + sv y).
  Proof using Hprec Hmax.
    intros Hx Hy H. destruct (fok_B x Hx) as (bx & -> & Fx & Ex). destruct (fok_B y Hy) as (b_ & -> & Fy & Ey). rewrite add_equiv. rewrite <- Ex, <- Ey in *.
    destruct (FLT_plus_error_N_ex radix2 emin prec (fun x => negb (Z.even x)) (B2R bx) (B2R b_) (fmt bx) (fmt b_)) as (eps & He & E).
    assert (C : close (rnd (B2R bx + B2R b_)) (B2R bx + B2R b_)) by (cbn [round_mode]; change fexp with (FLT_exp emin prec); rewrite E; apply eps_close; exact He).
    pose proof (Bplus_correct prec emax Hprec Hmax mode_NE bx b_ Fx Fy) as HB. rewrite Rlt_bool_true in HB by (apply (close_small _ _ C H)). destruct HB as (E1 & Hf & _).
    destruct (B_fok _ Hf) as [F1 F2]. split; [exact F1|]. rewrite F2, E1. split; [exact C|reflexivity].
  Qed.
  Lemma sub_ok x y : fok x -> fok y -> Rabs (sv x - sv y) <= bpow radix2 (emax - 2) -> fok (SFsub prec emax x y) /\ close (sv (SFsub prec emax x y)) (sv x - sv y) /\ sv (SFsub prec emax x y) = rnd (sv x - sv y).
  Proof using Hprec Hmax.
    intros Hx Hy H. destruct (fok_B x Hx) as (bx & -> & Fx & Ex). destruct (fok_B y Hy) as (b_ & -> & Fy & Ey). rewrite sub_equiv. rewrite <- Ex, <- Ey in *.
    destruct (FLT_plus_error_N_ex radix2 emin prec (fun x => negb (Z.even x)) (B2R bx) (- B2R b_) (fmt bx) (generic_format_opp _ _ _ (fmt b_))) as (eps & He & E).
    assert (C : close (rnd (B2R bx - B2R b_)) (B2R bx - B2R b_)) by (cbn [round_mode]; change fexp with (FLT_exp emin prec); unfold Rminus; rewrite E; apply eps_close; exact He).
    pose proof (Bminus_correct prec emax Hprec Hmax mode_NE bx b_ Fx Fy) as HB. rewrite Rlt_bool_true in HB by (apply (close_small _ _ C H)). destruct HB as (E1 & Hf & _).
    destruct (B_fok _ Hf) as [F1 F2]. split; [exact F1|]. rewrite F2, E1. split; [exact C|reflexivity].
  Qed.
  Lemma mul_ok x y : fok x -> fok y -> (sv x * sv y = 0 \/ bpow radix2 (emin + prec - 1) <= Rabs (sv x * sv y)) -> Rabs (sv x * sv y) <= bpow radix2 (emax - 2) ->
    fok (SFmul prec emax x y) /\ close (sv (SFmul prec emax x y)) (sv x * sv y) /\ sv (SFmul prec emax x y) = rnd (sv x * sv y).
  Proof using Hprec Hmax.
    intros Hx Hy H1 H. destruct (fok_B x Hx) as (bx & -> & Fx & Ex). destruct (fok_B y Hy) as (b_ & -> & Fy & Ey). rewrite mul_equiv. rewrite <- Ex, <- Ey in *.
    pose proof (rnd_close _ H1) as C. pose proof (Bmult_correct prec emax Hprec Hmax mode_NE bx b_) as HB. rewrite Rlt_bool_true in HB by (apply (close_small _ _ C H)). destruct HB as (E1 & Hf & _).
    rewrite Fx, Fy in Hf. destruct (B_fok _ Hf) as [F1 F2]. split; [exact F1|]. rewrite F2, E1. split; [exact C|reflexivity].
  Qed.
  Lemma div_ok x y : fok x -> fok y -> sv y <> 0 -> (sv x / sv y = 0 \/ bpow radix2 (emin + prec - 1) <= Rabs (sv x / sv y)) -> Rabs (sv x / sv y) <= bpow radix2 (emax - 2) ->
    fok (SFdiv prec emax x y) /\ close (sv (SFdiv prec emax x y)) (sv x / sv y) /\ sv (SFdiv prec emax x y) = rnd (sv x / sv y).
  Proof using Hprec Hmax.
    intros Hx Hy H0 H1 H. destruct (fok_B x Hx) as (bx & -> & Fx & Ex). destruct (fok_B y Hy) as (b_ & -> & Fy & Ey). rewrite div_equiv. rewrite <- Ex, <- Ey in *.
    pose proof (rnd_close _ H1) as C. pose proof (Bdiv_correct prec emax Hprec Hmax mode_NE bx b_ H0) as HB. rewrite Rlt_bool_true in HB by (apply (close_small _ _ C H)). destruct HB as (E1 & Hf & _).
    rewrite Fx in Hf. destruct (B_fok _ Hf) as [F1 F2]. split; [exact F1|]. rewrite F2, E1. split; [exact C|reflexivity].
  Qed.
  Lemma ltb_is x y : fok x -> fok y -> SFltb x y = Rlt_bool (sv x) (sv y).
  Proof using. intros Hx Hy. destruct (fok_B x Hx) as (bx & -> & Fx & <-). destruct (fok_B y Hy) as (b_ & -> & Fy & <-). apply Bltb_correct; auto. Qed.
  Lemma abs_ok x : fok x -> fok (SFabs x) /\ sv (SFabs x) = Rabs (sv x).
  Proof using.
    intros Hx. destruct (fok_B x Hx) as (bx & -> & Fx & <-). assert (SFabs (B2SF bx) = B2SF (Babs bx)) as -> by (destruct bx; reflexivity).
    destruct (B_fok (Babs bx)) as [F1 F2]; [rewrite is_finite_Babs; exact Fx|]. split; [exact F1|]. rewrite F2. apply B2R_Babs.
  Qed.
End Format.

From Coq Require Import Qabs Qpower Lqa.
From Verif Require Import FloatProofs.
Local Open Scope Q_scope.
Global Instance prec24 : Prec_gt_0 24 := eq_refl.
Global Instance emax128 : Prec_lt_emax 24 128 := eq_refl.
Global Instance prec53 : Prec_gt_0 53 := eq_refl.
Global Instance emax1024 : Prec_lt_emax 53 1024 := eq_refl.
(** one rounding *)
Definition p24 : Q := 16777217 # 16777216.
Definition p53 : Q := 9007199254740993 # 9007199254740992.
Definition top32 : Q := inject_Z (2 ^ 100).

Lemma bpowQ e : bpow radix2 e = Q2R ((2 # 1) ^ e).
Proof. rewrite Q2RpowerRZ by (left; discriminate). rewrite bpow_powerRZ. f_equal. unfold Q2R. cbn [Qnum Qden]. change (IZR radix2) with 2%R. Lra.lra. Qed.
Lemma Q2R_abs q : Q2R (Qabs q) = Rabs (Q2R q).
Proof.
  destruct (Qlt_le_dec q 0) as [H|H].
  - rewrite Qabs_neg by lra. rewrite Q2R_opp, Rabs_left; [reflexivity|]. rewrite <- RMicromega.Q2R_0. apply Qlt_Rlt, H.
  - rewrite Qabs_pos by exact H. rewrite Rabs_pos_eq; [reflexivity|]. rewrite <- RMicromega.Q2R_0. apply Qle_Rle, H.
Qed.
Lemma uu24 : (1 + uu 24)%R = Q2R p24.
Proof. unfold uu, u_ro. rewrite bpowQ. unfold p24, Q2R. cbn. Lra.lra. Qed.
Lemma uu53 : (1 + uu 53)%R = Q2R p53.
Proof. unfold uu, u_ro. rewrite bpowQ. unfold p53, Q2R. cbn. Lra.lra. Qed.

Notation rnd24 y := (round radix2 (SpecFloat.fexp 24 128) (round_mode mode_NE) y).
Notation rnd53 y := (round radix2 (SpecFloat.fexp 53 1024) (round_mode mode_NE) y).

(** [close] in terms of rational numbers *)
Definition qclose (p r y : Q) : Prop := Qabs y <= p * Qabs r /\ Qabs r <= p * Qabs y /\ (0 <= y -> 0 <= r).
Lemma close_q prec p r y : (1 + uu prec)%R = Q2R p -> close prec (sv r) (Q2R y) -> qclose p (fval r) y.
Proof.
  intros E (H1 & H2 & H3). rewrite E in *. rewrite <- fval_sv, <- !Q2R_abs, <- Q2R_mult in *. split; [apply Rle_Qle, H1|]. split; [apply Rle_Qle, H2|].
  intros H. apply Rle_Qle. rewrite RMicromega.Q2R_0. apply H3. rewrite <- RMicromega.Q2R_0. apply Qle_Rle, H.
Qed.
Lemma qclose_within p r y : 0 <= y -> qclose p r y -> within p 1 r y.
Proof. intros H (H1 & H2 & H3). specialize (H3 H). rewrite (Qabs_pos y H), (Qabs_pos r H3) in *. split; assumption. Qed.
Lemma low_q e y : (2 # 1) ^ e <= Qabs y -> (bpow radix2 e <= Rabs (Q2R y))%R.
Proof. intros H. rewrite bpowQ, <- Q2R_abs. apply Qle_Rle, H. Qed.
Lemma high_q e y : Qabs y <= (2 # 1) ^ e -> (Rabs (Q2R y) <= bpow radix2 e)%R.
Proof. intros H. rewrite bpowQ, <- Q2R_abs. apply Qle_Rle, H. Qed.
Lemma finite_fok x : finite32 x <-> fok 24 128 x. Proof. reflexivity. Qed.
Lemma F2R_q s m e : F2R (Float radix2 (signed s m) e) = Q2R (fval (S754_finite s m e)).
Proof. rewrite fval_sv. destruct s; reflexivity. Qed.

(** conversions *)
Lemma of_int_ok d : (1 <= d < 2 ^ 31)%Z -> finite32 (of_int 24 128 d) /\ within p24 1 (fval (of_int 24 128 d)) (inject_Z d).
Proof.
  intros H. assert (E : F2R (Float radix2 d 0) = Q2R (inject_Z d)) by (unfold F2R, Q2R, inject_Z; cbn; rewrite RMicromega.Rinv_1; Lra.lra).
  assert (D1 : 1 <= inject_Z d) by (change 1 with (inject_Z 1); rewrite <- Zle_Qle; lia). assert (D2 : inject_Z d <= inject_Z (2 ^ 31)) by (rewrite <- Zle_Qle; lia).
  destruct (normalize_ok 24 128 _ _ d 0 false) as (F1 & F2 & _).
  - right. rewrite E. apply low_q. rewrite Qabs_pos by lra. eapply Qle_trans; [|exact D1]. vm_compute. discriminate.
  - rewrite E. apply high_q. rewrite Qabs_pos by lra. eapply Qle_trans; [exact D2|]. vm_compute. discriminate.
  - split; [exact F1|]. rewrite E in F2. apply (close_q 24 p24 _ _ uu24) in F2. apply qclose_within; [lra|exact F2].
Qed.
Lemma convert_ok prec emax (Hp : Prec_gt_0 prec) (Hm : Prec_lt_emax prec emax) x :
  match x with S754_zero _ | S754_finite _ _ _ => True | _ => False end ->
  (fval x == 0 \/ (2 # 1) ^ (SpecFloat.emin prec emax + prec - 1) <= Qabs (fval x)) -> Qabs (fval x) <= (2 # 1) ^ (emax - 2) ->
  fok prec emax (convert prec emax x) /\ close prec (sv (convert prec emax x)) (Q2R (fval x)) /\
    sv (convert prec emax x) = round radix2 (SpecFloat.fexp prec emax) (round_mode mode_NE) (sv x).
Proof.
  intros Hx H1 H2. destruct x as [s|s| |s m e]; try tauto.
  - cbn [convert]. split; [split; exact (eq_refl true) || exact I|]. cbn [fval]. rewrite RMicromega.Q2R_0. unfold close, sv. cbn [SF2R]. rewrite Rabs_R0. split; [Lra.lra|]. symmetry. apply round_0. auto with typeclass_instances.
  - cbn [convert]. rewrite <- (fval_sv (S754_finite s m e)), <- F2R_q. apply normalize_ok; auto; rewrite ?F2R_q.
    + right. apply low_q. destruct H1 as [H1|H1]; [|exact H1]. exfalso. clear - H1. unfold fval in H1. apply Qmult_integral in H1. destruct H1 as [H1|H1]; [destruct s; discriminate H1|].
      revert H1. apply Qpower_not_0. discriminate.
    + apply high_q, H2.
Qed.
Lemma f32_low x : finite32 x -> fval x == 0 \/ (2 # 1) ^ (-149) <= Qabs (fval x).
Proof.
  intros H. destruct x as [s|s| |s m e]; [left; reflexivity|left; reflexivity|left; reflexivity|]. right.
  destruct (fok_B 24 128 _ H) as (b & Eb & Fb & Vb). pose proof (abs_B2R_ge_emin 24 128 b) as Hb. apply Rle_Qle. rewrite Q2R_abs, fval_sv, <- Vb, <- bpowQ. apply Hb.
  destruct b; try discriminate. reflexivity.
Qed.
Lemma to64_ok x : finite32 x -> Qabs (fval x) <= (2 # 1) ^ 1000 -> fok 53 1024 (to64 x) /\ qclose p53 (fval (to64 x)) (fval x) /\ sv (to64 x) = rnd53 (sv x).
Proof.
  intros H T. destruct (convert_ok 53 1024 _ _ x (proj2 H)) as (F1 & F2 & F3).
  - destruct (f32_low x H) as [E|E]; [left; exact E|right]. eapply Qle_trans; [|exact E]. vm_compute. discriminate.
  - eapply Qle_trans; [exact T|]. vm_compute. discriminate.
  - split; [exact F1|]. split; [exact (close_q 53 p53 _ _ uu53 F2)|exact F3].
Qed.
Lemma within_p53 a b : 0 <= a -> 0 <= b -> within p53 3 a b -> within p24 1 a b.
Proof.
  intros Ha Hb [H1 H2]. assert (p53 ^ 3 <= p24 ^ 1) by (vm_compute; discriminate).
  split; (eapply Qle_trans; [eassumption|]; apply Qmult_le_compat_r; assumption).
Qed.
Lemma p24_ge : 1 <= p24. Proof. vm_compute. discriminate. Qed.
Lemma p53_ge : 1 <= p53. Proof. vm_compute. discriminate. Qed.

(** the constants *)
Definition alphaQ : Q := 10066330 # 33554432.
Lemma alpha_fin : finite32 alpha32 /\ fval alpha32 == alphaQ.
Proof. split; [split; [vm_compute; reflexivity|exact I]|vm_compute; reflexivity]. Qed.
Lemma alpha64 : fok 53 1024 (to64 alpha32) /\ fval (to64 alpha32) == alphaQ.
Proof. split; [split; [vm_compute; reflexivity|exact I]|vm_compute; reflexivity]. Qed.
Lemma beta64 : fok 53 1024 (SFsub 53 1024 (of_int 53 1024 1) (to64 alpha32)) /\ fval (SFsub 53 1024 (of_int 53 1024 1) (to64 alpha32)) == 1 - alphaQ.
Proof. split; [split; [vm_compute; reflexivity|exact I]|vm_compute; reflexivity]. Qed.
Lemma tol64 : fok 53 1024 lit_1em5 /\ p24 * p53 * fval lit_1em5 <= (100001 # 10000000000) /\ p24 * p53 * (99999 # 10000000000) < fval lit_1em5.
Proof. split; [split; [vm_compute; reflexivity|exact I]|]. split; [vm_compute; discriminate|vm_compute; reflexivity]. Qed.

Lemma share_ok r d : finite32 r -> alphaQ / 2 <= fval r <= top32 -> (1 <= d < 2 ^ 31)%Z ->
  finite32 (fl_share float32 r d) /\ within p24 2 (fval (fl_share float32 r d)) (fval r / inject_Z d) /\
    sv (fl_share float32 r d) = rnd24 (sv r / sv (of_int 24 128 d)).
Proof.
  intros Hr [B1 B2] Hd. cbn [fl_share float32]. destruct (of_int_ok d Hd) as [Hf [W1 W2]]. change (p24 ^ 1) with p24 in *. set (x := of_int 24 128 d) in *.
  assert (D1 : 1 <= inject_Z d) by (change 1 with (inject_Z 1); rewrite <- Zle_Qle; lia). assert (D2 : inject_Z d <= inject_Z (2 ^ 31)) by (rewrite <- Zle_Qle; lia).
  set (D := inject_Z d) in *. set (X := fval x) in *. change (inject_Z (2 ^ 31)) with (2147483648 # 1) in D2. unfold top32 in B2. change (inject_Z (2 ^ 100)) with (1267650600228229401496703205376 # 1) in B2.
  unfold p24 in W1, W2. assert (X1 : (1 # 2) <= X) by lra. assert (X2 : X <= (4294967296 # 1)) by lra.
  assert (A0 : (1 # 8) <= alphaQ / 2) by (vm_compute; discriminate).
  assert (Q0 : 0 <= fval r) by lra.
  assert (I0 : 0 < / X) by (apply Qinv_lt_0_compat; lra). assert (IX : X * / X == 1) by (apply Qmult_inv_r; lra). assert (ID : D * / D == 1) by (apply Qmult_inv_r; lra). assert (J0 : 0 < / D) by (apply Qinv_lt_0_compat; lra).
  assert (L : (1 # 4294967296) <= / X) by (assert (0 <= ((4294967296 # 1) - X) * / X) by (apply Qmult_le_0_compat; lra); lra).
  assert (U : / X <= 2) by (assert (0 <= (X - (1 # 2)) * / X) by (apply Qmult_le_0_compat; lra); lra).
  assert (Ll : (1 # 34359738368) <= fval r / X).
  { unfold Qdiv. assert (0 <= (fval r - (1 # 8)) * / X) by (apply Qmult_le_0_compat; lra). lra. }
  assert (Uu : fval r / X <= (2535301200456458802993406410752 # 1)).
  { unfold Qdiv. assert (0 <= fval r * (2 - / X)) by (apply Qmult_le_0_compat; lra). lra. }
  assert (E : (sv r / sv x)%R = Q2R (fval r / X)) by (unfold X; rewrite Q2R_div, !fval_sv; [reflexivity|fold X; lra]).
  destruct (div_ok 24 128 _ _ r x Hr Hf) as (F1 & F2 & F3).
  - intros C. rewrite <- fval_sv in C. fold X in C. assert (HX : (0 < Q2R X)%R) by (rewrite <- RMicromega.Q2R_0; apply Qlt_Rlt; lra). Lra.lra.
  - right. rewrite E. apply low_q. rewrite Qabs_pos by lra. eapply Qle_trans; [|exact Ll]. vm_compute. discriminate.
  - rewrite E. apply high_q. rewrite Qabs_pos by lra. eapply Qle_trans; [exact Uu|]. vm_compute. discriminate.
  - split; [exact F1|]. split; [|exact F3]. rewrite E in F2. apply (close_q 24 p24 _ _ uu24) in F2. apply qclose_within in F2; [|lra].
    change 2%Z with (1 + 1)%Z. apply (within_trans p24 p24_ge 1 1 _ (fval r / X)); [lia|lia|exact F2|]. unfold within, Qdiv. change (p24 ^ 1) with p24. unfold p24.
    assert (G1 : / D <= (16777217 # 16777216) * / X).
    { assert (0 <= ((16777217 # 16777216) * D - X) * (/ D * / X)) by (apply Qmult_le_0_compat; [lra|apply Qmult_le_0_compat; lra]).
      assert (D * / D * / X == / X) by (rewrite ID; ring). assert (X * / X * / D == / D) by (rewrite IX; ring). lra. }
    assert (G2 : / X <= (16777217 # 16777216) * / D).
    { assert (0 <= ((16777217 # 16777216) * X - D) * (/ D * / X)) by (apply Qmult_le_0_compat; [lra|apply Qmult_le_0_compat; lra]).
      assert (D * / D * / X == / X) by (rewrite ID; ring). assert (X * / X * / D == / D) by (rewrite IX; ring). lra. }
    split.
    + assert (0 <= fval r * ((16777217 # 16777216) * / X - / D)) by (apply Qmult_le_0_compat; lra). lra.
    + assert (0 <= fval r * ((16777217 # 16777216) * / D - / X)) by (apply Qmult_le_0_compat; lra). lra.
Qed.
Lemma top_100 : top32 <= (2 # 1) ^ 100. Proof. vm_compute. discriminate. Qed.
Lemma pow_le a b : (2 # 1) ^ a <= (2 # 1) ^ b -> forall x, x <= (2 # 1) ^ a -> x <= (2 # 1) ^ b.
Proof. intros H x Hx. eapply Qle_trans; eauto. Qed.

Lemma add32_ok a b : finite32 a -> finite32 b -> 0 <= fval a -> 0 <= fval b -> fval a + fval b <= top32 ->
  finite32 (fl_add float32 a b) /\ within p24 1 (fval (fl_add float32 a b)) (fval a + fval b) /\ sv (fl_add float32 a b) = rnd24 (sv a + sv b).
Proof.
  intros Ha Hb Na Nb T. cbn [fl_add float32]. assert (E : (sv a + sv b)%R = Q2R (fval a + fval b)) by (rewrite Q2R_plus, !fval_sv; reflexivity).
  destruct (add_ok 24 128 _ _ a b Ha Hb) as (F1 & F2 & F3).
  - rewrite E. apply high_q. rewrite Qabs_pos by lra. apply (pow_le 100); [vm_compute; discriminate|]. eapply Qle_trans; [exact T|apply top_100].
  - split; [exact F1|]. split; [|exact F3]. rewrite E in F2. apply (close_q 24 p24 _ _ uu24) in F2. apply qclose_within; [lra|exact F2].
Qed.
Lemma mix_ok x : finite32 x -> 0 <= fval x <= top32 ->
  finite32 (fl_mix float32 x) /\ within p24 2 (fval (fl_mix float32 x)) (alphaQ + (1 - alphaQ) * fval x) /\
    sv (fl_mix float32 x) = rnd24 (rnd53 (Q2R alphaQ + rnd53 (Q2R (1 - alphaQ) * rnd53 (sv x)))).
Proof.
  intros Hx [B1 B2]. assert (T100 : fval x <= (2 # 1) ^ 100) by (eapply Qle_trans; [exact B2|apply top_100]).
  cbn [fl_mix float32]. destruct (to64_ok x Hx) as (F1 & C1 & S1); [rewrite Qabs_pos by lra; apply (pow_le 100); [vm_compute; discriminate|exact T100]|].
  apply qclose_within in C1; [|lra]. set (y := to64 x) in *. destruct beta64 as [Fb Eb]. set (bt := SFsub 53 1024 _ _) in *. destruct alpha64 as [Fa Ea]. set (al := to64 alpha32) in *.
  pose proof (within_nonneg p53 p53_ge 1 _ _ ltac:(lia) B1 C1) as Y0.
  assert (A : (1 # 8) <= alphaQ /\ alphaQ <= (1 # 2)) by (split; vm_compute; discriminate). set (b := 1 - alphaQ) in *. assert (Bb : (1 # 2) <= b /\ b <= 1) by (unfold b; lra).
  assert (Ey : fval x <= 2 * fval y /\ fval y <= 2 * fval x).
  { destruct C1 as [G1 G2]. change (p53 ^ 1) with p53 in *. assert (p53 <= 2) by (vm_compute; discriminate). assert (0 <= (2 - p53) * fval y) by (apply Qmult_le_0_compat; lra). assert (0 <= (2 - p53) * fval x) by (apply Qmult_le_0_compat; lra). lra. }
  (* the product *)
  assert (E2 : (sv bt * sv y)%R = Q2R (b * fval y)) by (rewrite Q2R_mult, <- (Qeq_eqR _ _ Eb), !fval_sv; reflexivity).
  assert (B0 : 0 <= b * fval y) by (apply Qmult_le_0_compat; lra).
  assert (BT : b * fval y <= 2 * (2 # 1) ^ 100) by (assert (0 <= (1 - b) * fval y) by (apply Qmult_le_0_compat; lra); lra).
  destruct (mul_ok 53 1024 _ _ bt y Fb F1) as (F2 & C2 & S2).
  { rewrite E2. destruct (f32_low x Hx) as [Z0|L0].
    - left. assert (Y1 : fval y == 0) by lra. rewrite <- RMicromega.Q2R_0. apply Qeq_eqR. rewrite Y1. ring.
    - right. apply low_q. rewrite Qabs_pos by lra. rewrite Qabs_pos in L0 by lra. assert ((1 # 4) * fval x <= b * fval y) by (assert (0 <= (b - (1 # 2)) * fval y) by (apply Qmult_le_0_compat; lra); lra).
      eapply Qle_trans; [|exact H]. assert (K : (2 # 1) ^ (SpecFloat.emin 53 1024 + 53 - 1) <= (1 # 4) * (2 # 1) ^ (-149)) by (vm_compute; discriminate). lra. }
  { rewrite E2. apply high_q. rewrite Qabs_pos by exact B0. eapply Qle_trans; [exact BT|]. vm_compute. discriminate. }
  rewrite E2 in C2. apply (close_q 53 p53 _ _ uu53) in C2. apply qclose_within in C2; [|exact B0]. set (z := SFmul 53 1024 bt y) in *.
  pose proof (within_nonneg p53 p53_ge 1 _ _ ltac:(lia) B0 C2) as Z0.
  pose proof (within_trans p53 p53_ge 1 1 _ _ _ ltac:(lia) ltac:(lia) C2 (within_scale p53 1 b _ _ ltac:(lra) C1)) as C12. change (1 + 1)%Z with 2%Z in C12.
  assert (Ez : fval z <= 4 * (2 # 1) ^ 100).
  { destruct C2 as [_ G]. change (p53 ^ 1) with p53 in G. assert (p53 <= 2) by (vm_compute; discriminate). assert (0 <= (2 - p53) * (b * fval y)) by (apply Qmult_le_0_compat; lra). lra. }
  (* the sum *)
  assert (E3 : (sv al + sv z)%R = Q2R (alphaQ + fval z)) by (rewrite Q2R_plus, <- (Qeq_eqR _ _ Ea), !fval_sv; reflexivity).
  assert (K100 : (1 # 1) <= (2 # 1) ^ 100) by (vm_compute; discriminate).
  destruct (add_ok 53 1024 _ _ al z Fa F2) as (F3 & C3 & S3).
  { rewrite E3. apply high_q. rewrite Qabs_pos by lra. assert (K : 5 * (2 # 1) ^ 100 <= (2 # 1) ^ (1024 - 2)) by (vm_compute; discriminate). eapply Qle_trans; [|exact K]. lra. }
  rewrite E3 in C3. apply (close_q 53 p53 _ _ uu53) in C3. apply qclose_within in C3; [|lra]. set (w := SFadd 53 1024 al z) in *.
  pose proof (within_trans p53 p53_ge 1 2 _ _ _ ltac:(lia) ltac:(lia) C3 (within_shift p53 p53_ge 2 alphaQ _ _ ltac:(lia) ltac:(lra) C12)) as C123. change (1 + 2)%Z with 3%Z in C123.
  assert (R0 : 0 <= b * fval x) by (apply Qmult_le_0_compat; lra).
  pose proof (within_nonneg p53 p53_ge 3 _ (alphaQ + b * fval x) ltac:(lia) ltac:(lra) C123) as W0. apply within_p53 in C123; [|exact W0|lra].
  assert (Ew : (1 # 16) <= fval w /\ fval w <= 10 * (2 # 1) ^ 100).
  { destruct C3 as [G1 G2]. change (p53 ^ 1) with p53 in *. assert (p53 <= 2) by (vm_compute; discriminate). assert (0 <= (2 - p53) * (alphaQ + fval z)) by (apply Qmult_le_0_compat; lra). assert (0 <= (2 - p53) * fval w) by (apply Qmult_le_0_compat; lra). lra. }
  (* back to float *)
  destruct (convert_ok 24 128 _ _ w (proj2 F3)) as (F4 & C4 & S4).
  { right. rewrite Qabs_pos by lra. eapply Qle_trans; [|apply Ew]. vm_compute. discriminate. }
  { rewrite Qabs_pos by lra. eapply Qle_trans; [apply Ew|]. vm_compute. discriminate. }
  split; [exact F4|]. split.
  2:{ change (to32 w) with (convert 24 128 w). rewrite S4, S3, S2, S1. rewrite <- !fval_sv, (Qeq_eqR _ _ Ea), (Qeq_eqR _ _ Eb). reflexivity. }
  apply (close_q 24 p24 _ _ uu24) in C4. apply qclose_within in C4; [|lra].
  change 2%Z with (1 + 1)%Z. apply (within_trans p24 p24_ge 1 1 _ (fval w)); [lia|lia|exact C4|exact C123].
Qed.
Lemma Qabs_abs_pos q : Qabs (Qabs q) == Qabs q.
Proof. apply Qabs_pos, Qabs_nonneg. Qed.
Lemma far_ok x y : finite32 x -> finite32 y -> 0 <= fval x <= top32 -> 0 <= fval y <= top32 ->
  exists z, (fl_far float32 x y = true <-> fval lit_1em5 < z) /\ 0 <= z /\ Qabs (fval x - fval y) <= p24 * p53 * z /\ z <= p24 * p53 * Qabs (fval x - fval y).
Proof.
  intros Hx Hy [X0 X1] [Y0 Y1]. cbn [fl_far float32]. pose proof top_100 as T.
  assert (E : (sv x - sv y)%R = Q2R (fval x - fval y)) by (rewrite Q2R_minus, !fval_sv; reflexivity).
  assert (B : Qabs (fval x - fval y) <= (2 # 1) ^ 100) by (apply Qabs_case; intros _; lra).
  destruct (sub_ok 24 128 _ _ x y Hx Hy) as (F1 & C1 & _); [rewrite E; apply high_q, (pow_le 100); [vm_compute; discriminate|exact B]|].
  rewrite E in C1. apply (close_q 24 p24 _ _ uu24) in C1. destruct C1 as (G1 & G2 & _). set (d := SFsub 24 128 x y) in *. destruct (abs_ok 24 128 d F1) as [F2 E2].
  assert (E3 : fval (SFabs d) == Qabs (fval d)) by (apply eqR_Qeq; rewrite fval_sv, E2, Q2R_abs, fval_sv; reflexivity).
  assert (P2 : p24 <= 2) by (vm_compute; discriminate). pose proof (Qabs_nonneg (fval d)) as D0. pose proof (Qabs_nonneg (fval x - fval y)) as S0.
  assert (Bd : Qabs (fval d) <= 2 * (2 # 1) ^ 100) by (assert (0 <= (2 - p24) * Qabs (fval x - fval y)) by (apply Qmult_le_0_compat; lra); lra).
  destruct (to64_ok (SFabs d) F2) as (F3 & C3 & _); [rewrite E3, Qabs_abs_pos; eapply Qle_trans; [exact Bd|vm_compute; discriminate]|].
  destruct C3 as (G3 & G4 & G5). assert (Z0 : 0 <= fval (to64 (SFabs d))) by (apply G5; rewrite E3; exact D0). rewrite (Qabs_pos _ Z0), E3, Qabs_abs_pos in *. set (z := fval (to64 (SFabs d))) in *.
  exists z. split; [|split; [exact Z0|]].
  - destruct tol64 as [Ft _]. rewrite (ltb_is 53 1024 _ _ Ft F3). rewrite <- !fval_sv. fold z. destruct (Rlt_bool_spec (Q2R (fval lit_1em5)) (Q2R z)) as [L|L].
    + split; [intros _; apply Rlt_Qlt, L|reflexivity].
    + split; [discriminate|]. intros C. apply Qlt_Rlt in C. Lra.lra.
  - assert (0 <= p24 * (p53 * z - Qabs (fval d))) by (apply Qmult_le_0_compat; [vm_compute; discriminate|lra]). assert (0 <= p53 * (p24 * Qabs (fval x - fval y) - Qabs (fval d))) by (apply Qmult_le_0_compat; [vm_compute; discriminate|lra]). split; lra.
Qed.
Lemma float32_rounds : rounds float32 fval finite32 alphaQ p24 top32 (100001 # 10000000000) (99999 # 10000000000).
Proof.
  destruct tol64 as (_ & T1 & T2).
  split.
  - exact alpha_fin.
  - intros r d H1 H2 H3. destruct (share_ok r d H1 H2 H3) as (A & B & _). auto.
  - intros a b H1 H2 H3 H4 H5. destruct (add32_ok a b H1 H2 H3 H4 H5) as (A & B & _). auto.
  - intros x H1 H2. destruct (mix_ok x H1 H2) as (A & B & _). auto.
  - intros x y Hx Hy Bx By Hf. destruct (far_ok x y Hx Hy Bx By) as (z & Hz & Z0 & L1 & L2). eapply Qle_trans; [exact L1|]. eapply Qle_trans; [|exact T1].
    assert (L : z <= fval lit_1em5) by (apply Qnot_lt_le; intros C; apply Hz in C; congruence).
    assert (0 <= (p24 * p53) * (fval lit_1em5 - z)) by (apply Qmult_le_0_compat; [vm_compute; discriminate|lra]). lra.
  - intros x y Hx Hy Bx By Hf. destruct (far_ok x y Hx Hy Bx By) as (z & Hz & Z0 & L1 & L2). apply Hz in Hf. apply Qnot_le_lt. intros C.
    assert (0 <= (p24 * p53) * ((99999 # 10000000000) - Qabs (fval x - fval y))) by (apply Qmult_le_0_compat; [vm_compute; discriminate|lra]). lra.
Qed.
