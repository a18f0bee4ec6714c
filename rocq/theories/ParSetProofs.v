From Verif Require Import BaseLemmas Bits BitsProofs Segment Conc ConcProofs ParSet.

Lemma ploc_eqb_spec a b : ploc_eqb a b = true <-> a = b.
Proof. destruct a, b; cbn; rewrite ?Z.eqb_eq; split; intros; try congruence; try discriminate; auto. Qed.

Section PSP.
  Context {T byte : Type}.
  Notation thread := (thread ploc (pcell T)).
  Notation mput := (mput (V := pcell T) ploc_eqb).
  Notation psteps := (psteps (V := pcell T) ploc_eqb).

  (** *** different words *)
  Section Good.
    Variables (x wo : Z) (val : option T).
    Notation wx := (Z.shiftr x 5).
    (** the thread ends with the bit set and the value stored, whatever happens to the shared count
        meanwhile; [w], [c]: what its word and its value are now *)
    Fixpoint good (w : Z) (c : option T) (t : thread) : Prop :=
      match t with
      | Fin => w = Z.lor wo (Z.shiftl 1 (Z.land x 31)) /\ c = val
      | Fail _ => False
      | Rd (PW i) k => i = wx /\ good w c (k (CZ w))
      | Rd PN k => forall z, good w c (k (CZ z))
      | Rd PU k => good w c (k (CB false))
      | Wr (PW i) (CZ z) t => i = wx /\ good z c t
      | Wr (PX i) (CV c') t => i = x /\ good w c' t
      | Wr PN (CZ _) t => good w c t
      | Wr PU (CB false) t => good w c t
      | _ => False
      end.
    Lemma good_set nints c : 0 <= Z.land x 31 -> good wo c (p_set nints (x + 1) val).
    Proof.
      intros B. unfold p_set, p_initialize, p_rdB, p_rdZ. replace (x + 1 - 1) with x by lia. cbn [good]. split; auto.
      assert (good wo c (Wr (PX x) (CV val) (p_bv_set x (Wr PU (CB false) Fin)))) as H.
      { cbn [good]. split; auto. unfold p_bv_set, p_rdZ. cbn [good]. split; auto. rewrite land_pow2_testbit by auto. destruct (Z.testbit wo (Z.land x 31)) eqn:Eb; cbn [negb good].
        - split; auto. symmetry. apply Z.bits_inj'. intros j Hj. rewrite Z.lor_spec, Z.shiftl_spec by lia. destruct (Z.eq_dec j (Z.land x 31)) as [->|]; [rewrite Eb; reflexivity|].
          rewrite <- Z.shiftl_spec, Z.shiftl_1_l, Z.pow2_bits_false by lia. apply orb_false_r.
        - auto. }
      destruct (Z.testbit wo (Z.land x 31)); [exact H|]. cbn [good]. intros z. exact H.
    Qed.
  End Good.

  Section Pool.
    Variables (s : seg T byte) (b : buffer T byte) (ws : list Z) (l : list (Z * option T)).
    Hypothesis Hb : b_uninit b = false.
    Hypothesis Hw : b_bits b = Some ws.
    Hypothesis Hl : forall p, In p l -> 0 <= fst p - 1 < zlen (b_value b) /\ fst p - 1 < 32 * zlen ws.
    Hypothesis Hd : forall i j p q, nth_error l i = Some p -> nth_error l j = Some q -> Z.shiftr (fst p - 1) 5 = Z.shiftr (fst q - 1) 5 -> i = j.
    Notation at_ p := (fst p - 1).
    Notation wd p := (Z.shiftr (fst p - 1) 5).
    Definition word (i : Z) : Z := match rd ws i with Ok z => z | Err _ => 0 end.
    Definition pinv (st : list thread * (ploc -> option (pcell T))) : Prop :=
      length (fst st) = length l /\
      (forall i p t, nth_error l i = Some p -> nth_error (fst st) i = Some t ->
         exists w c, snd st (PW (wd p)) = Some (CZ w) /\ snd st (PX (at_ p)) = Some (CV c) /\ good (at_ p) (word (wd p)) (snd p) w c t) /\
      snd st PU = Some (CB false) /\ (exists z, snd st PN = Some (CZ z)) /\
      (forall i, (forall p, In p l -> wd p <> i) -> snd st (PW i) = pmem b (PW i)) /\
      (forall i, (forall p, In p l -> at_ p <> i) -> snd st (PX i) = pmem b (PX i)).
    Lemma pinv_init : pinv (p_pool s l, pmem b).
    Proof.
      unfold p_pool. split; [apply map_length|]. cbn [fst snd]. split; [|split; [cbn; rewrite Hb; reflexivity|split; [cbn; eauto|split; auto]]].
      intros i p t Hi Ht. rewrite nth_error_map, Hi in Ht. injection Ht as <-. destruct (Hl p (nth_error_In _ _ Hi)) as [B1 B2].
      assert (0 <= wd p < zlen ws) as Bw by (rewrite shiftr5; split; [apply Z.div_pos; lia|apply Z.div_lt_upper_bound; lia]).
      destruct (rd_ok ws (wd p) Bw) as (w & Ew). destruct (rd_ok (b_value b) (at_ p) B1) as (c & Ec). exists w, c. cbn [pmem]. rewrite Hw, Ew, Ec. split; auto. split; auto.
      replace (word (wd p)) with w by (unfold word; rewrite Ew; reflexivity). pose proof (good_set (at_ p) w (snd p) (s_nints s) c) as G. replace (at_ p + 1) with (fst p) in G by lia. apply G. rewrite land31. apply Z.mod_pos_bound. lia.
    Qed.
    Lemma at_inj i j p q : nth_error l i = Some p -> nth_error l j = Some q -> at_ p = at_ q -> i = j.
    Proof. intros Hi Hj E. apply (Hd i j p q); auto. rewrite E. reflexivity. Qed.

    Lemma pinv_step st st' : pinv st -> pstep ploc_eqb st st' -> pinv st'.
    Proof.
      intros (Len & HT & HU & (z & HN) & OW & OX) St. inversion St as [ts m i lo k v Hi Hm|ts m i lo v t old Hi Hm]; subst; cbn [fst snd] in *.
      - assert (i < length ts)%nat as Li by (apply nth_error_Some; congruence). split; [cbn; rewrite length_upd; auto|]. cbn [fst snd]. split; [|eauto 10].
        intros j p t Hj Ht. destruct (Nat.eq_dec i j) as [<-|N]; [|rewrite nth_error_upd_other in Ht by auto; eauto]. rewrite nth_error_upd_same in Ht by auto. injection Ht as <-.
        destruct (HT i p _ Hj Hi) as (w & c & Ew & Ec & G). exists w, c. split; auto. split; auto. cbn [good] in G. destruct lo as [i'|i'| |].
        + destruct G as [-> G]. rewrite Ew in Hm. injection Hm as <-. exact G.
        + destruct G.
        + rewrite HN in Hm. injection Hm as <-. apply G.
        + rewrite HU in Hm. injection Hm as <-. exact G.
      - assert (i < length ts)%nat as Li by (apply nth_error_Some; congruence). destruct (nth_error l i) as [p|] eqn:Hp; [|apply nth_error_None in Hp; lia].
        destruct (HT i p _ Hp Hi) as (w & c & Ew & Ec & G). cbn [good] in G.
        assert (In p l) as Ip by (eapply nth_error_In; eauto).
        assert (forall x, lo <> x -> mput m lo v x = m x) as Ho by (intros x Nx; apply (mput_other _ ploc_eqb_spec); auto).
        assert (mput m lo v lo = Some v) as Hs by (apply (mput_same _ ploc_eqb_spec)).
        assert (forall j q t', j <> i -> nth_error l j = Some q -> nth_error (upd ts i t) j = Some t' -> lo <> PW (wd q) -> lo <> PX (at_ q) ->
          exists w c, mput m lo v (PW (wd q)) = Some (CZ w) /\ mput m lo v (PX (at_ q)) = Some (CV c) /\ good (at_ q) (word (wd q)) (snd q) w c t') as Hoth.
        { intros j q t' Nj Hj Ht' N1 N2. rewrite nth_error_upd_other in Ht' by auto. destruct (HT j q t' Hj Ht') as (w' & c' & E1 & E2 & G'). exists w', c'. rewrite !Ho by auto. auto. }
        split; [cbn; rewrite length_upd; auto|]. cbn [fst snd]. destruct lo as [i'|i'| |].
        + destruct v as [z'| |]; try contradiction. destruct G as [-> G]. split; [|split; [rewrite Ho by discriminate; auto|split; [exists z; rewrite Ho by discriminate; auto|split]]].
          * intros j q t' Hj Ht'. destruct (Nat.eq_dec j i) as [->|Nj].
            -- rewrite nth_error_upd_same in Ht' by auto. injection Ht' as <-. rewrite Hp in Hj. injection Hj as <-. exists z', c. rewrite Hs, Ho by discriminate. auto.
            -- apply (Hoth j); auto; [|discriminate]. intros E. injection E as E. apply Nj. eapply Hd; eauto.
          * intros i0 Hn. rewrite Ho; auto. intros E. injection E as E. apply (Hn p Ip E).
          * intros i0 Hn. rewrite Ho by discriminate. auto.
        + destruct v as [|c'|]; try contradiction. destruct G as [-> G]. split; [|split; [rewrite Ho by discriminate; auto|split; [exists z; rewrite Ho by discriminate; auto|split]]].
          * intros j q t' Hj Ht'. destruct (Nat.eq_dec j i) as [->|Nj].
            -- rewrite nth_error_upd_same in Ht' by auto. injection Ht' as <-. rewrite Hp in Hj. injection Hj as <-. exists w, c'. rewrite Hs, Ho by discriminate. auto.
            -- apply (Hoth j); auto; [discriminate|]. intros E. injection E as E. apply Nj. eapply at_inj; eauto.
          * intros i0 Hn. rewrite Ho by discriminate. auto.
          * intros i0 Hn. rewrite Ho; auto. intros E. injection E as E. apply (Hn p Ip E).
        + destruct v as [z'| |]; try contradiction. split; [|split; [rewrite Ho by discriminate; auto|split; [exists z'; auto|split; intros; rewrite Ho by discriminate; auto]]].
          intros j q t' Hj Ht'. destruct (Nat.eq_dec j i) as [->|Nj]; [|apply (Hoth j); auto; discriminate].
          rewrite nth_error_upd_same in Ht' by auto. injection Ht' as <-. rewrite Hp in Hj. injection Hj as <-. exists w, c. rewrite !Ho by discriminate. auto.
        + destruct v as [| |[]]; try contradiction. split; [|split; [auto|split; [exists z; rewrite Ho by discriminate; auto|split; intros; rewrite Ho by discriminate; auto]]].
          intros j q t' Hj Ht'. destruct (Nat.eq_dec j i) as [->|Nj]; [|apply (Hoth j); auto; discriminate].
          rewrite nth_error_upd_same in Ht' by auto. injection Ht' as <-. rewrite Hp in Hj. injection Hj as <-. exists w, c. rewrite !Ho by discriminate. auto.
    Qed.
    Lemma pinv_steps st st' : psteps st st' -> pinv st -> pinv st'.
    Proof. induction 1 as [|s1 s2 s3 H IH St]; intros Hi; auto. exact (pinv_step s2 s3 (IH Hi) St). Qed.
    Lemma pinv_not_bad st : pinv st -> ~ bad st.
    Proof.
      destruct st as [ts m]. intros (Len & HT & HU & (z & HN) & OW & OX) (t & It & Hbad). cbn [fst snd] in *. apply In_nth_error in It as (i & Hi). assert (i < length ts)%nat as Li by (apply nth_error_Some; rewrite Hi; discriminate).
      destruct (nth_error l i) as [p|] eqn:Hp; [|apply nth_error_None in Hp; lia]. destruct (HT i p t Hp Hi) as (w & c & Ew & Ec & G).
      destruct t as [|e|lo k|lo v t]; cbn [good] in G; cbn iota in Hbad; auto.
      - destruct lo as [i'|i'| |]; try contradiction; [destruct G as [-> _]| |]; rewrite ?Ew, ?HN, ?HU in Hbad; discriminate.
      - destruct lo as [i'|i'| |], v as [| |[]]; try contradiction; try (destruct G as [-> _]); rewrite ?Ew, ?Ec, ?HN, ?HU in Hbad; discriminate.
    Qed.
  End Pool.

  Lemma sets_different_words (s : seg T byte) (b : buffer T byte) ws (l : list (Z * option T)) : s_prop s = Some b -> b_uninit b = false -> b_bits b = Some ws ->
    (forall p, In p l -> 0 <= fst p - 1 < zlen (b_value b) /\ fst p - 1 < 32 * zlen ws) ->
    (forall i j p q, nth_error l i = Some p -> nth_error l j = Some q -> (fst p - 1) / 32 = (fst q - 1) / 32 -> i = j) ->
    sets_safe s l /\ forall s', sets_at_once s l s' -> exists b' ws', s_prop s' = Some b' /\ b_uninit b' = false /\ b_bits b' = Some ws' /\
      (forall k, tb ws' k = tb ws k || existsb (fun p => fst p - 1 =? k) l) /\
      (forall k, (forall p, In p l -> fst p - 1 <> k) -> rd (b_value b') k = rd (b_value b) k) /\
      (forall p, In p l -> rd (b_value b') (fst p - 1) = Ok (snd p)).
  Proof.
    intros Es Hu Hw Hl Hd0.
    assert (forall i j p q, nth_error l i = Some p -> nth_error l j = Some q -> Z.shiftr (fst p - 1) 5 = Z.shiftr (fst q - 1) 5 -> i = j) as Hd by (intros i j p q; rewrite !shiftr5; apply Hd0).
    split.
    - intros b0 st E0 Hst. rewrite Es in E0. injection E0 as <-. apply (pinv_not_bad b ws l Hd). exact (pinv_steps b ws l Hd _ _ Hst (pinv_init s b ws l Hu Hw Hl Hd)).
    - intros s' (b0 & w & v & n & u & m' & ts' & E0 & -> & Hst & Hfin & Hm). rewrite Es in E0. injection E0 as <-.
      pose proof (pinv_steps b ws l Hd _ _ Hst (pinv_init s b ws l Hu Hw Hl Hd)) as (Len & HT & HU & _ & OW & OX). cbn [fst snd] in *.
      set (b' := set_uninit u (set_nnz n (set_bits w (set_value v b)))) in *. exists b', w. split; [reflexivity|].
      rewrite Hm in HU. cbn in HU. injection HU as Eu. split; [exact Eu|]. split; [reflexivity|].
      assert (forall p, In p l -> rd w (Z.shiftr (fst p - 1) 5) = Ok (Z.lor (word ws (Z.shiftr (fst p - 1) 5)) (Z.shiftl 1 (Z.land (fst p - 1) 31))) /\ rd v (fst p - 1) = Ok (snd p)) as Hp.
      { intros p Ip. apply In_nth_error in Ip as (i & Hi). destruct (nth_error ts' i) as [t|] eqn:Ht; [|apply nth_error_None in Ht; assert (i < length l)%nat by (apply nth_error_Some; congruence); lia].
        destruct (HT i p t Hi Ht) as (w' & c' & Ew & Ec & G). rewrite (Hfin t (nth_error_In _ _ Ht)) in G. cbn [good] in G. destruct G as [-> ->]. rewrite Hm in Ew, Ec. unfold b' in Ew, Ec. cbn [pmem b_bits b_value b_uninit set_uninit set_nnz set_bits set_value] in Ew, Ec.
        destruct (rd w (Z.shiftr (fst p - 1) 5)); [|discriminate]. destruct (rd v (fst p - 1)); [|discriminate]. split; congruence. }
      assert (zlen w = zlen ws) as Lw.
      { assert (forall i, (exists z, rd w i = Ok z) <-> (exists z, rd ws i = Ok z)) as Hz.
        { intros i. destruct (Exists_dec (fun p => Z.shiftr (fst p - 1) 5 = i) l) as [Hx|Hx]; [intros; apply Z.eq_dec| |].
          - apply Exists_exists in Hx as (p & Ip & <-). destruct (Hp p Ip) as [E _]. destruct (Hl p Ip) as [B1 B2]. split; intros _; [|eauto]. apply rd_ok. rewrite shiftr5. split; [apply Z.div_pos; lia|apply Z.div_lt_upper_bound; lia].
          - specialize (OW i). rewrite Hm in OW. unfold b' in OW. cbn [pmem b_bits b_value b_uninit set_uninit set_nnz set_bits set_value] in OW. rewrite Hw in OW. assert (forall p, In p l -> Z.shiftr (fst p - 1) 5 <> i) as Hn by (intros p Ip E; apply Hx, Exists_exists; eauto). specialize (OW Hn).
            destruct (rd w i), (rd ws i); try discriminate; split; intros [? ?]; eauto; discriminate. }
        pose proof (zlen_nonneg w). pose proof (zlen_nonneg ws). destruct (Z.lt_trichotomy (zlen w) (zlen ws)) as [L|[E|L]]; auto; exfalso.
        - destruct (proj2 (Hz (zlen w))) as (z & E); [apply rd_ok; lia|]. apply rd_bounds in E. lia.
        - destruct (proj1 (Hz (zlen ws))) as (z & E); [apply rd_ok; lia|]. apply rd_bounds in E. lia. }
      split; [|split].
      + intros k. destruct (Z.lt_ge_cases k 0) as [Nk|Pk]; [|destruct (Z.lt_ge_cases k (32 * zlen ws)) as [Lk|Gk]].
        * rewrite !tb_out by lia. symmetry. apply not_true_is_false. intros H. apply existsb_exists in H as (p & Ip & Ep). apply Z.eqb_eq in Ep. destruct (Hl p Ip). lia.
        * destruct (tb_rd ws k ltac:(lia)) as (z & Ez & ->). destruct (tb_rd w k ltac:(lia)) as (z' & Ez' & ->).
          destruct (Exists_dec (fun p => Z.shiftr (fst p - 1) 5 = k / 32) l) as [Hx|Hx]; [intros; apply Z.eq_dec| |].
          -- apply Exists_exists in Hx as (p & Ip & Epk). destruct (Hp p Ip) as [E _]. rewrite Epk, Ez' in E. injection E as ->. unfold word. rewrite Ez.
             rewrite Z.lor_spec, Z.shiftl_1_l, Z.pow2_bits_eqb, land31 by (rewrite land31; apply Z.mod_pos_bound; lia). f_equal. rewrite shiftr5 in Epk.
             destruct (Z.eqb_spec ((fst p - 1) mod 32) (k mod 32)) as [Em|Nm].
             ++ symmetry. apply existsb_exists. exists p. split; auto. apply Z.eqb_eq. pose proof (Z.div_mod (fst p - 1) 32). pose proof (Z.div_mod k 32). lia.
             ++ symmetry. apply not_true_is_false. intros H. apply existsb_exists in H as (p' & Ip' & Ep'). apply Z.eqb_eq in Ep'. apply In_nth_error in Ip as (i & Hi). apply In_nth_error in Ip' as (j & Hj).
                assert (i = j) as <- by (apply (Hd0 i j p p'); auto; rewrite Ep'; auto). rewrite Hi in Hj. injection Hj as <-. apply Nm. rewrite Ep'. reflexivity.
          -- assert (forall p, In p l -> Z.shiftr (fst p - 1) 5 <> k / 32) as Hn by (intros p Ip E; apply Hx, Exists_exists; eauto). specialize (OW _ Hn). rewrite Hm in OW. unfold b' in OW. cbn [pmem b_bits b_value b_uninit set_uninit set_nnz set_bits set_value] in OW. rewrite Hw, Ez, Ez' in OW. injection OW as ->.
             symmetry. assert (existsb (fun p => fst p - 1 =? k) l = false) as ->; [|apply orb_false_r]. apply not_true_is_false. intros H. apply existsb_exists in H as (p & Ip & Ep). apply Z.eqb_eq in Ep. apply (Hn p Ip). rewrite shiftr5, Ep. reflexivity.
        * rewrite !tb_out by lia. symmetry. apply not_true_is_false. intros H. apply existsb_exists in H as (p & Ip & Ep). apply Z.eqb_eq in Ep. destruct (Hl p Ip). lia.
      + intros k Hn. specialize (OX k Hn). rewrite Hm in OX. unfold b' in *. cbn [pmem b_bits b_value b_uninit set_uninit set_nnz set_bits set_value] in OX. cbn [pmem b_bits b_value b_uninit set_uninit set_nnz set_bits set_value]. destruct (rd v k) as [c|e] eqn:E1, (rd (b_value b) k) as [c2|e2] eqn:E2; try congruence. f_equal. unfold rd in E1, E2. destruct (k <? 0), (nth_error v (Z.to_nat k)), (nth_error (b_value b) (Z.to_nat k)); congruence.
      + intros p Ip. apply (Hp p Ip).
  Qed.
End PSP.

(** *** the same word *)
Section Lose.
  Context {T byte : Type}.
  Notation thread := (thread ploc (pcell T)).
  Notation mput := (mput (V := pcell T) ploc_eqb).
  Notation psteps := (psteps (V := pcell T) ploc_eqb).
  Lemma psteps_cons s1 s2 s3 : pstep (V := pcell T) ploc_eqb s1 s2 -> psteps s2 s3 -> psteps s1 s3.
  Proof. intros H. induction 1 as [|a b c Hb IH Hc]; [exact (steps_more _ _ _ _ (steps_refl _ _) H)|]. exact (steps_more _ _ _ _ (IH H) Hc). Qed.
  Lemma step0r ts m l k v st : m l = Some v -> psteps (k v :: ts, m) st -> psteps (Rd l k :: ts, m) st.
  Proof. intros Hm H. eapply psteps_cons; [|exact H]. exact (step_rd ploc_eqb (Rd l k :: ts) m 0 l k v eq_refl Hm). Qed.
  Lemma step0w ts m l v t old st : m l = Some old -> psteps (t :: ts, mput m l v) st -> psteps (Wr l v t :: ts, m) st.
  Proof. intros Hm H. eapply psteps_cons; [|exact H]. exact (step_wr ploc_eqb (Wr l v t :: ts) m 0 l v t old eq_refl Hm). Qed.
  Lemma step1r a ts m l k v st : m l = Some v -> psteps (a :: k v :: ts, m) st -> psteps (a :: Rd l k :: ts, m) st.
  Proof. intros Hm H. eapply psteps_cons; [|exact H]. exact (step_rd ploc_eqb (a :: Rd l k :: ts) m 1 l k v eq_refl Hm). Qed.
  Lemma step1w a ts m l v t old st : m l = Some old -> psteps (a :: t :: ts, mput m l v) st -> psteps (a :: Wr l v t :: ts, m) st.
  Proof. intros Hm H. eapply psteps_cons; [|exact H]. exact (step_wr ploc_eqb (a :: Wr l v t :: ts) m 1 l v t old eq_refl Hm). Qed.

  Lemma rd_upd_wr {A} (l : list A) i a l' : wr l i a = Ok l' -> forall j, rd l' j = if i =? j then Ok a else rd l j.
  Proof.
    intros E j. destruct (Z.eqb_spec i j) as [<-|N]; [eapply wr_same_rd; eauto|eapply wr_other_rd; eauto].
  Qed.

  (** the schedule: the thread for [i] reads its word, the thread for [j] runs, the thread for [i]
      goes on *)
  Lemma sets_lose_exec (s : seg T byte) (b : buffer T byte) ws w i j vi vj ws' v1 v2 : s_prop s = Some b -> b_uninit b = false -> b_bits b = Some ws ->
    1 <= i <= zlen (b_value b) -> 1 <= j <= zlen (b_value b) -> i <> j -> (i - 1) / 32 = (j - 1) / 32 ->
    rd ws ((i - 1) / 32) = Ok w -> Z.testbit w ((i - 1) mod 32) = false -> Z.testbit w ((j - 1) mod 32) = false ->
    wr ws ((i - 1) / 32) (Z.lor w (Z.shiftl 1 ((i - 1) mod 32))) = Ok ws' -> wr (b_value b) (i - 1) vi = Ok v1 -> wr v1 (j - 1) vj = Ok v2 ->
    sets_at_once s [(i, vi); (j, vj)] (set_prop (Some (set_uninit false (set_nnz (b_nnz b + 2) (set_bits ws' (set_value v2 b))))) s).
  Proof.
    intros Es Hu Hw Bi Bj N Eij Ew E1 E2 Ews' Ev1 Ev2. set (k := (i - 1) / 32) in *. set (bi := (i - 1) mod 32) in *. set (bj := (j - 1) mod 32) in *.
    assert (0 <= bi < 32) as Bbi by (apply Z.mod_pos_bound; lia). assert (0 <= bj < 32) as Bbj by (apply Z.mod_pos_bound; lia).
    assert (pmem b (PW k) = Some (CZ w)) as Mw by (cbn [pmem]; rewrite Hw, Ew; reflexivity).
    destruct (rd_ok (b_value b) (i - 1) ltac:(lia)) as (c1 & Ec1). destruct (rd_ok (b_value b) (j - 1) ltac:(lia)) as (c2 & Ec2).
    assert (pmem b (PX (i - 1)) = Some (CV c1)) as M1 by (cbn [pmem]; rewrite Ec1; reflexivity). assert (pmem b (PX (j - 1)) = Some (CV c2)) as M2 by (cbn [pmem]; rewrite Ec2; reflexivity).
    assert (pmem b PN = Some (CZ (b_nnz b))) as Mn by reflexivity. assert (pmem b PU = Some (CB false)) as Mu by (cbn; rewrite Hu; reflexivity).
    exists b, ws', v2, (b_nnz b + 2), false. eexists _, [Fin; Fin]. split; auto. split; [reflexivity|]. split; [|split; [intros t [<-|[<-|[]]]; reflexivity|]].
    - unfold p_pool, p_set, p_initialize, p_rdB, p_rdZ, p_bv_set, p_rdZ. cbn [map fst snd]. rewrite !shiftr5, !land31. rewrite <- Eij. fold k bi bj.
        (* the first thread up to the point where it has read its word *)
        eapply step0r; [exact Mu|]. eapply step0w; [exact Mu|]. eapply step0r; [unfold mput, Conc.mput; cbn [ploc_eqb]; exact Mw|]. cbv beta zeta iota. rewrite E1.
        eapply step0r; [unfold Conc.mput; cbn [ploc_eqb]; exact Mn|]. cbv beta zeta iota. eapply step0w; [unfold Conc.mput; cbn [ploc_eqb]; exact Mn|]. eapply step0w; [unfold Conc.mput; cbn [ploc_eqb]; exact M1|].
        eapply step0r; [unfold Conc.mput; cbn [ploc_eqb]; exact Mw|]. cbv beta zeta iota. rewrite (land_pow2_testbit w bi), E1 by lia. cbn [negb].
        (* the second thread *)
        eapply step1r; [unfold Conc.mput; cbn [ploc_eqb]; reflexivity|]. cbv beta zeta iota. eapply step1w; [unfold Conc.mput; cbn [ploc_eqb]; reflexivity|].
        eapply step1r; [unfold Conc.mput; cbn [ploc_eqb]; exact Mw|]. cbv beta zeta iota. rewrite E2.
        eapply step1r; [unfold Conc.mput; cbn [ploc_eqb]; reflexivity|]. cbv beta zeta iota. eapply step1w; [unfold Conc.mput; cbn [ploc_eqb]; reflexivity|].
        eapply step1w; [unfold Conc.mput; cbn [ploc_eqb]; destruct (Z.eqb_spec (i - 1) (j - 1)); [lia|]; exact M2|].
        eapply step1r; [unfold Conc.mput; cbn [ploc_eqb]; exact Mw|]. cbv beta zeta iota. rewrite (land_pow2_testbit w bj), E2 by lia. cbn [negb].
        eapply step1w; [unfold Conc.mput; cbn [ploc_eqb]; exact Mw|]. eapply step1w; [unfold Conc.mput; cbn [ploc_eqb]; reflexivity|].
        (* the first thread again *)
        eapply step0w; [unfold Conc.mput; cbn [ploc_eqb]; rewrite Z.eqb_refl; reflexivity|]. eapply step0w; [unfold Conc.mput; cbn [ploc_eqb]; reflexivity|]. apply steps_refl.
    - intros x. unfold Conc.mput. destruct x as [x|x| |]; cbn [ploc_eqb pmem b_bits b_value b_uninit b_nnz set_uninit set_nnz set_bits set_value].
      + rewrite (rd_upd_wr _ _ _ _ Ews' x), Hw. destruct (k =? x); reflexivity.
      + rewrite (rd_upd_wr _ _ _ _ Ev2 x), (rd_upd_wr _ _ _ _ Ev1 x). destruct (Z.eqb_spec (j - 1) x) as [<-|]; [|destruct (i - 1 =? x); reflexivity]. destruct (Z.eqb_spec (i - 1) (j - 1)); [lia|]; reflexivity.
      + do 2 f_equal. lia.
      + reflexivity.
  Qed.
  Lemma sets_lose (s : seg T byte) (b : buffer T byte) ws i j vi vj : s_prop s = Some b -> b_uninit b = false -> b_bits b = Some ws ->
    1 <= i <= zlen (b_value b) -> 1 <= j <= zlen (b_value b) -> i <= 32 * zlen ws -> i <> j -> (i - 1) / 32 = (j - 1) / 32 -> tb ws (i - 1) = false -> tb ws (j - 1) = false ->
    exists s' b' ws', sets_at_once s [(i, vi); (j, vj)] s' /\ s_prop s' = Some b' /\ b_uninit b' = false /\ b_bits b' = Some ws' /\
      tb ws' (i - 1) = true /\ tb ws' (j - 1) = false /\ b_nnz b' = b_nnz b + 2.
  Proof.
    intros Es Hu Hw Bi Bj Bw N Eij Ti Tj. set (k := (i - 1) / 32).
    assert (0 <= k < zlen ws) as Bk by (unfold k; split; [apply Z.div_pos; lia|apply Z.div_lt_upper_bound; lia]).
    destruct (rd_ok ws k Bk) as (w & Ew).
    destruct (tb_rd ws (i - 1) ltac:(lia)) as (w1 & Ew1 & E1). fold k in Ew1. rewrite Ew in Ew1. injection Ew1 as <-. rewrite Ti in E1. symmetry in E1.
    assert (j <= 32 * zlen ws) as Bw2. { pose proof (Z.div_mod (j - 1) 32 ltac:(lia)). pose proof (Z.mod_pos_bound (j - 1) 32 ltac:(lia)). rewrite <- Eij in H. fold k in H. lia. }
    destruct (tb_rd ws (j - 1) ltac:(lia)) as (w2 & Ew2 & E2). rewrite <- Eij in Ew2. fold k in Ew2. rewrite Ew in Ew2. injection Ew2 as <-. rewrite Tj in E2. symmetry in E2.
    pose proof (wr_ok ws k (Z.lor w (Z.shiftl 1 ((i - 1) mod 32))) Bk) as Ews'. set (ws' := upd ws _ _) in Ews'.
    pose proof (wr_ok (b_value b) (i - 1) vi ltac:(lia)) as Ev1. set (v1 := upd _ _ vi) in Ev1.
    assert (zlen v1 = zlen (b_value b)) as Lv1 by (eapply wr_zlen; eauto).
    pose proof (wr_ok v1 (j - 1) vj ltac:(lia)) as Ev2. set (v2 := upd _ _ vj) in Ev2.
    eexists _, _, ws'. split; [exact (sets_lose_exec s b ws w i j vi vj ws' v1 v2 Es Hu Hw Bi Bj N Eij Ew E1 E2 Ews' Ev1 Ev2)|]. split; [reflexivity|]. split; [reflexivity|]. split; [reflexivity|].
    clearbody ws' v1 v2.
    set (bi := (i - 1) mod 32) in *. set (bj := (j - 1) mod 32) in *.
    assert (0 <= bi < 32) as Bbi by (apply Z.mod_pos_bound; lia). assert (0 <= bj < 32) as Bbj by (apply Z.mod_pos_bound; lia).
    assert (bi <> bj) as Nb. { intros E. apply N. pose proof (Z.div_mod (i - 1) 32 ltac:(lia)). pose proof (Z.div_mod (j - 1) 32 ltac:(lia)). fold bi in H. fold bj in H0. rewrite <- Eij in H0. lia. }
    assert (zlen ws' = zlen ws) as Lw by (eapply wr_zlen; eauto). pose proof (rd_upd_wr _ _ _ _ Ews' k) as Ek. rewrite Z.eqb_refl in Ek.
    destruct (tb_rd ws' (i - 1) ltac:(lia)) as (x & Ex & ->). fold k bi in Ex |- *. destruct (tb_rd ws' (j - 1) ltac:(lia)) as (y & Ey & ->). rewrite <- Eij in Ey. fold k bj in Ey |- *.
    rewrite Ek in Ex, Ey. injection Ex as <-. injection Ey as <-. rewrite !Z.lor_spec, E1, E2, Z.shiftl_1_l, !Z.pow2_bits_eqb by lia. rewrite Z.eqb_refl. destruct (Z.eqb_spec bi bj); [contradiction|]. auto.
  Qed.
End Lose.
