From Verif Require Import BaseLemmas Bits.

(** bit [i] of a word array *)
Definition tb (ws : list Z) (i : Z) : bool := match bv_get ws i with Ok b => b | Err _ => false end.

Lemma shiftr5 i : Z.shiftr i 5 = i / 32.
Proof. rewrite Z.shiftr_div_pow2 by lia. reflexivity. Qed.
Lemma land31 i : Z.land i 31 = i mod 32.
Proof. change 31 with (Z.ones 5). rewrite Z.land_ones by lia. reflexivity. Qed.

Lemma bv_get_ok ws i : 0 <= i < 32 * zlen ws -> bv_get ws i = Ok (tb ws i).
Proof.
  intros H. unfold tb, bv_get. rewrite shiftr5, land31.
  destruct (rd_ok ws (i / 32)) as [w Hw]; [lia|]. rewrite Hw. reflexivity.
Qed.

Lemma bv_get_Ok ws i b : bv_get ws i = Ok b -> 0 <= i < 32 * zlen ws /\ b = tb ws i.
Proof.
  intros H. unfold tb. rewrite H. split; auto.
  unfold bv_get in H. rewrite shiftr5 in H. apply bind_Ok in H as (w & Hw & _). apply rd_bounds in Hw. lia.
Qed.

Lemma tb_out ws i : ~ (0 <= i < 32 * zlen ws) -> tb ws i = false.
Proof.
  intros H. unfold tb, bv_get. rewrite shiftr5. rewrite rd_oob; [reflexivity|lia].
Qed.

Lemma tb_word ws ii w b : rd ws ii = Ok w -> 0 <= b < 32 -> tb ws (32 * ii + b) = Z.testbit w b.
Proof.
  intros H Hb. unfold tb, bv_get. rewrite shiftr5, land31.
  replace ((32 * ii + b) / 32) with ii by lia. replace ((32 * ii + b) mod 32) with b by lia.
  rewrite H. reflexivity.
Qed.

Lemma tb_rd ws i : 0 <= i < 32 * zlen ws -> exists w, rd ws (i / 32) = Ok w /\ tb ws i = Z.testbit w (i mod 32).
Proof.
  intros H. destruct (rd_ok ws (i/32)) as [w Hw]; [lia|]. exists w. split; auto.
  rewrite <- (tb_word ws (i/32) w (i mod 32)); auto; [f_equal|]; lia.
Qed.

Lemma land_pow2_testbit w b : 0 <= b -> (Z.land w (Z.shiftl 1 b) =? 0) = negb (Z.testbit w b).
Proof.
  intros H. rewrite Z.shiftl_1_l. destruct (Z.testbit w b) eqn:E; simpl.
  - apply Z.eqb_neq. intros Q. assert (Z.testbit (Z.land w (2^b)) b = true) as T.
    { rewrite Z.land_spec, E, Z.pow2_bits_true; auto. }
    rewrite Q, Z.testbit_0_l in T. discriminate.
  - apply Z.eqb_eq. apply Z.bits_inj'. intros k Hk. rewrite Z.land_spec, Z.testbit_0_l.
    destruct (Z.eq_dec k b) as [->|N]; [rewrite E; auto|].
    rewrite Z.pow2_bits_false by lia. apply andb_false_r.
Qed.

Lemma bv_set_ok ws i : 0 <= i < 32 * zlen ws ->
  exists ws', bv_set ws i = Ok ws' /\ zlen ws' = zlen ws /\
    (forall k, tb ws' k = (k =? i) || tb ws k) /\
    (forall j, j <> i / 32 -> rd ws' j = rd ws j).
Proof.
  intros H. unfold bv_set. rewrite shiftr5, land31. destruct (tb_rd ws i H) as (w & Hw & Ht).
  rewrite Hw; cbn [bind]. rewrite land_pow2_testbit by lia. rewrite <- Ht.
  destruct (tb ws i) eqn:E; cbn [negb].
  - exists ws. split; auto. split; auto. split; auto. intros k. destruct (Z.eqb_spec k i) as [->|]; auto.
  - rewrite wr_ok by lia. eexists; split; [reflexivity|]. rewrite zlen_upd. split; auto. split.
    + intros k. destruct (Z_le_dec 0 k) as [Hk0|]; [destruct (Z_lt_dec k (32 * zlen ws)) as [Hk1|]|].
      * destruct (tb_rd ws k ltac:(lia)) as (wk & Hwk & Tk).
        destruct (Z.eq_dec (k / 32) (i / 32)) as [Ew|Nw].
        -- rewrite Ew in Hwk. rewrite Hw in Hwk. injection Hwk as <-.
           replace k with (32 * (i/32) + k mod 32) at 1 by lia.
           erewrite tb_word; [|apply rd_upd_same; lia|lia].
           rewrite Z.lor_spec, Z.shiftl_1_l. rewrite <- Tk.
           destruct (Z.eqb_spec k i) as [->|Nk].
           ++ rewrite Z.pow2_bits_true by lia. rewrite orb_true_r. reflexivity.
           ++ rewrite Z.pow2_bits_false by lia. rewrite orb_false_r. reflexivity.
        -- replace k with (32 * (k/32) + k mod 32) at 1 by lia.
           erewrite tb_word; [|rewrite rd_upd_other; [exact Hwk|lia|lia]|lia].
           rewrite Tk. destruct (Z.eqb_spec k i); [subst; lia|]. reflexivity.
      * rewrite !tb_out by (rewrite ?zlen_upd; lia). destruct (Z.eqb_spec k i); [lia|auto].
      * rewrite !tb_out by (rewrite ?zlen_upd; lia). destruct (Z.eqb_spec k i); [lia|auto].
    + intros j Hj. apply rd_upd_other; lia.
Qed.

Lemma bv_clear_ok ws i : 0 <= i < 32 * zlen ws ->
  exists ws', bv_clear ws i = Ok ws' /\ zlen ws' = zlen ws /\
    (forall k, tb ws' k = negb (k =? i) && tb ws k).
Proof.
  intros H. unfold bv_clear. rewrite shiftr5, land31. destruct (tb_rd ws i H) as (w & Hw & Ht).
  rewrite Hw; cbn [bind]. rewrite land_pow2_testbit by lia. rewrite <- Ht.
  destruct (tb ws i) eqn:E; cbn [negb].
  - rewrite wr_ok by lia. eexists; split; [reflexivity|]. rewrite zlen_upd. split; auto.
    intros k. destruct (Z_le_dec 0 k) as [Hk0|]; [destruct (Z_lt_dec k (32 * zlen ws)) as [Hk1|]|].
    + destruct (tb_rd ws k ltac:(lia)) as (wk & Hwk & Tk).
      destruct (Z.eq_dec (k / 32) (i / 32)) as [Ew|Nw].
      * rewrite Ew in Hwk. rewrite Hw in Hwk. injection Hwk as <-.
        replace k with (32 * (i/32) + k mod 32) at 1 by lia.
        erewrite tb_word; [|apply rd_upd_same; lia|lia].
        rewrite Z.lxor_spec, Z.shiftl_1_l. rewrite <- Tk.
        destruct (Z.eqb_spec k i) as [->|Nk].
        -- rewrite Z.pow2_bits_true by lia. rewrite E. reflexivity.
        -- rewrite Z.pow2_bits_false by lia. rewrite xorb_false_r. reflexivity.
      * replace k with (32 * (k/32) + k mod 32) at 1 by lia.
        erewrite tb_word; [|rewrite rd_upd_other; [exact Hwk|lia|lia]|lia].
        rewrite Tk. destruct (Z.eqb_spec k i); [subst; lia|]. reflexivity.
    + rewrite !tb_out by (rewrite ?zlen_upd; lia). rewrite andb_false_r; auto.
    + rewrite !tb_out by (rewrite ?zlen_upd; lia). rewrite andb_false_r; auto.
  - exists ws. split; auto. split; auto. intros k. destruct (Z.eqb_spec k i) as [->|]; auto.
Qed.

Lemma tb_ext ws ws' : zlen ws = zlen ws' -> (forall j, 0 <= j < zlen ws -> rd ws j = rd ws' j) -> forall k, tb ws k = tb ws' k.
Proof.
  intros L H k. assert (ws = ws') as -> by (apply rd_ext; auto). reflexivity.
Qed.

Lemma tb_repeat0 n k : tb (repeat 0 n) k = false.
Proof.
  destruct (Z_le_dec 0 k); [destruct (Z_lt_dec k (32 * zlen (repeat 0 n)))|].
  - destruct (tb_rd (repeat 0 n) k ltac:(lia)) as (w & Hw & ->). apply rd_In in Hw. apply repeat_spec in Hw. subst.
    apply Z.testbit_0_l.
  - apply tb_out; lia.
  - apply tb_out; lia.
Qed.

(** positions of the set bits in a range, increasing *)
Definition setbits (ws : list Z) (lo hi : Z) : list Z := filter (tb ws) (zrange lo hi).

Lemma in_setbits ws lo hi k : In k (setbits ws lo hi) <-> lo <= k < hi /\ tb ws k = true.
Proof. unfold setbits. rewrite filter_In, in_zrange. tauto. Qed.

Lemma setbits_app ws lo mid hi : lo <= mid <= hi -> setbits ws lo hi = setbits ws lo mid ++ setbits ws mid hi.
Proof. intros H. unfold setbits. rewrite (zrange_app lo mid hi) by auto. apply filter_app. Qed.

Lemma setbits_nil ws lo hi : hi <= lo -> setbits ws lo hi = [].
Proof. intros H. unfold setbits. rewrite zrange_nil; auto. Qed.

Lemma NoDup_setbits ws lo hi : NoDup (setbits ws lo hi).
Proof. apply NoDup_filter, NoDup_zrange. Qed.

Lemma filter_map_length {A B} (f : A -> B) (p : B -> bool) l : length (filter p (map f l)) = length (filter (fun a => p (f a)) l).
Proof. induction l as [|a l IH]; simpl; auto. destruct (p (f a)); simpl; auto. Qed.

Lemma filter_ext_in_length {A} (p q : A -> bool) l : (forall a, In a l -> p a = q a) -> length (filter p l) = length (filter q l).
Proof. intros H. rewrite (filter_ext_in p q l H). reflexivity. Qed.

Lemma zrange_shift lo k : zrange lo (lo + k) = map (fun b => lo + b) (zrange 0 k).
Proof.
  unfold zrange, zseq. rewrite map_map. replace (lo + k - lo) with (k - 0) by lia. apply map_ext. intros; lia.
Qed.

Lemma popcnt_setbits ws ii w : rd ws ii = Ok w -> popcnt32 w = zlen (setbits ws (32*ii) (32*ii+32)).
Proof.
  intros H. unfold popcnt32, setbits, zlen. f_equal. rewrite zrange_shift, filter_map_length.
  apply filter_ext_in_length. intros b Hb. apply in_zrange in Hb. symmetry. apply tb_word; auto; lia.
Qed.

Lemma bv_count_ok ws s e : 0 <= s -> s <= e <= zlen ws -> bv_count ws s e = Ok (zlen (setbits ws (32*s) (32*e))).
Proof.
  intros Hs He. unfold bv_count.
  destruct (forZ_inv (fun i len => len = zlen (setbits ws (32*s) (32*i))) s e
     (fun ii len => do w <- rd ws ii ;; Ok (len + popcnt32 w)) 0) as (len & E & ->).
  - lia.
  - rewrite setbits_nil by lia. reflexivity.
  - intros i len Hi ->. destruct (rd_ok ws i) as [w Hw]; [lia|]. rewrite Hw; cbn [bind]. eexists; split; [reflexivity|].
    rewrite (popcnt_setbits ws i w Hw). rewrite (setbits_app ws (32*s) (32*i) (32*(i+1))) by lia.
    rewrite zlen_app. replace (32*(i+1)) with (32*i+32) by lia. reflexivity.
  - exact E.
Qed.

Lemma bv_count_empty ws s e : e <= s -> bv_count ws s e = Ok 0.
Proof. intros H. unfold bv_count. apply forZ_empty; auto. Qed.

Lemma num_ints_bounds c : 0 <= c -> 0 <= num_ints_of c /\ c <= 32 * num_ints_of c /\ 32 * num_ints_of c < c + 32.
Proof. intros H. unfold num_ints_of. rewrite quot_div by lia. lia. Qed.

Lemma setbits_tail ws c hi : (forall k, c <= k -> tb ws k = false) -> 0 <= c <= hi -> setbits ws 0 hi = setbits ws 0 c.
Proof.
  intros H Hc. rewrite (setbits_app ws 0 c hi) by lia.
  replace (setbits ws c hi) with (@nil Z); [apply app_nil_r|].
  symmetry. destruct (setbits ws c hi) as [|k l] eqn:E; auto. exfalso.
  assert (In k (setbits ws c hi)) as I by (rewrite E; left; auto). apply in_setbits in I as [B T].
  rewrite H in T by lia. discriminate.
Qed.

Lemma setbits_ext ws ws' lo hi : (forall k, lo <= k < hi -> tb ws k = tb ws' k) -> setbits ws lo hi = setbits ws' lo hi.
Proof. intros H. unfold setbits. apply filter_ext_in. intros k Hk. apply in_zrange in Hk. auto. Qed.
