(** Proofs about FloatText.v that need no real numbers: what is printed can be scanned; bits and bytes. *)
From Coq Require Import ZArith SpecFloat.
From Verif Require Import Base BaseLemmas ListLemmas FileIO FileSpec FileProofs Float32 FloatText.
Local Open Scope Z_scope.

Lemma scaled_nonneg k m e : 0 <= m -> 0 <= scaled k m e.
Proof.
  intros H. unfold scaled. assert (0 <= m * 10 ^ Z.of_nat k) by (apply Z.mul_nonneg_nonneg; [lia|apply Z.pow_nonneg; lia]).
  destruct (Z.leb_spec 0 e); [apply Z.mul_nonneg_nonneg; [lia|apply Z.pow_nonneg; lia]|].
  assert (0 < 2 ^ (- e)) by (apply Z.pow_pos_nonneg; lia). assert (0 <= m * 10 ^ Z.of_nat k / 2 ^ (- e)) by (apply Z.div_pos; lia).
  cbv zeta. repeat match goal with |- context [if ?b then _ else _] => destruct b end; lia.
Qed.
Lemma last_digits_length k : forall n, length (last_digits k n) = k.
Proof. induction k as [|k IH]; intros n; [reflexivity|]. cbn [last_digits]. rewrite app_length, IH. cbn. lia. Qed.
Lemma last_digits_digit k : forall n, forallb is_digit (last_digits k n) = true.
Proof.
  induction k as [|k IH]; intros n; [reflexivity|]. cbn [last_digits]. rewrite forallb_app, IH. cbn [forallb andb]. unfold is_digit.
  pose proof (Z.mod_pos_bound n 10 ltac:(lia)). destruct (Z.leb_spec 48 (48 + n mod 10)); [|lia]. destruct (Z.leb_spec (48 + n mod 10) 57); [reflexivity|lia].
Qed.
Lemma last_digits_val k : forall d n, digits_val (d ++ last_digits k n) = digits_val d * 10 ^ Z.of_nat k + n mod 10 ^ Z.of_nat k.
Proof.
  induction k as [|k IH]; intros d n; [cbn [last_digits]; rewrite app_nil_r; change (10 ^ Z.of_nat 0) with 1; rewrite Z.mod_1_r; lia|].
  cbn [last_digits]. rewrite app_assoc, digits_val_app. cbn [fold_left]. rewrite IH.
  replace (10 ^ Z.of_nat (S k)) with (10 * 10 ^ Z.of_nat k) by (rewrite Nat2Z.inj_succ, Z.pow_succ_r by lia; ring).
  rewrite (Z.rem_mul_r n 10 (10 ^ Z.of_nat k)) by (try lia; apply Z.pow_pos_nonneg; lia). ring.
Qed.
Lemma fixed_val k n : 0 <= n -> digits_val (dec_digits (S (Z.to_nat (Z.log2 n))) (n / 10 ^ Z.of_nat k) ++ last_digits k n) = n.
Proof.
  intros H. assert (P : 0 < 10 ^ Z.of_nat k) by (apply Z.pow_pos_nonneg; lia). rewrite last_digits_val, dec_digits_val.
  - pose proof (Z.div_mod n (10 ^ Z.of_nat k) ltac:(lia)). lia.
  - split; [apply Z.div_pos; lia|]. apply Z.le_lt_trans with n; [apply Z.div_le_upper_bound; nia|].
    destruct (Z.eq_dec n 0) as [->|N]; [reflexivity|]. pose proof (Z.log2_spec n ltac:(lia)) as [_ L]. pose proof (Z.log2_nonneg n).
    replace (Z.of_nat (S (Z.to_nat (Z.log2 n)))) with (Z.succ (Z.log2 n)) by lia.
    eapply Z.lt_le_trans; [exact L|]. apply Z.pow_le_mono_l. lia.
Qed.

(** the float a printed one is read as *)
Definition reread (prec emax : Z) (k : nat) (x : spec_float) : spec_float :=
  match x with S754_finite s m e => read_dec prec emax s (scaled k (Zpos m) e) k | _ => x end.

Lemma scan_fixed prec emax other k (s : bool) n b : 0 <= n -> (match b with c :: _ => c = 10 | [] => True end) ->
  scan_f prec emax other (mkS (32 :: ((if s then [45] else []) ++ print_fixed k n) ++ b) false) = (Some (read_dec prec emax s n k), mkS b (at_end b)).
Proof.
  intros Hn Hb. assert (P : 0 < 10 ^ Z.of_nat k) by (apply Z.pow_pos_nonneg; lia). assert (Q : 0 <= n / 10 ^ Z.of_nat k) by (apply Z.div_pos; lia).
  pose proof (fixed_val k n Hn) as V. unfold print_fixed. set (d1 := dec_digits _ _) in *. destruct (dec_digits_cons (Z.to_nat (Z.log2 n)) _ Q) as (c & r & E & Hc). fold d1 in E.
  assert (D1 : forallb is_digit d1 = true) by (apply dec_digits_digit; exact Q). pose proof (last_digits_digit k n) as D2. pose proof (last_digits_length k n) as L2. set (d2 := last_digits k n) in *. clearbody d1 d2.
  destruct (digit_facts c Hc) as (F1 & F2 & F3).
  unfold scan_f. cbn [s_rest s_eof]. rewrite <- !app_assoc. cbn [skip_ws]. change (is_space 32) with true. cbv iota.
  assert (A1 : span_digits (d1 ++ [46] ++ d2 ++ b) = (d1, 46 :: d2 ++ b)) by (apply span_all; [exact D1|reflexivity]).
  assert (A2 : span_digits (d2 ++ b) = (d2, b)) by (apply span_all; [exact D2|]; destruct b as [|c0 b]; [exact I|subst; reflexivity]).
  assert (A3 : match b with c :: _ => ((65 <=? c) && (c <=? 90)) || ((97 <=? c) && (c <=? 122)) | [] => false end = false) by (destruct b as [|c0 b]; [reflexivity|subst; reflexivity]).
  assert (A4 : match d1 ++ d2 with [] => None | d => Some (read_dec prec emax s (digits_val d) (length d2)) end = Some (read_dec prec emax s n k)).
  { rewrite L2, <- V. rewrite E. reflexivity. }
  destruct s.
  - cbn [app skip_ws]. change (is_space 45) with false. cbv iota. change (45 =? 45) with true. cbv iota. change (46 :: d2 ++ b) with ([46] ++ d2 ++ b). rewrite A1. change (46 =? 46) with true. cbv iota. rewrite A2, A3. cbn [orb]. rewrite A4. reflexivity.
  - cbn [app]. assert (A0 : skip_ws (d1 ++ 46 :: d2 ++ b) = d1 ++ 46 :: d2 ++ b) by (rewrite E; cbn [app skip_ws]; rewrite F1; reflexivity). rewrite A0.
    assert (A5 : match d1 ++ 46 :: d2 ++ b with [] => (false, []) | c :: r => if c =? 45 then (true, r) else if c =? 43 then (false, r) else (false, d1 ++ 46 :: d2 ++ b) end = (false, d1 ++ 46 :: d2 ++ b)).
    { rewrite E. cbn [app]. rewrite F2, F3. reflexivity. }
    rewrite A5. change (46 :: d2 ++ b) with ([46] ++ d2 ++ b). rewrite A1. change (46 =? 46) with true. cbv iota. rewrite A2, A3. cbn [orb]. rewrite A4. reflexivity.
Qed.
Definition is_finite (x : spec_float) : Prop := match x with S754_zero _ | S754_finite _ _ _ => True | _ => False end.
Lemma scan_print_f prec emax other k x b : is_finite x -> (match b with c :: _ => c = 10 | [] => True end) ->
  scan_f prec emax other (mkS (32 :: print_f k x ++ b) false) = (Some (reread prec emax k x), mkS b (at_end b)).
Proof.
  intros Hx Hb. destruct x as [s|s| |s m e]; try destruct Hx.
  - cbn [print_f reread]. rewrite scan_fixed by (auto; lia). reflexivity.
  - cbn [print_f reread]. apply scan_fixed; [apply scaled_nonneg; lia|exact Hb].
Qed.
