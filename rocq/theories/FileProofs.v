(** Loading and writing edge files. *)
From Verif Require Import Base BaseLemmas ListLemmas BitsProofs Segment DCSC EdgeList EdgeSpec Apps FileIO FileSpec.

(** *** ints as bytes *)
Lemma i32_id z : is_int z -> i32 z = z.
Proof. unfold is_int, i32. intros. rewrite Z.mod_small; lia. Qed.
Lemma i32_u32 z : i32 (u32 z) = i32 z.
Proof. unfold i32, u32. rewrite Z.add_mod_idemp_l by lia. reflexivity. Qed.
Lemma u32_range z : 0 <= u32 z < 2 ^ 32.
Proof. unfold u32. apply Z.mod_pos_bound. lia. Qed.
Lemma length_enc32 z : length (enc32 z) = 4%nat. Proof. reflexivity. Qed.
Lemma dec_enc32 z b : is_int z -> dec32 (firstn 4 (enc32 z ++ b)) = z.
Proof.
  intros H. unfold dec32, enc32. pose proof (u32_range z) as B. transitivity (i32 (u32 z)); [|rewrite i32_u32; apply i32_id; auto]. f_equal. set (u := u32 z) in *. clearbody u. cbn [app firstn nth].
  assert (u / 65536 = u / 256 / 256) as -> by (rewrite Z.div_div by lia; reflexivity). assert (u / 16777216 = u / 256 / 256 / 256) as -> by (rewrite !Z.div_div by lia; reflexivity).
  set (a := u / 256). set (c := a / 256). pose proof (Z.div_mod u 256 ltac:(lia)). pose proof (Z.div_mod a 256 ltac:(lia)). pose proof (Z.div_mod c 256 ltac:(lia)). fold a in H0. fold c in H1. lia.
Qed.

(** *** numbers as text *)
Lemma digits_val_app d e : digits_val (d ++ e) = fold_left (fun a c => 10 * a + (c - 48)) e (digits_val d).
Proof. unfold digits_val. apply fold_left_app. Qed.
Lemma dec_digits_val k : forall n, 0 <= n < 10 ^ Z.of_nat k -> digits_val (dec_digits k n) = n.
Proof.
  induction k as [|k IH]; intros n B; [cbn in B |- *; lia|]. cbn [dec_digits]. rewrite digits_val_app. cbn [fold_left].
  rewrite Nat2Z.inj_succ, Z.pow_succ_r in B by lia.
  destruct (Z.eqb_spec (n / 10) 0) as [E|E].
  - unfold digits_val; cbn [fold_left]. lia.
  - rewrite IH; [lia|]. split; [apply Z.div_pos; lia|]. apply Z.div_lt_upper_bound; lia.
Qed.
Lemma dec_digits_digit k : forall n, 0 <= n -> forallb is_digit (dec_digits k n) = true.
Proof.
  induction k as [|k IH]; intros n B; [reflexivity|]. cbn [dec_digits]. rewrite forallb_app. apply andb_true_intro. split.
  - destruct (n / 10 =? 0); [reflexivity|]. apply IH. apply Z.div_pos; lia.
  - cbn [forallb]. rewrite andb_true_r. unfold is_digit. pose proof (Z.mod_pos_bound n 10). lia.
Qed.
Lemma dec_digits_cons k n : 0 <= n -> exists c r, dec_digits (S k) n = c :: r /\ is_digit c = true.
Proof.
  intros B. pose proof (dec_digits_digit (S k) n B) as D. destruct (dec_digits (S k) n) as [|c r] eqn:E.
  - cbn [dec_digits] in E. destruct (if n / 10 =? 0 then [] else dec_digits k (n / 10)); discriminate.
  - exists c, r. cbn in D. apply andb_true_iff in D as [D _]. auto.
Qed.
Lemma span_all d b : forallb is_digit d = true -> (match b with c :: _ => is_digit c = false | [] => True end) -> span_digits (d ++ b) = (d, b).
Proof.
  induction d as [|c d IH]; cbn; intros D B; [destruct b as [|c b]; [reflexivity|]; cbn; rewrite B; reflexivity|].
  apply andb_true_iff in D as [-> D]. rewrite (IH D B). reflexivity.
Qed.
Lemma skip_ws_stop b : (match b with c :: _ => is_space c = false | [] => True end) -> skip_ws b = b.
Proof. destruct b as [|c b]; cbn; [auto|]. intros ->. reflexivity. Qed.
(** white space, a printed number, then something that is no digit *)
Definition ender (b : list Z) : Prop := match b with c :: _ => is_digit c = false | [] => True end.
Lemma skip_ws_app sp b : forallb is_space sp = true -> skip_ws (sp ++ b) = skip_ws b.
Proof. induction sp as [|c sp IH]; cbn; intros H; [auto|]. apply andb_true_iff in H as [-> H]. auto. Qed.
Lemma digit_facts c : is_digit c = true -> is_space c = false /\ (c =? 45) = false /\ (c =? 43) = false.
Proof. unfold is_digit, is_space. lia. Qed.
Lemma scan_digits sp n b eof : forallb is_space sp = true -> 0 <= n < 10 ^ 10 -> ender b ->
  scan_num (mkS (sp ++ dec_digits 10 n ++ b) eof) = (Some n, mkS b (eof || at_end b)).
Proof.
  intros Hs Hn Hb. unfold scan_num. cbn [s_rest s_eof]. rewrite skip_ws_app by auto.
  pose proof (dec_digits_val 10 n Hn) as V. pose proof (dec_digits_digit 10 n ltac:(lia)) as D. destruct (dec_digits_cons 9 n ltac:(lia)) as (c & r & E & Hc). rewrite E in *. destruct (digit_facts c Hc) as (F1 & F2 & F3).
  rewrite skip_ws_stop by (cbn; auto). cbn [app]. rewrite F2, F3. change (c :: r ++ b) with ((c :: r) ++ b). rewrite span_all by auto. rewrite V. reflexivity.
Qed.
Lemma scan_print_d sp z b eof : forallb is_space sp = true -> is_int z -> ender b ->
  scan_num (mkS (sp ++ print_d z ++ b) eof) = (Some z, mkS b (eof || at_end b)).
Proof.
  intros Hs Hz Hb. unfold is_int in Hz. unfold print_d. destruct (Z.ltb_spec z 0) as [L|L]; [|apply scan_digits; auto; lia].
  unfold scan_num. cbn [s_rest s_eof]. rewrite skip_ws_app by auto. cbn [app]. rewrite skip_ws_stop by reflexivity. cbn [Z.eqb Pos.eqb].
  rewrite span_all; auto; [|apply dec_digits_digit; lia]. rewrite dec_digits_val by lia. destruct (dec_digits_cons 9 (- z) ltac:(lia)) as (c & r & E & Hc). rewrite E. f_equal. f_equal. lia.
Qed.
Lemma scan_print_u sp z b eof : forallb is_space sp = true -> ender b ->
  scan_num (mkS (sp ++ print_u z ++ b) eof) = (Some (u32 z), mkS b (eof || at_end b)).
Proof. intros Hs Hb. apply scan_digits; auto. pose proof (u32_range z). lia. Qed.
Lemma as_d_id wide z : is_int z -> as_d wide z = z.
Proof. unfold is_int, as_d. intros H. destruct (Z.leb_spec (- 2 ^ 31) z); [|lia]. destruct (Z.ltb_spec z (2 ^ 31)); [reflexivity|lia]. Qed.
Lemma as_u_id wide z : as_u wide (u32 z) = u32 z.
Proof. pose proof (u32_range z). unfold as_u. destruct (Z.ltb_spec (- 2 ^ 32) (u32 z)); [|lia]. destruct (Z.ltb_spec (u32 z) (2 ^ 32)); [|lia]. cbn. unfold u32. rewrite Z.mod_mod; lia. Qed.
Lemma scan_d_print wide sp z b : forallb is_space sp = true -> is_int z -> ender b ->
  scan_d wide (mkS (sp ++ print_d z ++ b) false) = (Some z, mkS b (at_end b)).
Proof. intros. unfold scan_d. rewrite scan_print_d, as_d_id by auto. reflexivity. Qed.

Lemma scan_d_sp wide sp z b : forallb is_space sp = true -> is_int z -> scan_d wide (mkS (sp ++ print_d z ++ 32 :: b) false) = (Some z, mkS (32 :: b) false).
Proof. intros. apply scan_d_print; auto. reflexivity. Qed.
Lemma scan_d_nl wide sp z b : forallb is_space sp = true -> is_int z -> scan_d wide (mkS (sp ++ print_d z ++ 10 :: b) false) = (Some z, mkS (10 :: b) false).
Proof. intros. apply scan_d_print; auto. reflexivity. Qed.
Lemma scan_d_last wide sp z : forallb is_space sp = true -> is_int z -> scan_d wide (mkS (sp ++ print_d z) false) = (Some z, mkS [] true).
Proof. intros Hs Hz. pose proof (scan_d_print wide sp z [] Hs Hz I) as E. rewrite app_nil_r in E. exact E. Qed.
Lemma scan_d_sp' wide z b : is_int z -> scan_d wide (mkS (32 :: print_d z ++ 32 :: b) false) = (Some z, mkS (32 :: b) false).
Proof. intros. apply (scan_d_sp wide [32]); auto. Qed.
Lemma scan_d_nl' wide z b : is_int z -> scan_d wide (mkS (32 :: print_d z ++ 10 :: b) false) = (Some z, mkS (10 :: b) false).
Proof. intros. apply (scan_d_nl wide [32]); auto. Qed.
Lemma scan_d_last' wide z : is_int z -> scan_d wide (mkS (32 :: print_d z) false) = (Some z, mkS [] true).
Proof. intros. apply (scan_d_last wide [32]); auto. Qed.

(** weights of type int and unsigned int *)
Lemma w_int_ok wide fm v : is_int v -> weight_ok (w_int wide) fm v.
Proof.
  intros H. unfold weight_ok. destruct (weights fm); [|exact I]. destruct (binary fm).
  - split; [reflexivity|]. rewrite <- (dec_enc32 v [] H) at 2. rewrite app_nil_r. reflexivity.
  - eexists _, _. split; [reflexivity|]. split.
    + intros b. change (32 :: print_d v ++ 10 :: b) with ([32] ++ print_d v ++ (10 :: b)). rewrite scan_print_d by (cbn; auto). rewrite as_d_id by auto. reflexivity.
    + pose proof (scan_print_d [32] v [] false eq_refl H I) as E. rewrite app_nil_r in E. cbn [app] in E. rewrite E, as_d_id by auto. reflexivity.
Qed.
Lemma w_uint_ok wide fm v : 0 <= v < 2 ^ 32 -> weight_ok (w_uint wide) fm v.
Proof.
  intros H. assert (u32 v = v) as Ev by (unfold u32; apply Z.mod_small; lia). unfold weight_ok. destruct (weights fm); [|exact I]. destruct (binary fm).
  - split; [reflexivity|]. cbn [w_uint w_dec w_enc]. unfold dec32, enc32. rewrite Ev. cbn [nth].
    assert (v mod 256 + 256 * (v / 256 mod 256) + 65536 * (v / 65536 mod 256) + 16777216 * (v / 16777216) = v) as ->.
    { assert (v / 65536 = v / 256 / 256) as -> by (rewrite Z.div_div by lia; reflexivity). assert (v / 16777216 = v / 256 / 256 / 256) as -> by (rewrite !Z.div_div by lia; reflexivity).
      set (a := v / 256). set (c := a / 256). pose proof (Z.div_mod v 256 ltac:(lia)). pose proof (Z.div_mod a 256 ltac:(lia)). pose proof (Z.div_mod c 256 ltac:(lia)). fold a in H0. fold c in H1. lia. }
    unfold u32, i32. rewrite Zminus_mod_idemp_l. replace (v + 2 ^ 31 - 2 ^ 31) with v by lia. apply Z.mod_small. lia.
  - eexists _, _. split; [reflexivity|]. split.
    + intros b. change (32 :: print_u v ++ 10 :: b) with ([32] ++ print_u v ++ (10 :: b)). rewrite scan_print_u by (cbn; auto). rewrite as_u_id, Ev. reflexivity.
    + pose proof (scan_print_u [32] v [] false eq_refl I) as E. rewrite app_nil_r in E. cbn [app] in E. rewrite E, as_u_id, Ev. reflexivity.
Qed.

Section IO.
  Context {E : Type}.
  Variables (w : wtype E) (wide : Z -> Z) (fm : fmt).
  Notation cell := (@cell E).

  Lemma upd_upd {A} (l : list A) n a b : upd (upd l n a) n b = upd l n b.
  Proof. revert n. induction l as [|c l IH]; intros [|n]; cbn; auto. rewrite IH. reflexivity. Qed.
  Lemma wr_OOB {A} (l : list A) p a : ~ (0 <= p < zlen l) -> wr l p a = Err OOB.
  Proof. intros H. unfold wr. unfold zlen in H. destruct (Z.ltb_spec p 0); [reflexivity|]. destruct (Z.leb_spec (Z.of_nat (length l)) p); [reflexivity|lia]. Qed.
  Lemma rd_OOB {A} (l : list A) p : ~ (0 <= p < zlen l) -> rd l p = Err OOB.
  Proof. intros H. unfold rd. unfold zlen in H. destruct (Z.ltb_spec p 0); [reflexivity|]. destruct (nth_error l (Z.to_nat p)) eqn:En; [|reflexivity]. assert (Z.to_nat p < length l)%nat by (apply nth_error_Some; congruence). lia. Qed.
  Lemma rd_upd_same {A} (l : list A) p a : 0 <= p < zlen l -> rd (upd l (Z.to_nat p) a) p = Ok a.
  Proof. intros H. eapply wr_same_rd. apply wr_ok; auto. Qed.
  Lemma zlen_upd {A} (l : list A) n a : zlen (upd l n a) = zlen l.
  Proof. unfold zlen. rewrite length_upd. reflexivity. Qed.
  Lemma st_src_ok (a : list cell) p c x : rd a p = Ok c -> st_src a p x = Ok (upd a (Z.to_nat p) (x, snd (fst c), snd c)).
  Proof. intros H. unfold st_src. rewrite H. cbn [bind]. apply wr_ok. eapply rd_bounds; eauto. Qed.
  Lemma st_dst_ok (a : list cell) p c x : rd a p = Ok c -> st_dst a p x = Ok (upd a (Z.to_nat p) (fst (fst c), x, snd c)).
  Proof. intros H. unfold st_dst. rewrite H. cbn [bind]. apply wr_ok. eapply rd_bounds; eauto. Qed.
  Lemma st_val_ok (a : list cell) p c x : rd a p = Ok c -> st_val a p x = Ok (upd a (Z.to_nat p) (fst c, x)).
  Proof. intros H. unfold st_val. rewrite H. cbn [bind]. apply wr_ok. eapply rd_bounds; eauto. Qed.

  Definition edge_ok (e : edge E) : Prop := is_int (e_src e) /\ is_int (e_dst e) /\ weight_ok w fm (e_val e).
  Definition post : list Z := if binary fm then [] else [10].
  Definition pre_ok (pre : list Z) : Prop := forallb is_space pre = true /\ (binary fm = true -> pre = []).
  Lemma post_ok : pre_ok post.
  Proof. unfold pre_ok, post. destruct (binary fm); split; auto; discriminate. Qed.

  Lemma f_read_app n x b : length x = n -> f_read n (mkS (x ++ b) false) = (FFull x, mkS b false).
  Proof. intros <-. unfold f_read. cbn [s_rest s_eof]. rewrite app_length. destruct (Nat.leb_spec (length x) (length x + length b)); [|lia]. rewrite firstn_app, Nat.sub_diag, firstn_all, skipn_app, Nat.sub_diag, skipn_all. cbn. rewrite app_nil_r. reflexivity. Qed.

  Lemma rd_field_ok {X} n (dec : list Z -> X) st x b v (a : list cell) : length x = n -> dec x = v ->
    rd_field n dec st (mkS (x ++ b) false) a = (do a <- st a (Some v) ;; Ok (true, mkS b false, a)).
  Proof. intros L D. unfold rd_field. rewrite f_read_app by auto. rewrite D. reflexivity. Qed.
  Lemma rd_field_end {X} n (dec : list Z -> X) st (a : list cell) : (0 < n)%nat -> rd_field n dec st (mkS [] false) a = Ok (false, mkS [] true, a).
  Proof. intros L. unfold rd_field, f_read. cbn [s_rest length]. destruct (Nat.leb_spec n 0); [lia|]. reflexivity. Qed.
  Lemma sc_field_ok {X} (sc : stream -> option X * stream) st f v f' (a : list cell) : sc f = (Some v, f') ->
    sc_field sc st f a = (do a <- st a (Some v) ;; Ok (true, f', a)).
  Proof. intros H. unfold sc_field. rewrite H. reflexivity. Qed.
  Lemma dec_enc32' z : is_int z -> dec32 (enc32 z) = z.
  Proof. intros H. rewrite <- (dec_enc32 z [] H) at 2. rewrite app_nil_r. reflexivity. Qed.

  (** a whole line *)
  Lemma readLine_ok pre e b (a : list cell) p : pre_ok pre -> edge_ok e ->
    readLine w wide fm (mkS (pre ++ line w fm e ++ b) false) a p =
    (do a' <- wr a p (full (back w fm e)) ;; Ok (true, mkS (post ++ b) false, a')).
  Proof.
    intros [Hp Hb] (Is & Id & Iw). unfold readLine, line, back, weight_ok, post in *.
    assert (0 <= p < zlen a \/ ~ (0 <= p < zlen a)) as [B|B] by lia.
    - rewrite (wr_ok a p _ B). cbn [bind]. destruct (rd_ok a p B) as (c & Ec).
      destruct (binary fm) eqn:Bi.
      + rewrite (Hb eq_refl). cbn [app]. rewrite <- !app_assoc. rewrite (rd_field_ok 4 dec32 _ (enc32 (e_src e)) _ (e_src e)) by (auto using dec_enc32').
        rewrite (st_src_ok a p c _ Ec). cbn [bind negb]. rewrite (rd_field_ok 4 dec32 _ (enc32 (e_dst e)) _ (e_dst e)) by (auto using dec_enc32').
        rewrite (st_dst_ok _ p _ _ (rd_upd_same a p _ B)). cbn [bind negb fst snd]. rewrite upd_upd.
        destruct (weights fm).
        * destruct Iw as [L D]. rewrite (rd_field_ok _ _ _ _ _ _ _ L D). rewrite (st_val_ok _ p _ _ (rd_upd_same a p _ B)). cbn [bind fst snd]. rewrite upd_upd. reflexivity.
        * rewrite (st_val_ok _ p _ _ (rd_upd_same a p _ B)). cbn [bind fst snd app]. rewrite upd_upd. reflexivity.
      + destruct (weights fm).
        * destruct Iw as (pr & sc & -> & Hsc & _). cbn [app]. repeat (rewrite <- app_assoc; cbn [app]). rewrite (sc_field_ok _ _ _ _ _ _ (scan_d_sp wide pre (e_src e) _ Hp Is)).
          rewrite (st_src_ok a p c _ Ec). cbn [bind negb]. rewrite (sc_field_ok _ _ _ _ _ _ (scan_d_sp' wide (e_dst e) _ Id)).
          rewrite (st_dst_ok _ p _ _ (rd_upd_same a p _ B)). cbn [bind negb fst snd]. rewrite upd_upd.
          rewrite (sc_field_ok _ _ _ _ _ _ (Hsc b)). rewrite (st_val_ok _ p _ _ (rd_upd_same a p _ B)). cbn [bind fst snd]. rewrite upd_upd. reflexivity.
        * cbn [app]. repeat (rewrite <- app_assoc; cbn [app]). rewrite (sc_field_ok _ _ _ _ _ _ (scan_d_sp wide pre (e_src e) _ Hp Is)).
          rewrite (st_src_ok a p c _ Ec). cbn [bind negb]. rewrite (sc_field_ok _ _ _ _ _ _ (scan_d_nl' wide (e_dst e) _ Id)).
          rewrite (st_dst_ok _ p _ _ (rd_upd_same a p _ B)). cbn [bind negb fst snd]. rewrite upd_upd.
          rewrite (st_val_ok _ p _ _ (rd_upd_same a p _ B)). cbn [bind fst snd]. rewrite upd_upd. reflexivity.
    - rewrite (wr_OOB a p _ B). cbn [bind]. assert (forall x, st_src a p x = Err OOB) as Ho by (intros x; unfold st_src; rewrite rd_OOB by auto; reflexivity).
      destruct (binary fm) eqn:Bi.
      + rewrite (Hb eq_refl). cbn [app]. rewrite <- !app_assoc. rewrite (rd_field_ok 4 dec32 _ (enc32 (e_src e)) _ (e_src e)) by (auto using dec_enc32'). rewrite Ho. reflexivity.
      + destruct (weights fm); [destruct Iw as (pr & sc & -> & Hsc & _)|]; rewrite <- !app_assoc; cbn [app]; rewrite (sc_field_ok _ _ _ _ _ _ (scan_d_sp wide pre (e_src e) _ Hp Is)); rewrite Ho; reflexivity.
  Qed.

  Lemma skip_all pre : forallb is_space pre = true -> skip_ws pre = [].
  Proof. intros H. rewrite <- (app_nil_r pre), skip_ws_app by auto. reflexivity. Qed.
  Lemma scan_num_end pre eof : forallb is_space pre = true -> scan_num (mkS pre eof) = (None, mkS [] true).
  Proof. intros H. unfold scan_num. cbn [s_rest]. rewrite skip_all by auto. cbn. rewrite orb_true_r. reflexivity. Qed.
  Lemma readLine_end pre (a : list cell) p : supported w fm -> pre_ok pre -> readLine w wide fm (mkS pre false) a p = Ok (false, mkS [] true, a).
  Proof.
    intros Hs [Hp Hb]. unfold readLine. destruct (binary fm) eqn:Bi.
    - rewrite (Hb eq_refl). rewrite rd_field_end by lia. reflexivity.
    - assert (forall st, sc_field (scan_d wide) st (mkS pre false) a = Ok (false, mkS [] true, a)) as Hx by (intros st; unfold sc_field, scan_d; rewrite scan_num_end by auto; reflexivity).
      destruct (weights fm) eqn:We; [|rewrite Hx; reflexivity]. destruct (w_text w) as [[pr sc]|] eqn:Ew; [|exfalso; apply (Hs Bi We); auto]. rewrite Hx. reflexivity.
  Qed.

  (** a text line without its newline *)
  Definition body (e : edge E) : list Z := removelast (line w fm e).
  Lemma line_body e : binary fm = false -> edge_ok e ->
    line w fm e = body e ++ [10] /\
    body e = print_d (e_src e) ++ 32 :: print_d (e_dst e) ++ (if weights fm then match w_text w with Some (pr, _) => 32 :: pr (e_val e) | None => [] end else []).
  Proof.
    intros Hb (_ & _ & Iw). unfold body, line, weight_ok in *. rewrite Hb in *. destruct (weights fm).
    - destruct Iw as (pr & sc & -> & _). assert (print_d (e_src e) ++ [32] ++ print_d (e_dst e) ++ [32] ++ pr (e_val e) ++ [10] = (print_d (e_src e) ++ 32 :: print_d (e_dst e) ++ 32 :: pr (e_val e)) ++ [10]) as ->.
      { rewrite <- !app_assoc. cbn [app]. rewrite <- app_assoc. reflexivity. }
      rewrite removelast_last. auto.
    - assert (print_d (e_src e) ++ [32] ++ print_d (e_dst e) ++ [10] = (print_d (e_src e) ++ 32 :: print_d (e_dst e) ++ []) ++ [10]) as ->.
      { rewrite app_nil_r, <- !app_assoc. reflexivity. }
      rewrite removelast_last. auto.
  Qed.
  Lemma readLine_cut pre e (a : list cell) p : binary fm = false -> pre_ok pre -> edge_ok e ->
    readLine w wide fm (mkS (pre ++ body e) false) a p = (do a' <- wr a p (full (back w fm e)) ;; Ok (false, mkS [] true, a')).
  Proof.
    intros Bi [Hp Hb] He. rewrite (proj2 (line_body e Bi He)). destruct He as (Is & Id & Iw). unfold readLine, back, weight_ok in *. rewrite Bi in *.
    assert (0 <= p < zlen a \/ ~ (0 <= p < zlen a)) as [B|B] by lia.
    - rewrite (wr_ok a p _ B). cbn [bind]. destruct (rd_ok a p B) as (c & Ec). destruct (weights fm).
      + destruct Iw as (pr & sc & -> & _ & Hsc). rewrite (sc_field_ok _ _ _ _ _ _ (scan_d_sp wide pre (e_src e) _ Hp Is)).
        rewrite (st_src_ok a p c _ Ec). cbn [bind negb]. rewrite (sc_field_ok _ _ _ _ _ _ (scan_d_sp' wide (e_dst e) _ Id)).
        rewrite (st_dst_ok _ p _ _ (rd_upd_same a p _ B)). cbn [bind negb fst snd]. rewrite upd_upd.
        rewrite (sc_field_ok _ _ _ _ _ _ Hsc). rewrite (st_val_ok _ p _ _ (rd_upd_same a p _ B)). cbn [bind fst snd]. rewrite upd_upd. reflexivity.
      + rewrite app_nil_r. rewrite (sc_field_ok _ _ _ _ _ _ (scan_d_sp wide pre (e_src e) _ Hp Is)).
        rewrite (st_src_ok a p c _ Ec). cbn [bind negb]. rewrite (sc_field_ok _ _ _ _ _ _ (scan_d_last' wide (e_dst e) Id)).
        rewrite (st_dst_ok _ p _ _ (rd_upd_same a p _ B)). cbn [bind negb fst snd]. rewrite upd_upd.
        rewrite (st_val_ok _ p _ _ (rd_upd_same a p _ B)). cbn [bind fst snd]. rewrite upd_upd. reflexivity.
    - rewrite (wr_OOB a p _ B). cbn [bind]. assert (forall x, st_src a p x = Err OOB) as Ho by (intros x; unfold st_src; rewrite rd_OOB by auto; reflexivity).
      destruct (weights fm); [destruct Iw as (pr & sc & -> & _)|]; rewrite (sc_field_ok _ _ _ _ _ _ (scan_d_sp wide pre (e_src e) _ Hp Is)); rewrite Ho; reflexivity.
  Qed.

  (** *** all lines of a file *)
  Definition put_all (l : list (edge E)) (st : list cell * Z) : R (list cell * Z) :=
    foldR (fun st e => do a <- wr (fst st) (snd st) (full e) ;; Ok (a, snd st + 1)) l st.
  Definition lines (l : list (edge E)) : list Z := concat (map (line w fm) l).
  Lemma read_edges_ended l : forall fuel pre (a : list cell) p, supported w fm -> pre_ok pre -> Forall edge_ok l -> (length l < fuel)%nat ->
    read_edges w wide fuel fm (mkS (pre ++ lines l) false) a p = put_all (map (back w fm) l) (a, p).
  Proof.
    induction l as [|e l IH]; intros [|fuel] pre a p Hs Hp Hl Hf; try (cbn in Hf; lia).
    - cbn [read_edges s_eof lines map concat]. unfold lines. cbn [map concat]. rewrite app_nil_r, readLine_end by auto. reflexivity.
    - apply Forall_cons_iff in Hl as [He Hl]. cbn [length] in Hf. unfold lines in *. cbn [read_edges s_eof map concat]. rewrite readLine_ok by auto. unfold put_all. cbn [foldR fst snd]. destruct (wr a p _) as [a'|]; [|reflexivity]. cbn [bind negb].
      rewrite IH; auto using post_ok. lia.
  Qed.
  Lemma read_edges_cut l e : forall fuel pre (a : list cell) p, binary fm = false -> supported w fm -> pre_ok pre -> Forall edge_ok l -> edge_ok e -> (length l < fuel)%nat ->
    read_edges w wide fuel fm (mkS (pre ++ lines l ++ body e) false) a p =
    (do q <- put_all (map (back w fm) l) (a, p) ;; do a <- wr (fst q) (snd q) (full (back w fm e)) ;; Ok (a, snd q)).
  Proof.
    induction l as [|e0 l IH]; intros [|fuel] pre a p Bi Hs Hp Hl He Hf; try (cbn in Hf; lia).
    - unfold lines. cbn [read_edges s_eof map concat app]. rewrite readLine_cut by auto. cbn [put_all map foldR bind fst snd]. destruct (wr a p _); reflexivity.
    - apply Forall_cons_iff in Hl as [He0 Hl]. cbn [length] in Hf. unfold lines in *. cbn [read_edges s_eof map concat]. rewrite <- app_assoc. rewrite readLine_ok by auto. unfold put_all. cbn [foldR fst snd]. destruct (wr a p _) as [a'|]; [|reflexivity]. cbn [bind negb].
      rewrite IH; auto using post_ok. lia.
  Qed.
  Lemma back_src e : e_src (back w fm e) = e_src e. Proof. unfold back. destruct (weights fm); reflexivity. Qed.
  Lemma back_dst e : e_dst (back w fm e) = e_dst e. Proof. unfold back. destruct (weights fm); reflexivity. Qed.
  Lemma max_if s mx : (if s <? mx then mx else s) = Z.max mx s.
  Proof. destruct (Z.ltb_spec s mx); lia. Qed.
  Lemma count_lines_ended l : forall fuel pre mx nx cnt c, supported w fm -> pre_ok pre -> Forall edge_ok l -> (length l < fuel)%nat ->
    count_lines w wide fuel fm (mkS (pre ++ lines l) false) mx nx cnt [c] = Ok (fold_left Z.max (map (@e_src E) l) mx, fold_left Z.max (map (@e_dst E) l) nx, cnt + zlen l).
  Proof.
    induction l as [|e l IH]; intros [|fuel] pre mx nx cnt c Hs Hp Hl Hf; try (cbn in Hf; lia).
    - unfold lines. cbn [count_lines s_eof map concat]. rewrite app_nil_r, readLine_end by auto. cbn. rewrite Z.add_0_r. reflexivity.
    - apply Forall_cons_iff in Hl as [He Hl]. cbn [length] in Hf. unfold lines in *. cbn [count_lines s_eof map concat fold_left]. rewrite readLine_ok by auto. cbn [wr Z.ltb Z.compare orb length Z.of_nat]. cbn [bind].
      change (wr [c] 0 (full (back w fm e))) with (Ok [full (back w fm e)]). cbn [bind negb]. change (rd [full (back w fm e)] 0) with (Ok (full (back w fm e))). cbn [bind full fst snd need].
      rewrite IH; auto using post_ok; [|lia]. rewrite back_src, back_dst, !max_if, zlen_cons. do 2 f_equal. lia.
  Qed.
  Lemma count_lines_cut l e : forall fuel pre mx nx cnt c, binary fm = false -> supported w fm -> pre_ok pre -> Forall edge_ok l -> edge_ok e -> (length l < fuel)%nat ->
    count_lines w wide fuel fm (mkS (pre ++ lines l ++ body e) false) mx nx cnt [c] = Ok (fold_left Z.max (map (@e_src E) l) mx, fold_left Z.max (map (@e_dst E) l) nx, cnt + zlen l).
  Proof.
    induction l as [|e0 l IH]; intros [|fuel] pre mx nx cnt c Bi Hs Hp Hl He Hf; try (cbn in Hf; lia).
    - unfold lines. cbn [count_lines s_eof map concat app]. rewrite readLine_cut by auto. change (wr [c] 0 (full (back w fm e))) with (Ok [full (back w fm e)]). cbn. rewrite Z.add_0_r. reflexivity.
    - apply Forall_cons_iff in Hl as [He0 Hl]. cbn [length] in Hf. unfold lines in *. cbn [count_lines s_eof map concat fold_left]. rewrite <- app_assoc. rewrite readLine_ok by auto.
      change (wr [c] 0 (full (back w fm e0))) with (Ok [full (back w fm e0)]). cbn [bind negb]. change (rd [full (back w fm e0)] 0) with (Ok (full (back w fm e0))). cbn [bind full fst snd need].
      rewrite IH; auto using post_ok; [|lia]. rewrite back_src, back_dst, !max_if, zlen_cons. do 2 f_equal. lia.
  Qed.

  (** *** the header *)
  Lemma read_header_ok m n c b : header fm = true -> is_int m -> is_int n -> is_int c ->
    read_header wide fm (mkS (header_bytes fm m n c ++ b) false) = Ok (m, n, c, mkS (post ++ b) false).
  Proof.
    intros Hh Im In_ Ic. unfold read_header, header_bytes, post. rewrite Hh. destruct (binary fm).
    - rewrite (f_read_app 12) by reflexivity. rewrite dec_enc32 by auto. change (skipn 4 (enc32 m ++ enc32 n ++ enc32 c)) with (enc32 n ++ enc32 c). rewrite dec_enc32 by auto.
      change (skipn 8 (enc32 m ++ enc32 n ++ enc32 c)) with (enc32 c). rewrite dec_enc32' by auto. reflexivity.
    - cbn [app]. repeat (rewrite <- app_assoc; cbn [app]). pose proof (fun b => scan_d_sp wide [] m b eq_refl Im) as X. cbn [app] in X. rewrite X. clear X. rewrite (scan_d_sp' wide n _ In_).
      pose proof (scan_print_u [32] c (10 :: b) false eq_refl eq_refl) as X. cbn [app] in X. rewrite X. clear X. cbn [at_end orb app]. rewrite as_u_id, i32_u32, i32_id by auto. reflexivity.
  Qed.
  Lemma read_header_cut m n c : binary fm = false -> header fm = true -> is_int m -> is_int n -> is_int c ->
    read_header wide fm (mkS (removelast (header_bytes fm m n c)) false) = Ok (m, n, c, mkS [] true).
  Proof.
    intros Bi Hh Im In_ Ic. unfold read_header, header_bytes. rewrite Hh, Bi.
    assert (print_d m ++ [32] ++ print_d n ++ [32] ++ print_u c ++ [10] = (print_d m ++ 32 :: print_d n ++ 32 :: print_u c ++ []) ++ [10]) as ->.
    { rewrite app_nil_r, <- !app_assoc. cbn [app]. rewrite <- app_assoc. reflexivity. }
    rewrite removelast_last. pose proof (fun b => scan_d_sp wide [] m b eq_refl Im) as X. cbn [app] in X. rewrite X. clear X. rewrite (scan_d_sp' wide n _ In_).
    pose proof (scan_print_u [32] c [] false eq_refl I) as X. cbn [app] in X. rewrite X. clear X. cbn [at_end orb app]. rewrite as_u_id, i32_u32, i32_id by auto. reflexivity.
  Qed.

  (** *** one file *)
  Definition unended (F : efile E) : option (edge E) := if ef_newline F then None else match ef_edges F with [] => None | e :: l => Some (last l e) end.
  Lemma unended_cut F e : unended F = Some e -> ef_newline F = false /\ ef_edges F = ended F ++ [e].
  Proof.
    unfold unended, ended. destruct (ef_newline F); [discriminate|]. destruct (ef_edges F) as [|a l]; [discriminate|]. intros H. injection H as <-. split; auto.
    assert (last l a = last (a :: l) a) as -> by (destruct l; reflexivity). apply app_removelast_last. discriminate.
  Qed.
  Lemma unended_none F : unended F = None -> ended F = ef_edges F.
  Proof. unfold unended, ended. destruct (ef_newline F); auto. destruct (ef_edges F); [reflexivity|discriminate]. Qed.
  Definition bytes (F : efile E) : list Z := lines (ended F) ++ match unended F with Some e => body e | None => [] end.
  Lemma content_eq F : fits w fm F ->
    content w fm F = (if header fm then header_bytes fm (ef_m F) (ef_n F) (ef_count F) else []) ++ bytes F \/
    (binary fm = false /\ header fm = true /\ ef_edges F = [] /\ content w fm F = removelast (header_bytes fm (ef_m F) (ef_n F) (ef_count F))).
  Proof.
    intros (_ & _ & _ & Hb & Hl). assert (header fm = false -> header_bytes fm (ef_m F) (ef_n F) (ef_count F) = []) as Hh by (intros H; unfold header_bytes; rewrite H; reflexivity).
    unfold content, bytes, lines. destruct (unended F) as [e|] eqn:U.
    - left. destruct (unended_cut F e U) as [Hn Hc]. rewrite Hn. assert (binary fm = false) as Bi by (destruct (binary fm); auto; rewrite Hb in Hn by auto; discriminate).
      assert (edge_ok e) as He by (apply Hl; rewrite Hc; apply in_or_app; right; left; reflexivity).
      rewrite Hc at 1. rewrite map_app, concat_app. cbn [map concat]. rewrite app_nil_r, (proj1 (line_body e Bi He)), !app_assoc, removelast_last. destruct (header fm); [reflexivity|rewrite Hh by auto; reflexivity].
    - rewrite (unended_none F U). unfold unended in U. destruct (ef_newline F) eqn:Hn.
      + left. rewrite app_nil_r. destruct (header fm); [reflexivity|rewrite Hh by auto; reflexivity].
      + destruct (ef_edges F) as [|a l] eqn:El; [|discriminate U]. cbn [map concat app]. rewrite !app_nil_r. destruct (header fm) eqn:He; [|left; rewrite Hh by auto; reflexivity].
        right. split; [destruct (binary fm); auto; specialize (Hb eq_refl); congruence|]. auto.
  Qed.
  Lemma maxl_nonneg l : 0 <= maxl l.
  Proof. unfold maxl. induction l; cbn; lia. Qed.
  Lemma maxl_fold l : forall a, 0 <= a -> fold_left Z.max l a = Z.max a (maxl l).
  Proof. induction l as [|x l IH]; intros a Ha; cbn [fold_left maxl fold_right]; [lia|rewrite IH by lia]; unfold maxl; lia. Qed.
  Lemma maxl_fold0 l : fold_left Z.max l 0 = maxl l.
  Proof. rewrite maxl_fold by lia. pose proof (maxl_nonneg l). lia. Qed.
  Lemma ended_in (F : efile E) e : In e (ended F) -> In e (ef_edges F).
  Proof. unfold ended. destruct (ef_newline F); auto. intros H. destruct (ef_edges F) as [|a l]; [destruct H|]. rewrite (app_removelast_last a (l := a :: l)) by discriminate. apply in_or_app. auto. Qed.
  Lemma ended_ok F : fits w fm F -> Forall edge_ok (ended F).
  Proof. intros (_ & _ & _ & _ & H). apply Forall_forall. intros e I0. apply H, ended_in, I0. Qed.
  Lemma ended_length (F : efile E) : (length (ended F) <= length (ef_edges F))%nat.
  Proof. destruct (unended F) eqn:U; [destruct (unended_cut _ _ U) as [_ ->]; rewrite app_length; lia|rewrite unended_none by auto; lia]. Qed.

  Lemma get_file fuel F : supported w fm -> fits w fm F -> (length (ef_edges F) < fuel)%nat ->
    get_maxid_and_nnz w wide fuel fm (f_open (content w fm F)) = Ok (file_m fm F, file_n fm F, file_count fm F).
  Proof.
    intros Hs Hf Hl. unfold get_maxid_and_nnz, file_m, file_n, file_count, f_open. pose proof Hf as (Im & In_ & Ic & Hb & He). pose proof (ended_length F) as Le. pose proof (ended_ok F Hf) as Oe.
    destruct (content_eq F Hf) as [->|(Bi & Hh & El & ->)].
    - destruct (header fm) eqn:Hh; [rewrite read_header_ok by auto; reflexivity|]. cbn [app]. unfold bytes. rewrite <- (maxl_fold0 (map (@e_src E) (ended F))), <- (maxl_fold0 (map (@e_dst E) (ended F))). destruct (unended F) as [e|] eqn:U.
      + destruct (unended_cut F e U) as [Hn Hc]. assert (binary fm = false) as Bi by (destruct (binary fm); auto; rewrite Hb in Hn by auto; discriminate).
        apply (count_lines_cut (ended F) e fuel []); auto; [split; auto| |lia]. apply He. rewrite Hc. apply in_or_app. right. left. reflexivity.
      + rewrite app_nil_r. apply (count_lines_ended (ended F) fuel []); auto; [split; auto|lia].
    - rewrite Hh. rewrite read_header_cut by auto. reflexivity.
  Qed.

  (** what reading a file stores *)
  Definition stored (F : efile E) (st : list cell * Z) : R (list cell * Z) :=
    do q <- put_all (map (back w fm) (ended F)) st ;;
    match unended F with Some e => do a <- wr (fst q) (snd q) (full (back w fm e)) ;; Ok (a, snd q) | None => Ok q end.
  Lemma read_file fuel F st : supported w fm -> fits w fm F -> (length (ef_edges F) < fuel)%nat ->
    (do f <- (if header fm then do q <- read_header wide fm (f_open (content w fm F)) ;; Ok (snd q) else Ok (f_open (content w fm F))) ;;
     read_edges w wide fuel fm f (fst st) (snd st)) = stored F st.
  Proof.
    intros Hs Hf Hl. unfold stored, f_open. pose proof Hf as (Im & In_ & Ic & Hb & He). pose proof (ended_length F) as Le. pose proof (ended_ok F Hf) as Oe.
    destruct (content_eq F Hf) as [->|(Bi & Hh & El & ->)].
    - assert ((do f <- (if header fm then do q <- read_header wide fm (mkS ((if header fm then header_bytes fm (ef_m F) (ef_n F) (ef_count F) else []) ++ bytes F) false) ;; Ok (snd q) else Ok (mkS ((if header fm then header_bytes fm (ef_m F) (ef_n F) (ef_count F) else []) ++ bytes F) false)) ;;
        read_edges w wide fuel fm f (fst st) (snd st)) = read_edges w wide fuel fm (mkS ((if header fm then post else []) ++ bytes F) false) (fst st) (snd st)) as ->.
      { destruct (header fm) eqn:Hh; [rewrite read_header_ok by auto; reflexivity|reflexivity]. }
      assert (pre_ok (if header fm then post else [])) as Hp by (destruct (header fm); [apply post_ok|split; auto]). unfold bytes. destruct (unended F) as [e|] eqn:U.
      + destruct (unended_cut F e U) as [Hn Hc]. assert (binary fm = false) as Bi by (destruct (binary fm); auto; rewrite Hb in Hn by auto; discriminate).
        assert (edge_ok e) as Ee by (apply He; rewrite Hc; apply in_or_app; right; left; reflexivity). assert (length (ended F) < fuel)%nat as Lf by lia.
        rewrite read_edges_cut by auto. destruct st; reflexivity.
      + assert (length (ended F) < fuel)%nat as Lf by lia. rewrite app_nil_r, read_edges_ended by auto. destruct st as [a p]. cbn [fst snd]. destruct (put_all _ _); reflexivity.
    - rewrite Hh. rewrite read_header_cut by auto. cbn [bind snd]. destruct fuel; [rewrite El in Hl; cbn in Hl; lia|]. cbn [read_edges s_eof]. unfold ended, unended. rewrite El. destruct (ef_newline F); destruct st; reflexivity.
  Qed.

  (** *** all files of a rank *)
  Lemma put_all_eq l : forall (D : list (edge E)) rest,
    put_all l (map full D ++ rest, zlen D) =
    if (length l <=? length rest)%nat then Ok (map full (D ++ l) ++ skipn (length l) rest, zlen D + zlen l) else Err OOB.
  Proof.
    induction l as [|e l IH]; intros D rest.
    - cbn. rewrite app_nil_r, Z.add_0_r. reflexivity.
    - unfold put_all in *. cbn [foldR fst snd length]. destruct rest as [|c rest].
      + rewrite wr_OOB; [reflexivity|]. rewrite app_nil_r. unfold zlen. rewrite map_length. lia.
      + assert (wr (map full D ++ c :: rest) (zlen D) (full e) = Ok (map full (D ++ [e]) ++ rest)) as ->.
        { rewrite wr_ok; [|unfold zlen; rewrite app_length, map_length; cbn; lia]. f_equal. unfold zlen. rewrite Nat2Z.id, <- (map_length full D). rewrite map_app, <- app_assoc. cbn [map app].
          generalize (map full D). induction l0 as [|x l0 IHl]; cbn; [reflexivity|rewrite IHl; reflexivity]. }
        cbn [bind]. assert (zlen D + 1 = zlen (D ++ [e])) as -> by (rewrite zlen_app; reflexivity). rewrite IH. cbn [length Nat.leb skipn]. rewrite zlen_app, zlen_cons, <- app_assoc. cbn [app].
        destruct (length l <=? length rest)%nat; [|reflexivity]. do 2 f_equal. rewrite !zlen_cons. change (zlen (@nil (edge E))) with 0. lia.
  Qed.
  Definition no_lines (G : efile E) : bool := match ef_edges G with [] => true | _ => false end.
  Definition olist {A} (o : option A) : list A := match o with Some a => [a] | None => [] end.
  Lemma kept_cons F r : kept (F :: r) = (if ef_newline F || forallb no_lines r then ef_edges F else ended F) ++ kept r.
  Proof. reflexivity. Qed.
  Lemma kept_nonempty r : forallb no_lines r = false -> kept r <> [].
  Proof.
    induction r as [|F r IH]; [discriminate|]. cbn [forallb]. rewrite kept_cons. unfold no_lines at 1. intros H.
    destruct (forallb no_lines r) eqn:Er.
    - rewrite andb_true_r in H. rewrite orb_true_r. destruct (ef_edges F); [discriminate|discriminate].
    - intros Hn. apply app_eq_nil in Hn as [_ Hn]. exact (IH eq_refl Hn).
  Qed.
  Lemma stored_all fs : forall (D : list (edge E)) pend k, (length (olist pend) <= k)%nat ->
    let fin := (if forallb no_lines fs then olist pend else []) ++ map (back w fm) (kept fs) in
    exists pos, foldR (fun st F => stored F st) fs (map full D ++ map full (olist pend) ++ repeat fresh (k - length (olist pend)), zlen D) =
      if (length fin <=? k)%nat then Ok (map full (D ++ fin) ++ repeat fresh (k - length fin), pos) else Err OOB.
  Proof.
    induction fs as [|F r IH]; intros D pend k Hk fin.
    - exists (zlen D). cbn [foldR]. subst fin. cbn [forallb kept map]. rewrite app_nil_r. destruct (Nat.leb_spec (length (olist pend)) k); [|lia]. rewrite map_app, <- app_assoc. reflexivity.
    - cbn [foldR]. unfold stored at 1. set (rest := map full (olist pend) ++ repeat fresh (k - length (olist pend))).
      assert (length rest = k) as Lr by (subst rest; rewrite app_length, map_length, repeat_length; lia).
      rewrite put_all_eq, Lr, map_length.
      assert (forall n, (1 <= n)%nat -> skipn n rest = repeat fresh (k - n)) as Sk.
      { intros n Hn. subst rest. rewrite skipn_app, map_length. destruct pend; cbn [olist map length] in *; [rewrite skipn_all2 by (cbn; lia)|rewrite skipn_nil]; cbn [app];
        match goal with |- skipn ?a (repeat fresh ?b) = _ => assert (forall x y, skipn x (repeat (@fresh E) y) = repeat fresh (y - x)) as Sr end.
        1,3: (induction x as [|x IHx]; intros [|y]; cbn; auto). all: rewrite Sr; f_equal; lia. }
      destruct (unended F) as [e|] eqn:U.
      + destruct (unended_cut F e U) as [Hn Hc]. subst fin. assert (no_lines F = false) as Nl by (unfold no_lines; rewrite Hc; destruct (ended F); reflexivity).
        cbn [forallb]. rewrite Nl. cbn [andb app]. rewrite kept_cons, Hn. cbn [orb].
        destruct (Nat.leb_spec (length (ended F)) k) as [L1|L1].
        * cbn [bind fst snd]. assert (zlen D + zlen (map (back w fm) (ended F)) = zlen (D ++ map (back w fm) (ended F))) as Ez by (rewrite zlen_app; lia). rewrite Ez. set (D' := D ++ map (back w fm) (ended F)) in *.
          set (rest' := skipn (length (ended F)) rest). assert (length rest' = k - length (ended F))%nat as Lr' by (subst rest'; rewrite skipn_length; lia).
          destruct rest' as [|c rest''] eqn:Er'.
          -- rewrite wr_OOB by (rewrite app_nil_r; unfold zlen; rewrite map_length; lia). exists 0. cbn [bind]. cbn [length] in Lr'.
             destruct (Nat.leb_spec (length (map (back w fm) ((if forallb no_lines r then ef_edges F else ended F) ++ kept r))) k) as [L|L]; [exfalso|reflexivity]. rewrite map_length, app_length in L.
             destruct (forallb no_lines r) eqn:En; [rewrite Hc, app_length in L; cbn in L; lia|]. pose proof (kept_nonempty r En). destruct (kept r); [contradiction|cbn in L; lia].
          -- pose proof (put_all_eq [back w fm e] D' (c :: rest'')) as P. unfold put_all in P. cbn [foldR fst snd length Nat.leb skipn] in P. destruct (wr (map full D' ++ c :: rest'') (zlen D') (full (back w fm e))) as [a'|] eqn:Ew; [|discriminate P].
             cbn [bind] in P. injection P as ->. cbn [bind]. assert (rest'' = repeat fresh (k - length (ended F) - 1)) as ->.
             { assert (skipn (S (length (ended F))) rest = rest'') as <-; [|rewrite Sk by lia; f_equal; lia]. subst rest'. clearbody rest. clear - Er'. revert rest Er'. generalize (length (ended F)). induction n as [|n IHn]; intros rest; destruct rest as [|y rest]; intros Hx; try discriminate Hx; [cbn in *; congruence|exact (IHn rest Hx)]. }
             cbn [length] in Lr'. destruct (IH D' (Some (back w fm e)) (k - length (ended F))%nat ltac:(cbn; lia)) as (pos & Hpos). cbn [olist map length] in Hpos. rewrite map_app in Hpos |- *. cbn [map] in *. rewrite <- app_assoc in Hpos |- *. cbn [app] in Hpos |- *. exists pos. rewrite Hpos. clear Hpos IH.
             assert (map (back w fm) (if forallb no_lines r then ef_edges F else ended F) ++ map (back w fm) (kept r) = map (back w fm) (ended F) ++ (if forallb no_lines r then [back w fm e] else []) ++ map (back w fm) (kept r)) as Ef.
             { destruct (forallb no_lines r); [rewrite Hc, map_app, <- app_assoc; reflexivity|reflexivity]. }
             rewrite (map_app (back w fm) _ (kept r)), Ef. set (tl := (if forallb no_lines r then [back w fm e] else []) ++ map (back w fm) (kept r)). rewrite app_length, map_length.
             destruct (Nat.leb_spec (length tl) (k - length (ended F))) as [L|L]; destruct (Nat.leb_spec (length (ended F) + length tl) k) as [L2|L2]; try lia; [|reflexivity].
             unfold D'. rewrite !map_app, <- !app_assoc. do 5 f_equal. f_equal. lia.
        * exists 0. cbn [bind]. destruct (Nat.leb_spec (length (map (back w fm) ((if forallb no_lines r then ef_edges F else ended F) ++ kept r))) k) as [L|L]; [exfalso|reflexivity]. rewrite map_length, app_length in L.
          destruct (forallb no_lines r); [rewrite Hc, app_length in L; lia|lia].
      + rewrite (unended_none F U). destruct (ef_edges F) as [|e0 l0] eqn:El.
        * cbn [length Nat.leb map skipn bind app]. rewrite app_nil_r. change (zlen []) with 0. rewrite Z.add_0_r. subst rest. destruct (IH D pend k Hk) as (pos & Hpos). exists pos. rewrite Hpos.
          subst fin. cbn [forallb]. assert (no_lines F = true) as -> by (unfold no_lines; rewrite El; reflexivity). cbn [andb]. rewrite kept_cons. replace (if ef_newline F || forallb no_lines r then ef_edges F else ended F) with (@nil (edge E)); [reflexivity|]. rewrite unended_none, El by auto. destruct (_ || _); reflexivity.
        * rewrite <- El. assert (kept (F :: r) = ef_edges F ++ kept r) as Ek by (rewrite kept_cons, (unended_none F U); destruct (_ || _); reflexivity). assert (1 <= length (ef_edges F))%nat as L1 by (rewrite El; cbn; lia).
          assert (fin = map (back w fm) (ef_edges F) ++ map (back w fm) (kept r)) as Ef by (subst fin; cbn [forallb]; assert (no_lines F = false) as -> by (unfold no_lines; rewrite El; reflexivity); cbn [andb app]; rewrite Ek, map_app; reflexivity). clearbody fin. subst fin.
          destruct (Nat.leb_spec (length (ef_edges F)) k) as [L|L].
          -- cbn [bind]. assert (zlen D + zlen (map (back w fm) (ef_edges F)) = zlen (D ++ map (back w fm) (ef_edges F))) as -> by (rewrite zlen_app; lia). rewrite Sk by auto.
             destruct (IH (D ++ map (back w fm) (ef_edges F)) None (k - length (ef_edges F))%nat ltac:(cbn; lia)) as (pos & Hpos). cbn [olist map length app] in Hpos. rewrite Nat.sub_0_r in Hpos. exists pos. rewrite Hpos.
             assert ((if forallb no_lines r then [] else []) ++ map (back w fm) (kept r) = map (back w fm) (kept r)) as -> by (destruct (forallb no_lines r); reflexivity). rewrite app_length, !map_length.
             destruct (Nat.leb_spec (length (kept r)) (k - length (ef_edges F))) as [L2|L2]; destruct (Nat.leb_spec (length (ef_edges F) + length (kept r)) k) as [L3|L3]; try lia; [|reflexivity].
             rewrite <- app_assoc. do 3 f_equal. f_equal. lia.
          -- exists 0. cbn [bind]. rewrite app_length, !map_length. destruct (Nat.leb_spec (length (ef_edges F) + length (kept r)) k); [lia|reflexivity].
  Qed.

  Lemma pass2_eq fuel fs c : supported w fm -> Forall (fits w fm) fs -> Forall (fun F => (length (ef_edges F) < fuel)%nat) fs ->
    exists pos, pass2 w wide fuel fm (map (content w fm) fs) c =
      if zlen (kept fs) <=? Z.max 0 c then Ok (map full (map (back w fm) (kept fs)) ++ repeat fresh (Z.to_nat (c - zlen (kept fs))), pos) else Err OOB.
  Proof.
    intros Hs Hf Hl. unfold pass2. destruct (stored_all fs [] None (Z.to_nat c) ltac:(cbn; lia)) as (pos & Hp). exists pos. cbn [map app olist length] in Hp. rewrite Nat.sub_0_r in Hp. change (zlen []) with 0 in Hp.
    assert (foldR (fun st b => do f <- (if header fm then do q <- read_header wide fm (f_open b) ;; Ok (snd q) else Ok (f_open b)) ;; read_edges w wide fuel fm f (fst st) (snd st)) (map (content w fm) fs) (repeat fresh (Z.to_nat c), 0)
      = foldR (fun st F => stored F st) fs (repeat fresh (Z.to_nat c), 0)) as ->.
    { generalize (repeat (@fresh E) (Z.to_nat c), 0). clear Hp. induction fs as [|F r IH]; intros st; [reflexivity|]. apply Forall_cons_iff in Hf as [Hf Hfr]. apply Forall_cons_iff in Hl as [Hl Hlr]. cbn [map foldR]. rewrite read_file by auto. destruct (stored F st); [|reflexivity]. cbn [bind]. auto. }
    rewrite Hp. assert ((if forallb no_lines fs then [] else []) ++ map (back w fm) (kept fs) = map (back w fm) (kept fs)) as -> by (destruct (forallb no_lines fs); reflexivity). rewrite map_length. unfold zlen.
    destruct (Nat.leb_spec (length (kept fs)) (Z.to_nat c)); destruct (Z.leb_spec (Z.of_nat (length (kept fs))) (Z.max 0 c)); try lia; [|reflexivity]. do 3 f_equal. f_equal. lia.
  Qed.
  Lemma i32_add_l x y : i32 (i32 x + y) = i32 (x + y).
  Proof. unfold i32. replace ((x + 2 ^ 31) mod 2 ^ 32 - 2 ^ 31 + y + 2 ^ 31) with ((x + 2 ^ 31) mod 2 ^ 32 + y) by lia. rewrite Zplus_mod_idemp_l. f_equal. f_equal. lia. Qed.
  Lemma pass1_eq fuel fs : supported w fm -> Forall (fits w fm) fs -> Forall (fun F => (length (ef_edges F) < fuel)%nat) fs ->
    pass1 w wide fuel fm (map (content w fm) fs) = Ok (maxl (map (file_m fm) fs), maxl (map (file_n fm) fs), count fm fs).
  Proof.
    intros Hs Hf Hl. unfold pass1, count.
    assert (forall a b c, 0 <= a -> 0 <= b -> foldR (fun st b => let '(m, n, z) := st in do q <- get_maxid_and_nnz w wide fuel fm (f_open b) ;; let '(m_, n_, z_) := q in Ok (Z.max m_ m, Z.max n_ n, i32 (z + z_))) (map (content w fm) fs) (a, b, i32 c)
      = Ok (Z.max a (maxl (map (file_m fm) fs)), Z.max b (maxl (map (file_n fm) fs)), i32 (c + fold_right Z.add 0 (map (file_count fm) fs)))) as H.
    { induction fs as [|F r IH]; intros a b c Ha Hb; [cbn; rewrite Z.add_0_r; repeat f_equal; lia|]. apply Forall_cons_iff in Hf as [Hf Hfr]. apply Forall_cons_iff in Hl as [Hl Hlr]. cbn [map foldR]. rewrite get_file by auto. cbn [bind]. rewrite i32_add_l, IH by (auto; lia).
      cbn [maxl fold_right]. unfold maxl. rewrite <- Z.add_assoc. do 3 f_equal; [lia|]. lia. }
    pose proof (H 0 0 0 ltac:(lia) ltac:(lia)) as H0. change (i32 0) with 0 in H0. rewrite H0. pose proof (maxl_nonneg (map (file_m fm) fs)). pose proof (maxl_nonneg (map (file_n fm) fs)). rewrite Z.add_0_l. do 3 f_equal; lia.
  Qed.
End IO.

(** *** the directory *)
Definition bytes_at (d : dirt) (i : Z) : list Z := match file_at d i with Some b => b | None => [] end.
Lemma file_at_out (d : dirt) i : 0 <= i -> zlen d <= i -> file_at d i = None.
Proof. intros H0 H. unfold file_at, zlen in *. destruct (nth_error d (Z.to_nat i)) eqn:En; [|reflexivity]. assert (Z.to_nat i < length d)%nat by (apply nth_error_Some; congruence). lia. Qed.
Lemma opened_eq nr (d : dirt) : 1 <= nr -> forall j fuel i, 0 <= i -> zlen d <= i + nr * Z.of_nat j -> (j < fuel)%nat ->
  opened fuel nr i d = Ok (map (bytes_at d) (present d (map (fun k => i + nr * k) (zrange 0 (Z.of_nat j))))).
Proof.
  intros Hn. induction j as [|j IH]; intros [|fuel] i Hi Hd Hf; try lia.
  - cbn [opened]. rewrite file_at_out by lia. reflexivity.
  - cbn [opened]. rewrite zrange_cons by lia. cbn [map present]. rewrite Z.mul_0_r, Z.add_0_r. destruct (file_at d i) as [b|] eqn:Ef; [|reflexivity].
    rewrite IH by lia. cbn [bind]. cbn [map]. unfold bytes_at at 2. rewrite Ef. do 4 f_equal.
    assert (zrange (0 + 1) (Z.of_nat (S j)) = map (fun b => 0 + 1 + b) (zrange 0 (Z.of_nat j))) as -> by (rewrite <- zrange_shift; f_equal; lia). rewrite map_map. apply map_ext. intros k. lia.
Qed.
