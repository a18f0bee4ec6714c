(** Proofs about the commands: decimal numbers, reading the files, printing (C87). *)
From Coq Require Import String Ascii DecimalString DecimalFacts DecimalZ.
From Verif Require Import Base BaseLemmas ListLemmas BitsProofs Segment DCSC EdgeList EdgeSpec EdgeListProofs EdgeListProofs2 SpMat Graph GraphVert Runtime RunSpec GraphOps GraphHist Apps AppSpec FileIO FileSpec FileProofs FileFinal FileClaims CmdSpec Cmd.

Lemma chars_text s : chars s = text s. Proof. reflexivity. Qed.

(** ** decimal numbers *)
Definition digit (c : Z) (u : Decimal.uint) : Decimal.uint :=
  if c =? 48 then Decimal.D0 u else if c =? 49 then Decimal.D1 u else if c =? 50 then Decimal.D2 u else if c =? 51 then Decimal.D3 u else if c =? 52 then Decimal.D4 u
  else if c =? 53 then Decimal.D5 u else if c =? 54 then Decimal.D6 u else if c =? 55 then Decimal.D7 u else if c =? 56 then Decimal.D8 u else Decimal.D9 u.
Definition uint_of (l : list Z) : Decimal.uint := fold_right digit Decimal.Nil l.
Lemma digit_cases c : is_digit c = true -> c = 48 \/ c = 49 \/ c = 50 \/ c = 51 \/ c = 52 \/ c = 53 \/ c = 54 \/ c = 55 \/ c = 56 \/ c = 57.
Proof. unfold is_digit. lia. Qed.
Ltac digits H := apply digit_cases in H; destruct H as [->|[->|[->|[->|[->|[->|[->|[->|[->| ->]]]]]]]]].
Lemma uint_text l : forallb is_digit l = true -> text (NilEmpty.string_of_uint (uint_of l)) = l.
Proof.
  induction l as [|c l IH]; [reflexivity|]. cbn [forallb]. intros H. apply andb_true_iff in H as [Hc Hl]. specialize (IH Hl). cbn [uint_of fold_right]. fold (uint_of l).
  digits Hc; unfold digit; cbn -[text]; unfold text in *; cbn [list_ascii_of_string map]; rewrite IH; reflexivity.
Qed.
Lemma acc_val l : forall p, forallb is_digit l = true -> Zpos (Pos.of_uint_acc (uint_of l) p) = fold_left (fun a c => 10 * a + (c - 48)) l (Zpos p).
Proof.
  induction l as [|c l IH]; [reflexivity|]. cbn [forallb]. intros p H. apply andb_true_iff in H as [Hc Hl]. cbn [uint_of fold_right fold_left]. fold (uint_of l).
  digits Hc; unfold digit; cbn [Z.eqb Pos.eqb Pos.of_uint_acc]; rewrite IH by auto; f_equal; lia.
Qed.
Lemma uint_val l : forallb is_digit l = true -> Z.of_uint (uint_of l) = digits_val l.
Proof.
  unfold Z.of_uint, digits_val. induction l as [|c l IH]; [reflexivity|]. cbn [forallb]. intros H. apply andb_true_iff in H as [Hc Hl]. specialize (IH Hl). cbn [uint_of fold_right fold_left]. fold (uint_of l).
  digits Hc; unfold digit; cbn [Z.eqb Pos.eqb Pos.of_uint]; [exact IH|..]; change (Z.of_N (N.pos ?p)) with (Zpos p); cbn [Z.of_N]; rewrite acc_val by auto; reflexivity.
Qed.
Lemma no_leading k : forall n, 0 < n < 10 ^ Z.of_nat k -> exists c l, dec_digits k n = c :: l /\ c <> 48.
Proof.
  induction k as [|k IH]; intros n B; [cbn in B; lia|]. cbn [dec_digits]. destruct (Z.eqb_spec (n / 10) 0) as [E0|E0].
  - exists (48 + n mod 10), []. split; [reflexivity|]. lia.
  - destruct (IH (n / 10)) as (c & l & -> & Hc); [rewrite Nat2Z.inj_succ, Z.pow_succ_r in B by lia; lia|]. exists c, (l ++ [48 + n mod 10]). split; [reflexivity|auto].
Qed.
Lemma head_norm c l : is_digit c = true -> c <> 48 -> Decimal.nzhead (uint_of (c :: l)) = uint_of (c :: l).
Proof. intros Hc N. cbn [uint_of fold_right]. digits Hc; [lia|reflexivity..]. Qed.
Lemma uint_nonnil c l : uint_of (c :: l) <> Decimal.Nil.
Proof. cbn [uint_of fold_right]. unfold digit. repeat match goal with |- context [if ?b then _ else _] => destruct b end; discriminate. Qed.
Lemma dec_nn k n : (0 < k)%nat -> 0 <= n < 10 ^ Z.of_nat k -> dec n = dec_digits k n.
Proof.
  intros Hk B. destruct (Z.eq_dec n 0) as [->|N0].
  { destruct k; [lia|]. reflexivity. }
  pose proof (dec_digits_digit k n ltac:(lia)) as Hd. pose proof (dec_digits_val k n B) as Hv. destruct (no_leading k n ltac:(lia)) as (c & l & El & Nc). rewrite El in *.
  rewrite <- uint_val in Hv by auto. unfold dec. rewrite <- Hv. change (Z.of_uint (uint_of (c :: l))) with (Z.of_int (Decimal.Pos (uint_of (c :: l)))). rewrite DecimalZ.to_of.
  assert (is_digit c = true) as Hc by (cbn in Hd; apply andb_true_iff in Hd; tauto).
  cbn [Decimal.norm]. unfold Decimal.unorm. rewrite head_norm by auto. pose proof (uint_nonnil c l) as Nn.
  transitivity (text (NilEmpty.string_of_uint (uint_of (c :: l)))); [|apply uint_text; auto].
  destruct (uint_of (c :: l)); [congruence|reflexivity..].
Qed.
Lemma dec_neg k n : (0 < k)%nat -> 0 < n < 10 ^ Z.of_nat k -> dec (- n) = 45 :: dec_digits k n.
Proof.
  intros Hk B. rewrite <- (dec_nn k n) by lia. unfold dec. destruct n as [|p|p]; [lia| |lia]. cbn [Z.opp Z.to_int]. unfold NilZero.string_of_int. reflexivity.
Qed.
Lemma print_d_dec z : is_int z -> print_d z = dec z.
Proof.
  unfold is_int, print_d. intros B. destruct (Z.ltb_spec z 0) as [L|L].
  - rewrite <- (Z.opp_involutive z) at 2. symmetry. apply dec_neg; [lia|]. change (10 ^ Z.of_nat 10) with 10000000000. lia.
  - symmetry. apply dec_nn; [lia|]. change (10 ^ Z.of_nat 10) with 10000000000. lia.
Qed.
Lemma print_u_dec z : 0 <= z < 2 ^ 32 -> print_u z = dec z.
Proof. intros B. unfold print_u, u32. rewrite Z.mod_small by auto. symmetry. apply dec_nn; [lia|]. change (10 ^ Z.of_nat 10) with 10000000000. lia. Qed.
Lemma print_lu_dec z : 0 <= z < 2 ^ 64 -> print_lu z = dec z.
Proof. intros B. unfold print_lu. rewrite Z.mod_small by auto. symmetry. apply dec_nn; [lia|]. change (10 ^ Z.of_nat 20) with 100000000000000000000. lia. Qed.
Lemma print_lld_dec z : 0 <= z < 2 ^ 63 -> print_lld z = dec z.
Proof. intros B. unfold print_lld. rewrite Z.mod_small by lia. replace (z + 2 ^ 63 - 2 ^ 63) with z by lia. destruct (Z.ltb_spec z 0); [lia|]. symmetry. apply dec_nn; [lia|]. change (10 ^ Z.of_nat 19) with 10000000000000000000. lia. Qed.

(** ** reading the files *)
Lemma rank_blob (el : elist Z) l : holds el l -> mapR (rde el) (zrange 0 (el_nnz el)) = Ok l.
Proof. exact (mapR_rde el l). Qed.
Lemma rank_blobs (els : list (elist Z)) ls : Forall2 holds els ls -> mapR (fun el => mapR (rde el) (zrange 0 (el_nnz el))) els = Ok ls.
Proof. induction 1 as [|el l els ls H _ IH]; [reflexivity|]. cbn [mapR]. rewrite (rank_blob _ _ H), IH. reflexivity. Qed.

Section Read.
  Variables (wide : Z -> Z) (d : dirt) (fs : list (efile Z)) (nr : Z) (fuel : nat).
  Hypothesis (Hn : 1 <= nr) (HD : edge_folder d fs) (Hl : (length d < fuel)%nat) (Hf : forall F, In F fs -> (length (ef_edges F) < fuel)%nat).
  Let w := w_int wide.
  Let ls := map (@ef_edges Z) fs.
  Let F (i : Z) : efile Z := nth (Z.to_nat i) fs (mkEF 0 0 0 [] true).
  Lemma read_els : exists m n, load_edgelist w wide fuel mtx nr d = Ok (map (fun r => mkEL (map Some (dealt nr ls r)) m n (zlen (dealt nr ls r))) (zrange 0 nr)) /\ Z.max m n = folder_size fs /\ m = maxl (map (@ef_m Z) fs) /\ n = maxl (map (@ef_n Z) fs).
  Proof.
    destruct HD as (Hat & Htot & Hfs).
    assert (forall i, 0 <= i -> file_at d i = if i <? zlen fs then Some (content w mtx (F i)) else None) as Hd'.
    { intros i Hi. rewrite Hat by auto. unfold F. destruct (Z.ltb_spec i (zlen fs)) as [L|L].
      - destruct (nth_error fs (Z.to_nat i)) as [G|] eqn:EG; [|apply nth_error_None in EG; unfold zlen in L; lia]. rewrite (nth_error_nth _ _ _ EG). reflexivity.
      - destruct (nth_error fs (Z.to_nat i)) as [G|] eqn:EG; [|reflexivity]. assert (Z.to_nat i < List.length fs)%nat by (apply nth_error_Some; congruence). unfold zlen in L; lia. }
    assert (zlen ls = zlen fs) as Lz by (unfold ls, zlen; rewrite map_length; reflexivity).
    assert (forall i, 0 <= i < zlen fs -> In (F i) fs) as Hin by (intros i Bi; apply nth_In; unfold zlen in Bi; lia).
    assert (forall i, ef_edges (F i) = nth (Z.to_nat i) ls []) as HFe by (intros i; unfold F, ls; change [] with (ef_edges (mkEF 0 0 0 (@nil (edge Z)) true)) at 2; rewrite map_nth; reflexivity).
    assert (forall l, In l ls -> zlen l <= zlen (concat ls)) as Hll.
    { intros l Il. unfold zlen. apply in_split in Il as (l1 & l2 & ->). rewrite concat_app. cbn. rewrite !app_length. lia. }
    assert (holds_files w mtx d F) as HF.
    { intros i b Hi Eb. rewrite Hd' in Eb by auto. destruct (Z.ltb_spec i (zlen fs)) as [L|L]; [|discriminate]. injection Eb as <-. split; [reflexivity|]. destruct (Hfs (F i) (Hin i ltac:(lia))) as (D1 & D2 & D3 & D4 & D5).
      split; [auto|]. split; [auto|]. split; [|split; [auto|]].
      - rewrite D3. assert (In (ef_edges (F i)) ls) as I1 by (apply in_map, Hin; lia). pose proof (Hll _ I1). pose proof (zlen_nonneg (ef_edges (F i))). fold ls in Htot. unfold is_int. lia.
      - intros e Ie. destruct (D5 e Ie) as (E1 & E2 & E3). split; [auto|]. split; [auto|]. cbn. split; [reflexivity|]. apply dec_enc32'; auto. }
    assert (enough fuel d F) as HE.
    { split; [auto|]. intros i Bi. destruct (Z.lt_ge_cases i (zlen fs)) as [L|L]; [apply Hf, Hin; lia|]. unfold F. rewrite nth_overflow by (unfold zlen in L; lia). cbn. lia. }
    assert (supported w mtx) as Hs by (intros X; discriminate).
    pose proof (load_exact w wide mtx fuel nr d F Hs Hn HF HE) as EL. cbn zeta in EL.
    assert (forall r, 0 <= r < nr -> read_by nr d r = share nr (zlen ls) r) as Hrb.
    { intros r Hr. apply (read_by_share wide); auto; [apply zlen_nonneg|]. intros i Hi. rewrite Hd', Lz by auto. destruct (Z.ltb_spec i (zlen fs)); split; intros; eauto; try lia; destruct H0; discriminate. }
    assert (forall r, kept (map F (share nr (zlen ls) r)) = dealt nr ls r) as Hk.
    { intros r. rewrite kept_ended.
      - unfold dealt. rewrite map_map. f_equal. apply map_ext. exact HFe.
      - apply Forall_map, Forall_forall. intros i Ii. apply filter_In in Ii as [Ii _]. apply in_zrange in Ii. apply Hfs, Hin. lia. }
    assert (forall r, 0 <= r < nr -> zlen (dealt nr ls r) <= zlen (concat ls)) as Hdl.
    { intros r Br. pose proof (dealt_perm wide nr ls Hn) as P. unfold zlen. rewrite <- (Permutation_length P). assert (In (dealt nr ls r) (map (dealt nr ls) (zrange 0 nr))) as I0 by (apply in_map, in_zrange; lia).
      apply in_split in I0 as (l1 & l2 & ->). rewrite concat_app. cbn. rewrite !app_length. lia. }
    assert (forall r, 0 <= r < nr -> count mtx (map F (share nr (zlen ls) r)) = zlen (dealt nr ls r)) as Hc.
    { intros r Br. unfold count. rewrite map_map.
      assert (fold_right Z.add 0 (map (fun x => file_count mtx (F x)) (share nr (zlen ls) r)) = zlen (dealt nr ls r)) as ->.
      { unfold dealt. assert (forall i, In i (share nr (zlen ls) r) -> file_count mtx (F i) = zlen (nth (Z.to_nat i) ls [])) as Hi.
        { intros i Ii. apply filter_In in Ii as [Ii _]. apply in_zrange in Ii. destruct (Hfs (F i) (Hin i ltac:(lia))) as (_ & _ & D3 & _). rewrite <- HFe. exact D3. }
        revert Hi. generalize (share nr (zlen ls) r). induction l as [|i l IH]; intros Hi; [reflexivity|]. cbn [map fold_right concat]. rewrite zlen_app, IH by (intros; apply Hi; right; auto). rewrite (Hi i) by (left; auto). reflexivity. }
      apply i32_id. pose proof (Hdl r Br). pose proof (zlen_nonneg (dealt nr ls r)). fold ls in Htot. unfold is_int. lia. }
    assert (forall (g : efile Z -> Z), maxl (concat (map (fun r => map g (map F (read_by nr d r))) (zrange 0 nr))) = maxl (map g fs)) as Hmx.
    { intros g. assert (concat (map (fun r => map g (map F (read_by nr d r))) (zrange 0 nr)) = map (fun i => g (F i)) (flat_map (share nr (zlen ls)) (zrange 0 nr))) as ->.
      { assert (forall l, (forall r, In r l -> 0 <= r < nr) -> concat (map (fun r => map g (map F (read_by nr d r))) l) = map (fun i => g (F i)) (flat_map (share nr (zlen ls)) l)) as Hg.
        { induction l as [|r l IH]; intros Hl'; [reflexivity|]. cbn [map concat flat_map]. rewrite IH, map_app by (intros; apply Hl'; right; auto). rewrite Hrb, map_map by (apply Hl'; left; auto). reflexivity. }
        apply Hg. intros r Ir. apply in_zrange in Ir. auto. }
      transitivity (maxl (map (fun i => g (F i)) (zrange 0 (zlen ls)))).
      - apply (maxl_perm wide), Permutation_map, (classes_perm wide). intros i _. apply Z.mod_pos_bound. lia.
      - rewrite Lz. f_equal. rewrite <- (map_map F g). f_equal. rewrite <- (map_nth_all fs (mkEF 0 0 0 [] true)) at 2. reflexivity. }
    exists (maxl (map (@ef_m Z) fs)), (maxl (map (@ef_n Z) fs)). split.
    - rewrite EL. rewrite (proj2 (forallb_forall _ _)).
      2:{ intros r Ir. apply in_zrange in Ir. rewrite Hrb, Hk, Hc by lia. pose proof (zlen_nonneg (dealt nr ls r)). lia. }
      unfold loaded. f_equal. rewrite !Hmx. apply map_ext_in. intros r Ir. apply in_zrange in Ir. rewrite Hrb, Hk, Hc by lia. rewrite Z.sub_diag. cbn [Z.to_nat repeat]. rewrite app_nil_r.
      f_equal. f_equal. apply map_id.
    - split; [|auto]. unfold folder_size, maxl. clear. induction fs as [|G gs IH]; [reflexivity|]. cbn [map fold_right]. lia.
  Qed.
  Lemma read_mtx_ok : read_mtx w wide fuel nr d = Ok (folder_size fs, map (dealt nr ls) (zrange 0 nr)).
  Proof.
    destruct read_els as (m & n & EL & EM & _). unfold read_mtx. change (mkFmt true true true) with mtx. rewrite EL. cbn [bind].
    rewrite (rank_blobs _ (map (dealt nr ls) (zrange 0 nr))).
    2:{ generalize (zrange 0 nr). induction l as [|r l IH]; cbn [map]; constructor; auto. split; [reflexivity|]. exists []. rewrite app_nil_r. reflexivity. }
    cbn [bind]. rewrite zrange_cons by lia. cbn [map el_m el_n]. do 2 f_equal. destruct (Z.eqb_spec m n); cbn; lia.
  Qed.
  (** the lists of all ranks after a filter *)
  Lemma filtered_els (keep : edge Z -> bool) m n : exists els, mapR (fun el => do r <- filter_edges keep el ;; Ok (snd r)) (map (fun r => mkEL (map Some (dealt nr ls r)) m n (zlen (dealt nr ls r))) (zrange 0 nr)) = Ok els /\
    Forall2 holds els (map (filter keep) (map (dealt nr ls) (zrange 0 nr))) /\ exists el els', els = el :: els' /\ el_m el = m /\ el_n el = n.
  Proof.
    assert (forall l, exists els, mapR (fun el => do r <- filter_edges keep el ;; Ok (snd r)) (map (fun r => mkEL (map Some (dealt nr ls r)) m n (zlen (dealt nr ls r))) l) = Ok els /\
      Forall2 holds els (map (filter keep) (map (dealt nr ls) l)) /\ (l <> [] -> exists el els', els = el :: els' /\ el_m el = m /\ el_n el = n)) as H.
    { induction l as [|r l (els & E & F2 & _)]; cbn [map mapR]; [exists []; repeat split; [constructor|contradiction]|].
      destruct (filter_edges_spec keep (mkEL (map Some (dealt nr ls r)) m n (zlen (dealt nr ls r))) (dealt nr ls r)) as (el & -> & Hh & Hdm & Hdn); [split; [reflexivity|]; exists []; rewrite app_nil_r; reflexivity|].
      cbn [bind snd]. rewrite E. cbn [bind]. exists (el :: els). split; [reflexivity|]. split; [constructor; auto|]. intros _. exists el, els. auto. }
    destruct (H (zrange 0 nr)) as (els & E & F2 & Hne). exists els. split; [exact E|]. split; [exact F2|]. apply Hne. rewrite zrange_cons by lia. discriminate.
  Qed.
  Lemma read_edges_perm : Permutation (concat (map (dealt nr ls) (zrange 0 nr))) (folder_edges fs).
  Proof. apply (dealt_perm wide). exact Hn. Qed.
  Lemma size_int : 0 <= folder_size fs < 2 ^ 31.
  Proof.
    destruct HD as (_ & _ & H). unfold folder_size, maxl. clear - H. induction fs as [|G gs IH]; cbn [map fold_right]; [lia|].
    specialize (IH (fun X I => H X (or_intror I))). destruct (H G (or_introl eq_refl)) as (D1 & D2 & _). unfold is_int in *. lia.
  Qed.
End Read.

Lemma read_elists_ok {V byte} (m : machine V Z byte) dv el els ls n : Forall2 holds (el :: els) ls -> el_m el = n -> el_n el = n -> read_elists m dv (el :: els) = load m dv n ls.
Proof. intros H Em En. unfold read_elists. rewrite (rank_blobs _ _ H). cbn [bind]. rewrite Em, En. reflexivity. Qed.
Lemma read_elists_square {V byte} (m : machine V Z byte) dv el els g : read_elists m dv (el :: els) = Ok g -> el_m el = el_n el.
Proof.
  unfold read_elists. destruct (mapR _ _) as [blobs|]; [|discriminate]. cbn [bind]. unfold g_ReadEdgelist.
  destruct (mapR _ blobs); [|discriminate]. cbn [bind]. destruct (mat_new _ _ _ _ _ _ _ _ _ _); [|discriminate]. cbn [bind]. destruct (mat_transpose _ _ _ _ _ _ _ _); [|discriminate]. cbn [bind].
  destruct (Z.eqb_spec (el_m el) (el_n el)); [auto|discriminate].
Qed.

(** ** the number of vertices of a graph does not change *)
Lemma bind_ok {A B} (e : R A) (k : A -> R B) b : bind e k = Ok b -> exists a, e = Ok a /\ k a = Ok b.
Proof. destruct e; [eauto|discriminate]. Qed.
Ltac inv := repeat match goal with
  | H : bind ?e _ = Ok _ |- _ => let a := fresh "a" in let E0 := fresh "E" in apply bind_ok in H as (a & E0 & H); cbn beta in H
  | H : Ok _ = Ok _ |- _ => injection H as H
  end.
Section Size.
  Context {V E byte : Type}.
  Notation gr := (graph V E byte).
  Variable m : machine V E byte.
  Lemma call_n neq th c (g g' : gr) : (forall S T U (jb : job S T U V E) fr, c <> CRun jb fr) -> run_call neq m th c g = Ok g' -> g_n g' = g_n g.
  Proof.
    destruct c; cbn [run_call]; unfold g_reset, g_vp_all, g_act_all, g_applyToAllVertices, g_applyReduceAllVertices, g_applyToAllEdges; intros N H; inv; subst; try reflexivity.
    exfalso. eapply N. reflexivity.
  Qed.
  Lemma active_n nr th (g g' : gr) : all_active nr th g = Ok g' -> g_n g' = g_n g.
  Proof. unfold all_active. intros H. inv. subst. reflexivity. Qed.
  Lemma inactive_n nr th (g g' : gr) : all_inactive nr th g = Ok g' -> g_n g' = g_n g.
  Proof. unfold all_inactive. intros H. inv. subst. reflexivity. Qed.
  Lemma job_n {S T U} neq th (jb : job S T U V E) fr tmp (g : gr) r : run_job neq m th jb fr tmp g = Ok r -> g_n (r_g (fst r)) = g_n g.
  Proof.
    unfold run_job, run_graph_program. intros H. apply bind_ok in H as (xy & _ & H). apply bind_ok in H as (g1 & E1 & H).
    assert (g_n g1 = g_n g) as <- by (destruct (pr_all_vertices (j_pg jb)); [eapply active_n; eauto|congruence]).
    change g1 with (r_g (mkR (j_s jb) g1 (fst xy) (snd xy) (map (fun _ => []) (zrange 0 (m_nr m))))). revert H.
    generalize (mkR (j_s jb) g1 (fst xy) (snd xy) (map (fun _ => []) (zrange 0 (m_nr m)))) as q. generalize 0 as it. induction (j_fuel jb) as [|f IH]; intros it q H; cbn [run_loop] in H; [discriminate|].
    apply bind_ok in H as (r1 & Es & H).
    assert (g_n (r_g (fst r1)) = g_n (r_g q)) as Hn1.
    { unfold superstep in Es. apply bind_ok in Es as (x & _ & Es). apply bind_ok in Es as (y & _ & Es). apply bind_ok in Es as (xe & _ & Es). apply bind_ok in Es as (p & _ & Es). cbv zeta in Es.
      apply bind_ok in Es as (g2 & E2 & Es). apply inactive_n in E2. cbn in E2. apply bind_ok in Es as ([[[vp act] cv] ae] & _ & Es). apply bind_ok in Es as (g3 & E3 & Es). injection Es as <-. cbn [fst r_g].
      destruct (pr_all_vertices (j_pg jb)); [apply active_n in E3; cbn in E3; congruence|]. injection E3 as <-. cbn. congruence. }
    rewrite <- Hn1. destruct (it + 1 =? j_iterations jb); [inv; subst; reflexivity|]. destruct (_ && _); [inv; subst; reflexivity|]. eapply IH; eauto.
  Qed.
  Lemma reduce_n {W} nr th mp op (init : Z -> W) (g g' : gr) l : g_applyReduceAllVertices nr th mp op init g = Ok (g', l) -> g_n g' = g_n g.
  Proof. unfold g_applyReduceAllVertices. intros H. inv. subst. reflexivity. Qed.
  Lemma modify_n th v d f (g g' : gr) : modify m th v d f g = Ok g' -> g_n g' = g_n g.
  Proof. unfold modify. intros H. inv. subst. reflexivity. Qed.
  Lemma owned_n th v d f (g g' : gr) : modify_owned m th v d f g = Ok g' -> g_n g' = g_n g.
  Proof. unfold modify_owned. intros H. inv. subst. reflexivity. Qed.
  Lemma forZ_n lo hi (f : Z -> gr -> R gr) (g g' : gr) : (forall i g g', f i g = Ok g' -> g_n g' = g_n g) -> forZ lo hi f g = Ok g' -> g_n g' = g_n g.
  Proof.
    intros Hf. unfold forZ. generalize (Z.to_nat (hi - lo)) as k. intros k. revert lo g. induction k as [|k IH]; intros lo g H; cbn [forN] in H; [congruence|].
    apply bind_ok in H as (g1 & E1 & H). rewrite (IH _ _ H). eapply Hf; eauto.
  Qed.
  Lemma load_n dv n blobs (g : gr) : load m dv n blobs = Ok g -> g_n g = n.
  Proof. unfold load, g_ReadEdgelist. intros H. inv. subst. reflexivity. Qed.
End Size.

Lemma bfs_n {byte} (m : machine bfs_vertex Z byte) th fr dt dv fuel n blobs v g l : run_bfs m th fr dt dv fuel n blobs v = Ok (g, l) -> g_n g = n.
Proof.
  unfold run_bfs. intros H. apply bind_ok in H as (g1 & E1 & H). apply bind_ok in H as (g2 & E2 & H). apply bind_ok in H as (tmp & _ & H). apply bind_ok in H as (g3 & E3 & H). apply bind_ok in H as (g4 & E4 & H). apply bind_ok in H as (g5 & E5 & H). apply bind_ok in H as (r & E6 & H).
  apply reduce_n in H. apply job_n in E6. apply call_n in E5; [|discriminate]. apply modify_n in E4. apply call_n in E3; [|discriminate]. apply forZ_n in E2; [|intros i ? ?; apply modify_n]. apply load_n in E1. congruence.
Qed.
Lemma sssp_n {byte} (m : machine Z Z byte) th fr dt dv fuel n blobs v g l : run_sssp m th fr dt dv fuel n blobs v = Ok (g, l) -> g_n g = n.
Proof.
  unfold run_sssp. intros H. apply bind_ok in H as (g1 & E1 & H). apply bind_ok in H as (tmp & _ & H). apply bind_ok in H as (g2 & E2 & H). apply bind_ok in H as (g3 & E3 & H). apply bind_ok in H as (g4 & E4 & H). apply bind_ok in H as (g5 & E5 & H). apply bind_ok in H as (r & E6 & H).
  apply reduce_n in H. apply job_n in E6. apply call_n in E5; [|discriminate]. apply call_n in E4; [|discriminate]. apply call_n in E3; [|discriminate]. apply call_n in E2; [|discriminate]. apply load_n in E1. congruence.
Qed.
Lemma topsort_n {byte} (m : machine top_vertex Z byte) th fr1 fr2 dt1 dt2 dv fuel n blobs g l : run_topsort m th fr1 fr2 dt1 dt2 dv fuel n blobs = Ok (g, l) -> g_n g = n.
Proof.
  unfold run_topsort. intros H. apply bind_ok in H as (g1 & E1 & H). apply bind_ok in H as (t1 & _ & H). apply bind_ok in H as (t2 & _ & H). apply bind_ok in H as (r1 & E2 & H). apply bind_ok in H as (g3 & E3 & H). apply bind_ok in H as (g4 & E4 & H). apply bind_ok in H as (r & E6 & H).
  apply reduce_n in H. apply job_n in E6. apply forZ_n in E4; [|intros i ? ? Hs; unfold top_source in Hs; apply bind_ok in Hs as (? & _ & Hs); injection Hs as <-; reflexivity]. apply call_n in E3; [|discriminate]. apply job_n in E2. apply load_n in E1. congruence.
Qed.
Lemma triangles_n {byte} srt (m : machine tc_vertex Z byte) th fr1 fr2 dt1 dt2 dv junk n blobs g l : run_triangles srt m th fr1 fr2 dt1 dt2 dv junk n blobs = Ok (g, l) -> g_n g = n.
Proof.
  unfold run_triangles. intros H. apply bind_ok in H as (g1 & E1 & H). apply bind_ok in H as (t1 & _ & H). apply bind_ok in H as (t2 & _ & H). apply bind_ok in H as (g2 & E2 & H). apply bind_ok in H as (r1 & E3 & H). apply bind_ok in H as (r & E6 & H).
  apply reduce_n in H. apply job_n in E6. apply job_n in E3. apply forZ_n in E2; [|intros i ? ?; apply owned_n]. apply load_n in E1. congruence.
Qed.

(** ** printing *)
Section PrintProofs.
  Context {V E byte : Type}.
  Variables (m : machine V E byte) (n : Z) (g : graph V E byte) (P : Z -> V).
  Hypothesis (HP : shows_properties n m g P) (Hg : g_n g = n).
  Definition owner_of (v : Z) : Z := match find (fun r => match owns m g r v with Ok b => b | Err _ => false end) (zrange 0 (m_nr m)) with Some r => r | None => 0 end.
  Lemma owner_is v : 1 <= v <= n -> 0 <= owner_of v < m_nr m /\ (forall r, owns m g r v = Ok (owner_of v =? r)) /\
    forall r d, 0 <= r < m_nr m -> read_property m g r v d = Ok (Some (if owner_of v =? r then P v else d)).
  Proof.
    intros Bv. destruct (HP v Bv) as (o & Bo & Ho & Hr). assert (owner_of v = o) as ->; [|auto].
    unfold owner_of. destruct (find _ _) as [r|] eqn:F.
    - apply find_some in F as [_ F]. rewrite Ho in F. apply Z.eqb_eq in F. auto.
    - exfalso. apply find_none with (x := o) in F; [|apply in_zrange; lia]. rewrite Ho, Z.eqb_refl in F. discriminate.
  Qed.
  Lemma print_owned_ok d k line r : 0 <= r < m_nr m -> print_owned m d k line g r = Ok (lines_of_rank owner_of k n (fun v => line v (P v)) r).
  Proof.
    intros Br. unfold print_owned, lines_of_rank. rewrite Hg.
    assert (forall l, (forall v, In v l -> 1 <= v <= n) -> mapR (fun i => do o <- owns m g r i ;; if o : bool then do a <- read_property m g r i d ;; do a <- need a ;; Ok (line i a) else Ok []) l
      = Ok (map (fun v => if owner_of v =? r then line v (P v) else []) l)) as G.
    { induction l as [|v l IH]; intros Hl; [reflexivity|]. cbn [mapR map]. destruct (owner_is v (Hl v (or_introl eq_refl))) as (_ & Ho & Hr). rewrite Ho. cbn [bind]. rewrite IH by (intros; apply Hl; right; auto).
      destruct (owner_of v =? r) eqn:Q; [|reflexivity]. rewrite Hr by auto. rewrite Q. reflexivity. }
    rewrite G by (intros v Iv; apply in_zrange in Iv; lia). cbn [bind]. f_equal. generalize (zrange 1 (Z.min k n + 1)). induction l as [|v l IH]; [reflexivity|]. cbn [map concat filter]. destruct (owner_of v =? r); cbn [map concat app]; rewrite IH; reflexivity.
  Qed.
  Lemma every_rank_ok (f : Z -> Z -> R (list Z)) h k : (forall r, 0 <= r < m_nr m -> f r k = Ok (h r)) -> every_rank m f (map (fun _ => k) (zrange 0 (m_nr m))) = Ok (map h (zrange 0 (m_nr m))).
  Proof.
    intros H. unfold every_rank. assert (forall l, (forall r, In r l -> 0 <= r < m_nr m) -> mapR (fun p => f (fst p) (snd p)) (combine l (map (fun _ => k) l)) = Ok (map h l)) as G.
    { induction l as [|r l IH]; intros Hl; [reflexivity|]. cbn [map combine mapR fst snd]. rewrite H by (apply Hl; left; auto). cbn [bind]. rewrite IH by (intros; apply Hl; right; auto). reflexivity. }
    apply G. intros r Ir. apply in_zrange in Ir. auto.
  Qed.
End PrintProofs.
Lemma lines_ext owner k n f f' r : (forall v, 1 <= v <= n -> f v = f' v) -> lines_of_rank owner k n f r = lines_of_rank owner k n f' r.
Proof. intros H. unfold lines_of_rank. f_equal. apply map_ext_in. intros v Iv. apply filter_In in Iv as [Iv _]. apply in_zrange in Iv. apply H. lia. Qed.

(** ** what depends on the edges does not depend on their order *)
Section Same.
  Variables (a b : list (edge Z)).
  Hypothesis (Hab : forall e, In e a -> In e b).
  Lemma walk_incl u v w h : walk a u v w h -> walk b u v w h.
  Proof. induction 1; [constructor|]. econstructor; eauto. Qed.
  Lemma path_incl u vs v w : path a u vs v w -> path b u vs v w.
  Proof. induction 1; [constructor|]. econstructor; eauto. Qed.
End Same.
Section Perm.
  Variables (a b : list (edge Z)).
  Hypothesis (Hab : Permutation a b).
  Let ab e : In e a -> In e b := Permutation_in e Hab.
  Let ba e : In e b -> In e a := Permutation_in e (Permutation_sym Hab).
  Lemma walk_perm u v w h : walk a u v w h <-> walk b u v w h.
  Proof. split; apply walk_incl; [exact ab|exact ba]. Qed.
  Lemma reachable_perm u v : reachable a u v <-> reachable b u v.
  Proof. unfold reachable. split; intros (w & h & W); exists w, h; apply walk_perm; auto. Qed.
  Lemma distance_perm u v x : distance a u v x <-> distance b u v x.
  Proof. unfold distance. split; intros [(h & W) M]; (split; [exists h; apply walk_perm; auto|]; intros w' h' W'; apply (M w' h'), walk_perm; auto). Qed.
  Lemma hop_perm u v x : hop_distance a u v x <-> hop_distance b u v x.
  Proof. unfold hop_distance. split; intros [(h & W) M]; (split; [exists h; apply walk_perm; auto|]; intros w' h' W'; apply (M w' h'), walk_perm; auto). Qed.
  Lemma below_perm W u : sums_below b W u -> sums_below a W u.
  Proof. unfold sums_below. intros H vs w e Pa Nd I. apply (H vs w e); auto. eapply path_incl; [exact ab|eauto]. Qed.
  Lemma fit_perm u : sums_fit b u -> sums_fit a u.
  Proof. apply below_perm. Qed.
  Lemma behind_perm v : behind_cycle a v <-> behind_cycle b v.
  Proof. unfold behind_cycle. split; intros (x & w & h & w' & h' & W & W'); exists x, w, h, w', h'; (split; apply walk_perm; auto). Qed.
  Lemma longest_perm v h : longest_walk_to a v h <-> longest_walk_to b v h.
  Proof. unfold longest_walk_to. split; intros [(x & w & W) M]; (split; [exists x, w; apply walk_perm; auto|]; intros x' w' h' W'; apply (M x' w' h'), walk_perm; auto). Qed.
  Lemma simple_perm : simple_edges b -> simple_edges a.
  Proof. unfold simple_edges. intros H. eapply Permutation_NoDup; [|exact H]. apply Permutation_map, Permutation_sym, Hab. Qed.
  Lemma has_edge_perm u v : has_edge a u v <-> has_edge b u v.
  Proof. unfold has_edge. split; intros (e & I & Q); exists e; auto. Qed.
  Lemma triangles_perm l : triangles b l -> triangles a l.
  Proof. unfold triangles. intros [Nd H]. split; [auto|]. intros x y z. rewrite H, !has_edge_perm. tauto. Qed.
End Perm.
Lemma counts_iff n p q k : (forall v, p v <-> q v) -> counts n p k -> counts n q k.
Proof. intros H (l & Nd & Hl & ->). exists l. split; [auto|]. split; [|auto]. intros v. rewrite Hl, H. tauto. Qed.
Lemma counts_int n p k : counts n p k -> 0 <= n < 2 ^ 31 -> is_int k /\ 0 <= k.
Proof.
  intros (l & Nd & Hl & ->) B. assert (zlen l <= n); [|pose proof (zlen_nonneg l); unfold is_int; lia].
  unfold zlen. rewrite <- (Z2Nat.id n) by lia. apply inj_le. replace (Z.to_nat n) with (List.length (zrange 1 (n + 1))) by (unfold zrange, zseq; rewrite map_length, seq_length; f_equal; lia).
  apply NoDup_incl_length; auto. intros v Iv. apply Hl in Iv as [Bv _]. apply in_zrange. lia.
Qed.
