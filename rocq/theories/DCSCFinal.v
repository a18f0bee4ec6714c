From Coq Require Import Sorting.Sorted.
From Verif Require Import BaseLemmas Bits BitsProofs Segment SegmentProofs UnionProofs Reduce ReduceProofs Bucket BucketProofs VecProofs2 ListLemmas DCSC DCSCProofs DCSCBuild Conc ConcProofs ParSeg ParSegProofs Kernel KernelProofs MatSpec.

Lemma SS_app {A} (P : A -> A -> Prop) l l' : StronglySorted P l -> StronglySorted P l' -> (forall a b, In a l -> In b l' -> P a b) -> StronglySorted P (l ++ l').
Proof.
  induction 1 as [|a l S IH F]; intros S' H; simpl; auto. constructor; [apply IH; auto; intros; apply H; simpl; auto|].
  rewrite Forall_app. split; auto. rewrite Forall_forall. intros b Hb. apply H; simpl; auto.
Qed.

Lemma cedges_bydst {E} (cs : list (column E)) : cwf cs -> StronglySorted (fun a b : edge E => e_dst a <= e_dst b) (cedges cs).
Proof.
  intros [S _]. induction S as [|c l S IH F]; simpl; [constructor|]. apply SS_app; auto.
  - clear. induction (snd c); simpl; constructor; auto. rewrite Forall_map, Forall_forall. simpl. intros; lia.
  - intros a b Ha Hb. apply in_map_iff in Ha as (x & <- & _). unfold cedges in Hb. apply in_flat_map in Hb as (d & Hd & Hb). apply in_map_iff in Hb as (y & <- & _).
    rewrite Forall_forall in F. apply F in Hd. simpl. lia.
Qed.

Section F.
  Context {E : Type}.
  Variable srt : list (tedge E) -> list (tedge E).
  Hypothesis Srt : sorts srt.
  Variables (threads : Z) (es : list (edge E)) (m n rs cs junk : Z).
  Hypothesis Ht : 1 <= threads.
  Hypothesis Hin : forall e, In e es -> in_rect m n rs cs e.

  Lemma Hin' : forall e, In e es -> rs + 1 <= e_src e <= rs + m /\ cs + 1 <= e_dst e <= cs + n.
  Proof. intros e He. destruct (Hin e He). lia. Qed.
  Definition unrel (e : edge E) : edge E := mkE (rs + e_src e + 1) (cs + e_dst e + 1) (e_val e).
  Lemma unrel_rel e : unrel (rel rs cs e) = e.
  Proof. unfold unrel, rel. destruct e as [a b c]; simpl. f_equal; lia. Qed.

  Theorem tile_entries : exists t out chunks, dcsc_new srt threads es m n rs cs junk = Ok t /\
    t_nnz t = zlen es /\ dcsc_get_edges t (zlen es) rs cs = Ok out /\ Permutation es out /\
    out = concat chunks /\ zlen chunks = t_np t /\
    forall p ch, rd chunks p = Ok ch -> (forall e, In e ch -> thread_rows (t_row_ptrs t) p (e_src e - 1 - rs)) /\
      StronglySorted (fun a b => e_dst a <= e_dst b) ch.
  Proof.
    destruct (Z_le_gt_dec (zlen es) 0) as [L|L].
    - assert (es = []) as -> by (destruct es; auto; rewrite zlen_cons in L; pose proof (zlen_nonneg l); lia).
      exists (mkT 0 m n junk 0 [] [] [] [] [] [] []), [], []. repeat split; auto; apply rd_bounds in H; unfold zlen in H; simpl in H; lia.
    - destruct (dcsc_new_spec srt Srt threads es m n rs cs junk Ht ltac:(lia) Hin') as (rp & parts & E1 & To & Np & Pm & Nz).
      exists (encode rp m n parts), (map unrel (tile_edges parts)), (map (fun c => map unrel (cedges c)) parts).
      split; [auto|]. split; [simpl; lia|]. split; [rewrite get_edges_encode by lia; reflexivity|].
      split.
      + transitivity (map unrel (map (rel rs cs) es)); [|apply Permutation_map; auto]. rewrite map_map, (map_ext _ (fun e => e)), map_id; auto. intros; apply unrel_rel.
      + split; [unfold tile_edges; rewrite map_flat_map, flat_map_concat_map; auto|]. split; [rewrite zlen_map; reflexivity|].
        intros p ch Hch. pose proof (rd_bounds _ _ _ Hch) as B. rewrite zlen_map in B. destruct (rd_ok parts p B) as [c Hc].
        rewrite (rd_map (fun c => map unrel (cedges c)) parts p c Hc) in Hch. injection Hch as <-. destruct (to_cols _ _ _ _ To p c Hc) as (Cw & _ & Hr). split.
        * intros e He. apply in_map_iff in He as (e' & <- & He). unfold cedges in He. apply in_flat_map in He as (col & Hcol & He). apply in_map_iff in He as (x & <- & Hx).
          simpl. replace (rs + fst x + 1 - 1 - rs) with (fst x) by lia. apply Hr. unfold centries. apply in_flat_map. eauto.
        * apply SS_map. simpl. eapply SS_weaken; [|apply cedges_bydst; auto]. simpl. intros; lia.
  Qed.

  Theorem tile_rows t : dcsc_new srt threads es m n rs cs junk = Ok t -> es <> [] ->
    let rp := t_row_ptrs t in
    zlen rp = t_np t + 1 /\ t_np t = 16 * threads /\ rd rp 0 = Ok 0 /\ rd rp (t_np t) = Ok m /\
    (forall p a b, rd rp p = Ok a -> rd rp (p + 1) = Ok b -> a <= b) /\
    (forall p a, rd rp p = Ok a -> a mod 32 = 0 \/ a = m) /\
    (forall r, 0 <= r < m -> exists p, thread_rows rp p r) /\
    (forall p q r r', thread_rows rp p r -> thread_rows rp q r' -> p <> q -> r / 32 <> r' / 32).
  Proof.
    intros Et Ne. destruct (dcsc_new_spec srt Srt threads es m n rs cs junk Ht) as (rp & parts & E1 & To & Np & Pm & Nz).
    { destruct es; [congruence|]. rewrite zlen_cons. pose proof (zlen_nonneg l). lia. } { apply Hin'. }
    rewrite Et in E1. injection E1 as ->. pose proof (to_rows _ _ _ _ To) as Ro. simpl. split; [apply (ro_len _ _ _ Ro)|]. split; [auto|]. split; [apply (ro_first _ _ _ Ro)|].
    split; [apply (ro_last _ _ _ Ro)|]. split; [apply (ro_mono _ _ _ Ro)|]. split; [apply (ro_align _ _ _ Ro)|]. split.
    - intros r Hr. destruct (find_partition_ok rp m (zlen parts) Ro (to_np _ _ _ _ To) r Hr) as (p & _ & Hp). exists p. auto.
    - intros p q r r' Hp Hq N Ew. apply N. pose proof (row_in_range rp m _ Ro p r Hp). pose proof (row_in_range rp m _ Ro q r' Hq).
      apply (word_unique (U:=unit) rp m n parts To (fun _ _ _ => Ok tt) p q (r / 32)); auto.
      + destruct Hp as (a & b & Ea & Eb & B). unfold in_word. rewrite Ea, Eb. pose proof (ro_range _ _ _ Ro _ _ Ea). lia.
      + rewrite Ew. destruct Hq as (a & b & Ea & Eb & B). unfold in_word. rewrite Ea, Eb. pose proof (ro_range _ _ _ Ro _ _ Ea). lia.
  Qed.
End F.

(** ** archive round trip *)
Lemma mapR_rd_all {A} (l : list A) : mapR (rd l) (zrange 0 (zlen l)) = Ok l.
Proof.
  assert (forall l' r, l = l' ++ r -> mapR (rd l) (zrange 0 (zlen l')) = Ok l') as H.
  { intros l'. induction l' as [|x l' IH] using rev_ind; intros r Hl; [reflexivity|]. rewrite zlen_app, zlen_cons. znil. rewrite Z.add_0_r, zrange_snoc by apply zlen_nonneg.
    rewrite mapR_app, (IH (x :: r)) by (rewrite Hl, <- app_assoc; reflexivity). simpl. pose proof (zlen_nonneg l').
    rewrite Hl, <- app_assoc, rd_app2 by lia. rewrite Z.sub_diag. reflexivity. }
  apply (H l []). rewrite app_nil_r. auto.
Qed.
Lemma mapR_rd_len {A} (l : list A) k : k = zlen l -> mapR (rd l) (zrange 0 k) = Ok l.
Proof. intros ->. apply mapR_rd_all. Qed.
Lemma get_ints {E} (l : list Z) k (rest : list (item E)) : k = zlen l -> get_many get_int (Z.to_nat k) (map IInt l ++ rest) = Ok (l, rest).
Proof. intros ->. unfold zlen. rewrite Nat2Z.id. induction l; simpl; auto. unfold get_many in IHl |- *. simpl. rewrite IHl. reflexivity. Qed.
Lemma get_vals {E} (l : list E) k (rest : list (item E)) : k = zlen l -> get_many get_val (Z.to_nat k) (map IVal l ++ rest) = Ok (l, rest).
Proof. intros ->. unfold zlen. rewrite Nat2Z.id. induction l; simpl; auto. unfold get_many in IHl |- *. simpl. rewrite IHl. reflexivity. Qed.

(** the array sizes a tile must have for its archive to be readable *)
Record shaped {E} (t : dcsc E) : Prop := mkShaped {
  sh_empty : t_nnz t <= 0 -> t_vals t = [] /\ t_row_inds t = [] /\ t_row_ptrs t = [] /\ t_edge_ptrs t = [] /\ t_col_starts t = [] /\ t_col_ptrs t = [] /\ t_col_idx t = [];
  sh_full : 0 < t_nnz t -> zlen (t_vals t) = t_nnz t /\ zlen (t_row_inds t) = t_nnz t /\ zlen (t_row_ptrs t) = t_np t + 1 /\ zlen (t_edge_ptrs t) = t_np t + 1 /\
    zlen (t_col_starts t) = t_np t + 1 /\ zlen (t_col_ptrs t) = t_num_cols t /\ zlen (t_col_idx t) = t_num_cols t /\ rd (t_col_starts t) (t_np t) = Ok (t_num_cols t) }.

Theorem save_load {E} (t : dcsc E) rest : shaped t -> exists ar, dcsc_save t = Ok ar /\ dcsc_load (ar ++ rest) = Ok (t, rest).
Proof.
  intros [S0 S1]. unfold dcsc_save. destruct (0 <? t_nnz t) eqn:L.
  - apply Z.ltb_lt in L. destruct (S1 L) as (H1 & H2 & H3 & H4 & H5 & H6 & H7 & H8).
    rewrite (mapR_rd_len (t_vals t)), (mapR_rd_len (t_row_inds t)), (mapR_rd_len (t_row_ptrs t)), (mapR_rd_len (t_edge_ptrs t)), (mapR_rd_len (t_col_starts t)) by auto.
    cbn [bind]. rewrite H8. cbn [bind]. rewrite (mapR_rd_len (t_col_ptrs t)), (mapR_rd_len (t_col_idx t)) by auto. cbn [bind].
    eexists; split; [reflexivity|]. unfold dcsc_load. cbn [app get_int bind]. rewrite (proj2 (Z.ltb_lt _ _) L).
    rewrite <- !app_assoc. rewrite get_vals by auto. cbn [bind]. rewrite get_ints by auto. cbn [bind]. rewrite get_ints by auto. cbn [bind]. rewrite get_ints by auto. cbn [bind]. rewrite get_ints by auto. cbn [bind].
    rewrite get_ints by auto. cbn [bind]. rewrite get_ints by auto. cbn [bind]. destruct t; reflexivity.
  - eexists; split; [reflexivity|]. unfold dcsc_load. cbn [app get_int bind]. rewrite L. apply Z.ltb_ge in L.
    destruct t; simpl in *. destruct (S0 L) as (-> & -> & -> & -> & -> & -> & ->). reflexivity.
Qed.

Lemma zlen_concat_eq {A B C} (f : A -> list B) (g : A -> list C) l : (forall a, zlen (f a) = zlen (g a)) -> zlen (flat_map f l) = zlen (flat_map g l).
Proof. intros H. rewrite !zlen_flat_map. f_equal. apply map_ext. auto. Qed.

Lemma encode_shaped {E} rp m n (parts : list (list (column E))) : tile_ok rp m n parts -> 0 < zlen (flat_map centries parts) -> shaped (encode rp m n parts).
Proof.
  intros To Hp. split; [simpl; lia|]. intros _. simpl. pose proof (zlen_nonneg parts).
  repeat split.
  - apply zlen_concat_eq. intros; apply zlen_map.
  - apply zlen_concat_eq. intros; apply zlen_map.
  - apply (ro_len _ _ _ (to_rows _ _ _ _ To)).
  - rewrite prefix_sums_len, zlen_map. auto.
  - rewrite prefix_sums_len, zlen_map. auto.
  - apply zlen_concat_eq. intros. rewrite zlen_part_ptrs, zlen_part_idx. auto.
  - pose proof (enc_cs rp m n parts (zlen parts) ltac:(lia)) as H0. simpl in H0. rewrite H0, offs_all. auto.
Qed.

(** ** look-ahead reads *)
Lemma forZ_guard {St} (b1 b2 : Z -> St -> R St) (g : Z -> bool) lo hi : forall s r,
  (forall i s s', lo <= i < hi -> b1 i s = Ok s' -> b2 i s = if g i then Ok s' else Err OOB) ->
  forZ lo hi b1 s = Ok r -> forZ lo hi b2 s = if forallb g (zrange lo hi) then Ok r else Err OOB.
Proof.
  intros s r H. rewrite !forZ_foldR.
  assert (forall i, In i (zrange lo hi) -> lo <= i < hi) as Hi by (intros; apply in_zrange; auto).
  revert s. induction (zrange lo hi) as [|i l IH]; intros s Hr; simpl in *; auto.
  destruct (b1 i s) as [s1|] eqn:E1; [|discriminate]. rewrite (H i s s1) by auto. destruct (g i); simpl; auto.
Qed.

(** column slots of worker [p] are [col_starts[p] .. col_starts[p+1]-2] *)
Definition slot {E} (t : dcsc E) (i c : Z) : Prop :=
  exists p a b, rd (t_col_starts t) p = Ok a /\ rd (t_col_starts t) (p + 1) = Ok b /\ a <= i < b - 1 /\ rd (t_col_idx t) i = Ok c.

Section Ahead.
  Context {E U : Type}.
  Variable add : U -> U -> U.
  Variables (rp : list Z) (m n : Z) (parts : list (list (column E))).
  Hypothesis To : tile_ok rp m n parts.
  Notation t := (encode rp m n parts).
  Notation coff p := (offs (part_idx n) parts p).

  Lemma ahead_ok i : 0 <= i -> look_ahead true t i = if i <? zlen (t_col_idx t) then Ok tt else Err OOB.
  Proof.
    intros H. unfold look_ahead. destruct (i <? zlen (t_col_idx t)) eqn:L.
    - apply Z.ltb_lt in L. destruct (rd_ok (t_col_idx t) i) as [a Ha]; [lia|]. rewrite Ha. reflexivity.
    - apply Z.ltb_ge in L. rewrite rd_oob by lia. reflexivity.
  Qed.

  (** [sel c]: the kernel looks ahead in column [c] *)
  Variable sel : Z -> bool.
  Definition colsel (p j : Z) : bool := match rd (t_col_idx t) (coff p + j) with Ok c => negb (sel c) || (coff p + j + 4 <? zlen (t_col_idx t)) | _ => true end.
  Definition nslots (p : Z) : Z := coff (p + 1) - coff p - 1.
  Definition allsel : bool := forallb (fun p => forallb (colsel p) (zrange 0 (nslots p))) (zrange 0 (zlen parts)).
  Lemma allsel_spec : allsel = true <-> forall i c, slot t i c -> sel c = true -> i + 4 < zlen (t_col_idx t).
  Proof.
    unfold allsel. rewrite forallb_forall. split.
    - intros H i c (p & a & b & Ea & Eb & B & Ec) Hs. pose proof (rd_bounds _ _ _ Ea) as B1. pose proof (rd_bounds _ _ _ Eb) as B2.
      assert (zlen (t_col_starts t) = zlen parts + 1) as Lc by (simpl; rewrite prefix_sums_len, zlen_map; auto).
      rewrite Lc in *. rewrite enc_cs in Ea, Eb by lia. injection Ea as <-. injection Eb as <-. specialize (H p). rewrite in_zrange in H. specialize (H ltac:(lia)).
      rewrite forallb_forall in H. specialize (H (i - coff p)). rewrite in_zrange in H. unfold nslots in H. specialize (H ltac:(lia)). unfold colsel in H.
      replace (coff p + (i - coff p)) with i in H by lia. rewrite Ec, Hs in H. simpl in H. apply Z.ltb_lt in H. auto.
    - intros H p Hp. apply in_zrange in Hp. rewrite forallb_forall. intros j Hj. apply in_zrange in Hj. unfold colsel. destruct (rd (t_col_idx t) (coff p + j)) as [c|] eqn:Ec; auto.
      destruct (sel c) eqn:Hs; auto. simpl negb. cbn [orb]. apply Z.ltb_lt. apply (H (coff p + j) c); auto. exists p, (coff p), (coff (p + 1)). unfold nslots in Hj.
      rewrite !enc_cs by lia. repeat split; auto; lia.
  Qed.
End Ahead.

Section AheadK.
  Context {E U : Type}.
  Variable add : U -> U -> U.
  Variables (rp : list Z) (m n : Z) (parts : list (list (column E))).
  Hypothesis To : tile_ok rp m n parts.
  Notation t := (encode rp m n parts).
  Variable xw : list Z.
  Hypothesis Xw : n <= 32 * zlen xw.
  Variable f : Z -> E -> Z -> R U.

  Lemma kernel_strict wv r : kernel add false t xw f wv = Ok r ->
    kernel add true t xw f wv = if allsel rp m n parts (tb xw) then Ok r else Err OOB.
  Proof.
    unfold kernel, allsel. apply forZ_guard. intros p s s' Hp H. change (t_np t) with (zlen parts) in Hp.
    destruct (rd_ok parts p Hp) as [cs Hcs]. destruct (to_cols _ _ _ _ To p cs Hcs) as (_ & Hc & _).
    unfold kernel_part in *. rewrite !enc_cs in * by lia. cbn [bind] in *. rewrite enc_ep in * by lia. cbn [bind] in *.
    unfold nslots. revert H. apply forZ_guard. intros j s1 s2 Hj H.
    rewrite (coff_succ n parts p cs Hcs) in Hj. destruct (rd_ok cs j) as [c Hjc]; [lia|].
    unfold colsel. rewrite (enc_idx rp m n parts p cs j c Hcs Hjc) in *. cbn [bind] in *.
    rewrite bv_get_ok in * by (pose proof (Hc c (rd_In _ _ _ Hjc)); lia). cbn [bind] in *.
    destruct (tb xw (fst c)); cbn [negb orb]; auto. pose proof (offs_nonneg (part_idx n) parts p).
    rewrite (ahead_ok rp m n parts) by lia. destruct (_ <? _); [|reflexivity]. cbn [bind]. cbn [look_ahead bind] in H. auto.
  Qed.
End AheadK.

(** ** applying a function to the entries *)
Section AE.
  Context {E V : Type}.
  Variable op : E -> V -> V -> E.
  Variables (rp : list Z) (m n : Z) (parts : list (list (column E))).
  Hypothesis To : tile_ok rp m n parts.
  Notation t := (encode rp m n parts).
  Notation es := (tile_edges parts).
  Variables (v1 : list (option V)) (w2 : list Z) (v2 : list (option V)) (X Y : Z -> V).
  Hypothesis H1 : forall e, In e es -> rdi v1 (e_dst e) = Ok (X (e_dst e)).
  Hypothesis H2 : forall e, In e es -> bv_get w2 (e_src e) = Ok true /\ rdi v2 (e_src e) = Ok (Y (e_src e)).

  Definition newval (e : edge E) : E := op (e_val e) (X (e_dst e)) (Y (e_src e)).
  Definition progress (q : Z) (vals : list E) : Prop := vals = map newval (firstn (Z.to_nat q) es) ++ map e_val (skipn (Z.to_nat q) es).

  Lemma progress_step q e vals : rd es q = Ok e -> progress q vals ->
    rd vals q = Ok (e_val e) /\ exists vals', wr vals q (newval e) = Ok vals' /\ progress (q + 1) vals'.
  Proof.
    intros He Hv. unfold progress in *. subst vals. pose proof (rd_bounds _ _ _ He) as B. rewrite (firstn_snoc _ _ _ He), map_app. cbn [map].
    assert (skipn (Z.to_nat q) es = e :: skipn (Z.to_nat (q + 1)) es) as Es.
    { apply rd_nth in He as [_ He]. replace (Z.to_nat (q + 1)) with (S (Z.to_nat q)) by lia. revert He. generalize es (Z.to_nat q). clear. intros l k. revert l.
      induction k; intros [|x l] H; simpl in *; try discriminate; [congruence|auto]. }
    rewrite Es. cbn [map]. assert (zlen (map newval (firstn (Z.to_nat q) es)) = q) as L by (rewrite zlen_map; unfold zlen in *; rewrite firstn_length; lia).
    split.
    - rewrite rd_app2 by lia. rewrite L, Z.sub_diag. reflexivity.
    - pose proof (zlen_nonneg (map e_val (skipn (Z.to_nat (q + 1)) es))) as Lz. eexists; split; [apply wr_ok; rewrite zlen_app, zlen_cons, L; lia|].
      revert L. unfold zlen. generalize (map newval (firstn (Z.to_nat q) es)). intros l L. replace (Z.to_nat q) with (length l) by lia.
      rewrite <- app_assoc. cbn [app]. clear. induction l; simpl; auto. f_equal; auto.
  Qed.

  Lemma rd_tile p cs j c i x : rd parts p = Ok cs -> rd cs j = Ok c -> rd (snd c) i = Ok x ->
    rd es (offs centries parts p + (cptr cs j + i)) = Ok (mkE (fst x) (fst c) (snd x)).
  Proof.
    intros Hp Hj Hi. pose proof (rd_bounds _ _ _ Hi) as Bi. unfold tile_edges.
    assert (offs centries parts p = offs cedges parts p) as -> by (unfold offs; f_equal; apply map_ext; intros; symmetry; apply zlen_cedges).
    pose proof (flat_room (@snd Z (list (Z * E))) cs j c Hj) as Fr. change (offs snd cs j) with (cptr cs j) in Fr.
    assert (0 <= cptr cs j) by apply offs_nonneg.
    rewrite (rd_flat cedges parts p cs) by (auto; rewrite zlen_cedges; unfold centries; lia).
    unfold cedges. replace (cptr cs j) with (offs (fun c : column E => map (fun x => mkE (fst x) (fst c) (snd x)) (snd c)) cs j).
    - rewrite (rd_flat _ cs j c) by (auto; rewrite zlen_map; auto). apply (rd_map (fun x => mkE (fst x) (fst c) (snd x))). auto.
    - unfold cptr, offs. f_equal. apply map_ext. intros. apply zlen_map.
  Qed.

  Lemma apply_part_spec strict p vals : 0 <= p < zlen parts -> (strict = true -> allsel rp m n parts (fun _ => true) = true) -> progress (offs centries parts p) vals ->
    exists vals', applyedges_part strict op t v1 w2 v2 p vals = Ok vals' /\ progress (offs centries parts (p + 1)) vals'.
  Proof.
    intros Hp Hst I0. destruct (rd_ok parts p Hp) as [cs Hcs]. unfold applyedges_part. rewrite !enc_cs by lia. cbn [bind]. rewrite enc_ep by lia. cbn [bind].
    rewrite (coff_succ n parts p cs Hcs). pose proof (offs_nonneg (part_idx n) parts p) as Cn. pose proof (zlen_nonneg cs) as Ln.
    destruct (forZ_inv (fun j vals => progress (offs centries parts p + cptr cs j) vals) 0 (offs (part_idx n) parts p + zlen cs + 1 - offs (part_idx n) parts p - 1)
      (fun j vals => do ci <- rd (t_col_idx t) (offs (part_idx n) parts p + j) ;;
        do _ <- look_ahead strict t (offs (part_idx n) parts p + j + 4) ;;
        do lo <- rd (t_col_ptrs t) (offs (part_idx n) parts p + j) ;; do hi <- rd (t_col_ptrs t) (offs (part_idx n) parts p + (j + 1)) ;;
        forZ lo hi (fun nz vals => do row <- rd (t_row_inds t) (offs centries parts p + nz) ;; do g <- bv_get w2 row ;; do _ <- assertb g ;;
          do val <- rd vals (offs centries parts p + nz) ;; do x <- rdi v1 ci ;; do y <- rdi v2 row ;; wr vals (offs centries parts p + nz) (op val x y)) vals) vals) as (vals' & Ev & Iv).
    - lia.
    - unfold cptr. rewrite offs_0, Z.add_0_r. auto.
    - intros j vals1 Hj I1. destruct (rd_ok cs j) as [c Hjc]; [lia|].
      rewrite (enc_idx rp m n parts p cs j c Hcs Hjc). cbn [bind].
      assert (look_ahead strict t (offs (part_idx n) parts p + j + 4) = Ok tt) as ->.
      { destruct strict; [|reflexivity]. rewrite (ahead_ok rp m n parts) by lia. pose proof (proj1 (allsel_spec rp m n parts (fun _ => true)) (Hst eq_refl)) as As.
        rewrite (proj2 (Z.ltb_lt _ _)); auto. apply (As (offs (part_idx n) parts p + j) (fst c)); auto.
        exists p, (offs (part_idx n) parts p), (offs (part_idx n) parts (p + 1)). rewrite !enc_cs by lia. rewrite (coff_succ n parts p cs Hcs), (enc_idx rp m n parts p cs j c Hcs Hjc). repeat split; auto; lia. }
      cbn [bind]. rewrite !(enc_ptrs rp m n parts p cs _ Hcs) by lia. cbn [bind]. rewrite (cptr_succ cs j c Hjc).
      destruct (forZ_inv (fun nz vals => progress (offs centries parts p + nz) vals) (cptr cs j) (cptr cs j + zlen (snd c))
        (fun nz vals => do row <- rd (t_row_inds t) (offs centries parts p + nz) ;; do g <- bv_get w2 row ;; do _ <- assertb g ;;
          do val <- rd vals (offs centries parts p + nz) ;; do x <- rdi v1 (fst c) ;; do y <- rdi v2 row ;; wr vals (offs centries parts p + nz) (op val x y)) vals1) as (vals2 & Ev2 & Iv2).
      + pose proof (zlen_nonneg (snd c)). lia.
      + auto.
      + intros nz vals3 Hnz I3. destruct (rd_ok (snd c) (nz - cptr cs j)) as [x Hx]; [lia|].
        pose proof (rd_tile p cs j c _ x Hcs Hjc Hx) as Re. replace (cptr cs j + (nz - cptr cs j)) with nz in Re by lia.
        assert (rd (centries cs) nz = Ok x) as Ex by (rewrite <- Hx, <- (centries_at cs j c) by (auto; lia); f_equal; lia).
        rewrite (enc_rows rp m n parts p cs _ x Hcs Ex). cbn [bind]. pose proof (rd_In _ _ _ Re) as Ie.
        destruct (H2 _ Ie) as [G2 R2]. cbn [e_src] in G2, R2. rewrite G2. cbn [bind assertb]. destruct (progress_step _ _ _ Re I3) as (Rv & vals4 & Wv & I4). rewrite Rv. cbn [bind].
        pose proof (H1 _ Ie) as R1. cbn [e_dst] in R1. rewrite R1. cbn [bind]. rewrite R2. cbn [bind]. exists vals4. split; [exact Wv|]. rewrite Z.add_assoc. auto.
      + exists vals2. split; [exact Ev2|]. auto.
    - exists vals'. split; [exact Ev|]. rewrite (offs_succ centries parts p cs Hcs).
      replace (offs (part_idx n) parts p + zlen cs + 1 - offs (part_idx n) parts p - 1) with (zlen cs) in Iv by lia.
      unfold cptr in Iv. rewrite offs_all in Iv. exact Iv.
  Qed.

  (** the tile with every value replaced *)
  Definition newparts : list (list (column E)) :=
    map (map (fun c => (fst c, map (fun x => (fst x, op (snd x) (X (fst c)) (Y (fst x)))) (snd c)))) parts.
  Definition newedge (e : edge E) : edge E := mkE (e_src e) (e_dst e) (newval e).
  Lemma flat_map_map {A B C} (f : B -> list C) (g : A -> B) l : flat_map f (map g l) = flat_map (fun a => f (g a)) l.
  Proof. rewrite !flat_map_concat_map, map_map. auto. Qed.
  Lemma newparts_edges : tile_edges newparts = map newedge es.
  Proof.
    unfold tile_edges, newparts. rewrite flat_map_map, map_flat_map. apply flat_map_ext. intros cs. unfold cedges. rewrite flat_map_map, map_flat_map. apply flat_map_ext.
    intros c. cbn [fst snd]. rewrite !map_map. reflexivity.
  Qed.
  Lemma vals_edges (ps : list (list (column E))) : flat_map (fun c => map snd (centries c)) ps = map e_val (tile_edges ps).
  Proof.
    unfold tile_edges. rewrite map_flat_map. apply flat_map_ext. intros cs. unfold centries, cedges. rewrite !map_flat_map. apply flat_map_ext. intros c. rewrite map_map. reflexivity.
  Qed.
  Lemma centries_new cs : centries (map (fun c => (fst c, map (fun x => (fst x, op (snd x) (X (fst c)) (Y (fst x)))) (snd c))) cs) =
    flat_map (fun c => map (fun x => (fst x, op (snd x) (X (fst c)) (Y (fst x)))) (snd c)) cs.
  Proof. unfold centries. rewrite flat_map_map. reflexivity. Qed.
  Lemma set_vals_new : set_vals (map newval es) t = encode rp m n newparts.
  Proof.
    unfold set_vals, encode. cbn [t_nnz t_m t_n t_num_cols t_np t_row_inds t_row_ptrs t_edge_ptrs t_col_starts t_col_ptrs t_col_idx].
    assert (forall cs : list (column E), zlen (centries (map (fun c => (fst c, map (fun x => (fst x, op (snd x) (X (fst c)) (Y (fst x)))) (snd c))) cs)) = zlen (centries cs)) as Hz.
    { intros cs. rewrite centries_new. unfold centries. apply zlen_concat_eq. intros; apply zlen_map. }
    unfold newparts. rewrite !flat_map_map, !map_map, zlen_map. f_equal.
    - symmetry. rewrite !zlen_flat_map. f_equal. apply map_ext. intros; apply Hz.
    - f_equal. apply flat_map_ext. intros cs. unfold part_idx. rewrite map_map. reflexivity.
    - pose proof (vals_edges newparts) as Hv. unfold newparts in Hv at 1. rewrite flat_map_map in Hv. rewrite Hv, newparts_edges, map_map. reflexivity.
    - apply flat_map_ext. intros cs. rewrite centries_new. unfold centries. rewrite !map_flat_map. apply flat_map_ext. intros c. rewrite map_map. reflexivity.
    - f_equal. apply map_ext. intros; symmetry; apply Hz.
    - f_equal. apply map_ext. intros; rewrite zlen_map; auto.
    - apply flat_map_ext. intros cs. unfold part_ptrs, csizes. rewrite map_map. f_equal. apply map_ext. intros c. cbn [snd]. rewrite zlen_map. auto.
    - apply flat_map_ext. intros cs. unfold part_idx. rewrite map_map. reflexivity.
  Qed.
  Lemma newparts_ok : tile_ok rp m n newparts.
  Proof.
    destruct To as [Ro Np Hc]. unfold newparts. split; try (rewrite zlen_map; auto). intros p cs' Hp.
    pose proof (rd_bounds _ _ _ Hp) as B. rewrite zlen_map in B. destruct (rd_ok parts p B) as [cs Hcs]. rewrite (rd_map _ _ _ _ Hcs) in Hp. injection Hp as <-.
    destruct (Hc p cs Hcs) as ([C1 C2] & C3 & C4). split; [split|split].
    - apply SS_map. simpl. auto.
    - intros c Hin. apply in_map_iff in Hin as (c0 & <- & Hin). simpl. specialize (C2 _ Hin). destruct (snd c0); simpl; congruence.
    - intros c Hin. apply in_map_iff in Hin as (c0 & <- & Hin). simpl. auto.
    - intros x Hx. rewrite centries_new in Hx. apply in_flat_map in Hx as (c & Hin & Hx). apply in_map_iff in Hx as (y & <- & Hy). simpl. apply C4. unfold centries. apply in_flat_map. eauto.
  Qed.
  Lemma apply_vals strict : (strict = true -> allsel rp m n parts (fun _ => true) = true) ->
    forZ 0 (zlen parts) (applyedges_part strict op t v1 w2 v2) (t_vals t) = Ok (map newval es).
  Proof.
    intros Hst. destruct (forZ_inv (fun p vals => progress (offs centries parts p) vals) 0 (zlen parts) (applyedges_part strict op t v1 w2 v2) (t_vals t)) as (vals & Ev & Iv).
    - apply zlen_nonneg.
    - unfold progress. rewrite offs_0. simpl. apply vals_edges.
    - intros p vals Hp I. apply apply_part_spec; auto.
    - rewrite Ev. f_equal. unfold progress in Iv. rewrite offs_all in Iv. rewrite Iv.
      assert (Z.to_nat (zlen (flat_map centries parts)) = length es) as ->.
      { transitivity (Z.to_nat (zlen es)); [|unfold zlen; lia]. f_equal. unfold tile_edges. apply zlen_concat_eq. intros; symmetry; apply zlen_cedges. }
      rewrite firstn_all, skipn_all. simpl. apply app_nil_r.
  Qed.
End AE.
