From Coq Require Import Sorting.Sorted.
From Verif Require Import BaseLemmas Bits BitsProofs Segment SegmentProofs UnionProofs Reduce ReduceProofs Bucket BucketProofs VecProofs2 ListLemmas DCSC DCSCProofs DCSCBuild Conc ConcProofs ParSeg ParSegProofs Kernel.

(** ** loops over arrays as folds over lists *)
Lemma forZ_list {A St} (f : St -> A -> R St) (l : list A) : forall lo hi body s, hi = lo + zlen l ->
  (forall i a s, rd l i = Ok a -> body (lo + i) s = f s a) -> forZ lo hi body s = foldR f l s.
Proof.
  induction l as [|a l IH]; intros lo hi body s -> H.
  - rewrite forZ_foldR, zrange_nil by (unfold zlen; simpl; lia). reflexivity.
  - rewrite forZ_foldR. pose proof (zlen_nonneg l). rewrite zlen_cons, zrange_cons by lia. cbn [foldR].
    pose proof (fun s => H 0 a s eq_refl) as Ha. rewrite Z.add_0_r in Ha. rewrite Ha. destruct (f s a) as [s1|e]; [|reflexivity]. cbn [bind].
    rewrite <- forZ_foldR. apply IH; [lia|]. intros i b s2 Hb. replace (lo + 1 + i) with (lo + (i + 1)) by lia. apply H. pose proof (rd_bounds _ _ _ Hb).
    change (a :: l) with ([a] ++ l). rewrite rd_app2 by (rewrite zlen_cons; znil; lia). rewrite <- Hb. f_equal. rewrite zlen_cons; znil; lia.
Qed.
Lemma foldR_flat_map {A B St} (f : St -> B -> R St) (g : A -> list B) (l : list A) : forall s,
  foldR (fun s a => foldR f (g a) s) l s = foldR f (flat_map g l) s.
Proof. induction l as [|a l IH]; intros s; simpl; auto. rewrite foldR_app. destruct (foldR f (g a) s); simpl; auto. Qed.
Lemma foldR_map {A B St} (f : St -> B -> R St) (g : A -> B) (l : list A) : forall s, foldR f (map g l) s = foldR (fun s a => f s (g a)) l s.
Proof. induction l as [|a l IH]; intros s; simpl; auto. destruct (f s (g a)); simpl; auto. Qed.
Lemma foldR_filter {A St} (f : St -> A -> R St) (p : A -> bool) (l : list A) : forall s,
  foldR (fun s a => if p a then f s a else Ok s) l s = foldR f (filter p l) s.
Proof. induction l as [|a l IH]; intros s; simpl; auto. destruct (p a); simpl; auto. destruct (f s a); simpl; auto. Qed.
Lemma rd_seg_shift {A} (l : list A) i a b : rd l i = Ok a -> a = b -> rd l i = Ok b. Proof. congruence. Qed.

Lemma wr_spec {A} (l : list A) i a : 0 <= i < zlen l -> exists l', wr l i a = Ok l' /\ zlen l' = zlen l /\ forall k, rd l' k = if k =? i then Ok a else rd l k.
Proof.
  intros H. rewrite wr_ok by auto. eexists. split; [reflexivity|]. split; [unfold zlen; rewrite length_upd; auto|].
  intros k. destruct (Z.eqb_spec k i) as [->|N]; [apply rd_upd_same; auto|apply rd_upd_other; lia].
Qed.

Definition tall {L V A} (f : A -> thread L V) (l : list A) : thread L V := fold_right (fun a t => seqt (f a) t) Fin l.
Lemma tforN_tall {L V A} (f : A -> thread L V) (l : list A) : forall lo body,
  (forall i a, rd l i = Ok a -> body (lo + i) = f a) -> tforN (length l) lo body = tall f l.
Proof.
  induction l as [|a l IH]; intros lo body H; simpl; auto. pose proof (H 0 a eq_refl) as Ha. rewrite Z.add_0_r in Ha. rewrite Ha. f_equal.
  apply IH. intros i b Hb. replace (lo + 1 + i) with (lo + (i + 1)) by lia. apply H. pose proof (rd_bounds _ _ _ Hb).
  change (a :: l) with ([a] ++ l). rewrite rd_app2 by (rewrite zlen_cons; znil; lia). rewrite <- Hb. f_equal. rewrite zlen_cons; znil; lia.
Qed.
Lemma tfor_list {L V A} (f : A -> thread L V) (l : list A) lo hi body : hi = lo + zlen l ->
  (forall i a, rd l i = Ok a -> body (lo + i) = f a) -> tfor lo hi body = tall f l.
Proof. intros -> H. unfold tfor. replace (Z.to_nat (lo + zlen l - lo)) with (length l) by (unfold zlen; lia). apply tforN_tall. auto. Qed.

Section K.
  Context {E U : Type}.
  Variable add : U -> U -> U.
  Variables (rp : list Z) (m n : Z) (parts : list (list (column E))).
  Hypothesis To : tile_ok rp m n parts.
  Notation t := (encode rp m n parts).
  Variable xw : list Z.
  Hypothesis Xw : n <= 32 * zlen xw.
  Variable f : Z -> E -> Z -> R U.

  Definition estep (wv : list Z * list (option U)) (e : edge E) := kernel_entry add (f (e_dst e) (e_val e) (e_src e)) (e_src e) wv.
  Definition selected (es : list (edge E)) : list (edge E) := filter (fun e => tb xw (e_dst e)) es.

  Lemma tb_get k : 0 <= k < n -> bv_get xw k = Ok (tb xw k).
  Proof. intros H. apply bv_get_ok. lia. Qed.

  Lemma col_selected (c : column E) : selected (map (fun x => mkE (fst x) (fst c) (snd x)) (snd c)) =
    if tb xw (fst c) then map (fun x => mkE (fst x) (fst c) (snd x)) (snd c) else [].
  Proof. unfold selected. induction (snd c) as [|x l IH]; simpl; [destruct (tb xw (fst c)); auto|]. rewrite IH. destruct (tb xw (fst c)); auto. Qed.
  Lemma selected_flat {A} (g : A -> list (edge E)) l : selected (flat_map g l) = flat_map (fun a => selected (g a)) l.
  Proof. unfold selected. induction l; simpl; auto. rewrite filter_app. f_equal; auto. Qed.

  Lemma kernel_part_fold p cs wv : rd parts p = Ok cs -> kernel_part add false t xw f p wv = foldR estep (selected (cedges cs)) wv.
  Proof.
    intros Hp. pose proof (rd_bounds _ _ _ Hp) as B. destruct (to_cols _ _ _ _ To p cs Hp) as (_ & Hc & _).
    unfold kernel_part. rewrite enc_cs by lia. cbn [bind]. rewrite (enc_cs rp m n parts (p + 1)) by lia. cbn [bind]. rewrite enc_ep by lia. cbn [bind].
    rewrite (coff_succ n parts p cs Hp). unfold cedges. rewrite selected_flat, <- foldR_flat_map.
    apply forZ_list; [lia|]. intros j c wv1 Hj. cbn [Z.add]. pose proof (rd_bounds _ _ _ Hj) as Bj.
    rewrite (enc_idx rp m n parts p cs j c Hp Hj). cbn [bind]. rewrite tb_get by (apply Hc; apply rd_In with (i := j); auto). cbn [bind].
    rewrite col_selected. destruct (tb xw (fst c)); [|reflexivity]. unfold look_ahead. cbn [bind].
    rewrite (enc_ptrs rp m n parts p cs j Hp) by lia. cbn [bind]. rewrite (enc_ptrs rp m n parts p cs (j + 1) Hp) by lia. cbn [bind].
    rewrite foldR_map. apply forZ_list; [apply cptr_succ; auto|]. intros i x wv2 Hi. pose proof (rd_bounds _ _ _ Hi).
    assert (rd (centries cs) (cptr cs j + i) = Ok x) as Ex by (rewrite (centries_at cs j c i Hj) by lia; auto).
    rewrite (enc_rows rp m n parts p cs _ x Hp Ex). cbn [bind]. rewrite (enc_vals rp m n parts p cs _ x Hp Ex). cbn [bind]. reflexivity.
  Qed.

  Lemma kernel_fold wv : kernel add false t xw f wv = foldR estep (selected (tile_edges parts)) wv.
  Proof.
    unfold kernel, tile_edges. rewrite selected_flat, <- foldR_flat_map. apply forZ_list; [reflexivity|]. intros p cs wv1 Hp. cbn [Z.add]. apply kernel_part_fold; auto.
  Qed.

  Lemma kernel_part_t_tall p cs : rd parts p = Ok cs -> exists l, kernel_part_t add false t xw f p =
     tall (fun c => if tb xw (fst c) then tall (fun x => kernel_entry_t add (f (fst c) (snd x) (fst x)) (fst x)) (snd c) else Fin) l /\ l = cs.
  Proof.
    intros Hp. exists cs. split; auto. pose proof (rd_bounds _ _ _ Hp) as B. destruct (to_cols _ _ _ _ To p cs Hp) as (_ & Hc & _).
    unfold kernel_part_t. rewrite enc_cs by lia. cbn [tlift]. rewrite (enc_cs rp m n parts (p + 1)) by lia. cbn [tlift]. rewrite enc_ep by lia. cbn [tlift].
    rewrite (coff_succ n parts p cs Hp). apply tfor_list; [lia|]. intros j c Hj. cbn [Z.add]. pose proof (rd_bounds _ _ _ Hj) as Bj.
    rewrite (enc_idx rp m n parts p cs j c Hp Hj). cbn [tlift]. rewrite tb_get by (apply Hc; apply rd_In with (i := j); auto). cbn [tlift].
    destruct (tb xw (fst c)); [|reflexivity]. unfold look_ahead. cbn [tlift].
    rewrite (enc_ptrs rp m n parts p cs j Hp) by lia. cbn [tlift]. rewrite (enc_ptrs rp m n parts p cs (j + 1) Hp) by lia. cbn [tlift].
    apply tfor_list; [apply cptr_succ; auto|]. intros i x Hi. pose proof (rd_bounds _ _ _ Hi).
    assert (rd (centries cs) (cptr cs j + i) = Ok x) as Ex by (rewrite (centries_at cs j c i Hj) by lia; auto).
    rewrite (enc_rows rp m n parts p cs _ x Hp Ex). cbn [tlift]. rewrite (enc_vals rp m n parts p cs _ x Hp Ex). cbn [tlift]. reflexivity.
  Qed.

  (** *** what a fold of entries computes *)
  (** the values contributed to row [k], in order *)
  Section Fold.
  Variable F : Z -> E -> Z -> U.
  Definition row_contribs (es : list (edge E)) (k : Z) : list U :=
    map (fun e => F (e_dst e) (e_val e) (e_src e)) (filter (fun e => e_src e =? k) es).

  Lemma entry_spec w v (M : Z -> option U) row x : wwf m w -> zlen v = m -> dmap w v M -> 0 <= row < m ->
    exists w' v', kernel_entry add (Ok x) row (w, v) = Ok (w', v') /\ wwf m w' /\ zlen v' = m /\
      dmap w' v' (fun k => if k =? row then oop add (M k) (Some x) else M k).
  Proof.
    intros W Lv D Hr. unfold kernel_entry. cbn [bind fst snd]. pose proof (num_ints_bounds m ltac:(lia)) as Nb. pose proof W as [W1 W2].
    rewrite (bv_get_ok w row) by lia. cbn [bind]. pose proof (D row) as Dr. unfold wabs in Dr.
    destruct (tb w row) eqn:Tr.
    - destruct (rd_ok v row) as [c Hc]; [lia|]. rewrite Hc in Dr. unfold rdi. rewrite Hc. cbn [bind]. destruct (M row) as [u|] eqn:Mr; [|discriminate]. injection Dr as ->.
      cbn [bind]. destruct (wr_spec v row (Some (add u x))) as (v' & Ev & Lv' & Rv); [lia|]. rewrite Ev. cbn [bind]. exists w, v'. split; [reflexivity|]. split; [auto|]. split; [lia|].
      intros k. unfold wabs. destruct (Z.eqb_spec k row) as [->|N].
      + rewrite Tr, Rv, Z.eqb_refl, Mr. reflexivity.
      + rewrite Rv. destruct (Z.eqb_spec k row); [lia|]. apply D.
    - destruct (M row) as [u|] eqn:Mr; [discriminate|].
      destruct (wr_spec v row (Some x)) as (v' & Ev & Lv' & Rv); [lia|]. rewrite Ev. cbn [bind].
      destruct (bv_set_ok w row) as (w' & Ew & Lw & Tw & _); [lia|]. rewrite Ew. cbn [bind]. exists w', v'. split; [reflexivity|]. split; [|split; [lia|]].
      + split; [lia|]. intros k Hk. rewrite Tw. destruct (Z.eqb_spec k row); [lia|]. cbn [orb]. auto.
      + intros k. unfold wabs. rewrite Tw. destruct (Z.eqb_spec k row) as [->|N]; cbn [orb].
        * rewrite Rv, Z.eqb_refl, Mr. reflexivity.
        * rewrite Rv. destruct (Z.eqb_spec k row); [lia|]. apply D.
  Qed.

  Lemma fold_spec es : forall w v (M : Z -> option U), wwf m w -> zlen v = m -> dmap w v M ->
    (forall e, In e es -> 0 <= e_src e < m /\ f (e_dst e) (e_val e) (e_src e) = Ok (F (e_dst e) (e_val e) (e_src e))) ->
    exists w' v', foldR estep es (w, v) = Ok (w', v') /\ wwf m w' /\ zlen v' = m /\
      dmap w' v' (fun k => red add (olist (M k) ++ row_contribs es k)).
  Proof.
    induction es as [|e es IH]; intros w v M W Lv D H.
    - exists w, v. simpl. repeat split; auto; try apply W. intros k. rewrite (D k). unfold row_contribs. simpl. rewrite app_nil_r. destruct (M k); auto.
    - destruct (H e ltac:(simpl; auto)) as [Hr Hf]. cbn [foldR]. unfold estep at 1. rewrite Hf.
      destruct (entry_spec w v M (e_src e) (F (e_dst e) (e_val e) (e_src e)) W Lv D Hr) as (w1 & v1 & -> & W1 & L1 & D1). cbn [bind].
      destruct (IH w1 v1 _ W1 L1 D1) as (w2 & v2 & E2 & W2 & L2 & D2); [intros; apply H; simpl; auto|]. exists w2, v2. split; [auto|]. split; [auto|]. split; [auto|].
      intros k. rewrite (D2 k). f_equal. unfold row_contribs. simpl. rewrite (Z.eqb_sym k). destruct (e_src e =? k); auto.
      simpl. destruct (M k) as [u|]; reflexivity.
  Qed.
  End Fold.

  (** *** schedules *)
  Notation sim := (sim (T:=U)).
  Lemma sim_tall {A} (g : A -> thread sloc (@scell U)) (ef : (list Z * list (option U)) -> A -> R (list Z * list (option U))) l :
    (forall a, sim (g a) (fun s => ef s a)) -> sim (tall g l) (foldR ef l).
  Proof. intros H. induction l as [|a l IH]; simpl; [apply sim_fin|]. apply (sim_seq _ _ (fun s => ef s a) (foldR ef l)); auto. Qed.
  Lemma sim_entry mul row : sim (kernel_entry_t add mul row) (kernel_entry add mul row).
  Proof.
    unfold kernel_entry_t, kernel_entry.
    apply (sim_lift mul _ (fun x s => do g <- bv_get (fst s) row ;; (if g then do old <- rdi (snd s) row ;; do v <- wr (snd s) row (Some (add old x)) ;; Ok (fst s, v)
       else do v <- wr (snd s) row (Some x) ;; do w <- bv_set (fst s) row ;; Ok (w, v)))). intros x _.
    apply (sim_bv_get row _ (fun g s => if g : bool then do old <- rdi (snd s) row ;; do v <- wr (snd s) row (Some (add old x)) ;; Ok (fst s, v)
       else do v <- wr (snd s) row (Some x) ;; do w <- bv_set (fst s) row ;; Ok (w, v))). intros [|].
    - apply (sim_eq _ (fun s => do c <- rd (snd s) row ;; do old <- need c ;; do v <- wr (snd s) row (Some (add old x)) ;; Ok (fst s, v))).
      { intros s. unfold rdi. destruct (rd (snd s) row) as [[a|]|]; reflexivity. }
      apply (sim_rdX row _ (fun c s => do old <- need c ;; do v <- wr (snd s) row (Some (add old x)) ;; Ok (fst s, v))). intros c.
      apply (sim_lift (need c) _ (fun old s => do v <- wr (snd s) row (Some (add old x)) ;; Ok (fst s, v))). intros old _.
      apply (sim_wrX Fin row _ (fun s => Ok s)). apply sim_fin.
    - apply (sim_wrX _ row _ (fun s => do w <- bv_set (fst s) row ;; Ok (w, snd s))).
      apply (sim_bv_set Fin row (fun s => Ok s)). apply sim_fin.
  Qed.
  Lemma only_entry mul row : only (at_idx row) (kernel_entry_t add mul row).
  Proof.
    unfold kernel_entry_t. destruct mul as [x|e]; simpl; auto. rewrite shiftr5. unfold at_idx. split; [auto|]. intros [z|c]; simpl; auto.
    destruct (Z.testbit z _); simpl.
    - split; auto. intros [|[a|] ]; simpl; auto.
    - split; auto. rewrite shiftr5. split; auto. intros [z'|c]; simpl; auto. destruct (Z.land z' _ =? 0); simpl; auto.
  Qed.
  Lemma only_tall {A} (P : sloc -> Prop) (g : A -> thread sloc (@scell U)) l : (forall a, In a l -> only P (g a)) -> only P (tall g l).
  Proof. induction l as [|a l IH]; intros H; simpl; auto. apply only_seqt; [apply H; simpl; auto|]. apply IH. intros; apply H; simpl; auto. Qed.

  Lemma sim_part p cs : rd parts p = Ok cs -> sim (kernel_part_t add false t xw f p) (fun s => kernel_part add false t xw f p s).
  Proof.
    intros Hp. destruct (kernel_part_t_tall p cs Hp) as (l & -> & ->).
    apply (sim_eq _ (foldR (fun s (c : column E) => if tb xw (fst c) then foldR (fun s x => kernel_entry add (f (fst c) (snd x) (fst x)) (fst x) s) (snd c) s else Ok s) cs)).
    - intros s. rewrite (kernel_part_fold p cs s Hp). unfold cedges. rewrite selected_flat, <- foldR_flat_map. apply foldR_ext. intros c s1 _.
      rewrite col_selected. destruct (tb xw (fst c)); [|reflexivity]. rewrite foldR_map. reflexivity.
    - apply sim_tall. intros c. destruct (tb xw (fst c)); [|apply sim_fin]. apply (sim_tall _ (fun s x => kernel_entry add (f (fst c) (snd x) (fst x)) (fst x) s)).
      intros x. apply sim_entry.
  Qed.

  (** the partition a row or word belongs to *)
  Definition in_word (p j : Z) : bool :=
    match rd rp p, rd rp (p + 1) with Ok a, Ok b => (a / 32 <=? j) && (32 * j <? b) && (a <? b) | _, _ => false end.
  Definition kowner (l : sloc) : option nat :=
    option_map Z.to_nat (find (fun p => in_word p (match l with LW j => j | LX x => x / 32 end)) (zrange 0 (zlen parts))).
  Lemma word_unique p q j : 0 <= p < zlen parts -> 0 <= q < zlen parts -> in_word p j = true -> in_word q j = true -> p = q.
  Proof.
    intros Hp Hq. pose proof (to_rows _ _ _ _ To) as Ro. unfold in_word.
    destruct (rd_ok rp p) as [a Ea]; [rewrite (ro_len _ _ _ Ro); lia|]. destruct (rd_ok rp (p + 1)) as [b Eb]; [rewrite (ro_len _ _ _ Ro); lia|].
    destruct (rd_ok rp q) as [c Ec]; [rewrite (ro_len _ _ _ Ro); lia|]. destruct (rd_ok rp (q + 1)) as [d Ed]; [rewrite (ro_len _ _ _ Ro); lia|].
    rewrite Ea, Eb, Ec, Ed. intros H1 H2.
    pose proof (ro_range _ _ _ Ro _ _ Eb) as Rb. pose proof (ro_range _ _ _ Ro _ _ Ed) as Rd'.
    pose proof (ro_range _ _ _ Ro _ _ Ea) as Ra. pose proof (ro_range _ _ _ Ro _ _ Ec) as Rc.
    destruct (Z.lt_trichotomy p q) as [L|[Q|L] ]; auto; exfalso.
    - pose proof (rows_mono rp m (zlen parts) Ro (p + 1) q b c ltac:(lia) Eb Ec). destruct (ro_align _ _ _ Ro _ _ Ec); lia.
    - pose proof (rows_mono rp m (zlen parts) Ro (q + 1) p d a ltac:(lia) Ed Ea). destruct (ro_align _ _ _ Ro _ _ Ea); lia.
  Qed.
  Lemma kowner_at p row l : row_in rp p row -> at_idx row l -> kowner l = Some (Z.to_nat p).
  Proof.
    intros Hr Hl. pose proof (to_rows _ _ _ _ To) as Ro. pose proof (row_in_range rp m _ Ro p row Hr) as Bp.
    assert (match l with LW j => j | LX x => x / 32 end = row / 32) as El by (destruct Hl as [-> | ->]; auto).
    unfold kowner. rewrite El. assert (in_word p (row / 32) = true) as Ip.
    { destruct Hr as (a & b & Ea & Eb & B). unfold in_word. rewrite Ea, Eb. pose proof (ro_range _ _ _ Ro _ _ Ea). lia. }
    destruct (find (fun p => in_word p (row / 32)) (zrange 0 (zlen parts))) as [q|] eqn:Fq.
    - apply find_some in Fq as [Hq Iq]. apply in_zrange in Hq. simpl. do 2 f_equal. apply (word_unique q p (row / 32)); auto.
    - exfalso. pose proof (find_none _ _ Fq p ltac:(apply in_zrange; lia)) as H. simpl in H. congruence.
  Qed.

  Theorem kernel_interleavings s s' : kernel add false t xw f s = Ok s' ->
    forall ts' m', psteps sloc_eqb (kernel_pool add false t xw f, smem s) (ts', m') ->
      ~ bad (ts', m') /\ (finished ts' -> forall l, m' l = smem s' l).
  Proof.
    intros Ek ts' m' St.
    assert (exists mq, foldR (fun m t => exec (V:=@scell U) sloc_eqb t m) (kernel_pool add false t xw f) (smem s) = Ok mq /\ forall l, mq l = smem s' l) as (mq & Eq & Aq).
    { unfold kernel in Ek. rewrite forZ_foldR in Ek. unfold kernel_pool. change (t_np t) with (zlen parts) in *.
      assert (forall l, (forall p, In p l -> 0 <= p < zlen parts) -> forall s m, (forall l, m l = smem s l) ->
        foldR (fun s p => kernel_part add false t xw f p s) l s = Ok s' ->
        exists m', foldR (fun m t => exec (V:=@scell U) sloc_eqb t m) (map (kernel_part_t add false t xw f) l) m = Ok m' /\ forall l, m' l = smem s' l) as G.
      { induction l as [|p l IH]; intros Hl s0 m0 Hm E0; simpl in E0 |- *.
        - injection E0 as <-. eauto.
        - apply bind_Ok in E0 as (s1 & E1 & E2). destruct (rd_ok parts p) as [cs Hcs]; [apply Hl; simpl; auto|].
          destruct (sim_part p cs Hcs s0 s1 E1) as (m1 & X1 & A1).
          destruct (exec_ext sloc_eqb sloc_eqb_spec (kernel_part_t add false t xw f p) (smem s0) m0 m1) as (m2 & X2 & A2); auto.
          rewrite X2. cbn [bind]. apply (IH ltac:(intros; apply Hl; simpl; auto) s1); auto. intros l0. rewrite <- A2. auto. }
      apply (G (zrange 0 (zlen parts))) with (s := s); auto. intros p Hp. apply in_zrange in Hp. lia. }
    destruct (interleavings_sequential sloc_eqb sloc_eqb_spec kowner (kernel_pool add false t xw f) (smem s) mq) with (ts' := ts') (m' := m') as [G1 G2]; auto.
    - intros i th Hi. unfold kernel_pool in Hi. change (t_np t) with (zlen parts) in *. rewrite nth_error_map in Hi.
      destruct (nth_error (zrange 0 (zlen parts)) i) as [p|] eqn:Hp; [|discriminate]. injection Hi as <-.
      assert (p = Z.of_nat i /\ 0 <= p < zlen parts) as [Ep Bp].
      { assert (rd (zrange 0 (zlen parts)) (Z.of_nat i) = Ok p) as Rp by (apply rd_nth; rewrite Nat2Z.id; split; [lia|auto]).
        pose proof (rd_bounds _ _ _ Rp) as B. pose proof (zlen_nonneg parts). rewrite zlen_zrange in B by lia. rewrite rd_zrange in Rp by lia. injection Rp as <-. split; lia. }
      destruct (rd_ok parts p Bp) as [cs Hcs]. destruct (kernel_part_t_tall p cs Hcs) as (l & -> & ->). destruct (to_cols _ _ _ _ To p cs Hcs) as (_ & _ & Hrow).
      apply only_tall. intros c Hc. destruct (tb xw (fst c)); [|simpl; auto]. apply only_tall. intros x Hx.
      eapply only_weak; [|apply only_entry]. intros l Hl. unfold P. rewrite (kowner_at p (fst x) l); auto; [f_equal; lia|].
      apply Hrow. unfold centries. apply in_flat_map. eauto.
    - split; auto. intros Fi l. rewrite G2; auto.
  Qed.
End K.
