From Verif Require Import BaseLemmas Bits BitsProofs Segment SegmentProofs TransferProofs UnionProofs Conc ConcProofs ParSeg.

Lemma sloc_eqb_spec a b : sloc_eqb a b = true <-> a = b.
Proof. destruct a, b; simpl; split; intros H; try discriminate; try (apply Z.eqb_eq in H; congruence); injection H as ->; apply Z.eqb_refl. Qed.

Section PP.
  Context {T : Type}.
  Notation scell := (@scell T).
  Notation thread := (thread sloc scell).
  Notation exec := (exec (V:=scell) sloc_eqb).
  Notation st := (list Z * list (option T))%type.

  (** the thread computes what the sequential code computes *)
  Definition sim (t : thread) (f : st -> R st) : Prop :=
    forall s s', f s = Ok s' -> exists m', exec t (smem s) = Ok m' /\ forall l, m' l = smem s' l.

  Lemma exec_seqt (t u : thread) : forall m, exec (seqt t u) m = (do m' <- exec t m ;; exec u m').
  Proof.
    induction t as [|e|l k IH|l v t IH]; intros m; simpl; auto.
    - destruct (m l); simpl; auto.
    - destruct (m l); simpl; auto.
  Qed.

  Lemma sim_seq t u f g : sim t f -> sim u g -> sim (seqt t u) (fun s => do s' <- f s ;; g s').
  Proof.
    intros Ht Hu s s' E. apply bind_Ok in E as (s1 & E1 & E2). destruct (Ht _ _ E1) as (m1 & X1 & A1).
    destruct (Hu _ _ E2) as (m2 & X2 & A2).
    destruct (exec_ext sloc_eqb sloc_eqb_spec u (smem s1) m1 m2) as (m3 & X3 & A3); auto.
    exists m3. rewrite exec_seqt, X1. simpl. split; auto. intros l. rewrite <- A3. auto.
  Qed.

  Lemma sim_fin : sim Fin (fun s => Ok s).
  Proof. intros s s' E. injection E as <-. exists (smem s). auto. Qed.

  Lemma sim_for lo hi body f : (forall i, lo <= i < hi -> sim (body i) (f i)) -> sim (tfor lo hi body) (forZ lo hi f).
  Proof.
    unfold tfor, forZ. intros H. assert (forall i, lo <= i < lo + Z.of_nat (Z.to_nat (hi - lo)) -> sim (body i) (f i)) as H' by (intros; apply H; lia).
    clear H. revert H'. generalize (Z.to_nat (hi - lo)) as n. clear hi. intros n. revert lo. induction n as [|n IH]; intros lo H; simpl.
    - apply sim_fin.
    - apply (sim_seq (body lo) _ (f lo) (forN n (lo + 1) f)); [apply H; lia|]. apply IH. intros i Hi. apply H. lia.
  Qed.

  Lemma smem_put_W w (v : list (option T)) i z w' : wr w i z = Ok w' -> forall l, mput sloc_eqb (smem (w, v)) (LW i) (inl z) l = smem (w', v) l.
  Proof.
    intros E l. apply wr_Ok in E as [B ->]. unfold mput. destruct l as [j|j]; simpl; auto. destruct (Z.eqb_spec i j) as [<-|N].
    - rewrite rd_upd_same; auto.
    - rewrite rd_upd_other by lia. reflexivity.
  Qed.
  Lemma smem_put_X w (v : list (option T)) i c v' : wr v i c = Ok v' -> forall l, mput sloc_eqb (smem (w, v)) (LX i) (inr c) l = smem (w, v') l.
  Proof.
    intros E l. apply wr_Ok in E as [B ->]. unfold mput. destruct l as [j|j]; simpl; auto. destruct (Z.eqb_spec i j) as [<-|N].
    - rewrite rd_upd_same; auto.
    - rewrite rd_upd_other by lia. reflexivity.
  Qed.

  Lemma sim_wrX t i c f : sim t f -> sim (wrX i c t) (fun s => do v <- wr (snd s) i c ;; f (fst s, v)).
  Proof.
    intros Ht [w v] s' E. cbn [fst snd] in E. apply bind_Ok in E as (v' & Ev & E). pose proof (wr_Ok _ _ _ _ Ev) as [B _].
    destruct (rd_ok v i B) as [c0 Hc]. unfold wrX. cbn [Conc.exec]. cbn [smem fst snd]. rewrite Hc.
    destruct (Ht _ _ E) as (m1 & X1 & A1).
    destruct (exec_ext sloc_eqb sloc_eqb_spec t (smem (w, v')) (mput sloc_eqb (smem (w, v)) (LX i) (inr c)) m1) as (m3 & X3 & A3); auto.
    { intros l. symmetry. apply smem_put_X. auto. }
    exists m3. split; auto. intros l. rewrite <- A3. auto.
  Qed.

  Lemma sim_bv_set t idx f : sim t f -> sim (t_bv_set idx t) (fun s => do w <- bv_set (fst s) idx ;; f (w, snd s)).
  Proof.
    intros Ht [w v] s' E. cbn [fst snd] in E. apply bind_Ok in E as (w' & Ew & E). unfold bv_set in Ew. apply bind_Ok in Ew as (z & Hz & Ew).
    unfold t_bv_set, rdW, wrW. cbn [Conc.exec]. cbn [smem fst snd]. rewrite Hz. cbn zeta in Ew |- *.
    destruct (Z.land z (Z.shiftl 1 (Z.land idx 31)) =? 0).
    - cbn [Conc.exec]. cbn [smem fst snd]. rewrite Hz. destruct (Ht _ _ E) as (m1 & X1 & A1).
      destruct (exec_ext sloc_eqb sloc_eqb_spec t (smem (w', v)) (mput sloc_eqb (smem (w, v)) (LW (Z.shiftr idx 5)) (inl (Z.lor z (Z.shiftl 1 (Z.land idx 31))))) m1) as (m3 & X3 & A3); auto.
      { intros l. symmetry. apply smem_put_W. auto. }
      exists m3. split; auto. intros l. rewrite <- A3. auto.
    - injection Ew as <-. apply (Ht (w, v)). auto.
  Qed.

  Lemma sim_bv_get idx k f : (forall b, sim (k b) (f b)) -> sim (t_bv_get idx k) (fun s => do g <- bv_get (fst s) idx ;; f g s).
  Proof.
    intros H [w v] s' E. cbn [fst snd] in E. apply bind_Ok in E as (g & Eg & E). unfold bv_get in Eg. apply bind_Ok in Eg as (z & Hz & Eg). injection Eg as <-.
    unfold t_bv_get, rdW. cbn [Conc.exec]. cbn [smem fst snd]. rewrite Hz. apply H. auto.
  Qed.

  Lemma sim_rdX idx k f : (forall c, sim (k c) (f c)) -> sim (rdX idx k) (fun s => do c <- rd (snd s) idx ;; f c s).
  Proof.
    intros H [w v] s' E. cbn [fst snd] in E. apply bind_Ok in E as (g & Eg & E). 
    unfold rdX. cbn [Conc.exec]. cbn [smem fst snd]. rewrite Eg. apply H. auto.
  Qed.

  Lemma sim_lift {A} (r : R A) k f : (forall a, r = Ok a -> sim (k a) (f a)) -> sim (tlift r k) (fun s => do a <- r ;; f a s).
  Proof. intros H s s' E. apply bind_Ok in E as (a & Ea & E). unfold tlift. rewrite Ea. apply (H a Ea). auto. Qed.

  Lemma sim_eq t f g : (forall s, f s = g s) -> sim t f -> sim t g.
  Proof. intros H S s s' E. apply S. rewrite H. auto. Qed.
  Lemma sim_weak t f g : (forall s s', g s = Ok s' -> f s = Ok s') -> sim t f -> sim t g.
  Proof. intros H S s s' E. apply S. auto. Qed.

  Lemma sim_decomp_entry cdata cidx i : sim (decomp_entry_t cdata cidx i) (decomp_entry cdata cidx i).
  Proof.
    unfold decomp_entry_t.
    apply (sim_lift (rdi cidx i) _ (fun idx s => do w <- bv_set (fst s) idx ;; do d <- rd cdata i ;; do v <- wr (snd s) idx d ;; Ok (w, v))).
    intros idx _. apply (sim_bv_set _ idx (fun s => do d <- rd cdata i ;; do v <- wr (snd s) idx d ;; Ok (fst s, v))).
    apply (sim_lift (rd cdata i) _ (fun d s => do v <- wr (snd s) idx d ;; Ok (fst s, v))). intros d _.
    apply (sim_wrX Fin idx d (fun s => Ok s)). apply sim_fin.
  Qed.

  Lemma sim_union_entry op cdata cidx i : sim (union_entry_t op cdata cidx i) (union_entry op cdata cidx i).
  Proof.
    unfold union_entry_t, union_entry.
    apply (sim_lift (rdi cidx i) _ (fun idx s => do g <- bv_get (fst s) idx ;;
      (if g then do a <- rdi (snd s) idx ;; do c <- rdi cdata i ;; do v <- wr (snd s) idx (Some (op a c)) ;; Ok (fst s, v)
       else do w <- bv_set (fst s) idx ;; do c <- rd cdata i ;; do v <- wr (snd s) idx c ;; Ok (w, v)))).
    intros idx _. 
    apply (sim_bv_get idx _ (fun g s => if g : bool then do a <- rdi (snd s) idx ;; do c <- rdi cdata i ;; do v <- wr (snd s) idx (Some (op a c)) ;; Ok (fst s, v)
       else do w <- bv_set (fst s) idx ;; do c <- rd cdata i ;; do v <- wr (snd s) idx c ;; Ok (w, v))).
    intros [|].
    - apply (sim_eq _ (fun s => do a0 <- rd (snd s) idx ;; do a <- need a0 ;; do c <- rdi cdata i ;; do v <- wr (snd s) idx (Some (op a c)) ;; Ok (fst s, v))).
      { intros s. unfold rdi at 2. destruct (rd (snd s) idx) as [[a|]|]; reflexivity. }
      apply (sim_rdX idx _ (fun a0 s => do a <- need a0 ;; do c <- rdi cdata i ;; do v <- wr (snd s) idx (Some (op a c)) ;; Ok (fst s, v))). intros a0.
      apply (sim_lift (need a0) _ (fun a s => do c <- rdi cdata i ;; do v <- wr (snd s) idx (Some (op a c)) ;; Ok (fst s, v))). intros a _.
      apply (sim_lift (rdi cdata i) _ (fun c s => do v <- wr (snd s) idx (Some (op a c)) ;; Ok (fst s, v))). intros c _.
      apply (sim_wrX Fin idx _ (fun s => Ok s)). apply sim_fin.
    - apply (sim_bv_set _ idx (fun s => do d <- rd cdata i ;; do v <- wr (snd s) idx d ;; Ok (fst s, v))).
      apply (sim_lift (rd cdata i) _ (fun d s => do v <- wr (snd s) idx d ;; Ok (fst s, v))). intros d _.
      apply (sim_wrX Fin idx d (fun s => Ok s)). apply sim_fin.
  Qed.

  (** what an entry thread touches *)
  Lemma only_weak (P Q : sloc -> Prop) (t : thread) : (forall l, P l -> Q l) -> only P t -> only Q t.
  Proof. intros H. induction t as [|e|l k IH|l v t IH]; simpl; auto; intros [A B]; auto. Qed.
  Lemma only_seqt P (t u : thread) : only P t -> only P u -> only P (seqt t u).
  Proof. intros Ht Hu. induction t as [|e|l k IH|l v t IH]; simpl in *; auto; destruct Ht; auto. Qed.
  Lemma only_for P lo hi (body : Z -> thread) : (forall i, lo <= i < hi -> only P (body i)) -> only P (tfor lo hi body).
  Proof.
    unfold tfor. intros H. assert (forall i, lo <= i < lo + Z.of_nat (Z.to_nat (hi - lo)) -> only P (body i)) as H' by (intros; apply H; lia).
    clear H. revert H'. generalize (Z.to_nat (hi - lo)) as n. clear hi. intros n. revert lo. induction n as [|n IH]; intros lo H; simpl; auto.
    apply only_seqt; [apply H; lia|]. apply IH. intros i Hi. apply H. lia.
  Qed.

  Definition at_idx (x : Z) (l : sloc) : Prop := l = LW (x / 32) \/ l = LX x.
  Lemma only_decomp_entry cdata cidx i x : rdi cidx i = Ok x -> only (at_idx x) (decomp_entry_t (T:=T) cdata cidx i).
  Proof.
    intros E. unfold decomp_entry_t. rewrite E. simpl. rewrite shiftr5. unfold at_idx.
    split; [auto|]. intros [z|c]; simpl; auto. destruct (Z.land z _ =? 0); simpl; (split; [auto|]) || idtac;
      destruct (rd cdata i); simpl; auto.
  Qed.
  Lemma only_union_entry op cdata cidx i x : rdi cidx i = Ok x -> only (at_idx x) (union_entry_t (T:=T) op cdata cidx i).
  Proof.
    intros E. unfold union_entry_t. rewrite E. simpl. rewrite shiftr5. unfold at_idx.
    split; [auto|]. intros [z|c]; simpl; auto. destruct (Z.testbit z _); simpl.
    - split; auto. intros [|[a|] ]; simpl; auto. destruct (rdi cdata i); simpl; auto.
    - split; auto. rewrite shiftr5. auto. intros [z'|c]; simpl; auto. rewrite ?shiftr5. destruct (Z.land z' _ =? 0); simpl; (split; [auto|]) || idtac;
      destruct (rd cdata i); simpl; auto.
  Qed.

  (** ** part by part *)
  Section Run.
    Variable ks : list Z.
    Variable np : Z.
    Variable ends : list Z.
    Hypothesis Cu : cuts ks np ends.
    Hypothesis Hnp : 0 <= np.

    Definition lo_of (p : Z) : Z := match prevc ends p with Ok a => a | Err _ => 0 end.
    Definition hi_of (p : Z) : Z := match rd ends p with Ok a => a | Err _ => 0 end.
    Definition in_part (p j : Z) : bool :=
      existsb (fun i => match rd ks i with Ok x => x / 32 =? j | Err _ => false end) (zrange (lo_of p) (hi_of p)).
    Definition powner (l : sloc) : option nat :=
      option_map Z.to_nat (find (fun p => in_part p (match l with LW j => j | LX x => x / 32 end)) (zrange 0 np)).

    Lemma lohi p : 0 <= p < np -> prevc ends p = Ok (lo_of p) /\ rd ends p = Ok (hi_of p) /\ 0 <= lo_of p <= hi_of p /\ hi_of p <= zlen ks /\ bdry ks (lo_of p) /\ bdry ks (hi_of p).
    Proof. intros Hp. destruct Cu as (_ & Q & _). destruct (Q p Hp) as (a & b & Ea & Eb & B1 & B2 & D1 & D2). unfold lo_of, hi_of. rewrite Ea, Eb. auto 10. Qed.

    Lemma hi_le_lo p q : 0 <= p < q -> q < np -> hi_of p <= lo_of q.
    Proof.
      intros Hp Hq. assert (forall n, p + 1 + Z.of_nat n < np -> hi_of p <= lo_of (p + 1 + Z.of_nat n)) as G.
      { induction n as [|n IH]; intros L.
        - rewrite Z.add_0_r. unfold lo_of, prevc, hi_of. destruct (Z.eqb_spec (p+1) 0); [lia|]. replace (p+1-1) with p by lia. lia.
        - specialize (IH ltac:(lia)). destruct (lohi (p + 1 + Z.of_nat n) ltac:(lia)) as (_ & E & B & _).
          assert (lo_of (p + 1 + Z.of_nat (S n)) = hi_of (p + 1 + Z.of_nat n)) as ->; [|lia].
          unfold lo_of, prevc, hi_of. destruct (Z.eqb_spec (p + 1 + Z.of_nat (S n)) 0); [lia|]. replace (p + 1 + Z.of_nat (S n) - 1) with (p + 1 + Z.of_nat n) by lia. auto. }
      specialize (G (Z.to_nat (q - p - 1))). replace (p + 1 + Z.of_nat (Z.to_nat (q - p - 1))) with q in G by lia. auto.
    Qed.

    Lemma in_part_spec p j : in_part p j = true -> exists i x, lo_of p <= i < hi_of p /\ rd ks i = Ok x /\ x / 32 = j.
    Proof.
      unfold in_part. intros H. apply existsb_exists in H as (i & Hi & E). apply in_zrange in Hi. destruct (rd ks i) as [x|] eqn:Rx; [|discriminate].
      apply Z.eqb_eq in E. eauto 10.
    Qed.
    Lemma part_words_disjoint p q i i' x y : 0 <= p < q -> q < np -> lo_of p <= i < hi_of p -> lo_of q <= i' < hi_of q ->
      rd ks i = Ok x -> rd ks i' = Ok y -> x / 32 < y / 32.
    Proof.
      intros Hp Hq Hi Hi' Rx Ry. destruct (lohi p ltac:(lia)) as (_ & _ & _ & _ & _ & D). pose proof (hi_le_lo p q Hp Hq).
      apply (D i i' x y); auto; lia.
    Qed.
    Lemma in_part_unique p q j : 0 <= p < np -> 0 <= q < np -> in_part p j = true -> in_part q j = true -> p = q.
    Proof.
      intros Hp Hq Ap Aq. apply in_part_spec in Ap as (i & x & Bi & Rx & Ex). apply in_part_spec in Aq as (i' & y & Bi' & Ry & Ey).
      destruct (Z.lt_trichotomy p q) as [H|[H|H] ]; auto.
      - pose proof (part_words_disjoint p q i i' x y ltac:(lia) ltac:(lia) Bi Bi' Rx Ry). lia.
      - pose proof (part_words_disjoint q p i' i y x ltac:(lia) ltac:(lia) Bi' Bi Ry Rx). lia.
    Qed.
    Lemma powner_at p i x l : 0 <= p < np -> lo_of p <= i < hi_of p -> rd ks i = Ok x -> at_idx x l -> powner l = Some (Z.to_nat p).
    Proof.
      intros Hp Hi Rx Hl. assert (match l with LW j => j | LX x => x / 32 end = x / 32) as El by (destruct Hl as [-> | ->]; auto).
      unfold powner. rewrite El. assert (in_part p (x/32) = true) as Ip.
      { unfold in_part. apply existsb_exists. exists i. split; [apply in_zrange; auto|]. rewrite Rx. apply Z.eqb_refl. }
      destruct (find (fun p => in_part p (x / 32)) (zrange 0 np)) as [q|] eqn:F.
      - apply find_some in F as [Fq Iq]. apply in_zrange in Fq. simpl. f_equal. f_equal. apply (in_part_unique q p (x/32)); auto.
      - exfalso. pose proof (find_none _ _ F p ltac:(apply in_zrange; lia)). simpl in *. congruence.
    Qed.

    (** every entry is given to exactly one part *)
    Lemma parts_cover i : 0 <= i < zlen ks -> exists p, 0 <= p < np /\ lo_of p <= i < hi_of p.
    Proof.
      intros Hi. destruct Cu as (L & Q & E).
      assert (forall n, Z.of_nat n <= np -> (exists p, 0 <= p < Z.of_nat n /\ lo_of p <= i < hi_of p) \/ lo_of (Z.of_nat n) <= i) as G.
      { induction n as [|n IH]; intros Hn; [right; unfold lo_of, prevc; simpl; lia|].
        destruct (IH ltac:(lia)) as [(p & Hp & B)|B]; [left; exists p; split; [lia|auto]|].
        destruct (lohi (Z.of_nat n) ltac:(lia)) as (_ & E2 & B2 & _).
        assert (lo_of (Z.of_nat (S n)) = hi_of (Z.of_nat n)) as ->.
        { unfold lo_of, prevc, hi_of. destruct (Z.eqb_spec (Z.of_nat (S n)) 0); [lia|]. replace (Z.of_nat (S n) - 1) with (Z.of_nat n) by lia. auto. }
        destruct (Z_lt_le_dec i (hi_of (Z.of_nat n))); [left; exists (Z.of_nat n); split; lia|right; lia]. }
      destruct (G (Z.to_nat np) ltac:(lia)) as [(p & Hp & B)|B]; [exists p; split; [lia|auto]|].
      exfalso. replace (Z.of_nat (Z.to_nat np)) with np in B by lia. unfold lo_of in B. rewrite E in B. lia.
    Qed.

    Variable et : Z -> thread.
    Variable ef : Z -> st -> R st.
    Hypothesis et_only : forall i x, rd ks i = Ok x -> only (at_idx x) (et i).
    Hypothesis et_sim : forall i, sim (et i) (ef i).

    Definition cut_pool : list thread := map (fun p => tfor (lo_of p) (hi_of p) et) (zrange 0 np).

    Lemma pool_seq s s' : forZ 0 np (fun p s => do a <- prevc ends p ;; do b <- rd ends p ;; forZ a b ef s) s = Ok s' ->
      exists m', foldR (fun m t => exec t m) cut_pool (smem s) = Ok m' /\ forall l, m' l = smem s' l.
    Proof.
      rewrite forZ_foldR. unfold cut_pool.
      assert (forall l, (forall p, In p l -> 0 <= p < np) -> forall s m, (forall l, m l = smem s l) ->
        foldR (fun s p => do a <- prevc ends p ;; do b <- rd ends p ;; forZ a b ef s) l s = Ok s' ->
        exists m', foldR (fun m t => exec t m) (map (fun p => tfor (lo_of p) (hi_of p) et) l) m = Ok m' /\ forall l, m' l = smem s' l) as G.
      { induction l as [|p l IH]; intros Hl s0 m Hm E; simpl in E |- *.
        - injection E as <-. eauto.
        - destruct (lohi p (Hl p (or_introl eq_refl))) as (Ea & Eb & _). rewrite Ea, Eb in E. cbn [bind] in E. apply bind_Ok in E as (s1 & E1 & E2).
          destruct (sim_for (lo_of p) (hi_of p) et ef (fun i _ => et_sim i) s0 s1 E1) as (m1 & X1 & A1).
          destruct (exec_ext sloc_eqb sloc_eqb_spec (tfor (lo_of p) (hi_of p) et) (smem s0) m m1) as (m2 & X2 & A2); auto.
          rewrite X2. cbn [bind]. apply (IH ltac:(intros; apply Hl; simpl; auto) s1); auto. intros l0. rewrite <- A2. auto. }
      intros E. apply (G (zrange 0 np)) with (s := s); auto. intros p Hp. apply in_zrange in Hp. lia.
    Qed.

    Lemma pool_interleavings s s' : forZ 0 np (fun p s => do a <- prevc ends p ;; do b <- rd ends p ;; forZ a b ef s) s = Ok s' ->
      forall ts' m', psteps sloc_eqb (cut_pool, smem s) (ts', m') -> ~ bad (ts', m') /\ (finished ts' -> forall l, m' l = smem s' l).
    Proof.
      intros E ts' m' St. destruct (pool_seq s s' E) as (mq & Eq & Aq).
      destruct (interleavings_sequential sloc_eqb sloc_eqb_spec powner cut_pool (smem s) mq) with (ts' := ts') (m' := m') as [G1 G2]; auto.
      - intros i t Hi. unfold cut_pool in Hi. rewrite nth_error_map in Hi. destruct (nth_error (zrange 0 np) i) as [p|] eqn:Hp; [|discriminate].
        injection Hi as <-. assert (p = Z.of_nat i /\ 0 <= p < np) as [Ep Bp].
        { assert (rd (zrange 0 np) (Z.of_nat i) = Ok p) as Rp by (apply rd_nth; rewrite Nat2Z.id; split; [lia|auto]).
          pose proof (rd_bounds _ _ _ Rp) as B. rewrite zlen_zrange in B by lia. rewrite rd_zrange in Rp by lia. injection Rp as <-. split; lia. }
        apply only_for. intros j Hj. destruct (lohi p Bp) as (_ & _ & B1 & B2 & _). destruct (rd_ok ks j ltac:(lia)) as [x Rx].
        eapply only_weak; [|apply (et_only j x Rx)]. intros l Hl. unfold P. rewrite (powner_at p j x l); auto. f_equal. lia.
      - split; auto. intros F l. rewrite G2; auto.
    Qed.
  End Run.
End PP.
