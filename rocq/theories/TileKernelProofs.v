From Verif Require Import BaseLemmas Bits BitsProofs Segment SegmentProofs UnionProofs Reduce ReduceProofs ListLemmas GraphVertProofs Bucket BucketProofs VecProofs2 DCSC DCSCBuild MatSpec TileProofs Conc ConcProofs ParSeg ParSegProofs EdgeList Kernel KernelProofs Tiles TileKernel.

(** ** pools of threads that own rows *)
Section Pool.
  Context {U : Type}.
  Notation st := (list Z * list (option U))%type.
  Notation thread := (thread sloc (@scell U)).
  Variables (np : Z) (pf : Z -> st -> R st) (pt : Z -> thread) (rows : Z -> list Z).
  Hypothesis Hsim : forall p, 0 <= p < np -> sim (pt p) (pf p).
  Hypothesis Honly : forall p, 0 <= p < np -> only (fun l => exists r, In r (rows p) /\ at_idx r l) (pt p).
  Hypothesis Hdis : forall p q r r', 0 <= p < q -> q < np -> In r (rows p) -> In r' (rows q) -> r / 32 <> r' / 32.

  Definition wordof (l : sloc) : Z := match l with LW j => j | LX x => x / 32 end.
  Definition powner (l : sloc) : option nat :=
    option_map Z.to_nat (find (fun p => existsb (fun r => r / 32 =? wordof l) (rows p)) (zrange 0 np)).
  Lemma powner_at p r l : 0 <= p < np -> In r (rows p) -> at_idx r l -> powner l = Some (Z.to_nat p).
  Proof.
    intros Hp Hr Hl. unfold powner. assert (wordof l = r / 32) as -> by (destruct Hl as [-> | ->]; auto).
    destruct (find (fun p => existsb (fun r0 => r0 / 32 =? r / 32) (rows p)) (zrange 0 np)) as [q|] eqn:Fq.
    - apply find_some in Fq as [Hq Iq]. apply in_zrange in Hq. apply existsb_exists in Iq as (r' & Hr' & Er). apply Z.eqb_eq in Er. simpl. do 2 f_equal.
      destruct (Z.lt_trichotomy p q) as [L|[L|L]]; auto; exfalso; [apply (Hdis p q r r')|apply (Hdis q p r' r)]; auto; lia.
    - exfalso. pose proof (find_none _ _ Fq p ltac:(apply in_zrange; lia)) as H. simpl in H.
      assert (existsb (fun r0 => r0 / 32 =? r / 32) (rows p) = true); [|congruence]. apply existsb_exists. exists r. split; auto. apply Z.eqb_refl.
  Qed.

  Theorem pool_interleavings s s' : forZ 0 np pf s = Ok s' ->
    forall ts' m', psteps sloc_eqb (map pt (zrange 0 np), smem s) (ts', m') ->
      ~ bad (ts', m') /\ (finished ts' -> forall l, m' l = smem s' l).
  Proof.
    intros Ek ts' m' St.
    assert (exists mq, foldR (fun m t => exec (V:=@scell U) sloc_eqb t m) (map pt (zrange 0 np)) (smem s) = Ok mq /\ forall l, mq l = smem s' l) as (mq & Eq & Aq).
    { rewrite forZ_foldR in Ek.
      assert (forall l, (forall p, In p l -> 0 <= p < np) -> forall s m, (forall l, m l = smem s l) ->
        foldR (fun s p => pf p s) l s = Ok s' ->
        exists m', foldR (fun m t => exec (V:=@scell U) sloc_eqb t m) (map pt l) m = Ok m' /\ forall l, m' l = smem s' l) as G.
      { induction l as [|p l IH]; intros Hl s0 m0 Hm E0; simpl in E0 |- *.
        - injection E0 as <-. eauto.
        - apply bind_Ok in E0 as (s1 & E1 & E2).
          destruct (Hsim p ltac:(apply Hl; simpl; auto) s0 s1 E1) as (m1 & X1 & A1).
          destruct (exec_ext sloc_eqb sloc_eqb_spec (pt p) (smem s0) m0 m1) as (m2 & X2 & A2); auto.
          rewrite X2. cbn [bind]. apply (IH ltac:(intros; apply Hl; simpl; auto) s1); auto. intros l0. rewrite <- A2. auto. }
      apply (G (zrange 0 np)) with (s := s); auto. intros p Hp. apply in_zrange in Hp. lia. }
    destruct (interleavings_sequential sloc_eqb sloc_eqb_spec powner (map pt (zrange 0 np)) (smem s) mq) with (ts' := ts') (m' := m') as [G1 G2]; auto.
    - intros i th Hi. rewrite nth_error_map in Hi.
      destruct (nth_error (zrange 0 np) i) as [p|] eqn:Hp; [|discriminate]. injection Hi as <-.
      assert (p = Z.of_nat i /\ 0 <= p < np) as [Ep Bp].
      { assert (rd (zrange 0 np) (Z.of_nat i) = Ok p) as Rp by (apply rd_nth; rewrite Nat2Z.id; split; [lia|auto]).
        assert (0 <= p < np) as B. { apply in_zrange. eapply rd_In; eauto. }
        pose proof (rd_bounds _ _ _ Rp) as B'. rewrite zlen_zrange in B' by lia. rewrite rd_zrange in Rp by lia. injection Rp as <-. split; lia. }
      eapply only_weak; [|apply (Honly p Bp)]. intros l (r & Hr & Hl). unfold P. rewrite (powner_at p r l); auto. f_equal. lia.
    - split; auto. intros Fi l. rewrite G2; auto.
  Qed.
End Pool.

(** ** the threads do what the loops do *)
Section Sim.
  Context {E U : Type}.
  Variable add : U -> U -> U.
  Variable xw : list Z.
  Variable f : Z -> E -> Z -> R U.
  Notation st := (list Z * list (option U))%type.
  Notation thread := (thread sloc (@scell U)).
  Notation sim := (sim (T:=U)).

  Lemma sim_coo_entry mul row : sim (coo_entry_t add mul row) (coo_entry add mul row).
  Proof.
    unfold coo_entry_t, coo_entry.
    apply (sim_lift mul _ (fun x s => do g <- bv_get (fst s) row ;; (if g then do old <- rdi (snd s) row ;; do v <- wr (snd s) row (Some (add old x)) ;; do w <- bv_set (fst s) row ;; Ok (w, v)
       else do v <- wr (snd s) row (Some x) ;; do w <- bv_set (fst s) row ;; Ok (w, v)))). intros x _.
    apply (sim_bv_get row _ (fun g s => if g : bool then do old <- rdi (snd s) row ;; do v <- wr (snd s) row (Some (add old x)) ;; do w <- bv_set (fst s) row ;; Ok (w, v)
       else do v <- wr (snd s) row (Some x) ;; do w <- bv_set (fst s) row ;; Ok (w, v))). intros [|].
    - apply (sim_eq _ (fun s => do c <- rd (snd s) row ;; do old <- need c ;; do v <- wr (snd s) row (Some (add old x)) ;; do w <- bv_set (fst s) row ;; Ok (w, v))).
      { intros s. unfold rdi. destruct (rd (snd s) row) as [[a|]|]; reflexivity. }
      apply (sim_rdX row _ (fun c s => do old <- need c ;; do v <- wr (snd s) row (Some (add old x)) ;; do w <- bv_set (fst s) row ;; Ok (w, v))). intros c.
      apply (sim_lift (need c) _ (fun old s => do v <- wr (snd s) row (Some (add old x)) ;; do w <- bv_set (fst s) row ;; Ok (w, v))). intros old _.
      apply (sim_wrX _ row _ (fun s => do w <- bv_set (fst s) row ;; Ok (w, snd s))).
      apply (sim_bv_set Fin row (fun s => Ok s)). apply sim_fin.
    - apply (sim_wrX _ row _ (fun s => do w <- bv_set (fst s) row ;; Ok (w, snd s))).
      apply (sim_bv_set Fin row (fun s => Ok s)). apply sim_fin.
  Qed.
  Lemma only_bv_set row (t : thread) (P : sloc -> Prop) : (forall l, at_idx row l -> P l) -> only P t -> only P (t_bv_set row t).
  Proof.
    intros H Ht. unfold t_bv_set, rdW, wrW. simpl. rewrite shiftr5. split; [apply H; left; auto|]. intros [z|c]; simpl; auto.
    destruct (Z.land z _ =? 0); simpl; auto. split; auto. apply H; left; auto.
  Qed.
  Lemma only_coo_entry mul row : only (at_idx row) (coo_entry_t add mul row).
  Proof.
    unfold coo_entry_t. destruct mul as [x|e]; simpl; auto. rewrite shiftr5. split; [left; auto|]. intros [z|c]; simpl; auto.
    destruct (Z.testbit z _); simpl.
    - split; [right; auto|]. intros [|[a|] ]; simpl; auto. split; [right; auto|]. apply only_bv_set; simpl; auto.
    - split; [right; auto|]. apply only_bv_set; simpl; auto.
  Qed.
  Lemma sim_coo_part a ja ia ps p : sim (coo_part_t add xw f a ja ia ps p) (coo_part add xw f a ja ia ps p).
  Proof.
    unfold coo_part_t, coo_part.
    match goal with |- sim _ (fun wv => do lo <- rd ps p ;; do hi <- rd ps (p + 1) ;; forZ lo hi ?b wv) =>
      apply (sim_lift (rd ps p) _ (fun lo s => do hi <- rd ps (p + 1) ;; forZ lo hi b s)); intros lo _;
      apply (sim_lift (rd ps (p + 1)) _ (fun hi s => forZ lo hi b s)); intros hi _; apply (sim_for lo hi _ b) end.
    intros nz _.
    apply (sim_lift (rd ia nz) _ (fun r s => do c <- rd ja nz ;; do g <- bv_get xw (c - 1) ;; if g then do val <- rd a nz ;; coo_entry add (f (c - 1) val (r - 1)) (r - 1) s else Ok s)). intros r _.
    apply (sim_lift (rd ja nz) _ (fun c s => do g <- bv_get xw (c - 1) ;; if g then do val <- rd a nz ;; coo_entry add (f (c - 1) val (r - 1)) (r - 1) s else Ok s)). intros c _.
    apply (sim_lift (bv_get xw (c - 1)) _ (fun (g : bool) s => if g then do val <- rd a nz ;; coo_entry add (f (c - 1) val (r - 1)) (r - 1) s else Ok s)). intros [|] _; [|apply sim_fin].
    apply (sim_lift (rd a nz) _ (fun val s => coo_entry add (f (c - 1) val (r - 1)) (r - 1) s)). intros val _. apply sim_coo_entry.
  Qed.
  Lemma only_lift {A} (P : sloc -> Prop) (r : R A) (k : A -> thread) : (forall a, r = Ok a -> only P (k a)) -> only P (tlift r k).
  Proof. intros H. unfold tlift. destruct r; simpl; auto. Qed.
  Lemma only_coo_part a ja ia ps p (rows : list Z) :
    (forall lo hi nz r, rd ps p = Ok lo -> rd ps (p + 1) = Ok hi -> lo <= nz < hi -> rd ia nz = Ok r -> In (r - 1) rows) ->
    only (fun l => exists r, In r rows /\ at_idx r l) (coo_part_t add xw f a ja ia ps p).
  Proof.
    intros H. unfold coo_part_t. apply only_lift; intros lo Hlo. apply only_lift; intros hi Hhi. apply only_for. intros nz Hnz.
    apply only_lift; intros r Hr. apply only_lift; intros c _. apply only_lift; intros [|] _; [|simpl; auto]. apply only_lift; intros val _.
    eapply only_weak; [|apply only_coo_entry]. intros l Hl. exists (r - 1). split; auto. eapply H; eauto.
  Qed.

  (** *** rows *)
  Lemma sim_priv (body_t : Z -> option U -> (option U -> thread) -> thread) (body : Z -> list Z * option U -> R (list Z * option U)) (k : option U -> thread) (kf : option U -> st -> R st) :
    (forall i y k' kf', (forall y, sim (k' y) (kf' y)) -> sim (body_t i y k') (fun s => do s1 <- body i (fst s, y) ;; kf' (snd s1) (fst s1, snd s))) ->
    (forall y, sim (k y) (kf y)) ->
    forall n i y, sim (tprivN n i body_t y k) (fun s => do s1 <- forN n i body (fst s, y) ;; kf (snd s1) (fst s1, snd s)).
  Proof.
    intros Hb Hk. induction n as [|n IH]; intros i y; cbn [tprivN forN].
    - apply (sim_eq _ (kf y)); auto. intros [w v]. reflexivity.
    - eapply sim_eq; [|apply Hb; intros y'; apply (IH (i + 1) y')]. intros s. cbv beta. destruct (body i (fst s, y)) as [[w1 y1]|e]; reflexivity.
  Qed.
  Lemma sim_row_entry early row col val y (k : option U -> thread) kf : (forall y, sim (k y) (kf y)) ->
    sim (row_entry_t add xw f early row col val y k) (fun s => do s1 <- row_entry add xw f early row col val (fst s, y) ;; kf (snd s1) (fst s1, snd s)).
  Proof.
    intros Hk. unfold row_entry_t, row_entry.
    apply (sim_eq _ (fun s => do g <- bv_get xw col ;; if g : bool then do x <- f col val row ;;
       match y with Some y => kf (Some (add y x)) s | None => if early then do w <- bv_set (fst s) row ;; kf (Some x) (w, snd s) else kf (Some x) s end else kf y s)).
    { intros [w v]. cbn [fst snd]. destruct (bv_get xw col) as [[|]|]; cbn [bind]; auto. destruct (f col val row) as [x|]; cbn [bind]; auto.
      destruct y as [y|]; cbn [bind]; auto. destruct early; cbn [bind]; auto. destruct (bv_set w row); reflexivity. }
    apply (sim_lift (bv_get xw col) _ (fun g s => if g : bool then do x <- f col val row ;;
       match y with Some y => kf (Some (add y x)) s | None => if early then do w <- bv_set (fst s) row ;; kf (Some x) (w, snd s) else kf (Some x) s end else kf y s)). intros [|] _; [|auto].
    apply (sim_lift (f col val row) _ (fun x s => match y with Some y => kf (Some (add y x)) s | None => if early then do w <- bv_set (fst s) row ;; kf (Some x) (w, snd s) else kf (Some x) s end)). intros x _.
    destruct y as [y|]; [apply Hk|]. destruct early; [apply (sim_bv_set _ row (kf (Some x))); apply Hk|apply Hk].
  Qed.
  Lemma sim_row_mult early row lo hi entry : sim (row_mult_t add xw f early row lo hi entry) (row_mult add xw f early row lo hi entry).
  Proof.
    unfold row_mult_t, row_mult.
    set (body := fun nz s => do ce <- entry nz ;; row_entry add xw f early row (fst ce) (snd ce) s).
    set (kf := fun (y : option U) (s : st) => match y with Some y => do w <- (if early then Ok (fst s) else bv_set (fst s) row) ;; do v <- wr (snd s) row (Some y) ;; Ok (w, v) | None => Ok s end).
    assert (forall y, sim (tpriv lo hi (fun nz y k => tlift (entry nz) (fun ce => row_entry_t add xw f early row (fst ce) (snd ce) y k)) y
        (fun y => match y with Some y => if early then wrX row (Some y) Fin else t_bv_set row (wrX row (Some y) Fin) | None => Fin end))
        (fun s => do s1 <- forZ lo hi body (fst s, y) ;; kf (snd s1) (fst s1, snd s))) as G.
    { intros y. unfold tpriv, forZ. apply sim_priv.
      - intros i y0 k' kf' Hk'. apply (sim_eq _ (fun s => do ce <- entry i ;; do s1 <- row_entry add xw f early row (fst ce) (snd ce) (fst s, y0) ;; kf' (snd s1) (fst s1, snd s))).
        { intros s. unfold body. destruct (entry i); reflexivity. }
        apply (sim_lift (entry i) _ (fun ce s => do s1 <- row_entry add xw f early row (fst ce) (snd ce) (fst s, y0) ;; kf' (snd s1) (fst s1, snd s))). intros ce _. apply sim_row_entry; auto.
      - intros [y0|]; [|apply sim_fin]. unfold kf. destruct early.
        + apply (sim_wrX Fin row _ (fun s => Ok s)). apply sim_fin.
        + apply (sim_bv_set _ row (fun s => do v <- wr (snd s) row (Some y0) ;; Ok (fst s, v))). apply (sim_wrX Fin row _ (fun s => Ok s)). apply sim_fin. }
    apply (sim_eq _ (fun s => do g <- bv_get (fst s) row ;; if g : bool then do c <- rd (snd s) row ;; do y <- need c ;; do s1 <- forZ lo hi body (fst s, Some y) ;; kf (snd s1) (fst s1, snd s)
       else do s1 <- forZ lo hi body (fst s, None) ;; kf (snd s1) (fst s1, snd s))).
    { intros [w v]. cbn [fst snd]. destruct (bv_get w row) as [[|]|]; cbn [bind]; auto.
      unfold rdi. destruct (rd v row) as [[y|]|]; reflexivity. }
    apply (sim_bv_get row _ (fun g s => if g : bool then do c <- rd (snd s) row ;; do y <- need c ;; do s1 <- forZ lo hi body (fst s, Some y) ;; kf (snd s1) (fst s1, snd s)
       else do s1 <- forZ lo hi body (fst s, None) ;; kf (snd s1) (fst s1, snd s))). intros [|]; [|apply G].
    apply (sim_rdX row _ (fun c s => do y <- need c ;; do s1 <- forZ lo hi body (fst s, Some y) ;; kf (snd s1) (fst s1, snd s))). intros c.
    apply (sim_lift (need c) _ (fun y s => do s1 <- forZ lo hi body (fst s, Some y) ;; kf (snd s1) (fst s1, snd s))). intros y _. apply G.
  Qed.
  Lemma only_row_mult early row lo hi entry : only (at_idx row) (row_mult_t add xw f early row lo hi entry).
  Proof.
    unfold row_mult_t. cbv zeta.
    match goal with |- only _ (t_bv_get _ (fun g => if g then rdX _ (fun c => tlift _ (fun y => tpriv lo hi ?B _ ?K)) else _)) =>
      assert (forall y, only (at_idx row) (tpriv lo hi B y K)) as G end.
    { intros y. unfold tpriv. generalize (Z.to_nat (hi - lo)) as n. intros n. generalize lo as i. revert y. induction n as [|n IH]; intros y i; cbn [tprivN].
      - destruct y as [y|]; simpl; auto. destruct early; [simpl; split; [right; auto|auto]|]. apply only_bv_set; auto. simpl. split; [right; auto|auto].
      - apply only_lift. intros ce _. unfold row_entry_t. apply only_lift. intros [|] _; [|apply IH]. apply only_lift. intros x _.
        destruct y as [y|]; [apply IH|]. destruct early; [apply only_bv_set; auto; apply IH|apply IH]. }
    unfold t_bv_get, rdW, rdX. simpl. rewrite shiftr5. split; [left; auto|]. intros [z|c]; simpl; auto.
    destruct (Z.testbit z _); [|apply G]. simpl. split; [right; auto|]. intros [z'|c]; simpl; auto. apply only_lift. intros; apply G.
  Qed.
  Lemma sim_csr_mpart t rpp p : sim (csr_mpart_t add xw f t rpp p) (csr_mpart add xw f t rpp p).
  Proof.
    unfold csr_mpart_t, csr_mpart. match goal with |- sim _ (fun wv => forZ ?lo ?hi ?b wv) => apply (sim_for lo hi _ b) end. intros row _.
    apply (sim_lift (rd (s_ia t) row) _ (fun lo s => do hi <- rd (s_ia t) (row + 1) ;; row_mult add xw f true row lo hi (csr_at t) s)). intros lo _.
    apply (sim_lift (rd (s_ia t) (row + 1)) _ (fun hi s => row_mult add xw f true row lo hi (csr_at t) s)). intros hi _. apply sim_row_mult.
  Qed.
  Lemma only_csr_mpart t rpp p : only (fun l => exists r, In r (zrange (p * rpp) (Z.min ((p + 1) * rpp) (s_m t))) /\ at_idx r l) (csr_mpart_t add xw f t rpp p).
  Proof.
    unfold csr_mpart_t. apply only_for. intros row Hr. apply only_lift; intros lo _. apply only_lift; intros hi _.
    eapply only_weak; [|apply only_row_mult]. intros l Hl. exists row. split; auto. apply in_zrange. lia.
  Qed.
  Lemma sim_dcsr_mpart t p : sim (dcsr_mpart_t add xw f t p) (dcsr_mpart add xw f t p).
  Proof.
    unfold dcsr_mpart_t, dcsr_mpart.
    match goal with |- sim _ (fun wv => do a <- ?A ;; do b <- ?B ;; forZ a b ?body wv) =>
      apply (sim_lift A _ (fun a s => do b <- B ;; forZ a b body s)); intros a _; apply (sim_lift B _ (fun b s => forZ a b body s)); intros b _; apply (sim_for a b _ body) end.
    intros k _.
    apply (sim_lift (rd (d_rows t) k) _ (fun row s => do lo <- rd (d_ia t) k ;; do hi <- rd (d_ia t) (k + 1) ;; row_mult add xw f false row lo hi (dcsr_at t) s)). intros row _.
    apply (sim_lift (rd (d_ia t) k) _ (fun lo s => do hi <- rd (d_ia t) (k + 1) ;; row_mult add xw f false row lo hi (dcsr_at t) s)). intros lo _.
    apply (sim_lift (rd (d_ia t) (k + 1)) _ (fun hi s => row_mult add xw f false row lo hi (dcsr_at t) s)). intros hi _. apply sim_row_mult.
  Qed.
  Lemma only_dcsr_mpart t p (rows : list Z) :
    (forall a b k r, rd (d_pp t) p = Ok a -> rd (d_pp t) (p + 1) = Ok b -> a <= k < b -> rd (d_rows t) k = Ok r -> In r rows) ->
    only (fun l => exists r, In r rows /\ at_idx r l) (dcsr_mpart_t add xw f t p).
  Proof.
    intros H. unfold dcsr_mpart_t. apply only_lift; intros a Ha. apply only_lift; intros b Hb. apply only_for. intros k Hk.
    apply only_lift; intros r Hr. apply only_lift; intros lo _. apply only_lift; intros hi _. eapply only_weak; [|apply only_row_mult]. intros l Hl. exists r. split; eauto.
  Qed.
End Sim.

(** ** what the loops compute *)
Lemma forZ_cat {St} (body : Z -> St -> R St) a b c s : a <= b <= c -> forZ a c body s = (do s1 <- forZ a b body s ;; forZ b c body s1).
Proof. intros H. rewrite !forZ_foldR, (zrange_app a b c) by lia. rewrite foldR_app. destruct (foldR _ (zrange a b) s) as [s1|]; cbn [bind]; auto. rewrite forZ_foldR. auto. Qed.
Lemma forZ_good {St} (Good : St -> Prop) (body : Z -> St -> R St) lo hi : (forall i s s', lo <= i < hi -> Good s -> body i s = Ok s' -> Good s') ->
  forall s s', Good s -> forZ lo hi body s = Ok s' -> Good s'.
Proof.
  intros H. assert (forall k lo', Z.to_nat (hi - lo') = k -> lo <= lo' -> forall s s', Good s -> forZ lo' hi body s = Ok s' -> Good s') as G.
  { induction k as [|k IH]; intros lo' Hk Hl s s' Gs Es; [rewrite forZ_empty in Es by lia; congruence|].
    rewrite forZ_step in Es by lia. apply bind_Ok in Es as (s1 & E1 & E2). apply (IH (lo' + 1)) with (s := s1); auto; try lia. eapply H; eauto. lia. }
  intros s s'. apply (G _ lo eq_refl). lia.
Qed.
Lemma forZ_chain {St} (Good : St -> Prop) (b : Z -> Z) (pf body : Z -> St -> R St) lo hi : lo <= hi ->
  (forall k, lo <= k < hi -> b k <= b (k + 1)) ->
  (forall k s, lo <= k < hi -> Good s -> pf k s = forZ (b k) (b (k + 1)) body s) ->
  (forall i s s', b lo <= i < b hi -> Good s -> body i s = Ok s' -> Good s') ->
  forall s, Good s -> forZ lo hi pf s = forZ (b lo) (b hi) body s.
Proof.
  intros Hle Hb Hpf Hg.
  assert (forall k lo', Z.to_nat (hi - lo') = k -> lo <= lo' <= hi -> b lo <= b lo' -> b lo' <= b hi /\ forall s, Good s -> forZ lo' hi pf s = forZ (b lo') (b hi) body s) as G.
  { induction k as [|k IH]; intros lo' Hk Hl Hbl.
    - replace lo' with hi by lia. split; [lia|]. intros. rewrite !forZ_empty by lia. auto.
    - pose proof (Hb lo' ltac:(lia)). destruct (IH (lo' + 1)) as [I1 I2]; try lia. split; [lia|]. intros s Gs. rewrite forZ_step by lia. rewrite Hpf by (auto; lia). rewrite (forZ_cat body (b lo') (b (lo' + 1)) (b hi)) by lia.
      destruct (forZ (b lo') (b (lo' + 1)) body s) as [s1|] eqn:E1; cbn [bind]; auto. apply I2.
      eapply forZ_good; [|exact Gs|exact E1]. intros i x y Hi. apply Hg. lia. }
  intros s Gs. apply (G _ lo eq_refl); auto; lia.
Qed.

Section Vals.
  Context {E U : Type}.
  Variable add : U -> U -> U.
  Variable m n : Z.
  Variable xw : list Z.
  Hypothesis Xw : n <= 32 * zlen xw.
  Variable f : Z -> E -> Z -> R U.
  Variable G : edge E -> option U.
  (** the entries in the order of the tile, numbered from zero *)
  Variable es0 : list (edge E).
  Hypothesis Hr : forall e, In e es0 -> 0 <= e_src e < m /\ 0 <= e_dst e < n.
  Hypothesis HG : forall e, In e es0 -> if tb xw (e_dst e) then exists u, f (e_dst e) (e_val e) (e_src e) = Ok u /\ G e = Some u else G e = None.
  Notation st := (list Z * list (option U))%type.

  Definition Good (s : st) : Prop := exists M, wwf m (fst s) /\ zlen (snd s) = m /\ dmap (fst s) (snd s) M.
  Definition ientry (i : Z) (s : st) : R st :=
    do e <- rd es0 i ;; if tb xw (e_dst e) then estep add f s e else Ok s.

  Lemma Hf e : In e es0 -> tb xw (e_dst e) = true -> exists u, f (e_dst e) (e_val e) (e_src e) = Ok u.
  Proof. intros He T. specialize (HG e He). rewrite T in HG. destruct HG as (u & Hu & _). eauto. Qed.
  Lemma ientry_good i s s' : Good s -> ientry i s = Ok s' -> Good s'.
  Proof.
    intros (M & W & L & D) H. unfold ientry in H. apply bind_Ok in H as (e & He & H). apply rd_In in He. destruct (tb xw (e_dst e)) eqn:T; [|injection H as <-; exists M; auto].
    unfold estep in H. destruct (Hf e He T) as (u & Hu). rewrite Hu in H. destruct s as [w v].
    destruct (entry_spec add m f (fun _ _ _ => u) w v M (e_src e) u W L D) as (w' & v' & E1 & W' & L' & D'); [apply Hr; auto|].
    rewrite E1 in H. injection H as <-. eexists. eauto.
  Qed.
  Lemma ientry_all s : forZ 0 (zlen es0) ientry s = foldR (estep add f) (selected xw es0) s.
  Proof.
    unfold selected. rewrite <- foldR_filter. apply forZ_list; [lia|]. intros i e s1 He. cbn [Z.add]. unfold ientry. rewrite He. reflexivity.
  Qed.

  Lemma bv_set_same w row : tb w row = true -> bv_set w row = Ok w.
  Proof.
    intros T. assert (0 <= row < 32 * zlen w) as B. { destruct (Z_le_dec 0 row), (Z_lt_dec row (32 * zlen w)); try lia; rewrite tb_out in T by lia; discriminate. }
    destruct (tb_rd w row B) as (z & Hz & Ez). unfold bv_set. rewrite shiftr5, land31, Hz. cbn [bind]. rewrite land_pow2_testbit by (apply Z.mod_pos_bound; lia).
    rewrite <- Ez, T. reflexivity.
  Qed.
  Lemma coo_entry_kernel mul row (wv : st) : coo_entry add mul row wv = kernel_entry add mul row wv.
  Proof.
    unfold coo_entry, kernel_entry. destruct mul as [x|]; cbn [bind]; auto. destruct (bv_get (fst wv) row) as [g|] eqn:Eg; cbn [bind]; auto.
    destruct g; auto. apply bv_get_Ok in Eg as [_ Eg]. destruct (rdi (snd wv) row); cbn [bind]; auto. destruct (wr (snd wv) row _); cbn [bind]; auto. rewrite bv_set_same; auto.
  Qed.

  (** coordinate tiles *)
  Lemma coo_part_entries ps p lo hi s : rd ps p = Ok lo -> rd ps (p + 1) = Ok hi -> 0 <= lo -> hi <= zlen es0 ->
    coo_part add xw f (map e_val es0) (map (fun e => e_dst e + 1) es0) (map (fun e => e_src e + 1) es0) ps p s = forZ lo hi ientry s.
  Proof.
    intros Hlo Hhi L1 L2. unfold coo_part. rewrite Hlo, Hhi. cbn [bind]. rewrite !forZ_foldR. apply foldR_ext. intros i s1 Hi. apply in_zrange in Hi.
    destruct (rd_ok es0 i) as [e He]; [lia|]. unfold ientry. rewrite !rd_map_list, He. cbn [bind].
    replace (e_dst e + 1 - 1) with (e_dst e) by lia. replace (e_src e + 1 - 1) with (e_src e) by lia.
    rewrite bv_get_ok by (pose proof (Hr e (rd_In _ _ _ He)); lia). cbn [bind]. destruct (tb xw (e_dst e)); auto. rewrite coo_entry_kernel. reflexivity.
  Qed.

  (** rows *)
  Section Row.
    Variables (early : bool) (row : Z) (w : list Z) (v : list (option U)) (w1 : list Z).
    Hypothesis Hrow : 0 <= row < m.
    Hypothesis Wf : wwf m w.
    Hypothesis Lv : zlen v = m.
    Hypothesis Hw1 : bv_set w row = Ok w1.
    (** the private state of the row loop and the shared state of the entry loop *)
    Definition Inv (a : list Z * option U) (s : st) : Prop :=
      match snd a with
      | None => fst a = w /\ s = (w, v) /\ tb w row = false
      | Some y => s = (w1, upd v (Z.to_nat row) (Some y)) /\ fst a = (if early then w1 else w)
      end.
    Lemma w1_tb : tb w1 row = true /\ zlen w1 = zlen w.
    Proof.
      pose proof (num_ints_bounds m ltac:(lia)). destruct Wf as [W1 W2]. destruct (bv_set_ok w row) as (w' & E1 & L & T & _); [lia|].
      rewrite E1 in Hw1. injection Hw1 as <-. split; auto. rewrite T, Z.eqb_refl. auto.
    Qed.
    Lemma row_entry_inv e a s : In e es0 -> e_src e = row -> Inv a s ->
      exists a' s', row_entry add xw f early row (e_dst e) (e_val e) a = Ok a' /\ (if tb xw (e_dst e) then estep add f s e else Ok s) = Ok s' /\ Inv a' s'.
    Proof.
      intros He Es HI. pose proof (Hr e He) as [B1 B2]. unfold row_entry. rewrite bv_get_ok by lia. cbn [bind].
      destruct (tb xw (e_dst e)) eqn:T; [|exists a, s; auto]. unfold estep. destruct (Hf e He T) as (u & Ef). rewrite Es in *. rewrite Ef. cbn [bind].
      destruct w1_tb as [T1 Z1]. pose proof (num_ints_bounds m ltac:(lia)) as Nb. pose proof Wf as [W1 W2].
      unfold Inv in HI. destruct a as [wa [y|]]; cbn [fst snd] in *.
      - destruct HI as [-> ->]. unfold kernel_entry. cbn [bind fst snd]. rewrite bv_get_ok by lia. rewrite T1. cbn [bind]. unfold rdi. rewrite rd_upd_same by lia. cbn [bind need].
        rewrite wr_ok by (rewrite zlen_upd; lia). rewrite upd_upd. cbn [bind]. eexists. eexists. split; [reflexivity|]. split; [reflexivity|]. split; auto.
      - destruct HI as (-> & -> & T0). unfold kernel_entry. cbn [bind fst snd]. rewrite bv_get_ok by lia. rewrite T0. cbn [bind]. rewrite wr_ok by lia. cbn [bind]. rewrite Hw1. cbn [bind].
        unfold Inv. destruct early; cbn [bind]; eexists; eexists; (split; [reflexivity|]); (split; [reflexivity|]); split; auto.
    Qed.
    Lemma row_loop_inv (entry : Z -> R (Z * E)) off lo hi :
      (forall i, lo <= i < hi -> exists e, rd es0 i = Ok e /\ e_src e = row /\ entry (i + off) = Ok (e_dst e, e_val e)) ->
      forall a s, Inv a s -> exists a' s', forZ (lo + off) (hi + off) (fun nz s => do ce <- entry nz ;; row_entry add xw f early row (fst ce) (snd ce) s) a = Ok a' /\
        forZ lo hi ientry s = Ok s' /\ Inv a' s'.
    Proof.
      intros H. assert (forall k lo', Z.to_nat (hi - lo') = k -> lo <= lo' -> forall a s, Inv a s -> exists a' s', forZ (lo' + off) (hi + off) (fun nz s => do ce <- entry nz ;; row_entry add xw f early row (fst ce) (snd ce) s) a = Ok a' /\
        forZ lo' hi ientry s = Ok s' /\ Inv a' s') as GG.
      { induction k as [|k IH]; intros lo' Hk Hl a s HI; [rewrite !forZ_empty by lia; eauto|]. rewrite !forZ_step by lia.
        destruct (H lo' ltac:(lia)) as (e & He & Es & En). rewrite En. cbn [bind fst snd]. unfold ientry at 1. rewrite He. cbn [bind].
        destruct (row_entry_inv e a s (rd_In _ _ _ He) Es HI) as (a1 & s1 & -> & -> & I1). cbn [bind].
        replace (lo' + off + 1) with (lo' + 1 + off) by lia. apply IH; auto; lia. }
      intros a s. apply (GG _ lo eq_refl). lia.
    Qed.
  End Row.
  Lemma row_mult_entries early row entry off lo hi s : 0 <= row < m -> Good s ->
    (forall i, lo <= i < hi -> exists e, rd es0 i = Ok e /\ e_src e = row /\ entry (i + off) = Ok (e_dst e, e_val e)) ->
    row_mult add xw f early row (lo + off) (hi + off) entry s = forZ lo hi ientry s.
  Proof.
    intros Hrow (M & Wf & Lv & D) H. destruct s as [w v]. cbn [fst snd] in *. pose proof (num_ints_bounds m ltac:(lia)) as Nb. pose proof Wf as [W1 W2].
    destruct (bv_set_ok w row) as (w1 & Hw1 & L1 & T1 & _); [lia|]. pose proof (dmap_cell m w v M row Wf Lv D) as Dr.
    unfold row_mult. cbn [fst snd]. rewrite bv_get_ok by lia. cbn [bind].
    assert (exists y0, (if tb w row then do y <- rdi v row ;; Ok (Some y) else Ok None) = Ok y0 /\ Inv early row w v w1 (w, y0) (w, v)) as (y0 & -> & I0).
    { destruct (M row) as [y|].
      - destruct Dr as [T Hy]. rewrite T. unfold rdi. rewrite Hy. cbn [bind need]. eexists. split; [reflexivity|]. unfold Inv. cbn [fst snd].
        assert (w1 = w) as -> by (rewrite bv_set_same in Hw1 by auto; congruence). rewrite upd_same_id by (apply rd_nth in Hy; apply Hy). destruct early; auto.
      - rewrite Dr. eexists. split; [reflexivity|]. unfold Inv. cbn. auto. }
    cbn [bind]. destruct (row_loop_inv early row w v w1 Hrow Wf Lv Hw1 entry off lo hi H _ _ I0) as ([wa ya] & s' & -> & -> & I1). cbn [bind fst snd].
    unfold Inv in I1. cbn [fst snd] in I1. destruct ya as [y|].
    - destruct I1 as [-> ->]. destruct early; cbn [bind]; [rewrite wr_ok by lia; reflexivity|]. rewrite Hw1. cbn [bind]. rewrite wr_ok by lia. reflexivity.
    - destruct I1 as (-> & -> & _). reflexivity.
  Qed.

  (** the state after all entries *)
  Lemma all_entries w v M : wwf m w -> zlen v = m -> dmap w v M ->
    exists w' v', forZ 0 (zlen es0) ientry (w, v) = Ok (w', v') /\ wwf m w' /\ zlen v' = m /\
      dmap w' v' (fun k => red add (olist (M k) ++ row_products G es0 k)).
  Proof.
    intros W L D. rewrite ientry_all. destruct (selected xw es0) as [|e0 l] eqn:Es.
    - exists w, v. split; [reflexivity|]. split; auto. split; auto. intros k. rewrite D. f_equal.
      assert (row_products G es0 k = []) as ->; [|rewrite app_nil_r, red_olist; auto].
      assert (forall e, In e es0 -> G e = None) as Hn.
      { intros e He. pose proof (HG e He) as Ge. destruct (tb xw (e_dst e)) eqn:Te; auto. assert (In e (selected xw es0)) as Hs by (apply filter_In; auto).
        rewrite Es in Hs. destruct Hs. }
      clear - Hn. induction es0 as [|e l IH]; [reflexivity|]. rewrite row_products_cons, IH by (intros; apply Hn; simpl; auto).
      rewrite Hn by (simpl; auto). destruct (e_src e =? k); reflexivity.
    - assert (In e0 (selected xw es0)) as I0 by (rewrite Es; simpl; auto). apply filter_In in I0 as [I0 T0].
      destruct (Hf e0 I0 T0) as (u0 & _).
      set (F := fun d a r => match f d a r with Ok u => u | Err _ => u0 end).
      rewrite <- Es. destruct (fold_spec add m f F (selected xw es0) w v M W L D) as (w' & v' & Ef & W' & L' & D').
      { intros e He. apply filter_In in He as [He Te]. split; [apply Hr; auto|]. destruct (Hf e He Te) as (u & Eu). unfold F. rewrite Eu. auto. }
      exists w', v'. split; auto. split; auto. split; auto. intros k. rewrite D'. do 3 f_equal. apply row_products_contribs. intros e He. pose proof (HG e He) as Ge.
      destruct (tb xw (e_dst e)); auto. destruct Ge as (u & Eu & ->). unfold F. rewrite Eu. auto.
  Qed.

  Lemma good_chain b (pf : Z -> st -> R st) lo hi s : lo <= hi -> (forall k, lo <= k < hi -> b k <= b (k + 1)) ->
    (forall k s, lo <= k < hi -> Good s -> pf k s = forZ (b k) (b (k + 1)) ientry s) -> Good s -> forZ lo hi pf s = forZ (b lo) (b hi) ientry s.
  Proof. intros H1 H2 H3 Gs. apply (forZ_chain Good); auto. intros i s1 s2 _. apply ientry_good. Qed.

  (** *** coordinate loops *)
  Definition getz (l : list Z) (i : Z) : Z := match rd l i with Ok x => x | Err _ => 0 end.
  Lemma getz_rd l i x : rd l i = Ok x -> getz l i = x. Proof. unfold getz. intros ->. auto. Qed.
  Lemma coo_loop_all np ps : 0 <= np -> zlen ps = np + 1 -> rd ps 0 = Ok 0 -> rd ps np = Ok (zlen es0) ->
    (forall p a b, rd ps p = Ok a -> rd ps (p + 1) = Ok b -> a <= b) ->
    (forall p q a b c d i j e e', 0 <= p < q -> rd ps p = Ok a -> rd ps (p + 1) = Ok b -> rd ps q = Ok c -> rd ps (q + 1) = Ok d ->
       a <= i < b -> c <= j < d -> rd es0 i = Ok e -> rd es0 j = Ok e' -> e_src e / 32 <> e_src e' / 32) ->
    let a := map e_val es0 in let ja := map (fun e => e_dst e + 1) es0 in let ia := map (fun e => e_src e + 1) es0 in
    (forall s, Good s -> coo_loop add xw f np a ja ia ps s = forZ 0 (zlen es0) ientry s) /\
    forall s s', coo_loop add xw f np a ja ia ps s = Ok s' ->
      forall ts' m', psteps sloc_eqb (coo_pool add xw f np a ja ia ps, smem s) (ts', m') -> ~ bad (ts', m') /\ (finished ts' -> forall l, m' l = smem s' l).
  Proof.
    intros Hnp Lps P0 Pn Pm Pd a ja ia.
    assert (forall i j x y, 0 <= i <= j -> rd ps i = Ok x -> rd ps j = Ok y -> x <= y) as Mono.
    { intros i j x y Hij Hx. assert (forall k, 0 <= k -> forall y, rd ps (i + k) = Ok y -> x <= y) as Q.
      { intros k Hk. pattern k. apply natlike_ind; auto; [intros z; rewrite Z.add_0_r, Hx; intros Q; injection Q; lia|].
        intros k0 Hk0 IH z Hz. unfold Z.succ in Hz. pose proof (rd_bounds _ _ _ Hz). pose proof (rd_bounds _ _ _ Hx). destruct (rd_ok ps (i + k0)) as [z0 Hz0]; [lia|].
        specialize (IH z0 Hz0). pose proof (Pm (i + k0) z0 z Hz0). rewrite <- Z.add_assoc in H1. specialize (H1 Hz). lia. }
      intros Hy. apply (Q (j - i)); [lia|]. replace (i + (j - i)) with j by lia. auto. }
    assert (forall p, 0 <= p < np -> exists lo hi, rd ps p = Ok lo /\ rd ps (p + 1) = Ok hi /\ 0 <= lo <= hi /\ hi <= zlen es0) as Rng.
    { intros p Hp. destruct (rd_ok ps p) as [lo Hlo]; [lia|]. destruct (rd_ok ps (p + 1)) as [hi Hhi]; [lia|]. exists lo, hi. split; auto. split; auto.
      pose proof (Mono 0 p 0 lo ltac:(lia) P0 Hlo). pose proof (Pm p lo hi Hlo Hhi). pose proof (Mono (p + 1) np hi _ ltac:(lia) Hhi Pn). lia. }
    split.
    - intros s Gs. unfold coo_loop. rewrite <- (getz_rd ps np (zlen es0) Pn). rewrite <- (getz_rd ps 0 0 P0) at 2. apply good_chain; auto.
      + intros k Hk. destruct (Rng k Hk) as (lo & hi & Hlo & Hhi & B). rewrite (getz_rd _ _ _ Hlo), (getz_rd _ _ _ Hhi). lia.
      + intros k s1 Hk _. destruct (Rng k Hk) as (lo & hi & Hlo & Hhi & B). rewrite (getz_rd _ _ _ Hlo), (getz_rd _ _ _ Hhi). apply coo_part_entries; auto; lia.
    - intros s s' Es. unfold coo_pool.
      apply (pool_interleavings np (coo_part add xw f a ja ia ps) (coo_part_t add xw f a ja ia ps)
        (fun p => map (fun i => match rd es0 i with Ok e => e_src e | Err _ => 0 end) (zrange (getz ps p) (getz ps (p + 1))))); auto.
      + intros p Hp. apply sim_coo_part.
      + intros p Hp. apply only_coo_part. intros lo hi nz r Hlo Hhi Hnz Hr'. apply in_map_iff. exists nz. rewrite (getz_rd _ _ _ Hlo), (getz_rd _ _ _ Hhi). split; [|apply in_zrange; lia].
        unfold ia in Hr'. rewrite rd_map_list in Hr'. destruct (rd es0 nz); [injection Hr' as <-; lia|discriminate].
      + intros p q r r' Hpq Hq H1 H2. apply in_map_iff in H1 as (i & <- & Hi). apply in_map_iff in H2 as (j & <- & Hj). apply in_zrange in Hi, Hj.
        destruct (Rng p ltac:(lia)) as (lo & hi & Hlo & Hhi & B). destruct (Rng q ltac:(lia)) as (lo' & hi' & Hlo' & Hhi' & B').
        rewrite (getz_rd _ _ _ Hlo), (getz_rd _ _ _ Hhi) in Hi. rewrite (getz_rd _ _ _ Hlo'), (getz_rd _ _ _ Hhi') in Hj.
        destruct (rd_ok es0 i) as [e He]; [lia|]. destruct (rd_ok es0 j) as [e' He']; [lia|]. rewrite He, He'. eapply (Pd p q); eauto.
  Qed.
End Vals.
